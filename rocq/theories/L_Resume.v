(** Resuming: instances of the run-loop invariant for a database that already has rows. *)
From Verif Require Import Base M_Text S_Text L_Text M_Rewriter M_Span S_Span L_Span M_Instr S_Instr L_Instr M_Run S_Run L_Run L_RunFinal.
From Coq Require Import Permutation Sorted.

Lemma span_lt_trans a b c : span_lt a b -> span_lt b c -> span_lt a c.
Proof. apply span_compare_trans. Qed.
Lemma span_lt_irrefl a : ~ span_lt a a.
Proof. unfold span_lt. rewrite (proj2 (span_compare_eq a a) eq_refl). discriminate. Qed.
Lemma span_gt_lt a b : span_compare a b = Gt -> span_lt b a.
Proof. intros H. unfold span_lt. rewrite span_compare_antisym, H. reflexivity. Qed.
Lemma span_lt_neq a b : span_lt a b -> a <> b.
Proof. intros H ->. exact (span_lt_irrefl _ H). Qed.

Lemma ascending_sorted l : ascending l -> StronglySorted span_lt l.
Proof.
  intros A. apply Sorted_StronglySorted; [exact span_lt_trans|].
  induction l as [|a l IH]; constructor.
  - destruct l; [constructor|]. apply IH, A.
  - destruct l; constructor. apply A.
Qed.
Lemma sorted_ascending l : StronglySorted span_lt l -> ascending l.
Proof.
  induction l as [|a [|b l] IH]; intros S; cbn; auto.
  apply StronglySorted_inv in S as [S F]. split; [now inversion F|]. now apply IH.
Qed.
Lemma sorted_nodup l : StronglySorted span_lt l -> NoDup l.
Proof.
  induction 1 as [|a l S IH F]; constructor; [|exact IH]. intros H.
  rewrite Forall_forall in F. exact (span_lt_irrefl _ (F _ H)).
Qed.

Lemma sort_insert_sorted r l : StronglySorted span_lt (map rm_span l) -> ~ In (rm_span r) (map rm_span l) ->
  StronglySorted span_lt (map rm_span (sort_insert r l)).
Proof.
  induction l as [|x l IH]; intros S N; cbn in *; [repeat constructor|].
  apply StronglySorted_inv in S as [S F]. rewrite Forall_forall in F.
  destruct (span_compare (rm_span r) (rm_span x)) eqn:C.
  - apply span_compare_eq in C. destruct N. left. now symmetry.
  - cbn. constructor; [constructor; [exact S|now rewrite Forall_forall]|].
    rewrite Forall_forall. intros y [<-|Hy]; [exact C|]. eapply span_lt_trans; [exact C|now apply F].
  - cbn. constructor; [apply IH; [exact S|intuition]|]. rewrite Forall_forall. intros y Hy.
    apply in_map_iff in Hy as (z & <- & Hz). apply (Permutation_in _ (sort_insert_perm r l)) in Hz as [<-|Hz].
    + now apply span_gt_lt.
    + apply F. now apply in_map.
Qed.
Lemma sort_sorted l : NoDup (map rm_span l) -> StronglySorted span_lt (map rm_span (sort_removals l)).
Proof.
  induction l as [|r l IH]; intros N; cbn; [constructor|]. cbn in N. inversion N; subst.
  apply sort_insert_sorted; [now apply IH|]. intros H. apply H1.
  apply in_map_iff in H as (z & E & Hz). rewrite in_sort in Hz. rewrite <- E. now apply in_map.
Qed.
Lemma sorted_unique l1 : forall l2, StronglySorted span_lt l1 -> StronglySorted span_lt l2 ->
  (forall x, In x l1 <-> In x l2) -> l1 = l2.
Proof.
  induction l1 as [|a l1 IH]; intros l2 S1 S2 E.
  - destruct l2 as [|b l2]; [reflexivity|]. destruct (proj2 (E b) (or_introl eq_refl)).
  - destruct l2 as [|b l2]; [destruct (proj1 (E a) (or_introl eq_refl))|].
    apply StronglySorted_inv in S1 as [S1 F1], S2 as [S2 F2]. rewrite Forall_forall in F1, F2.
    assert (AB : a = b).
    { destruct (proj1 (E a) (or_introl eq_refl)) as [H|H]; [now symmetry|].
      destruct (proj2 (E b) (or_introl eq_refl)) as [H'|H']; [exact H'|].
      exfalso. exact (span_lt_irrefl _ (span_lt_trans _ _ _ (F1 _ H') (F2 _ H))). }
    subst b. f_equal. apply IH; auto. intros x. specialize (E x). cbn in E. split; intros H.
    + destruct (proj1 E (or_intror H)) as [->|H']; [|exact H']. destruct (span_lt_irrefl _ (F1 _ H)).
    + destruct (proj2 E (or_intror H)) as [->|H']; [|exact H']. destruct (span_lt_irrefl _ (F2 _ H)).
Qed.

(** ** C10: skipping is a merge *)
Definition stuck (spans : list cand) (past : list removal) : Prop := spans <> [] /\ past <> [].

Definition says_mismatch (spans : list cand) (b : list removal) (spans' : list cand) (past' : list removal)
  (mm : option mismatch) : Prop :=
  match mm with
  | Some (Unexpected r) => exists c cs rs, spans' = c :: cs /\ past' = r :: rs
  | Some (Missing r) => (spans' = [] \/ past' = []) /\
      exists b1 b2, b = b1 ++ r :: b2 /\ ~ In (rm_span r) (map c_span spans) /\
        forall r', In r' b1 -> In (rm_span r') (map c_span spans)
  | None => (spans' = [] \/ past' = []) /\ forall r, In r b -> In (rm_span r) (map c_span spans)
  end.

Lemma skip_past_merge fuel : forall mm n spans past mm' n' spans' past',
  length spans + length past <= fuel ->
  StronglySorted span_lt (map c_span spans) -> StronglySorted span_lt (map rm_span past) ->
  skip_past fuel mm n spans past = (mm', n', spans', past') ->
  exists a b, spans = a ++ spans' /\ past = b ++ past' /\ n' = n + length a /\
    (forall c, In c a -> In (c_span c) (map rm_span b)) /\
    (forall r, In r b -> forall c, In c spans' -> span_lt (rm_span r) (c_span c)) /\
    (forall c rest, spans' = c :: rest -> forall r, In r past' -> span_lt (c_span c) (rm_span r)) /\
    (mm = None -> says_mismatch spans b spans' past' mm') /\
    (forall m, mm = Some m -> mm' = Some m /\ (spans' = [] \/ past' = []) \/ says_mismatch spans b spans' past' mm' /\ spans' <> [] /\ past' <> []).
Proof.
  assert (STOP : forall mm n spans past, (spans = [] \/ past = []) ->
    exists a b, spans = a ++ spans /\ past = b ++ past /\ n = n + length a /\
    (forall c, In c a -> In (c_span c) (map rm_span b)) /\
    (forall r, In r b -> forall c, In c spans -> span_lt (rm_span r) (c_span c)) /\
    (forall c rest, spans = c :: rest -> forall r, In r past -> span_lt (c_span c) (rm_span r)) /\
    (mm = None -> says_mismatch spans b spans past mm) /\
    (forall m, mm = Some m -> mm = Some m /\ (spans = [] \/ past = []) \/ says_mismatch spans b spans past mm /\ spans <> [] /\ past <> [])).
  { intros mm n spans past SP. exists [], []. cbn.
    split; [reflexivity|]. split; [reflexivity|]. split; [lia|]. split; [intros ? []|]. split; [intros ? []|].
    split; [|split; [|intros m ->; now left]].
    - intros c rest -> r Hr. destruct SP as [SP|SP]; [discriminate|]. rewrite SP in Hr. destruct Hr.
    - intros ->. split; [exact SP|intros ? []]. }
  induction fuel as [|f IH]; intros mm n spans past mm' n' spans' past' L SC SR E.
  - destruct spans, past; cbn in L; try lia. cbn in E. injection E as <- <- <- <-. apply STOP. now left.
  - cbn [skip_past] in E. destruct spans as [|c cs]; [injection E as <- <- <- <-; apply STOP; now left|].
    destruct past as [|r rs]; [injection E as <- <- <- <-; apply STOP; now right|].
    cbn [map] in SC, SR. assert (SC0 := SC). apply StronglySorted_inv in SC as [SC FC], SR as [SR FR].
    rewrite Forall_forall in FC, FR.
    destruct (span_compare (c_span c) (rm_span r)) eqn:C.
    + apply span_compare_eq in C.
      destruct (IH _ _ cs rs _ _ _ _ ltac:(cbn in L; lia) SC SR E) as (a & b & A1 & A2 & A3 & A4 & A5 & A6 & A7 & A8).
      exists (c :: a), (r :: b). cbn [app length map]. rewrite <- A1, <- A2.
      split; [reflexivity|]. split; [reflexivity|]. split; [lia|]. split; [intros x [<-|Hx]; [left; now symmetry|right; now apply A4]|].
      split; [intros x [<-|Hx] y Hy; [|now apply A5]; rewrite <- C; apply FC; rewrite A1, map_app; apply in_or_app; right; now apply in_map|].
      split; [exact A6|].
      assert (SH : says_mismatch cs b spans' past' mm' -> says_mismatch (c :: cs) (r :: b) spans' past' mm').
      { intros SM. unfold says_mismatch in *. destruct mm' as [[x|x]|].
        - destruct SM as (SP & b1 & b2 & -> & N & H). split; [exact SP|]. exists (r :: b1), b2. split; [reflexivity|]. split.
          + cbn. intros [X|X]; [|exact (N X)]. apply (span_lt_irrefl (rm_span x)). rewrite <- X at 1. rewrite C.
            apply FR. rewrite A2, !map_app. apply in_or_app. left. apply in_or_app. right. now left.
          + intros y [<-|Hy]; [left; exact C|right; now apply H].
        - exact SM.
        - destruct SM as (SP & H). split; [exact SP|]. intros y [<-|Hy]; [left; exact C|right; now apply H]. }
      split; [intros ->; auto|]. intros m ->. destruct (A8 m eq_refl) as [X|(X & Y)]; [now left|right; auto].
    + injection E as <- <- <- <-. exists [], []. cbn [app length map].
      assert (SM : says_mismatch (c :: cs) [] (c :: cs) (r :: rs) (Some (Unexpected r))) by (exists c, cs, rs; auto).
      split; [reflexivity|]. split; [reflexivity|]. split; [lia|]. split; [intros ? []|]. split; [intros ? []|].
      split; [|split; [intros _; exact SM|]].
      * intros c0 rest [= <- <-] x [<-|Hx]; [exact C|]. eapply span_lt_trans; [exact C|]. apply FR. now apply in_map.
      * intros m _. right. split; [exact SM|]. split; discriminate.
    + apply span_gt_lt in C.
      assert (NI : ~ In (rm_span r) (map c_span (c :: cs))).
      { cbn. intros [X|X]; [rewrite X in C; exact (span_lt_irrefl _ C)|].
        exact (span_lt_irrefl _ (span_lt_trans _ _ _ C (FC _ X))). }
      destruct (IH _ _ (c :: cs) rs _ _ _ _ ltac:(cbn in *; lia) SC0 SR E) as (a & b & A1 & A2 & A3 & A4 & A5 & A6 & A7 & A8).
      exists a, (r :: b). cbn [app map]. rewrite <- A2. split; [exact A1|]. split; [reflexivity|]. split; [exact A3|].
      split; [intros x Hx; right; now apply A4|].
      split.
      { intros x [<-|Hx] y Hy; [|now apply A5]. assert (In y (c :: cs)) as [<-|HY] by (rewrite A1; apply in_or_app; now right).
        - exact C.
        - eapply span_lt_trans; [exact C|]. apply FC. now apply in_map. }
      split; [exact A6|]. split.
      * intros ->. destruct (A8 _ eq_refl) as [(X & Y)|(X & Y1 & Y2)].
        -- subst mm'. split; [exact Y|]. exists [], b. split; [reflexivity|]. split; [exact NI|intros ? []].
        -- unfold says_mismatch in *. destruct mm' as [[x|x]|]; [|exact X|]; (destruct X as [[X|X] _]; congruence).
      * intros m ->. destruct (A8 m eq_refl) as [X|(X & Y1 & Y2)]; [now left|right]. split; [|now split].
        unfold says_mismatch in *. destruct mm' as [[x|x]|]; [|exact X|]; (destruct X as [[X|X] _]; congruence).
Qed.

(** ** The two instances *)
Section Resume.
Context (hash16 : text -> text) (contents : path -> text) (o : oracle).
Context (files : list (path * span_test_maps)) (fs : path -> text) (rows : list removal).
Hypothesis P_ok : paths_ok files.
Hypothesis ND : NoDup (map c_span (all_cands files)).
Hypothesis WF : forall c, In c (all_cands files) -> wf_span (c_span c).
Hypothesis WFr : forall r, In r rows -> wf_span (rm_span r).

Local Notation C := (all_cands files).
Local Notation w' := (fst (run_from hash16 contents o files fs (Some rows))).
Local Notation res' := (snd (run_from hash16 contents o files fs (Some rows))).
Definition todo (c : cand) : Prop := ~ In (c_span c) (map rm_span rows).
Definition done (c : cand) : Prop := In (c_span c) (map rm_span rows).

Lemma fresh_start DBF : Fresh DBF todo C (start fs (Some rows)).
Proof.
  right. split.
  - assert (H : forall l, NoDup (map c_span l) -> (forall c, In c l -> wf_span (c_span c)) ->
      NoDup (map (fun c => display_span (c_span c)) l)).
    { induction l as [|c l IH]; intros N W; cbn; [constructor|]. cbn in N. inversion N; subst. constructor.
      - intros H. apply H1. apply in_map_iff in H as (x & E & Hx). apply display_inj in E.
        + rewrite <- E. now apply in_map.
        + apply W. now right.
        + apply W. now left.
      - apply IH; [exact H2|]. intros x Hx. apply W. now right. }
    apply H; assumption.
  - intros c rows' x Hc HT [= <-] Hx E. apply display_inj in E; [|now apply WFr|now apply WF].
    apply HT. rewrite <- E. now apply in_map.
Qed.

(** What a run on a database with rows [rows] guarantees; [W] are the change warnings it may
    give and [DBF] the only reason for a database error. *)
Definition resumed (W : mismatch -> Prop) (DBF : Prop) : Prop :=
  (forall m, In (EWarnChanged m) (w_trace w') -> W m) /\
  (res' = Err DbFailed -> DBF) /\
  (forall s t, In (s, t) (runs (w_trace w')) -> exists c, In c C /\ c_span c = s /\ todo c) /\
  (forall x, In x (inserts (w_trace w')) -> exists c, In c C /\ c_span c = rm_span x /\ todo c) /\
  subseq (map rm_span (inserts (w_trace w'))) (map c_span C) /\
  (exists a b, C = a ++ b /\
     (forall c, In c a -> done c \/ completed o (w_trace w') c \/ skipped_now o true (w_trace w') c) /\
     (forall x, In x (inserts (w_trace w')) -> In (rm_span x) (map c_span a)) /\
     (res' = Ok tt -> b = [])).

Lemma resumed_from (Rel : list cand -> list removal -> Prop) (W : mismatch -> Prop) (DBF : Prop) :
  (forall tr, o_db_ok o tr = false -> DBF) ->
  (forall c cs r rs, Rel (c :: cs) (r :: rs) -> span_compare (c_span c) (rm_span r) = Eq -> done c /\ Rel cs rs) ->
  (forall c cs r rs, Rel (c :: cs) (r :: rs) -> span_compare (c_span c) (rm_span r) = Gt -> W (Missing r) /\ Rel (c :: cs) rs) ->
  (forall c cs r rs, Rel (c :: cs) (r :: rs) -> span_compare (c_span c) (rm_span r) = Lt -> W (Unexpected r) /\ todo c /\ Rel cs (r :: rs)) ->
  (forall c cs, Rel (c :: cs) [] -> todo c /\ Rel cs []) ->
  (forall c cs rs, Rel (c :: cs) rs -> ~ In (c_span c) (map rm_span rs) -> todo c /\ Rel cs rs) ->
  (forall r tr p, W (Unexpected r) -> dry_run_failed o tr p -> DBF) ->
  Rel C (sort_removals rows) -> resumed W DBF.
Proof.
  intros HD R1 R2 R3 R4 R5 HS HR.
  pose proof (run_spec hash16 contents o files fs true W DBF HD Rel todo done R1 R2 R3 R4 R5 HS
    files (past_of (Some rows)) (start fs (Some rows)) ltac:(auto) P_ok HR
    (pastdb_start fs (Some rows)) ltac:(cbn; split; discriminate) ltac:(intros []) I eq_refl ltac:(reflexivity) eq_refl
    (fresh_start DBF)) as H.
  unfold resumed, run_from. destruct (run hash16 contents o files (past_of (Some rows)) (start fs (Some rows))) as [w r].
  cbn [fst snd]. destruct H as (GAP & (l & I' & S & P & HT & Sub & SubI & HI & _) & O & _ & _ & FIN).
  pose proof (st_good _ _ _ _ _ _ _ _ _ _ _ S) as G.
  pose proof (st_runs _ _ _ _ _ _ _ _ _ _ _ S) as RR. cbn in RR.
  pose proof (st_ins _ _ _ _ _ _ _ _ _ _ _ S) as J. cbn in J.
  split; [|split; [|split; [|split; [|split]]]].
  - intros m Hm. apply in_moment in Hm as (pre & later & E).
    assert (M : moment (EWarnChanged m :: pre) (w_trace w)) by (exists later; exact E).
    exact (proj2 (allgood_at _ _ _ _ _ _ _ _ G _ _ M)).
  - intros ->. exact (proj2 O).
  - intros s t Hst. rewrite RR in Hst. unfold flat in Hst. apply in_flat_map in Hst as (y & Y1 & Y2).
    apply in_map_iff in Y2 as (t' & [= <- _] & _). exists (fst y). split; [|split; [reflexivity|now apply HT]].
    eapply subseq_in; [exact Sub|]. now apply in_map.
  - intros x Hx. rewrite J in Hx. now apply HI.
  - rewrite J. exact SubI.
  - destruct (res_tt_dec r) as [->|NE].
    + exists C, []. rewrite app_nil_r. split; [reflexivity|]. split; [now apply FIN|]. split; [|auto].
      intros x Hx. rewrite J in Hx. destruct (HI x Hx) as (c & H1 & H2 & _). rewrite <- H2. now apply in_map.
    + destruct GAP as (a & b & E & F & X). exists a, b. split; [exact E|]. split; [exact F|].
      split; [|intros E'; congruence]. intros x Hx. destruct (X x Hx) as [[]|Hy]. exact Hy.
Qed.

(** *** Candidates in ascending order, any rows *)
Lemma resumed_sorted : ascending (map c_span C) -> NoDup (map rm_span rows) ->
  resumed (fun m => match m with
    | Missing r => In r rows /\ ~ In (rm_span r) (map c_span C)
    | Unexpected r => In r rows /\ exists c, In c C /\ todo c /\ span_lt (c_span c) (rm_span r)
    end) ((exists tr, o_db_ok o tr = false) \/ exists tr p, dry_run_failed o tr p).
Proof.
  intros ASC NR. apply ascending_sorted in ASC. pose proof (sort_sorted _ NR) as SR.
  set (Rel := fun (cs : list cand) (rs : list removal) =>
    StronglySorted span_lt (map c_span cs) /\ StronglySorted span_lt (map rm_span rs) /\
    (forall c, In c cs -> In c C) /\ (forall r, In r rs -> In r rows) /\
    (forall c, In c cs -> done c -> In (c_span c) (map rm_span rs)) /\
    (forall r, In r rs -> In (rm_span r) (map c_span C) -> In (rm_span r) (map c_span cs))).
  apply (resumed_from Rel).
  - intros tr H. left. eauto.
  - intros c cs r rs (A & B & D & E & F & G) EQ. apply span_compare_eq in EQ.
    cbn in A, B. apply StronglySorted_inv in A as [A FA], B as [B FB]. rewrite Forall_forall in FA, FB.
    split; [unfold done; rewrite EQ; apply in_map, E; now left|].
    split; [exact A|]. split; [exact B|]. split; [intros x Hx; apply D; now right|]. split; [intros x Hx; apply E; now right|].
    split.
    + intros x Hx Dx. destruct (F x (or_intror Hx) Dx) as [X|X]; [|exact X].
      exfalso. apply (span_lt_irrefl (c_span x)). rewrite <- X at 1. rewrite <- EQ. apply FA. now apply in_map.
    + intros x Hx Dx. destruct (G x (or_intror Hx) Dx) as [X|X]; [|exact X].
      exfalso. apply (span_lt_irrefl (rm_span x)). rewrite <- X at 1. rewrite EQ. apply FB. now apply in_map.
  - intros c cs r rs (A & B & D & E & F & G) GT. apply span_gt_lt in GT. assert (A0 := A).
    cbn in A, B. apply StronglySorted_inv in A as [A FA], B as [B FB]. rewrite Forall_forall in FA, FB.
    assert (LT : forall x, In x (map c_span (c :: cs)) -> span_lt (rm_span r) x).
    { intros x [<-|Hx]; [exact GT|]. eapply span_lt_trans; [exact GT|now apply FA]. }
    split; [split; [apply E; now left|]; intros H; exact (span_lt_irrefl _ (LT _ (G r (or_introl eq_refl) H)))|].
    split; [exact A0|]. split; [exact B|]. split; [exact D|]. split; [intros x Hx; apply E; now right|].
    split.
    + intros x Hx Dx. destruct (F x Hx Dx) as [X|X]; [|exact X].
      exfalso. apply (span_lt_irrefl (c_span x)). rewrite <- X at 1. apply LT. now apply in_map.
    + intros x Hx. apply G. now right.
  - intros c cs r rs (A & B & D & E & F & G) LT. assert (B0 := B).
    cbn in A, B. apply StronglySorted_inv in A as [A FA], B as [B FB]. rewrite Forall_forall in FA, FB.
    assert (TD : todo c).
    { intros Dc. destruct (F c (or_introl eq_refl) Dc) as [X|X].
      - unfold span_lt in LT. rewrite X in LT. exact (span_lt_irrefl _ LT).
      - exact (span_lt_irrefl _ (span_lt_trans _ _ _ LT (FB _ X))). }
    split; [split; [apply E; now left|]; exists c; split; [apply D; now left|]; split; [exact TD|exact LT]|].
    split; [exact TD|]. split; [exact A|]. split; [exact B0|]. split; [intros x Hx; apply D; now right|].
    split; [exact E|]. split; [intros x Hx; apply F; now right|].
    intros x Hx Dx. destruct (G x Hx Dx) as [X|X]; [|exact X]. exfalso.
    assert (LT' : span_lt (c_span c) (rm_span x)).
    { destruct Hx as [<-|Hx]; [exact LT|]. eapply span_lt_trans; [exact LT|]. apply FB. now apply in_map. }
    rewrite X in LT'. exact (span_lt_irrefl _ LT').
  - intros c cs (A & B & D & E & F & G). cbn in A. apply StronglySorted_inv in A as [A FA].
    split; [intros Dc; destruct (F c (or_introl eq_refl) Dc)|].
    split; [exact A|]. split; [exact B|]. split; [intros x Hx; apply D; now right|]. split; [exact E|].
    split; [intros x Hx; apply F; now right|intros x []].
  - intros c cs rs (A & B & D & E & F & G) N. cbn in A. apply StronglySorted_inv in A as [A FA].
    split; [intros Dc; apply N, (F c (or_introl eq_refl) Dc)|].
    split; [exact A|]. split; [exact B|]. split; [intros x Hx; apply D; now right|]. split; [exact E|].
    split; [intros x Hx; apply F; now right|]. intros x Hx Dx. destruct (G x Hx Dx) as [X|X]; [|exact X].
    destruct N. rewrite X. now apply in_map.
  - intros r tr p _ H. right. eauto.
  - split; [exact ASC|]. split; [exact SR|]. split; [auto|]. split; [intros r; apply in_sort|]. split.
    + intros c _ Dc. unfold done in Dc. apply in_map_iff in Dc as (r & E & Hr). rewrite <- E. apply in_map. now apply in_sort.
    + auto.
Qed.

(** *** The rows are those of the first candidates *)
Lemma resumed_aligned k : map rm_span (sort_removals rows) = firstn k (map c_span C) ->
  resumed (fun _ => False) (exists tr, o_db_ok o tr = false).
Proof.
  intros AL.
  set (Rel := fun (cs : list cand) (rs : list removal) =>
    (exists j, map rm_span rs = firstn j (map c_span cs)) /\ NoDup (map c_span cs) /\
    (forall r, In r rs -> In r rows) /\
    (forall c, In c cs -> done c -> In (c_span c) (map rm_span rs))).
  assert (HD : forall c cs r rs, Rel (c :: cs) (r :: rs) -> c_span c = rm_span r).
  { intros c cs r rs ((j & E) & _). destruct j as [|j]; [discriminate|]. cbn in E. now injection E. }
  apply (resumed_from Rel).
  - intros tr H. eauto.
  - intros c cs r rs R EQ. pose proof (HD _ _ _ _ R) as E1. destruct R as ((j & E) & N & I' & F).
    split; [unfold done; rewrite E1; apply in_map, I'; now left|]. cbn in N. inversion N as [|? ? N1 N2]; subst.
    split; [destruct j as [|j]; [discriminate|]; cbn in E; injection E as _ E; now exists j|].
    split; [exact N2|]. split; [intros x Hx; apply I'; now right|].
    intros x Hx Dx. destruct (F x (or_intror Hx) Dx) as [X|X]; [|exact X].
    exfalso. apply N1. rewrite E1, X. now apply in_map.
  - intros c cs r rs R GT. rewrite (HD _ _ _ _ R) in GT.
    rewrite (proj2 (span_compare_eq _ _) eq_refl) in GT. discriminate.
  - intros c cs r rs R GT. rewrite (HD _ _ _ _ R) in GT.
    rewrite (proj2 (span_compare_eq _ _) eq_refl) in GT. discriminate.
  - intros c cs (_ & N & I' & F). inversion N; subst. split; [intros Dc; destruct (F c (or_introl eq_refl) Dc)|].
    split; [now exists 0|]. split; [assumption|]. split; [exact I'|]. intros x Hx. apply F. now right.
  - intros c cs rs R N. assert (rs = []).
    { destruct rs as [|r rs]; [reflexivity|]. destruct N. rewrite (HD _ _ _ _ R). now left. }
    subst rs. destruct R as (_ & N' & I' & F). inversion N'; subst.
    split; [intros Dc; destruct (F c (or_introl eq_refl) Dc)|].
    split; [now exists 0|]. split; [assumption|]. split; [exact I'|]. intros x Hx. apply F. now right.
  - intros r tr p [].
  - split; [now exists k|]. split; [exact ND|]. split; [intros r; apply in_sort|].
    intros c _ Dc. unfold done in Dc. apply in_map_iff in Dc as (r & E & Hr). rewrite <- E. apply in_map. now apply in_sort.
Qed.

Lemma db_after : w_db w' = Some (rows ++ inserts (w_trace w')).
Proof.
  pose proof (run_general hash16 contents o files fs (Some rows) P_ok) as H.
  destruct (run_from hash16 contents o files fs (Some rows)). cbn. destruct H as (_ & _ & _ & _ & _ & _ & H & _). exact H.
Qed.
End Resume.
