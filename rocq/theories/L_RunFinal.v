(** Consequences of the run-loop invariant. *)
From Verif Require Import Base M_Text S_Text L_Text M_Rewriter M_Span S_Span L_Span M_Instr S_Instr L_Instr M_Run S_Run L_Run.
From Coq Require Import Permutation.

Lemma allgood_at hash16 contents o files fs0 usedb W tr : AllGood hash16 contents o files fs0 usedb W tr ->
  forall e pre, moment (e :: pre) tr -> Good hash16 contents o files fs0 usedb W e pre.
Proof.
  intros G e pre [later ->]. induction later as [|x later IH]; cbn in G; [apply G|]. apply IH, G.
Qed.

Lemma in_moment {A} (e : A) (tr : list A) : In e tr -> exists pre later, tr = later ++ e :: pre.
Proof. intros H. apply in_split in H as (a & b & ->). eauto. Qed.

Lemma NoDup_map_inv_eq {A B} (f : A -> B) l x y : NoDup (map f l) -> In x l -> In y l -> f x = f y -> x = y.
Proof.
  induction l as [|z l IH]; intros N Hx Hy E; [destruct Hx|]. cbn in N. inversion N; subst.
  destruct Hx as [<-|Hx], Hy as [<-|Hy]; auto.
  - exfalso. apply H1. rewrite E. now apply in_map.
  - exfalso. apply H1. rewrite <- E. now apply in_map.
Qed.

Lemma sort_insert_perm r l : Permutation (sort_insert r l) (r :: l).
Proof.
  induction l as [|x l IH]; cbn; [constructor; constructor|].
  destruct (span_compare (rm_span r) (rm_span x)); try apply Permutation_refl.
  eapply perm_trans; [apply perm_skip, IH|apply perm_swap].
Qed.
Lemma sort_perm l : Permutation (sort_removals l) l.
Proof.
  induction l as [|x l IH]; cbn; [constructor|].
  eapply perm_trans; [apply sort_insert_perm|]. now constructor.
Qed.
Lemma in_sort r l : In r (sort_removals l) <-> In r l.
Proof. split; apply Permutation_in; [|symmetry]; apply sort_perm. Qed.

(** ** The general instance: no assumption on orders. *)
Section Gen.
Context (hash16 : text -> text) (contents : path -> text) (o : oracle).
Context (files : list (path * span_test_maps)) (fs : path -> text) (db : option (list removal)).
Hypothesis P_ok : paths_ok files.
Definition usedb := match db with None => false | Some _ => true end.

Lemma usedb_ok : w_db (start fs db) = None <-> usedb = false.
Proof. unfold usedb. cbn. destruct db; split; congruence. Qed.

Lemma pastdb_start : PastDb (past_of db) (start fs db).
Proof.
  intros r Hr. unfold past_of in Hr. cbn. destruct db as [rows|]; [|destruct Hr].
  exists rows. split; [reflexivity|]. rewrite in_sort in Hr.
  apply in_map_iff. exists r. split; [reflexivity|exact Hr].
Qed.

Lemma run_general :
  let '(w', r) := run_from hash16 contents o files fs db in
  AllGood hash16 contents o files fs usedb (fun _ => True) (w_trace w') /\
  okres True r (w_trace w') /\ w_ib w' = None /\ (forall q, w_fs w' q = fs q) /\
  (exists l, runs (w_trace w') = flat l /\ prefixes l /\ subseq (map fst l) (all_cands files)) /\
  (NoDup (map c_span (all_cands files)) -> forall x s t, In x (inserts (w_trace w')) -> rm_outcome x = Skipped ->
     In (s, t) (runs (w_trace w')) -> s <> rm_span x) /\
  w_db w' = option_map (fun rows => rows ++ inserts (w_trace w')) db /\
  (db = None -> inserts (w_trace w') = []) /\
  subseq (map rm_span (inserts (w_trace w'))) (map c_span (all_cands files)) /\
  (r = Ok tt -> (forall c, In c (all_cands files) ->
      (past_of db <> []) \/ completed o (w_trace w') c \/ skipped_now o usedb (w_trace w') c)
      /\ since_poll (w_trace w') = []).
Proof.
  unfold run_from.
  pose proof (run_spec hash16 contents o files fs usedb (fun _ => True) True (fun _ _ => I)
    (fun _ rs => rs = [] \/ past_of db <> []) (fun _ => True) (fun _ => past_of db <> [])) as H.
  assert (H' := H ltac:(intros c cs r rs [X|X] _; [discriminate|split; [exact X|right; exact X]])
    ltac:(intros c cs r rs [X|X] _; [discriminate|split; [exact I|right; exact X]])
    ltac:(intros c cs r rs [X|X] _; [discriminate|split; [exact I|split; [exact I|right; exact X]]])
    ltac:(intros c cs [X|X]; (split; [exact I|auto]))
    ltac:(intros c cs rs X _; split; [exact I|exact X])
    ltac:(intros; exact I)
    files (past_of db) (start fs db) ltac:(auto) P_ok
    ltac:(destruct (past_of db); [left; reflexivity|right; discriminate])
    pastdb_start usedb_ok ltac:(intros []) I eq_refl ltac:(reflexivity) eq_refl (or_introl I)).
  clear H. destruct (run hash16 contents o files (past_of db) (start fs db)) as [w' r].
  destruct H' as (_ & (l & I' & S & P & _ & Sub & SubI & _ & SK) & O & IB & FS & FIN).
  split; [apply (st_good _ _ _ _ _ _ _ _ _ _ _ S)|]. split; [exact O|]. split; [exact IB|]. split; [exact FS|].
  pose proof (st_runs _ _ _ _ _ _ _ _ _ _ _ S) as R. cbn in R.
  pose proof (st_ins _ _ _ _ _ _ _ _ _ _ _ S) as J. cbn in J.
  split; [exists l; auto|]. rewrite J.
  split.
  { intros ND x s t Hx Sx Hr. rewrite R in Hr. unfold flat in Hr. apply in_flat_map in Hr as (y & Y1 & Y2).
    apply in_map_iff in Y2 as (t' & Y2 & _). injection Y2 as <- _. exact (SK ND x y Hx Sx Y1). }
  split; [rewrite (st_db _ _ _ _ _ _ _ _ _ _ _ S); reflexivity|].
  split; [intros D; apply (st_nodb _ _ _ _ _ _ _ _ _ _ _ S); exact D|].
  split; [exact SubI|]. exact FIN.
Qed.

Lemma all_good : AllGood hash16 contents o files fs usedb (fun _ => True) (w_trace (fst (run_from hash16 contents o files fs db))).
Proof. pose proof run_general as H. destruct (run_from hash16 contents o files fs db). apply H. Qed.

Lemma good_event e pre : moment (e :: pre) (w_trace (fst (run_from hash16 contents o files fs db))) ->
  Good hash16 contents o files fs usedb (fun _ => True) e pre.
Proof. apply allgood_at, all_good. Qed.

Lemma inserts_in r tr : In r (inserts tr) <-> In (EInsert r) tr.
Proof.
  unfold inserts. rewrite in_flat_map. split.
  - intros (e & H & K). apply in_rev in H. destruct e; cbn in K; try contradiction; destruct K as [K|[]]; now subst.
  - intros H. exists (EInsert r). split; [now apply -> in_rev|now left].
Qed.
Lemma runs_in s t tr : In (s, t) (runs tr) <-> exists f, In (EExec s t f) tr.
Proof.
  unfold runs. rewrite in_flat_map. split.
  - intros (e & H & K). apply in_rev in H. destruct e; cbn in K; try contradiction; destruct K as [K|[]]. injection K as <- <-. eauto.
  - intros (f & H). exists (EExec s t f). split; [now apply -> in_rev|now left].
Qed.

Lemma is_cand_all m c : is_cand files m c -> In c (all_cands files).
Proof. intros [H K]. unfold all_cands. apply in_flat_map. eexists. split; [exact H|exact K]. Qed.

Lemma recorded_row now r : recorded contents o files now r -> exists c, In c (all_cands files) /\ row_of contents o now c r.
Proof.
  intros (m & c & IC & E & ST & J). exists c. split; [eapply is_cand_all; exact IC|]. split; [now symmetry|].
  rewrite E. split; assumption.
Qed.
Lemma row_of_mono a b c r : moment a b -> row_of contents o a c r -> row_of contents o b c r.
Proof. intros M (A & B & C). split; [exact A|]. split; [exact B|]. eapply justified_mono; eassumption. Qed.

Lemma insert_row r : In r (inserts (w_trace (fst (run_from hash16 contents o files fs db)))) ->
  exists c, In c (all_cands files) /\ row_of contents o (w_trace (fst (run_from hash16 contents o files fs db))) c r.
Proof.
  intros H. apply inserts_in, in_moment in H as (pre & later & E).
  assert (M : moment (EInsert r :: pre) (w_trace (fst (run_from hash16 contents o files fs db)))) by (exists later; exact E).
  destruct (good_event _ _ M) as (_ & _ & R & _).
  destruct (recorded_row _ _ R) as (c & H1 & H2). exists c. split; [exact H1|].
  eapply row_of_mono; [|exact H2]. eapply moment_trans; [apply moment_cons|exact M].
Qed.

(** Uniqueness *)
Lemma flat_nodup l : prefixes l -> NoDup (map c_span (map fst l)) -> (forall x, In x l -> NoDup (c_tests (fst x))) -> NoDup (flat l).
Proof.
  induction l as [|[c ts] l IH]; intros P N T; [constructor|].
  cbn in N |- *. inversion N as [|? ? N1 N2]; subst.
  assert (IH' : NoDup (flat l)) by (apply IH; [intros x Hx; apply P; now right|exact N2|intros x Hx; apply T; now right]).
  assert (NT : NoDup ts).
  { destruct (P (c, ts) (or_introl eq_refl)) as (rest & E). cbn in E.
    pose proof (T (c, ts) (or_introl eq_refl)) as X. cbn in X. rewrite E in X. eapply subseq_nodup; [apply subseq_app_l|exact X]. }
  assert (D : forall x, In x (flat l) -> fst x <> c_span c).
  { intros x Hx E. apply in_flat_map in Hx as (y & Y1 & Y2). apply in_map_iff in Y2 as (t & <- & _). cbn in E.
    apply N1. rewrite <- E. apply in_map. now apply in_map. }
  clear -NT D IH'. induction ts as [|t ts IH]; [exact IH'|]. inversion NT; subst. cbn. constructor.
  - intros H. apply in_app_or in H as [H|H].
    + apply in_map_iff in H as (t' & E & Ht). injection E as ->. auto.
    + apply (D _ H). reflexivity.
  - now apply IH.
Qed.

Lemma runs_nodup : distinct files -> NoDup (runs (w_trace (fst (run_from hash16 contents o files fs db)))).
Proof.
  intros [N T]. pose proof run_general as H. destruct (run_from hash16 contents o files fs db) as [w' r].
  destruct H as (_ & _ & _ & _ & (l & E & P & S) & _). cbn. rewrite E. apply flat_nodup; [exact P| |].
  - eapply subseq_nodup; [apply subseq_map; exact S|exact N].
  - intros x Hx. apply T. eapply subseq_in; [exact S|]. now apply in_map.
Qed.

Lemma exec_unique (tr : trace) s t f1 p1 f2 p2 : NoDup (runs tr) ->
  moment (EExec s t f1 :: p1) tr -> moment (EExec s t f2 :: p2) tr -> EExec s t f1 :: p1 = EExec s t f2 :: p2.
Proof.
  intros N [l1 E1] [l2 E2]. revert l1 l2 E1 E2 N. induction tr as [|e tr IH]; intros l1 l2 E1 E2 N.
  - destruct l1; discriminate.
  - rewrite runs_cons in N.
    assert (Ntr : NoDup (runs tr)) by (eapply subseq_nodup; [apply subseq_app_l|exact N]).
    assert (Q : forall l f p, e :: tr = l ++ EExec s t f :: p -> l <> [] -> In (s, t) (runs tr)).
    { intros l f p E L. destruct l as [|x l]; [congruence|]. injection E as _ ->. apply runs_in.
      exists f. apply in_or_app. right. now left. }
    assert (Z : forall f p, e :: tr = EExec s t f :: p -> In (s, t) (runs tr) -> False).
    { intros f p E I'. injection E as -> ->. cbn in N. apply (nodup_app_disjoint _ _ (s, t) N I'). now left. }
    destruct l1 as [|x1 l1], l2 as [|x2 l2].
    + cbn in E1, E2. congruence.
    + exfalso. eapply Z; [exact E1|]. eapply Q; [exact E2|discriminate].
    + exfalso. eapply Z; [exact E2|]. eapply Q; [exact E1|discriminate].
    + injection E1 as _ E1. injection E2 as _ E2. eapply IH; eassumption.
Qed.

Local Notation W' := (w_trace (fst (run_from hash16 contents o files fs db))).

Lemma run_exec s t env f p : moment (ERun s t env f :: p) W' ->
  env = span_id hash16 s /\ exists p', p = EExec s t f :: p' /\ moment (EExec s t f :: p') W' /\ exists u, o_exec o p t s = Ok (Some u).
Proof.
  intros M. destruct (good_event _ _ M) as (_ & E & p' & -> & X). split; [exact E|].
  exists p'. split; [reflexivity|]. split; [eapply moment_trans; [apply moment_cons|exact M]|exact X].
Qed.

Lemma ran_unique s t x y : distinct files -> ran_with o W' s t x -> ran_with o W' s t y -> x = y.
Proof.
  intros D (e1 & f1 & p1 & M1 & P1) (e2 & f2 & p2 & M2 & P2).
  destruct (run_exec _ _ _ _ _ M1) as (-> & q1 & -> & N1 & _).
  destruct (run_exec _ _ _ _ _ M2) as (-> & q2 & -> & N2 & _).
  assert (E := exec_unique _ _ _ _ _ _ _ (runs_nodup D) N1 N2). injection E as -> ->. congruence.
Qed.

Lemma ran_built s t x : distinct files -> ran_with o W' s t x -> did_not_build o W' s t -> False.
Proof.
  intros D (e1 & f1 & p1 & M1 & P1) (f2 & p2 & M2 & P2).
  destruct (run_exec _ _ _ _ _ M1) as (-> & q1 & -> & N1 & u & U).
  assert (E := exec_unique _ _ _ _ _ _ _ (runs_nodup D) N1 M2). injection E as -> ->. congruence.
Qed.

(** Tests before an executed test have passed. *)
Lemma earlier_passed c t x a b : distinct files -> In c (all_cands files) -> c_tests c = a ++ t :: b ->
  ran_with o W' (c_span c) t x -> forall t', In t' a -> ran_with o W' (c_span c) t' XPassed.
Proof.
  intros D Hc E (e1 & f1 & p1 & M1 & P1) t' Ht.
  destruct (run_exec _ _ _ _ _ M1) as (-> & q1 & -> & N1 & _).
  destruct (good_event _ _ N1) as (_ & (m & c' & a' & b' & IC & SE & E' & H & _) & _).
  assert (c' = c).
  { destruct D as [D _]. eapply (NoDup_map_inv_eq c_span); eauto. eapply is_cand_all; exact IC. }
  subst c'. assert (a' = a).
  { destruct D as [_ D]. specialize (D c Hc). rewrite E' in E. rewrite E' in D.
    clear -D E. revert a E. induction a' as [|x a' IH]; intros a E.
    - destruct a as [|y a]; [reflexivity|]. cbn in E. injection E as <- ->. cbn in D. inversion D; subst.
      exfalso. apply H1. apply in_or_app. right. now left.
    - destruct a as [|y a].
      + cbn in E. injection E as -> <-. cbn in D. inversion D; subst. exfalso. apply H1. apply in_or_app. right. now left.
      + cbn in E. injection E as -> E. f_equal. cbn in D. inversion D; subst. now apply IH. }
  subst a'. eapply ran_with_mono; [|apply H; exact Ht].
  eapply moment_trans; [apply moment_cons|exact N1].
Qed.

Lemma justified_judged c x : distinct files -> In c (all_cands files) -> x <> Skipped ->
  justified o W' (c_span c) (c_tests c) x -> ~ unjudged o W' c.
Proof.
  intros D Hc NS J (t & Ht & R).
  assert (G : forall a t1 b, c_tests c = a ++ t1 :: b -> (forall t', In t' a -> ran_with o W' (c_span c) t' XPassed) ->
     t = t1 \/ ran_with o W' (c_span c) t1 XPassed).
  { intros a t1 b E A. rewrite E in Ht. apply in_app_or in Ht as [Ht|[<-|Ht]]; [|now left|right].
    - specialize (A t Ht). assert (X := ran_unique _ _ _ _ D R A). discriminate.
    - apply in_split in Ht as (b1 & b2 & ->).
      apply (earlier_passed c t XNone (a ++ t1 :: b1) b2 D Hc); [rewrite E, <- app_assoc; reflexivity|exact R|].
      apply in_or_app. right. now left. }
  destruct x; cbn in J; try congruence.
  - destruct J as (a & t1 & b & E & A & B). destruct (G _ _ _ E A) as [->|X]; eapply ran_built; eauto.
  - destruct J as (a & t1 & b & E & A & B). destruct (G _ _ _ E A) as [->|X].
    + assert (Y := ran_unique _ _ _ _ D R B). discriminate.
    + assert (Y := ran_unique _ _ _ _ D X B). discriminate.
  - destruct J as (a & t1 & b & E & A & B). destruct (G _ _ _ E A) as [->|X].
    + assert (Y := ran_unique _ _ _ _ D R B). discriminate.
    + assert (Y := ran_unique _ _ _ _ D X B). discriminate.
  - assert (Y := ran_unique _ _ _ _ D R (J t Ht)). discriminate.
Qed.

(** ** C06 *)
Lemma files_restored p : w_fs (fst (run_from hash16 contents o files fs db)) p = fs p.
Proof. pose proof run_general as H. destruct (run_from hash16 contents o files fs db). apply H. Qed.

(** ** C07 *)
Lemma layout_suffix file pre sts : layout file (pre ++ sts) -> layout file sts.
Proof.
  intros (A & B & C). split; [intros s Hs; apply A; apply in_or_app; now right|].
  split; intros l1 a l2 b l3 ->; [apply (B (pre ++ l1) a l2 b l3)|apply (C (pre ++ l1) a l2 b l3)]; now rewrite app_assoc.
Qed.

Lemma own_removal_only (l : path -> lang) :
  (forall s, o_guard o s = Ok (guard_text (l (sp_path s)) (span_id hash16 s))) ->
  (forall p m, In (p, m) files -> layout (contents p) (map fst (stm_statement m)) /\
     (forall s s', In s (map fst (stm_statement m)) -> In s' (map fst (stm_statement m)) ->
        span_id hash16 s = span_id hash16 s' -> s = s')) ->
  (forall p m tr n ex, In (p, m) files -> o_extra o tr p n = Ok ex ->
     extra_before (contents p) ex (map fst (stm_statement m))) ->
  forall s t env disk, In (ERun s t env disk) W' ->
  (exists c, In c (all_cands files) /\ c_span c = s /\ In t (c_tests c)) /\
  env = span_id hash16 s /\
  (forall q, q <> sp_path s -> disk q = fs q) /\
  ((exists removed, remove_text (contents (sp_path s)) s = Some (removed, disk (sp_path s))) \/
   (exists xs, disk (sp_path s) = render (l (sp_path s)) xs /\ chars_of xs = contents (sp_path s) /\
      forall before mid after, between (contents (sp_path s)) (sp_start s) (sp_end s) before mid after ->
        eval env [] xs = Some (before ++ after))).
Proof.
  intros HG HL HE s t env disk HI. apply in_moment in HI as (pre & later & E).
  assert (M : moment (ERun s t env disk :: pre) W') by (exists later; exact E).
  destruct (run_exec _ _ _ _ _ M) as (-> & p' & -> & M' & _).
  destruct (good_event _ _ M') as (_ & (m & c & a & b & IC & <- & ET & _ & _ & [Q OR]) & _).
  split; [exists c; split; [eapply is_cand_all; exact IC|]; split; [reflexivity|]; rewrite ET; apply in_or_app; right; now left|].
  split; [reflexivity|]. split; [exact Q|]. destruct IC as [IF _].
  destruct (HL _ _ IF) as [HL1 HL2].
  destruct OR as [OR|(extra & pre1 & sts & ES & Hs & (tr & n & EX) & EI)]; [now left|right].
  set (p := sp_path (c_span c)) in *.
  assert (L : layout (contents p) sts) by (eapply layout_suffix; rewrite <- ES; exact HL1).
  assert (X : extra_before (contents p) extra sts).
  { specialize (HE _ _ _ _ _ IF EX). unfold extra_before in *. destruct extra as [[q u]|]; [|exact I].
    destruct HE as [H1 H2]. split; [exact H1|]. intros s Hs'. apply H2. rewrite ES. apply in_or_app. now right. }
  destruct (instrument_equiv hash16 (l p) extra (contents p) sts L X) as (xs & I1 & I2 & _ & I4).
  exists xs. split; [|split; [exact I2|]].
  - unfold instrument_text in I1.
    assert (PS : forall x, In x sts -> sp_path x = p).
    { intros x Hx. assert (Hm : In x (map fst (stm_statement m))) by (rewrite ES; apply in_or_app; now right).
      apply in_map_iff in Hm as (e & <- & He).
      apply (P_ok p m (Cand (fst e) Statement (snd e)) IF). unfold stm_iter. apply in_or_app. left.
      apply in_map_iff. exists e. auto. }
    assert (EQ : forall sts', (forall x, In x sts' -> sp_path x = p) ->
      instrument (fun c => c) extra (fun x => match o_guard o x with Ok t0 => t0 | _ => [] end) end_text (contents p) sts'
      = instrument (fun c => c) extra (fun x => guard_text (l p) (span_id hash16 x)) end_text (contents p) sts').
    { intros sts' HP. unfold instrument.
      assert (EM : forall l0 m0, (forall x, In x l0 -> sp_path x = p) ->
         insertion_map (fun x => match o_guard o x with Ok t0 => t0 | _ => [] end) end_text l0 m0
         = insertion_map (fun x => guard_text (l p) (span_id hash16 x)) end_text l0 m0).
      { induction l0 as [|x l0 IH]; intros m0 HP0; cbn; [reflexivity|]. rewrite HG, (HP0 x (or_introl eq_refl)).
        apply IH. intros y Hy. apply HP0. now right. }
      now rewrite (EM sts' [] HP). }
    rewrite (EQ sts PS) in EI. congruence.
  - intros before mid after BT. eapply I4; [exact Hs| |exact BT].
    intros s' Hs' E'. apply HL2; auto; rewrite ES; apply in_or_app; now right.
Qed.

(** ** C08 *)
Lemma all_cands_path c : In c (all_cands files) -> exists m, In (sp_path (c_span c), m) files /\ In c (stm_iter m).
Proof.
  intros H. apply in_flat_map in H as ([p m] & H & K). cbn in K. rewrite (P_ok p m c H K). eauto.
Qed.

Lemma rows_spec : distinct files -> db = Some [] ->
  exists rows, w_db (fst (run_from hash16 contents o files fs db)) = Some rows /\
  NoDup (map rm_span rows) /\
  (forall x, In x rows -> exists c, In c (all_cands files) /\ row_of contents o W' c x) /\
  (forall c x, In c (all_cands files) -> In x rows -> rm_span x = c_span c -> ~ unjudged o W' c) /\
  (snd (run_from hash16 contents o files fs db) = Ok tt -> forall c, In c (all_cands files) ->
     ~ unjudged o W' c -> exists x, In x rows /\ rm_span x = c_span c).
Proof.
  intros D DB. pose proof run_general as H. pose proof insert_row as IR. pose proof justified_judged as JJ.
  pose proof good_event as GE.
  destruct (run_from hash16 contents o files fs db) as [w' r]. cbn [fst snd] in *.
  destruct H as (G & _ & _ & _ & _ & SK & DBE & _ & SUB & FIN).
  exists (inserts (w_trace w')). split; [rewrite DBE, DB; reflexivity|].
  split; [eapply subseq_nodup; [exact SUB|apply D]|]. split; [exact IR|]. split.
  - intros c x Hc Hx E. destruct (IR x Hx) as (c' & H1 & H2 & H3 & H4).
    assert (c' = c) by (eapply (NoDup_map_inv_eq c_span); [apply D| | |]; auto; congruence). subst c'.
    destruct (rm_outcome x) eqn:EO; try (apply (JJ c (rm_outcome x) D Hc); rewrite EO; [discriminate|exact H4]).
    intros (t & Ht & env & f & pre & M & _). destruct (GE _ _ M) as (_ & _ & pre' & -> & _).
    assert (In (c_span c, t) (runs (w_trace w'))).
    { apply runs_in. exists f. destruct M as (later & ->). apply in_or_app. right. right. now left. }
    eapply (SK (proj1 D) x (c_span c) t Hx EO H). congruence.
  - intros E c Hc NU. destruct (FIN E) as [F _]. destruct (F c Hc) as [X|[[(x & X1 & X2)|X]|[_ X]]].
    + rewrite DB in X. now destruct X.
    + exists x. split; [|exact X2]. apply inserts_in.
      apply in_moment in X1 as (pre & later & EE).
      assert (M : moment (EConsole x :: pre) (w_trace w')) by (exists later; exact EE).
      destruct (GE _ _ M) as (_ & _ & _ & K). destruct K as (pre' & ->); [unfold usedb; now rewrite DB|].
      rewrite EE. apply in_or_app. right. right. now left.
    + destruct (NU X).
    + destruct X as (x & X1 & X2 & _); [unfold usedb; now rewrite DB|]. exists x. split; [now apply inserts_in|exact X2].
Qed.

(** ** C12 *)
Lemma ctrlc_result :
  (snd (run_from hash16 contents o files fs db) = Err CtrlC <-> In ECtrlC W') /\
  (forall later pre, W' = later ++ ECtrlC :: pre ->
     ~ In ECtrlC pre /\ forall e, In e later -> exists p, e = ERestore p).
Proof.
  pose proof run_general as H. pose proof good_event as GE.
  destruct (run_from hash16 contents o files fs db) as [w' r]. cbn [fst snd] in *.
  destruct H as (G & O & _). split.
  - split; intros X; [subst r; exact O|]. destruct r as [a|e|]; cbn in O; try contradiction.
    destruct e; cbn in O; try contradiction; [reflexivity|]. now destruct O.
  - intros later pre E. split.
    + assert (M : moment (ECtrlC :: pre) (w_trace w')) by (exists later; exact E).
      destruct (GE _ _ M) as [[X|(p & X)] _]; [exact X|discriminate].
    + intros e He. apply in_split in He as (a & b & ->).
      assert (M : moment (e :: b ++ ECtrlC :: pre) (w_trace w')) by (exists a; rewrite E, <- app_assoc; reflexivity).
      destruct (GE _ _ M) as [[X|X] _]; [|exact X]. exfalso. apply X. apply in_or_app. right. now left.
Qed.

Lemma moment_linear {A} (a b l1 l2 : list A) : l1 ++ a = l2 ++ b -> (exists x, a = x ++ b) \/ (exists x, b = x ++ a).
Proof.
  revert l2. induction l1 as [|y l1 IH]; intros l2 E.
  - left. exists l2. exact E.
  - destruct l2 as [|z l2]; [right; exists (y :: l1); now symmetry|]. injection E as _ E. eapply IH; exact E.
Qed.

Lemma poll_false pre : moment (EPoll :: pre) W' -> o_ctrlc o pre = false.
Proof. intros M. destruct (good_event _ _ M) as [_ X]. exact X. Qed.

Lemma no_poll_after : arrives o -> forall early, moment early W' -> o_ctrlc o early = true ->
  forall later, W' = later ++ early -> ~ In EPoll later.
Proof.
  intros A early M C later E HI. apply in_split in HI as (a & b & ->).
  assert (MP : moment (EPoll :: b ++ early) W') by (exists a; rewrite E, <- app_assoc; reflexivity).
  apply poll_false in MP. rewrite (A early (b ++ early)) in MP; [discriminate|exists b; reflexivity|exact C].
Qed.

Lemma since_app later early : ~ In EPoll later ->
  forall s t f, In (EExec s t f) later -> In s (since_poll (later ++ early)).
Proof.
  induction later as [|e later IH]; intros N s t f H; [destruct H|]. cbn [app since_poll].
  destruct H as [->|H]; [now left|].
  assert (X : In s (since_poll (later ++ early))) by (eapply IH; [intros Y; apply N; now right|exact H]).
  destruct e; auto; [now right|]. exfalso. apply N. now left.
Qed.

Lemma ctrlc_stops : arrives o -> forall early later,
  W' = later ++ early -> o_ctrlc o early = true ->
  (forall r, In (EInsert r) later -> rm_outcome r = Skipped \/ exists pre, early = EPoll :: pre) /\
  (forall s1 t1 f1 s2 t2 f2, In (EExec s1 t1 f1) later -> In (EExec s2 t2 f2) later -> s1 = s2) /\
  (snd (run_from hash16 contents o files fs db) = Ok tt -> forall s t f, ~ In (EExec s t f) later).
Proof.
  intros A early later E C.
  assert (NP := no_poll_after A early (ex_intro _ later E) C later E).
  split; [|split].
  - intros r Hr. apply in_split in Hr as (a & b & ->).
    assert (M : moment (EInsert r :: b ++ early) W') by (exists a; rewrite E, <- app_assoc; reflexivity).
    destruct (good_event _ _ M) as (_ & _ & _ & P).
    destruct (rm_outcome r) eqn:EO; [now left|right..]; (destruct P as (pre & EP); [congruence|]);
      (destruct b as [|x b]; cbn in EP; [eauto|]); injection EP as -> _; exfalso; apply NP;
      (apply in_or_app; right; right; now left).
  - assert (W1 : forall a s2 t2 f2 b s1 t1 f1, later = a ++ EExec s2 t2 f2 :: b -> In (EExec s1 t1 f1) b -> s1 = s2).
    { intros a s2 t2 f2 b s1 t1 f1 -> H1.
      assert (M : moment (EExec s2 t2 f2 :: b ++ early) W') by (exists a; rewrite E, <- app_assoc; reflexivity).
      destruct (good_event _ _ M) as (_ & _ & SP). apply SP. eapply since_app; [|exact H1].
      intros X. apply NP. apply in_or_app. right. now right. }
    intros s1 t1 f1 s2 t2 f2 H1 H2. apply in_split in H2 as (a & b & EL).
    assert (H1' := H1). rewrite EL in H1. apply in_app_or in H1 as [H1|[H1|H1]].
    + apply in_split in H1 as (a1 & a2 & ->). symmetry.
      eapply (W1 a1 s1 t1 f1 (a2 ++ EExec s2 t2 f2 :: b) s2 t2 f2); [rewrite EL, <- app_assoc; reflexivity|].
      apply in_or_app. right. now left.
    + congruence.
    + eapply W1; eassumption.
  - intros R s t f H. pose proof run_general as G.
    destruct (run_from hash16 contents o files fs db) as [w' r]. cbn [fst snd] in *. subst r.
    destruct G as (_ & _ & _ & _ & _ & _ & _ & _ & _ & FIN). destruct (FIN eq_refl) as [_ SP].
    assert (X : In s (since_poll (w_trace w'))) by (rewrite E; eapply since_app; eassumption).
    rewrite SP in X. destruct X.
Qed.

(** ** C13 *)
Lemma reported_justified r : In (EConsole r) W' \/ In (EInsert r) W' ->
  exists c, In c (all_cands files) /\ row_of contents o W' c r.
Proof.
  intros [H|H].
  - apply in_moment in H as (pre & later & E).
    assert (M : moment (EConsole r :: pre) W') by (exists later; exact E).
    destruct (good_event _ _ M) as (_ & R & _).
    destruct (recorded_row _ _ R) as (c & H1 & H2). exists c. split; [exact H1|].
    eapply row_of_mono; [|exact H2]. eapply moment_trans; [apply moment_cons|exact M].
  - apply insert_row. now apply inserts_in.
Qed.

Lemma tests_in_order s t f pre : moment (EExec s t f :: pre) W' ->
  exists c a b, In c (all_cands files) /\ c_span c = s /\ c_tests c = a ++ t :: b /\
    forall t', In t' a -> ran_with o pre s t' XPassed.
Proof.
  intros M. destruct (good_event _ _ M) as (_ & (m & c & a & b & IC & E & T & P & _) & _).
  exists c, a, b. split; [eapply is_cand_all; exact IC|]. auto.
Qed.

Lemma passed_iff c r : distinct files -> In c (all_cands files) -> In (EConsole r) W' -> rm_span r = c_span c ->
  (rm_outcome r = Passed <-> forall t, In t (c_tests c) -> ran_with o W' (c_span c) t XPassed).
Proof.
  intros D Hc H E. destruct (reported_justified r (or_introl H)) as (c' & H1 & H2 & H3 & H4).
  assert (c' = c) by (eapply (NoDup_map_inv_eq c_span); [apply D| | |]; auto; congruence). subst c'.
  split; intros X; [rewrite X in H4; exact H4|].
  destruct (rm_outcome r) eqn:EO; cbn in H4; auto; exfalso.
  - apply in_moment in H as (pre & later & EE).
    assert (M : moment (EConsole r :: pre) W') by (exists later; exact EE).
    destruct (good_event _ _ M) as (_ & _ & NS & _). congruence.
  - destruct H4 as (a & t & b & ET & _ & B). eapply ran_built; [exact D|apply X|exact B]. rewrite ET. apply in_or_app. right. now left.
  - destruct H4 as (a & t & b & ET & _ & B).
    assert (Y : XPassed = XFailed) by (eapply ran_unique; [exact D|apply X|exact B]; rewrite ET; apply in_or_app; right; now left). discriminate.
  - destruct H4 as (a & t & b & ET & _ & B).
    assert (Y : XPassed = XTimedOut) by (eapply ran_unique; [exact D|apply X|exact B]; rewrite ET; apply in_or_app; right; now left). discriminate.
Qed.

End Gen.
