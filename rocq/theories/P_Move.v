(** C87: putting a line without code into a file only moves the candidates, and a directive there hides those that begin below it. *)
From Verif Require Import Base M_Text S_Text L_Text M_Rewriter M_Span S_Span L_Span M_Run S_Run M_Visitor S_Visitor S_Walk S_Candidates L_VisitorMaps
  P_Text M_Directives S_Directives L_Directives P_Directives M_Output M_Config L_Config M_Parsing S_Placed P_Placed S_Move L_Move L_MoveText.
From Coq Require Import List Lia PeanoNat.
Local Open Scope list_scope.

(** ** Positions *)
Lemma lower_compare n a b : lc_compare (lower n a) (lower n b) = lc_compare a b.
Proof.
  destruct a as [la ca], b as [lb cb]. unfold lower, lc_compare. cbn [line column].
  destruct (Nat.leb_spec n la), (Nat.leb_spec n lb); cbn [line column].
  - reflexivity.
  - destruct (Nat.compare_spec (S la) lb), (Nat.compare_spec la lb); try lia; reflexivity.
  - destruct (Nat.compare_spec la (S lb)), (Nat.compare_spec la lb); try lia; reflexivity.
  - reflexivity.
Qed.
Lemma lower_order n : keeps_order (lower_span n).
Proof. intros a b. unfold span_compare, lower_span. cbn [sp_path sp_start sp_end]. rewrite !lower_compare. reflexivity. Qed.
Definition stay (s : span) : span := s.
Lemma moved_stay : forall n, moved stay n = n.
Proof.
  fix IH 1. intros [[i k t s] ks]. cbn [moved l_id l_kind l_text l_span]. unfold stay. f_equal.
  induction ks as [|x ks IHk]; [reflexivity|]. cbn [map]. f_equal; [apply IH|exact IHk].
Qed.

(** The environment in which nothing is skipped. *)
Definition bare (E : venv) : venv :=
  VEnv (v_fw E) (v_ign_fun E) (v_ign_mac E) (v_ign_met E) (v_ign_test E) (v_visit_args E) (v_disamb E) (v_walkable E) (fun _ => false) (v_contents E).
Lemma bare_moves E : moves stay (bare E) E.
Proof.
  constructor; try reflexivity; [|discriminate]. intros x. cbn [bare v_walkable].
  induction (v_walkable E x) as [|y l IH]; [reflexivity|]. cbn [map]. rewrite moved_stay. f_equal. exact IH.
Qed.
Lemma bare_calls E n : calls_move stay (bare E) E n.
Proof. intros c b p _ _. unfold stay, method_span. cbn [bare v_contents]. destruct (span_trim_start _ _); reflexivity. Qed.

(** Skipping selects among the candidates there would be without it. *)
Theorem C87_directives_select : forall E fuel root st, visit_file E fuel root = LDone st ->
  exists st0, visit_file (bare E) fuel root = LDone st0 /\ s_maps st = moved_maps stay (v_skip E) (s_maps st0) /\
    s_tset st = s_tset st0 /\ s_warn st = s_warn st0.
Proof.
  intros E fuel root st H.
  pose proof (file_moved stay (bare E) E (bare_moves E) (fun a b => eq_refl) root fuel (bare_calls E root) (fun _ f _ => bare_calls E f)) as Q.
  rewrite moved_stay, H in Q. destruct (visit_file (bare E) fuel root) as [st0| |]; [|discriminate|discriminate]. injection Q as ->.
  exists st0. split; [reflexivity|]. split; [reflexivity|]. split; reflexivity.
Qed.
Print Assumptions C87_directives_select.

(** A file with the same code elsewhere: the same candidates elsewhere. *)
Theorem C87_moved : forall phi E E' fuel root st, moves phi E E' -> keeps_order phi -> calls_move phi E E' root ->
  (forall x f, In f (v_walkable E x) -> calls_move phi E E' f) -> visit_file E fuel root = LDone st ->
  exists st', visit_file E' fuel (moved phi root) = LDone st' /\ s_maps st' = moved_maps phi (fun s => v_skip E' (phi s)) (s_maps st) /\
    s_tset st' = s_tset st /\ s_warn st' = s_warn st.
Proof.
  intros phi E E' fuel root st MV KO C CL H. eexists. split; [rewrite (file_moved phi E E' MV KO root fuel C CL), H; reflexivity|].
  split; [reflexivity|]. split; reflexivity.
Qed.
Print Assumptions C87_moved.

(** ** Directives *)
Section Dir.
Context (alphanumeric : char -> bool) (denied : warning -> bool).

Lemma collect_same ls : forall n n2 h d d2 ws ws2 ws' r, d_skip_file d = d_skip_file d2 ->
  collect_from alphanumeric denied n ls h d ws = (ws', Ok r) ->
  exists ws2' r2, collect_from alphanumeric denied n2 ls h d2 ws2 = (ws2', Ok r2) /\ d_skip_file r2 = d_skip_file r.
Proof.
  induction ls as [|x ls IH]; intros n n2 h d d2 ws ws2 ws' r Q H; cbn [collect_from] in *; [injection H as <- <-; eauto|].
  destruct (is_skip_file_directive alphanumeric x).
  - destruct h; [eapply IH; [|exact H]; reflexivity|]. destruct (denied _); [discriminate|]. eapply IH; eauto.
  - destruct (is_skip_directive alphanumeric x); [eapply IH; [|exact H]; exact Q|].
    destruct (directive_text x); [destruct (denied _); [discriminate|]|]; eapply IH; eauto.
Qed.
Lemma collect_put x (HX : is_line_comment_or_whitespace x = true) (HF : is_skip_file_directive alphanumeric x = false)
  (HD : is_skip_directive alphanumeric x = true \/ directive_text x = None) A B : forall n n2 h d d2 ws ws2 ws' r, d_skip_file d = d_skip_file d2 ->
  collect_from alphanumeric denied n (A ++ B) h d ws = (ws', Ok r) ->
  exists ws2' r2, collect_from alphanumeric denied n2 (A ++ x :: B) h d2 ws2 = (ws2', Ok r2) /\ d_skip_file r2 = d_skip_file r.
Proof.
  induction A as [|y A IH]; intros n n2 h d d2 ws ws2 ws' r Q H; cbn [app] in *.
  - cbn [collect_from]. rewrite HF. assert (HH : h && is_file_header_line x = h) by (unfold is_file_header_line; rewrite HX; destruct h; reflexivity). rewrite HH.
    destruct HD as [->|HD]; [eapply collect_same; [|exact H]; exact Q|].
    destruct (is_skip_directive alphanumeric x); [eapply collect_same; [|exact H]; exact Q|]. rewrite HD. eapply collect_same; [|exact H]; exact Q.
  - cbn [collect_from] in *. destruct (is_skip_file_directive alphanumeric y).
    + destruct h; [eapply IH; [|exact H]; reflexivity|]. destruct (denied _); [discriminate|]. eapply IH; eauto.
    + destruct (is_skip_directive alphanumeric y); [eapply IH; [|exact H]; exact Q|].
      destruct (directive_text y); [destruct (denied _); [discriminate|]|]; eapply IH; eauto.
Qed.

(** What the line put in must be: a directive to skip, or no directive, without code. *)
Definition harmless (l : text) : Prop := no_code l /\ (skip_comment alphanumeric l \/ forall what, ~ comment_with l what).
Lemma skip_no_code l : skip_comment alphanumeric l -> no_code l.
Proof. intros (what & (a & b & A & _ & ->) & _). right. exists a, (b ++ s2t "necessist:" ++ what). split; [exact A|reflexivity]. Qed.

Section Put.
Variables (contents contents' : text) (n : nat) (l : text).
Hypothesis P : put_in contents contents' n l.
Hypothesis HL : harmless l.
Hypothesis SC' : scalars contents'.

Lemma put_out : exists a b l2, contents = a ++ b /\ contents' = a ++ l2 ++ NL :: b /\ whole a /\ ~ In NL l2 /\ n = S (count_nl a) /\ chomp (l2 ++ [NL]) = l.
Proof.
  destruct P as (a & b & eol & -> & -> & W & N & [[-> C]| ->] & ->).
  - exists a, b, l. repeat split; try assumption. apply chomp_nl, C.
  - exists a, b, (l ++ [CR]). rewrite <- !app_assoc. repeat split; try assumption.
    + intros I. apply in_app_or in I as [I|[I|[]]]; [exact (N I)|discriminate].
    + apply chomp_crnl.
Qed.
Lemma put_scalars : scalars contents.
Proof.
  destruct put_out as (a & b & l2 & -> & Q & _). rewrite Q in SC'. unfold scalars in *. apply Forall_app in SC' as [A B]. apply Forall_app. split; [exact A|].
  apply Forall_app in B as [_ B]. inversion B; assumption.
Qed.
Lemma put_collect ws d : collect alphanumeric denied contents = (ws, Ok d) -> exists ws' d', collect alphanumeric denied contents' = (ws', Ok d') /\ d_skip_file d' = d_skip_file d.
Proof.
  intros H. destruct put_out as (a & b & l2 & Q1 & Q2 & W & N & _ & C). unfold collect in *. rewrite Q1, (proj1 (lines_whole (S (length a)) a b ltac:(lia) W)) in H.
  rewrite Q2, (proj1 (lines_whole (S (length a)) a _ ltac:(lia) W)), lines_nl, C by exact N.
  eapply collect_put; [| | | |exact H]; [apply no_code_spec, HL| | |reflexivity].
  - destruct HL as [_ [K|K]]; destruct (is_skip_file_directive alphanumeric l) eqn:F; try reflexivity; apply is_skip_file_spec in F.
    + destruct (skip_not_file alphanumeric l K F).
    + destruct F as (what & F & _). destruct (K what F).
  - destruct HL as [_ [K|K]]; [left; apply is_skip_spec, K|right]. destruct (directive_text l) as [w|] eqn:F; [|reflexivity].
    destruct (proj1 (directive_text_some l) (ex_intro _ w F)) as [what F']. destruct (K what F').
Qed.

(** Which code is skipped then. *)
Lemma put_skip d d' ws ws' s before mid after : collect alphanumeric denied contents = (ws, Ok d) -> collect alphanumeric denied contents' = (ws', Ok d') ->
  S_Text.between contents (sp_start s) (sp_end s) before mid after ->
  exists v v', skip d contents s = Some v /\ skip d' contents' (lower_span n s) = Some v' /\
    (v' = true <-> (begins_on contents s n /\ skip_comment alphanumeric l) \/ (~ begins_on contents s n /\ v = true)) /\
    (v = true -> begins_on contents s n -> exists x, line_at contents (n - 1) x /\ skip_comment alphanumeric x) /\
    (begins_on contents s n \/ ~ begins_on contents s n).
Proof.
  intros C C' B. destruct put_out as (a & b & l2 & Q1 & Q2 & W & N & Hn & Ch).
  destruct (C28_skip_iff alphanumeric denied contents ws d s before mid after put_scalars C B) as (v & E & V).
  assert (B0 := B). rewrite Q1 in B. destruct (between_put a b l2 n W N Hn _ _ _ _ _ B) as (before' & mid' & after' & B' & Sh). rewrite <- Q2 in B'.
  destruct (C28_skip_iff alphanumeric denied contents' ws' d' (lower_span n s) before' mid' after' SC' C' B') as (v' & E' & V'). exists v, v'. split; [exact E|]. split; [exact E'|].
  assert (ex : exists k, code_offset mid k) by (pose proof (code_offset_spec mid) as K; destruct (first_index _ (lines mid)) as [k|]; [exists k; apply K; reflexivity|exists 0; apply K; reflexivity]).
  destruct ex as [k K].
  assert (un : forall j, code_offset mid j -> j = k).
  { intros j J. apply code_offset_spec in J. apply code_offset_spec in K. destruct (first_index _ (lines mid)); congruence. }
  destruct (code_put a b l2 n W N Hn _ _ _ _ _ _ _ _ k ltac:(rewrite Ch; apply HL) B Sh K) as (k' & K' & L).
  assert (un' : forall j, code_offset mid' j -> j = k').
  { intros j J. apply code_offset_spec in J. apply code_offset_spec in K'. destruct (first_index _ (lines mid')); congruence. }
  assert (BO : begins_on contents s n <-> n = line (sp_start s) + k).
  { split; [|intros Q; exists before, mid, after, k; auto]. intros (u & m & w & j & Bu & J & Q).
    assert (m = mid). { apply (source_text_complete _ _ _ _ _ put_scalars) in Bu. rewrite (source_text_complete _ _ _ _ _ put_scalars B0) in Bu. congruence. }
    subst m. rewrite (un j J) in Q. exact Q. }
  assert (V1 : v = true <-> exists x, line_at contents (line (sp_start s) + k - 1) x /\ skip_comment alphanumeric x).
  { rewrite V. split; [intros (j & x & J & R); rewrite (un j J) in R; eauto|intros (x & R); exists k, x; tauto]. }
  assert (V2 : v' = true <-> exists x, line_at contents' (lowered n (line (sp_start s) + k) - 1) x /\ skip_comment alphanumeric x).
  { rewrite V'. cbn [lower_span sp_start] in *. rewrite <- L. split; [intros (j & x & J & R); rewrite (un' j J) in R; eauto|intros (x & R); exists k', x; tauto]. }
  rewrite BO. rewrite V1. clear V V' V1. split.
  2:{ split; [intros (x & R) ->; exists x; exact R|]. destruct (Nat.eq_dec n (line (sp_start s) + k)); auto. }
  rewrite V2. rewrite Q2. unfold lowered. split.
  - intros (x & LA & Sx). apply (line_put a b l2 n W N Hn) in LA. rewrite Ch in LA. rewrite <- Q1 in LA.
    destruct (Nat.leb_spec n (line (sp_start s) + k)).
    + destruct LA as [[A LA]|[[A ->]|[A LA]]].
      * lia.
      * left. split; [lia|exact Sx].
      * right. split; [lia|]. exists x. split; [|exact Sx]. replace (line (sp_start s) + k - 1) with (S (line (sp_start s) + k) - 1 - 1) by lia. exact LA.
    + destruct LA as [[A LA]|[[A _]|[A _]]]; [|lia|lia]. right. split; [lia|]. exists x. split; assumption.
  - intros [[A Sx]|[A (x & LA & Sx)]].
    + exists l. split; [|exact Sx]. apply (line_put a b l2 n W N Hn). right. left. rewrite Ch. split; [|reflexivity].
      destruct (Nat.leb_spec n (line (sp_start s) + k)); lia.
    + exists x. split; [|exact Sx]. apply (line_put a b l2 n W N Hn). rewrite <- Q1.
      destruct (Nat.leb_spec n (line (sp_start s) + k)).
      * right. right. split; [lia|]. replace (S (line (sp_start s) + k) - 1 - 1) with (line (sp_start s) + k - 1) by lia. exact LA.
      * left. split; [lia|exact LA].
Qed.

(** Where method calls begin. *)
Lemma put_method s before mid after : S_Text.between contents (sp_start s) (sp_end s) before mid after ->
  (forall m1 rest, contents = before ++ m1 ++ rest -> pos (before ++ m1) = LC n 0 -> m1 = [] \/ ~ blank m1) ->
  exists r, span_trim_start contents s = Ok r /\ span_trim_start contents' (lower_span n s) = Ok (lower_span n r).
Proof.
  intros B OC. destruct put_out as (a & b & l2 & Q1 & Q2 & W & N & Hn & Ch).
  destruct (span_trim_start_spec contents s before mid after put_scalars B) as (r & ws & rest & T & R1 & R2 & M & F & G & BR & _). exists r. split; [exact T|].
  assert (B0 := B). rewrite Q1 in B. destruct (between_put a b l2 n W N Hn _ _ _ _ _ B) as (before' & mid' & after' & B' & Sh). rewrite <- Q2 in B'.
  destruct (span_trim_start_spec contents' (lower_span n s) before' mid' after' SC' B') as (r' & ws' & rest' & T' & R1' & R2' & M' & F' & G' & BR' & _).
  rewrite T'. f_equal. destruct r' as [rp rs re], r as [qp qs qe]. cbn [lower_span sp_path sp_start sp_end] in *. subst rp qp re qe. unfold lower_span. cbn [sp_path sp_start sp_end]. f_equal.
  destruct BR' as (_ & <- & _). destruct BR as (_ & <- & _).
  destruct Sh as [x Qa NX _|y Qb|m1 m2 Qa NX Qm].
  - assert (ws' = ws) as -> by (apply (ws_split ws' rest' ws rest); [congruence|exact F'|exact F|exact G'|exact G]).
    symmetry. apply (lower_before a n W Hn _ (rest ++ x)); [rewrite Qa, M, <- !app_assoc; reflexivity|]. intros Z. apply app_eq_nil in Z as [_ Z]. exact (NX Z).
  - assert (ws' = ws) as -> by (apply (ws_split ws' rest' ws rest); [congruence|exact F'|exact F|exact G'|exact G]). subst before.
    rewrite <- !app_assoc. cbn [app]. rewrite (proj2 (lower_after a l2 n W N Hn (y ++ ws))). rewrite <- ?app_assoc. reflexivity.
  - assert (NB : ~ blank m1).
    { assert (A1 : contents = before ++ m1 ++ m2 ++ after) by (rewrite (proj1 B0), Qm, <- app_assoc; reflexivity).
      assert (A2 : pos (before ++ m1) = LC n 0) by (rewrite <- Qa, Hn; apply pos_whole, W). destruct (OC m1 (m2 ++ after) A1 A2) as [Z|Z]; [congruence|exact Z]. }
    assert (Z : exists z0 z, m1 = ws ++ z0 :: z /\ is_whitespace z0 = false).
    { rewrite M in Qm. destruct (app_eq_app ws rest m1 m2 Qm) as (z & [[Z1 Z2]|[Z1 Z2]]).
      - exfalso. apply NB. unfold blank. rewrite Z1 in F. apply Forall_app in F. apply F.
      - destruct z as [|z0 z]; [exfalso; apply NB; rewrite Z1, app_nil_r; exact F|]. exists z0, z. split; [exact Z1|].
        destruct G as [->|(c & q & -> & G)]; [discriminate|]. injection Z2 as <- _. exact G. }
    destruct Z as (z0 & z & Z & Z0).
    assert (ws' = ws) as ->.
    { eapply (ws_split ws' rest' ws); [|exact F'|exact F|exact G'|right; exists z0, (z ++ l2 ++ NL :: m2); split; [reflexivity|exact Z0]].
      rewrite <- M', Z, <- app_assoc. reflexivity. }
    symmetry. apply (lower_before a n W Hn _ (z0 :: z)); [rewrite Qa, Z, <- !app_assoc; reflexivity|discriminate].
Qed.
End Put.
End Dir.

(** ** A file *)
Section OneFile.
Context (alphanumeric : char -> bool) (fw : M_Visitor.framework) (parse_file : path -> text -> option pfile) (denied : warning -> bool).
Notation visit_one := (visit_one alphanumeric fw parse_file denied).
Notation file_env := (file_env fw).
Notation collect := (collect alphanumeric denied).

Lemma lookup_moved phi l name : lookup_local (map (fun e => (fst e, map (moved phi) (snd e))) l) name = map (moved phi) (lookup_local l name).
Proof.
  unfold lookup_local. induction l as [|[x fs] l IH]; [reflexivity|]. cbn [map find fst snd]. destruct (text_eqb x name); [reflexivity|exact IH].
Qed.
Lemma enough_moved phi f : enough (moved_file phi f) = enough f.
Proof.
  unfold enough. cbn [moved_file pf_locals]. induction (pf_locals f) as [|[x fs] l IH]; [reflexivity|]. cbn [map concat fst snd]. rewrite !app_length, map_length, IH. reflexivity.
Qed.
Lemma moved_list_select phi hid hid1 (l : list (span * list text)) : (forall s, In s (map fst l) -> hid1 s = true -> hid s = true) ->
  moved_list phi hid (moved_list stay hid1 l) = moved_list phi hid l.
Proof.
  unfold moved_list, stay. induction l as [|[s ts] l IH]; intros H; [reflexivity|]. cbn [filter map fst snd].
  specialize (IH (fun x I => H x (or_intror I))). specialize (H s (or_introl eq_refl)).
  destruct (hid1 s) eqn:Q1; cbn [negb map filter fst snd].
  - rewrite (H eq_refl). cbn [negb]. exact IH.
  - destruct (hid s); cbn [negb map fst snd]; [exact IH|]. f_equal. exact IH.
Qed.
Lemma keys_selected hid1 (l : list (span * list text)) s : In s (map fst (moved_list stay hid1 l)) <-> In s (map fst l) /\ hid1 s = false.
Proof.
  unfold moved_list, stay. rewrite !in_map_iff. split.
  - intros ([x ts] & <- & I). apply in_map_iff in I as ([y us] & Q & I). injection Q as <- <-. apply filter_In in I as [I N]. cbn [fst] in *.
    split; [exists (y, us); auto|]. destruct (hid1 y); [discriminate|reflexivity].
  - intros (([x ts] & <- & I) & N). cbn [fst] in *. exists (x, ts). split; [reflexivity|]. apply in_map_iff. exists (x, ts). split; [reflexivity|]. apply filter_In. cbn [fst]. rewrite N. auto.
Qed.

(** The spans of the candidates. *)
Definition spans (m : span_test_maps) : list span := map fst (stm_statement m) ++ map fst (stm_method m).

Lemma put_in_file c p contents contents' n l f ws ts m :
  scalars contents' -> put_in contents contents' n l -> harmless alphanumeric l ->
  parse_file p contents = Some f -> parse_file p contents' = Some (moved_file (lower_span n) f) ->
  proper fw p contents f -> off_chains contents f n ->
  visit_one c p contents = (ws, Ok (Some (ts, m))) ->
  exists ws' hidden m0, visit_one c p contents' = (ws', Ok (Some (ts, moved_maps (lower_span n) hidden m0))) /\
    exists hidden0, m = moved_maps stay hidden0 m0 /\
    forall s, In s (spans m0) ->
      (hidden s = true <-> (begins_on contents s n /\ skip_comment alphanumeric l) \/ (~ begins_on contents s n /\ hidden0 s = true)) /\
      (hidden0 s = true -> begins_on contents s n -> exists x, line_at contents (n - 1) x /\ skip_comment alphanumeric x) /\
      (begins_on contents s n \/ ~ begins_on contents s n).
Proof.
  intros SC' PI HL PF PF' PR OC V. pose proof (put_scalars _ _ _ _ PI SC') as SC. unfold M_Parsing.visit_one in *.
  destruct (collect contents) as [dws [d|e|]] eqn:CD; [|congruence|congruence].
  destruct (d_skip_file d) eqn:SF; [congruence|]. rewrite PF in V.
  destruct (put_collect alphanumeric denied _ _ _ _ PI HL SC' dws d CD) as (dws' & d' & CD' & SF'). rewrite CD', SF', SF, PF', enough_moved.
  set (E := file_env c d contents f) in *. set (E' := file_env c d' contents' (moved_file (lower_span n) f)).
  destruct (visit_file E (enough f) (pf_root f)) as [st| |] eqn:VF; [|congruence|congruence].
  destruct (C87_directives_select _ _ _ _ VF) as (st0 & VF0 & M0 & T0 & W0).
  assert (HW : forall name, v_walkable (bare E) name <> [] -> In (name, v_walkable (bare E) name) (pf_locals f)).
  { intros name. cbn. destruct (any_match_b _ _); [|congruence]. unfold lookup_local. destruct (find _ (pf_locals f)) as [[x fs]|] eqn:Fi; [|congruence].
    intros _. apply find_some in Fi as [Fi Q]. apply text_eqb_eq in Q. cbn [fst] in Q. subst x. exact Fi. }
  assert (LP : forall x g, In g (v_walkable (bare E) x) -> forall k, within g k -> part_of f k).
  { intros x g I k K. right. exists x, (v_walkable (bare E) x), g. split; [apply HW; destruct (v_walkable (bare E) x); [destruct I|discriminate]|]. split; assumption. }
  assert (CM : forall g, (forall k, within g k -> part_of f k) -> calls_move (lower_span n) (bare E) E' g).
  { intros g G k b q I MC. destruct (pr_method _ _ _ _ PR k b q (G k I) MC) as (_ & before & mid & after & B).
    destruct (put_method contents contents' n l PI SC' (with_start (n_span k) (sp_end (n_span b))) before mid after) as (r & R & R').
    - destruct (n_span k). exact B.
    - intros m1 rest A1 A2. eapply OC; [exact (G k I)|exact MC|exact A1| |exact A2]. apply (proj1 (proj2 B)).
    - unfold method_span. cbn [bare v_contents]. subst E E'. cbn [M_Parsing.file_env v_contents].
      assert (Z : with_start (lower_span n (n_span k)) (sp_end (lower_span n (n_span b))) = lower_span n (with_start (n_span k) (sp_end (n_span b)))) by (destruct (n_span k), (n_span b); reflexivity).
      rewrite Z, R, R'. reflexivity. }
  assert (MV : moves (lower_span n) (bare E) E').
  { constructor; try reflexivity; [|discriminate]. intros x. subst E E'. cbn [bare M_Parsing.file_env v_walkable moved_file pf_locals].
    destruct (any_match_b _ _); [apply lookup_moved|reflexivity]. }
  destruct (C87_moved _ _ _ _ _ _ MV (lower_order n) (CM (pf_root f) (fun k K => or_introl K)) (fun x g I => CM g (LP x g I)) VF0) as (st' & VF' & M' & T' & W').
  change (pf_root (moved_file (lower_span n) f)) with (moved (lower_span n) (pf_root f)). rewrite VF'.
  assert (HR : result (bare E) (pf_root f) st0) by (exists (enough f); exact VF0).
  assert (IN : forall s, In s (spans (s_maps st0)) -> exists before mid after, S_Text.between contents (sp_start s) (sp_end s) before mid after).
  { intros s I. apply in_app_or in I as [I|I].
    - destruct (statement_path (bare E) p contents f st0 PR HW HR s I) as (_ & u & v & w & B & _). eauto.
    - eapply (method_path (bare E) p contents f st0 PR HW HR s eq_refl SC I). }
  assert (RES : exists hidden m0, s_maps st' = moved_maps (lower_span n) hidden m0 /\ exists hidden0, s_maps st = moved_maps stay hidden0 m0 /\ forall s, In s (spans m0) ->
      (hidden s = true <-> (begins_on contents s n /\ skip_comment alphanumeric l) \/ (~ begins_on contents s n /\ hidden0 s = true)) /\
      (hidden0 s = true -> begins_on contents s n -> exists x, line_at contents (n - 1) x /\ skip_comment alphanumeric x) /\
      (begins_on contents s n \/ ~ begins_on contents s n)).
  { eexists. exists (s_maps st0). split; [exact M'|]. exists (v_skip E). split; [exact M0|]. intros s I. destruct (IN s I) as (before & mid & after & B).
    destruct (put_skip alphanumeric denied _ _ _ _ PI HL SC' d d' dws dws' s before mid after CD CD' B) as (v & v' & S1 & S2 & S3 & S4).
    subst E E'. cbn [M_Parsing.file_env v_skip]. rewrite S1, S2. split; [exact S3|exact S4]. }
  destruct RES as (hidden & m0 & Q1 & hidden0 & Q2 & Q3). rewrite W', W0 in *. rewrite T', <- T0.
  destruct (s_warn st0) as [|w0 wr].
  - injection V as _ <- <-. exists (map (PWDirective p) dws'), hidden, m0. rewrite Q1. split; [reflexivity|]. exists hidden0. split; [exact Q2|exact Q3].
  - destruct (denied WLocalFunctionAmbiguous); [discriminate|]. injection V as _ <- <-. eexists. exists hidden, m0. rewrite Q1. split; [reflexivity|]. exists hidden0. split; [exact Q2|exact Q3].
Qed.

(** C87: a comment [// necessist: skip] put into a file hides the candidates whose code begins on the line it is put above, and
    otherwise only moves the candidates after it one line down. *)
Theorem C87_skip_comment : forall c p contents contents' n l f ws ts m,
  scalars contents' -> put_in contents contents' n l -> skip_comment alphanumeric l ->
  parse_file p contents = Some f -> parse_file p contents' = Some (moved_file (lower_span n) f) ->
  proper fw p contents f -> off_chains contents f n ->
  visit_one c p contents = (ws, Ok (Some (ts, m))) ->
  exists ws' hidden, visit_one c p contents' = (ws', Ok (Some (ts, moved_maps (lower_span n) hidden m))) /\
    forall s, In s (spans m) -> (hidden s = true <-> begins_on contents s n).
Proof.
  intros c p contents contents' n l f ws ts m SC' PI SK PF PF' PR OC V.
  destruct (put_in_file c p contents contents' n l f ws ts m SC' PI (conj (skip_no_code _ _ SK) (or_introl SK)) PF PF' PR OC V)
    as (ws' & hidden & m0 & V' & hidden0 & -> & H).
  exists ws', hidden. split.
  - rewrite V'. do 4 f_equal. unfold moved_maps. cbn [stm_statement stm_method]. symmetry.
    f_equal; apply moved_list_select; intros s I H0; (assert (IS : In s (spans m0)) by (apply in_or_app; auto));
      destruct (H s IS) as (HS & _ & [D|D]); apply HS; tauto.
  - intros s I. assert (K : In s (spans m0) /\ hidden0 s = false).
    { apply in_app_or in I as [I|I]; apply keys_selected in I as [I N]; (split; [apply in_or_app; auto|exact N]). }
    destruct K as [K N]. destruct (H s K) as (HS & _). rewrite HS, N. split; [intros [[B _]|[_ D]]; [exact B|discriminate]|auto].
Qed.

(** Other lines without code only move the candidates after them, but for one put between a comment [// necessist: skip] and what
    it hides. *)
Theorem C87_plain_line : forall c p contents contents' n l f ws ts m,
  scalars contents' -> put_in contents contents' n l -> no_code l -> (forall what, ~ comment_with l what) ->
  (forall x, line_at contents (n - 1) x -> ~ skip_comment alphanumeric x) ->
  parse_file p contents = Some f -> parse_file p contents' = Some (moved_file (lower_span n) f) ->
  proper fw p contents f -> off_chains contents f n ->
  visit_one c p contents = (ws, Ok (Some (ts, m))) ->
  exists ws', visit_one c p contents' = (ws', Ok (Some (ts, moved_maps (lower_span n) (fun _ => false) m))).
Proof.
  intros c p contents contents' n l f ws ts m SC' PI NC ND NS PF PF' PR OC V.
  destruct (put_in_file c p contents contents' n l f ws ts m SC' PI (conj NC (or_intror ND)) PF PF' PR OC V)
    as (ws' & hidden & m0 & V' & hidden0 & -> & H).
  exists ws'. rewrite V'. do 4 f_equal.
  assert (EQ : forall s, In s (spans m0) -> hidden s = hidden0 s).
  { intros s I. destruct (H s I) as (HS & HB & D). destruct (hidden s).
    - symmetry. destruct (proj1 HS eq_refl) as [[_ (w & C & _)]|[_ Q]]; [destruct (ND w C)|exact Q].
    - destruct (hidden0 s) eqn:Q; [|reflexivity]. exfalso. destruct D as [D|D]; [destruct (HB eq_refl D) as (x & L & S'); exact (NS x L S')|].
      assert (false = true) by (apply HS; auto). discriminate. }
  assert (G : forall (l0 : list (span * list text)), (forall s, In s (map fst l0) -> hidden s = hidden0 s) ->
    moved_list (lower_span n) hidden l0 = moved_list (lower_span n) (fun _ => false) (moved_list stay hidden0 l0)).
  { unfold moved_list, stay. induction l0 as [|[s us] l0 IH]; intros A; [reflexivity|]. cbn [filter map fst snd]. rewrite (A s (or_introl eq_refl)).
    specialize (IH (fun x I => A x (or_intror I))). destruct (hidden0 s); cbn [negb map filter fst snd]; [exact IH|]. f_equal. exact IH. }
  unfold moved_maps. cbn [stm_statement stm_method]. f_equal; apply G; intros s I; apply EQ; apply in_or_app; auto.
Qed.
End OneFile.
Print Assumptions C87_skip_comment.
Print Assumptions C87_plain_line.
