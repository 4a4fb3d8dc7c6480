(** C74: the candidates that parsing yields are what running them requires. *)
From Verif Require Import Base M_Text S_Text L_Text M_Rewriter M_Span S_Span L_Span M_Instr S_Instr M_Run S_Run L_Run L_Resume M_Visitor S_Visitor S_Walk
  S_Candidates L_VisitorFacts L_VisitorMaps L_Candidates P_Text M_Directives S_Directives M_Config P_Config M_Output M_Options M_Parsing P_Parsing S_Placed.

Section File.
Context (E : venv) (p : path) (contents : text) (f : pfile) (st : vst).
Hypothesis HP : proper (v_fw E) p contents f.
Hypothesis HW : forall name, v_walkable E name <> [] -> In (name, v_walkable E name) (pf_locals f).
Hypothesis HR : result E (pf_root f) st.

Lemma in_file_part n : in_file E (pf_root f) n -> part_of f n.
Proof.
  intros [H|(x & g & fs & H & I)]; [left; exact H|right]. exists x, (g :: fs), g. split; [|split; [left; reflexivity|exact I]].
  rewrite <- H. apply HW. rewrite H. discriminate.
Qed.
Lemma parsed_tree : parsed E (pf_root f).
Proof.
  destruct (pr_shape _ _ _ _ HP E eq_refl) as [A B]. split; [exact A|]. intros x g fs H.
  apply (B x (g :: fs) g); [|left; reflexivity]. rewrite <- H. apply HW. rewrite H. discriminate.
Qed.
Lemma statement_eligible sp t : candidate st Statement sp t -> exists s, part_of f s /\ eligible s /\ n_span s = sp.
Proof.
  intros HC. destruct (statement_origin E (pf_root f) st parsed_tree HR sp t HC) as (n & L & R & s & Hb & Hin & Hw & Hs & _ & (His & Hk & Hcase)).
  exists s. split; [apply in_file_part, Hin|]. split; [|exact Hs].
  destruct Hcase as [(Hno & Hc & _)|(c & Hc & _)].
  - destruct His as (r & c & d & e & K). exists r, c, d, e. split; [exact K|]. left. unfold control in Hc. rewrite K in Hc. exact Hc.
  - destruct Hc as (l & e & r & rm & ct & d & -> & K & _). exists rm, ct, d, true. split; [exact K|right; reflexivity].
Qed.
Lemma key_candidate k sp : In sp (map fst (match k with Statement => stm_statement (s_maps st) | MethodCall => stm_method (s_maps st) end)) ->
  exists t, candidate st k sp t.
Proof.
  intros I. apply in_map_iff in I as [[s ts] [E1 I]]. cbn in E1. subst s. destruct HR as [fuel V]. destruct (visit_maps_ok _ _ _ _ V) as [[_ A] [_ B]].
  destruct k.
  - destruct (A _ _ I) as [N _]. destruct ts as [|t ts]; [congruence|]. exists t, (t :: ts). split; [exact I|left; reflexivity].
  - destruct (B _ _ I) as [N _]. destruct ts as [|t ts]; [congruence|]. exists t, (t :: ts). split; [exact I|left; reflexivity].
Qed.
Lemma ascending_app l1 a l2 b l3 : ascending (l1 ++ a :: l2 ++ b :: l3) -> span_lt a b.
Proof.
  intros A. assert (G : forall l a b l3, ascending (a :: l ++ b :: l3) -> span_lt a b).
  { clear. induction l as [|x l IH]; intros a b l3 A; cbn in A; [apply A|]. destruct A as [A B]. eapply span_compare_trans; [exact A|]. eapply IH. exact B. }
  eapply G. clear G. induction l1 as [|x l1 IH]; [exact A|]. apply IH. cbn [app ascending] in A. destruct (l1 ++ a :: l2 ++ b :: l3) eqn:Q; [exact I|apply A].
Qed.

Lemma statements_layout : layout contents (map fst (stm_statement (s_maps st))).
Proof.
  assert (X : forall s, In s (map fst (stm_statement (s_maps st))) -> exists n, part_of f n /\ eligible n /\ n_span n = s).
  { intros s I. destruct (key_candidate Statement s I) as [t C]. exact (statement_eligible s t C). }
  split.
  - intros s I. destruct (X s I) as (n & P & EL & <-). apply (pr_statement _ _ _ _ HP n P EL).
  - assert (Y : forall l1 a l2 b l3, map fst (stm_statement (s_maps st)) = l1 ++ a :: l2 ++ b :: l3 ->
      span_lt a b /\ sp_path a = sp_path b /\ (a = b \/ disjoint a b \/ nested_in a b \/ nested_in b a) /\ a <> b).
    { intros l1 a l2 b l3 Q. assert (IA : In a (map fst (stm_statement (s_maps st)))) by (rewrite Q; apply in_or_app; right; left; reflexivity).
      assert (IB : In b (map fst (stm_statement (s_maps st)))) by (rewrite Q; apply in_or_app; right; right; apply in_or_app; right; left; reflexivity).
      destruct (X a IA) as (n & P1 & E1 & <-). destruct (X b IB) as (n' & P2 & E2 & <-).
      assert (SL : span_lt (n_span n) (n_span n')). { eapply (ascending_app l1 _ l2). rewrite <- Q. destruct HR as [fuel V]. apply (visit_maps_ok _ _ _ _ V). }
      split; [exact SL|]. split; [rewrite (proj1 (pr_statement _ _ _ _ HP n P1 E1)), (proj1 (pr_statement _ _ _ _ HP n' P2 E2)); reflexivity|].
      split; [exact (pr_nested _ _ _ _ HP n n' P1 P2 E1 E2)|]. intros Q'. rewrite Q' in SL. unfold span_lt in SL.
      rewrite (proj2 (span_compare_eq _ _) eq_refl) in SL. discriminate. }
    assert (NE : forall s, In s (map fst (stm_statement (s_maps st))) -> lc_lt (sp_start s) (sp_end s)).
    { intros s I. destruct (X s I) as (n & P1 & E1 & <-). destruct (proj2 (pr_statement _ _ _ _ HP n P1 E1)) as (before & mid & after & (_ & <- & <-) & N).
      unfold pos. rewrite advance_app. apply advance_lt, N. }
    assert (ST : forall a b, span_lt a b -> sp_path a = sp_path b -> lc_le (sp_start a) (sp_start b)).
    { clear. intros a b. unfold span_lt, span_compare. intros H EQ. rewrite EQ in H. rewrite (proj2 (path_compare_eq _ _) eq_refl) in H.
      destruct (lc_compare (sp_start a) (sp_start b)) eqn:Q; try discriminate; [left; apply lc_compare_eq, Q|right; apply lc_compare_lt, Q]. }
    assert (Z : forall l1 a l2 b l3, map fst (stm_statement (s_maps st)) = l1 ++ a :: l2 ++ b :: l3 ->
      lc_lt (sp_start a) (sp_start b) /\ (lc_le (sp_end a) (sp_start b) \/ lc_le (sp_end b) (sp_end a))).
    { intros l1 a l2 b l3 Q. destruct (Y _ _ _ _ _ Q) as (SL & SP & D & NQ). specialize (ST a b SL SP).
      assert (NA : lc_lt (sp_start a) (sp_end a)) by (apply NE; rewrite Q; apply in_or_app; right; left; reflexivity).
      assert (NB : lc_lt (sp_start b) (sp_end b)) by (apply NE; rewrite Q; apply in_or_app; right; right; apply in_or_app; right; left; reflexivity).
      clear -ST NA NB D NQ. destruct a as [pa [l1 c1] [l2 c2]], b as [pb [l3 c3] [l4 c4]].
      unfold disjoint, nested_in, lc_le, lc_lt in *. cbn in *. 
      assert (EQ : forall l c l' c' : nat, LC l c = LC l' c' <-> l = l' /\ c = c') by (intros; split; [intros H; inversion H; auto|intros [-> ->]; reflexivity]).
      rewrite !EQ in *. destruct D as [D|D]; [congruence|]. lia. }
    split; intros l1 a l2 b l3 Q; apply (Z _ _ _ _ _ Q).
Qed.

Lemma statement_path s : In s (map fst (stm_statement (s_maps st))) -> sp_path s = p /\
  exists before mid after, between contents (sp_start s) (sp_end s) before mid after /\ mid <> [].
Proof.
  intros I. destruct (key_candidate Statement s I) as [t C]. destruct (statement_eligible s t C) as (n & P & EL & <-). apply (pr_statement _ _ _ _ HP n P EL).
Qed.
Lemma method_path s : v_contents E = contents -> scalars contents -> In s (map fst (stm_method (s_maps st))) -> sp_path s = p /\
  exists before mid after, between contents (sp_start s) (sp_end s) before mid after.
Proof.
  intros VC SC I. destruct (key_candidate MethodCall s I) as [t C].
  destruct (method_origin E (pf_root f) st parsed_tree HR s t C) as (n & L & R & c & ctx & _ & Hin & _ & _ & (_ & _ & _ & b & names & MC & MS) & _).
  destruct (pr_method _ _ _ _ HP c b names (in_file_part _ Hin) MC) as (P & before & mid & after & B).
  destruct (span_trim_start_spec contents (with_start (n_span c) (sp_end (n_span b))) before mid after SC) as (s' & ws & rest & Q1 & Q2 & Q3 & _ & _ & _ & Q4 & _).
  { destruct (n_span c); exact B. }
  unfold method_span in MS. rewrite VC, Q1 in MS. injection MS as <-. split; [rewrite Q2; destruct (n_span c); exact P|].
  exists (before ++ ws), rest, after. exact Q4.
Qed.
End File.

(** ** Several files *)
Section Parsing.
Context (alphanumeric : char -> bool) (fw : M_Visitor.framework) (own : builtin) (parse_file : path -> text -> option pfile) (denied : warning -> bool).
Context (root : path) (read : path -> option text) (is_dir is_file : path -> bool) (walk_dir : path -> list (option path)).
Notation parse := (parse alphanumeric fw own parse_file denied root read is_dir is_file walk_dir).

(** C74: if the parser reads each file properly, then what parsing yields is fit to be run: each candidate is in the file it is
    attributed to, and denotes a piece of that file's text; the statements come in order, each not empty, and any two are
    disjoint or nested. *)
Theorem C74_fit_to_run : forall cfg sf ws n m, (forall x, alphanumeric x = true -> is_meta x = false) ->
  (forall full contents, read full = Some contents -> scalars contents) ->
  (forall p contents f, read (root ++ p) = Some contents -> parse_file p contents = Some f -> proper fw p contents f) ->
  parse cfg sf = (ws, Ok (n, m)) ->
  paths_ok m /\
  forall p x, In (p, x) m -> exists contents, read (root ++ p) = Some contents /\
    layout contents (map fst (stm_statement x)) /\
    (forall c, In c (stm_iter x) -> exists before mid after, between contents (sp_start (c_span c)) (sp_end (c_span c)) before mid after).
Proof.
  intros cfg sf ws n m AL SC PR H.
  assert (A : forall p x, In (p, x) m -> exists contents, read (root ++ p) = Some contents /\ layout contents (map fst (stm_statement x)) /\
    forall c, In c (stm_iter x) -> sp_path (c_span c) = p /\ exists before mid after, between contents (sp_start (c_span c)) (sp_end (c_span c)) before mid after).
  { intros p x I. destruct (C39_from_files_to_candidates alphanumeric fw own parse_file denied root read is_dir is_file walk_dir cfg sf ws n m AL H p x I)
      as (_ & contents & f & E & st & R & _ & PF & IF & RS & ->). specialize (PR p contents f R PF). specialize (SC _ _ R).
    assert (FW : v_fw E = fw) by exact (if_framework _ _ _ _ _ _ _ IF). rewrite <- FW in PR.
    assert (HW : forall name, v_walkable E name <> [] -> In (name, v_walkable E name) (pf_locals f))
      by (intros name N; apply (if_walkable_only _ _ _ _ _ _ _ IF name N)).
    exists contents. split; [exact R|]. split; [eapply statements_layout; eassumption|].
    intros c I'. unfold stm_iter in I'. apply in_app_or in I' as [I'|I']; apply in_map_iff in I' as [e [<- I']]; cbn [c_span];
      apply (in_map fst) in I'.
    - destruct (statement_path E p contents f st PR HW RS _ I') as (Q & before & mid & after & B & _). split; [exact Q|]. exists before, mid, after. exact B.
    - eapply method_path; try eassumption. exact (if_contents _ _ _ _ _ _ _ IF). }
  split.
  - intros p x c I I'. destruct (A p x I) as (contents & _ & _ & B). apply (B c I').
  - intros p x I. destruct (A p x I) as (contents & R & L & B). exists contents. split; [exact R|]. split; [exact L|]. intros c I'. apply (B c I').
Qed.
End Parsing.
Print Assumptions C74_fit_to_run.
