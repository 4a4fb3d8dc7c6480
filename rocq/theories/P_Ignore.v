(** C85: ignoring more never adds a candidate, but for statements around calls that are newly ignored. *)
From Verif Require Import Base M_Text S_Text L_Text M_Rewriter M_Span S_Span L_Span P_Text M_Instr S_Instr P_Instr M_Run S_Run L_Run P_Run
  M_Exec S_Exec L_Exec P_Exec M_Output L_Output M_Sqlite P_Sqlite M_Options P_Options M_Config L_Config P_Config M_Main P_Main P_EndToEnd
  M_Visitor S_Visitor S_Walk S_Candidates L_Visitor P_Visitor M_Directives S_Directives P_Directives M_Parsing P_Parsing M_Find M_Project S_Placed P_Placed P_Project
  P_Source S_Ignore L_Ignore.
From Verif Require M_Skill P_Skill P_Part.
From Coq Require Import List.
Local Open Scope list_scope.

(** One file. *)
Theorem C85_file : forall E E' root st st', ignores_more E E' -> (forall t, v_ign_test E t = true -> v_ign_test E' t = true) ->
  parsed E root -> result E root st -> result E' root st' ->
  (forall t, In t (s_tset st') -> In t (s_tset st)) /\
  forall k sp t, candidate st' k sp t ->
    candidate st k sp t \/ (k = Statement /\ v_visit_args E = false /\ around_newly_ignored E E' root sp).
Proof.
  intros E E' root st st' IM TS PA RS RS'. split; [exact (file_tests_more E E' IM TS root st st' PA RS RS')|exact (file_more E E' IM TS root st st' PA RS RS')].
Qed.

(** If only more tests are ignored, then just their candidates disappear. *)
Theorem C85_tests : forall E E' root st st', ignores_more E E' -> ignores_more E' E -> (forall t, v_ign_test E t = true -> v_ign_test E' t = true) ->
  parsed E root -> result E root st -> result E' root st' ->
  (forall t, In t (s_tset st') <-> In t (s_tset st) /\ v_ign_test E' t = false) /\
  forall k sp t, candidate st' k sp t <-> candidate st k sp t /\ v_ign_test E' t = false.
Proof.
  intros E E' root st st' IM IM' TS PA RS RS'. assert (PA' : parsed E' root) by (exact (parsed_more E E' IM root PA)).
  destruct (only_file E root st (fun x => proj1 (im_no_walkable _ _ IM x)) PA RS) as [C T].
  destruct (only_file E' root st' (fun x => proj2 (im_no_walkable _ _ IM x)) PA' RS') as [C' T'].
  assert (TI : forall tn t, a_test_in E' [] [root] tn t <-> a_test_in E [] [root] tn t /\ v_ign_test E' t = false).
  { intros tn t. split.
    - intros F. split; [exact (test_less E E' IM TS root tn t F)|]. destruct F as (n & ctx & b & _ & _ & _ & I). exact I.
    - intros [(n & ctx & b & [<-|[]] & V & K & _) I]. exists root, ctx, b. split; [left; reflexivity|]. split; [apply (test_visits E E' IM [] root None tn ctx (proj1 PA)), V|]. auto. }
  assert (NN : forall c, ~ newly_ignored E E' c).
  { intros c (_ & [I|I] & N); apply N; [left; exact (ignored_call_more E' E IM' c I)|right; exact (ignored_method_more E' E IM' c I)]. }
  assert (NN' : forall c, ~ newly_ignored E' E c).
  { intros c (_ & [I|I] & N); apply N; [left; exact (ignored_call_more E E' IM c I)|right; exact (ignored_method_more E E' IM c I)]. }
  assert (Y : forall tn k sp t, a_test_in E [] [root] tn t -> (yields E true (last_statement tn) [] (n_kids tn) k sp <-> yields E' true (last_statement tn) [] (n_kids tn) k sp)).
  { intros tn k sp t F. assert (W : forall n, In n (n_kids tn) -> well_formed E n = true /\ well_formed E' n = true).
    { intros n I. assert (Wi : within root n) by (eapply in_trans; [exact (test_inside E root tn t F)|eapply wi_kid; [exact I|constructor]]).
      split; eapply L_VisitorFacts.wf_within; eauto; [apply PA|apply PA']. }
    split; intros H.
    - destruct (yields_more E' E IM' true (last_statement tn) [] (n_kids tn) k sp (fun n I => proj2 (W n I)) H) as [H'|(_ & _ & n & s & _ & _ & _ & _ & c & m & _ & N & _)]; [exact H'|destruct (NN' c N)].
    - destruct (yields_more E E' IM true (last_statement tn) [] (n_kids tn) k sp (fun n I => proj1 (W n I)) H) as [H'|(_ & _ & n & s & _ & _ & _ & _ & c & m & _ & N & _)]; [exact H'|destruct (NN c N)]. }
  split.
  - intros t. rewrite T, T'. split; [intros (tn & F); apply TI in F as [F I]; eauto|intros [(tn & F) I]; exists tn; apply TI; auto].
  - intros k sp t. rewrite C, C'. split.
    + intros (tn & F & H). apply TI in F as [F I]. split; [|exact I]. exists tn. split; [exact F|]. apply (Y tn k sp t F), H.
    + intros [(tn & F & H) I]. exists tn. split; [apply TI; auto|]. apply (Y tn k sp t F), H.
Qed.

(** With [walks_arguments] set, nothing is ever added. *)
Theorem C85_arguments : forall E E' root st st', ignores_more E E' -> (forall t, v_ign_test E t = true -> v_ign_test E' t = true) ->
  parsed E root -> result E root st -> result E' root st' -> v_visit_args E = true ->
  forall k sp t, candidate st' k sp t -> candidate st k sp t.
Proof.
  intros E E' root st st' IM TS PA RS RS' A k sp t H. destruct (file_more E E' IM TS root st st' PA RS RS' k sp t H) as [X|(_ & X & _)]; [exact X|congruence].
Qed.

Section Parse.
Context (alphanumeric : char -> bool) (AL : forall x, alphanumeric x = true -> is_meta x = false).
Context (fw : M_Visitor.framework) (own : builtin) (parse_file : path -> text -> option pfile) (denied : warning -> bool).
Context (root : path) (read : path -> option text) (is_dir is_file : path -> bool) (walk_dir : path -> list (option path)).
Notation parse := (parse alphanumeric fw own parse_file denied root read is_dir is_file walk_dir).
Notation in_force := (in_force alphanumeric fw own).

Lemma env_more cfg cfg' c c' ws d contents f : more_ignored cfg cfg' ->
  compile_config alphanumeric denied own cfg = Ok c -> compile_config alphanumeric denied own cfg' = Ok c' -> collect alphanumeric denied contents = (ws, Ok d) ->
  ignores_more (file_env fw c d contents f) (file_env fw c' d contents f) /\
  forall t, v_ign_test (file_env fw c d contents f) t = true -> v_ign_test (file_env fw c' d contents f) t = true.
Proof.
  intros [M1 M2 M3 M4 M5 M6 [M7 M8]] C C' D.
  pose proof (in_force_env alphanumeric fw own denied cfg c ws d contents f AL C D) as I.
  pose proof (in_force_env alphanumeric fw own denied cfg' c' ws d contents f AL C' D) as I'. split.
  - constructor; try reflexivity.
    + rewrite (if_disambiguation _ _ _ _ _ _ _ I), (if_disambiguation _ _ _ _ _ _ _ I'), M5. reflexivity.
    + pose proof (if_arguments _ _ _ _ _ _ _ I) as A. pose proof (if_arguments _ _ _ _ _ _ _ I') as A'. rewrite M6 in A'.
      destruct (v_visit_args (file_env fw c d contents f)), (v_visit_args (file_env fw c' d contents f)); try reflexivity; exfalso; intuition congruence.
    + intros x. split.
      * destruct (v_walkable (file_env fw c d contents f) x) eqn:W; [reflexivity|]. destruct (if_walkable_only _ _ _ _ _ _ _ I x) as [(q & Q & _) _]; [rewrite W; discriminate|]. rewrite M7 in Q. destruct Q.
      * destruct (v_walkable (file_env fw c' d contents f) x) eqn:W; [reflexivity|]. destruct (if_walkable_only _ _ _ _ _ _ _ I' x) as [(q & Q & _) _]; [rewrite W; discriminate|]. rewrite M8 in Q. destruct Q.
    + intros x H. apply (if_functions _ _ _ _ _ _ _ I) in H as (q & Q & G). apply (if_functions _ _ _ _ _ _ _ I'). exists q. split; [|exact G]. destruct Q as [Q|Q]; [left; exact Q|right; apply M1, Q].
    + intros x H. apply (if_macros _ _ _ _ _ _ _ I) in H as (q & Q & G). apply (if_macros _ _ _ _ _ _ _ I'). exists q. split; [|exact G]. destruct Q as [Q|Q]; [left; exact Q|right; apply M2, Q].
    + intros x H. apply (if_methods _ _ _ _ _ _ _ I) in H as (q & Q & G). apply (if_methods _ _ _ _ _ _ _ I'). exists q. split; [|exact G]. destruct Q as [Q|Q]; [left; exact Q|right; apply M3, Q].
  - intros t H. apply (if_tests _ _ _ _ _ _ _ I) in H. apply (if_tests _ _ _ _ _ _ _ I'). apply M4, H.
Qed.

(** What the second configuration adds to the candidates of a file. *)
Definition added (cfg cfg' : toml) (p : path) (k : kind) (sp : span) : Prop :=
  k = Statement /\ t_visit_args cfg <> Some true /\
  exists contents f E E', read (root ++ p) = Some contents /\ parse_file p contents = Some f /\
    in_force cfg contents f E /\ in_force cfg' contents f E' /\ around_newly_ignored E E' (pf_root f) sp.

(** The files of a project, with the one configuration and with the other. *)
Theorem C85_parse : forall cfg cfg' sf ws ws' n n' m m', more_ignored cfg cfg' ->
  (forall p contents t, read (root ++ p) = Some contents -> parse_file p contents = Some t -> proper fw p contents t) ->
  parse cfg sf = (ws, Ok (n, m)) -> parse cfg' sf = (ws', Ok (n', m')) ->
  map fst m' = map fst m /\
  forall p x x', In (p, x) m -> In (p, x') m' -> forall k sp t, lists x' k sp t -> lists x k sp t \/ added cfg cfg' p k sp.
Proof.
  intros cfg cfg' sf ws ws' n n' m m' MI PP H H'. split.
  - assert (S1 : forall cfg ws n m, parse cfg sf = (ws, Ok (n, m)) -> Sorted.StronglySorted (fun a b => path_compare a b = Lt) (map fst m)).
    { clear. intros cfg ws n m H. destruct (parse_ok_config _ _ _ _ _ _ _ _ _ _ _ _ _ _ _ H) as [c C].
      destruct (parse_spec alphanumeric fw own parse_file denied root read is_dir is_file walk_dir cfg sf c C) as [ws0 [r [P [_ A]]]]. rewrite H in P. injection P as <- <-.
      destruct (A n m eq_refl) as [S _]. cbn [ps_map] in S. clear - S. induction S as [|a l S IH F]; [constructor|]. cbn [map]. constructor; [exact IH|].
      apply Forall_forall. intros q I. apply in_map_iff in I as (b & <- & I). rewrite Forall_forall in F. apply F, I. }
    assert (K : forall p, In p (map fst m') <-> In p (map fst m)).
    { intros p. assert (X : forall cfg ws n m, parse cfg sf = (ws, Ok (n, m)) -> (In p (map fst m) <-> In (root ++ p) (visited root is_dir is_file walk_dir sf) /\
         exists contents, read (root ++ p) = Some contents /\ ~ marked alphanumeric contents /\ exists f, parse_file p contents = Some f)).
      { clear - AL. intros cfg ws n m H. split.
        - intros I. apply in_map_iff in I as ((q & x) & <- & I). cbn [fst].
          destruct (C39_from_files_to_candidates alphanumeric fw own parse_file denied root read is_dir is_file walk_dir cfg sf ws n m AL H q x I) as (V & contents & f & E & st & R & M & PF & _).
          split; [exact V|]. exists contents. eauto.
        - intros (V & contents & R & M & f & PF). destruct (C39_files_listed alphanumeric fw own parse_file denied root read is_dir is_file walk_dir cfg sf ws n m H p V) as (contents' & R' & Y).
          rewrite R in R'. injection R' as <-. destruct (proj2 Y) as [x I]; [eauto|]. apply in_map_iff. exists (p, x). auto. }
      rewrite (X cfg' ws' n' m' H'), (X cfg ws n m H). reflexivity. }
    pose proof (S1 _ _ _ _ H) as A. pose proof (S1 _ _ _ _ H') as A'. clear - A A' K.
    revert A K. generalize (map fst m). intros l. revert l. induction A' as [|a l' A' IH F]; intros l A K.
    + destruct l as [|b l]; [reflexivity|]. destruct (proj2 (K b)); left; reflexivity.
    + destruct A as [|b l A F']; [destruct (proj1 (K a)); left; reflexivity|]. rewrite Forall_forall in F, F'.
      assert (E : a = b).
      { destruct (proj1 (K a) (or_introl eq_refl)) as [E|I]; [symmetry; exact E|]. destruct (proj2 (K b) (or_introl eq_refl)) as [E|J]; [exact E|].
        exfalso. pose proof (F' a I) as X. pose proof (F b J) as Y. rewrite L_Span.path_compare_antisym in X. rewrite Y in X. discriminate. }
      subst b. f_equal. apply IH; [exact A|]. intros p. split; intros I.
      * destruct (proj1 (K p) (or_intror I)) as [<-|J]; [|exact J]. exfalso. pose proof (F a I) as X. rewrite (proj2 (L_Span.path_compare_eq a a) eq_refl) in X. discriminate.
      * destruct (proj2 (K p) (or_intror I)) as [<-|J]; [|exact J]. exfalso. pose proof (F' a I) as X. rewrite (proj2 (L_Span.path_compare_eq a a) eq_refl) in X. discriminate.
  - intros p x x' I I' k sp t L.
    destruct (file_walk _ _ _ _ _ _ _ _ _ _ _ _ _ _ _ _ _ H I) as (c & contents & dws & d & f & st & C & R & D & PF & VF & ->).
    destruct (file_walk _ _ _ _ _ _ _ _ _ _ _ _ _ _ _ _ _ H' I') as (c' & contents' & dws' & d' & f' & st' & C' & R' & D' & PF' & VF' & ->).
    rewrite R in R'. injection R' as <-. rewrite D in D'. injection D' as _ <-. rewrite PF in PF'. injection PF' as <-.
    destruct (env_more cfg cfg' c c' dws d contents f MI C C' D) as [IM TS].
    assert (PA : parsed (file_env fw c d contents f) (pf_root f)).
    { pose proof (pr_shape _ _ _ _ (PP p contents f R PF) (file_env fw c d contents f) eq_refl) as [W _]. split; [exact W|].
      intros y g gs Q. rewrite (proj1 (im_no_walkable _ _ IM y)) in Q. discriminate. }
    destruct (C85_file _ _ _ st st' IM TS PA (ex_intro _ _ VF) (ex_intro _ _ VF')) as [_ X].
    destruct (X k sp t L) as [Y|(-> & A & N)]; [left; exact Y|right]. split; [reflexivity|].
    pose proof (in_force_env alphanumeric fw own denied cfg c dws d contents f AL C D) as F.
    split; [intros Q; apply (if_arguments _ _ _ _ _ _ _ F) in Q; congruence|].
    exists contents, f, (file_env fw c d contents f), (file_env fw c' d contents f). split; [exact R|]. split; [exact PF|]. split; [exact F|].
    split; [eapply in_force_env; eassumption|exact N].
Qed.
End Parse.
Print Assumptions C85_file.
Print Assumptions C85_tests.
Print Assumptions C85_arguments.
Print Assumptions C85_parse.

Lemma paths_det (g : setting) root ps : forall l l',
  Forall2 (fun p q => exists full, means root p full /\ g_canon g full = Some q /\ P_Options.within root q) ps l ->
  Forall2 (fun p q => exists full, means root p full /\ g_canon g full = Some q /\ P_Options.within root q) ps l' -> l = l'.
Proof.
  induction ps as [|p ps IH]; intros l l' H H'; inversion H as [|? q ? r (f & M & C & _) H0]; inversion H' as [|? q' ? r' (f' & M' & C' & _) H0']; subst; [reflexivity|].
  apply means_resolve in M, M'. subst f f'. f_equal; [congruence|]. apply IH; assumption.
Qed.

(** Invocations: whatever the second one reports or records is a candidate of the first one, or added. *)
Section Invocations.
Context {V : Type} (yaml : text -> option M_Skill.header) (semver : text -> option V) (vcmp : V -> V -> comparison)
        (vshow : V -> text) (pshow : path -> text) (builtin_skill : text) (builtin_version : V)
        (hash16 : text -> text) (default_toml : text).
Notation invoke := (necessist yaml semver vcmp vshow pshow builtin_skill builtin_version hash16 default_toml).
Context (alphanumeric : char -> bool) (AL : forall x, alphanumeric x = true -> is_meta x = false) (denied : warning -> bool).
Context (parser : M_Options.framework -> path -> text -> option pfile) (PP : proper_parsers parser).
Context (anchor : finder) (ignored : path -> bool) (root : path) (tree : entry).
Context (g : setting) (RW : reads_with alphanumeric denied parser anchor ignored root tree g).
Notation added := (fun f k => added alphanumeric (visitor_of f) (builtin_of f) (parser f) root (read_source root (k_src k))).

Theorem C85_prepared : forall o sel k k' f c c' files files', k_src k' = k_src k -> more_ignored c c' ->
  prepared_with g o sel k f c files -> prepared_with g o sel k' f c' files' ->
  map fst files' = map fst files /\
  forall p x x', In (p, x) files -> In (p, x') files' -> forall kd sp t, lists x' kd sp t -> lists x kd sp t \/ added f k c c' p kd sp.
Proof.
  intros o sel k k' f c c' files files' KS MI (_ & _ & _ & r & ps & n & R & F & G) (_ & _ & _ & r' & ps' & n' & R' & F' & G').
  rewrite R in R'. injection R' as <-. rewrite (paths_det g r _ _ _ F' F) in G'. rewrite KS in G'. rewrite RW in G, G'. unfold project_parse in G, G'.
  match type of G with context [snd ?x] => destruct x as [ws y] eqn:P end. match type of G' with context [snd ?x] => destruct x as [ws' y'] eqn:P' end. cbn [snd] in G, G'. destruct y as [[? ?]| |]; try discriminate. destruct y' as [[? ?]| |]; try discriminate. injection G as -> ->. injection G' as -> ->.
  assert (X : forall p contents t, read_source root (k_src k) (root ++ p) = Some contents -> parser f p contents = Some t -> proper (visitor_of f) p contents t)
    by (intros p contents t Rd PF; apply (PP f p contents t (read_source_scalars _ _ _ _ Rd) PF)).
  exact (C85_parse alphanumeric AL _ _ _ _ _ _ _ _ _ c c' ps ws ws' n n' files files' MI X P P').
Qed.

Theorem C85_invocation : forall o sel k k' f c c' files files', k_src k' = k_src k -> more_ignored c c' ->
  prepared_with g o sel k f c files -> prepared g o sel k' files' -> prepared_with g o sel k' f c' files' ->
  forall x, In (EInsert x) (a_trace (invoke g o sel k')) \/ In (EConsole x) (a_trace (invoke g o sel k')) ->
  (exists cand, In cand (all_cands files) /\ c_span cand = rm_span x) \/ added f k c c' (sp_path (rm_span x)) Statement (rm_span x).
Proof.
  intros o sel k k' f c c' files files' KS MI P1 PR P2 x HX.
  destruct (C85_prepared o sel k k' f c c' files files' KS MI P1 P2) as [MF CA].
  assert (T : a_trace (invoke g o sel k') <> []) by (intros E; rewrite E in HX; destruct HX as [[]|[]]).
  destruct (trace_is_run yaml semver vcmp vshow pshow builtin_skill builtin_version hash16 default_toml g o sel k' T) as [fs [db [Pf [_ E]]]]. rewrite E in HX. clear T E.
  assert (EF : fs = files').
  { destruct Pf as (_ & r & c0 & f0 & ps & n & R & _ & (_ & CF) & CH & _ & F & G). destruct P2 as (_ & CF' & CH' & r' & ps' & n' & R' & F' & G').
    rewrite R in R'. injection R' as <-. rewrite CH in CH'. injection CH' as ->. rewrite (paths_det g r _ _ _ F' F) in G'.
    assert (c0 = c') by (destruct (k_config k'); [destruct CF; congruence|congruence]). subst c0. rewrite G in G'. congruence. }
  subst fs. destruct (C74_invocation alphanumeric denied parser anchor ignored root tree g AL RW PP) as [PW _].
  assert (PO : paths_ok files'). { destruct PR as (_ & r & c0 & f0 & ps & n & _ & _ & _ & _ & _ & _ & GP). exact (PW _ _ _ _ _ _ GP). }
  destruct (C13_outcome_justified hash16 (k_src k') (oracle_of g o) files' (k_src k') db PO x) as [cand [Hc [R1 _]]]; [tauto|].
  unfold all_cands in Hc. apply in_flat_map in Hc as [[p x'] [I' J]]. cbn [snd] in J. rewrite R1, (PO p x' cand I' J).
  assert (L : In (c_span cand, M_Run.c_tests cand) (match c_kind cand with Statement => stm_statement x' | MethodCall => stm_method x' end)).
  { unfold stm_iter in J. apply in_app_or in J as [J|J]; apply in_map_iff in J as ([s ts] & <- & J); exact J. }
  assert (I : exists y, In (p, y) files).
  { assert (Q : In p (map fst files)) by (rewrite <- MF; apply in_map_iff; exists (p, x'); auto). apply in_map_iff in Q as ((q & y) & <- & Q). exists y. exact Q. }
  destruct I as [y I].
  assert (NE : M_Run.c_tests cand <> []).
  { destruct P2 as (_ & _ & _ & r & ps & n & R & F & G). rewrite RW in G. unfold project_parse in G. match type of G with context [snd ?x] => destruct x as [ws z] eqn:P end. cbn [snd] in G. destruct z as [[? ?]| |]; try discriminate. injection G as -> ->.
    destruct (file_walk _ _ _ _ _ _ _ _ _ _ _ _ _ _ _ _ _ P I') as (cc & contents & dws & d & t & st & _ & _ & _ & _ & VF & ->).
    apply (C34_tests_nonempty _ _ st (c_span cand) (M_Run.c_tests cand) (ex_intro _ _ VF)). destruct (c_kind cand); [left|right]; exact L. }
  destruct (M_Run.c_tests cand) as [|t ts] eqn:TS; [congruence|].
  destruct (CA p y x' I I' (c_kind cand) (c_span cand) t) as [(us & K & _)|A].
  - exists (t :: ts). split; [exact L|left; reflexivity].
  - left. exists (Cand (c_span cand) (c_kind cand) us). split; [|reflexivity]. unfold all_cands. apply in_flat_map. exists (p, y). split; [exact I|].
    cbn [snd]. unfold stm_iter. apply in_or_app. destruct (c_kind cand); [left|right]; apply in_map_iff; exists (c_span cand, us); auto.
  - right. destruct A as (_ & B). split; [reflexivity|exact B].
Qed.
End Invocations.
Print Assumptions C85_prepared.
Print Assumptions C85_invocation.

(** ** What is not so: ignoring more can add a candidate.  [x = retry(|| { attempt(); }); last();], without and with the pattern [retry]. *)
Definition i_attempt : node := x_stmt 10 1 14 24 (x_call 11 1 14 23 "attempt" []).
Definition i_assign : node := mk 1 (KStmt true false false true) 1 0 28 [mk 2 KExpr 1 0 27 [x_id 3 1 0 1 "x"; x_call 4 1 4 27 "retry" [mk 6 KExpr 1 10 26 [mk 7 KGroup 1 13 26 [i_attempt]]]]].
Definition i_last : node := x_stmt 20 1 29 36 (x_call 21 1 29 35 "last" []).
Definition i_root : node := mk 0 KGroup 1 0 99 [x_test 30 "t" [i_assign; i_last]].
Definition i_env (fs : list string) : venv := x_env fw_rust fs [] false (fun _ => []) (repeat 97%N 99).
Lemma i_more : ignores_more (i_env []) (i_env ["retry"%string]).
Proof. constructor; try reflexivity; try (intros x; split; reflexivity); intros x H; cbn in *; try discriminate; assumption. Qed.
Lemma i_parsed fs : parsed (i_env fs) i_root.
Proof. split; [reflexivity|intros x f l H; discriminate]. Qed.
Example i_cands : cands (st_of (i_env []) i_root) = [(Statement, 14, 24, [s2t "t"])]%nat /\ cands (st_of (i_env ["retry"%string]) i_root) = [(Statement, 0, 28, [s2t "t"])]%nat.
Proof. split; vm_compute; reflexivity. Qed.

Theorem C85_never_adds_refuted : exists E E' root st st' k sp t, ignores_more E E' /\ parsed E root /\ result E root st /\ result E' root st' /\
  candidate st' k sp t /\ ~ candidate st k sp t.
Proof.
  exists (i_env []), (i_env ["retry"%string]), i_root, (st_of (i_env []) i_root), (st_of (i_env ["retry"%string]) i_root), Statement, (xsp 1 0 28), (s2t "t").
  split; [exact i_more|]. split; [apply i_parsed|]. split; [exists 9%nat; vm_compute; reflexivity|]. split; [exists 9%nat; vm_compute; reflexivity|].
  split; [apply lists_dec; vm_compute; reflexivity|]. intros H. apply lists_dec in H. vm_compute in H. discriminate.
Qed.
Print Assumptions C85_never_adds_refuted.

(** The hypotheses are met by the invocation of C74's example, without and with [b] ignored. *)
Definition i_setting : setting :=
  Setting (M_Output.Env false true (Some ex_root) ex_root) (Some P_Skill.ex_home) P_Skill.ex_sys u_components
    (fun _ => Some ex_root) (fun _ => true) true true None (fun _ => Some (Toml [s2t "b"] [] [] None [] None []))
    (fun n => Some (text_eqb n (s2t "Cargo.toml"))) (fun _ => true) (fun p => Some p)
    (project_parse ascii_alphanumeric (fun _ => false) r_parser find_anchor_mocha (fun _ => false) ex_root r_entry)
    all_ok (fun _ => true) true ex_o (fun _ => []).
Definition i_start : disk := Disk (k_src r_start) (Some (s2t "ignored_functions = [""b""]")) None (P_Skill.ex_files None None).
Example C85_nonvacuous :
  k_src i_start = k_src r_start /\ more_ignored toml_default (Toml [s2t "b"] [] [] None [] None []) /\ proper_parsers r_parser /\
  (exists files files', prepared_with i_setting plain None r_start Rust toml_default files /\ prepared i_setting plain None i_start files' /\
     prepared_with i_setting plain None i_start Rust (Toml [s2t "b"] [] [] None [] None []) files' /\
     map (fun c => (c_kind c, column (sp_start (c_span c)))) (all_cands files) = [(Statement, 0); (Statement, 6); (MethodCall, 1)] /\
     map (fun c => (c_kind c, column (sp_start (c_span c)))) (all_cands files') = [(Statement, 0); (MethodCall, 1)]) /\
  ignores_more (i_env []) (i_env ["retry"%string]).
Proof.
  split; [reflexivity|]. split; [constructor; try reflexivity; try (split; reflexivity); intros x []|]. split; [exact r_proper|]. split; [|exact i_more].
  destruct (g_parse i_setting Rust toml_default [] (k_src r_start)) as [[n files]| |] eqn:E; [|exfalso; vm_compute in E; discriminate|exfalso; vm_compute in E; discriminate].
  destruct (g_parse i_setting Rust (Toml [s2t "b"] [] [] None [] None []) [] (k_src r_start)) as [[n' files']| |] eqn:E'; [|exfalso; vm_compute in E'; discriminate|exfalso; vm_compute in E'; discriminate].
  exists files, files'.
  split. { split; [apply accepted_iff; reflexivity|]. split; [reflexivity|]. split; [vm_compute; reflexivity|]. exists ex_root, [], n. split; [reflexivity|]. split; [constructor|exact E]. }
  split. { split; [apply accepted_iff; reflexivity|]. exists ex_root, (Toml [s2t "b"] [] [] None [] None []), Rust, [], n'. split; [reflexivity|]. split; [reflexivity|].
    split; [split; [reflexivity|split; reflexivity]|]. split; [vm_compute; reflexivity|]. split; [reflexivity|]. split; [constructor|exact E']. }
  split. { split; [apply accepted_iff; reflexivity|]. split; [reflexivity|]. split; [vm_compute; reflexivity|]. exists ex_root, [], n'. split; [reflexivity|]. split; [constructor|exact E']. }
  vm_compute in E. injection E as _ <-. vm_compute in E'. injection E' as _ <-. split; vm_compute; reflexivity.
Qed.
