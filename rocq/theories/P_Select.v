(** C58: which tests the commands that necessist executes run. *)
From Verif Require Import Base M_Text M_Span S_Span L_Span M_Run M_Output M_Sqlite P_Sqlite M_Exec L_Exec M_Rust M_Config P_Config M_Select S_Select.
Local Open Scope string_scope.
Local Open Scope list_scope.

(** ** Regular expressions that are names *)
Definition literal (t : text) : Prop := Forall (fun c => is_meta c = false) t.
Definition plain (c : char) : bool := negb (is_meta c).
Lemma plain_literal c : plain c = true -> is_meta c = false.
Proof. unfold plain. destruct (is_meta c); [discriminate|reflexivity]. Qed.
Lemma escape_literal t : literal t -> escape plain t = Ok t.
Proof.
  induction t as [|c t IH]; intros L; [reflexivity|]. inversion L as [|? ? A B]; subst. cbn [escape]. unfold plain at 1. rewrite A. cbn [negb orb].
  rewrite IH by exact B. reflexivity.
Qed.
Lemma glob_literal p : literal p -> forall n, glob p n <-> n = p.
Proof.
  induction p as [|c p IH]; intros L n.
  - split; [intros H; inversion H; reflexivity|intros ->; constructor].
  - inversion L as [|? ? A B]; subst. assert (NS : c <> STAR) by (intros ->; discriminate A). split.
    + intros H. inversion H as [|? ? n' ? G|]; subst; [|congruence]. f_equal. apply IH; assumption.
    + intros ->. constructor; [exact NS|]. apply IH; [exact B|reflexivity].
Qed.
Lemma anchored p : forall s r, escape plain p = Ok s -> regex_new (s2t "^" ++ s ++ s2t "$") = Some r -> forall t, is_match r t <-> glob p t.
Proof.
  intros s r E R t. apply (C26_pattern plain plain_literal p r t). unfold compile_pattern. rewrite E. cbn [bind app].
  cbn [app] in R. rewrite R. reflexivity.
Qed.
Lemma anchored_new p s : escape plain p = Ok s -> exists r, regex_new (s2t "^" ++ s ++ s2t "$") = Some r.
Proof.
  intros E. pose proof (compile_pattern_ast plain plain_literal p false s E) as H. unfold compile_pattern in H. rewrite E in H. cbn [bind app] in H.
  cbn [app]. destruct (regex_new _) as [r|]; [eauto|discriminate].
Qed.
Lemma anchored_matches p s t : escape plain p = Ok s -> (pattern_matches (s2t "^" ++ s ++ s2t "$") t <-> glob p t).
Proof.
  intros E. destruct (anchored_new p s E) as [r R]. unfold pattern_matches. split.
  - intros [r' [R' M]]. apply (anchored p s r' E R'). exact M.
  - intros G. exists r. split; [exact R|]. apply (anchored p s r E R). exact G.
Qed.

(** Names in which [$] may occur. *)
Definition lit1 (c : char) : re := if (c =? DOLLAR)%N then REol else RLit c.
Definition name_char (c : char) : Prop := is_meta c = false \/ c = DOLLAR.
Lemma parse_name t : forall acc fuel, Forall name_char t -> (length t < fuel)%nat -> parse_re fuel acc t = Some (acc ++ map lit1 t, []).
Proof.
  induction t as [|c t IH]; intros acc fuel L F.
  - destruct fuel; [simpl in F; lia|]. cbn [parse_re map]. rewrite app_nil_r. reflexivity.
  - inversion L as [|? ? A B]; subst. destruct fuel as [|fuel]; [simpl in F; lia|]. simpl in F.
    assert (S0 : forall a, suffix a t = (a, t)).
    { intros a. destruct t as [|d t]; [reflexivity|]. inversion B as [|? ? C D]; subst. apply suffix_none.
      - destruct C as [C| ->]; [apply literal_not, C|reflexivity].
      - destruct C as [C| ->]; [apply literal_not, C|reflexivity]. }
    destruct A as [A| ->].
    + destruct (literal_not c A) as [H1 [H2 [H3 [H4 [H5 [H6 [H7 [H8 H9]]]]]]]].
      rewrite (step_atom _ _ c t (RLit c) t); [|exact H1|exact H6|unfold atom; rewrite H2, H3, H4, H5, H7, A; reflexivity].
      rewrite S0. cbn [fst snd]. rewrite IH; [|exact B|lia]. rewrite <- app_assoc. cbn [map app]. unfold lit1 at 2. rewrite H5. reflexivity.
    + rewrite (step_atom _ _ DOLLAR t REol t) by reflexivity. rewrite S0. cbn [fst snd]. rewrite IH; [|exact B|lia]. rewrite <- app_assoc. reflexivity.
Qed.
Lemma regex_name t : Forall name_char t -> regex_new t = Some (RSeq (map lit1 t)).
Proof. intros L. unfold regex_new. rewrite parse_name; [reflexivity|exact L|lia]. Qed.
Lemma seq_prefix u v : forall a b z, ~ In DOLLAR u -> matches (RSeq (map lit1 (u ++ v))) a b z <->
  exists b', b = u ++ b' /\ matches (RSeq (map lit1 v)) (a ++ u) b' z.
Proof.
  induction u as [|c u IH]; intros a b z N.
  - cbn [app]. split; [intros H; exists b; rewrite app_nil_r; auto|]. intros [b' [-> H]]. rewrite app_nil_r in H. exact H.
  - cbn [app map]. rewrite seq_cons. unfold lit1 at 1 2. destruct (N.eqb_spec c DOLLAR) as [->|NE]; [destruct N; left; reflexivity|]. split.
    + intros [b1 [b2 [-> [H1 H2]]]]. inversion H1; subst. apply IH in H2; [|intros I; apply N; right; exact I].
      destruct H2 as [b' [-> H2]]. exists b'. rewrite <- app_assoc in H2. auto.
    + intros [b' [-> H]]. exists [c], (u ++ b'). split; [reflexivity|]. split; [constructor|].
      apply IH; [intros I; apply N; right; exact I|]. exists b'. rewrite <- app_assoc. auto.
Qed.
Lemma literal_no_dollar t : literal t -> ~ In DOLLAR t.
Proof. intros L I. apply (proj1 (Forall_forall _ _) L) in I. discriminate. Qed.
Lemma literal_name t : literal t -> Forall name_char t.
Proof. intros L. eapply Forall_impl; [|exact L]. intros c H. left. exact H. Qed.
Lemma literal_matches p t : literal p -> (pattern_matches p t <-> infix p t).
Proof.
  intros L. unfold pattern_matches. rewrite (regex_name p (literal_name p L)). unfold is_match, infix.
  pose proof (seq_prefix p []) as Q. rewrite app_nil_r in Q. split.
  - intros [r [R [a [b [z [-> M]]]]]]. injection R as <-. apply Q in M; [|apply literal_no_dollar, L]. destruct M as [b' [-> M]]. inversion M; subst.
    exists a, z. rewrite app_nil_r. reflexivity.
  - intros [a [b ->]]. eexists. split; [reflexivity|]. exists a, p, b. split; [reflexivity|]. apply Q; [apply literal_no_dollar, L|].
    exists []. split; [symmetry; apply app_nil_r|]. constructor.
Qed.
(** A [$] inside: matches at the very end of a text at best. *)
Lemma dollar_matches u v t : literal u -> Forall name_char v -> pattern_matches (u ++ DOLLAR :: v) t -> exists b, t = b ++ u.
Proof.
  intros L K [r [R [a [b [z [-> M]]]]]].
  rewrite regex_name in R. 2:{ apply Forall_app. split; [apply literal_name, L|]. constructor; [right; reflexivity|exact K]. }
  injection R as <-. apply seq_prefix in M; [|apply literal_no_dollar, L]. destruct M as [b' [-> M]]. cbn [map] in M. apply seq_cons in M as [b1 [b2 [-> [H1 H2]]]].
  unfold lit1 in H1. cbn in H1. inversion H1; subst. match goal with E : [] = _ |- _ => symmetry in E; apply app_eq_nil in E as [-> ->] | E : _ ++ _ = [] |- _ => apply app_eq_nil in E as [-> ->] end. exists a. rewrite !app_nil_r. reflexivity.
Qed.

(** ** Rust *)
Lemma split_dashes_app own rest : ~ In DASHES own -> split_dashes (own ++ DASHES :: rest) = (own, rest).
Proof.
  induction own as [|a own IH]; intros N; cbn [app split_dashes].
  - rewrite text_eqb_refl. reflexivity.
  - destruct (text_eqb a DASHES) eqn:E; [apply text_eqb_eq in E; subst; destruct N; left; reflexivity|].
    rewrite IH by (intros I; apply N; right; exact I). reflexivity.
Qed.
Lemma split_dashes_fst own rest : ~ In DASHES own -> exists more, fst (split_dashes (own ++ rest)) = own ++ more.
Proof.
  induction own as [|a own IH]; intros N; cbn [app split_dashes]; [eexists; reflexivity|].
  destruct (text_eqb a DASHES) eqn:E; [apply text_eqb_eq in E; subst; destruct N; left; reflexivity|].
  destruct IH as [more M]; [intros I; apply N; right; exact I|]. destruct (split_dashes (own ++ rest)). cbn [fst] in *. exists more. rewrite M. reflexivity.
Qed.

(** The options and names in the flags are not [--]. *)
Definition sane_package (p : package) : Prop := forall t, In t (p_targets p) -> t_name t <> DASHES.
Lemma flags_no_dashes p source : sane_package p -> ~ In DASHES (source_file_flags p source).
Proof.
  intros W I. unfold source_file_flags in I. apply in_app_or in I as [[I|[I|[]]]|I]; [discriminate I|discriminate I|].
  destruct (source_file_test p source) as [n|] eqn:T.
  - destruct I as [I|[I|[]]]; [discriminate I|]. unfold source_file_test in T. destruct (filter _ _) as [|t [|? ?]] eqn:F; try discriminate. injection T as <-.
    assert (J : In t (filter (is_test_target source) (p_targets p))) by (rewrite F; left; reflexivity). apply filter_In in J as [J _]. exact (W t J I).
  - assert (G : forall ks b l, ~ In DASHES (unit_flags b l ks)).
    { induction ks as [|k ks IH]; intros b l J; [exact J|]. cbn [unit_flags] in J. destruct k; try (exact (IH _ _ J)).
      - destruct l; [exact (IH _ _ J)|]. destruct J as [J|J]; [discriminate J|exact (IH _ _ J)].
      - destruct b; [exact (IH _ _ J)|]. destruct J as [J|J]; [discriminate J|exact (IH _ _ J)]. }
    exact (G _ _ _ I).
Qed.

Definition rust_commands (p : package) := exec_commands (rust_low (fun s => Some (source_file_flags p s))).
(** The arguments that Cargo itself sees when a test is run. *)
Definition cargo_own (p : package) (source : path) (args : list text) : list text := s2t "test" :: source_file_flags p source ++ args.

Lemma last_app_s (x y : text) d : y <> [] -> last (x ++ y) d = last y d.
Proof. intros N. induction x as [|c x IH]; [reflexivity|]. cbn [app last]. destruct (x ++ y) eqn:E; [apply app_eq_nil in E as [_ E]; congruence|exact IH]. Qed.
Lemma header_one n : header n = s2t "running 1 test" -> n = 1%nat.
Proof.
  unfold header. destruct (Nat.eqb_spec n 1) as [->|NE]; [reflexivity|]. intros H. exfalso.
  assert (L : last (s2t "running " ++ print_usize n ++ s2t " tests") 0%N = last (s2t "running 1 test") 0%N) by (rewrite H; reflexivity).
  rewrite !app_assoc in L. rewrite last_app_s in L by discriminate. discriminate L.
Qed.

Lemma not_option name x : is_option name = false -> text_eqb name (s2t "-" ++ x) = false.
Proof.
  intros O. apply text_eqb_neq. intros ->. unfold is_option in O. destruct (strip_prefix (s2t "-") (s2t "-" ++ x)) eqn:Q; [discriminate|].
  rewrite (proj2 (strip_prefix_spec (s2t "-") (s2t "-" ++ x) x) eq_refl) in Q. discriminate.
Qed.
Lemma run_libtest testname own name : ~ In DASHES own -> testname own = None -> is_option name = false ->
  cargo_libtest testname (own ++ [s2t "--"; s2t "--exact"; name]) = Libtest true false [name].
Proof.
  intros N T O. unfold cargo_libtest. change (s2t "--") with DASHES. rewrite split_dashes_app by exact N. rewrite T.
  cbn [libtest_args]. change (text_eqb (s2t "--exact") DASHES) with false. change (text_eqb (s2t "--exact") (s2t "--exact")) with true. cbv iota.
  change DASHES with (s2t "-" ++ s2t "-"). change (s2t "--exact") with (s2t "-" ++ s2t "-exact"). change (s2t "--list") with (s2t "-" ++ s2t "-list").
  rewrite !(not_option name _ O), O. reflexivity.
Qed.

(** C58 for Rust.  Provided the user's arguments contain no [--] and no TESTNAME: the build command compiles the tests without
    running any; the run command selects exactly the test in question, from whichever tests there are in a binary; and the
    check of its output succeeds iff that test is there. *)
Theorem C58_rust_run : forall testname p source args name,
  sane_package p -> ~ In DASHES args -> testname (cargo_own p source args) = None -> is_option name = false ->
  exists build run check, rust_commands p args name source = Ok (build, run, Some check) /\
    c_program build = s2t "cargo" /\ c_program run = s2t "cargo" /\ cargo_no_run (c_args build) /\
    (forall tests selected, cargo_selected testname (c_args run) tests selected -> forall t, In t selected <-> In t tests /\ t = name) /\
    (forall tests printed, libtest_prints testname (c_args run) tests printed -> ((exists line, In line printed /\ snd check line = true) <-> In name tests)).
Proof.
  intros testname p source args name W D T O. pose proof (flags_no_dashes p source W) as F.
  eexists _, _, _. split; [reflexivity|]. cbn [c_program c_args add_args]. split; [reflexivity|]. split; [reflexivity|].
  assert (N : ~ In DASHES (cargo_own p source args)).
  { intros [I|I]; [discriminate I|]. apply in_app_or in I as [I|I]; contradiction. }
  assert (Sel : cargo_libtest testname (((s2t "test" :: source_file_flags p source) ++ args) ++ [s2t "--"; s2t "--exact"; name]) = Libtest true false [name]).
  { apply (run_libtest testname (cargo_own p source args) name N T O). }
  split; [|split].
  - unfold cargo_no_run. destruct (split_dashes_fst ((s2t "test" :: source_file_flags p source) ++ [s2t "--no-run"]) args) as [more ->].
    { intros I. apply in_app_or in I as [[I|I]|[I|[]]]; [discriminate I|contradiction|discriminate I]. }
    apply in_or_app. left. apply in_or_app. right. left. reflexivity.
  - intros tests selected [_ H] t. rewrite H. rewrite Sel. unfold libtest_selects. cbn [l_filters l_exact]. split.
    + intros [I [E|[f [[<-|[]] E]]]]; [discriminate|]. auto.
    + intros [I ->]. split; [exact I|]. right. exists name. split; [left; reflexivity|reflexivity].
  - intros tests printed [selected [C P]]. rewrite Sel in P. cbn [l_list] in P. destruct C as [ND H]. rewrite Sel in H.
    assert (K : forall t, In t selected <-> In t tests /\ t = name).
    { intros t. rewrite H. unfold libtest_selects. cbn [l_filters l_exact]. split.
      - intros [I [E|[f [[<-|[]] E]]]]; [discriminate|]. auto.
      - intros [I ->]. split; [exact I|]. right. exists name. split; [left; reflexivity|reflexivity]. }
    destruct P as [[rest [-> R]] _]. unfold rust_check. cbn [snd]. split.
    + intros [line [I E]]. apply text_eqb_eq in E. subst line. destruct I as [I|I].
      * apply header_one in I. destruct selected as [|t [|? ?]]; try discriminate. assert (J : In t tests /\ t = name) by (apply K; left; reflexivity). destruct J as [J <-]. exact J.
      * destruct (R _ 1%nat I). reflexivity.
    + intros I. exists (header (length selected)). split; [left; reflexivity|]. apply text_eqb_eq.
      assert (E : selected = [name]).
      { destruct selected as [|t l]; [exfalso; assert (J : In name []) by (apply K; auto); exact J|].
        assert (t = name) by (apply (K t); left; reflexivity). subst t. destruct l as [|u l]; [reflexivity|].
        assert (u = name) by (apply (K u); right; left; reflexivity). subst u. inversion ND as [|? ? N1 _]; subst. destruct N1. left. reflexivity. }
      rewrite E. reflexivity.
Qed.
Print Assumptions C58_rust_run.

(** C58, Rust: with the same proviso, the names of tests that necessist knows are those of the tests in the binaries. *)
Lemma strip_suffix_spec s t r : strip_suffix s t = Some r <-> t = r ++ s.
Proof.
  unfold strip_suffix. destruct (strip_prefix (rev s) (rev t)) as [x|] eqn:E.
  - apply strip_prefix_spec in E. split.
    + intros H. injection H as <-. rewrite <- (rev_involutive t), E, rev_app_distr, rev_involutive. reflexivity.
    + intros ->. rewrite rev_app_distr in E. apply app_inv_head in E. subst x. rewrite rev_involutive. reflexivity.
  - split; [discriminate|]. intros ->. rewrite rev_app_distr in E. rewrite (proj2 (strip_prefix_spec (rev s) (rev s ++ rev r) (rev r)) eq_refl) in E. discriminate.
Qed.
Lemma filter_map_In {A B} (f : A -> option B) l y : In y (filter_map f l) <-> exists x, In x l /\ f x = Some y.
Proof.
  induction l as [|x l IH]; cbn [filter_map].
  - split; [intros []|intros [x [[] _]]].
  - destruct (f x) as [z|] eqn:E; cbn [In]; rewrite IH.
    + split.
      * intros [->|[x' [I H]]]; [exists x; auto|exists x'; auto].
      * intros [x' [[->|I] H]]; [left; congruence|right; eauto].
    + split.
      * intros [x' [I H]]; exists x'; auto.
      * intros [x' [[->|I] H]]; [congruence|eauto].
Qed.
Theorem C58_rust_listed : forall testname p source args binaries outputs stdout,
  sane_package p -> ~ In DASHES args -> testname (cargo_own p source args) = None ->
  Forall2 (libtest_prints testname (c_args (list_command (source_file_flags p source) args))) binaries outputs ->
  lines stdout = concat outputs ->
  (exists arguments, list_command (source_file_flags p source) args = Command (s2t "cargo") (s2t "test" :: arguments) [] None) /\
  forall name, In name (listed_names stdout) <-> exists tests, In tests binaries /\ In name tests.
Proof.
  intros testname p source args binaries outputs stdout W D T FA E. split; [eexists; reflexivity|]. intros name.
  assert (Sel : cargo_libtest testname (c_args (list_command (source_file_flags p source) args)) = Libtest false true []).
  { cbn [c_args list_command]. unfold cargo_libtest.
    change (s2t "test" :: source_file_flags p source ++ args ++ [s2t "--"; s2t "--list"; s2t "--format=terse"])
      with ((s2t "test" :: source_file_flags p source) ++ args ++ [s2t "--"; s2t "--list"; s2t "--format=terse"]).
    rewrite app_assoc. change (s2t "--") with DASHES. rewrite split_dashes_app.
    2:{ intros [I|I]; [discriminate I|]. apply in_app_or in I as [I|I]; [exact (flags_no_dashes p source W I)|contradiction]. }
    change ((s2t "test" :: source_file_flags p source) ++ args) with (cargo_own p source args). rewrite T. reflexivity. }
  unfold listed_names. rewrite filter_map_In, E. clear E.
  assert (G : forall x, In x (concat outputs) <-> exists tests t, In tests binaries /\ In t tests /\ x = t ++ s2t ": test").
  { induction FA as [|tests printed bs os P FA IH]; intros x.
    - split; [intros []|intros [? [? [[] _]]]].
    - cbn [concat]. rewrite in_app_iff, IH. destruct P as [selected [[ND H] P]]. rewrite Sel in H, P. cbn [l_list] in P. unfold lists in P. subst printed. rewrite in_map_iff. split.
      + intros [[t [<- I]]|[ts [t [I [J ->]]]]]; [exists tests, t|exists ts, t].
        * apply H in I as [I _]. split; [left; reflexivity|auto].
        * split; [right; exact I|auto].
      + intros [ts [t [[<-|I] [J ->]]]]; [left|right; eauto]. exists t. split; [reflexivity|]. apply H. split; [exact J|]. left. reflexivity. }
  split.
  - intros [x [I H]]. apply strip_suffix_spec in H. apply G in I as [ts [t [I [J ->]]]]. apply app_inv_tail in H. subst t. eauto.
  - intros [ts [I J]]. exists (name ++ s2t ": test"). split; [apply G; eauto|]. apply strip_suffix_spec. reflexivity.
Qed.
Print Assumptions C58_rust_listed.

(** C58, Rust, the part that is false: if the user's arguments contain [--], then no test is known, whatever the tests are (and
    the binaries run instead of listing their tests), unless the user passes [--list]. *)
Lemma libtest_list before after : ~ In (s2t "--list") before -> l_list (libtest_args (before ++ DASHES :: after)) = false.
Proof.
  induction before as [|a l IH]; intros N; cbn [app libtest_args]; [rewrite text_eqb_refl; reflexivity|].
  specialize (IH (fun I => N (or_intror I))).
  destruct (text_eqb a DASHES); [reflexivity|]. destruct (text_eqb a (s2t "--exact")); [exact IH|].
  destruct (text_eqb a (s2t "--list")) eqn:E; [apply text_eqb_eq in E; destruct N; left; exact E|]. destruct (is_option a); exact IH.
Qed.
Theorem C58_rust_dashes_refuted : forall testname p source before after binaries outputs stdout,
  sane_package p -> ~ In DASHES before -> testname (cargo_own p source before) = None -> ~ In (s2t "--list") after ->
  Forall2 (libtest_prints testname (c_args (list_command (source_file_flags p source) (before ++ DASHES :: after)))) binaries outputs ->
  lines stdout = concat outputs -> listed_names stdout = [].
Proof.
  intros testname p source before after binaries outputs stdout W D T NL FA E.
  assert (Sel : l_list (cargo_libtest testname (c_args (list_command (source_file_flags p source) (before ++ DASHES :: after)))) = false).
  { cbn [c_args list_command]. unfold cargo_libtest. rewrite <- app_assoc. cbn [app].
    change (s2t "test" :: source_file_flags p source ++ before ++ DASHES :: after ++ [s2t "--"; s2t "--list"; s2t "--format=terse"])
      with ((s2t "test" :: source_file_flags p source) ++ before ++ DASHES :: after ++ [s2t "--"; s2t "--list"; s2t "--format=terse"]).
    rewrite app_assoc. rewrite split_dashes_app.
    2:{ intros [I|I]; [discriminate I|]. apply in_app_or in I as [I|I]; [exact (flags_no_dashes p source W I)|contradiction]. }
    change ((s2t "test" :: source_file_flags p source) ++ before) with (cargo_own p source before). rewrite T. apply libtest_list. exact NL. }
  destruct (listed_names stdout) as [|n ns] eqn:L; [reflexivity|]. exfalso.
  assert (I : In n (listed_names stdout)) by (rewrite L; left; reflexivity).
  unfold listed_names in I. apply filter_map_In in I as [x [I H]]. apply strip_suffix_spec in H. rewrite E in I. clear E L.
  induction FA as [|tests printed bs os P FA IH]; [exact I|]. cbn [concat] in I. apply in_app_or in I as [I|I]; [|exact (IH I)].
  destruct P as [selected [_ P]]. rewrite Sel in P. destruct P as [_ P]. exact (P x n I H).
Qed.
Print Assumptions C58_rust_dashes_refuted.

(** ** Go *)
Definition go_flag_free (args : list text) : Prop := forall a, In a args -> run_flag a = None.
Lemma go_pattern_free args p : go_flag_free args -> go_pattern args p = p.
Proof.
  induction args as [|a args IH]; intros F; [reflexivity|]. cbn [go_pattern]. destruct (text_eqb a (s2t "-args")); [reflexivity|].
  rewrite (F a) by (left; reflexivity). apply IH. intros b I. apply F. right. exact I.
Qed.
Lemma run_flag_run p : run_flag (s2t "-run=" ++ p) = Some (Some p).
Proof.
  unfold run_flag, run_names. cbn [fold_right].
  rewrite (proj2 (strip_prefix_spec (s2t "-run") (s2t "-run=" ++ p) (61%N :: p)) eq_refl). reflexivity.
Qed.
Lemma package_path_eq root dir file : package_path root (root ++ dir ++ [file]) = Ok (s2t "./" ++ join_path dir).
Proof.
  unfold package_path, below. rewrite app_assoc, removelast_last. rewrite (proj2 (strip_components_spec root (root ++ dir) dir) eq_refl). reflexivity.
Qed.
Lemma run_flag_package d : run_flag (s2t "./" ++ d) = None. 
Proof. reflexivity. Qed.

(** C58 for Go.  Provided that the user's arguments contain no [-run]: for a test file in a directory below the root, the
    build command runs no test of the package in that directory, and the run command runs exactly the one in question; the
    check of its output succeeds iff that test is there. *)
Theorem C58_go_run : forall root dir file args name,
  literal name -> ~ In SLASH name -> go_flag_free args ->
  exists build run check, exec_commands (go_low root) args name (root ++ dir ++ [file]) = Ok (build, run, Some check) /\
    (forall c, In c [build; run] -> c_program c = s2t "go" /\ c_dir c = Some root /\ exists rest, c_args c = s2t "test" :: (s2t "./" ++ join_path dir) :: rest) /\
    (forall t, t <> [] -> ~ go_selects (c_args build) t) /\
    (forall t, go_selects (c_args run) t <-> t = name) /\
    (forall tests printed, go_prints (c_args run) tests printed -> ((exists line, In line printed /\ snd check line = true) <-> In name tests)).
Proof.
  intros root dir file args name L NS F. unfold exec_commands, go_low, to_build_test, to_run_test, go_build, go_test_command. rewrite package_path_eq. cbn [bind].
  eexists _, _, _. split; [reflexivity|]. cbn [c_program c_args c_dir add_args].
  assert (Pb : go_pattern (([s2t "test"; s2t "./" ++ join_path dir] ++ [s2t "-run=^$"]) ++ args) None = Some (s2t "^$")).
  { change (go_pattern args (Some (s2t "^$")) = Some (s2t "^$")). apply go_pattern_free, F. }
  assert (Pr : go_pattern ((([s2t "test"; s2t "./" ++ join_path dir] ++ [s2t "-run=^" ++ name ++ s2t "$"; s2t "-v"]) ++ args) ++ []) None = Some (s2t "^" ++ name ++ s2t "$")).
  { rewrite app_nil_r. change (go_pattern (([s2t "test"; s2t "./" ++ join_path dir] ++ [s2t "-run=^" ++ name ++ s2t "$"; s2t "-v"]) ++ args) None)
      with (go_pattern ((s2t "-run=" ++ (s2t "^" ++ name ++ s2t "$")) :: s2t "-v" :: args) None).
    cbn [go_pattern]. rewrite run_flag_run.
    replace (text_eqb (s2t "-run=" ++ s2t "^" ++ name ++ s2t "$") (s2t "-args")) with false by (symmetry; apply text_eqb_neq; discriminate).
    change (text_eqb (s2t "-v") (s2t "-args")) with false. change (run_flag (s2t "-v")) with (@None (option text)). cbv iota. apply go_pattern_free, F. }
  assert (Sel : forall t, go_selects ((([s2t "test"; s2t "./" ++ join_path dir] ++ [s2t "-run=^" ++ name ++ s2t "$"; s2t "-v"]) ++ args) ++ []) t <-> t = name).
  { intros t. unfold go_selects. rewrite Pr. rewrite (anchored_matches name name t (escape_literal name L)). apply glob_literal, L. }
  split; [|split; [|split]].
  - intros c [<-|[<-|[]]]; cbn [c_program c_args c_dir]; split; try reflexivity; split; try reflexivity; eexists; reflexivity.
  - intros t N H. unfold go_selects in H. match type of H with match ?x with _ => _ end => replace x with (Some (s2t "^$")) in H by (symmetry; exact Pb) end. apply (anchored_matches [] [] t eq_refl) in H. inversion H; subst. apply N. reflexivity.
  - exact Sel.
  - intros tests printed P. destruct P as [P1 P2]; [rewrite !in_app_iff; left; left; right; right; left; reflexivity|].
    unfold go_check. cbn [snd]. split.
    + intros [line [I E]]. apply text_eqb_eq in E. subst line. destruct (P2 name I) as [J|[J _]]; [contradiction|exact J].
    + intros I. exists (s2t "=== RUN   " ++ name). split; [apply P1; [exact I|apply Sel; reflexivity]|]. apply text_eqb_refl.
Qed.
Print Assumptions C58_go_run.

(** The package is the right one: files of different directories get different packages. *)
Theorem C58_go_package : forall root dir file dir' file' p p', wf_path dir -> wf_path dir' ->
  package_path root (root ++ dir ++ [file]) = Ok p -> package_path root (root ++ dir' ++ [file']) = Ok p' -> (p = p' <-> dir = dir').
Proof.
  intros root dir file dir' file' p p' W W'. rewrite !package_path_eq. intros H H'. injection H as <-. injection H' as <-. split; [|intros ->; reflexivity].
  intros E. injection E as E. apply join_path_inj; assumption.
Qed.
Print Assumptions C58_go_package.

(** C58, Go, the part that is false: a [-run] among the user's arguments replaces necessist's, also in the build command. *)
Theorem C58_go_user_run_refuted : forall root dir file name user t, exists build run check,
  exec_commands (go_low root) [s2t "-run=" ++ user] name (root ++ dir ++ [file]) = Ok (build, run, check) /\
  (go_selects (c_args build) t <-> pattern_matches user t) /\ (go_selects (c_args run) t <-> pattern_matches user t).
Proof.
  intros root dir file name user t. unfold exec_commands, go_low, to_build_test, to_run_test, go_build, go_test_command. rewrite package_path_eq. cbn [bind].
  eexists _, _, _. split; [reflexivity|]. cbn [c_program c_args c_dir add_args app]. unfold go_selects.
  assert (R : forall p, text_eqb (s2t "-run=" ++ p) (s2t "-args") = false) by (intros p; apply text_eqb_neq; discriminate).
  split.
  - change (go_pattern _ None) with (go_pattern [s2t "-run=" ++ user] (Some (s2t "^$"))). cbn [go_pattern]. rewrite R, run_flag_run. reflexivity.
  - change (go_pattern _ None) with (go_pattern ((s2t "-run=" ++ (s2t "^" ++ name ++ s2t "$")) :: s2t "-v" :: [s2t "-run=" ++ user]) None).
    cbn [go_pattern]. rewrite !R, !run_flag_run. reflexivity.
Qed.
Print Assumptions C58_go_user_run_refuted.

(** ** PHP *)
Definition filter_free (args : list text) : Prop := forall a, In a args -> a <> s2t "--filter" /\ forall v, a <> s2t "--filter=" ++ v.
Lemma php_pattern_free args p : filter_free args -> php_pattern args p = p.
Proof.
  induction args as [|a args IH]; intros F; [reflexivity|]. cbn [php_pattern]. destruct (F a) as [N1 N2]; [left; reflexivity|].
  apply text_eqb_neq in N1. rewrite N1. destruct (strip_prefix (s2t "--filter=") a) as [v|] eqn:E; [apply strip_prefix_spec in E; destruct (N2 v E)|].
  apply IH. intros b I. apply F. right. exact I.
Qed.
Lemma last_sep (A : Type) (c : A) a b a' b' : a ++ c :: b = a' ++ c :: b' -> ~ In c b -> ~ In c b' -> b = b'.
Proof.
  revert a'. induction a as [|x a IH]; intros a' E N N'; destruct a' as [|x' a']; cbn [app] in E.
  - injection E as ->. reflexivity.
  - injection E as -> ->. destruct N. apply in_or_app. right. left. reflexivity.
  - injection E as -> <-. destruct N'. apply in_or_app. right. left. reflexivity.
  - injection E as -> E. exact (IH a' E N N').
Qed.
Definition SPACE : char := 32%N.
(** [fold] confuses nothing with a colon or a space. *)
Definition folds (fold : char -> char) : Prop := forall c d, In d [COLON; SPACE] -> fold c = fold d -> c = d.

Lemma last_sep2 (fold : char -> char) x u y v : folds fold -> ~ In COLON u -> ~ In COLON v ->
  map fold (x ++ s2t "::" ++ u) = map fold (y ++ s2t "::" ++ v) -> map fold u = map fold v.
Proof.
  intros Fo Nu Nv H. change (s2t "::") with ([COLON] ++ [COLON]) in H. rewrite <- !app_assoc in H. rewrite (app_assoc x), (app_assoc y) in H.
  rewrite !(map_app fold (_ ++ [COLON])) in H. cbn [map app] in H. apply last_sep in H; [exact H| |].
  - intros I. apply in_map_iff in I as [c [E' I]]. apply Fo in E'; [|left; reflexivity]. subst c. contradiction.
  - intros I. apply in_map_iff in I as [c [E' I]]. apply Fo in E'; [|left; reflexivity]. subst c. contradiction.
Qed.

Lemma php_pattern_spec (fold : char -> char) name t : literal name ->
  (exists r u, regex_new (s2t "^.*::" ++ name ++ s2t "$") = Some r /\ map fold u = map fold t /\ is_match r u) <->
  (exists x, ~ In NL x /\ map fold (x ++ s2t "::" ++ name) = map fold t).
Proof.
  intros L.
  assert (E : escape plain (s2t "*::" ++ name) = Ok (s2t ".*::" ++ name)).
  { change (s2t "*::" ++ name) with (STAR :: COLON :: COLON :: name). cbn [escape]. change (plain STAR) with false. change (plain COLON) with true. cbn [orb].
    change (STAR =? UNDERSCORE)%N with false. change (STAR =? DOT)%N with false. change (STAR =? STAR)%N with true. cbv iota. rewrite escape_literal by exact L. reflexivity. }
  destruct (anchored_new _ _ E) as [r R]. pose proof (anchored _ _ r E R) as M.
  assert (G : forall u, glob (s2t "*::" ++ name) u <-> exists x, ~ In NL x /\ u = x ++ s2t "::" ++ name).
  { intros u. change (s2t "*::" ++ name) with (STAR :: (s2t "::" ++ name)).
    assert (L' : literal (s2t "::" ++ name)) by (repeat (constructor; [reflexivity|]); exact L). split.
    - intros H. inversion H as [|? ? ? N _|x ? u' Nx G]; subst; [congruence|]. apply (glob_literal _ L') in G. subst u'. eauto.
    - intros [x [Nx ->]]. constructor; [exact Nx|]. apply glob_literal; [exact L'|reflexivity]. }
  change (s2t "^.*::" ++ name ++ s2t "$") with (s2t "^" ++ (s2t ".*::" ++ name) ++ s2t "$"). split.
  - intros [r' [u [R' [F K]]]]. rewrite R in R'. injection R' as <-. apply M in K. apply G in K as [x [Nx ->]]. eauto.
  - intros [x [Nx F]]. exists r, (x ++ s2t "::" ++ name). split; [exact R|]. split; [exact F|]. apply M. apply G. eauto.
Qed.

Lemma php_exec root args name rel : literal name -> filter_free (join_path rel :: args) ->
  exists build run, exec_commands (php_low root) args name (root ++ rel) = Ok (build, run, None) /\
    c_program build = s2t "php" /\ c_args build = s2t "-l" :: (SLASH :: join_path (root ++ rel)) :: args /\
    c_program run = s2t "vendor/bin/phpunit" /\ c_dir run = Some root /\ In (join_path rel) (c_args run) /\
    forall fold t, php_selects fold (c_args run) t <-> exists x, ~ In NL x /\ map fold (x ++ s2t "::" ++ name) = map fold t.
Proof.
  intros L F. unfold exec_commands, php_low, to_build_test, to_run_test, php_build, below. rewrite (proj2 (strip_components_spec root (root ++ rel) rel) eq_refl). cbn [bind].
  eexists _, _. split; [reflexivity|]. cbn [c_program c_args c_dir add_args]. split; [reflexivity|]. split; [reflexivity|]. split; [reflexivity|]. split; [reflexivity|].
  split; [right; right; left; reflexivity|]. intros fold t. unfold php_selects.
  match goal with |- context [php_pattern ?x None] => assert (P : php_pattern x None = Some (s2t "^.*::" ++ name ++ s2t "$")) end.
  { rewrite app_nil_r. cbn [app php_pattern]. change (text_eqb (s2t "--filter") (s2t "--filter")) with true. cbv iota. apply (php_pattern_free (join_path rel :: args)). exact F. }
  rewrite P. apply php_pattern_spec. exact L.
Qed.

(** C58 for PHP.  Provided the user's arguments contain no [--filter]: the build command runs PHP's syntax check on the file; the
    run command selects, in the file, exactly the methods with the name in question, as far as no data provider is involved. *)
Theorem C58_php_run : forall fold root rel args name,
  folds fold -> literal name -> ~ In COLON name -> filter_free (join_path rel :: args) ->
  exists build run, exec_commands (php_low root) args name (root ++ rel) = Ok (build, run, None) /\
    c_program build = s2t "php" /\ c_args build = s2t "-l" :: (SLASH :: join_path (root ++ rel)) :: args /\
    c_program run = s2t "vendor/bin/phpunit" /\ c_dir run = Some root /\ In (join_path rel) (c_args run) /\
    forall class method, ~ In COLON method -> ~ In NL class ->
      (php_selects fold (c_args run) (php_test class method) <-> map fold method = map fold name).
Proof.
  intros fold root rel args name Fo L NC F. destruct (php_exec root args name rel L F) as [build [run [E [B1 [B2 [R1 [R2 [R3 Sel]]]]]]]].
  exists build, run. repeat (split; [assumption|]). intros class method NM NN. rewrite Sel. unfold php_test. split.
  - intros [x [_ H]]. symmetry. exact (last_sep2 fold x name class method Fo NC NM H).
  - intros H. exists class. split; [exact NN|]. rewrite !map_app, H. reflexivity.
Qed.
Print Assumptions C58_php_run.

(** C58, PHP, the part that is false: a test that gets its arguments from a data provider is never selected when it is its turn
    (and, PHPUnit's output not being checked, nobody notices). *)
Theorem C58_php_data_provider_refuted : forall fold root rel args name class n,
  folds fold -> literal name -> ~ In COLON name -> ~ In SPACE name -> filter_free (join_path rel :: args) ->
  exists build run, exec_commands (php_low root) args name (root ++ rel) = Ok (build, run, None) /\
    ~ php_selects fold (c_args run) (php_provided class name n).
Proof.
  intros fold root rel args name class n Fo L NC NS F. destruct (php_exec root args name rel L F) as [build [run [E [_ [_ [_ [_ [_ Sel]]]]]]]].
  exists build, run. split; [exact E|]. rewrite Sel. intros [x [_ H]]. unfold php_provided, php_test in H.
  set (tail := s2t " with data set #" ++ print_usize n) in H.
  assert (NT : ~ In COLON tail).
  { intros I. apply in_app_or in I as [I|I]; [revert I; cbn; intuition discriminate|]. pose proof (print_usize_digits n) as D. apply (proj1 (Forall_forall _ _) D) in I. unfold is_digit in I. lia. }
  assert (Q : exists tail', tail = SPACE :: tail') by (eexists; reflexivity). clearbody tail.
  rewrite <- !app_assoc in H. apply last_sep2 in H; [|exact Fo|exact NC|intros I; apply in_app_or in I as [I|I]; contradiction].
  destruct Q as [tail' ->]. assert (I : In (fold SPACE) (map fold name)) by (rewrite H, map_app; apply in_or_app; right; left; reflexivity).
  apply in_map_iff in I as [c [E' I]]. apply Fo in E'; [|right; left; reflexivity]. subst c. contradiction.
Qed.
Print Assumptions C58_php_data_provider_refuted.

(** ** Foundry *)
Definition match_free (args : list text) : Prop := forall a, In a args -> a <> s2t "--match-test" /\ a <> s2t "--mt".
Lemma foundry_exec root args name rel : match_free [join_path rel] ->
  exists build run check, exec_commands (foundry_low root) args name (root ++ rel) = Ok (build, run, Some check) /\
    c_program build = s2t "forge" /\ c_args build = s2t "build" :: args /\ c_dir build = Some root /\
    c_program run = s2t "forge" /\ c_dir run = Some root /\ c_env run = [(s2t "FOUNDRY_FUZZ_RUNS", s2t "1")] /\
    (exists rest, c_args run = s2t "test" :: s2t "--match-path" :: join_path rel :: rest) /\
    forge_pattern (c_args run) = Some name /\ check = foundry_check name.
Proof.
  intros F. unfold exec_commands, foundry_low, to_build_test, to_run_test, foundry_build, foundry_test_command, below.
  rewrite (proj2 (strip_components_spec root (root ++ rel) rel) eq_refl). cbn [bind].
  eexists _, _, _. split; [reflexivity|]. cbn [c_program c_args c_dir c_env add_args]. repeat (split; [reflexivity|]). split; [eexists; reflexivity|]. split; [|reflexivity].
  rewrite app_nil_r. destruct (F (join_path rel)) as [N1 N2]; [left; reflexivity|]. apply text_eqb_neq in N1, N2.
  cbn [app forge_pattern]. change (text_eqb (s2t "test") (s2t "--match-test") || text_eqb (s2t "test") (s2t "--mt")) with false.
  change (text_eqb (s2t "--match-path") (s2t "--match-test") || text_eqb (s2t "--match-path") (s2t "--mt")) with false.
  rewrite N1, N2. cbn [orb]. change (text_eqb (s2t "--match-test") (s2t "--match-test") || text_eqb (s2t "--match-test") (s2t "--mt")) with true. reflexivity.
Qed.

(** C58 for Foundry.  For a test whose name contains no [$]: the build command is [forge build]; the run command, in the test's
    file and with one fuzz run per test, selects the test in question and every other one in whose signature its name occurs;
    the check of the output succeeds iff the test is there. *)
Theorem C58_foundry_run : forall root rel args name,
  literal name -> name <> [] -> ~ In SPACE name -> match_free [join_path rel] ->
  exists build run check, exec_commands (foundry_low root) args name (root ++ rel) = Ok (build, run, Some check) /\
    c_program build = s2t "forge" /\ c_args build = s2t "build" :: args /\ c_dir build = Some root /\
    c_program run = s2t "forge" /\ c_dir run = Some root /\ c_env run = [(s2t "FOUNDRY_FUZZ_RUNS", s2t "1")] /\
    (exists rest, c_args run = s2t "test" :: s2t "--match-path" :: join_path rel :: rest) /\
    (forall other params, forge_selects (c_args run) other params <-> infix name (signature other params)) /\
    (forall params, forge_selects (c_args run) name params) /\
    (forall tests printed, forge_prints (c_args run) tests printed ->
       ((exists line, In line printed /\ snd check line = true) <-> exists params, In (name, params) tests)).
Proof.
  intros root rel args name L NE NS F. destruct (foundry_exec root args name rel F) as [build [run [check [E [B1 [B2 [B3 [R1 [R2 [R3 [R4 [P C]]]]]]]]]]]].
  exists build, run, check. repeat (split; [assumption|]).
  assert (Sel : forall other params, forge_selects (c_args run) other params <-> infix name (signature other params)).
  { intros other params. unfold forge_selects. rewrite P. apply literal_matches, L. }
  assert (Own : forall params, forge_selects (c_args run) name params).
  { intros params. apply Sel. exists [], (s2t "(" ++ params ++ s2t ")"). reflexivity. }
  split; [exact Sel|]. split; [exact Own|]. intros tests printed [P1 P2]. subst check. unfold foundry_check. cbn [snd]. split.
  - intros [line [I H]]. apply contains_spec in H as [a [b ->]]. destruct (P2 _ a name b I) as [params [J _]]; [rewrite <- !app_assoc; reflexivity|exact NE|exact NS|eauto].
  - intros [params I]. destruct (P1 name params I (Own params)) as [status [figures J]]. eexists. split; [exact J|]. apply contains_spec.
    exists status, (params ++ s2t ")" ++ s2t " (" ++ figures). unfold signature. rewrite <- !app_assoc. reflexivity.
Qed.
Print Assumptions C58_foundry_run.

(** C58, Foundry, the parts that are false.  Another test runs too if its name contains the one in question, so that it is the
    other test that may have failed; *)
Theorem C58_foundry_only_refuted : forall root rel args name before after params,
  literal name -> match_free [join_path rel] ->
  exists build run check, exec_commands (foundry_low root) args name (root ++ rel) = Ok (build, run, check) /\
    forge_selects (c_args run) (before ++ name ++ after) params.
Proof.
  intros root rel args name before after params L F. destruct (foundry_exec root args name rel F) as [build [run [check [E [B1 [B2 [B3 [R1 [R2 [R3 [R4 [P C]]]]]]]]]]]].
  exists build, run, (Some check). split; [exact E|]. unfold forge_selects. rewrite P. apply literal_matches; [exact L|].
  exists before, (after ++ s2t "(" ++ params ++ s2t ")"). unfold signature. rewrite <- !app_assoc. reflexivity.
Qed.
Print Assumptions C58_foundry_only_refuted.
(** and if the name contains a [$] (after the first character), then no test is ever selected. *)
Theorem C58_foundry_dollar_refuted : forall root rel args first more other params,
  literal first -> first <> [] -> Forall name_char more -> match_free [join_path rel] ->
  exists build run check, exec_commands (foundry_low root) args (first ++ DOLLAR :: more) (root ++ rel) = Ok (build, run, check) /\
    ~ forge_selects (c_args run) other params.
Proof.
  intros root rel args u v other params L NE K F. destruct (foundry_exec root args (u ++ DOLLAR :: v) rel F) as [build [run [check [E [B1 [B2 [B3 [R1 [R2 [R3 [R4 [P C]]]]]]]]]]]].
  exists build, run, (Some check). split; [exact E|]. unfold forge_selects. rewrite P. intros H. apply dollar_matches in H as [b H]; [|exact L|exact K].
  assert (Q : last (signature other params) 0%N = last (b ++ u) 0%N) by (rewrite H; reflexivity).
  unfold signature in Q. rewrite !app_assoc in Q. rewrite last_app_s in Q by discriminate. rewrite last_app_s in Q by exact NE. cbn in Q.
  destruct (exists_last NE) as [u' [c ->]]. rewrite last_app_s in Q by discriminate. cbn in Q. subst c. apply Forall_app in L as [_ L]. inversion L; subst. discriminate.
Qed.
Print Assumptions C58_foundry_dollar_refuted.

(** ** Examples *)
Definition ex_package : package := Package [s2t "p"] [Target [TLib] (s2t "p") [s2t "p"; s2t "src"; s2t "lib.rs"]; Target [TTest] (s2t "t") [s2t "p"; s2t "tests"; s2t "t.rs"]].
Definition no_testname : list text -> option text := fun _ => None.
Example C58_nonvacuous_rust :
  let source := [s2t "p"; s2t "tests"; s2t "t.rs"] in
  sane_package ex_package /\ is_option (s2t "m::f") = false /\
  (exists build run check, rust_commands ex_package [s2t "--release"] (s2t "m::f") source = Ok (build, run, Some check) /\
     c_args build = map s2t ["test"; "--manifest-path"; "/p/Cargo.toml"; "--test"; "t"; "--no-run"; "--release"]%string /\
     c_args run = map s2t ["test"; "--manifest-path"; "/p/Cargo.toml"; "--test"; "t"; "--release"; "--"; "--exact"; "m::f"]%string /\
     libtest_prints no_testname (c_args run) [s2t "m::f"; s2t "m::f2"] [s2t "running 1 test"; s2t "test m::f ... ok"] /\
     snd check (s2t "running 1 test") = true) /\
  libtest_prints no_testname (c_args (list_command (source_file_flags ex_package source) [])) [s2t "m::f"; s2t "m::f2"] [s2t "m::f: test"; s2t "m::f2: test"].
Proof.
  cbv zeta. split; [intros t [<-|[<-|[]]]; discriminate|]. split; [reflexivity|]. split.
  - eexists _, _, _. split; [reflexivity|]. split; [reflexivity|]. split; [reflexivity|]. split; [|reflexivity].
    match goal with |- libtest_prints _ ?a _ _ => assert (S0 : cargo_libtest no_testname a = Libtest true false [s2t "m::f"]) by (vm_compute; reflexivity) end.
    exists [s2t "m::f"]. unfold cargo_selected. rewrite S0. cbn [l_list]. split.
    + split; [constructor; [intros []|constructor]|]. intros t. unfold libtest_selects. cbn [l_filters l_exact In]. split.
      * intros [<-|[]]. split; [auto|]. right. eauto.
      * intros [I [E|[f [[<-|[]] ->]]]]; [discriminate|]. auto.
    + split.
      * exists [s2t "test m::f ... ok"]. split; [reflexivity|]. intros l n [<-|[]] H. unfold header in H. discriminate H.
      * intros l x I H. apply (f_equal (fun t => rev t)) in H. rewrite rev_app_distr in H. destruct I as [<-|[<-|[]]]; vm_compute in H; discriminate H.
  - match goal with |- libtest_prints _ ?a _ _ => assert (S0 : cargo_libtest no_testname a = Libtest false true []) by (vm_compute; reflexivity) end.
    exists [s2t "m::f"; s2t "m::f2"]. unfold cargo_selected. rewrite S0. cbn [l_list]. split; [|reflexivity]. split.
    + constructor; [intros [I|[]]; discriminate I|]. constructor; [intros []|constructor].
    + intros t. unfold libtest_selects. cbn [l_filters]. tauto.
Qed.
Example C58_nonvacuous_others :
  literal (s2t "TestAdd") /\ go_flag_free [s2t "-race"; s2t "-count=1"] /\ filter_free [s2t "tests/AddTest.php"; s2t "--no-coverage"] /\
  match_free [s2t "test/Add.t.sol"] /\
  exec_commands (go_low [s2t "r"]) [s2t "-race"] (s2t "TestAdd") [s2t "r"; s2t "pkg"; s2t "add_test.go"] =
    Ok (Command (s2t "go") (map s2t ["test"; "./pkg"; "-run=^$"; "-race"]%string) [] (Some [s2t "r"]),
        Command (s2t "go") (map s2t ["test"; "./pkg"; "-run=^TestAdd$"; "-v"; "-race"]%string) [] (Some [s2t "r"]), Some (go_check (s2t "TestAdd"))).
Proof.
  split; [repeat constructor|]. split; [intros a [<-|[<-|[]]]; reflexivity|]. split.
  - intros a [<-|[<-|[]]]; (split; [discriminate|]); intros v H; apply (f_equal (firstn 9)) in H; vm_compute in H; discriminate H.
  - split; [intros a [<-|[]]; split; discriminate|reflexivity].
Qed.
