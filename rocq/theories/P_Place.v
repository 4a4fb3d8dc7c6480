(** C88: where a project is on the disk does not matter. *)
From Verif Require Import Base M_Text S_Text L_Text M_Rewriter M_Span S_Span L_Span P_Text M_Run S_Run L_Run P_Run
  M_Output S_Output L_Output M_Sqlite P_Sqlite M_Options P_Options M_Config P_Config M_Visitor M_Directives M_Parsing P_Parsing M_Find P_Find M_Project M_Main P_Main P_Indep P_Project S_Place.
From Verif Require M_Skill P_Skill.

(** ** The walk over a directory *)

(** A filter that looks at the last name of a path alone. *)
Definition by_name (keep : path -> text -> entry -> bool) : Prop := forall p p' n e, keep (p ++ [n]) n e = keep (p' ++ [n]) n e.

Lemma ends_same s p p' n : ~ In SLASH s -> ends_with_text s (path_text (p ++ [n])) = ends_with_text s (path_text (p' ++ [n])).
Proof. intros H. apply Bool.eq_iff_eq_true. rewrite !ends_in_path by exact H. tauto. Qed.
Lemma finders_by_name anchor f : known_runner anchor -> by_name (fd_keep (M_Project.finder_of anchor f)).
Proof.
  intros A p p' n e. destruct f; cbn [M_Project.finder_of]; try reflexivity.
  - destruct A as [->| ->]; reflexivity.
  - cbn [find_foundry fd_keep]. rewrite (ends_same _ p p') by notin. reflexivity.
  - cbn [find_go fd_keep]. rewrite (ends_same _ p p') by notin. reflexivity.
  - cbn [find_php fd_keep]. rewrite (ends_same _ p p') by notin. reflexivity.
Qed.

Section Place.
Context (root root' : path).
Notation corr := (corresponds root root').
Definition both (x x' : option path) : Prop := match x, x' with Some p, Some p' => corr p p' | None, None => True | _, _ => False end.

Lemma corr_at r : corr (root ++ r) (root' ++ r). Proof. exists r. split; reflexivity. Qed.
Lemma strip_at base r : strip_components base (base ++ r) = Some r. Proof. apply strip_components_spec. reflexivity. Qed.

Section Walks.
Context (ignored ignored' : path -> bool) (tree : entry) (same_ignored : forall r, ignored (root ++ r) = ignored' (root' ++ r)).

Fixpoint below_same (keep : path -> text -> entry -> bool) (K : by_name keep) (e : entry) {struct e} : forall r,
  Forall2 both (below_entry ignored keep (root ++ r) e) (below_entry ignored' keep (root' ++ r) e).
Proof.
  intros r. destruct e as [|[ks|]| |]; cbn [below_entry]; (constructor; [apply corr_at|]); try constructor; try exact I; try constructor.
  induction ks as [|[n k] ks IH]; [constructor|].
  apply Forall2_app; [|exact IH].
  rewrite (K (root ++ r) (root' ++ r) n k), <- !app_assoc, same_ignored. destruct (_ || _); [constructor|]. apply below_same, K.
Qed.

Lemma at_same r : at_full root tree (root ++ r) = at_full root' tree (root' ++ r).
Proof. unfold at_full. rewrite !strip_at. reflexivity. Qed.
Lemma walk_same f r : by_name (fd_keep f) -> Forall2 both (walk_dir ignored root tree f (root ++ r)) (walk_dir ignored' root' tree f (root' ++ r)).
Proof.
  intros K. unfold walk_dir. rewrite <- !app_assoc, at_same. destruct (at_full _ _ _) as [e|]; [apply below_same, K|constructor; [exact I|constructor]].
Qed.

(** ** Reading the files *)
Context (alphanumeric : char -> bool) (denied : warning -> bool) (anchor : finder) (A : known_runner anchor).
Context (parser : M_Options.framework -> path -> text -> option pfile) (f : M_Options.framework) (src : path -> text).

Definition alike {X} (x x' : res perror X) : Prop := match x, x' with Ok a, Ok b => a = b | Err _, Err _ => True | Panic, Panic => True | _, _ => False end.
Lemma alike_refl {X} (x : res perror X) : alike x x. Proof. destruct x; cbn; auto. Qed.

Notation one r := (visit_source_file alphanumeric (visitor_of f) (parser f) denied r (read_source r src)).
Notation several r := (visit_entries alphanumeric (visitor_of f) (parser f) denied r (read_source r src) (fs_is_file r tree)).
Notation all r i := (visit_paths alphanumeric (visitor_of f) (parser f) denied r (read_source r src) (fs_is_dir r tree) (fs_is_file r tree)
  (walk_dir i r tree (M_Project.finder_of anchor f))).

Lemma one_same c r st : one root c (root ++ r) st = one root' c (root' ++ r) st.
Proof. unfold visit_source_file, read_source. rewrite !strip_at. reflexivity. Qed.
Lemma file_same r : fs_is_file root tree (root ++ r) = fs_is_file root' tree (root' ++ r).
Proof. unfold fs_is_file. rewrite at_same. reflexivity. Qed.
Lemma dir_same r : fs_is_dir root tree (root ++ r) = fs_is_dir root' tree (root' ++ r).
Proof. unfold fs_is_dir. rewrite at_same. reflexivity. Qed.
Lemma several_same c d d' es es' st : Forall2 both es es' ->
  fst (several root c d es st) = fst (several root' c d' es' st) /\ alike (snd (several root c d es st)) (snd (several root' c d' es' st)).
Proof.
  intros H. revert st. induction H as [|x x' es es' X H IH]; intros st; [split; reflexivity|]. cbn [visit_entries]. destruct x as [p|], x' as [p'|]; try destruct X as (r & -> & ->); try (destruct X; fail).
  - rewrite file_same. destruct (fs_is_file _ _ _); [|apply IH]. rewrite one_same. destruct (one root' c (root' ++ r) st) as [st' [u|e|]]; [apply IH|split; [reflexivity|exact I]..].
  - split; [reflexivity|exact I].
Qed.
Lemma all_same c ps ps' st : Forall2 corr ps ps' ->
  fst (all root ignored c ps st) = fst (all root' ignored' c ps' st) /\ alike (snd (all root ignored c ps st)) (snd (all root' ignored' c ps' st)).
Proof.
  intros H. revert st. induction H as [|p p' ps ps' X H IH]; intros st; [split; reflexivity|]. destruct X as (r & -> & ->). cbn [visit_paths]. rewrite dir_same. destruct (fs_is_dir _ _ _).
  - destruct (several_same c (root ++ r) (root' ++ r) _ _ st (walk_same (M_Project.finder_of anchor f) r (finders_by_name anchor f A))) as [Q1 Q2].
    destruct (several root c _ _ st) as [s1 x1], (several root' c _ _ st) as [s2 x2]. cbn [fst snd] in Q1, Q2. subst s2.
    destruct x1, x2; try (destruct Q2; fail); [apply IH|split; [reflexivity|exact I]..].
  - rewrite file_same. destruct (fs_is_file _ _ _); [|apply IH]. rewrite one_same. destruct (one root' c (root' ++ r) st) as [st' [u|e|]]; [apply IH|split; [reflexivity|exact I]..].
Qed.

(** The same candidates, with the same tests, in files of the same names. *)
Theorem C88_candidates : forall c ps ps', Forall2 corr ps ps' ->
  project_parse alphanumeric denied parser anchor ignored' root' tree f c ps' src = project_parse alphanumeric denied parser anchor ignored root tree f c ps src.
Proof.
  intros c ps ps' H. unfold project_parse, parse. destruct (compile_config _ _ _ _) as [cc|[]|]; try reflexivity.
  assert (H' : Forall2 corr (match ps with [] => [root] | _ => ps end) (match ps' with [] => [root'] | _ => ps' end)).
  { destruct H; [|constructor; assumption]. constructor; [|constructor]. exists []. rewrite !app_nil_r. split; reflexivity. }
  destruct (all_same cc _ _ (PState 0 [] (map PWConfig (check_config (builtin_of f) c))) H') as [Q1 Q2].
  destruct (all root ignored cc _ _) as [s1 x1], (all root' ignored' cc _ _) as [s2 x2]. cbn [fst snd] in *. subst s2.
  destruct x1, x2; try (destruct Q2; fail); reflexivity.
Qed.
End Walks.

(** ** Source files named *)
Lemma canon_same canon canon' us us' : same_links root root' canon canon' -> same_files root root' us us' ->
  match canonicalize_source_files canon root us, canonicalize_source_files canon' root' us' with
  | Ok ps, Ok ps' => Forall2 corr ps ps'
  | Err _, Err _ => True
  | _, _ => False
  end.
Proof.
  intros L H. induction H as [|u u' us us' (p & p' & M1 & M2 & C) H IH]; [constructor|]. apply means_resolve in M1, M2. subst p p'.
  cbn [canonicalize_source_files]. specialize (L _ _ C). destruct (canon (resolve root u)) as [q|], (canon' (resolve root' u')) as [q'|]; try (destruct L; fail); try exact I.
  destruct L as [(r & -> & ->)|[N N']].
  - rewrite (proj2 (starts_with_spec (root ++ r) root)), (proj2 (starts_with_spec (root' ++ r) root')) by (exists r; reflexivity).
    destruct (canonicalize_source_files canon root us) as [ps|e|], (canonicalize_source_files canon' root' us') as [ps'|e'|]; cbn [bind]; try (destruct IH; fail); try exact I.
    constructor; [apply corr_at|exact IH].
  - rewrite <- starts_with_spec in N, N'. apply Bool.not_true_is_false in N, N'. rewrite N, N'. exact I.
Qed.
End Place.
Print Assumptions C88_candidates.

(** ** What is printed *)
Section Display.
Context (v v' : env) (SD : same_display v v').
Lemma console_same p : console_path v p = console_path v' p.
Proof. destruct SD as [_ H]. apply (file_name_unique v p); [apply console_path_spec|]. apply H, console_path_spec. Qed.
Lemma paint_same c t : paint v c t = paint v' c t.
Proof. unfold paint. rewrite (proj1 SD). reflexivity. Qed.
Lemma console_span_same s : console_span v s = console_span v' s.
Proof. unfold console_span. rewrite console_same. reflexivity. Qed.
Lemma emit_same x r : emit_to_console v x r = emit_to_console v' x r.
Proof. unfold emit_to_console. rewrite console_same, console_span_same, paint_same. reflexivity. Qed.
Lemma dump_loop_same x rs : forall b, dump_loop v x rs b = dump_loop v' x rs b.
Proof. induction rs as [|r rs IH]; intros b; [reflexivity|]. cbn [dump_loop]. rewrite IH, emit_same. reflexivity. Qed.
Lemma dump_same x rs : dump v x rs = dump v' x rs.
Proof. unfold dump, note. rewrite dump_loop_same, paint_same. reflexivity. Qed.
Lemma spans_shown x contents ss : dump_spans v x contents ss = dump_spans v' x contents ss.
Proof. induction ss as [|s ss IH]; [reflexivity|]. cbn [dump_spans]. rewrite IH, console_same, console_span_same. reflexivity. Qed.
Lemma counts_shown x files : dump_candidate_counts v x files = dump_candidate_counts v' x files.
Proof.
  unfold dump_candidate_counts. induction (count_sort (map file_count files)) as [|c cs IH] at 2 4; [reflexivity|]. cbn [fold_right]. rewrite IH, console_same. reflexivity.
Qed.
End Display.

(** However the environments differ, dumping ends in the same way. *)
Lemma spans_end v v' po contents ss : snd (dump_spans v (light_context po) contents ss) = snd (dump_spans v' (light_context po) contents ss).
Proof.
  induction ss as [|s ss IH]; [reflexivity|]. cbn [dump_spans]. destruct (source_text _ s) as [t|e|]; [|reflexivity|reflexivity].
  repeat match goal with |- context [println (light_context ?q) ?a ?m] => destruct (println_light q a m) as [? ->] end.
  destruct (dump_spans v (light_context po) contents ss), (dump_spans v' (light_context po) contents ss). exact IH.
Qed.

(** A project that is moved together with the directory necessist is started in, as when it is started in its root, is shown in the same way. *)
Theorem C88_display : forall base base' sub terminal log,
  same_display (Env terminal log (Some base) (base ++ sub)) (Env terminal log (Some base') (base' ++ sub)).
Proof.
  assert (X : forall base base' sub terminal log p t, file_name (Env terminal log (Some base) (base ++ sub)) p t -> file_name (Env terminal log (Some base') (base' ++ sub)) p t).
  { intros base base' sub terminal log p t [(c & rel & Q & E & ->)|[N _]]; cbn [e_cwd e_root] in *.
    - injection Q as <-. rewrite <- app_assoc in E. apply app_inv_head in E. subst rel. left. exists base', (sub ++ p). cbn [e_cwd e_root]. rewrite <- app_assoc. auto.
    - exfalso. apply (N base (sub ++ p) eq_refl). rewrite <- app_assoc. reflexivity. }
  intros base base' sub terminal log. split; [reflexivity|]. intros p t. split; apply X.
Qed.
Print Assumptions C88_display.

(** ** Invocations *)
Section Main.
Context {V : Type} (yaml : text -> option M_Skill.header) (semver : text -> option V) (vcmp : V -> V -> comparison)
        (vshow : V -> text) (pshow : path -> text) (builtin_skill : text) (builtin_version : V).
Context (hash16 : text -> text) (default_toml : text).
Notation invoke := (necessist yaml semver vcmp vshow pshow builtin_skill builtin_version hash16 default_toml).

Definition parsers_same (root root' : path) (parse parse' : M_Options.framework -> toml -> list path -> (path -> text) -> res unit (nat * list (path * span_test_maps))) : Prop :=
  forall f c ps ps' src, Forall2 (corresponds root root') ps ps' -> parse' f c ps' src = parse f c ps src.

Lemma place_parse g o sel k root root' v' find_root lock canon parse' opt files :
  g_root g (op_root o) = Some root -> find_root opt = Some root' -> lock root' = g_lock g root ->
  same_links root root' (g_canon g) canon -> same_files root root' (op_source_files o) files -> parsers_same root root' (g_parse g) parse' ->
  let a := invoke g o sel k in let a' := invoke (setting_at v' find_root lock canon parse' g) (options_at opt files o) sel k in
  a_states a' = a_states a /\ a_trace a' = a_trace a /\ a_end a' = a_end a /\ (same_display (g_env g) v' -> a_out a' = a_out a).
Proof.
  intros GR GR' GL SL SF PS.
  pose proof (canon_same root root' (g_canon g) canon (op_source_files o) files SL SF) as CS.
  set (g' := setting_at v' find_root lock canon parse' g). set (o' := options_at opt files o).
  assert (PO : print_opts_of o' = print_opts_of o) by reflexivity.
  assert (RC : read_config g' k = read_config g k) by reflexivity.
  assert (OD : open_db g' o' k = open_db g o k) by reflexivity.
  assert (WD : write_default_config default_toml g' k = write_default_config default_toml g k) by reflexivity.
  assert (MR : forall fs, main_run hash16 g' o' fs k = main_run hash16 g o fs k) by reflexivity.
  assert (ALL : forall x : answer, a_states x = a_states x /\ a_trace x = a_trace x /\ a_end x = a_end x /\ (same_display (g_env g) v' -> a_out x = a_out x)) by (intros x; repeat split).
  unfold necessist. change (process_options o') with (process_options o). destruct (process_options o) as [u|e|]; [|apply ALL..].
  change (op_check_skill o') with (op_check_skill o). destruct (op_check_skill o) as [c|]; [apply ALL|].
  change (op_find_skill o') with (op_find_skill o). destruct (op_find_skill o); [apply ALL|].
  change (g_root g' (op_root o')) with (find_root opt). rewrite GR, GR'. change (g_lock g' root') with (lock root'). rewrite GL. destruct (negb (g_lock g root)); [apply ALL|].
  change (op_no_local_functions o' && denied o' WOptionDeprecated) with (op_no_local_functions o && denied o WOptionDeprecated). destruct (op_no_local_functions o && _); [apply ALL|].
  unfold prepare_and_run. rewrite PO, RC, OD, WD. change (g_env g') with v'. set (po := print_opts_of o). clearbody po.
  change (op_default_config o') with (op_default_config o). destruct (op_default_config o); [apply ALL|]. destruct (read_config g k) as [c|e|]; [|apply ALL..].
  change (op_dump o') with (op_dump o). change (op_no_sqlite o') with (op_no_sqlite o). destruct (op_dump o).
  { destruct (if op_no_sqlite o then _ else _) as [st [past|e|]]; [|apply ALL..]. cbn [a_states a_trace a_out a_end].
    split; [reflexivity|]. split; [reflexivity|]. split; [|intros SD; symmetry; apply dump_same, SD].
    destruct (dump_light (g_env g) po (sort_removals past)) as [l ->], (dump_light v' po (sort_removals past)) as [l' ->]. reflexivity. }
  change (g_exists g') with (g_exists g). destruct (choose_framework (g_exists g) sel) as [f|e|]; [|apply ALL..]. change (g_construct g' f) with (g_construct g f). destruct (negb _); [apply ALL|].
  change (g_canon g') with canon. change (op_source_files o') with files.
  destruct (canonicalize_source_files (g_canon g) root _) as [ps|e|], (canonicalize_source_files canon root' files) as [ps'|e'|]; try (destruct CS; fail); [|apply ALL].
  change (g_parse g') with parse'. rewrite (PS f c ps ps' (k_src k) CS). destruct (g_parse g f c ps (k_src k)) as [[n fs]|e|]; [|apply ALL..].
  change (op_dump_candidates o') with (op_dump_candidates o). destruct (op_dump_candidates o).
  { unfold dump_candidates. set (ss := flat_map _ fs). pose proof (spans_light (g_env g) po (k_src k) ss) as L. pose proof (spans_light v' po (k_src k) ss) as L'.
    pose proof (spans_end (g_env g) v' po (k_src k) ss) as Q. pose proof (fun SD => spans_shown (g_env g) v' SD (light_context po) (k_src k) ss) as R.
    destruct (dump_spans (g_env g) (light_context po) _ ss) as [l r], (dump_spans v' (light_context po) _ ss) as [l' r']. cbn [fst snd a_states a_trace a_out a_end] in *. subst r'.
    split; [reflexivity|]. split; [reflexivity|]. split; [|intros SD; specialize (R SD); congruence].
    destruct r as [w|e|]; [| |destruct l, l'; reflexivity]; destruct L as [[m ->]|L], L' as [[m' ->]|L']; try discriminate; reflexivity. }
  change (op_dump_candidate_counts o') with (op_dump_candidate_counts o). destruct (op_dump_candidate_counts o).
  { cbn [a_states a_trace a_out a_end]. split; [reflexivity|]. split; [reflexivity|]. split; [|intros SD; symmetry; apply counts_shown, SD].
    destruct (counts_light (g_env g) po fs) as [l ->], (counts_light v' po fs) as [l' ->]. reflexivity. }
  rewrite MR. apply ALL.
Qed.

Context (alphanumeric : char -> bool) (denied : warning -> bool) (parser : M_Options.framework -> path -> text -> option pfile).

(** C88: two copies of a project, in different places, with the same texts below them, the same files ignored, and the same
    answers of the lock and of everything that does not concern the place. Whatever the options are (the root and the source
    files given in whatever way, as long as they mean the corresponding files), an invocation on the one and on the other leave
    the same: the same database, the same trace of tests and removals, the same texts in the corresponding files, the same end;
    and, if the files are shown under the same names, the same output. *)
Theorem C88_anywhere : forall g o sel k anchor ignored ignored' tree root root' v' find_root lock canon opt files,
  reads_with alphanumeric denied parser anchor ignored root tree g -> known_runner anchor -> (forall r, ignored' (root' ++ r) = ignored (root ++ r)) ->
  g_root g (op_root o) = Some root -> find_root opt = Some root' -> lock root' = g_lock g root ->
  same_links root root' (g_canon g) canon -> same_files root root' (op_source_files o) files ->
  let a := invoke g o sel k in
  let a' := invoke (setting_at v' find_root lock canon (project_parse alphanumeric denied parser anchor ignored' root' tree) g) (options_at opt files o) sel k in
  a_states a' = a_states a /\ a_trace a' = a_trace a /\ a_end a' = a_end a /\ (same_display (g_env g) v' -> a_out a' = a_out a).
Proof.
  intros g o sel k anchor ignored ignored' tree root root' v' find_root lock canon opt files RW KR IG GR GR' GL SL SF.
  apply (place_parse g o sel k root root' v' find_root lock canon _ opt files GR GR' GL SL SF).
  intros f c ps ps' src H. rewrite RW. apply C88_candidates; [intros r; symmetry; apply IG|exact KR|exact H].
Qed.
End Main.
Print Assumptions C88_anywhere.

(** ** An example: the project of C74, in /w, and a copy of it in /home/u/c, started with the source file named. *)
Definition h_root : path := [s2t "home"; s2t "u"; s2t "c"]%string.
Definition h_canon (base : path) (p : path) : option path := if starts_with p base then Some p else None.
Definition h_env : env := Env false true (Some [s2t "home"; s2t "u"]%string) h_root.
Definition h_setting (g : setting) : setting :=
  setting_at h_env (fun _ => Some h_root) (fun _ => true) (h_canon h_root)
    (project_parse ascii_alphanumeric (fun _ => false) r_parser find_anchor_mocha (fun _ => false) h_root r_entry) g.
Definition h_named : options := options_at None [UPath false ex_path] plain.
Definition h_copied : options := options_at (Some (UPath false [s2t "c"]%string)) [UPath true (h_root ++ ex_path)] plain.
Definition h_start : setting :=
  setting_at (g_env r_setting) (g_root r_setting) (g_lock r_setting) (h_canon ex_root) (g_parse r_setting) r_setting.
Example C88_nonvacuous :
  reads_with ascii_alphanumeric (fun _ => false) r_parser find_anchor_mocha (fun _ => false) ex_root r_entry h_start /\
  same_links ex_root h_root (h_canon ex_root) (h_canon h_root) /\ same_files ex_root h_root (op_source_files h_named) (op_source_files h_copied) /\
  map (fun r => (rm_text r, rm_outcome r)) (inserts (a_trace (ex_invoke (h_setting h_start) h_copied r_start))) =
    [(s2t "x.a();", Passed); (s2t "b();", Passed); (s2t ".a()", Passed)].
Proof.
  split; [intros f c ps src; reflexivity|]. split.
  - intros p p' (r & -> & ->). unfold h_canon. rewrite (proj2 (starts_with_spec (ex_root ++ r) ex_root)), (proj2 (starts_with_spec (h_root ++ r) h_root)) by (exists r; reflexivity).
    left. exists r. split; reflexivity.
  - split; [|vm_compute; reflexivity]. constructor; [|constructor]. exists (ex_root ++ ex_path), (h_root ++ ex_path). split; [right; split; reflexivity|]. split; [left; split; reflexivity|]. exists ex_path. split; reflexivity.
Qed.
(** Both invocations leave the same; what they print of the files' names differs only where the names do. *)
Example C88_both :
  let a := ex_invoke h_start h_named r_start in let a' := ex_invoke (h_setting h_start) h_copied r_start in
  a_states a' = a_states a /\ a_trace a' = a_trace a /\ a_end a' = a_end a.
Proof.
  intros a a'. destruct C88_nonvacuous as (RW & SL & SF & _).
  assert (IG : forall r : path, (fun _ : path => false) (h_root ++ r) = (fun _ : path => false) (ex_root ++ r)) by (intros r; reflexivity).
  destruct (C88_anywhere P_Skill.ex_yaml P_Skill.ex_semver Nat.compare (fun _ => []) (fun _ => []) (P_Skill.ex_skill "5") 5%nat ex_hash (s2t "# defaults")
    ascii_alphanumeric (fun _ => false) r_parser h_start h_named None r_start find_anchor_mocha (fun _ => false) (fun _ => false) r_entry ex_root h_root
    h_env (fun _ => Some h_root) (fun _ => true) (h_canon h_root) (Some (UPath false [s2t "c"]%string)) [UPath true (h_root ++ ex_path)]
    RW (or_introl eq_refl) IG eq_refl eq_refl eq_refl SL SF) as (X1 & X2 & X3 & _).
  split; [exact X1|]. split; [exact X2|exact X3].
Qed.
