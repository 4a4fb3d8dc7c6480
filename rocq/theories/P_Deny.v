(** C89: denying warnings turns what would be a warning into a failure, and changes nothing else. *)
From Verif Require Import Base M_Text S_Text L_Text M_Rewriter M_Span S_Span L_Span P_Text M_Run S_Run L_Run P_Run
  M_Output S_Output L_Output M_Sqlite P_Sqlite M_Options P_Options M_Config P_Config M_Visitor M_Directives M_Parsing P_Parsing M_Find M_Project M_Main P_Main P_Project S_Deny L_Deny.
From Verif Require M_Skill P_Skill.

(** ** The run *)

(** The same run; or one that did the same up to some moment, when it ended with an error, having recorded the same rows so far
    and then only put files back. *)
Theorem C89_run : forall hash16 contents x x' files fs db, stricter x x' ->
  let a := run_from hash16 contents x files fs db in let a' := run_from hash16 contents x' files fs db in
  a' = a \/ (snd a' = Err WarnDenied \/ snd a' = Err BackendFailed) /\ stopped_early (w_trace (fst a)) (w_trace (fst a')) /\ rows_before (w_db (fst a')) (w_db (fst a)).
Proof.
  intros hash16 contents x x' files fs db ST a a'. destruct (stricter_run hash16 contents x x' files fs db ST) as [E|((e & [->| ->] & E) & T & D)]; [left; exact E|right; auto..].
Qed.
Print Assumptions C89_run.

(** ** Parsing *)
Section Parse.
Context (alphanumeric : char -> bool) (d d' : warning -> bool) (D : forall w, d w = true -> d' w = true).

Definition or_fails {W E A} (y y' : W * res E A) : Prop := y' = y \/ exists e, snd y' = Err e.

Lemma collect_same : forall ls n h dr ws, or_fails (collect_from alphanumeric d n ls h dr ws) (collect_from alphanumeric d' n ls h dr ws).
Proof.
  induction ls as [|l ls IH]; intros n h dr ws; [left; reflexivity|]. cbn [collect_from]. cbn zeta.
  assert (X : forall w what, or_fails (if d w then (ws ++ [DWarn w (directive_span n l) what], Err w) else collect_from alphanumeric d (S n) ls (h && is_file_header_line l) dr (ws ++ [DWarn w (directive_span n l) what]))
    (if d' w then (ws ++ [DWarn w (directive_span n l) what], Err w) else collect_from alphanumeric d' (S n) ls (h && is_file_header_line l) dr (ws ++ [DWarn w (directive_span n l) what]))).
  { intros w what. specialize (D w). destruct (d w); [rewrite D by reflexivity; left; reflexivity|]. destruct (d' w); [right; exists w; reflexivity|apply IH]. }
  destruct (is_skip_file_directive _ l); [destruct h; [apply IH|apply X]|]. destruct (is_skip_directive _ l); [apply IH|]. destruct (directive_text l); [apply X|apply IH].
Qed.

Section File.
Context (fw : M_Visitor.framework) (own : builtin) (parse_file : path -> text -> option pfile) (root : path) (read : path -> option text)
  (is_dir is_file : path -> bool) (walk : path -> list (option path)).
Notation one := (visit_one alphanumeric fw parse_file).
Notation src := (fun dn => visit_source_file alphanumeric fw parse_file dn root read).
Notation entries := (fun dn => visit_entries alphanumeric fw parse_file dn root read is_file).
Notation paths := (fun dn => visit_paths alphanumeric fw parse_file dn root read is_dir is_file walk).

Lemma one_or c p t : or_fails (one d c p t) (one d' c p t).
Proof.
  unfold visit_one, collect. destruct (collect_same (lines t) 1 true (Directives false []) []) as [E|[e E]].
  - rewrite E. destruct (collect_from alphanumeric d 1 _ _ _ _) as [dws [dr|e|]]; try (left; reflexivity). destruct (d_skip_file dr); [left; reflexivity|].
    destruct (parse_file p t) as [f|].
    + destruct (visit_file _ _ _) as [st| |]; try (left; reflexivity). destruct (s_warn st); [left; reflexivity|]. specialize (D WLocalFunctionAmbiguous).
      destruct (d WLocalFunctionAmbiguous); [rewrite D by reflexivity; left; reflexivity|]. destruct (d' _); [right; eexists; reflexivity|left; reflexivity].
    + specialize (D WParsingFailed). destruct (d WParsingFailed); [rewrite D by reflexivity; left; reflexivity|]. destruct (d' _); [right; eexists; reflexivity|left; reflexivity].
  - right. destruct (collect_from alphanumeric d' 1 _ _ _ _) as [dws r]. cbn [snd] in E. subst r. eexists. reflexivity.
Qed.
Lemma src_or c full st : or_fails (src d c full st) (src d' c full st).
Proof.
  unfold visit_source_file. destruct (strip_components root full) as [p|]; [|left; reflexivity]. destruct (read full) as [t|]; [|left; reflexivity].
  destruct (one_or c p t) as [E|[e E]]; [rewrite E; left; reflexivity|right]. destruct (one d' c p t) as [ws r]. cbn [snd] in E. subst r. exists e. reflexivity.
Qed.
Lemma entries_or c dir es : forall st, or_fails (entries d c dir es st) (entries d' c dir es st).
Proof.
  induction es as [|[p|] es IH]; intros st; [left; reflexivity| |left; reflexivity]. cbn [visit_entries]. destruct (is_file p); [|apply IH].
  destruct (src_or c p st) as [E|[e E]].
  - rewrite E. destruct (src d c p st) as [st' [u|e|]]; [apply IH|left; reflexivity..].
  - right. destruct (src d' c p st) as [st' r]. cbn [snd] in E. subst r. exists e. reflexivity.
Qed.
Lemma paths_or c ps : forall st, or_fails (paths d c ps st) (paths d' c ps st).
Proof.
  induction ps as [|p ps IH]; intros st; [left; reflexivity|]. cbn [visit_paths].
  assert (X : or_fails (if is_dir p then entries d c p (walk p) st else if is_file p then src d c p st else (st, Ok tt))
                       (if is_dir p then entries d' c p (walk p) st else if is_file p then src d' c p st else (st, Ok tt))).
  { destruct (is_dir p); [apply entries_or|]. destruct (is_file p); [apply src_or|left; reflexivity]. }
  cbn beta in X. destruct X as [E|[e E]].
  - match type of E with ?y' = ?y => change (or_fails (let '(st, x) := y in match x with Ok _ => paths d c ps st | _ => (st, x) end) (let '(st, x) := y' in match x with Ok _ => paths d' c ps st | _ => (st, x) end)); rewrite E; clear E; destruct y as [st' [u|e|]] end; [apply IH|left; reflexivity..].
  - right. match type of E with snd ?y = _ => destruct y as [st' r] end. cbn [snd] in E. subst r. exists e. reflexivity.
Qed.
Lemma parse_or c ps : or_fails (parse alphanumeric fw own parse_file d root read is_dir is_file walk c ps) (parse alphanumeric fw own parse_file d' root read is_dir is_file walk c ps).
Proof.
  unfold parse. set (cws := map PWConfig (check_config own c)). set (ps' := match ps with [] => [root] | _ => ps end).
  assert (X : compile_config alphanumeric d' own c = compile_config alphanumeric d own c \/ compile_config alphanumeric d' own c = Err UnsupportedDenied).
  { unfold compile_config. destruct (existsb d (check_config own c)) eqn:E.
    - left. replace (existsb d' (check_config own c)) with true; [reflexivity|]. symmetry. apply existsb_exists in E as (w & I & H). apply existsb_exists. exists w. split; [exact I|apply D, H].
    - destruct (existsb d' (check_config own c)); [right|left]; reflexivity. }
  destruct (compile_config alphanumeric d' own c) as [cc|e'|] eqn:E'.
  - destruct X as [X|X]; [|discriminate]. rewrite <- X. destruct (paths_or cc ps' (PState 0 [] cws)) as [E|[e E]]; [cbn beta in E; rewrite E; left; reflexivity|right].
    cbn beta in E. destruct (visit_paths _ _ _ d' _ _ _ _ _ cc ps' _) as [st r]. cbn [snd] in E. subst r. exists e. reflexivity.
  - right. destruct e'; eexists; reflexivity.
  - destruct X as [X|X]; [|discriminate]. rewrite <- X. left. reflexivity.
Qed.
End File.

Theorem C89_parse : forall parser anchor ignored root tree f c ps src,
  let r := project_parse alphanumeric d parser anchor ignored root tree f c ps src in
  let r' := project_parse alphanumeric d' parser anchor ignored root tree f c ps src in
  r' = r \/ r' = Err tt.
Proof.
  intros parser anchor ignored root tree f c ps src r r'. unfold r, r', project_parse.
  destruct (parse_or (visitor_of f) (builtin_of f) (parser f) root (read_source root src) (fs_is_dir root tree) (fs_is_file root tree) (walk_dir ignored root tree (M_Project.finder_of anchor f)) c ps) as [E|[e E]].
  - left. rewrite E. reflexivity.
  - right. rewrite E. reflexivity.
Qed.
End Parse.
Print Assumptions C89_parse.

(** What is denied has no part in what is dumped. *)
Section Light.
Context (v : env) (al : list warning) (d1 d2 : list warning) (q vb nl : bool).
Notation x1 := (light_context (PrintOpts al d1 q vb nl)).
Notation x2 := (light_context (PrintOpts al d2 q vb nl)).
Lemma dump_denied rs : dump v x2 rs = dump v x1 rs.
Proof.
  assert (X : forall rs b, dump_loop v x2 rs b = dump_loop v x1 rs b).
  { clear rs. induction rs as [|r rs IH]; intros b; [reflexivity|]. cbn [dump_loop]. rewrite IH. reflexivity. }
  unfold dump. rewrite X. reflexivity.
Qed.
Lemma spans_denied contents ss : dump_spans v x2 contents ss = dump_spans v x1 contents ss.
Proof. induction ss as [|s ss IH]; [reflexivity|]. cbn [dump_spans]. rewrite IH. reflexivity. Qed.
Lemma counts_denied files : dump_candidate_counts v x2 files = dump_candidate_counts v x1 files.
Proof. reflexivity. Qed.
End Light.

(** ** Invocations *)
Section Main.
Context {V : Type} (yaml : text -> option M_Skill.header) (semver : text -> option V) (vcmp : V -> V -> comparison)
        (vshow : V -> text) (pshow : path -> text) (builtin_skill : text) (builtin_version : V).
Context (hash16 : text -> text) (default_toml : text).
Notation invoke := (necessist yaml semver vcmp vshow pshow builtin_skill builtin_version hash16 default_toml).

Lemma denied_denies o w : M_Main.denied o w = true <-> denies (op_deny o) w.
Proof.
  assert (X : forall v l, has_warning v l = true <-> In v l).
  { intros v l. unfold has_warning. rewrite existsb_exists. split; [intros (y & I & E); unfold warning_eqb in E; destruct (warning_eq_dec v y); [subst; exact I|discriminate]|].
    intros I. exists v. split; [exact I|]. unfold warning_eqb. destruct (warning_eq_dec v v); congruence. }
  unfold M_Main.denied, denies. rewrite Bool.orb_true_iff, !X. reflexivity.
Qed.

Lemma oracle_stricter g x' o l : stricter (g_oracle g) x' -> denies_more (op_deny o) l ->
  forall p, stricter (oracle_of g o) (oracle_of (with_backend p x' g) (with_denials l o)).
Proof.
  intros [S1 S2 S3 S4 S5 S6 S7 S8 S9 S10 S11] DM p. constructor; cbn; auto.
  intros w. unfold denied_in_run. rewrite !denied_denies. apply DM.
Qed.

Definition a_little_less (k : disk) (a a' : answer) : Prop :=
  a' = a \/ a_end a' = Err tt /\ stopped_early (a_trace a) (a_trace a') /\
    (a_states a' = [] \/ k_db (final k a') = k_db (final k a) \/ exists rows more, has_rows (final k a') rows /\ has_rows (final k a) (rows ++ more)).
Lemma less_refl k a : a_little_less k a a. Proof. left. reflexivity. Qed.
Lemma less_done k a : a_little_less k a (done (Err tt)).
Proof. right. split; [reflexivity|]. split; [exists [], []; split; [exists (a_trace a); symmetry; apply app_nil_r|reflexivity]|left; reflexivity]. Qed.
Lemma less_early k a l : a_little_less k a (Answer [] [] l (Err tt)).
Proof. right. split; [reflexivity|]. split; [exists [], []; split; [exists (a_trace a); symmetry; apply app_nil_r|reflexivity]|left; reflexivity]. Qed.

Lemma open_less g o l p x' k : denies_more (op_deny o) l ->
  let r := open_db g o k in let r' := open_db (with_backend p x' g) (with_denials l o) k in r' = r \/ r' = ([], Err tt).
Proof.
  intros DM r r'. unfold r, r', open_db. cbn [with_backend with_denials g_sql g_file_exists op_dump op_reset op_resume].
  assert (M : M_Main.denied o WDatabaseDoesNotExist = true -> M_Main.denied (with_denials l o) WDatabaseDoesNotExist = true) by (rewrite !denied_denies; apply DM).
  fold (with_denials l o). set (b := M_Main.denied o _) in *. set (b' := M_Main.denied (with_denials l o) _) in *. clearbody b b'.
  destruct b; [rewrite M by reflexivity; left; reflexivity|]. destruct b'; [|left; reflexivity].
  unfold init. destruct (negb (q_exists _)); [left; reflexivity|]. destruct (match k_db k with None => false | Some _ => true end), (op_dump o), (op_reset o), (op_resume o); try (left; reflexivity); right; reflexivity.
Qed.

Lemma main_less g o l p x' files k : stricter (g_oracle g) x' -> denies_more (op_deny o) l ->
  a_little_less k (main_run hash16 g o files k) (main_run hash16 (with_backend p x' g) (with_denials l o) files k).
Proof.
  intros ST DM. pose proof (oracle_stricter g x' o l ST DM p) as SO. unfold main_run.
  change (g_handler (with_backend p x' g)) with (g_handler g). destruct (negb (g_handler g)); [apply less_refl|].
  change (op_no_sqlite (with_denials l o)) with (op_no_sqlite o). destruct (op_no_sqlite o).
  - destruct (stricter_run hash16 (k_src k) _ _ files (k_src k) None SO) as [E|((e & _ & E) & T & D)]; [rewrite E; apply less_refl|].
    destruct (run_from hash16 (k_src k) (oracle_of g o) files (k_src k) None) as [w r], (run_from hash16 (k_src k) (oracle_of (with_backend p x' g) _) files (k_src k) None) as [w' r']. cbn [fst snd] in *. subst r'.
    right. split; [reflexivity|]. split; [exact T|]. right. left. reflexivity.
  - destruct (open_less g o l p x' k DM) as [E|E]; cbn zeta in E; rewrite E; [|apply less_early].
    destruct (open_db g o k) as [st [past|e|]]; [|apply less_refl..]. set (k1 := last_disk st k).
    destruct (stricter_run hash16 (k_src k1) _ _ files (k_src k1) (Some past) SO) as [Q|((e & _ & Q) & T & D)]; [rewrite Q; apply less_refl|].
    destruct (run_from hash16 (k_src k1) (oracle_of g o) files (k_src k1) (Some past)) as [w r] eqn:W, (run_from hash16 (k_src k1) (oracle_of (with_backend p x' g) _) files (k_src k1) (Some past)) as [w' r'] eqn:W'. cbn [fst snd] in *. subst r'.
    right. split; [reflexivity|]. split; [exact T|]. right. right. unfold has_rows, M_Main.final. cbn [a_states]. rewrite !last_last. cbn [with_db k_db].
    set (old := match k_db k1 with Some (Some rows) => rows | _ => [] end).
    assert (PR : rows_before (Some past) (w_db w')).
    { pose proof (ok_grows _ _ (ok_run hash16 (k_src k1) _ _ (stricter_refl (oracle_of (with_backend p x' g) (with_denials l o))) files (past_of (Some past))) (start (k_src k1) (Some past))) as G.
      change (run hash16 (k_src k1) (oracle_of (with_backend p x' g) (with_denials l o)) files (past_of (Some past)) (start (k_src k1) (Some past))) with (run_from hash16 (k_src k1) (oracle_of (with_backend p x' g) (with_denials l o)) files (k_src k1) (Some past)) in G.
      rewrite W' in G. exact (proj2 G). }
    destruct (w_db w') as [rows'|]; [|destruct PR]. destruct PR as (new & ->). destruct (w_db w) as [rows|]; [|destruct D]. destruct D as (more & ->).
    exists (old ++ map (to_row g) new), (map (to_row g) more). rewrite <- app_assoc, !skipn_app, skipn_all, Nat.sub_diag. cbn [skipn app].
    split; [reflexivity|]. rewrite map_app, app_assoc. reflexivity.
Qed.

(** C89: with more warnings denied, an invocation does exactly the same; or it fails (exit code 2) where the other would have warned, having
    run the same tests with the same removals until then. *)
Lemma deny_general : forall g o l parse' x' sel k, denies_more (op_deny o) l -> stricter (g_oracle g) x' ->
  (forall f c ps src, parse' f c ps src = g_parse g f c ps src \/ parse' f c ps src = Err tt) ->
  a_little_less k (invoke g o sel k) (invoke (with_backend parse' x' g) (with_denials l o) sel k).
Proof.
  intros g o l parse' x' sel k DM ST PP. set (g' := with_backend parse' x' g). set (o' := with_denials l o).
  assert (DD : forall w, M_Main.denied o w = true -> M_Main.denied o' w = true) by (intros w; rewrite !denied_denies; apply DM).
  unfold necessist. change (process_options o') with (process_options o). destruct (process_options o) as [u|e|]; [|apply less_refl..].
  change (op_check_skill o') with (op_check_skill o). destruct (op_check_skill o) as [c|]; [apply less_refl|].
  change (op_find_skill o') with (op_find_skill o). destruct (op_find_skill o); [apply less_refl|].
  change (g_root g' (op_root o')) with (g_root g (op_root o)). destruct (g_root g (op_root o)) as [root|]; [|apply less_refl].
  change (g_lock g' root) with (g_lock g root). destruct (negb (g_lock g root)); [apply less_refl|].
  change (op_no_local_functions o') with (op_no_local_functions o).
  destruct (op_no_local_functions o && M_Main.denied o WOptionDeprecated) eqn:NL.
  { apply andb_true_iff in NL as [N1 N2]. rewrite N1, (DD _ N2). apply less_refl. }
  destruct (op_no_local_functions o && M_Main.denied o' WOptionDeprecated); [apply less_done|].
  unfold prepare_and_run. change (op_default_config o') with (op_default_config o). destruct (op_default_config o); [apply less_refl|].
  change (read_config g' k) with (read_config g k). destruct (read_config g k) as [c|e|]; [|apply less_refl..].
  change (op_dump o') with (op_dump o). change (op_no_sqlite o') with (op_no_sqlite o). change (g_env g') with (g_env g).
  unfold print_opts_of. change (op_allow o') with (op_allow o). change (op_quiet o') with (op_quiet o). change (op_verbose o') with (op_verbose o).
  change (op_no_lines_or_columns o') with (op_no_lines_or_columns o). change (op_deny o') with l. set (d1 := op_deny o).
  destruct (op_dump o).
  { assert (X : forall r : list disk * res unit (list removal),
      (let '(states, q) := r in match q with Err e => Answer states [] (Some []) (Err e) | Panic => Answer states [] (Some []) Panic
        | Ok past => let y := dump (g_env g) (light_context (PrintOpts (op_allow o) l (op_quiet o) (op_verbose o) (op_no_lines_or_columns o))) (sort_removals past) in
            Answer states [] y (match y with Some _ => Ok true | None => Panic end) end) =
      (let '(states, q) := r in match q with Err e => Answer states [] (Some []) (Err e) | Panic => Answer states [] (Some []) Panic
        | Ok past => let y := dump (g_env g) (light_context (PrintOpts (op_allow o) d1 (op_quiet o) (op_verbose o) (op_no_lines_or_columns o))) (sort_removals past) in
            Answer states [] y (match y with Some _ => Ok true | None => Panic end) end)).
    { intros [st [past|e|]]; try reflexivity. rewrite (dump_denied _ _ d1 l). reflexivity. }
    rewrite X. clear X. destruct (op_no_sqlite o); [apply less_refl|].
    destruct (open_less g o l parse' x' k DM) as [E|E]; cbn zeta in E; fold g' o' in E; rewrite E; [apply less_refl|apply less_early]. }
  change (g_exists g') with (g_exists g). destruct (choose_framework (g_exists g) sel) as [f|e|]; [|apply less_refl..]. change (g_construct g' f) with (g_construct g f). destruct (negb _); [apply less_refl|].
  change (g_canon g') with (g_canon g). change (op_source_files o') with (op_source_files o).
  destruct (canonicalize_source_files (g_canon g) root _) as [ps|e|]; [|apply less_refl..].
  change (g_parse g') with parse'. destruct (PP f c ps (k_src k)) as [E|E]; rewrite E; [|apply less_done].
  destruct (g_parse g f c ps (k_src k)) as [[n fs]|e|]; [|apply less_refl..].
  change (op_dump_candidates o') with (op_dump_candidates o). unfold dump_candidates. rewrite (spans_denied _ _ d1 l). destruct (op_dump_candidates o); [apply less_refl|].
  change (op_dump_candidate_counts o') with (op_dump_candidate_counts o). rewrite (counts_denied _ _ d1 l). destruct (op_dump_candidate_counts o); [apply less_refl|].
  apply main_less; [exact ST|exact DM].
Qed.

Context (alphanumeric : char -> bool) (parser : M_Options.framework -> path -> text -> option pfile) (anchor : finder) (ignored : path -> bool) (root : path) (tree : entry).
Notation parsing o := (project_parse alphanumeric (M_Main.denied o) parser anchor ignored root tree).

(** C89: with more warnings denied, and all else the same, an invocation does exactly what it does without; or it fails (exit code 2), having
    run the same tests with the same removals as the other up to some moment, and only put files back after that. The rows it
    recorded, if it came to that, are those that the other recorded first. *)
Theorem C89_invocation : forall g o l x' sel k, denies_more (op_deny o) l -> stricter (g_oracle g) x' ->
  (forall f c ps src, g_parse g f c ps src = parsing o f c ps src) ->
  let a := invoke g o sel k in let a' := invoke (with_backend (parsing (with_denials l o)) x' g) (with_denials l o) sel k in
  a' = a \/
  a_end a' = Err tt /\ stopped_early (a_trace a) (a_trace a') /\
  (a_states a' = [] \/ k_db (final k a') = k_db (final k a) \/ exists rows more, has_rows (final k a') rows /\ has_rows (final k a) (rows ++ more)).
Proof.
  intros g o l x' sel k DM ST RW. apply (deny_general g o l _ x' sel k DM ST). intros f c ps src. rewrite RW.
  apply C89_parse. intros w. rewrite !denied_denies. apply DM.
Qed.

(** In particular, one that succeeds although everything is denied is not different from one with nothing denied. *)
Theorem C89_deny_all : forall g o x' sel k b, op_deny o = [] -> stricter (g_oracle g) x' ->
  (forall f c ps src, g_parse g f c ps src = parsing o f c ps src) ->
  let a' := invoke (with_backend (parsing (with_denials [WAll] o)) x' g) (with_denials [WAll] o) sel k in
  a_end a' = Ok b -> invoke g o sel k = a'.
Proof.
  intros g o x' sel k b E ST RW a' OK. destruct (C89_invocation g o [WAll] x' sel k) as [H|(H & _)]; [|exact ST|exact RW|symmetry; exact H|].
  - rewrite E. intros w [[]|[]].
  - fold a' in H. congruence.
Qed.
End Main.
Print Assumptions C89_invocation.
Print Assumptions C89_deny_all.

(** ** An example: the project of C74 with a source file that does not build when it is instrumented, which is only a warning; with everything
    denied, the invocation fails there, having put the file back, and records nothing. And one in which nothing is warned about. *)
Definition d_parsing (o : options) := project_parse ascii_alphanumeric (M_Main.denied o) r_parser find_anchor_mocha (fun _ => false) ex_root r_entry.
Definition d_oracle (builds : bool) : oracle :=
  ex_oracle (Behaviour (fun _ => builds) (fun _ _ => true) (fun _ _ => XPassed)) (fun _ => false) (fun _ => None).
Definition d_setting (builds : bool) : setting := with_backend (d_parsing plain) (d_oracle builds) r_setting.
Definition d_denied (builds : bool) : answer :=
  ex_invoke (with_backend (d_parsing (with_denials [WAll] plain)) (d_oracle builds) (d_setting builds)) (with_denials [WAll] plain) r_start.
Definition d_rows (a : answer) : nat := length (inserts (a_trace a)).
Example C89_nonvacuous :
  op_deny plain = [] /\ (forall b, stricter (g_oracle (d_setting b)) (d_oracle b)) /\
  (forall b f c ps src, g_parse (d_setting b) f c ps src = d_parsing plain f c ps src) /\
  (a_end (ex_invoke (d_setting false) plain r_start), a_end (d_denied false), d_rows (ex_invoke (d_setting false) plain r_start), d_rows (d_denied false)) = (Ok true, Err tt, 3, 0) /\
  (a_end (ex_invoke (d_setting true) plain r_start), a_end (d_denied true), d_rows (ex_invoke (d_setting true) plain r_start), d_rows (d_denied true)) = (Ok true, Ok true, 3, 3).
Proof.
  split; [reflexivity|]. split; [intros b; apply stricter_refl|]. split; [reflexivity|]. split; vm_compute; reflexivity.
Qed.
