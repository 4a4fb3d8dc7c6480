(** Whole invocations: C56, C57. *)
From Verif Require Import Base M_Text M_Rewriter M_Span M_Run S_Run L_Run P_Run M_Output S_Output M_Sqlite P_Sqlite M_Options P_Options M_Config M_Main.
From Verif Require M_Skill P_Skill.

Section Main.
Context {V : Type} (yaml : text -> option M_Skill.header) (semver : text -> option V) (vcmp : V -> V -> comparison)
        (vshow : V -> text) (pshow : path -> text) (builtin_skill : text) (builtin_version : V)
        (hash16 : text -> text) (default_toml : text).

Notation invoke := (necessist yaml semver vcmp vshow pshow builtin_skill builtin_version hash16 default_toml).
Notation exit g o sel k := (exit_code (invoke g o sel k)).

(** ** Specification *)

(** The command line is one that is accepted (C23). *)
Definition acceptable (o : options) : Prop :=
  (forall f g, given o f -> given o g -> ~ contradict f g) /\
  (op_write o = true -> given o check_skill \/ given o find_skill).

(** Options that make necessist look at things only. *)
Definition only_looks (o : options) : Prop :=
  given o dump_ \/ given o dump_candidates_ \/ given o dump_candidate_counts_.
Definition about_skill (o : options) : Prop := given o check_skill \/ given o find_skill.
(** Options that leave it at a run of the tests. *)
Definition runs_tests (o : options) : Prop := ~ only_looks o /\ ~ about_skill o /\ ~ given o default_config.

(** Everything before the first removal goes well: the root, the lock, the configuration, the framework, the source
    files, and the search for candidates, which finds [files]. *)
Definition prepared (g : setting) (o : options) (sel : option framework) (k : disk) (files : list (path * span_test_maps)) : Prop :=
  acceptable o /\
  exists root c f paths n,
    g_root g (op_root o) = Some root /\ g_lock g root = true /\
    (g_config_stat g = true /\
     match k_config k with
     | None => c = toml_default
     | Some t => g_config_read g = true /\ g_toml g t = Some c
     end) /\
    choose_framework (g_exists g) sel = Ok f /\ g_construct g f = true /\
    Forall2 (fun p q => exists full, means root p full /\ g_canon g full = Some q /\ P_Options.within root q) (op_source_files o) paths /\
    g_parse g f c paths (k_src k) = Ok (n, files).

(** ** Lemmas *)
Lemma accepted_iff o : process_options o = Ok tt <-> acceptable o.
Proof. apply C23_accepted_iff. Qed.

Lemma with_db_same k : with_db (k_db k) k = k. Proof. destruct k; reflexivity. Qed.
Lemma with_src_same k : with_src (k_src k) k = k. Proof. destruct k; reflexivity. Qed.

Lemma read_config_ok g k c : read_config g k = Ok c ->
  g_config_stat g = true /\
     match k_config k with
     | None => c = toml_default
     | Some t => g_config_read g = true /\ g_toml g t = Some c
     end.
Proof.
  unfold read_config. destruct (g_config_stat g); cbn [negb]; [|discriminate].
  destruct (k_config k) as [t|]; [|intros E; split; congruence].
  destruct (g_config_read g); cbn [negb]; [|discriminate]. destruct (g_toml g t) eqn:E; [|discriminate].
  intros X. injection X as <-. auto.
Qed.

Inductive shape (g : setting) (o : options) (sel : option framework) (k : disk) : answer -> Prop :=
| sh_early : shape g o sel k (Answer [] [] (Some []) (Err tt))
| sh_panic : ~ about_skill o -> ~ given o M_Options.default_config ->
    (exists f c paths, g_parse g f c paths (k_src k) = Panic) -> shape g o sel k (Answer [] [] (Some []) Panic)
| sh_skill_check p : acceptable o -> op_check_skill o = Some p ->
    shape g o sel k
      (let '(f, _, _, r) := M_Skill.check yaml semver vcmp vshow pshow builtin_skill builtin_version (g_sys g) (k_skill k) (g_home g) (g_skill_path g p) (op_write o) in
       Answer [with_skill f k] [] (Some [])
        (match r with Ok st => Ok (M_Skill.exit_success st) | Err _ => Err tt | Panic => Panic end))
| sh_skill_find : acceptable o -> op_check_skill o = None -> op_find_skill o = true ->
    shape g o sel k
      (let '(f, _, r) := M_Skill.find yaml semver vcmp vshow pshow builtin_skill builtin_version (g_sys g) (k_skill k) (g_home g) (op_write o) in
        Answer [with_skill f k] [] (Some [])
          (match r with Ok st => Ok (M_Skill.exit_success st) | Err _ => Err tt | Panic => Panic end))
| sh_default : acceptable o -> op_default_config o = true -> op_check_skill o = None -> op_find_skill o = false ->
    shape g o sel k
      (let '(states, r) := write_default_config default_toml g k in
       Answer states [] (Some []) (match r with Ok _ => Ok true | Err e => Err e | Panic => Panic end))
| sh_look l r : acceptable o -> only_looks o -> (r <> Ok false) -> shape g o sel k (Answer [] [] l r)
| sh_run files : prepared g o sel k files -> runs_tests o -> shape g o sel k (main_run hash16 g o files k).

Lemma process_total o : process_options o <> Panic.
Proof.
  unfold process_options.
  assert (T : forall xs, incompatible o xs <> Panic).
  { intros xs H. destruct (incompatible_spec o xs) as [[E _]|[f [h [l [r [_ [_ [_ [_ E]]]]]]]]]; congruence. }
  intros H.
  repeat match type of H with
         | bind ?x _ = _ => let E := fresh in destruct x eqn:E; cbn [bind] in H; [|discriminate|exact (T _ E)]
         end.
  destruct (_ && _); discriminate.
Qed.

Lemma choose_total ex sel : choose_framework ex sel <> Panic.
Proof.
  unfold choose_framework. destruct sel; [discriminate|]. destruct (applicable_frameworks _ _) as [fs|]; [|discriminate].
  destruct (Nat.leb _ _); [destruct fs; discriminate|discriminate].
Qed.

Lemma read_total g k : read_config g k <> Panic.
Proof.
  unfold read_config. destruct (g_config_stat g); cbn [negb]; [|discriminate]. destruct (k_config k); [|discriminate].
  destruct (g_config_read g); cbn [negb]; [|discriminate]. destruct (g_toml g t); discriminate.
Qed.

Lemma shape_of g o sel k : shape g o sel k (invoke g o sel k).
Proof.
  unfold necessist. destruct (process_options o) as [[]|e|] eqn:PO; [|apply sh_early|destruct (process_total o PO)].
  apply accepted_iff in PO as AC.
  destruct (op_check_skill o) as [p|] eqn:CS; [apply sh_skill_check; assumption|].
  destruct (op_find_skill o) eqn:FS; [apply sh_skill_find; assumption|].
  destruct (g_root g (op_root o)) as [root|] eqn:R; [|apply sh_early].
  destruct (g_lock g root) eqn:L; cbn [negb]; [|apply sh_early].
  destruct (op_no_local_functions o && _); [apply sh_early|].
  unfold prepare_and_run. destruct (op_default_config o) eqn:DC; [apply sh_default; assumption|].
  destruct (read_config g k) as [c|[]|] eqn:RC; [|apply sh_early|destruct (read_total g k RC)].
  assert (NS : ~ about_skill o) by (unfold about_skill, given; rewrite CS, FS; intuition congruence).
  assert (ND : ~ given o M_Options.default_config) by (unfold given; congruence).
  destruct (op_dump o) eqn:DU.
  { destruct (op_no_sqlite o) eqn:NQ.
    { exfalso. destruct AC as [AC _]. apply (AC dump_ no_sqlite); [exact DU|exact NQ|]. apply database_unused. left. reflexivity. }
    assert (RS : op_reset o = false).
    { destruct (op_reset o) eqn:E; [|reflexivity]. exfalso. destruct AC as [AC _].
      apply (AC dump_ reset); [exact DU|exact E|]. apply two_modes; [exact I|exact I|discriminate]. }
    assert (LK : only_looks o) by (left; exact DU).
    unfold open_db. rewrite DU, RS.
    assert (TL : tl (fst (init (g_sql g) (g_file_exists g) (denied o WDatabaseDoesNotExist) true false (op_resume o) (k_db k))) = []).
    { destruct (init_cases (g_sql g) (g_file_exists g) (denied o WDatabaseDoesNotExist) true false (op_resume o) (k_db k)) as [[E _]|[[rows [_ [X _]]]|[_ [X _]]]]; try discriminate.
      rewrite E. reflexivity. }
    destruct (init _ _ _ _ _ _ _) as [states r]. cbn [fst] in TL. cbn beta iota. rewrite TL. cbn [map].
    destruct r as [past|e|]; try (apply sh_look; [exact AC|exact LK|discriminate]).
    apply sh_look; [exact AC|exact LK|]. destruct (dump _ _ _); discriminate. }
  destruct (choose_framework (g_exists g) sel) as [f|e|] eqn:CF; [|apply sh_early|destruct (choose_total _ _ CF)].
  destruct (g_construct g f) eqn:GC; cbn [negb]; [|apply sh_early].
  destruct (canonicalize_source_files (g_canon g) root (op_source_files o)) as [paths|e|] eqn:CP; [|apply sh_early|destruct (C24_total _ _ _ CP)].
  destruct (g_parse g f c paths (k_src k)) as [[n files]|[]|] eqn:GP; [|apply sh_early|apply sh_panic; eauto].
  destruct (op_dump_candidates o) eqn:DCA.
  { assert (LK : only_looks o) by (right; left; exact DCA). destruct (dump_candidates _ _ _ _) as [l r].
    apply sh_look; [exact AC|exact LK|]. destruct l, r; discriminate. }
  destruct (op_dump_candidate_counts o) eqn:DCC.
  { assert (LK : only_looks o) by (right; right; exact DCC). cbv zeta. apply sh_look; [exact AC|exact LK|]. destruct (dump_candidate_counts _ _ _); discriminate. }
  apply sh_run.
  - split; [exact AC|]. exists root, c, f, paths, n. split; [exact R|]. split; [exact L|]. split; [apply read_config_ok, RC|].
    split; [exact CF|]. split; [exact GC|]. split; [apply C24_accepted_iff, CP|exact GP].
  - split; [|split; assumption]. unfold only_looks, given. rewrite DU, DCA, DCC. intuition congruence.
Qed.

(** Two modes cannot be in effect at once. *)
Lemma one_mode o f h : acceptable o -> given o f -> given o h -> P_Options.mode f -> P_Options.mode h -> f <> h -> False.
Proof. intros [AC _] F H MF MH N. exact (AC f h F H (two_modes f h MF MH N)). Qed.

Lemma write_default_spec g k : 
  (exists c, write_default_config default_toml g k = ([with_config c k], Err tt) /\ k_config k = None) \/
  write_default_config default_toml g k = ([], Err tt) \/
  (write_default_config default_toml g k = ([with_config (Some default_toml) k], Ok tt) /\ k_config k = None).
Proof.
  unfold write_default_config. destruct (g_config_stat g); cbn [negb]; [|tauto]. destruct (k_config k); [tauto|].
  destruct (g_config_write g) as [x|]; [left; eauto|right; right; auto].
Qed.

Lemma exit_early : exit_code (Answer [] [] (Some []) (Err tt)) = 2%N. Proof. reflexivity. Qed.

(** ** C56: what each mode leaves alone *)

(** --dump, --dump-candidates, --dump-candidate-counts: nothing on disk ever changes and no test is run, whatever else
    is on the command line. *)
Theorem C56_looking_changes_nothing : forall g o sel k, only_looks o ->
  (forall s, In s (a_states (invoke g o sel k)) -> s = k) /\ a_trace (invoke g o sel k) = [] /\
  exit g o sel k <> 1%N.
Proof.
  intros g o sel k LK.
  destruct (shape_of g o sel k) as [|NS ND P|p AC CS|AC CS FS|AC DC CS FS|l r _ _ N|files _ [NL _]].
  - split; [intros s []|]. split; [reflexivity|discriminate].
  - split; [intros s []|]. split; [reflexivity|discriminate].
  - exfalso. assert (G : given o check_skill) by (unfold given; congruence).
    destruct LK as [H|[H|H]]; refine (one_mode o _ _ AC G H I I _); discriminate.
  - exfalso. destruct LK as [H|[H|H]]; refine (one_mode o find_skill _ AC FS H I I _); discriminate.
  - exfalso. destruct LK as [H|[H|H]]; refine (one_mode o M_Options.default_config _ AC DC H I I _); discriminate.
  - split; [intros s []|]. split; [reflexivity|]. destruct r as [[]|[]|]; cbn; congruence.
  - contradiction.
Qed.

(** --default-config: writes necessist.toml if there is none, and touches nothing else; an existing one is kept. *)
Theorem C56_default_config : forall g o sel k, given o M_Options.default_config ->
  let a := invoke g o sel k in
  a_trace a = [] /\
  (forall s, In s (a_states a) -> k_src s = k_src k /\ k_db s = k_db k /\ k_skill s = k_skill k) /\
  (k_config k <> None -> a_states a = [] /\ exit g o sel k = 2%N) /\
  (exit g o sel k = 0%N -> k_config k = None /\ k_config (final k a) = Some default_toml).
Proof.
  intros g o sel k DG. cbv zeta.
  destruct (shape_of g o sel k) as [|NS ND P|p AC CS|AC CS FS|AC DC CS FS|l r AC LK N|files [AC _] [_ [_ ND]]].
  - split; [reflexivity|]. split; [intros s []|]. split; [split; reflexivity|discriminate].
  - contradiction.
  - exfalso. refine (one_mode o check_skill _ AC _ DG I I _); [unfold given; congruence|discriminate].
  - exfalso. refine (one_mode o find_skill _ AC FS DG I I _); discriminate.
  - destruct (write_default_spec g k) as [[c [E C]]|[E|[E C]]]; rewrite E; cbn [a_trace a_states a_end exit_code final last].
    + split; [reflexivity|]. split; [intros s [<-|[]]; auto|]. split; [congruence|discriminate].
    + split; [reflexivity|]. split; [intros s []|]. split; [split; reflexivity|discriminate].
    + split; [reflexivity|]. split; [intros s [<-|[]]; auto|]. split; [congruence|]. intros _. split; [exact C|reflexivity].
  - exfalso. destruct LK as [H|[H|H]]; refine (one_mode o M_Options.default_config _ AC DG H I I _); discriminate.
  - contradiction.
Qed.

(** --check-skill, --find-skill: nothing below the root is touched, and without --write nothing at all. *)
Theorem C56_skill_modes : forall g o sel k, about_skill o ->
  a_trace (invoke g o sel k) = [] /\
  forall s, In s (a_states (invoke g o sel k)) ->
    k_src s = k_src k /\ k_config s = k_config k /\ k_db s = k_db k /\
    (op_write o = false -> forall q, k_skill s q = k_skill k q).
Proof.
  intros g o sel k SK.
  destruct (shape_of g o sel k) as [|NS ND P|p AC CS|AC CS FS|AC DC CS FS|l r AC LK N|files [AC _] [_ [NS _]]].
  - split; [reflexivity|intros s []].
  - contradiction.
  - destruct (M_Skill.check _ _ _ _ _ _ _ _ _ _ _ _) as [[[f out] w] r] eqn:E. cbn [a_trace a_states].
    split; [reflexivity|]. intros s [<-|[]]. cbn [with_skill k_src k_config k_db k_skill].
    split; [reflexivity|]. split; [reflexivity|]. split; [reflexivity|]. intros W q.
    unfold M_Skill.check in E. rewrite W in E.
    destruct (P_Skill.stands_total yaml semver vcmp vshow pshow builtin_skill builtin_version (k_skill k (M_Skill.y_real (g_sys g) (g_skill_path g p)))) as [st ST].
    destruct (P_Skill.C43_safe yaml semver vcmp vshow pshow builtin_skill builtin_version (g_sys g) (k_skill k) (g_skill_path g p) false st ST) as [S1 _].
    destruct (M_Skill.check_impl _ _ _ _ _ _ _ _ _ _ _ _) as [[f1 o1] r1]. cbn [fst] in S1. injection E as <- _ _ _. rewrite (S1 eq_refl). reflexivity.
  - destruct (M_Skill.find _ _ _ _ _ _ _ _ _ _ _) as [[f out] r] eqn:E. cbn [a_trace a_states].
    split; [reflexivity|]. intros s [<-|[]]. cbn [with_skill k_src k_config k_db k_skill].
    split; [reflexivity|]. split; [reflexivity|]. split; [reflexivity|]. intros W q. rewrite W in E.
    pose proof (P_Skill.C44_no_creation yaml semver vcmp vshow pshow builtin_skill builtin_version (g_sys g) (k_skill k) (g_home g) false q) as [S1 _].
    rewrite E in S1. exact (S1 eq_refl).
  - exfalso. unfold about_skill, given in SK. rewrite CS, FS in SK. destruct SK; congruence.
  - exfalso. destruct SK as [S|S]; destruct LK as [H|[H|H]]; refine (one_mode o _ _ AC S H I I _); discriminate.
  - contradiction.
Qed.

(** ** The run *)
Definition rows_in (d : db_file) : list row := match d with Some (Some rows) => rows | _ => [] end.
Definition row_for (x : removal) (r : row) : Prop :=
  r_span r = display_span (rm_span x) /\ r_text r = rm_text x /\ r_outcome r = s2t (outcome_word (rm_outcome x)).
(** The back end attributes each candidate to the file it is in. *)
Definition parses_well (g : setting) : Prop :=
  forall f c ps src n files, g_parse g f c ps src = Ok (n, files) -> paths_ok files.

Inductive run_shape (g : setting) (o : options) (files : list (path * span_test_maps)) (k : disk) : answer -> Prop :=
| rs_early r : r = Err tt \/ r = Panic -> run_shape g o files k (Answer [] [] (Some []) r)
| rs_created r : op_no_sqlite o = false -> k_db k = None -> r = Err tt \/ r = Panic -> run_shape g o files k (Answer [with_db (Some None) k] [] (Some []) r)
| rs_dropped r rows : op_no_sqlite o = false -> k_db k = Some (Some rows) -> op_reset o = true ->
    r = Err tt \/ r = Panic -> run_shape g o files k (Answer [with_db (Some None) k] [] (Some []) r)
| rs_plain : op_no_sqlite o = true -> let x := run_from hash16 (k_src k) (oracle_of g o) files (k_src k) None in
    run_shape g o files k (Answer [with_src (w_fs (fst x)) k] (w_trace (fst x)) (Some [])
      (match snd x with Ok _ => Ok true | Err _ => Err tt | Panic => Panic end))
| rs_db states past : op_no_sqlite o = false ->
    (forall s, In s states -> exists d, s = with_db d k) ->
    (op_reset o = false -> k_db k <> None -> states = []) ->
    (op_reset o = false -> op_resume o = false -> k_db k = None) ->
    (k_db k <> Some None) ->
    (op_reset o = false -> k_db k <> None -> length past = length (rows_in (k_db k))) ->
    (op_reset o = true \/ k_db k = None -> past = []) ->
    let x := run_from hash16 (k_src k) (oracle_of g o) files (k_src k) (Some past) in
    run_shape g o files k (Answer (states ++ [with_db (Some (Some ((if op_reset o then [] else rows_in (k_db k)) ++
         map (to_row g) (skipn (length past) match w_db (fst x) with Some rows => rows | None => [] end)))) (with_src (w_fs (fst x)) k)])
      (w_trace (fst x)) (Some []) (match snd x with Ok _ => Ok true | Err _ => Err tt | Panic => Panic end)).

Lemma into_internals_length ex rows : forall rs, into_internals ex rows = Ok rs -> length rs = length rows.
Proof.
  induction rows as [|r rows IH]; intros rs E; cbn in E; [injection E as <-; reflexivity|].
  destruct (into_internal ex r); cbn in E; try discriminate. destruct (into_internals ex rows) eqn:E1; cbn in E; try discriminate.
  injection E as <-. cbn. f_equal. apply IH. reflexivity.
Qed.

Lemma run_shape_of g o files k : op_dump o = false -> run_shape g o files k (main_run hash16 g o files k).
Proof.
  intros DU. unfold main_run. destruct (g_handler g); cbn [negb]; [|apply rs_early; left; reflexivity].
  destruct (op_no_sqlite o) eqn:NS.
  { destruct (run_from _ _ _ _ _ _) as [w r] eqn:E.
    pose proof (rs_plain g o files k NS) as H. cbv zeta in H. rewrite E in H. exact H. }
  unfold open_db. rewrite DU.
  pose proof (init_cases (g_sql g) (g_file_exists g) (denied o WDatabaseDoesNotExist) false (op_reset o) (op_resume o) (k_db k)) as C.
  cbv zeta in C. destruct (init _ _ _ _ _ _ _) as [states r]. cbn [fst snd] in C.
  destruct C as [[E1 [[e E2]|[[X|RE] [RS [rows [DB E2]]]]]]|[[rows [DB [RS [[E1 [e E2]]|[E1 E2]]]]]|[DB [_ [DN [[E1 [e E2]]|[E1 E2]]]]]]];
    try discriminate; subst states; cbn [tl map].
  - subst r. cbn beta iota. apply rs_early. left. reflexivity.
  - destruct r as [past|e|]; try (apply rs_early; auto; fail).
    cbn [last_disk last].
    destruct (run_from hash16 (k_src k) (oracle_of g o) files (k_src k) (Some past)) as [w r'] eqn:E.
    pose proof (rs_db g o files k [] past NS) as H. cbv zeta in H. rewrite E in H. cbn [fst snd] in H. rewrite RS, DB in H.
    rewrite DB. cbn [app]. cbn [rows_in app] in H.
    assert (L : length past = length rows) by (apply (into_internals_length (g_file_exists g)); symmetry; exact E2).
    replace (match w_db w with Some rows0 => map (to_row g) (skipn (length past) rows0) | None => [] end)
      with (map (to_row g) (skipn (length past) match w_db w with Some rows0 => rows0 | None => [] end))
      by (destruct (w_db w); [reflexivity|rewrite skipn_nil; reflexivity]).
    apply H; try congruence; intros; try (destruct H0; congruence).
  - subst r. cbn beta iota. apply (rs_dropped _ _ _ _ (Err tt) rows NS DB RS). left. reflexivity.
  - subst r. cbn beta iota. cbn [last_disk last].
    destruct (run_from hash16 _ (oracle_of g o) files _ (Some [])) as [w r'] eqn:E.
    pose proof (rs_db g o files k [with_db (Some None) k; with_db (Some (Some [])) k] [] NS) as H. cbv zeta in H.
    change (k_src (with_db (Some (Some [])) k)) with (k_src k) in E. rewrite E in H. cbn [fst snd] in H. rewrite RS in H.
    cbn [length skipn app] in *. change (k_db (with_db (Some (Some [])) k)) with (Some (Some (@nil row))).
    cbn [app].
    replace (match w_db w with Some rows0 => map (to_row g) rows0 | None => [] end)
      with (map (to_row g) match w_db w with Some rows0 => rows0 | None => [] end) by (destruct (w_db w); reflexivity).
    apply H; try congruence; try (intros; congruence). intros s [<-|[<-|[]]]; eauto.
  - subst r. cbn beta iota. apply rs_created; auto.
  - subst r. cbn beta iota. cbn [last_disk last].
    destruct (run_from hash16 _ (oracle_of g o) files _ (Some [])) as [w r'] eqn:E.
    pose proof (rs_db g o files k [with_db (Some None) k; with_db (Some (Some [])) k] [] NS) as H. cbv zeta in H.
    change (k_src (with_db (Some (Some [])) k)) with (k_src k) in E. rewrite E in H. cbn [fst snd] in H. rewrite DB in H.
    replace (if op_reset o then [] else rows_in None) with (@nil row) in H by (destruct (op_reset o); reflexivity).
    cbn [length skipn app] in *. change (k_db (with_db (Some (Some [])) k)) with (Some (Some (@nil row))).
    cbn [app].
    replace (match w_db w with Some rows0 => map (to_row g) rows0 | None => [] end)
      with (map (to_row g) match w_db w with Some rows0 => rows0 | None => [] end) by (destruct (w_db w); reflexivity).
    apply H; try congruence; try (intros; congruence). intros s [<-|[<-|[]]]; eauto.
Qed.

Lemma runs_no_dump o : runs_tests o -> op_dump o = false.
Proof. intros [N _]. destruct (op_dump o) eqn:E; [|reflexivity]. destruct N. left. exact E. Qed.

(** A database that was there is still there, with all its rows, as they were, and perhaps new ones after them. *)
Definition kept (d d' : db_file) : Prop :=
  d = None \/ d' = d \/ exists rows more, d = Some (Some rows) /\ d' = Some (Some (rows ++ more)).

Lemma run_leaves g o files k : op_dump o = false -> paths_ok files -> forall s, In s (a_states (main_run hash16 g o files k)) ->
  (forall p, k_src s p = k_src k p) /\ k_config s = k_config k /\ k_skill s = k_skill k /\
  (op_no_sqlite o = true -> k_db s = k_db k) /\
  (op_reset o = false -> kept (k_db k) (k_db s)).
Proof.
  intros DU PO s. unfold kept.
  destruct (run_shape_of g o files k DU) as [r H|r NS DB H|r rows NS DB RS H|NS x|states past NS ST R1 R2 R3 R4 R5 x]; cbn [a_states]; intros I.
  - destruct I.
  - destruct I as [<-|[]]. cbn. split; [reflexivity|]. split; [reflexivity|]. split; [reflexivity|]. split; [congruence|tauto].
  - destruct I as [<-|[]]. cbn. split; [reflexivity|]. split; [reflexivity|]. split; [reflexivity|]. split; congruence.
  - destruct I as [<-|[]]. cbn. split; [intros p; apply C06_files_restored, PO|]. split; [reflexivity|]. split; [reflexivity|].
    split; [reflexivity|]. tauto.
  - apply in_app_or in I as [I|[<-|[]]].
    + destruct (ST s I) as [d ->]. cbn. split; [reflexivity|]. split; [reflexivity|]. split; [reflexivity|]. split; [congruence|].
      intros RS. destruct (k_db k) as [db|] eqn:DB; [|left; reflexivity]. rewrite (R1 RS) in I by discriminate. destruct I.
    + cbn. split; [intros p; apply C06_files_restored, PO|]. split; [reflexivity|]. split; [reflexivity|]. split; [congruence|].
      intros RS. rewrite RS. destruct (k_db k) as [[rows|]|] eqn:DB; [|congruence|left; reflexivity].
      right. right. exists rows. eauto.
Qed.

(** ** C56: nothing happens before the preparation is complete *)

(** Tests are run, the database is created, emptied or added to, and source files are written only once the command line
    was accepted, the root locked, the configuration read, the framework chosen, the named files found to be in the root, and the
    candidates found. *)
Theorem C56_only_after_preparation : forall g o sel k,
  a_trace (invoke g o sel k) <> [] \/
  (exists s, In s (a_states (invoke g o sel k)) /\ (k_db s <> k_db k \/ k_src s <> k_src k)) ->
  runs_tests o /\ exists files, prepared g o sel k files.
Proof.
  intros g o sel k.
  destruct (shape_of g o sel k) as [|NS ND P|p AC CS|AC CS FS|AC DC CS FS|l r AC LK N|files P R]; intros H.
  - exfalso. destruct H as [H|[s [[] _]]]. exact (H eq_refl).
  - exfalso. destruct H as [H|[s [[] _]]]. exact (H eq_refl).
  - exfalso. destruct (M_Skill.check _ _ _ _ _ _ _ _ _ _ _ _) as [[[f out] w] r]. destruct H as [H|[s [[<-|[]] H]]]; cbn in H; [|destruct H]; auto.
  - exfalso. destruct (M_Skill.find _ _ _ _ _ _ _ _ _ _ _) as [[f out] r]. destruct H as [H|[s [[<-|[]] H]]]; cbn in H; [|destruct H]; auto.
  - exfalso. destruct (write_default_spec g k) as [[c [E C]]|[E|[E C]]]; rewrite E in H; cbn in H;
      destruct H as [H|[s [[] H]]]; auto; try contradiction; subst s; cbn in H; destruct H; auto.
  - exfalso. destruct H as [H|[s [[] _]]]. exact (H eq_refl).
  - split; [exact R|]. exists files. exact P.
Qed.

(** A command line that is not accepted, a root that cannot be found, or one that is locked: nothing happens. *)
Theorem C56_refused : forall g o sel k,
  ~ acceptable o \/
  (~ about_skill o /\ (g_root g (op_root o) = None \/ exists root, g_root g (op_root o) = Some root /\ g_lock g root = false)) ->
  a_states (invoke g o sel k) = [] /\ a_trace (invoke g o sel k) = [] /\ exit g o sel k = 2%N.
Proof.
  intros g o sel k H.
  assert (E : invoke g o sel k = done (Err tt)).
  { unfold necessist. destruct (process_options o) as [[]|e|] eqn:PO; [|reflexivity|destruct (process_total o PO)].
    apply accepted_iff in PO. destruct H as [H|[NS H]]; [contradiction|].
    destruct (op_check_skill o) as [p|] eqn:CS; [destruct NS; left; unfold given; congruence|].
    destruct (op_find_skill o) eqn:FS; [destruct NS; right; exact FS|].
    destruct H as [->|[root [-> L]]]; [reflexivity|]. rewrite L. reflexivity. }
  rewrite E. auto.
Qed.

(** What the exit code of --check-skill and --find-skill says. *)
Theorem C56_check_skill_code : forall g o sel k p s, acceptable o -> op_check_skill o = Some p ->
  P_Skill.works (g_sys g) (g_skill_path g p) ->
  P_Skill.stands yaml semver vcmp builtin_version (k_skill k (M_Skill.y_real (g_sys g) (g_skill_path g p))) s ->
  exit g o sel k = (match s with
                    | P_Skill.Missing | P_Skill.Outdated _ => if op_write o then 0 else 1
                    | P_Skill.UpToDate | P_Skill.Ahead _ => 0
                    | P_Skill.Foreign => 2
                    end)%N.
Proof.
  intros g o sel k p s A CS W ST. unfold necessist. rewrite (proj2 (accepted_iff o) A), CS.
  destruct (P_Skill.C43_check yaml semver vcmp vshow pshow builtin_skill builtin_version (g_sys g) (k_skill k) (g_skill_path g p) (op_write o) s W ST) as [_ R].
  unfold M_Skill.check. destruct (M_Skill.check_impl _ _ _ _ _ _ _ _ _ _ _ _) as [[f1 o1] r1]. cbn [fst snd] in R.
  destruct s; cbn [P_Skill.report] in R; [rewrite R; destruct (op_write o); reflexivity|rewrite R; destruct (op_write o); reflexivity|rewrite R; reflexivity|rewrite R; reflexivity|destruct R as [e ->]; reflexivity].
Qed.
Theorem C56_find_skill_code : forall g o sel k h, acceptable o -> op_find_skill o = true -> g_home g = Some h ->
  P_Skill.skill_of_version yaml semver builtin_skill builtin_version -> vcmp builtin_version builtin_version = Eq ->
  (exit g o sel k = 0 \/ exit g o sel k = 1)%N ->
  (exit g o sel k = 0%N <-> forall s, In s (a_states (invoke g o sel k)) -> forall p, P_Skill.well_known h p -> P_Skill.fine yaml semver vcmp builtin_version (k_skill s (M_Skill.y_real (g_sys g) p))).
Proof.
  intros g o sel k h A FS H B R. unfold necessist. rewrite (proj2 (accepted_iff o) A), FS, H.
  destruct (op_check_skill o) eqn:CS.
  { exfalso. refine (one_mode o M_Options.check_skill M_Options.find_skill A _ FS I I _); [unfold given; congruence|discriminate]. }
  pose proof (P_Skill.C44_exit_status yaml semver vcmp vshow pshow builtin_skill builtin_version (g_sys g) (k_skill k) h (op_write o)) as X.
  destruct (M_Skill.find _ _ _ _ _ _ _ _ _ _ _) as [[f out] r]. cbn [fst snd] in X. destruct r as [st|e|]; [|cbn; intros [?|?]; discriminate|cbn; intros [?|?]; discriminate].
  intros _.
  specialize (X st B R eq_refl). unfold exit_code. cbn [a_end a_states]. split.
  - intros E. destruct (M_Skill.exit_success st) eqn:Q; [|discriminate]. intros s [<-|[]] p Wk. apply (proj1 X eq_refl p Wk).
  - intros E. rewrite (proj2 X); [reflexivity|]. exact (E _ (or_introl eq_refl)).
Qed.
(** Exit codes. *)
Theorem C56_exit_codes : forall g o sel k,
  let e := exit g o sel k in
  (e = 0 \/ e = 1 \/ e = 2 \/ e = 101)%N /\
  (e = 1%N -> about_skill o) /\
  (e = 0%N -> acceptable o /\ 
     (runs_tests o -> exists files db, prepared g o sel k files /\
        snd (run_from hash16 (k_src k) (oracle_of g o) files (k_src k) db) = Ok tt /\
        a_trace (invoke g o sel k) = w_trace (fst (run_from hash16 (k_src k) (oracle_of g o) files (k_src k) db)))).
Proof.
  intros g o sel k. cbv zeta. split.
  { unfold exit_code. destruct (a_end _) as [[]|[]|]; auto. }
  destruct (shape_of g o sel k) as [|NS ND P|p AC CS|AC CS FS|AC DC CS FS|l r AC LK N|files P R].
  - split; discriminate.
  - split; discriminate.
  - split; [intros _; left; unfold given; congruence|]. intros _. split; [exact AC|]. intros [_ [R _]]. destruct R. left. unfold given. congruence.
  - split; [intros _; right; exact FS|]. intros _. split; [exact AC|]. intros [_ [R _]]. destruct R. right. exact FS.
  - split.
    + destruct (write_default_spec g k) as [[c [E C]]|[E|[E C]]]; rewrite E; discriminate.
    + intros _. split; [exact AC|]. intros [_ [_ R]]. contradiction.
  - split; [unfold exit_code; destruct r as [[]|[]|]; cbn; congruence|]. intros _. split; [exact AC|]. intros [R _]. contradiction.
  - destruct (run_shape_of g o files k (runs_no_dump o R)) as [r H|r NS DB H|r rows NS DB RS H|NS x|states past NS ST R1 R2 R3 R4 R5 x].
    + destruct H as [-> | ->]; split; discriminate.
    + destruct H as [-> | ->]; split; discriminate.
    + destruct H as [-> | ->]; split; discriminate.
    + split; [destruct (snd x); discriminate|]. intros E. split; [exact (proj1 P)|]. intros _. exists files, None. split; [exact P|].
      fold x. split; [|reflexivity]. cbn in E. destruct (snd x) as [[]|e|]; [reflexivity|discriminate|discriminate].
    + split; [destruct (snd x); discriminate|]. intros E. split; [exact (proj1 P)|]. intros _. exists files, (Some past). split; [exact P|].
      fold x. split; [|reflexivity]. cbn in E. destruct (snd x) as [[]|e|]; [reflexivity|discriminate|discriminate].
Qed.

(** ** C57: what a run leaves *)

(** The sources are as they were, whatever happened and however it ended; so are the configuration and the skills; the
    database keeps its rows unless --reset was given, and is not touched with --no-sqlite. *)
Theorem C57_invocation_leaves : forall g o sel k, parses_well g ->
  forall s, In s (a_states (invoke g o sel k)) ->
  (forall p, k_src s p = k_src k p) /\
  (k_config k <> None \/ ~ given o M_Options.default_config -> k_config s = k_config k) /\
  (op_write o = false -> forall q, k_skill s q = k_skill k q) /\
  (given o no_sqlite -> k_db s = k_db k) /\
  (~ given o reset -> kept (k_db k) (k_db s)).
Proof.
  intros g o sel k PW s I.
  assert (SAME : k_db s = k_db k -> kept (k_db k) (k_db s)) by (unfold kept; auto).
  pose proof (C56_skill_modes g o sel k) as SK. pose proof (C56_default_config g o sel k) as DF. cbv zeta in DF.
  destruct (shape_of g o sel k) as [|NS ND P|p AC CS|AC CS FS|AC DC CS FS|l r AC LK N|files P R].
  - destruct I.
  - destruct I.
  - destruct SK as [_ SK]; [left; unfold given; congruence|]. destruct (SK s I) as [-> [-> [E W]]]. auto 6.
  - destruct SK as [_ SK]; [right; exact FS|]. destruct (SK s I) as [-> [-> [E W]]]. auto 6.
  - destruct (DF DC) as [_ [D1 [D2 _]]]. destruct (D1 s I) as [-> [E ->]].
    split; [reflexivity|]. split; [|auto]. intros [N|N]; [|contradiction]. destruct (D2 N) as [D3 _]. rewrite D3 in I. destruct I.
  - destruct I.
  - destruct P as [AC [root [c [f [paths [n [_ [_ [_ [_ [_ [_ GP]]]]]]]]]]]].
    destruct (run_leaves g o files k (runs_no_dump o R) (PW _ _ _ _ _ _ GP) s I) as [L1 [L2 [L3 [L4 L5]]]].
    split; [exact L1|]. split; [intros _; exact L2|]. split; [intros _ q; rewrite L3; reflexivity|]. split; [exact L4|].
    intros RS. apply L5. unfold given in RS. destruct (op_reset o); congruence.
Qed.

(** A run without --reset, --resume or --no-sqlite refuses to work with an existing database: nothing is
    changed, no test is run. *)
Theorem C57_existing_database_refused : forall g o sel k, runs_tests o -> k_db k <> None ->
  ~ given o reset -> ~ given o resume -> ~ given o no_sqlite ->
  a_states (invoke g o sel k) = [] /\ a_trace (invoke g o sel k) = [] /\ exit g o sel k <> 0%N.
Proof.
  intros g o sel k RT DB NR NE NS.
  assert (RS : op_reset o = false) by (unfold given in NR; destruct (op_reset o); congruence).
  assert (RE : op_resume o = false) by (unfold given in NE; destruct (op_resume o); congruence).
  assert (NQ : op_no_sqlite o = false) by (unfold given in NS; destruct (op_no_sqlite o); congruence).
  destruct (shape_of g o sel k) as [|_ ND P|p AC CS|AC CS FS|AC DC CS FS|l r AC LK N|files P R].
  - repeat split; discriminate.
  - repeat split; discriminate.
  - destruct RT as [_ [X _]]. destruct X. left. unfold given. congruence.
  - destruct RT as [_ [X _]]. destruct X. right. exact FS.
  - destruct RT as [_ [_ X]]. contradiction.
  - destruct RT as [X _]. contradiction.
  - destruct (run_shape_of g o files k (runs_no_dump o R)) as [r H|r _ DB' H|r rows _ DB' RS' H|NS' x|states past _ ST R1 R2 R3 R4 R5 x]; try congruence.
    + destruct H as [-> | ->]; repeat split; discriminate.
    + destruct (DB (R2 RS RE)).
Qed.

(** After a run that got as far as testing, or that succeeded: the rows are the old ones (none with --reset) and then one for
    each removal the run recorded, in order. *)
Theorem C57_rows_after : forall g o sel k, parses_well g -> runs_tests o -> ~ given o no_sqlite ->
  a_trace (invoke g o sel k) <> [] \/ exit g o sel k = 0%N ->
  exists new, Forall2 row_for (inserts (a_trace (invoke g o sel k))) new /\
    k_db (final k (invoke g o sel k)) = Some (Some ((if op_reset o then [] else rows_in (k_db k)) ++ new)).
Proof.
  intros g o sel k PW RT NS T.
  assert (NQ : op_no_sqlite o = false) by (unfold given in NS; destruct (op_no_sqlite o); congruence).
  destruct (shape_of g o sel k) as [|_ ND P|p AC CS|AC CS FS|AC DC CS FS|l r AC LK N|files P R].
  - destruct T; cbn in *; congruence.
  - destruct T; cbn in *; congruence.
  - destruct RT as [_ [X _]]. destruct X. left. unfold given. congruence.
  - destruct RT as [_ [X _]]. destruct X. right. exact FS.
  - destruct RT as [_ [_ X]]. contradiction.
  - destruct RT as [X _]. contradiction.
  - destruct P as [AC [root [c [f [paths [n [_ [_ [_ [_ [_ [_ GP]]]]]]]]]]]]. pose proof (PW _ _ _ _ _ _ GP) as PO.
    destruct (run_shape_of g o files k (runs_no_dump o R)) as [r H|r _ DB' H|r rows _ DB' RS' H|NS' x|states past _ ST R1 R2 R3 R4 R5 x].
    + destruct H as [-> | ->]; destruct T; cbn in *; congruence.
    + destruct H as [-> | ->]; destruct T; cbn in *; congruence.
    + destruct H as [-> | ->]; destruct T; cbn in *; congruence.
    + congruence.
    + cbn [a_trace final a_states]. unfold final. cbn [a_states]. rewrite last_last. cbn [with_db k_db].
      eexists. split; [|reflexivity].
      unfold x at 2. rewrite (C12_rows_stay hash16 (k_src k) (oracle_of g o) files (k_src k) past PO). fold x.
      rewrite skipn_app, skipn_all, Nat.sub_diag. cbn [app skipn].
      induction (inserts (w_trace (fst x))) as [|y l IH]; cbn [map]; constructor; [|exact IH].
      unfold row_for, to_row. cbn. split; [reflexivity|]. split; [reflexivity|]. apply C19_names.
Qed.

(** Success with a database that was new or reset: one row for each candidate whose tests said how they ended, and
    no other. *)
Theorem C57_success_complete : forall g o sel k, parses_well g -> runs_tests o -> ~ given o no_sqlite ->
  given o reset \/ k_db k = None -> exit g o sel k = 0%N ->
  exists files rows, prepared g o sel k files /\ k_db (final k (invoke g o sel k)) = Some (Some rows) /\
    (distinct files ->
      (forall c, In c (all_cands files) -> ~ unjudged (oracle_of g o) (a_trace (invoke g o sel k)) c ->
         exists r, In r rows /\ r_span r = display_span (c_span c)) /\
      (forall r, In r rows -> exists c, In c (all_cands files) /\ r_span r = display_span (c_span c))).
Proof.
  intros g o sel k PW RT NS FR E.
  assert (NQ : op_no_sqlite o = false) by (unfold given in NS; destruct (op_no_sqlite o); congruence).
  destruct (C57_rows_after g o sel k PW RT NS (or_intror E)) as [new [F2 DB]].
  assert (KE : (if op_reset o then [] else rows_in (k_db k)) = []).
  { destruct FR as [FR| ->]; [unfold given in FR; rewrite FR; reflexivity|]. destruct (op_reset o); reflexivity. }
  rewrite KE in DB. cbn [app] in DB.
  destruct (shape_of g o sel k) as [|_ ND P|p AC CS|AC CS FS|AC DC CS FS|l r AC LK N|files P R]; try discriminate.
  - destruct RT as [_ [X _]]. destruct X. left. unfold given. congruence.
  - destruct RT as [_ [X _]]. destruct X. right. exact FS.
  - destruct RT as [_ [_ X]]. contradiction.
  - destruct RT as [X _]. contradiction.
  - exists files, new. split; [exact P|]. split; [exact DB|]. intros D. clear KE DB.
    destruct P as [AC [root [c0 [f0 [paths [n [_ [_ [_ [_ [_ [_ GP]]]]]]]]]]]]. pose proof (PW _ _ _ _ _ _ GP) as PO.
    destruct (run_shape_of g o files k (runs_no_dump o R)) as [r H|r _ DB' H|r rows _ DB' RS' H|NS' x|states past _ ST R1 R2 R3 R4 R5 x];
      try (destruct H as [-> | ->]; discriminate); [congruence|].
    cbn [a_trace] in *.
    assert (PA : past = []) by (apply R5; destruct FR as [FR|FR]; auto). subst past.
    assert (OK : snd x = Ok tt) by (cbn in E; destruct (snd x) as [[]|e|]; [reflexivity|discriminate|discriminate]).
    pose proof (C08_one_row_per_candidate hash16 (k_src k) (oracle_of g o) files (k_src k) (Some []) PO D eq_refl) as C. cbv zeta in C.
    fold x in C. destruct C as [rows [E1 [_ [C1 [_ C2]]]]].
    assert (E2 : rows = inserts (w_trace (fst x))).
    { pose proof (C12_rows_stay hash16 (k_src k) (oracle_of g o) files (k_src k) [] PO) as X. fold x in X. rewrite E1 in X. cbn in X. congruence. }
    rewrite <- E2 in F2. split.
    + intros c I U. destruct (C2 OK c I U) as [y [Y1 Y2]]. 
      clear - F2 Y1 Y2. induction F2 as [|a b l l' H F IH]; [destruct Y1|]. destruct Y1 as [-> |Y1].
      * exists b. split; [left; reflexivity|]. rewrite (proj1 H), Y2. reflexivity.
      * destruct (IH Y1) as [r [R1 R2]]. exists r. split; [right; exact R1|exact R2].
    + intros r I.
      assert (Y : exists y, In y rows /\ r_span r = display_span (rm_span y)).
      { clear - F2 I. induction F2 as [|a b l l' H F IH]; [destruct I|]. destruct I as [-> |I].
        - exists a. split; [left; reflexivity|apply H].
        - destruct (IH I) as [y [Y1 Y2]]. exists y. split; [right; exact Y1|exact Y2]. }
      destruct Y as [y [Y1 Y2]]. destruct (C1 y Y1) as [c [C3 C4]]. exists c. split; [exact C3|].
      rewrite Y2. destruct C4 as [C4 _]. rewrite C4. reflexivity.
Qed.

(** ** Any number of invocations, one after the other *)
Definition invocation : Type := setting * options * option framework.
Definition then_ (k : disk) (i : invocation) : disk := let '(g, o, sel) := i in final k (invoke g o sel k).

Theorem C57_history : forall (is : list invocation) k,
  (forall g o sel, In (g, o, sel) is -> parses_well g) ->
  let k' := fold_left then_ is k in
  (forall p, k_src k' p = k_src k p) /\
  ((forall g o sel, In (g, o, sel) is -> ~ given o M_Options.default_config) \/ k_config k <> None -> k_config k' = k_config k) /\
  ((forall g o sel, In (g, o, sel) is -> op_write o = false) -> forall q, k_skill k' q = k_skill k q) /\
  ((forall g o sel, In (g, o, sel) is -> ~ given o reset) -> kept (k_db k) (k_db k')) /\
  ((forall g o sel, In (g, o, sel) is -> given o no_sqlite \/ only_looks o \/ about_skill o) -> k_db k' = k_db k).
Proof.
  induction is as [|[[g o] sel] is IH]; intros k PW; cbv zeta; cbn [fold_left].
  { unfold kept. auto 7. }
  set (k1 := then_ k (g, o, sel)).
  assert (K : k1 = k \/ In k1 (a_states (invoke g o sel k))).
  { unfold k1, then_, final. destruct (a_states (invoke g o sel k)) as [|s l] eqn:E; [left; reflexivity|]. right.
    destruct (exists_last (l := s :: l)) as [l' [y E']]; [discriminate|]. rewrite E'. rewrite last_last. apply in_or_app. right. left. reflexivity. }
  assert (S1 : (forall p, k_src k1 p = k_src k p) /\
      (k_config k <> None \/ ~ given o M_Options.default_config -> k_config k1 = k_config k) /\
      (op_write o = false -> forall q, k_skill k1 q = k_skill k q) /\
      (~ given o reset -> kept (k_db k) (k_db k1)) /\
      (given o no_sqlite \/ only_looks o \/ about_skill o -> k_db k1 = k_db k)).
  { destruct K as [-> |K]; [unfold kept; auto 7|].
    destruct (C57_invocation_leaves g o sel k (PW g o sel (or_introl eq_refl)) k1 K) as [L1 [L2 [L3 [L4 L5]]]].
    split; [exact L1|]. split; [exact L2|]. split; [exact L3|]. split; [exact L5|]. intros [H|[H|H]].
    - exact (L4 H).
    - rewrite (proj1 (C56_looking_changes_nothing g o sel k H) k1 K). reflexivity.
    - apply (proj2 (C56_skill_modes g o sel k H) k1 K). }
  destruct S1 as [A1 [A2 [A3 [A4 A5]]]].
  destruct (IH k1 (fun g' o' sel' I => PW g' o' sel' (or_intror I))) as [B1 [B2 [B3 [B4 B5]]]]. cbv zeta in *.
  split; [intros p; rewrite B1; apply A1|]. split; [|split; [|split]].
  - intros [H|H].
    + rewrite B2; [apply A2; right; exact (H g o sel (or_introl eq_refl))|left; intros; eapply H; right; eassumption].
    + rewrite B2; [apply A2; left; exact H|]. right. rewrite A2; [exact H|left; exact H].
  - intros H q. rewrite B3; [apply A3, (H g o sel (or_introl eq_refl))|intros; eapply H; right; eassumption].
  - intros H. specialize (A4 (H g o sel (or_introl eq_refl))). specialize (B4 (fun g' o' sel' I => H g' o' sel' (or_intror I))).
    unfold kept in *. destruct A4 as [A4|[A4|[rows [more [A4 A4']]]]].
    + left. exact A4.
    + rewrite A4 in B4. exact B4.
    + right. destruct B4 as [B4|[B4|[rows' [more' [B4 B4']]]]]; [congruence| |].
      * right. exists rows, more. split; [exact A4|congruence].
      * right. rewrite A4' in B4. injection B4 as <-. exists rows, (more ++ more'). split; [exact A4|]. rewrite B4', app_assoc. reflexivity.
  - intros H. rewrite B5; [apply A5, (H g o sel (or_introl eq_refl))|intros; eapply H; right; eassumption].
Qed.
End Main.
Print Assumptions C56_looking_changes_nothing.
Print Assumptions C56_default_config.
Print Assumptions C56_skill_modes.
Print Assumptions C56_only_after_preparation.
Print Assumptions C56_refused.
Print Assumptions C56_exit_codes.
Print Assumptions C56_check_skill_code.
Print Assumptions C56_find_skill_code.
Print Assumptions C57_invocation_leaves.
Print Assumptions C57_existing_database_refused.
Print Assumptions C57_rows_after.
Print Assumptions C57_success_complete.
Print Assumptions C57_history.

(** ** A small world *)
Definition ex_root : path := [s2t "w"].
Definition ex_setting (files : list (path * span_test_maps)) (x : oracle) : setting :=
  Setting (Env false true (Some ex_root) ex_root) (Some P_Skill.ex_home) P_Skill.ex_sys u_components
    (fun _ => Some ex_root) (fun _ => true) true true None (fun _ => Some toml_default)
    (fun n => Some (text_eqb n (s2t "Cargo.toml"))) (fun _ => true) (fun p => Some p)
    (fun _ _ _ _ => Ok (2, files)) all_ok (fun _ => true) true x (fun _ => []).
Definition ex_options (default dump reset resume find : bool) : options :=
  Options [] None default [] dump false false find false false false false reset resume None None false false [] [].
Definition ex_start : disk := Disk ex_disk None None (P_Skill.ex_files (Some (P_Skill.ex_skill "4")) None).
Notation ex_invoke g o k := (necessist P_Skill.ex_yaml P_Skill.ex_semver Nat.compare (fun _ => []) (fun _ => []) (P_Skill.ex_skill "5") 5 ex_hash
  (s2t "# defaults") g o None k).
Definition plain := ex_options false false false false false.
Definition with_default := ex_options true false false false false.
Definition with_dump := ex_options false true false false false.
Definition with_reset := ex_options false false true false false.
Definition with_resume := ex_options false false false true false.
Definition with_find := ex_options false false false false true.
Definition outcomes (k : disk) : list text := map r_outcome (rows_in (k_db k)).

Lemma ex_parses_well x : parses_well (ex_setting ex_files_m x).
Proof. intros f c ps src n files E. cbn in E. injection E as <- <-. exact ex_paths_ok_m. Qed.
Lemma ex_runs_tests : runs_tests plain /\ runs_tests with_reset /\ runs_tests with_resume.
Proof. unfold runs_tests, only_looks, about_skill, given; cbn; repeat split; intuition congruence. Qed.

Example C56_nonvacuous :
  let g := ex_setting ex_files_m ex_o in
  let k1 := final ex_start (ex_invoke g with_default ex_start) in
  only_looks with_dump /\ given with_default M_Options.default_config /\ about_skill with_find /\
  exit_code (ex_invoke g with_default ex_start) = 0%N /\ k_config k1 = Some (s2t "# defaults") /\
  exit_code (ex_invoke g with_default k1) = 2%N /\
  exit_code (ex_invoke g with_dump ex_start) = 2%N /\
  exit_code (ex_invoke g with_find ex_start) = 1%N /\
  exit_code (ex_invoke g plain ex_start) = 0%N /\
  length (a_trace (ex_invoke g plain ex_start)) = 30 /\
  ~ acceptable (ex_options false true true false false).
Proof.
  cbv zeta. split; [left; reflexivity|]. split; [reflexivity|]. split; [right; reflexivity|].
  repeat (split; [vm_compute; reflexivity|]).
  intros [A _]. apply (A dump_ reset); try reflexivity. apply two_modes; try exact I; discriminate.
Qed.

(** Interrupted, refused, resumed, dumped, reset. *)
Example C57_nonvacuous :
  let g := ex_setting ex_files_m ex_o in
  let k1 := final ex_start (ex_invoke (ex_setting ex_files_m ex_o_ctrlc) plain ex_start) in
  let k2 := final k1 (ex_invoke g with_resume k1) in
  let k3 := final k2 (ex_invoke g with_reset k2) in
  exit_code (ex_invoke (ex_setting ex_files_m ex_o_ctrlc) plain ex_start) = 2%N /\
  outcomes k1 = [s2t "failed"] /\
  exit_code (ex_invoke g plain k1) = 2%N /\ a_states (ex_invoke g plain k1) = [] /\
  exit_code (ex_invoke g with_resume k1) = 0%N /\
  outcomes k2 = [s2t "failed"; s2t "passed"; s2t "passed"] /\
  exit_code (ex_invoke g with_dump k2) = 0%N /\
  exit_code (ex_invoke g with_reset k2) = 0%N /\
  outcomes k3 = [s2t "failed"; s2t "passed"; s2t "passed"].
Proof. cbv zeta. repeat split; vm_compute; reflexivity. Qed.
