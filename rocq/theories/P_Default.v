(** C91: saying what is the default anyway changes nothing. *)
From Verif Require Import Base M_Text S_Text L_Text M_Rewriter M_Span S_Span L_Span P_Text M_Run S_Run L_Run P_Run
  M_Output S_Output L_Output M_Sqlite P_Sqlite M_Options P_Options M_Config P_Config M_Main P_Main.
From Verif Require M_Skill P_Skill.

(** The options with the deprecated --no-local-functions or without it. *)
Definition with_no_local_functions (b : bool) (o : options) : options :=
  Options (op_allow o) (op_check_skill o) (op_default_config o) (op_deny o) (op_dump o) (op_dump_candidate_counts o) (op_dump_candidates o)
    (op_find_skill o) (op_no_lines_or_columns o) b (op_no_sqlite o) (op_quiet o) (op_reset o) (op_resume o)
    (op_root o) (op_timeout o) (op_verbose o) (op_write o) (op_source_files o) (op_args o).

Section Main.
Context {V : Type} (yaml : text -> option M_Skill.header) (semver : text -> option V) (vcmp : V -> V -> comparison)
        (vshow : V -> text) (pshow : path -> text) (builtin_skill : text) (builtin_version : V).
Context (hash16 : text -> text) (default_toml : text).
Notation invoke := (necessist yaml semver vcmp vshow pshow builtin_skill builtin_version hash16 default_toml).

(** Naming the framework that is the only one the project shows signs of. *)
Theorem C91_framework_named : forall g o k f, determined (g_exists g) -> (forall h, marked (g_exists g) h <-> h = f) ->
  invoke g o (Some f) k = invoke g o None k.
Proof.
  intros g o k f D H. apply (C25_auto_unique _ f D) in H. unfold necessist, prepare_and_run. rewrite C25_named, H. reflexivity.
Qed.

(** The deprecated option: nothing but the warning, if that is not denied. *)
Theorem C91_deprecated : forall g o sel k b, ~ In WAll (op_deny o) -> ~ In WOptionDeprecated (op_deny o) ->
  invoke g (with_no_local_functions b o) sel k = invoke g o sel k.
Proof.
  intros g o sel k b N1 N2.
  assert (D : M_Main.denied o WOptionDeprecated = false).
  { unfold M_Main.denied. apply Bool.orb_false_iff. split; apply Bool.not_true_is_false; unfold has_warning; rewrite existsb_exists; intros (w & I & E);
    unfold warning_eqb in E; (destruct (warning_eq_dec _ w) as [<-|]; [contradiction|discriminate]). }
  unfold necessist. change (process_options (with_no_local_functions b o)) with (process_options o).
  change (op_check_skill (with_no_local_functions b o)) with (op_check_skill o). change (op_find_skill (with_no_local_functions b o)) with (op_find_skill o).
  change (op_root (with_no_local_functions b o)) with (op_root o). change (M_Main.denied (with_no_local_functions b o) WOptionDeprecated) with (M_Main.denied o WOptionDeprecated).
  change (op_write (with_no_local_functions b o)) with (op_write o).
  rewrite D, !Bool.andb_false_r. reflexivity.
Qed.

(** The configuration that --default-config writes. *)
Notation dc := (with_config (Some default_toml)).
Lemma init_config g o k : open_db g o (dc k) = (map dc (fst (open_db g o k)), snd (open_db g o k)).
Proof.
  unfold open_db. cbn [with_config k_db]. destruct (init _ _ _ _ _ _ (k_db k)) as [ds r]. cbn [fst snd]. rewrite map_map. reflexivity.
Qed.
Lemma last_config st k : last_disk (map dc st) (dc k) = dc (last_disk st k).
Proof.
  unfold last_disk. induction st as [|x st IH]; [reflexivity|]. destruct st; [reflexivity|]. cbn [map last] in *. exact IH.
Qed.
Lemma main_config g o files k : let a := main_run hash16 g o files k in let a' := main_run hash16 g o files (dc k) in
  a_states a' = map dc (a_states a) /\ a_trace a' = a_trace a /\ a_out a' = a_out a /\ a_end a' = a_end a.
Proof.
  unfold main_run. destruct (negb (g_handler g)); [repeat split|]. destruct (op_no_sqlite o).
  - cbn [with_config k_src]. destruct (run_from _ _ _ _ _ _) as [w r]. repeat split.
  - rewrite init_config. destruct (open_db g o k) as [st [past|e|]]; cbn [fst snd]; [|repeat split..]. rewrite last_config. cbn [with_config k_src k_db].
    destruct (run_from _ _ _ _ _ _) as [w r]. cbn [a_states a_trace a_out a_end]. rewrite map_app. repeat split.
Qed.

Theorem C91_default_config : forall g o sel k, ~ given o M_Options.default_config -> k_config k = None ->
  g_config_stat g = true -> g_config_read g = true -> g_toml g default_toml = Some toml_default ->
  let a := invoke g o sel k in let a' := invoke g o sel (with_config (Some default_toml) k) in
  a_states a' = map (with_config (Some default_toml)) (a_states a) /\ a_trace a' = a_trace a /\ a_out a' = a_out a /\ a_end a' = a_end a.
Proof.
  intros g o sel k ND NC ST RD TD. assert (N : op_default_config o = false) by (apply Bool.not_true_is_false; exact ND).
  assert (RC : read_config g (dc k) = read_config g k) by (unfold read_config; rewrite NC, ST, RD; cbn [with_config k_config]; rewrite TD; reflexivity).
  cbn zeta. unfold necessist. destruct (process_options o) as [u|e|]; [|repeat split..]. change (k_skill (dc k)) with (k_skill k).
  destruct (op_check_skill o) as [c|]; [destruct (M_Skill.check _ _ _ _ _ _ _ _ _ _ _ _) as [[[f b1] b2] r]; repeat split|].
  destruct (op_find_skill o); [destruct (M_Skill.find _ _ _ _ _ _ _ _ _ _ _) as [[f b1] r]; repeat split|].
  destruct (g_root g (op_root o)) as [root|]; [|repeat split]. destruct (negb (g_lock g root)); [repeat split|]. destruct (op_no_local_functions o && _); [repeat split|].
  unfold prepare_and_run. rewrite N, RC. destruct (read_config g k) as [c|e|]; [|repeat split..]. change (k_src (dc k)) with (k_src k). destruct (op_dump o).
  { destruct (op_no_sqlite o).
    - cbn [a_states a_trace a_out a_end]. repeat split.
    - rewrite init_config. destruct (open_db g o k) as [st [past|e|]]; cbn [fst snd]; repeat split. }
  destruct (choose_framework _ sel) as [f|e|]; [|repeat split..]. destruct (negb _); [repeat split|]. destruct (canonicalize_source_files _ root _) as [ps|e|]; [|repeat split..].
  destruct (g_parse g f c ps (k_src k)) as [[n files]|e|]; [|repeat split..]. destruct (op_dump_candidates o); [destruct (dump_candidates _ _ _ _) as [l r]; repeat split|].
  destruct (op_dump_candidate_counts o); [repeat split|]. apply main_config.
Qed.

(** ... is what a successful --default-config leaves, besides which it changes nothing. *)
Theorem C91_written : forall g o sel k, given o M_Options.default_config -> ~ about_skill o -> a_end (invoke g o sel k) = Ok true ->
  k_config k = None /\ final k (invoke g o sel k) = with_config (Some default_toml) k.
Proof.
  intros g o sel k D NS. assert (N : op_default_config o = true) by exact D. unfold about_skill, given in NS. cbn in NS.
  unfold necessist, prepare_and_run. rewrite N. destruct (process_options o) as [u|e|]; [|discriminate..].
  destruct (op_check_skill o) as [c|]; [exfalso; apply NS; left; discriminate|]. destruct (op_find_skill o); [exfalso; apply NS; right; reflexivity|].
  destruct (g_root g (op_root o)) as [root|]; [|discriminate]. destruct (negb (g_lock g root)); [discriminate|]. destruct (op_no_local_functions o && _); [discriminate|].
  unfold write_default_config. destruct (negb (g_config_stat g)); [discriminate|]. destruct (k_config k); [discriminate|]. destruct (g_config_write g); [discriminate|].
  intros _. split; reflexivity.
Qed.
End Main.
Print Assumptions C91_framework_named.
Print Assumptions C91_deprecated.
Print Assumptions C91_default_config.
Print Assumptions C91_written.

(** ** An example: the run of C56 with the framework named, the deprecated option given and the default configuration written before. *)
Definition f_setting : setting := ex_setting ex_files_m ex_o.
Notation f_invoke sel o k := (necessist P_Skill.ex_yaml P_Skill.ex_semver Nat.compare (fun _ => []) (fun _ => []) (P_Skill.ex_skill "5") 5%nat ex_hash
  (s2t "# defaults") f_setting o sel k).
Definition f_written : disk := final ex_start (f_invoke None with_default ex_start).
Example C91_nonvacuous :
  determined (g_exists f_setting) /\ (forall h, marked (g_exists f_setting) h <-> h = Rust) /\
  given with_default M_Options.default_config /\ ~ about_skill with_default /\ a_end (f_invoke None with_default ex_start) = Ok true /\
  k_config f_written = Some (s2t "# defaults") /\ ~ given plain M_Options.default_config /\ g_toml f_setting (s2t "# defaults") = Some toml_default /\
  length (inserts (a_trace (f_invoke (Some Rust) (with_no_local_functions true plain) f_written))) = 3 /\
  length (inserts (a_trace (f_invoke None plain ex_start))) = 3.
Proof.
  split; [intros f m _; discriminate|]. split.
  - intros h. split; [|intros ->; exists (s2t "Cargo.toml"); split; [vm_compute; auto|reflexivity]]. intros (m & I & E).
    destruct h; try reflexivity; exfalso; cbn in I; repeat (destruct I as [<-|I]; [vm_compute in E; discriminate|]); destruct I.
  - split; [reflexivity|]. split; [unfold about_skill, given; cbn; intros [H|H]; congruence|]. repeat (split; [vm_compute; (reflexivity || congruence)|]). vm_compute. reflexivity.
Qed.
