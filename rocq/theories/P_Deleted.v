(** C66 and C09: a database names the files that were looked at; if one of them is gone, the rows cannot be read. *)
From Verif Require Import Base M_Text S_Text L_Text M_Rewriter M_Span S_Span L_Span P_Text M_Instr S_Instr P_Instr M_Run S_Run L_Run L_RunFinal L_Resume L_History L_Total L_Unique L_Denied P_Run
  M_Output S_Output L_Output P_Output M_Sqlite P_Sqlite M_Options P_Options M_Config M_Main P_Main P_Resume P_Progress P_Look.
From Verif Require M_Skill P_Skill S_SpanRead P_SpanRead.

(** Every row has a span in the way spans are written, and the file of one of the spans is not there. *)
Definition a_file_is_gone (g : setting) (rows : list row) : Prop :=
  Forall (fun r => exists sp, S_SpanRead.written (r_span r) sp) rows /\
  exists r sp, In r rows /\ S_SpanRead.written (r_span r) sp /\ g_file_exists g (sp_path sp) = false.

(** ** Lemmas *)
Lemma written_reads ex s sp : S_SpanRead.written s sp -> ex (sp_path sp) = true -> parse_span ex s = Ok sp.
Proof. intros W X. apply P_SpanRead.C02_reads. auto. Qed.

Lemma written_gone ex s sp : S_SpanRead.written s sp -> ex (sp_path sp) = false -> exists e, parse_span ex s = Err e.
Proof.
  intros W X. pose proof (written_reads (fun _ => true) s sp W eq_refl) as A. unfold parse_span in *.
  destruct (split_at COLON s) as [[pa r1]|]; [|discriminate]. destruct (split_at COLON r1) as [[sl r2]|]; [|discriminate].
  destruct (split_at DASH r2) as [[sc r3]|]; [|discriminate]. destruct (split_at COLON r3) as [[el ec]|]; [|discriminate].
  destruct (existsb (fun c => (c =? NL)%N) ec); [discriminate|].
  destruct (parse_usize sl) as [a|], (parse_usize sc) as [b|], (parse_usize el) as [c|], (parse_usize ec) as [d|]; try discriminate A.
  destruct (match pa with c0 :: _ => (c0 =? SLASH)%N | [] => false end); [discriminate|]. cbv zeta in *.
  destruct ((b =? 0)%N || (d =? 0)%N); [discriminate|]. injection A as <-. cbn [sp_path] in X. rewrite X. eexists. reflexivity.
Qed.

Lemma written_decided ex s sp : S_SpanRead.written s sp -> parse_span ex s = Ok sp \/ exists e, parse_span ex s = Err e.
Proof. intros W. destruct (ex (sp_path sp)) eqn:X; [left; apply written_reads|right; eapply written_gone]; eassumption. Qed.

Lemma gone_internals g rows : a_file_is_gone g rows -> exists e, into_internals (g_file_exists g) rows = Err e.
Proof.
  intros [F [r [sp [I [W X]]]]]. induction F as [|r' rows [sp' W'] F IH]; [destruct I|]. cbn [into_internals]. unfold into_internal.
  destruct (written_decided (g_file_exists g) _ _ W') as [E|[e E]]; rewrite E; cbn [bind]; [|eexists; reflexivity].
  destruct I as [->|I].
  - destruct (written_gone (g_file_exists g) _ _ W X) as [e E']. congruence.
  - destruct (parse_outcome (r_outcome r')); cbn [bind]; [|eexists; reflexivity]. destruct (IH I) as [e ->]. eexists. reflexivity.
Qed.

Section Deleted.
Context {V : Type} (yaml : text -> option M_Skill.header) (semver : text -> option V) (vcmp : V -> V -> comparison)
        (vshow : V -> text) (pshow : path -> text) (builtin_skill : text) (builtin_version : V)
        (hash16 : text -> text) (default_toml : text).
Notation invoke := (necessist yaml semver vcmp vshow pshow builtin_skill builtin_version hash16 default_toml).
Notation exit g o sel k := (exit_code (invoke g o sel k)).

(** ** C66 *)
(** [--dump] then prints no row at all, whatever the other rows are, and fails. *)
Theorem C66_deleted_file : forall g o sel k rows, root_ready g o k -> nothing_deprecated o -> given o dump_ ->
  k_db k = Some (Some rows) -> a_file_is_gone g rows ->
  exit g o sel k = 2%N /\ a_out (invoke g o sel k) = Some [].
Proof.
  intros g o sel k rows RR ND G DB GO. rewrite (dumping _ _ _ _ _ _ _ _ _ g o sel k RR ND G).
  assert (RS : op_reset o = false).
  { destruct (op_reset o) eqn:E; [|reflexivity]. exfalso. refine (one_mode o dump_ reset (proj1 RR) G E I I _). discriminate. }
  assert (OD : exists states, open_db g o k = (states, Err tt)).
  { destruct (gone_internals g rows GO) as [e E]. unfold open_db, init. rewrite DB, RS. unfold given in G. rewrite G.
    destruct (q_exists (g_sql g)); cbn [negb]; [|eexists; reflexivity]. destruct (q_open (g_sql g)); cbn [negb andb orb]; [|eexists; reflexivity].
    destruct (q_load (g_sql g)); [rewrite E|]; eexists; reflexivity. }
  destruct OD as [states ->]. split; reflexivity.
Qed.

(** ** C09 *)
(** [--resume] then runs no test, changes nothing on disk and fails, also if that file would not be looked at any more. *)
Theorem C09_deleted_file : forall g o sel k files rows, runs_tests o -> prepared g o sel k files -> nothing_deprecated o ->
  given o resume -> ~ given o reset -> ~ given o no_sqlite -> k_db k = Some (Some rows) -> a_file_is_gone g rows ->
  exit g o sel k = 2%N /\ a_trace (invoke g o sel k) = [] /\ forall d, In d (a_states (invoke g o sel k)) -> d = k.
Proof.
  intros g o sel k files rows RT P ND RE NR NS DB GO. rewrite (prepared_runs _ _ _ _ _ _ _ _ _ g o sel k files RT P ND).
  assert (RS : op_reset o = false) by (unfold given in NR; destruct (op_reset o); congruence).
  assert (NQ : op_no_sqlite o = false) by (unfold given in NS; destruct (op_no_sqlite o); congruence).
  unfold main_run. rewrite NQ. destruct (g_handler g); cbn [negb]; [|split; [reflexivity|split; [reflexivity|intros d []]]].
  assert (OD : open_db g o k = ([], Err tt)).
  { destruct (gone_internals g rows GO) as [e E]. unfold open_db, init. rewrite DB, RS, (runs_no_dump o RT). unfold given in RE. rewrite RE.
    destruct (q_exists (g_sql g)); cbn [negb]; [|reflexivity]. destruct (q_open (g_sql g)); cbn [negb andb orb]; [|reflexivity].
    destruct (q_load (g_sql g)); [rewrite E|]; reflexivity. }
  rewrite OD. split; [reflexivity|split; [reflexivity|intros d []]].
Qed.
End Deleted.
Print Assumptions C66_deleted_file.
Print Assumptions C09_deleted_file.

(** The project of P_Run, after a run, with its test file gone: the rows cannot be listed any more, although they could before, and a
    resumption stops before it runs anything. *)
Lemma gone_by g rows :
  forallb (fun r => match parse_span (fun _ => true) (r_span r) with Ok _ => true | _ => false end) rows = true ->
  existsb (fun r => match parse_span (fun _ => true) (r_span r) with Ok sp => negb (g_file_exists g (sp_path sp)) | _ => false end) rows = true ->
  a_file_is_gone g rows.
Proof.
  intros A B. rewrite forallb_forall in A. split.
  - apply Forall_forall. intros r I. specialize (A r I). cbv beta in A. destruct (parse_span (fun _ => true) (r_span r)) as [sp|e|] eqn:E; try discriminate. exists sp. apply P_SpanRead.C02_reads in E. apply E.
  - apply existsb_exists in B as [r [I B]]. destruct (parse_span (fun _ => true) (r_span r)) as [sp|e|] eqn:E; try discriminate. exists r, sp.
    split; [exact I|]. split; [apply P_SpanRead.C02_reads in E; apply E|]. destruct (g_file_exists g (sp_path sp)); [discriminate|reflexivity].
Qed.
Definition without_file (g : setting) : setting :=
  Setting (g_env g) (g_home g) (g_sys g) (g_skill_path g) (M_Main.g_root g) (g_lock g) (g_config_stat g) (g_config_read g) (g_config_write g) (g_toml g)
    (g_exists g) (g_construct g) (g_canon g) (g_parse g) (g_sql g) (fun _ => false) (g_handler g) (g_oracle g) (g_url g).
Example C66_deleted_nonvacuous :
  let g := ex_setting ex_files ex_o in
  let k1 := final ex_start (ex_invoke g plain ex_start) in
  root_ready (without_file g) with_dump k1 /\ (exists rows, k_db k1 = Some (Some rows) /\ length rows = 2 /\ a_file_is_gone (without_file g) rows) /\
  prepared (without_file g) with_resume None k1 ex_files /\
  exit_code (ex_invoke g with_dump k1) = 0%N /\ exit_code (ex_invoke (without_file g) with_dump k1) = 2%N /\
  exit_code (ex_invoke g with_resume k1) = 0%N /\ exit_code (ex_invoke (without_file g) with_resume k1) = 2%N.
Proof.
  cbv zeta. split.
  { split; [apply accepted_iff; reflexivity|]. exists ex_root, toml_default. split; [reflexivity|]. split; [reflexivity|]. split; [vm_compute; reflexivity|]. vm_compute; reflexivity. }
  split.
  { eexists. split; [vm_compute; reflexivity|]. split; [vm_compute; reflexivity|]. apply gone_by; vm_compute; reflexivity. }
  split.
  { split; [apply accepted_iff; reflexivity|]. exists ex_root, toml_default, Rust, [], 2.
    split; [reflexivity|]. split; [reflexivity|]. split; [split; vm_compute; reflexivity|]. split; [vm_compute; reflexivity|]. split; [reflexivity|]. split; [constructor|vm_compute; reflexivity]. }
  repeat (split; [vm_compute; reflexivity|]). vm_compute; reflexivity.
Qed.
