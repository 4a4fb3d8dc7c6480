(** C76: what C74 supposes of the parsed files holds as soon as the parsers of the languages place the nodes of their trees as
    syntax trees are: the front ends as modelled keep to that. *)
From Verif Require Import Base M_Text S_Text L_Text M_Rewriter M_Span S_Span L_Span P_Text M_Instr S_Instr P_Instr M_Run S_Run L_Run P_Run
  M_Exec S_Exec L_Exec P_Exec M_Output L_Output M_Sqlite P_Sqlite M_Options P_Options M_Config P_Config M_Main P_Main P_EndToEnd
  M_Visitor S_Visitor S_Walk P_Visitor M_Directives M_Parsing P_Parsing M_Find M_Project S_Placed P_Placed P_Project
  S_Layout L_Layout M_Lang S_Lang L_LayTree L_LaySyn L_LaySwc L_LaySol L_Laid.
From Verif Require M_Skill P_Skill P_GoTree P_Php P_Syn P_Swc P_Sol S_Swc S_Foundry.

Theorem C76_proper : forall ps, parsers_place ps -> proper_parsers (parser_of ps).
Proof.
  intros ps [G P R T F] f p contents t SC H. destruct f; cbn [parser_of] in H.
  - destruct (ps_ts ps p contents) as [x|] eqn:X; [|discriminate]. injection H as <-. destruct (T _ _ _ SC X). apply js_proper; assumption.
  - destruct (ps_sol ps p contents) as [x|] eqn:X; [|discriminate]. injection H as <-. destruct (F _ _ _ SC X). apply sol_proper; assumption.
  - destruct (ps_go ps p contents) as [x|] eqn:X; [|discriminate]. injection H as <-. apply go_proper. exact (G _ _ _ SC X).
  - destruct (ps_ts ps p contents) as [x|] eqn:X; [|discriminate]. injection H as <-. destruct (T _ _ _ SC X). apply js_proper; assumption.
  - destruct (ps_php ps p contents) as [x|] eqn:X; [|discriminate]. injection H as <-. apply php_proper. exact (P _ _ _ SC X).
  - destruct (ps_rust ps p contents) as [x|] eqn:X; [|discriminate]. injection H as <-. apply rs_proper. exact (R _ _ _ SC X).
  - destruct (ps_ts ps p contents) as [x|] eqn:X; [|discriminate]. injection H as <-. destruct (T _ _ _ SC X). apply js_proper; assumption.
Qed.
Print Assumptions C76_proper.

Section Invocations.
Context {V : Type} (yaml : text -> option M_Skill.header) (semver : text -> option V) (vcmp : V -> V -> comparison)
        (vshow : V -> text) (pshow : path -> text) (builtin_skill : text) (builtin_version : V)
        (hash16 : text -> text) (default_toml : text).
Notation invoke := (necessist yaml semver vcmp vshow pshow builtin_skill builtin_version hash16 default_toml).
Context (alphanumeric : char -> bool) (denied : warning -> bool) (ps : parsers).
Context (anchor : finder) (ignored : path -> bool) (root : path) (tree : entry).
Notation reads := (reads_with alphanumeric denied (parser_of ps) anchor ignored root tree).

(** The candidates of an invocation are fit to be removed. *)
Theorem C76_invocation : forall g, (forall x, alphanumeric x = true -> is_meta x = false) -> reads g -> parsers_place ps ->
  parses_well g /\
  forall o sel k files, prepared g o sel k files -> forall p m, In (p, m) files ->
    scalars (k_src k p) /\ layout (k_src k p) (map fst (stm_statement m)) /\
    forall x, In x (stm_iter m) -> sp_path (c_span x) = p /\
      exists before mid after, between (k_src k p) (sp_start (c_span x)) (sp_end (c_span x)) before mid after.
Proof. intros g AL RW PL. exact (C74_invocation alphanumeric denied (parser_of ps) anchor ignored root tree g AL RW (C76_proper ps PL)). Qed.

(** The meaning of a row. *)
Theorem C76_passed : forall g o sel k l system limit post, (forall x, alphanumeric x = true -> is_meta x = false) -> reads g -> parsers_place ps ->
  executes g system limit post ->
  (forall s, o_guard (g_oracle g) s = Ok (guard_text (l (sp_path s)) (span_id hash16 s))) ->
  (forall files p m, prepared g o sel k files -> In (p, m) files ->
     (forall tr n ex, o_extra (g_oracle g) tr p n = Ok ex -> extra_before (k_src k p) ex (map fst (stm_statement m))) /\
     (forall s s', In s (map fst (stm_statement m)) -> In s' (map fst (stm_statement m)) -> span_id hash16 s = span_id hash16 s' -> s = s')) ->
  forall x, In (EInsert x) (a_trace (invoke g o sel k)) -> rm_outcome x = Passed ->
  exists files c, prepared g o sel k files /\ In c (all_cands files) /\ rm_span x = c_span c /\
    forall t, In t (M_Run.c_tests c) -> exists d before,
      let now := ERun (c_span c) t (span_id hash16 (c_span c)) d :: before in
      moment now (a_trace (invoke g o sel k)) /\ without l k (c_span c) (rm_text x) (span_id hash16 (c_span c)) d /\
      os_status (system now t (c_span c)) = Exited 0 /\ ~ outlives (system now t (c_span c)) limit /\
      (post now t (c_span c) = None \/ post now t (c_span c) = Some (Ok true)).
Proof.
  intros g o sel k l system limit post AL RW PL.
  exact (C74_passed yaml semver vcmp vshow pshow builtin_skill builtin_version hash16 default_toml alphanumeric denied (parser_of ps) anchor ignored root tree
    g o sel k l system limit post AL RW (C76_proper ps PL)).
Qed.
End Invocations.
Print Assumptions C76_invocation.
Print Assumptions C76_passed.

(** ** Examples: the trees of C64, C65, C67, C68 and C69 are placed in their texts. *)
Definition reads_one {A} (contents : text) (tree : A) (p : path) (t : text) : option A :=
  if path_eqb p xp && text_eqb t contents then Some tree else None.
Definition ex_parsers : parsers :=
  Parsers (reads_one P_GoTree.go_ex_text P_GoTree.go_ex) (reads_one P_Php.php_ex_text P_Php.php_ex) (reads_one P_Syn.rs_ex_text P_Syn.rs_ex)
    (fun _ => P_Syn.rs_ex_fs) (fun _ => P_Syn.rs_ex_listed) (reads_one P_Swc.js_ex_text P_Swc.js_ex) (reads_one (repeat 97%N 300) P_Sol.g_items).
Lemma reads_one_inv {A} contents (tree : A) p t x : reads_one contents tree p t = Some x -> p = xp /\ t = contents /\ x = tree.
Proof.
  unfold reads_one. destruct (path_eqb p xp && text_eqb t contents) eqn:Q; [|discriminate]. apply andb_true_iff in Q as [Q1 Q2].
  intros H. injection H as <-. split; [apply path_eqb_eq; exact Q1|]. split; [apply text_eqb_eq; exact Q2|reflexivity].
Qed.
Example C76_nonvacuous : parsers_place ex_parsers /\
  proper_parsers (parser_of ex_parsers) /\
  (exists t, parser_of ex_parsers Go xp P_GoTree.go_ex_text = Some t) /\ (exists t, parser_of ex_parsers Rust xp P_Syn.rs_ex_text = Some t).
Proof.
  assert (PL : parsers_place ex_parsers).
  { constructor; cbn [ex_parsers ps_go ps_php ps_rust ps_ts ps_sol]; intros p contents t _ H; apply reads_one_inv in H as (-> & -> & ->).
    - apply laid_spec. vm_compute. reflexivity.
    - apply laid_spec. vm_compute. reflexivity.
    - apply laid_spec. vm_compute. reflexivity.
    - split; [apply laid_spec; vm_compute; reflexivity|]. apply P_Swc.regular_check. vm_compute. reflexivity.
    - split; [apply laid_spec; vm_compute; reflexivity|exact P_Sol.g_no_member]. }
  split; [exact PL|]. split; [apply C76_proper; exact PL|]. split; eexists; reflexivity.
Qed.
