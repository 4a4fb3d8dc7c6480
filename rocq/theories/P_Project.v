(** C74, continued: what the theorems about invocations suppose of a back end holds of the back ends as modelled. *)
From Verif Require Import Base M_Text S_Text L_Text M_Rewriter M_Span S_Span L_Span P_Text M_Instr S_Instr P_Instr M_Run S_Run L_Run P_Run
  M_Exec S_Exec L_Exec P_Exec M_Output L_Output M_Sqlite P_Sqlite M_Options P_Options M_Config P_Config M_Main P_Main P_EndToEnd
  M_Visitor S_Visitor S_Walk P_Visitor M_Directives M_Parsing P_Parsing M_Find M_Project S_Placed P_Placed.
From Verif Require M_Skill P_Skill.

Section Project.
Context {V : Type} (yaml : text -> option M_Skill.header) (semver : text -> option V) (vcmp : V -> V -> comparison)
        (vshow : V -> text) (pshow : path -> text) (builtin_skill : text) (builtin_version : V)
        (hash16 : text -> text) (default_toml : text).
Notation invoke := (necessist yaml semver vcmp vshow pshow builtin_skill builtin_version hash16 default_toml).
Context (alphanumeric : char -> bool) (denied : warning -> bool) (parser : M_Options.framework -> path -> text -> option pfile).
Context (anchor : finder) (ignored : path -> bool) (root : path) (tree : entry).

(** The invocation reads the source files with those parsers. *)
Definition reads_with (g : setting) : Prop :=
  forall f c ps src, g_parse g f c ps src = project_parse alphanumeric denied parser anchor ignored root tree f c ps src.
(** Each parser reads every text properly. *)
Definition proper_parsers : Prop := forall f p contents t, scalars contents -> parser f p contents = Some t -> proper (visitor_of f) p contents t.

Lemma read_source_inv src p contents : read_source root src (root ++ p) = Some contents -> contents = src p /\ scalars (src p).
Proof.
  unfold read_source. destruct (strip_components root (root ++ p)) as [q|] eqn:Q; [|discriminate].
  apply strip_components_spec in Q. apply app_inv_head in Q. subst q.
  destruct (forallb is_scalar (src p)) eqn:S1; [|discriminate]. intros H. injection H as <-. split; [reflexivity|].
  apply Forall_forall. intros x I. rewrite forallb_forall in S1. apply S1, I.
Qed.
Lemma read_source_scalars src full contents : read_source root src full = Some contents -> scalars contents.
Proof.
  unfold read_source. destruct (strip_components root full) as [q|]; [|discriminate].
  destruct (forallb is_scalar (src q)) eqn:S1; [|discriminate]. intros H. injection H as <-.
  apply Forall_forall. intros x I. rewrite forallb_forall in S1. apply S1, I.
Qed.

Lemma project_fit g f c ps src n files : (forall x, alphanumeric x = true -> is_meta x = false) -> reads_with g -> proper_parsers ->
  g_parse g f c ps src = Ok (n, files) ->
  paths_ok files /\ forall p m, In (p, m) files -> scalars (src p) /\ layout (src p) (map fst (stm_statement m)) /\
    forall x, In x (stm_iter m) -> exists before mid after, between (src p) (sp_start (c_span x)) (sp_end (c_span x)) before mid after.
Proof.
  intros AL RW PP H. rewrite RW in H. unfold project_parse in H.
  destruct (parse alphanumeric (visitor_of f) (builtin_of f) (parser f) denied root (read_source root src)
    (fs_is_dir root tree) (fs_is_file root tree) (walk_dir ignored root tree (finder_of anchor f)) c ps) as [ws r] eqn:P.
  cbn [snd] in H. destruct r as [[n' m']| |]; try discriminate. injection H as -> ->.
  assert (X : forall p contents t, read_source root src (root ++ p) = Some contents -> parser f p contents = Some t -> proper (visitor_of f) p contents t)
    by (intros p contents t R PF; apply (PP f p contents t (read_source_scalars _ _ _ R) PF)).
  destruct (C74_fit_to_run _ _ _ _ _ _ _ _ _ _ c ps ws n files AL (read_source_scalars src) X P) as [A B].
  split; [exact A|]. intros p m I. destruct (B p m I) as (contents & R & L & D). apply read_source_inv in R as [-> SC]. auto.
Qed.

(** C74: if the parsers do their part, then the candidates of every invocation are such as the theorems C05, C07, C57, C61 and
    C63 require: each attributed to its file and denoting a piece of its text, the statements of a file in order and disjoint or
    nested. *)
Theorem C74_invocation : forall g, (forall x, alphanumeric x = true -> is_meta x = false) -> reads_with g -> proper_parsers ->
  parses_well g /\
  forall o sel k files, prepared g o sel k files -> forall p m, In (p, m) files ->
    scalars (k_src k p) /\ layout (k_src k p) (map fst (stm_statement m)) /\
    forall x, In x (stm_iter m) -> sp_path (c_span x) = p /\
      exists before mid after, between (k_src k p) (sp_start (c_span x)) (sp_end (c_span x)) before mid after.
Proof.
  intros g AL RW PP. split; [intros f c ps src n files H; exact (proj1 (project_fit _ _ _ _ _ _ _ AL RW PP H))|].
  intros o sel k files (_ & r & c & f & ps & n & _ & _ & _ & _ & _ & _ & H) p m I.
  destruct (project_fit _ _ _ _ _ _ _ AL RW PP H) as [PO B]. destruct (B p m I) as (S1 & L & D). split; [exact S1|]. split; [exact L|].
  intros x Ix. split; [exact (PO p m x I Ix)|exact (D x Ix)].
Qed.

(** The meaning of a row, then, supposes of the back end only what it does for instrumentation, and that identifiers of the
    statements of a file do not collide: a row "passed" says that each of the tests was run without the candidate's text, and ended
    in time, with status 0, and, if its output is looked at, showing that it was run. *)
Theorem C74_passed : forall g o sel k l system limit post, (forall x, alphanumeric x = true -> is_meta x = false) -> reads_with g -> proper_parsers ->
  executes g system limit post ->
  (forall s, o_guard (g_oracle g) s = Ok (guard_text (l (sp_path s)) (span_id hash16 s))) ->
  (forall files p m, prepared g o sel k files -> In (p, m) files ->
     (forall tr n ex, o_extra (g_oracle g) tr p n = Ok ex -> extra_before (k_src k p) ex (map fst (stm_statement m))) /\
     (forall s s', In s (map fst (stm_statement m)) -> In s' (map fst (stm_statement m)) -> span_id hash16 s = span_id hash16 s' -> s = s')) ->
  forall x, In (EInsert x) (a_trace (invoke g o sel k)) -> rm_outcome x = Passed ->
  exists files c, prepared g o sel k files /\ In c (all_cands files) /\ rm_span x = c_span c /\
    forall t, In t (M_Run.c_tests c) -> exists d before,
      let now := ERun (c_span c) t (span_id hash16 (c_span c)) d :: before in
      moment now (a_trace (invoke g o sel k)) /\ without l k (c_span c) (rm_text x) (span_id hash16 (c_span c)) d /\
      os_status (system now t (c_span c)) = Exited 0 /\ ~ outlives (system now t (c_span c)) limit /\
      (post now t (c_span c) = None \/ post now t (c_span c) = Some (Ok true)).
Proof.
  intros g o sel k l system limit post AL RW PP EX HG HX x. destruct (C74_invocation g AL RW PP) as [PW B].
  apply (C61_passed yaml semver vcmp vshow pshow builtin_skill builtin_version hash16 default_toml g o sel k l system limit post PW EX).
  intros files P. split; [exact HG|]. split.
  - intros p m I. destruct (B o sel k files P p m I) as (S1 & L & _). split; [exact S1|]. split; [exact L|]. apply (HX files p m P I).
  - intros p m tr n ex I Q. destruct (HX files p m P I) as [H _]. exact (H tr n ex Q).
Qed.
End Project.
Print Assumptions C74_invocation.
Print Assumptions C74_passed.

(** ** An example: a Rust file with one test of three statements, the last of which is kept; the first is a method call. *)
Definition r_text : text := s2t "x.a();b();c();".
Definition r_node (i : nat) (k : nkind) (a b : nat) (ks : list node) : node := Node (Label i k [] (Span ex_path (LC 1 a) (LC 1 b))) ks.
Definition r_tree : node :=
  r_node 1 KGroup 0 14 [r_node 2 (KTest (s2t "T1") 0) 0 14 [r_node 13 KGroup 0 14
    [r_node 3 (KStmt true false false true) 0 6
       [r_node 4 (KCall false (Some (s2t "a"))) 0 5 [r_node 5 (KField (Some (s2t "a"))) 0 3 [r_node 6 (KIdent (s2t "x")) 0 1 []]]];
     r_node 7 (KStmt true false false true) 6 10 [r_node 8 (KCall false (Some (s2t "b"))) 6 9 [r_node 9 (KIdent (s2t "b")) 6 7 []]];
     r_node 10 (KStmt true false false true) 10 14 [r_node 11 (KCall false (Some (s2t "c"))) 10 13 [r_node 12 (KIdent (s2t "c")) 10 11 []]]]]].
Definition r_parser (f : M_Options.framework) (p : path) (contents : text) : option pfile :=
  match f with
  | Rust => if path_eqb p ex_path && text_eqb contents r_text then Some (PFile r_tree []) else None
  | _ => None
  end.
Definition r_entry : entry := EDir (Some [(s2t "t.rs", EFile); (s2t "README", EFile)]).
Definition r_setting : setting :=
  Setting (Env false true (Some ex_root) ex_root) (Some P_Skill.ex_home) P_Skill.ex_sys u_components
    (fun _ => Some ex_root) (fun _ => true) true true None (fun _ => Some toml_default)
    (fun n => Some (text_eqb n (s2t "Cargo.toml"))) (fun _ => true) (fun p => Some p)
    (project_parse ascii_alphanumeric (fun _ => false) r_parser find_anchor_mocha (fun _ => false) ex_root r_entry)
    all_ok (fun _ => true) true ex_o (fun _ => []).
Definition r_start : disk := Disk (fun p => if path_eqb p ex_path then r_text else []) None None (P_Skill.ex_files None None).

Lemma r_parts n : part_of (PFile r_tree []) n -> In n (nodes r_tree).
Proof. intros [H|(name & fs & g & [] & _)]. apply within_nodes. exact H. Qed.
(** A decision procedure would do: the three statements and the method call of this tree. *)
Lemma r_proper : proper_parsers r_parser.
Proof.
  intros f p contents t SC H. unfold r_parser in H. destruct f; try discriminate.
  destruct (path_eqb p ex_path && text_eqb contents r_text) eqn:Q; [|discriminate]. injection H as <-. apply andb_true_iff in Q as [Q1 Q2].
  apply path_eqb_eq in Q1. apply text_eqb_eq in Q2. subst p contents. constructor; cbn [pf_root pf_locals].
  - intros E HE. split; [reflexivity|intros name fs g []].
  - intros s P (r & c & d & e & K & _). apply r_parts in P. cbn in P.
    repeat (destruct P as [<-|P]; [try discriminate K|]); try destruct P; (split; [reflexivity|]).
    + exists [], (s2t "x.a();"), (s2t "b();c();"). split; [repeat split|discriminate].
    + exists (s2t "x.a();"), (s2t "b();"), (s2t "c();"). split; [repeat split|discriminate].
    + exists (s2t "x.a();b();"), (s2t "c();"), []. split; [repeat split|discriminate].
  - intros s s' P P' (r & c & d & e & K & _) (r' & c' & d' & e' & K' & _). apply r_parts in P, P'. cbn in P, P'.
    repeat (destruct P as [<-|P]; [try discriminate K|]); try destruct P;
    (repeat (destruct P' as [<-|P']; [try discriminate K'|]); try destruct P'); try (left; reflexivity);
    right; left; unfold disjoint, lc_le, lc_lt; cbn; (left + right); (left; reflexivity) || (right; right; split; [reflexivity|lia]).
  - intros c b names P MC. apply r_parts in P. cbn in P. destruct MC as ((h & x & K) & callee & args & Hk & FP & NE).
    repeat (destruct P as [<-|P]; [try discriminate K|]); try destruct P; cbn in Hk; injection Hk as <- <-.
    + split; [reflexivity|]. inversion FP as [|l0 x0 b0 r0 base0 p0 K0 FP0]; subst; [congruence|]. inversion FP0 as [|l1 x1 b1 r1 base1 p1 K1 FP1]; subst.
      exists (s2t "x"), (s2t ".a()"), (s2t ";b();c();"). repeat split.
    + inversion FP; subst. congruence.
    + inversion FP; subst. congruence.
Qed.
Example C74_nonvacuous :
  reads_with ascii_alphanumeric (fun _ => false) r_parser find_anchor_mocha (fun _ => false) ex_root r_entry r_setting /\
  proper_parsers r_parser /\ (forall x, ascii_alphanumeric x = true -> is_meta x = false) /\
  executes r_setting ex_system (Some 3%N) (fun _ _ _ => None) /\
  (forall s, o_guard (g_oracle r_setting) s = Ok (guard_text LRust (span_id ex_hash s))) /\
  (forall tr p n, o_extra (g_oracle r_setting) tr p n = Ok None) /\
  map (fun r => (rm_text r, rm_outcome r)) (inserts (a_trace (ex_invoke r_setting plain r_start))) =
    [(s2t "x.a();", Passed); (s2t "b();", Passed); (s2t ".a()", Passed)].
Proof.
  split; [intros f c ps src; reflexivity|]. split; [exact r_proper|]. split; [exact ascii_literal|].
  split. { intros tr t s x E. exists (Limits 10 5000), (Limits 10 5000). unfold ex_system. change (g_oracle r_setting) with ex_o in E. rewrite E.
    destruct x; try (eexists; vm_compute; reflexivity).
    all: exfalso; revert E; cbn; unfold ex_b; repeat (match goal with |- context [if ?b then _ else _] => destruct b end); discriminate. }
  split; [intros s; reflexivity|]. split; [intros tr p n; reflexivity|]. vm_compute. reflexivity.
Qed.
