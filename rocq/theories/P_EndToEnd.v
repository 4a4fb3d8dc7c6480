(** C61: what a row recorded by an invocation means.  C57, C13, C07, C05, C04, C03 and C14 together. *)
From Verif Require Import Base M_Text S_Text L_Text M_Rewriter M_Span S_Span L_Span P_Text M_Instr S_Instr P_Instr M_Run S_Run L_Run P_Run
  M_Exec S_Exec L_Exec P_Exec M_Output M_Sqlite P_Sqlite M_Options P_Options M_Config M_Main P_Main.
From Verif Require M_Skill P_Skill.

Section EndToEnd.
Context {V : Type} (yaml : text -> option M_Skill.header) (semver : text -> option V) (vcmp : V -> V -> comparison)
        (vshow : V -> text) (pshow : path -> text) (builtin_skill : text) (builtin_version : V)
        (hash16 : text -> text) (default_toml : text).
Notation invoke := (necessist yaml semver vcmp vshow pshow builtin_skill builtin_version hash16 default_toml).
Notation exit g o sel k := (exit_code (invoke g o sel k)).

(** ** Specification *)
(** The files [d] are those of the disk [k] without the piece of text that [s] denotes: in the file of [s] the text is gone, or
    the file (of language [l]) is made of the same characters and guards so that, with the variable NECESSIST_REMOVAL set
    to [env], what is executed is the text without that piece. *)
Definition without (l : path -> lang) (k : disk) (s : span) (piece env : text) (d : path -> text) : Prop :=
  (forall q, q <> sp_path s -> d q = k_src k q) /\
  exists before after, between (k_src k (sp_path s)) (sp_start s) (sp_end s) before piece after /\
    (d (sp_path s) = before ++ after \/
     exists xs, d (sp_path s) = render (l (sp_path s)) xs /\ chars_of xs = k_src k (sp_path s) /\ eval env [] xs = Some (before ++ after)).
(** The test [t] was run on the files without [piece], and ended as [x]. *)
Definition tested (g : setting) (l : path -> lang) (k : disk) (tr : trace) (s : span) (piece t : text) (x : exec_result) : Prop :=
  exists d before, moment (ERun s t (span_id hash16 s) d :: before) tr /\ without l k s piece (span_id hash16 s) d /\
    o_perform (g_oracle g) (ERun s t (span_id hash16 s) d :: before) t s = Ok x.
(** All tests up to the first that does not pass. *)
Definition first_other (tests : list text) (pass other : text -> Prop) : Prop :=
  exists a t b, tests = a ++ t :: b /\ (forall t', In t' a -> pass t') /\ other t.

(** The hypotheses of C05/C07: files of the languages [l], instrumented as the back ends do, with statements disjoint or nested and
    different identifiers. *)
Definition instruments (g : setting) (l : path -> lang) (k : disk) (files : list (path * span_test_maps)) : Prop :=
  (forall s, o_guard (g_oracle g) s = Ok (guard_text (l (sp_path s)) (span_id hash16 s))) /\
  (forall p m, In (p, m) files -> scalars (k_src k p) /\ layout (k_src k p) (map fst (stm_statement m)) /\
     (forall s s', In s (map fst (stm_statement m)) -> In s' (map fst (stm_statement m)) ->
        span_id hash16 s = span_id hash16 s' -> s = s')) /\
  (forall p m tr n ex, In (p, m) files -> o_extra (g_oracle g) tr p n = Ok ex ->
     extra_before (k_src k p) ex (map fst (stm_statement m))).

Lemma moment_in e before tr : moment (e :: before) tr -> In e tr.
Proof. intros [later ->]. apply in_or_app. right. left. reflexivity. Qed.
Lemma between_unique file a b before mid after before' mid' after' :
  between file a b before mid after -> between file a b before' mid' after' -> before = before' /\ mid = mid' /\ after = after'.
Proof.
  intros [E [A B]] [E' [A' B']]. rewrite E in E'.
  assert (P1 : before = before') by (apply (C03_position_unique before (mid ++ after) before' (mid' ++ after') E'); congruence). subst before'.
  rewrite !app_assoc in E'.
  assert (P2 : before ++ mid = before ++ mid') by (apply (C03_position_unique (before ++ mid) after (before ++ mid') after' E'); congruence).
  apply app_inv_head in P2. subst mid'. apply app_inv_head in E'. auto.
Qed.

(** The trace of an invocation that runs tests is that of a run. *)
Lemma trace_is_run g o sel k : a_trace (invoke g o sel k) <> [] ->
  exists files db, prepared g o sel k files /\ runs_tests o /\ a_trace (invoke g o sel k) = w_trace (fst (run_from hash16 (k_src k) (oracle_of g o) files (k_src k) db)).
Proof.
  destruct (shape_of yaml semver vcmp vshow pshow builtin_skill builtin_version hash16 default_toml g o sel k) as [|NS ND P|p AC CS|AC CS FS|AC DC CS FS|l r AC LK N|files P R]; intros T; try (cbn in T; congruence).
  - destruct (M_Skill.check _ _ _ _ _ _ _ _ _ _ _ _) as [[[f out] w] r]. cbn in T. congruence.
  - destruct (M_Skill.find _ _ _ _ _ _ _ _ _ _ _) as [[f out] r]. cbn in T. congruence.
  - destruct (write_default_config _ _ _) as [st r]. cbn in T. congruence.
  - exists files. destruct (run_shape_of hash16 g o files k (runs_no_dump o R)) as [r H|r _ DB' H|r rows _ DB' RS' H|NS' x|states past _ ST R1 R2 R3 R4 R5 x]; cbn [a_trace] in *; try congruence.
    + exists None. auto.
    + exists (Some past). auto.
Qed.

(** ** C61 *)
(** Every removal an invocation records or reports is a candidate found by the back end, with the text the candidate has in its file.
    Its outcome is what came of running the candidate's tests, each on the files without that text and nothing else. *)
Theorem C61_row_meaning : forall g o sel k l, parses_well g ->
  (forall files, prepared g o sel k files -> instruments g l k files) ->
  forall x, In (EInsert x) (a_trace (invoke g o sel k)) \/ In (EConsole x) (a_trace (invoke g o sel k)) ->
  exists files c, prepared g o sel k files /\ In c (all_cands files) /\ rm_span x = c_span c /\
    (exists before after, between (k_src k (sp_path (c_span c))) (sp_start (c_span c)) (sp_end (c_span c)) before (rm_text x) after) /\
    let ended := fun t y => tested g l k (a_trace (invoke g o sel k)) (c_span c) (rm_text x) t y in
    match rm_outcome x with
    | Passed => forall t, In t (M_Run.c_tests c) -> ended t XPassed
    | Failed => first_other (M_Run.c_tests c) (fun t => ended t XPassed) (fun t => ended t XFailed)
    | TimedOut => first_other (M_Run.c_tests c) (fun t => ended t XPassed) (fun t => ended t XTimedOut)
    | Nonbuildable => first_other (M_Run.c_tests c) (fun t => ended t XPassed)
        (fun t => exists d before, moment (EExec (c_span c) t d :: before) (a_trace (invoke g o sel k)) /\
           o_exec (g_oracle g) (EExec (c_span c) t d :: before) t (c_span c) = Ok None)
    | Skipped => exists d before u, moment (EDryRun (sp_path (c_span c)) d :: before) (a_trace (invoke g o sel k)) /\
           o_dry_run (g_oracle g) (EDryRun (sp_path (c_span c)) d :: before) (sp_path (c_span c)) = Err u
    end.
Proof.
  intros g o sel k l PW HI x HX.
  assert (T : a_trace (invoke g o sel k) <> []) by (intros E; rewrite E in HX; destruct HX as [[]|[]]).
  destruct (trace_is_run g o sel k T) as [files [db [P [RT E]]]]. rewrite E in *. clear T.
  destruct (HI files P) as [HG [HL HE]].
  assert (PO : paths_ok files). { destruct P as [_ [root [c0 [f0 [paths [n [_ [_ [_ [_ [_ [_ GP]]]]]]]]]]]]. exact (PW _ _ _ _ _ _ GP). }
  destruct (C13_outcome_justified hash16 (k_src k) (oracle_of g o) files (k_src k) db PO x) as [c [Hc [R1 [R2 R3]]]]; [tauto|].
  assert (Hf : exists m, In (sp_path (c_span c), m) files).
  { unfold all_cands in Hc. apply in_flat_map in Hc as [[p m] [I J]]. cbn [snd] in J. rewrite (PO p m c I J). eauto. }
  destruct Hf as [m Hm]. destruct (HL _ m Hm) as [SC _].
  apply (C03_source_text_exact _ _ _ SC) in R2 as [before [after B]].
  assert (K : forall t y, ran_with (oracle_of g o) (w_trace (fst (run_from hash16 (k_src k) (oracle_of g o) files (k_src k) db))) (c_span c) t y ->
     tested g l k (w_trace (fst (run_from hash16 (k_src k) (oracle_of g o) files (k_src k) db))) (c_span c) (rm_text x) t y).
  { intros t y [env [d [before0 [M Q]]]].
    destruct (C07_own_removal_only hash16 (k_src k) (oracle_of g o) files (k_src k) db PO l HG
      (fun p m I => proj2 (HL p m I)) HE (c_span c) t env d (moment_in _ _ _ M)) as [_ [-> [O1 O2]]].
    exists d, before0. split; [exact M|]. split; [|exact Q]. split; [exact O1|]. exists before, after. split; [exact B|].
    destruct O2 as [[removed O2]|[xs [X1 [X2 X3]]]].
    - left. apply C04_remove_exact in O2 as [b' [a' [B' ->]]]. destruct (between_unique _ _ _ _ _ _ _ _ _ B B') as [-> [_ ->]]. reflexivity.
    - right. exists xs. split; [exact X1|]. split; [exact X2|]. exact (X3 _ _ _ B). }
  exists files, c. split; [exact P|]. split; [exact Hc|]. split; [exact R1|]. split; [eauto|]. cbv zeta. unfold first_other.
  destruct (rm_outcome x); cbn [justified] in R3.
  - exact R3.
  - destruct R3 as [a [t [b [E1 [E2 E3]]]]]. exists a, t, b. split; [exact E1|]. split; [auto|]. exact E3.
  - destruct R3 as [a [t [b [E1 [E2 E3]]]]]. exists a, t, b. split; [exact E1|]. split; auto.
  - destruct R3 as [a [t [b [E1 [E2 E3]]]]]. exists a, t, b. split; [exact E1|]. split; auto.
  - auto.
Qed.

(** Executions are those of [perform_exec]: [system], [timeout], [post] give the operating system's answers, the time limit, and the
    output check for the execution of a test at a moment of the run. *)
Definition executes (g : setting) (system : trace -> text -> span -> os) (limit : option N) (post : trace -> text -> span -> option (res exec_error bool)) : Prop :=
  forall tr t s x, o_perform (g_oracle g) tr t s = Ok x ->
    exists lim lim' ev, perform_exec limit (post tr t s) (system tr t s) lim = Some (lim', ev, Ok x).

(** A row "passed": each test of the candidate was run without the candidate's text, and its process ended in time, with status 0, and
    its output (if it is looked at) showed that the test had been run. *)
Theorem C61_passed : forall g o sel k l system limit post, parses_well g -> executes g system limit post ->
  (forall files, prepared g o sel k files -> instruments g l k files) ->
  forall x, In (EInsert x) (a_trace (invoke g o sel k)) -> rm_outcome x = Passed ->
  exists files c, prepared g o sel k files /\ In c (all_cands files) /\ rm_span x = c_span c /\
    forall t, In t (M_Run.c_tests c) -> exists d before,
      let now := ERun (c_span c) t (span_id hash16 (c_span c)) d :: before in
      moment now (a_trace (invoke g o sel k)) /\ without l k (c_span c) (rm_text x) (span_id hash16 (c_span c)) d /\
      os_status (system now t (c_span c)) = Exited 0 /\ ~ outlives (system now t (c_span c)) limit /\
      (post now t (c_span c) = None \/ post now t (c_span c) = Some (Ok true)).
Proof.
  intros g o sel k l system limit post PW EX HI x HX HO.
  destruct (C61_row_meaning g o sel k l PW HI x (or_introl HX)) as [files [c [P [Hc [R1 [_ R]]]]]]. cbv zeta in R. rewrite HO in R.
  exists files, c. split; [exact P|]. split; [exact Hc|]. split; [exact R1|]. intros t I. destruct (R t I) as [d [before [M [W Q]]]]. exists d, before. cbv zeta.
  split; [exact M|]. split; [exact W|]. destruct (EX _ _ _ _ Q) as [lim [lim' [ev PE]]].
  destruct (C14_classification _ _ _ _ _ _ _ PE) as [_ [_ [[C _] _]]]. destruct (C eq_refl) as [C1 [C2 C3]]. auto.
Qed.

(** And the rows in the database after the invocation are those, after the ones that were there. *)
Theorem C61_rows : forall g o sel k, parses_well g -> runs_tests o -> ~ given o no_sqlite ->
  a_trace (invoke g o sel k) <> [] ->
  exists new, k_db (final k (invoke g o sel k)) = Some (Some ((if op_reset o then [] else rows_in (k_db k)) ++ new)) /\
    forall r, In r new -> exists x, In (EInsert x) (a_trace (invoke g o sel k)) /\ row_for x r.
Proof.
  intros g o sel k PW RT NS T.
  destruct (C57_rows_after yaml semver vcmp vshow pshow builtin_skill builtin_version hash16 default_toml g o sel k PW RT NS (or_introl T)) as [new [F E]].
  exists new. split; [exact E|]. intros r I.
  assert (G : exists x, In x (inserts (a_trace (invoke g o sel k))) /\ row_for x r).
  { clear -F I. induction F as [|a b l l' H F IH]; [destruct I|]. destruct I as [->|I]; [exists a; split; [left; reflexivity|exact H]|].
    destruct (IH I) as [y [Y1 Y2]]. exists y. split; [right; exact Y1|exact Y2]. }
  destruct G as [x [G1 G2]]. exists x. split; [|exact G2]. unfold inserts in G1. apply in_flat_map in G1 as [e [I1 I2]].
  destruct e; cbn in I2; try destruct I2 as [<-|[]]; try destruct I2. apply in_rev in I1. exact I1.
Qed.
End EndToEnd.
Print Assumptions C61_row_meaning.
Print Assumptions C61_passed.
Print Assumptions C61_rows.

(** ** A project of one Rust file, with two statements and a method call: the invocation records three rows, two of them "passed". *)
Definition ex_system (tr : trace) (t : text) (s : span) : os :=
  ex_os (Some 1%N) (match o_perform ex_o tr t s with Ok XPassed => Exited 0 | _ => Exited 1 end).
Example C61_nonvacuous :
  let g := ex_setting ex_files_m ex_o in
  parses_well g /\
  executes g ex_system (Some 3%N) (fun _ _ _ => None) /\
  (forall files, prepared g plain None ex_start files -> instruments ex_hash g (fun _ => LRust) ex_start files) /\
  runs_tests plain /\ ~ given plain no_sqlite /\
  map rm_outcome (inserts (a_trace (ex_invoke g plain ex_start))) = [Failed; Passed; Passed].
Proof.
  cbv zeta. split; [apply ex_parses_well|]. split.
  { intros tr t s x E. exists (Limits 10 5000), (Limits 10 5000). unfold ex_system. cbn [ex_setting g_oracle] in E. rewrite E.
    destruct x; try (eexists; vm_compute; reflexivity).
    all: exfalso; revert E; cbn; unfold ex_b; repeat (match goal with |- context [if ?b then _ else _] => destruct b end); discriminate. }
  split.
  { intros files P. assert (F : files = ex_files_m).
    { destruct P as [_ [root [c [f [paths [n [_ [_ [_ [_ [_ [_ P]]]]]]]]]]]]. cbn in P. injection P as _ P. symmetry. exact P. }
    subst files. split; [reflexivity|]. split.
    - intros p m [E|[]]. injection E as <- <-. split; [exact ex_scalars|]. split; [exact ex_layout|].
      intros s s' [<-|[<-|[]]] [<-|[<-|[]]]; intros E; try reflexivity; vm_compute in E; discriminate.
    - intros p m tr n ex _ E. cbn in E. injection E as <-. exact I. }
  split; [apply ex_runs_tests|]. split; [cbv; congruence|]. vm_compute. reflexivity.
Qed.
