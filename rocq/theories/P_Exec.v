(** Property theorems C14-C16, C48, C49 (one execution of a test). *)
From Verif Require Import Base M_Text S_Text L_Text M_Rewriter M_Span S_Span M_Instr S_Instr M_Run S_Run L_Run L_RunFinal P_Run M_Exec S_Exec L_Exec.
From Coq Require Import Permutation.
Local Open Scope string_scope.
Local Open Scope list_scope.
Local Open Scope N_scope.

(** ** C14 *)
(** [post] is the back end's answer to "was the test run"; [None]: it has no such check. *)
Theorem C14_classification : forall opt post o l lim tr x,
  perform_exec opt post o l = Some (lim, tr, Ok x) ->
  (x = XTimedOut <-> outlives o opt) /\
  (x = XNone <-> ~ outlives o opt /\ post = Some (Ok false)) /\
  (x = XPassed <-> ~ outlives o opt /\ (post = None \/ post = Some (Ok true)) /\ os_status o = Exited 0) /\
  (x = XFailed <-> ~ outlives o opt /\ (post = None \/ post = Some (Ok true)) /\ os_status o <> Exited 0).
Proof.
  intros opt post o l lim tr x E. apply classify in E.
  assert (S : success (os_status o) = true <-> os_status o = Exited 0).
  { destruct (os_status o) as [c|c]; cbn; [|split; discriminate]. rewrite N.eqb_eq. split; congruence. }
  assert (S' : success (os_status o) = false <-> os_status o <> Exited 0).
  { rewrite <- S. destruct (success (os_status o)); split; congruence. }
  destruct x; repeat split; try discriminate; try tauto; intros; intuition congruence.
Qed.
Print Assumptions C14_classification.

(** On a system that answers, every execution returns and is so classified; unless nothing
    limits a process that never ends. *)
Theorem C14_returns : forall opt post o l t, os_nproc o <> None ->
  os_getrlimit o = (true, true) -> os_setrlimit o = (true, true) -> os_start o = true -> os_wait o = (true, true) ->
  (opt = Some 0 -> os_life o <> None) ->
  (post = None \/ exists y, post = Some (Ok y)) ->
  describes (os_children o) t -> root t = os_pid o ->
  (exists n, forall fuel, (n <= fuel)%nat -> exists lim tr x,
     perform_exec opt post (OS (os_nproc o) (os_getrlimit o) (os_setrlimit o) (os_start o) (os_life o) (os_status o)
        (os_wait o) (os_pid o) (os_children o) fuel) l = Some (lim, tr, Ok x)).
Proof.
  intros opt post o l t A B C D E T P F G. apply exec_returns with (t := t); auto.
  unfold timeout. destruct opt as [s|]; [|discriminate]. destruct (N.eqb_spec s 0); [subst; auto|discriminate].
Qed.
Print Assumptions C14_returns.

Theorem C14_no_timeout : forall post o l lim tr x, perform_exec (Some 0) post o l = Some (lim, tr, Ok x) -> x <> XTimedOut.
Proof.
  intros post o l lim tr x E ->. apply classify in E. destruct E as (d & [[H _]|(s & [= <-] & H & _)] & _); [discriminate|congruence].
Qed.
Print Assumptions C14_no_timeout.

(** A timed-out execution ends by killing the whole tree and reaping the process; nothing of
    it is judged; and nothing is killed otherwise. *)
Theorem C14_timed_out_is_killed_and_reaped : forall opt post o l lim tr,
  perform_exec opt post o l = Some (lim, tr, Ok XTimedOut) ->
  forall t, describes (os_children o) t -> root t = os_pid o ->
  exists killed tr0, tr = XWaited :: rev (map XKill killed) ++ tr0 /\ Permutation killed (pids t) /\
    ~ In XWaited tr0 /\ ~ In XJudge tr0 /\ (forall p, ~ In (XKill p) tr0).
Proof.
  intros opt post o l lim tr E t D R. destruct (timed_out_killed _ _ _ _ _ _ E t D R) as (tr0 & H & K).
  exists (kill_order t), tr0. split; [exact H|]. split; [apply kill_order_perm|exact K].
Qed.
Print Assumptions C14_timed_out_is_killed_and_reaped.

Theorem C14_in_time_is_not_killed : forall opt post o l lim tr r, perform_exec opt post o l = Some (lim, tr, r) ->
  ~ outlives o opt -> forall p, ~ In (XKill p) tr.
Proof. exact not_timed_out_not_killed. Qed.
Print Assumptions C14_in_time_is_not_killed.

Definition ex_children (p : pid) : res exec_error (list pid) :=
  Ok (match p with 1 => [2; 3] | 3 => [4] | _ => [] end).
Definition ex_tree : ptree := PNode 1 [PNode 2 []; PNode 3 [PNode 4 []]].
Definition ex_os (life : option N) (st : status) : os :=
  OS (Some 5) (true, true) (true, true) true life st (true, true) 1 ex_children 100.
Lemma ex_describes : describes ex_children ex_tree.
Proof.
  constructor; [reflexivity|]. intros t [<-|[<-|[]]]; (constructor; [reflexivity|]).
  - intros ? [].
  - intros u [<-|[]]. constructor; [reflexivity|intros ? []].
Qed.
Example C14_nonvacuous :
  perform_exec (Some 3) None (ex_os (Some 3000000000) (Exited 0)) (Limits 10 5000) =
    Some (Limits 10 5000, [XLimit (Limits 10 5000); XWaited; XStart; XLimit (Limits 1029 5000)], Ok XPassed) /\
  perform_exec (Some 3) None (ex_os (Some 3000000001) (Exited 0)) (Limits 10 5000) =
    Some (Limits 10 5000, [XWaited; XKill 1; XKill 2; XKill 3; XKill 4; XLimit (Limits 10 5000); XStart; XLimit (Limits 1029 5000)], Ok XTimedOut) /\
  perform_exec (Some 0) None (ex_os (Some 9000000000000) (Signaled 9)) (Limits 10 5000) =
    Some (Limits 10 5000, [XLimit (Limits 10 5000); XWaited; XStart; XLimit (Limits 1029 5000)], Ok XFailed) /\
  perform_exec None (Some (Ok false)) (ex_os (Some 60000000000) (Exited 0)) (Limits 10 5000) =
    Some (Limits 10 5000, [XJudge; XLimit (Limits 10 5000); XWaited; XStart; XLimit (Limits 1029 5000)], Ok XNone).
Proof. repeat split; vm_compute; reflexivity. Qed.

(** ** C15 *)
(** The process was started, and then waited for (or killed); the calls that set the limit
    back do not fail. *)
Theorem C15_limit_restored : forall opt post o l lim tr r, soft l <= hard l ->
  perform_exec opt post o l = Some (lim, tr, r) -> In XStart tr -> (In XWaited tr \/ exists p, In (XKill p) tr) ->
  fst (os_wait o) = true -> snd (os_getrlimit o) = true -> snd (os_setrlimit o) = true -> lim = l.
Proof. exact limits_restored. Qed.
Print Assumptions C15_limit_restored.

(** Every execution with a result leaves the limits as they were. *)
Theorem C15_result_means_restored : forall opt post o l lim tr x, soft l <= hard l ->
  perform_exec opt post o l = Some (lim, tr, Ok x) -> lim = l.
Proof.
  intros opt post o l lim tr x L E. unfold perform_exec in E.
  destruct (os_nproc o); [|discriminate]. unfold set_soft_rlimit in E.
  destruct (fst (os_getrlimit o)); [|discriminate]. destruct (fst (os_setrlimit o)); [|discriminate].
  destruct (os_start o); cbn [negb] in E; [|discriminate].
  destruct (match timeout opt with None => _ | _ => _ end); [discriminate|].
  destruct (fst (os_wait o)); cbn [negb] in E; [|discriminate].
  destruct (snd (os_getrlimit o)); [|discriminate]. destruct (snd (os_setrlimit o)); [|discriminate].
  cbn [hard soft fst snd] in E.
  assert (X : Limits (N.min (hard l) (soft l)) (hard l) = l).
  { destruct l as [s h]. cbn in *. f_equal. lia. }
  rewrite X in E. destruct (ends_within o (timeout opt)).
  - destruct post as [[[|]| |]|]; try discriminate; now injection E as <- <-.
  - destruct (transitive_kill _ _ _) as [[killed [| |]]|]; try discriminate. destruct (snd (os_wait o)); [|discriminate].
    now injection E as <- <-.
Qed.
Print Assumptions C15_result_means_restored.

Theorem C15_never_above_hard_limit : forall opt post o l lim tr r, soft l <= hard l ->
  perform_exec opt post o l = Some (lim, tr, r) ->
  (forall l', In (XLimit l') tr -> soft l' <= hard l' /\ hard l' = hard l) /\ soft lim <= hard lim /\ hard lim = hard l.
Proof. exact limits_bounded. Qed.
Print Assumptions C15_never_above_hard_limit.

(** The process is started with room for 1024 more processes than the user has, or as many as the hard limit allows. *)
Theorem C15_limit_for_the_test : forall opt post o l lim tr r n, os_nproc o = Some n ->
  perform_exec opt post o l = Some (lim, tr, r) -> In XStart tr ->
  exists later, tr = later ++ [XStart; XLimit (Limits (N.min (hard l) (n + 1024)) (hard l))] /\ ~ In XStart later.
Proof.
  intros opt post o l lim tr r n En E I. unfold perform_exec in E. rewrite En in E. unfold set_soft_rlimit in E.
  change NPROC_ALLOWANCE with 1024 in E.
  destruct (fst (os_getrlimit o)); [|injection E as <- <- <-; destruct I]. destruct (fst (os_setrlimit o)); [|injection E as <- <- <-; destruct I].
  set (l1 := Limits (N.min (hard l) (n + 1024)) (hard l)) in *.
  destruct (os_start o); cbn [negb] in E; [|injection E as <- <- <-; destruct I as [I|[]]; discriminate].
  destruct (match timeout opt with None => _ | _ => _ end); [discriminate|].
  assert (K : forall later, ~ In XStart later -> exists later', later ++ [XStart; XLimit l1] = later' ++ [XStart; XLimit l1] /\ ~ In XStart later') by eauto.
  destruct (fst (os_wait o)); cbn [negb] in E; [|injection E as <- <- <-; apply (K []); intros []].
  assert (T : exists t3, (if ends_within o (timeout opt) then [XWaited; XStart; XLimit l1] else [XStart; XLimit l1]) = t3 ++ [XStart; XLimit l1] /\ ~ In XStart t3).
  { destruct (ends_within o (timeout opt)); [exists [XWaited]|exists []]; (split; [reflexivity|]); [intros [Q|[]]; discriminate|intros []]. }
  destruct T as (t3 & T & N3). rewrite T in E.
  destruct (snd (os_getrlimit o)); [|injection E as <- <- <-; eauto]. destruct (snd (os_setrlimit o)); [|injection E as <- <- <-; eauto].
  set (l2 := Limits (N.min (hard l1) (soft l)) (hard l1)) in *.
  assert (N4 : ~ In XStart (XLimit l2 :: t3)) by (intros [Q|Q]; [discriminate|exact (N3 Q)]).
  assert (Add : forall e later, e <> XStart -> ~ In XStart later -> ~ In XStart (e :: later)) by (intros e later A B [Q|Q]; [exact (A Q)|exact (B Q)]).
  destruct (ends_within o (timeout opt)).
  - destruct post as [[[|]| |]|]; injection E as <- <- <-; rewrite ?app_comm_cons; eexists; (split; [reflexivity|]); repeat (apply Add; [discriminate|]); assumption.
  - destruct (transitive_kill _ _ _) as [[killed q]|]; [|discriminate].
    assert (N5 : ~ In XStart (rev (map XKill killed) ++ XLimit l2 :: t3)).
    { intros Q. apply in_app_or in Q. destruct Q as [Q|Q]; [|exact (N4 Q)]. apply in_rev, in_map_iff in Q. destruct Q as (x & X & _). discriminate. }
    destruct q as [u| |]; [destruct (snd (os_wait o))| |]; injection E as <- <- <-; rewrite ?app_comm_cons, ?app_assoc; eexists; (split; [reflexivity|]); try apply Add; try discriminate; exact N5.
Qed.
Print Assumptions C15_limit_for_the_test.

(** The restriction "started and waited for" is needed: a start that fails leaves the limit changed. *)
Example C15_start_failure :
  perform_exec None None (OS (Some 5) (true, true) (true, true) false None (Exited 0) (true, true) 1 ex_children 100) (Limits 10 5000)
  = Some (Limits 1029 5000, [XLimit (Limits 1029 5000)], Err StartFailed).
Proof. reflexivity. Qed.

(** ** C16 *)
Theorem C16_whole_tree_killed : forall children t, describes children t -> exists killed,
  (exists n, forall fuel, (n <= fuel)%nat -> transitive_kill children fuel (root t) = Some (killed, Ok tt)) /\
  Permutation killed (pids t) /\ (forall a b, parent t a b -> before b a killed).
Proof.
  intros children t D. exists (kill_order t). split; [now apply transitive_kill_tree|].
  split; [apply kill_order_perm|apply kill_order_parents].
Qed.
Print Assumptions C16_whole_tree_killed.

Example C16_nonvacuous : describes ex_children ex_tree /\ parent ex_tree 3 4 /\
  transitive_kill ex_children 100 1 = Some ([4; 3; 2; 1], Ok tt).
Proof.
  split; [exact ex_describes|]. split; [|reflexivity].
  eapply par_below; [right; left; reflexivity|]. apply (par_here 3 [PNode 4 []] (PNode 4 [])). now left.
Qed.

(** ** C48 *)
(** [ops]: any sequence of successful dry runs (with the messages they print) and of requests to
    execute a test.  At most one warning per file and name. *)
Theorem C48_warned_once : forall ops, NoDup (snd (it_history false ops)).
Proof. intros ops. apply it_history_ok. Qed.
Print Assumptions C48_warned_once.

(** A request is granted exactly when a dry run of the file printed the name; otherwise it is
    refused, and a warning about it has been issued by then. *)
Theorem C48_known_or_refused : forall ops p t, dry_done ops p ->
  (dry_known ops p t /\ snd (it_exec false p t (fst (it_history false ops))) = Ok (Some tt)) \/
  (~ dry_known ops p t /\ snd (it_exec false p t (fst (it_history false ops))) = Ok None /\
   In (p, t) (snd (it_history false (ops ++ [ItExec p t])))).
Proof.
  intros ops p t D. destruct (it_history_ok ops) as [A B C W N].
  unfold it_history. rewrite fold_left_app. cbn [fold_left]. fold (it_history false ops).
  destruct (fst (it_history false ops) p) as [m|] eqn:E; [|destruct (proj2 (A p) D); exact E].
  specialize (B p m t E). cbn [it_step]. unfold it_exec. rewrite E. destruct (m t) eqn:S.
  - right. split; [rewrite <- B; discriminate|]. split; [reflexivity|now left].
  - left. split; [now apply B|reflexivity].
  - right. split; [rewrite <- B; discriminate|]. split; [reflexivity|]. cbn. eapply W; eassumption.
Qed.
Print Assumptions C48_known_or_refused.

(** In a whole run: no test is executed whose name no dry run of its file printed ([msgs p]). *)
Theorem C48_only_known_tests_run : forall hash16 contents denied msgs builds o files fs db, paths_ok files ->
  forall s t env disk,
  In (ERun s t env disk) (w_trace (fst (run_from hash16 contents (ts_oracle denied msgs builds o) files fs db))) ->
  In t (msgs (sp_path s)).
Proof. exact ts_runs_known. Qed.
Print Assumptions C48_only_known_tests_run.

Example C48_nonvacuous :
  let ops := [ItDry ex_path [s2t "T1"]; ItExec ex_path (s2t "T2"); ItExec ex_path (s2t "T1"); ItExec ex_path (s2t "T2")] in
  dry_done ops ex_path /\ snd (it_history false ops) = [(ex_path, s2t "T2")] /\
  runs (w_trace (fst (ex_run (ts_oracle false (fun _ => ex_tests) (fun _ _ _ => true) ex_o) ex_files None))) =
    [(ex_s1, s2t "T1"); (ex_s1, s2t "T2"); (ex_s2, s2t "T1"); (ex_s2, s2t "T2")].
Proof. split; [eexists; left; reflexivity|]. split; vm_compute; reflexivity. Qed.

(** But the candidate then is not reported: if it is an instrumented statement, the run ends
    in a panic (the assertion at core.rs:406). *)
Theorem C48_unknown_name_refuted : exists hash16 contents msgs o files fs,
  project files /\ follows ex_b o /\
  snd (run_from hash16 contents (ts_oracle false msgs (fun _ _ _ => true) o) files fs None) = Panic.
Proof.
  exists ex_hash, ex_disk, (fun _ => []), ex_o, ex_files, ex_disk.
  split; [exact ex_project|]. split; [apply ex_follows|]. vm_compute. reflexivity.
Qed.
Print Assumptions C48_unknown_name_refuted.

(** ** C49 *)
(** The judgement of an output by a back end whose check is [f]: [d1], [d2] say that the two warnings
    are denied (then the run ends with an error instead of going on). *)
Theorem C49_output_judged : forall f d1 d2 stdout st k warned r,
  postprocess false f d1 d2 stdout st = (k, warned, r) ->
  (r = Ok true <-> shows f stdout /\ ~ (d1 = true /\ unreadable stdout)) /\
  (r = Ok false -> warned = true) /\
  (warned = true -> ~ shows f stdout) /\
  r <> Panic.
Proof.
  intros f d1 d2 stdout st k w r E. destruct (postprocess_spec _ _ _ _ _ _ _ _ _ E) as (A & B & C & D & _).
  split; [exact A|]. split; [exact B|]. split; [intros H; now apply C|exact D].
Qed.
Print Assumptions C49_output_judged.

(** Passed or failed only if the output shows the test; no outcome only if it does not, and then
    a warning was raised. *)
Theorem C49_judged_only_if_run : forall f d1 d2 stdout opt o l lim tr x,
  let '(k, warned, r) := postprocess false f d1 d2 stdout (os_status o) in
  perform_exec opt (Some r) o l = Some (lim, tr, Ok x) ->
  (x = XPassed \/ x = XFailed -> shows f stdout) /\ (x = XNone -> ~ shows f stdout /\ warned = true).
Proof.
  intros f d1 d2 stdout opt o l lim tr x. destruct (postprocess _ _ _ _ _ _) as [[k w] r] eqn:P.
  destruct (postprocess_spec _ _ _ _ _ _ _ _ _ P) as (A & B & C & _). intros E. apply classify in E.
  split.
  - intros [-> | ->]; destruct E as (_ & _ & [E|E]); try discriminate; injection E as ->; now apply A.
  - intros ->. destruct E as (_ & E). injection E as ->. specialize (B eq_refl). split; [now apply C|exact B].
Qed.
Print Assumptions C49_judged_only_if_run.

(** In a run: a candidate one of whose tests ended so has no row (from C08). *)
Theorem C49_no_row : forall hash16 contents o files fs, paths_ok files -> distinct files ->
  let tr := w_trace (fst (run_from hash16 contents o files fs (Some []))) in
  forall c t rows, In c (all_cands files) -> In t (c_tests c) -> ran_with o tr (c_span c) t XNone ->
  w_db (fst (run_from hash16 contents o files fs (Some []))) = Some rows -> ~ In (c_span c) (map rm_span rows).
Proof.
  intros h ct o files fs P D tr c t rows Hc Ht R E Hr. apply in_map_iff in Hr as (x & X & Hx).
  destruct (C08_one_row_per_candidate h ct o files fs (Some []) P D eq_refl) as (rows' & E' & _ & _ & J & _).
  rewrite E in E'. injection E' as <-. apply (J c x Hc Hx X). exists t. auto.
Qed.
Print Assumptions C49_no_row.

(** What the checks of the back ends look for. *)
Theorem C49_checks : forall test line,
  (snd (rust_check test) line = true <-> line = s2t "running 1 test") /\
  (snd (go_check test) line = true <-> line = s2t "=== RUN   " ++ test) /\
  (snd (foundry_check test) line = true <-> exists a b, line = a ++ (s2t " " ++ test ++ s2t "(") ++ b) /\
  fst (rust_check test) = false /\ fst (go_check test) = false /\ fst (foundry_check test) = false.
Proof.
  intros test line. split; [apply text_eqb_eq|]. split; [apply text_eqb_eq|]. split; [apply contains_spec|]. auto.
Qed.
Print Assumptions C49_checks.

Example C49_nonvacuous :
  postprocess false (snd (go_check (s2t "T"))) false false (s2t "x" ++ [10] ++ s2t "=== RUN   T" ++ [13; 10] ++ s2t "ok") (Exited 1) = (0%nat, false, Ok true) /\
  postprocess false (snd (go_check (s2t "T"))) false false ([255; 10] ++ s2t "=== RUN   T2") (Exited 0) = (1%nat, true, Ok false) /\
  postprocess false (snd (go_check (s2t "T"))) false true (s2t "no") (Exited 0) = (0%nat, true, Err PostFailed).
Proof. repeat split; vm_compute; reflexivity. Qed.
