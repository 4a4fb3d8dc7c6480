(** Property theorems C81: a file's tests are tried before anything is done to it; and C48 for whole runs. *)
From Verif Require Import Base M_Text S_Text L_Text M_Rewriter M_Span S_Span L_Span M_Instr M_Run S_Run L_Run L_RunFinal P_Run M_Exec S_Exec L_Exec
  M_Output M_Sqlite M_Options P_Options M_Config M_Main P_Main P_EndToEnd S_DryRun L_DryRun.
From Verif Require M_Skill P_Skill.
From Coq Require Import List.
Local Open Scope list_scope.

(** C81: whenever a file is backed up or overwritten, or a change of it is built or tested, or what came of it is reported, the latest dry run is the file's own: it was made
    when all source files were as at the start, and it succeeded. *)
Theorem C81_tried_first : forall hash16 contents o files fs db, paths_ok files ->
  let tr := w_trace (fst (run_from hash16 contents o files fs db)) in
  forall e pre p, moment (e :: pre) tr -> concerns e p ->
  exists d, tried o pre p d /\ forall q, d q = fs q.
Proof.
  intros hash16 contents o files fs db P tr e pre p M C. unfold tr in *.
  destruct (run_orderly hash16 contents o files P (past_of db) (start fs db)) as [O _]; [intros x y q [l E] D; cbn in E; destruct l; discriminate|].
  destruct (O e pre p M C) as [d T]. exists d. split; [exact T|]. destruct T as (later & before & -> & _).
  assert (M' : moment (EDryRun p d :: before) (w_trace (fst (run_from hash16 contents o files fs db)))).
  { destruct M as [l E]. exists (l ++ e :: later ++ [EPoll]). rewrite E, <- app_assoc. cbn. rewrite <- app_assoc. reflexivity. }
  destruct (good_event hash16 contents o files fs db P _ _ M') as [_ G]. exact G.
Qed.
Print Assumptions C81_tried_first.

(** C81: files are dry run in the order of the run, each at most once, and only those with candidates. *)
Theorem C81_once : forall hash16 contents o files fs db, paths_ok files ->
  let tr := w_trace (fst (run_from hash16 contents o files fs db)) in
  subseq (rev (dry_runs tr)) (map fst (filter (fun f => match stm_iter (snd f) with [] => false | _ => true end) files)).
Proof.
  intros hash16 contents o files fs db P tr. unfold tr.
  destruct (run_orderly hash16 contents o files P (past_of db) (start fs db)) as [_ (l & E & S0)]; [intros x y q [l E] D; cbn in E; destruct l; discriminate|].
  unfold run_from. rewrite E. exact S0.
Qed.
Print Assumptions C81_once.

(** C48: in a run, a request to execute a test whose name the file's dry run printed is granted (if the file builds). *)
Lemma it_after_found denied msgs builds o t : forall pre p, In t (msgs p) -> (exists fs, tried o pre p fs) ->
  exists m, it_after denied msgs builds o pre p = Some m /\ m t = Found.
Proof.
  assert (FL : forall l (m : text -> it_state), m t = Found \/ In t l -> fold_left (fun m t => msg_set t Found m) l m t = Found).
  { induction l as [|x l IH]; intros m H; cbn; [destruct H as [H|[]]; exact H|]. apply IH. unfold msg_set. destruct (text_eqb x t) eqn:E; [left; reflexivity|]. apply text_eqb_neq in E. destruct H as [H|[->|H]]; [left; exact H|congruence|right; exact H]. }
  intros pre p I (fs & later & before & -> & N & D). induction later as [|e later IH]; cbn [app].
  - cbn [it_after]. rewrite D. eexists. split; [unfold it_dry_run, it_set; rewrite path_eqb_refl; reflexivity|]. apply FL. right. exact I.
  - destruct (IH (fun x J => N x (or_intror J))) as (m & E & F). destruct e as [q d|q d|s u d|s u ev d|r|r|w|w| | |q|q|q]; cbn [it_after]; try (exists m; split; assumption).
    + destruct (N (EDryRun q d) (or_introl eq_refl) Logic.I).
    + destruct (builds _ _ _); [|exists m; split; assumption]. unfold it_exec. destruct (it_after denied msgs builds o (later ++ EPoll :: EDryRun p fs :: before) (sp_path s)) as [ms|] eqn:Es; [|exists m; split; assumption].
      destruct (ms u) eqn:Eu; cbn [fst]; try (exists m; split; assumption). destruct denied; cbn [fst]; [exists m; split; assumption|].
      unfold it_set. destruct (path_eqb (sp_path s) p) eqn:Ep; [|exists m; split; assumption]. apply path_eqb_eq in Ep. rewrite Ep in Es. rewrite E in Es. injection Es as <-.
      eexists. split; [reflexivity|]. unfold msg_set. destruct (text_eqb u t) eqn:Et; [apply text_eqb_eq in Et; congruence|exact F].
Qed.
Theorem C48_known_tests_run : forall hash16 contents denied msgs builds o files fs db, paths_ok files ->
  forall s t d pre, moment (EExec s t d :: pre) (w_trace (fst (run_from hash16 contents (ts_oracle denied msgs builds o) files fs db))) ->
  In t (msgs (sp_path s)) -> builds (EExec s t d :: pre) t s = true ->
  o_exec (ts_oracle denied msgs builds o) (EExec s t d :: pre) t s = Ok (Some tt).
Proof.
  intros hash16 contents denied msgs builds o files fs db P s t d pre M I B.
  destruct (C81_tried_first hash16 contents _ files fs db P _ _ (sp_path s) M eq_refl) as (d' & T & _).
  destruct (it_after_found denied msgs builds o t pre (sp_path s) I (ex_intro _ d' T)) as (m & E & F).
  cbn [ts_oracle o_exec tl]. rewrite B. unfold it_exec. rewrite E, F. reflexivity.
Qed.
Print Assumptions C48_known_tests_run.

(** C48: the warnings of a whole run are those of the sequence of its successful dry runs and requests; so there is at most one for each file
    and name. *)
Fixpoint ts_ops (msgs : path -> list text) (builds : trace -> text -> span -> bool) (o : oracle) (tr : trace) : list it_op :=
  match tr with
  | [] => []
  | e :: r => ts_ops msgs builds o r ++
      match e with
      | EDryRun p _ => match o_dry_run o (e :: r) p with Ok _ => [ItDry p (msgs p)] | _ => [] end
      | EExec s t _ => if builds (e :: r) t s then [ItExec (sp_path s) t] else []
      | _ => []
      end
  end.
Theorem C48_run_is_history : forall denied msgs builds o tr t s d,
  builds (EExec s t d :: tr) t s = true ->
  o_exec (ts_oracle denied msgs builds o) (EExec s t d :: tr) t s = snd (it_exec denied (sp_path s) t (fst (it_history denied (ts_ops msgs builds o tr)))).
Proof.
  intros denied msgs builds o tr t s d B. cbn [ts_oracle o_exec tl]. rewrite B. do 2 f_equal. clear t s d B.
  unfold it_history. induction tr as [|e r IH]; [reflexivity|]. cbn [it_after ts_ops]. rewrite fold_left_app.
  destruct e; cbn [fold_left]; try exact IH.
  - destruct (o_dry_run _ _ _) as [u|u|]; cbn [fold_left it_step fst snd]; rewrite IH; reflexivity.
  - destruct (builds _ _ _); cbn [fold_left it_step]; [|exact IH]. rewrite IH. destruct (it_exec denied (sp_path s) test _) as [[im w] a]. destruct w; reflexivity.
Qed.
Print Assumptions C48_run_is_history.

(** C81 for a whole invocation. *)
Section Invocation.
Context {V : Type} (yaml : text -> option M_Skill.header) (semver : text -> option V) (vcmp : V -> V -> comparison)
        (vshow : V -> text) (pshow : path -> text) (builtin_skill : text) (builtin_version : V)
        (hash16 : text -> text) (default_toml : text).
Notation invoke := (necessist yaml semver vcmp vshow pshow builtin_skill builtin_version hash16 default_toml).
Theorem C81_invocation : forall g o sel k, parses_well g ->
  forall e pre p, moment (e :: pre) (a_trace (invoke g o sel k)) -> concerns e p ->
  exists d, tried (g_oracle g) pre p d /\ forall q, d q = k_src k q.
Proof.
  intros g o sel k PW e pre p M C.
  assert (N : a_trace (invoke g o sel k) <> []) by (destruct M as [l ->]; destruct l; discriminate).
  destruct (trace_is_run yaml semver vcmp vshow pshow builtin_skill builtin_version hash16 default_toml g o sel k N) as (files & db & PR & _ & E).
  rewrite E in M. assert (P : paths_ok files) by (destruct PR as (_ & root & c & f & paths & n & _ & _ & _ & _ & _ & _ & X); exact (PW _ _ _ _ _ _ X)).
  destruct (C81_tried_first hash16 (k_src k) _ files (k_src k) db P e pre p M C) as (d & T & D). exists d. split; [exact T|exact D].
Qed.
End Invocation.
Print Assumptions C81_invocation.

(** Two candidates of one file, tested with two tests: one dry run comes first. *)
Example C81_nonvacuous : let tr := w_trace (fst (ex_run ex_o ex_files None)) in
  paths_ok ex_files /\ dry_runs tr = [ex_path] /\ exists d pre, moment (EExec ex_s1 (s2t "T1") d :: pre) tr.
Proof.
  cbv zeta. split; [exact (proj1 ex_project)|]. split; [vm_compute; reflexivity|].
  assert (Q : runs (w_trace (fst (ex_run ex_o ex_files None))) = [(ex_s1, s2t "T1"); (ex_s1, s2t "T2"); (ex_s2, s2t "T1"); (ex_s2, s2t "T2")]) by (vm_compute; reflexivity).
  assert (I : In (ex_s1, s2t "T1") (runs (w_trace (fst (ex_run ex_o ex_files None))))) by (rewrite Q; left; reflexivity).
  set (tr := w_trace (fst (ex_run ex_o ex_files None))) in *. clearbody tr. apply runs_in in I as (d & I). apply in_moment in I as (pre & later & E). exists d, pre, later. exact E.
Qed.
(** A file whose dry run fails is left alone. *)
Definition is_idle (e : event) : bool := match e with EBackup _ | EWrite _ | EBuild _ _ | EExec _ _ _ | ERun _ _ _ _ => false | _ => true end.
Example C81_failed : let o := Oracle (fun _ _ => Err tt) (o_ctrlc ex_o) (o_denied ex_o) (o_backup_ok ex_o) (o_extra ex_o) (o_guard ex_o) (o_write ex_o) (o_build ex_o) (o_exec ex_o) (o_perform ex_o) (o_db_ok ex_o) in
  let r := ex_run o ex_files None in snd r = Ok tt /\ dry_runs (w_trace (fst r)) = [ex_path] /\ forallb is_idle (w_trace (fst r)) = true.
Proof. cbv zeta. split; [vm_compute; reflexivity|]. split; vm_compute; reflexivity. Qed.
