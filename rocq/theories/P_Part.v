(** C84: naming source files gives, for these files, what a run on all of them gives. *)
From Verif Require Import Base M_Text M_Rewriter M_Span S_Span M_Instr M_Run S_Run L_Run L_RunFinal L_Total L_Unique P_Run P_Crash
  M_Output M_Sqlite P_Sqlite M_Options P_Options M_Config M_Main P_Main P_EndToEnd P_Look P_Progress
  M_Visitor M_Directives M_Parsing P_Parsing M_Find M_Project P_Project S_Part L_Part.
From Verif Require M_Skill P_Skill P_Find.
From Coq Require Import List Sorted.
Local Open Scope list_scope.

(** ** Runs *)
Lemma start_goes Q fs db : db = None \/ db = Some [] -> goes Q (start fs db) (start fs db).
Proof. intros [-> | ->]; constructor; cbn; auto. Qed.
Lemma consoles_share Q tr : consoles (share Q tr) = removals_of Q (consoles tr).
Proof.
  unfold consoles. induction tr as [|e tr IH]; [reflexivity|]. rewrite share_cons. cbn [rev]. unfold removals_of in *. rewrite flat_map_app, filter_app, <- IH.
  destruct (concerns Q e) eqn:C.
  - cbn [rev]. rewrite flat_map_app. f_equal. destruct e; cbn [alone flat_map console_of app filter]; try reflexivity. unfold concerns in C. cbn in C. rewrite C. reflexivity.
  - destruct e; cbn [flat_map console_of app filter]; rewrite ?app_nil_r; try reflexivity. unfold concerns in C. cbn in C. rewrite C. rewrite app_nil_r. reflexivity.
Qed.
Lemma runs_share Q tr : runs (share Q tr) = filter (fun x => Q (sp_path (fst x))) (runs tr).
Proof.
  unfold runs. induction tr as [|e tr IH]; [reflexivity|]. rewrite share_cons. cbn [rev]. rewrite flat_map_app, filter_app, <- IH.
  destruct (concerns Q e) eqn:C.
  - cbn [rev]. rewrite flat_map_app. f_equal. destruct e; cbn [alone flat_map run_of app filter]; try reflexivity. unfold concerns in C. cbn in C. cbn [fst]. rewrite C. reflexivity.
  - destruct e; cbn [flat_map run_of app filter]; rewrite ?app_nil_r; try reflexivity. unfold concerns in C. cbn in C. cbn [fst]. rewrite C. rewrite app_nil_r. reflexivity.
Qed.
Lemma own_all Q tr : forallb (fun e => match about_file e with Some p => Q p | None => true end) tr = true ->
  removals_of Q (consoles tr) = consoles tr /\ filter (fun x => Q (sp_path (fst x))) (runs tr) = runs tr.
Proof.
  unfold consoles, runs, removals_of. induction tr as [|e tr IH]; [split; reflexivity|]. cbn [forallb rev]. intros H. apply andb_prop in H as [H1 H2]. destruct (IH H2) as [I1 I2].
  rewrite !flat_map_app, !filter_app, I1, I2. split; f_equal; destruct e; cbn [flat_map console_of run_of app filter]; try reflexivity; cbn in H1; cbn [fst]; rewrite H1; reflexivity.
Qed.

(** A complete run on [files], without a database or with an empty one, and the run on some of these files: if each file is treated on its own, then it is complete
    as well; the rows it stores, the removals it reports and the tests it runs, in their order, are those of the first run that concern these files; what happens
    with these files is the same to the last detail. *)
Theorem C84_run : forall hash16 contents o Q files fs db, db = None \/ db = Some [] -> paths_ok files -> each_on_its_own o -> undisturbed o ->
  let all := run_from hash16 contents o files fs db in
  let some := run_from hash16 contents o (only Q files) fs db in
  snd all = Ok tt ->
  snd some = Ok tt /\ w_db (fst some) = match w_db (fst all) with Some rs => Some (removals_of Q rs) | None => None end /\
  consoles (w_trace (fst some)) = removals_of Q (consoles (w_trace (fst all))) /\
  runs (w_trace (fst some)) = filter (fun x => Q (sp_path (fst x))) (runs (w_trace (fst all))) /\
  share Q (w_trace (fst some)) = share Q (w_trace (fst all)) /\
  forall p, w_fs (fst some) p = w_fs (fst all) p.
Proof.
  intros hash16 contents o Q files fs db D PO OW UN all some E.
  assert (PA : past_of db = []) by (destruct D as [-> | ->]; reflexivity).
  destruct (run_part hash16 contents o Q OW UN files PO (start fs db) (start fs db) (start_goes Q fs db D) eq_refl) as [E' G].
  { unfold all, run_from in E. rewrite PA in E. exact E. }
  unfold all, some, run_from. rewrite PA. split; [exact E'|]. destruct G as [G1 G2 G3 G4 _ _ _ _]. split; [exact G4|].
  destruct (own_all Q _ G2) as [O1 O2]. split; [rewrite <- O1, <- !consoles_share, G1; reflexivity|]. split; [rewrite <- O2, <- !runs_share, G1; reflexivity|]. split; [exact G1|].
  intros p. pose proof (C06_restored_always hash16 contents o files fs db p) as R1. pose proof (C06_restored_always hash16 contents o (only Q files) fs db p) as R2.
  unfold run_from in R1, R2. rewrite PA in R1, R2. rewrite R1, R2. reflexivity.
Qed.
Print Assumptions C84_run.

(** ** Parsing *)
Section Parse.
Context (alphanumeric : char -> bool).
Context (fw : M_Visitor.framework) (own : builtin) (parse_file : path -> text -> option pfile) (denied : warning -> bool).
Context (root : path) (read : path -> option text) (is_dir is_file : path -> bool) (walk_dir : path -> list (option path)).
Notation parse := (parse alphanumeric fw own parse_file denied root read is_dir is_file walk_dir).
Notation visited := (visited root is_dir is_file walk_dir).
(** The files named. *)
Definition named (sf : list path) (p : path) : bool := existsb (path_eqb (root ++ p)) sf.
Lemma filter_sorted (Q : path -> bool) m : StronglySorted by_path m -> StronglySorted by_path (only Q m).
Proof.
  intros H. induction H as [|e m S1 IH F]; [constructor|]. unfold only in *. cbn [filter]. destruct (Q (fst e)); [|exact IH]. constructor; [exact IH|].
  apply Forall_forall. intros x I. apply filter_In in I as [I _]. rewrite Forall_forall in F. exact (F x I).
Qed.
(** If a search of [sf] succeeds (by default, of the whole root), then so does a search of some of the files looked at, with exactly what was found in them. *)
Theorem C84_parse : (forall p, is_file p = true -> is_dir p = false) -> forall cfg sf ws n m sf', parse cfg sf = (ws, Ok (n, m)) -> sf' <> [] -> (forall f, In f sf' -> In f (visited sf)) ->
  exists ws' n', parse cfg sf' = (ws', Ok (n', only (named sf') m)).
Proof.
  intros FD cfg sf ws n m sf' H NE IN.
  assert (FI : forall f, In f (visited sf) -> is_file f = true).
  { intros f I. unfold P_Parsing.visited in I. apply in_flat_map in I as [s [_ I]]. unfold files_in in I. destruct (is_dir s).
    - apply in_flat_map in I as [[q|] [_ I]]; [|destruct I]. destruct (is_file q) eqn:K; [|destruct I]. destruct I as [<-|[]]. exact K.
    - destruct (is_file s) eqn:K; [|destruct I]. destruct I as [<-|[]]. exact K. }
  assert (VS : forall f, In f (visited sf') <-> In f sf').
  { intros f. unfold P_Parsing.visited. destruct sf' as [|f0 sf']; [congruence|]. rewrite in_flat_map. unfold files_in. split.
    - intros [s [I J]]. pose proof (FI s (IN s I)) as F. rewrite (FD s F), F in J. destruct J as [<-|[]]. exact I.
    - intros I. exists f. split; [exact I|]. pose proof (FI f (IN f I)) as F. rewrite (FD f F), F. left. reflexivity. }
  pose proof (proj1 (C39_succeeds_iff alphanumeric fw own parse_file denied root read is_dir is_file walk_dir cfg sf FD)) as S1.
  destruct S1 as [C [_ A]]; [eauto|].
  destruct (proj2 (C39_succeeds_iff alphanumeric fw own parse_file denied root read is_dir is_file walk_dir cfg sf' FD)) as [ws' [n' [m' H']]].
  { split; [exact C|]. split.
    - intros s I Ds. exfalso. assert (I' : In s sf') by (destruct sf'; [congruence|exact I]). pose proof (FD s (FI s (IN s I'))). congruence.
    - intros f I. apply A, IN, VS, I. }
  exists ws', n'. rewrite H'. do 3 f_equal.
  destruct (C39_each_file_alone alphanumeric fw own parse_file denied root read is_dir is_file walk_dir cfg sf ws n m FD H) as [So M].
  destruct (C39_each_file_alone alphanumeric fw own parse_file denied root read is_dir is_file walk_dir cfg sf' ws' n' m' FD H') as [So' M'].
  apply sorted_ext; [exact So'|apply filter_sorted, So|]. intros [p x]. unfold only. rewrite filter_In. cbn [fst]. rewrite M', M, VS. unfold named. rewrite existsb_exists. split.
  - intros [I K]. split; [split; [apply IN, I|exact K]|]. exists (root ++ p). split; [exact I|apply path_eqb_refl].
  - intros [[_ K] [f [I E]]]. apply path_eqb_eq in E. subst f. split; [exact I|exact K].
Qed.
End Parse.
Print Assumptions C84_parse.

(** ** Invocations *)
Section Main.
Context {V : Type} (yaml : text -> option M_Skill.header) (semver : text -> option V) (vcmp : V -> V -> comparison)
        (vshow : V -> text) (pshow : path -> text) (builtin_skill : text) (builtin_version : V).
Context (hash16 : text -> text) (default_toml : text).
Notation invoke := (necessist yaml semver vcmp vshow pshow builtin_skill builtin_version hash16 default_toml).
Notation exit g o sel k := (exit_code (invoke g o sel k)).

(** Nothing was stored before, or it is not looked at. *)
Definition afresh (o : options) (k : disk) : Prop := given o no_sqlite \/ given o reset \/ k_db k = None.

Lemma own_of g o : each_on_its_own (g_oracle g) -> each_on_its_own (oracle_of g o).
Proof. intros [B1 B2 B3 B4 B5 B6 B7]. constructor; assumption. Qed.
Lemma opened_afresh g o k states past : op_dump o = false -> op_reset o = true \/ k_db k = None -> open_db g o k = (states, Ok past) ->
  past = [] /\ k_src (last_disk states k) = k_src k /\ k_db (last_disk states k) = Some (Some []).
Proof.
  intros DU F. unfold open_db. rewrite DU. pose proof (init_cases (g_sql g) (g_file_exists g) (denied o WDatabaseDoesNotExist) false (op_reset o) (op_resume o) (k_db k)) as C.
  cbv zeta in C. destruct (init _ _ _ _ _ _ _) as [st r]. cbn [fst snd] in C.
  destruct C as [[E1 [[e E2]|[[X|RE] [RS [rows [DB E2]]]]]]|[[rows [DB [RS [[E1 [e E2]]|[E1 E2]]]]]|[DB [_ [DN [[E1 [e E2]]|[E1 E2]]]]]]];
    try discriminate; subst st; cbn [tl map]; try (rewrite E2; discriminate).
  - destruct F as [F|F]; congruence.
  - rewrite E2. intros E. injection E as <- <-. repeat split.
  - rewrite E2. intros E. injection E as <- <-. repeat split.
Qed.

Theorem C84_invocation : forall g o o' sel k Q files, runs_tests o -> same_but_files o o' -> afresh o k -> parses_well g ->
  each_on_its_own (g_oracle g) -> undisturbed (g_oracle g) ->
  prepared g o sel k files -> prepared g o' sel k (only Q files) -> exit g o sel k = 0%N ->
  exit g o' sel k = 0%N /\
  consoles (a_trace (invoke g o' sel k)) = removals_of Q (consoles (a_trace (invoke g o sel k))) /\
  runs (a_trace (invoke g o' sel k)) = filter (fun x => Q (sp_path (fst x))) (runs (a_trace (invoke g o sel k))) /\
  (~ given o no_sqlite -> exists rs, k_db (final k (invoke g o sel k)) = Some (Some (map (to_row g) rs)) /\
     k_db (final k (invoke g o' sel k)) = Some (Some (map (to_row g) (removals_of Q rs)))).
Proof.
  intros g o o' sel k Q files RT SB AF PW OW UN P P' EX.
  assert (PO : paths_ok files) by (destruct P as (_ & r & c & f & ps & n & _ & _ & _ & _ & _ & _ & GP); exact (PW _ _ _ _ _ _ GP)).
  assert (DP : nothing_deprecated o).
  { unfold nothing_deprecated. intros NL D. revert EX. destruct P as (AC & r & c & f & ps & n & R & L & _). unfold necessist. apply accepted_iff in AC. rewrite AC.
    destruct (op_check_skill o) eqn:CS; [destruct RT as [_ [NS _]]; destruct NS; left; unfold given; cbn; congruence|]. destruct (op_find_skill o) eqn:FS; [destruct RT as [_ [NS _]]; destruct NS; right; exact FS|].
    rewrite R, L. cbn [negb]. apply denied_iff in D. change (M_Main.denied o WOptionDeprecated) with (denied o WOptionDeprecated) in D. rewrite NL, D. discriminate. }
  unfold same_but_files in SB. remember (op_source_files o') as sf eqn:Es. clear Es.
  assert (RT' : runs_tests o') by (rewrite SB; exact RT). assert (DP' : nothing_deprecated o') by (rewrite SB; exact DP).
  pose proof (prepared_runs yaml semver vcmp vshow pshow builtin_skill builtin_version hash16 default_toml g o sel k files RT P DP) as I1.
  pose proof (prepared_runs yaml semver vcmp vshow pshow builtin_skill builtin_version hash16 default_toml g o' sel k (only Q files) RT' P' DP') as I2.
  rewrite I1 in *. rewrite I2. clear I1 I2 P P' DP'.
  assert (M : main_run hash16 g o' (only Q files) k = main_run hash16 g o (only Q files) k) by (rewrite SB; reflexivity). rewrite M. clear M SB o' RT' sf.
  pose proof (runs_no_dump o RT) as DU. assert (OW' := own_of g o OW). assert (UN' : undisturbed (oracle_of g o)) by exact UN.
  revert EX. unfold main_run. destruct (g_handler g); cbn [negb]; [|discriminate]. destruct (op_no_sqlite o) eqn:NS.
  - intros EX. pose proof (C84_run hash16 (k_src k) (oracle_of g o) Q files (k_src k) None (or_introl eq_refl) PO OW' UN') as R. cbv zeta in R.
    destruct (run_from hash16 (k_src k) (oracle_of g o) files (k_src k) None) as [w r], (run_from hash16 (k_src k) (oracle_of g o) (only Q files) (k_src k) None) as [w' r']. cbn [fst snd a_trace] in *.
    assert (E : r = Ok tt) by (destruct r as [[]| |]; [reflexivity|discriminate|discriminate]). destruct (R E) as (E' & _ & R1 & R2 & _). rewrite E'. split; [reflexivity|]. split; [exact R1|]. split; [exact R2|].
    intros N. destruct N. exact NS.
  - intros EX. destruct (open_db g o k) as [states [past|e|]] eqn:OD; [|discriminate|discriminate].
    assert (F : op_reset o = true \/ k_db k = None) by (destruct AF as [H|[H|H]]; [unfold given in H; cbn in H; congruence|left; exact H|right; exact H]).
    destruct (opened_afresh g o k states past DU F OD) as (-> & KS & KD). rewrite KS, KD in *.
    pose proof (C84_run hash16 (k_src k) (oracle_of g o) Q files (k_src k) (Some []) (or_intror eq_refl) PO OW' UN') as R. cbv zeta in R.
    destruct (run_from hash16 (k_src k) (oracle_of g o) files (k_src k) (Some [])) as [w r] eqn:RR, (run_from hash16 (k_src k) (oracle_of g o) (only Q files) (k_src k) (Some [])) as [w' r'] eqn:RR'.
    cbn [fst snd a_trace length skipn app] in *.
    assert (E : r = Ok tt) by (destruct r as [[]| |]; [reflexivity|discriminate|discriminate]). destruct (R E) as (E' & D' & R1 & R2 & _). rewrite E'. split; [reflexivity|]. split; [exact R1|]. split; [exact R2|].
    intros _. pose proof (C12_rows_stay hash16 (k_src k) (oracle_of g o) files (k_src k) [] PO) as W. cbv zeta in W. rewrite RR in W. cbn [fst] in W. rewrite W in *. rewrite D'.
    eexists. unfold final. cbn [a_states]. rewrite !last_last. cbn. split; reflexivity.
Qed.

(** With the back ends as modelled: after a complete run on a project, the same run with some of its files named. *)
Context (alphanumeric : char -> bool) (denied : warning -> bool) (parser : M_Options.framework -> path -> text -> option pfile).
Context (anchor : finder) (ignored : path -> bool) (root : path) (tree : entry).
Theorem C84_named : forall g o o' sel k files full sf, (forall x, alphanumeric x = true -> is_meta x = false) ->
  reads_with alphanumeric denied parser anchor ignored root tree g -> proper_parsers parser ->
  runs_tests o -> same_but_files o o' -> afresh o k -> each_on_its_own (g_oracle g) -> undisturbed (g_oracle g) ->
  prepared g o sel k files -> exit g o sel k = 0%N ->
  g_root g (op_root o) = Some full -> sf <> [] ->
  Forall2 (fun p q => exists f, means full p f /\ g_canon g f = Some q /\ P_Options.within full q) (op_source_files o') sf ->
  (forall q, In q sf -> exists p m, q = root ++ p /\ In (p, m) files) ->
  exit g o' sel k = 0%N /\
  consoles (a_trace (invoke g o' sel k)) = removals_of (named root sf) (consoles (a_trace (invoke g o sel k))) /\
  runs (a_trace (invoke g o' sel k)) = filter (fun x => named root sf (sp_path (fst x))) (runs (a_trace (invoke g o sel k))) /\
  (~ given o no_sqlite -> exists rs, k_db (final k (invoke g o sel k)) = Some (Some (map (to_row g) rs)) /\
     k_db (final k (invoke g o' sel k)) = Some (Some (map (to_row g) (removals_of (named root sf) rs)))).
Proof.
  intros g o o' sel k files full sf AL RW PP RT SB AF OW UN P EX GR NE FF IN.
  destruct (C74_invocation alphanumeric denied parser anchor ignored root tree g AL RW PP) as [PW _].
  apply C84_invocation with (files := files); try assumption.
  destruct P as (AC & r & c & f & ps & n & R & L & C & CF & GC & _ & GP). rewrite GR in R. injection R as <-.
  assert (AC' : acceptable o').
  { apply accepted_iff in AC. apply accepted_iff. unfold same_but_files in SB. remember (op_source_files o') as sfo eqn:X. clear X. rewrite SB. exact AC. }
  assert (RO : op_root o' = op_root o) by (unfold same_but_files in SB; remember (op_source_files o') as sfo eqn:X; clear X; rewrite SB; reflexivity).
  assert (GP' : exists n', g_parse g f c sf (k_src k) = Ok (n', only (named root sf) files)).
  { rewrite RW in *. unfold project_parse in *. match type of GP with context [snd ?x] => destruct x as [ws rr] eqn:PE end. cbn [snd] in GP. destruct rr as [[n0 m0]| |]; try discriminate. injection GP as -> ->.
    assert (FD : forall p, fs_is_file root tree p = true -> fs_is_dir root tree p = false) by (intros p; apply P_Find.file_not_dir).
    destruct (C84_parse _ _ _ _ _ _ _ _ _ _ FD c ps ws n files sf PE NE) as [ws' [n' H']].
    - intros q I. destruct (IN q I) as [p [m [-> J]]]. destruct (C39_each_file_alone _ _ _ _ _ _ _ _ _ _ c ps ws n files FD PE) as [_ M]. apply (M p m), J.
    - exists n'. rewrite H'. reflexivity. }
  destruct GP' as [n' GP']. split; [exact AC'|]. exists full, c, f, sf, n'. rewrite RO. repeat (split; [assumption|]). exact GP'.
Qed.
End Main.
Print Assumptions C84_invocation.
Print Assumptions C84_named.

(** ** An example: two files like that of C74; then one of them named. *)
From Verif Require Import S_Text L_Text L_Span P_Text S_Instr P_Instr M_Exec S_Exec L_Exec P_Exec P_Config S_Walk S_Visitor P_Visitor S_Placed P_Placed.
Definition v_path : path := [s2t "u.rs"].
Definition v_node (q : path) (i : nat) (k : nkind) (a b : nat) (ks : list node) : node := Node (Label i k [] (Span q (LC 1 a) (LC 1 b))) ks.
Definition v_tree (q : path) : node :=
  v_node q 1 KGroup 0 14 [v_node q 2 (KTest (s2t "T1") 0) 0 14 [v_node q 13 KGroup 0 14
    [v_node q 3 (KStmt true false false true) 0 6
       [v_node q 4 (KCall false (Some (s2t "a"))) 0 5 [v_node q 5 (KField (Some (s2t "a"))) 0 3 [v_node q 6 (KIdent (s2t "x")) 0 1 []]]];
     v_node q 7 (KStmt true false false true) 6 10 [v_node q 8 (KCall false (Some (s2t "b"))) 6 9 [v_node q 9 (KIdent (s2t "b")) 6 7 []]];
     v_node q 10 (KStmt true false false true) 10 14 [v_node q 11 (KCall false (Some (s2t "c"))) 10 13 [v_node q 12 (KIdent (s2t "c")) 10 11 []]]]]].
Definition v_parser (f : M_Options.framework) (p : path) (contents : text) : option pfile :=
  match f with
  | Rust => if text_eqb contents r_text then Some (PFile (v_tree p) []) else None
  | _ => None
  end.
Definition v_entry : entry := EDir (Some [(s2t "u.rs", EFile); (s2t "t.rs", EFile); (s2t "README", EFile)]).
Definition v_setting : setting :=
  Setting (M_Output.Env false true (Some ex_root) ex_root) (Some P_Skill.ex_home) P_Skill.ex_sys u_components
    (fun _ => Some ex_root) (fun _ => true) true true None (fun _ => Some toml_default)
    (fun n => Some (text_eqb n (s2t "Cargo.toml"))) (fun _ => true) (fun p => Some p)
    (project_parse ascii_alphanumeric (fun _ => false) v_parser find_anchor_mocha (fun _ => false) ex_root v_entry)
    all_ok (fun _ => true) true ex_o (fun _ => []).
Definition v_start : disk := Disk (fun _ => r_text) None None (P_Skill.ex_files None None).
Definition v_plain (sf : list upath) : options := Options [] None false [] false false false false false false false false false false None None false false sf [].

Lemma v_parts q n : part_of (PFile (v_tree q) []) n -> In n (nodes (v_tree q)).
Proof. intros [H|(name & fs & g & [] & _)]. apply within_nodes. exact H. Qed.
Lemma v_proper : proper_parsers v_parser.
Proof.
  intros f p contents t SC H. unfold v_parser in H. destruct f; try discriminate.
  destruct (text_eqb contents r_text) eqn:Q2; [|discriminate]. injection H as <-.
  apply text_eqb_eq in Q2. subst contents. constructor; cbn [pf_root pf_locals].
  - intros E HE. split; [reflexivity|intros name fs g []].
  - intros s P (r & c & d & e & K & _). apply v_parts in P. cbn in P.
    repeat (destruct P as [<-|P]; [try discriminate K|]); try destruct P; (split; [reflexivity|]).
    + exists [], (s2t "x.a();"), (s2t "b();c();"). split; [repeat split|discriminate].
    + exists (s2t "x.a();"), (s2t "b();"), (s2t "c();"). split; [repeat split|discriminate].
    + exists (s2t "x.a();b();"), (s2t "c();"), []. split; [repeat split|discriminate].
  - intros s s' P P' (r & c & d & e & K & _) (r' & c' & d' & e' & K' & _). apply v_parts in P, P'. cbn in P, P'.
    repeat (destruct P as [<-|P]; [try discriminate K|]); try destruct P;
    (repeat (destruct P' as [<-|P']; [try discriminate K'|]); try destruct P'); try (left; reflexivity);
    right; left; unfold disjoint, lc_le, lc_lt; cbn; (left + right); (left; reflexivity) || (right; right; split; [reflexivity|lia]).
  - intros c b names P MC. apply v_parts in P. cbn in P. destruct MC as ((h & x & K) & callee & args & Hk & FP & NE).
    repeat (destruct P as [<-|P]; [try discriminate K|]); try destruct P; cbn in Hk; injection Hk as <- <-.
    + split; [reflexivity|]. inversion FP as [|l0 x0 b0 r0 base0 p0 K0 FP0]; subst; [congruence|]. inversion FP0 as [|l1 x1 b1 r1 base1 p1 K1 FP1]; subst.
      exists (s2t "x"), (s2t ".a()"), (s2t ";b();c();"). repeat split.
    + inversion FP; subst. congruence.
    + inversion FP; subst. congruence.
Qed.
Lemma v_own : each_on_its_own ex_o.
Proof. constructor; intros; reflexivity. Qed.

Example C84_nonvacuous :
  let o := v_plain [] in let o' := v_plain [UPath false [s2t "u.rs"]] in
  let w := a_trace (ex_invoke v_setting o v_start) in let w' := a_trace (ex_invoke v_setting o' v_start) in
  reads_with ascii_alphanumeric (fun _ => false) v_parser find_anchor_mocha (fun _ => false) ex_root v_entry v_setting /\ proper_parsers v_parser /\
  runs_tests o /\ same_but_files o o' /\ afresh o v_start /\ each_on_its_own (g_oracle v_setting) /\ undisturbed (g_oracle v_setting) /\
  (exists files, prepared v_setting o None v_start files /\ map fst files = [[s2t "t.rs"]; [s2t "u.rs"]]) /\
  exit_code (ex_invoke v_setting o v_start) = 0%N /\
  Forall2 (fun p q => exists f, means ex_root p f /\ g_canon v_setting f = Some q /\ P_Options.within ex_root q) (op_source_files o') [ex_root ++ v_path] /\
  map (fun r => (sp_path (rm_span r), rm_text r, rm_outcome r)) (consoles w) =
    flat_map (fun q => [(q, s2t "x.a();", Passed); (q, s2t "b();", Passed); (q, s2t ".a()", Passed)]) [[s2t "t.rs"]; [s2t "u.rs"]] /\
  map (fun r => (sp_path (rm_span r), rm_text r, rm_outcome r)) (consoles w') =
    [([s2t "u.rs"], s2t "x.a();", Passed); ([s2t "u.rs"], s2t "b();", Passed); ([s2t "u.rs"], s2t ".a()", Passed)].
Proof.
  cbv zeta. split; [intros f c ps src; reflexivity|]. split; [exact v_proper|].
  split. { unfold runs_tests, only_looks, about_skill, given. cbn. repeat split; intuition congruence. }
  split; [reflexivity|]. split; [right; right; reflexivity|]. split; [exact v_own|]. split; [split; intros; reflexivity|].
  split.
  { destruct (g_parse v_setting Rust toml_default [] (k_src v_start)) as [[n files]| |] eqn:E; [|exfalso; vm_compute in E; discriminate|exfalso; vm_compute in E; discriminate].
    exists files. split.
    - split; [apply accepted_iff; reflexivity|]. exists ex_root, toml_default, Rust, [], n.
      split; [reflexivity|]. split; [reflexivity|]. split; [split; reflexivity|]. split; [vm_compute; reflexivity|]. split; [reflexivity|]. split; [constructor|exact E].
    - vm_compute in E. injection E as _ <-. vm_compute. reflexivity. }
  split; [vm_compute; reflexivity|].
  split. { constructor; [|constructor]. exists (ex_root ++ v_path). split; [right; split; reflexivity|]. split; [reflexivity|]. exists v_path. reflexivity. }
  split; vm_compute; reflexivity.
Qed.
