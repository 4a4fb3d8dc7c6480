(** C82: what a run that tests candidates prints, from the first line to the last, and how it agrees with the database. *)
From Verif Require Import Base M_Text S_Text L_Text M_Rewriter M_Span S_Span L_Span P_Text M_Instr S_Instr P_Instr M_Run S_Run L_Run L_RunFinal L_Resume L_History L_Total L_Unique L_Denied P_Run
  M_Output S_Output L_Output P_Output M_Sqlite P_Sqlite M_Options P_Options M_Config M_Main P_Main P_EndToEnd S_DryRun L_DryRun P_DryRun M_Console L_Console.
From Verif Require M_Skill P_Skill.
From Coq Require Import List.
Import ListNotations.
Local Open Scope list_scope.

(** ** Specification *)
(** Only warnings are printed. *)
Definition only_warns (l : list print_op) : Prop := Forall (fun op => exists w source msg once, op = OpWarn w source msg once) l.
Definition skipped (r : removal) : bool := match rm_outcome r with Skipped => true | _ => false end.
Definition is_warning (x : out) : Prop := exists w t, x = OLine (AWarning w) t.
(** The line of a removal in the file [p]. *)
Definition is_result (p : path) (x : out) : Prop := exists r t, x = OLine (ARemoval r) t /\ sp_path (rm_span r) = p.

(** ** Lemmas *)
Lemma asked_warns l : only_warns l -> flat_map asked l = [].
Proof. intros H. induction H as [|op l [w [s [m [b ->]]]] H IH]; [reflexivity|exact IH]. Qed.
Lemma asked_pairs (x : context) l : flat_map (fun e => asked (snd e)) (map (pair x) l) = flat_map asked l.
Proof. induction l as [|op l IH]; [reflexivity|]. cbn. rewrite IH. reflexivity. Qed.

Section Spoken.
Context (v : env) (chatter : trace -> list print_op) (why : trace -> text).
Hypothesis CH : forall tr, only_warns (chatter tr).

Lemma spoken_asked tr : flat_map asked (spoken v chatter why tr) = consoles tr.
Proof.
  induction tr as [|e tr IH]; [reflexivity|]. cbn [spoken]. rewrite flat_map_app, IH. unfold consoles. cbn [rev]. rewrite flat_map_app. f_equal.
  destruct e as [p d|p d|s t d|s t ev d|r|r|w|m| | |p|p|p]; cbn; rewrite ?app_nil_r; try reflexivity; try (apply asked_warns, CH).
  - destruct w; [destruct tr as [|[] tr]; reflexivity| |destruct tr as [|[] tr]; reflexivity]. reflexivity.
  - destruct tr as [|[] tr]; reflexivity.
Qed.

Lemma opening_warns o db where_ : only_warns (opening o db where_).
Proof. unfold opening. destruct (op_no_sqlite o), db; try constructor. destruct (op_reset o); [constructor; [repeat eexists|constructor]|]. destruct (op_resume o); constructor; [repeat eexists|constructor]. Qed.

Lemma calls_asked o parsing n files db where_ tr : only_warns parsing ->
  flat_map (fun e => asked (snd e)) (calls v chatter why o parsing n files db where_ tr) = consoles tr.
Proof.
  intros PW. unfold calls. cbv zeta. rewrite flat_map_app, !asked_pairs, !flat_map_app, (asked_warns parsing PW), (asked_warns _ (opening_warns o db where_)), spoken_asked.
  destruct (op_no_local_functions o); reflexivity.
Qed.
Lemma calls_proper o parsing n files db where_ tr : forall x op, In (x, op) (calls v chatter why o parsing n files db where_ tr) ->
  proper v x /\ x_opts x = print_opts_of o.
Proof.
  intros x op I. unfold calls in I. cbv zeta in I. apply in_app_or in I as [I|I]; apply in_map_iff in I as [op' [E _]]; injection E as <- _; split.
  - exists (print_opts_of o). left. reflexivity.
  - reflexivity.
  - exists (print_opts_of o). right. reflexivity.
  - unfold run_context. destruct (_ && _); reflexivity.
Qed.

Lemma console_removals o parsing n files db where_ tr : only_warns parsing ->
  removal_lines (console v chatter why o parsing n files db where_ tr) = map (removal_line v (print_opts_of o)) (filter (shown (print_opts_of o)) (consoles tr)).
Proof.
  intros PW. rewrite <- (calls_asked o parsing n files db where_ tr PW). apply (C17_removal_lines v (print_opts_of o) wmap_empty). apply calls_proper.
Qed.

(** *** Blocks *)
Definition printed_by (m : wmap) (ops : list (context * print_op)) : list out := stdout (snd (do_ops v m ops)).
Definition after_ops (m : wmap) (ops : list (context * print_op)) : wmap := fst (do_ops v m ops).
Lemma printed_app a : forall m b, printed_by m (a ++ b) = printed_by m a ++ printed_by (after_ops m a) b.
Proof.
  intros m b. unfold printed_by, after_ops. destruct (do_ops v m a) as [m1 o1] eqn:E1. cbn [fst]. destruct (do_ops v m1 b) as [m2 o2] eqn:E2.
  rewrite (do_ops_app v a m b m1 o1 m2 o2 E1 E2). cbn [snd]. apply stdout_app.
Qed.
Lemma printed_cons x op ops m : printed_by m ((x, op) :: ops) = (match snd (fst (do_op v x m op)) with Some l => l | None => [] end) ++ printed_by (fst (fst (do_op v x m op))) ops.
Proof. unfold printed_by. cbn [do_ops]. destruct (do_op v x m op) as [[m1 l] r]. cbn [fst snd]. destruct (do_ops v m1 ops) as [m2 ls]. reflexivity. Qed.

Lemma println_line x m msg : proper v x -> po_quiet (x_opts x) = false -> printed_by m [(x, OpPrintln msg)] = [OLine AOther msg].
Proof. intros P Q. rewrite printed_cons. cbn [do_op of_out fst snd]. rewrite (println_proper v x AOther msg P), Q. reflexivity. Qed.
Lemma warn_lines x m w s t b : forall y, In y (printed_by m [(x, OpWarn w s t b)]) -> is_warning y.
Proof.
  intros y I. rewrite printed_cons in I. apply in_app_or in I as [I|[]]. cbn [do_op fst snd] in I. unfold warn_internal in I.
  destruct w; try destruct I; cbv zeta in I; (destruct (_ || _) in I; [destruct I|]; destruct (_ || _) in I; [destruct I|]; unfold println in I;
    destruct (x_printer x); [|destruct I as [<-|[]]; repeat eexists|destruct (x_progress x); [|destruct I]]); cbn in I; try (destruct I as [<-|[]]; repeat eexists); destruct I.
Qed.
Lemma removal_out x m r : forall y, In y (printed_by m [(x, OpRemoval r)]) -> exists t, y = OLine (ARemoval r) t.
Proof.
  intros y I. rewrite printed_cons in I. apply in_app_or in I as [I|[]]. cbn [do_op of_out fst snd] in I. unfold emit_to_console in I. destruct (_ && _) in I; [|destruct I].
  unfold println in I. destruct (x_printer x); [destruct I| |destruct (x_progress x); [|destruct I]]; (destruct I as [<-|[]]; eexists; reflexivity).
Qed.
Lemma removal_single x m r : printed_by m [(x, OpRemoval r)] = [] \/ exists t, printed_by m [(x, OpRemoval r)] = [OLine (ARemoval r) t].
Proof.
  rewrite printed_cons. cbn [do_op of_out fst snd]. rewrite app_nil_r. unfold emit_to_console. destruct (_ && _); [|left; reflexivity].
  unfold println. destruct (x_printer x); [left; reflexivity|right; eexists; reflexivity|destruct (x_progress x); [right; eexists; reflexivity|left; reflexivity]].
Qed.
Lemma printed_warns x l : only_warns l -> forall m y, In y (printed_by m (map (pair x) l)) -> is_warning y.
Proof.
  intros H. induction H as [|op l [w [s [t [b ->]]]] H IH]; intros m y I; [destruct I|]. cbn [map] in I.
  change ((x, OpWarn w s t b) :: map (pair x) l) with ([(x, OpWarn w s t b)] ++ map (pair x) l) in I. rewrite printed_app in I.
  apply in_app_or in I as [I|I]; [exact (warn_lines _ _ _ _ _ _ _ I)|exact (IH _ _ I)].
Qed.

(** A result line comes from a removal. *)
Lemma result_from x l : forall m pre r t post, (forall op, In op l -> (exists r, op = OpRemoval r) \/ (exists msg, op = OpPrintln msg) \/ exists w s t b, op = OpWarn w s t b) ->
  proper v x -> printed_by m (map (pair x) l) = pre ++ OLine (ARemoval r) t :: post ->
  exists a b, l = a ++ OpRemoval r :: b /\ printed_by m (map (pair x) a) = pre.
Proof.
  induction l as [|op l IH]; intros m pre r t post K PX E; [destruct pre; discriminate|]. cbn [map] in E.
  change ((x, op) :: map (pair x) l) with ([(x, op)] ++ map (pair x) l) in E. rewrite printed_app in E.
  assert (NEXT : forall h, printed_by m [(x, op)] = h -> (forall r' t', ~ In (OLine (ARemoval r') t') h) \/ h = [] -> exists a b, op :: l = a ++ OpRemoval r :: b /\ printed_by m (map (pair x) a) = pre).
  { intros h EH N. rewrite EH in E. assert (SP : exists pre', pre = h ++ pre' /\ printed_by (after_ops m [(x, op)]) (map (pair x) l) = pre' ++ OLine (ARemoval r) t :: post).
    { clear -E N. assert (N' : forall r' t', ~ In (OLine (ARemoval r') t') h) by (destruct N as [N| ->]; [exact N|intros r' t' []]). clear N. revert pre E N'.
      induction h as [|y h IHh]; intros pre E N; [exists pre; auto|]. destruct pre as [|z pre].
      - injection E as E1 _. destruct (N r t). left. exact E1.
      - injection E as -> E. destruct (IHh pre E) as [pre' [-> E']]; [intros r' t' I; apply (N r' t'); right; exact I|]. exists pre'. auto. }
    destruct SP as [pre' [-> E']]. destruct (IH _ _ _ _ _ (fun op' I => K op' (or_intror I)) PX E') as [a [b [-> EA]]].
    exists (op :: a), b. split; [reflexivity|]. cbn [map]. change ((x, op) :: map (pair x) a) with ([(x, op)] ++ map (pair x) a). rewrite printed_app, EH, EA. reflexivity. }
  destruct (K op (or_introl eq_refl)) as [[r' ->]|[[msg ->]|[w [s [t' [b ->]]]]]].
  - destruct (removal_single x m r') as [H|[t' H]]; [apply (NEXT [] H); right; reflexivity|]. rewrite H in E. destruct pre as [|z pre].
    + injection E as -> _. exists [], l. split; [reflexivity|reflexivity].
    + injection E as <- E. destruct (IH _ _ _ _ _ (fun op' I => K op' (or_intror I)) PX E) as [a [b [-> EA]]].
      exists (OpRemoval r' :: a), b. split; [reflexivity|]. cbn [map]. change ((x, OpRemoval r') :: map (pair x) a) with ([(x, OpRemoval r')] ++ map (pair x) a). rewrite printed_app, H, EA. reflexivity.
  - apply (NEXT _ eq_refl). left. intros r' t' I. rewrite printed_cons in I. apply in_app_or in I as [I|[]]. cbn [do_op of_out fst snd] in I. rewrite (println_proper v x AOther msg PX) in I.
    destruct (po_quiet (x_opts x)); [destruct I|]. destruct I as [I|[]]. discriminate.
  - apply (NEXT _ eq_refl). left. intros r' t'' I. apply warn_lines in I as [w' [t3 E']]. discriminate.
Qed.

(** Where [OpRemoval] stands among the calls of the run loop. *)
Lemma spoken_removal tr : forall a r b, spoken v chatter why tr = a ++ OpRemoval r :: b -> exists pre, moment (EConsole r :: pre) tr /\ a = spoken v chatter why pre.
Proof.
  induction tr as [|e tr IH]; intros a r b E; [destruct a; discriminate|]. cbn [spoken] in E.
  apply app_eq_app in E as [l [[E1 E2]|[E1 E2]]].
  - destruct l as [|op l].
    + cbn in E2. rewrite app_nil_r in E1. subst a. assert (X : e = EConsole r).
      { clear -E2 CH. assert (W : forall x, only_warns (chatter x) -> chatter x = OpRemoval r :: b -> False).
        { intros x H Q. rewrite Q in H. inversion H as [|? ? [w [s [t [b' H']]]] _]. discriminate. }
        destruct e as [p d|p d|s t d|s t ev d|x|x|w|m| | |p|p|p]; cbn in E2; try discriminate E2; try (exfalso; exact (W _ (CH _) (eq_sym E2))).
        - injection E2 as <-. reflexivity.
        - destruct w; [destruct tr as [|[] tr]| |destruct tr as [|[] tr]]; discriminate E2.
        - destruct tr as [|[] tr]; discriminate E2. }
      subst e. exists tr. split; [exists []; reflexivity|reflexivity].
    + injection E2 as <- _. destruct (IH a r l E1) as [pre [[later M] EA]]. exists pre. split; [exists (e :: later); rewrite M; reflexivity|exact EA].
  - subst a. assert (K : forall x y, says v chatter why e tr = x ++ OpRemoval r :: y -> x = [] /\ e = EConsole r).
    { clear -CH. intros x y Q. assert (W : forall z, only_warns z -> In (OpRemoval r) z -> False).
      { intros z H J. apply (proj1 (Forall_forall _ _) H) in J as [w [s [t [b' H']]]]. discriminate. }
      assert (J : In (OpRemoval r) (says v chatter why e tr)) by (rewrite Q; apply in_or_app; right; left; reflexivity).
      destruct e as [p d|p d|s t d|s t ev d|z|z|w|m| | |p|p|p]; cbn in J; try (destruct J; fail); try (exfalso; exact (W _ (CH _) J)).
      - destruct J as [J|J]; [discriminate J|exfalso; exact (W _ (CH _) J)].
      - destruct J as [J|[]]. injection J as ->. cbn in Q. destruct x as [|x0 x]; [auto|]. injection Q as _ Q. destruct x; discriminate Q.
      - destruct w; [destruct tr as [|[] tr]| |destruct tr as [|[] tr]]; cbn in J; repeat (match goal with H : _ \/ _ |- _ => destruct H | H : False |- _ => destruct H end); discriminate.
      - destruct J as [J|[]]. discriminate J.
      - destruct tr as [|[] tr]; cbn in J; repeat (match goal with H : _ \/ _ |- _ => destruct H | H : False |- _ => destruct H end); discriminate. }
    symmetry in E2. destruct (K _ _ (eq_sym E2)) as [-> ->]. exists tr. split; [exists []; reflexivity|]. rewrite app_nil_r. reflexivity.
Qed.

Definition quiet_or_of (p : path) (op : print_op) : Prop := (exists w s m b, op = OpWarn w s m b) \/ exists r, op = OpRemoval r /\ sp_path (rm_span r) = p.
Lemma says_quietly p e pre : ~ is_dry_run e -> (forall q d rest, pre <> EDryRun q d :: rest) -> (forall r, e = EConsole r -> sp_path (rm_span r) = p) ->
  Forall (quiet_or_of p) (says v chatter why e pre).
Proof.
  intros N HD C. assert (W : forall l, only_warns l -> Forall (quiet_or_of p) l) by (intros l H; eapply Forall_impl; [|exact H]; intros op X; left; exact X).
  assert (W1 : forall w s m b, Forall (quiet_or_of p) [OpWarn w s m b]) by (intros w s m b; constructor; [left; repeat eexists|constructor]).
  destruct e as [q d|q d|s t' d|s t' ev d|x|x|w|m| | |q|q|q]; cbn [says]; try (apply W, CH); try apply W1; try (constructor; fail).
  - destruct (N I).
  - constructor; [right; exists x; split; [reflexivity|apply C; reflexivity]|constructor].
  - destruct w; [|constructor|]; destruct pre as [|[] pre]; try apply W1; constructor.
  - destruct pre as [|[q d| | | | | | | | | | | | ] pre]; try (constructor; fail). destruct (HD q d pre eq_refl).
Qed.
Lemma later_spoken p tl later : (forall e, In e later -> ~ is_dry_run e) -> (forall r, In (EConsole r) later -> sp_path (rm_span r) = p) ->
  exists rest, spoken v chatter why (later ++ EPoll :: tl) = spoken v chatter why (EPoll :: tl) ++ rest /\ Forall (quiet_or_of p) rest.
Proof.
  induction later as [|e later IH]; intros N C; [exists []; split; [cbn; rewrite app_nil_r; reflexivity|constructor]|].
  destruct IH as [rest [E F]]; [intros x I; apply N; right; exact I|intros r I; apply C; right; exact I|].
  exists (rest ++ says v chatter why e (later ++ EPoll :: tl)). change ((e :: later) ++ EPoll :: tl) with (e :: (later ++ EPoll :: tl)).
  change (spoken v chatter why (e :: (later ++ EPoll :: tl))) with (spoken v chatter why (later ++ EPoll :: tl) ++ says v chatter why e (later ++ EPoll :: tl)).
  split; [rewrite E, <- app_assoc; reflexivity|]. apply Forall_app. split; [exact F|].
  assert (HD : forall q d rest', later ++ EPoll :: tl <> EDryRun q d :: rest').
  { intros q d rest' Q. destruct later as [|y later]; [discriminate Q|]. injection Q as -> _. apply (N (EDryRun q d)); [right; left; reflexivity|exact I]. }
  apply says_quietly; [apply N; left; reflexivity|exact HD|]. intros r ->. apply C. left. reflexivity.
Qed.
End Spoken.

Lemma dry_runs_none l : (forall e, In e l -> ~ is_dry_run e) -> forall r, dry_runs (l ++ r) = dry_runs r.
Proof. induction l as [|e l IH]; intros N r; [reflexivity|]. pose proof (N e (or_introl eq_refl)) as Ne. cbn [app]. destruct e; cbn [dry_runs]; try (apply IH; intros x I; apply N; right; exact I). destruct (Ne I). Qed.
Lemma tried_latest o pre p d : tried o pre p d -> hd_error (dry_runs pre) = Some p.
Proof. intros (later & before & -> & N & _). rewrite (dry_runs_none later N). reflexivity. Qed.

Section Prints.
Context {V : Type} (yaml : text -> option M_Skill.header) (semver : text -> option V) (vcmp : V -> V -> comparison)
        (vshow : V -> text) (pshow : path -> text) (builtin_skill : text) (builtin_version : V)
        (hash16 : text -> text) (default_toml : text).
Notation invoke := (necessist yaml semver vcmp vshow pshow builtin_skill builtin_version hash16 default_toml).

(** What is on the console after an invocation: [n] tests and the candidates [files] were found, [parsing] was printed while they were looked
    for, [chatter] is what the back end prints and [why] what its errors say, [where_] is how the path of the database is printed. *)
Context (chatter : trace -> list print_op) (why : trace -> text) (parsing : list print_op) (where_ : text).
Notation printed g o sel k n files := (console (g_env g) chatter why o parsing n files (k_db k) where_ (a_trace (invoke g o sel k))).
Hypothesis CH : forall tr, only_warns (chatter tr).
Hypothesis PW : only_warns parsing.

(** ** C82 *)
(** With a database: the lines of results are those of the rows added to the database, in that order, without the skipped ones and
    those that the options do not ask for. *)
Theorem C82_printed_is_recorded : forall g o sel k n files, parses_well g -> ~ given o no_sqlite -> a_trace (invoke g o sel k) <> [] ->
  exists new, rows_in (k_db (final k (invoke g o sel k))) = (if op_reset o then [] else rows_in (k_db k)) ++ map (to_row g) new /\
    removal_lines (printed g o sel k n files) =
    map (removal_line (g_env g) (print_opts_of o)) (filter (fun r => shown (print_opts_of o) r && negb (skipped r)) new).
Proof.
  intros g o sel k n files PWELL NS T. rewrite (console_removals _ _ _ CH) by exact PW.
  destruct (shape_of yaml semver vcmp vshow pshow builtin_skill builtin_version hash16 default_toml g o sel k) as [|NS' ND P|p AC CS|AC CS FS|AC DC CS FS|l r AC LK N|fs P R]; try (cbn in T; congruence).
  - destruct (M_Skill.check _ _ _ _ _ _ _ _ _ _ _ _) as [[[f out] w] r]. cbn in T. congruence.
  - destruct (M_Skill.find _ _ _ _ _ _ _ _ _ _ _) as [[f out] r]. cbn in T. congruence.
  - destruct (write_default_config _ _ _) as [st r]. cbn in T. congruence.
  - assert (PO : paths_ok fs). { destruct P as [_ [root [c0 [f0 [paths [n0 [_ [_ [_ [_ [_ [_ GP]]]]]]]]]]]]. exact (PWELL _ _ _ _ _ _ GP). }
    destruct (run_shape_of hash16 g o fs k (runs_no_dump o R)) as [r H|r _ DB' H|r rows _ DB' RS' H|NS' x|states past NS' ST R1 R2 R3 R4 R5 x]; cbn [a_trace] in *; try congruence.

    exists (inserts (w_trace (fst x))). unfold final. cbn [a_states]. rewrite last_last. cbn [with_db k_db rows_in].
      pose proof (C12_rows_stay hash16 (k_src k) (oracle_of g o) fs (k_src k) past PO) as W. fold x in W. rewrite W, skipn_app, skipn_all, Nat.sub_diag. cbn [app skipn].
      split; [reflexivity|]. f_equal. pose proof (reported_is_recorded hash16 (k_src k) (oracle_of g o) fs (k_src k) past) as E. cbv zeta in E. fold x in E. rewrite E.
      generalize (inserts (w_trace (fst x))). intros l. induction l as [|r l IH]; [reflexivity|]. assert (J : judged r = negb (skipped r)) by (unfold judged, skipped; destruct (rm_outcome r); reflexivity). cbn [filter]. rewrite J. destruct (skipped r); cbn [negb filter]; destruct (shown _ r); cbn [andb]; rewrite IH; reflexivity.
Qed.

(** Without one: each line is that of a candidate, with its text and the outcome its tests determined. *)
Theorem C82_printed_without_database : forall g o sel k n files, parses_well g -> prepared g o sel k files -> a_trace (invoke g o sel k) <> [] ->
  exists reported, removal_lines (printed g o sel k n files) = map (removal_line (g_env g) (print_opts_of o)) reported /\
    forall r, In r reported -> shown (print_opts_of o) r = true /\ rm_outcome r <> Skipped /\
      exists c, In c (all_cands files) /\ row_of (k_src k) (oracle_of g o) (a_trace (invoke g o sel k)) c r.
Proof.
  intros g o sel k n files PWELL P T. rewrite (console_removals _ _ _ CH) by exact PW. eexists. split; [reflexivity|]. intros r I. apply filter_In in I as [I SH]. split; [exact SH|].
  destruct (trace_is_run yaml semver vcmp vshow pshow builtin_skill builtin_version hash16 default_toml g o sel k T) as [fs [db [P' [RT E]]]].
  assert (fs = files) as ->.
  { destruct P as (_ & root & c & f & paths & n1 & G1 & G2 & G3 & G4 & G5 & G6 & G7). destruct P' as (_ & root' & c' & f' & paths' & n2 & K1 & K2 & K3 & K4 & K5 & K6 & K7).
    rewrite G1 in K1. injection K1 as <-. rewrite G4 in K4. injection K4 as <-. apply C24_accepted_iff in G6, K6. rewrite G6 in K6. injection K6 as <-.
    assert (c = c') as <- by (destruct G3 as [_ G3], K3 as [_ K3]; destruct (k_config k); [destruct G3, K3; congruence|congruence]). rewrite G7 in K7. injection K7 as _ ->. reflexivity. }
  assert (PO : paths_ok files). { destruct P as [_ [root [c0 [f0 [paths [n0 [_ [_ [_ [_ [_ [_ GP]]]]]]]]]]]]. exact (PWELL _ _ _ _ _ _ GP). }
  rewrite E in *. unfold consoles in I. apply in_flat_map in I as [e [I J]]. apply in_rev in I. destruct e as [? ?|? ?|? ? ?|? ? ? ?|r0|r0|?|?| | |?|?|?]; try contradiction. destruct J as [J|[]]. subst r0.
  split; [|apply (C13_outcome_justified hash16 (k_src k) (oracle_of g o) files (k_src k) db PO r); left; exact I].
  apply in_split in I as [later [pre EE]]. assert (M : moment (EConsole r :: pre) (w_trace (fst (run_from hash16 (k_src k) (oracle_of g o) files (k_src k) db)))) by (exists later; exact EE).
  destruct (good_event hash16 (k_src k) (oracle_of g o) files (k_src k) db PO _ _ M) as [_ G]. cbn in G. tauto.
Qed.

(** Each result is printed in the block of its file: after the line that the file is dry run, warnings at most, the line that it is mutilated, and then
    nothing but warnings and results of that file. *)
Theorem C82_blocks : forall g o sel k n files pre r t post, parses_well g ->
  printed g o sel k n files = pre ++ OLine (ARemoval r) t :: post ->
  let p := sp_path (rm_span r) in
  exists before warnings between,
    pre = before ++ OLine AOther (console_path (g_env g) p ++ s2t ": dry running") :: warnings
                 ++ OLine AOther (console_path (g_env g) p ++ s2t ": mutilating") :: between /\
    Forall is_warning warnings /\ Forall (fun x => is_warning x \/ is_result p x) between.
Proof.
  intros g o sel k n files pre r t post PWELL E p. set (v := g_env g) in *. set (po := print_opts_of o).
  assert (Q : po_quiet po = false).
  { destruct (po_quiet po) eqn:Q; [|reflexivity]. exfalso. unfold console in E. change (stdout (snd (do_ops v wmap_empty (calls v chatter why o parsing n files (k_db k) where_ (a_trace (invoke g o sel k))))) = pre ++ OLine (ARemoval r) t :: post) in E.
    rewrite C22_quiet in E; [destruct pre; discriminate|]. intros x op I. destruct (calls_proper v chatter why _ _ _ _ _ _ _ x op I) as [A1 A2]. split; [exact A1|]. rewrite A2. exact Q. }
  set (tr := a_trace (invoke g o sel k)) in *.
  change (printed_by v wmap_empty (calls v chatter why o parsing n files (k_db k) where_ tr) = pre ++ OLine (ARemoval r) t :: post) in E.
  unfold calls in E. cbv zeta in E. fold po in E. rewrite printed_app in E.
  set (lead := printed_by v wmap_empty _) in E. set (m1 := after_ops v wmap_empty _) in E.
  assert (LN : forall r' t', ~ In (OLine (ARemoval r') t') lead).
  { intros r' t' I. unfold lead in I. rewrite map_app, printed_app in I. apply in_app_or in I as [I|I].
    - destruct (op_no_local_functions o); [|destruct I]. apply (printed_warns v _ _ ltac:(constructor; [repeat eexists|constructor])) in I as [w' [t3 X]]. discriminate.
    - rewrite map_app, printed_app in I. apply in_app_or in I as [I|I]; [apply (printed_warns v _ _ PW) in I as [w' [t3 X]]; discriminate|].
      cbn [map] in I. rewrite println_line in I; [destruct I as [I|[]]; discriminate|exists po; left; reflexivity|exact Q]. }
  assert (SP : exists pre', pre = lead ++ pre' /\ printed_by v m1 (map (pair (run_context v po)) (opening o (k_db k) where_ ++ spoken v chatter why tr)) = pre' ++ OLine (ARemoval r) t :: post).
  { clearbody lead m1. clear -E LN. revert pre E. induction lead as [|y h IHh]; intros pre E; [exists pre; auto|]. destruct pre as [|z pre].
    - injection E as E1 _. destruct (LN r t). left. exact E1.
    - injection E as -> E. destruct (IHh ltac:(intros r' t' I; apply (LN r' t'); right; exact I) pre E) as [pre' [-> E']]. exists pre'. auto. }
  clear E. destruct SP as [pre' [-> E]]. assert (PX : proper v (run_context v po)) by (exists po; right; reflexivity).
  assert (XO : po_quiet (x_opts (run_context v po)) = false) by (unfold run_context; destruct (_ && _); exact Q).
  set (x := run_context v po) in *.
  assert (KN : forall op, In op (opening o (k_db k) where_ ++ spoken v chatter why tr) -> (exists r0, op = OpRemoval r0) \/ (exists msg, op = OpPrintln msg) \/ exists w s t b, op = OpWarn w s t b).
  { intros op I. apply in_app_or in I as [I|I].
    - right. right. exact (proj1 (Forall_forall _ _) (opening_warns o (k_db k) where_) op I).
    - clear -I CH. induction tr as [|e tr IH]; [destruct I|]. cbn [spoken] in I. apply in_app_or in I as [I|I]; [exact (IH I)|].
      assert (W : forall z, In op (chatter z) -> (exists r0, op = OpRemoval r0) \/ (exists msg, op = OpPrintln msg) \/ exists w s t b, op = OpWarn w s t b) by (intros z J; right; right; exact (proj1 (Forall_forall _ _) (CH z) op J)).
      destruct e as [q d|q d|s t' d|s t' ev d|y|y|w|m| | |q|q|q]; cbn [says] in I; try (destruct I; fail); try (exact (W _ I)).
      + destruct I as [<-|I]; [right; left; eexists; reflexivity|exact (W _ I)].
      + destruct I as [<-|[]]. left. eexists. reflexivity.
      + destruct w; [|destruct I|]; destruct tr as [|[] tr']; cbn in I; try (destruct I; fail); destruct I as [<-|[]]; right; right; repeat eexists.
      + destruct I as [<-|[]]. right. right. repeat eexists.
      + destruct tr as [|[] tr']; cbn in I; try (destruct I; fail). destruct I as [<-|[]]. right. left. eexists. reflexivity. }
  destruct (result_from v x _ m1 pre' r t post KN PX E) as [a [b [EO EP]]].
  assert (SO : exists a', a = opening o (k_db k) where_ ++ a' /\ spoken v chatter why tr = a' ++ OpRemoval r :: b).
  { pose proof (opening_warns o (k_db k) where_) as OW. clear -EO OW. revert a EO. induction OW as [|op l [w [s0 [t0 [b0 ->]]]] OW IH]; intros a EO; [exists a; auto|]. destruct a as [|op' a]; [discriminate EO|].
    injection EO as <- EO. destruct (IH a EO) as [a' [-> E']]. exists a'. auto. }
  destruct SO as [a' [-> ES]]. clear EO. destruct (spoken_removal v chatter why CH tr a' r b ES) as [pre0 [M EA]].
  assert (T : tr <> []) by (destruct M as [l M]; rewrite M; destruct l; discriminate).
  destruct (trace_is_run yaml semver vcmp vshow pshow builtin_skill builtin_version hash16 default_toml g o sel k T) as [fs [db [P' [RT ET]]]].
  assert (PO : paths_ok fs). { destruct P' as [_ [root [c0 [f0 [paths [n0 [_ [_ [_ [_ [_ [_ GP]]]]]]]]]]]]. exact (PWELL _ _ _ _ _ _ GP). }
  fold tr in ET. pose proof (C81_tried_first hash16 (k_src k) (oracle_of g o) fs (k_src k) db PO) as TF. cbv zeta in TF. rewrite <- ET in TF.
  destruct (TF _ _ p M eq_refl) as [d [TR _]]. pose proof (tried_latest _ _ _ _ TR) as LT. destruct TR as (later & before & EP0 & ND & _).
  destruct (later_spoken v chatter why CH p (EDryRun p d :: before) later ND) as [rest [ER FR]].
  { intros r' I. apply in_split in I as [l1 [l2 EL]]. assert (M' : moment (EConsole r' :: l2 ++ EPoll :: EDryRun p d :: before) tr).
    { destruct M as [l0 M]. exists (l0 ++ EConsole r :: l1). rewrite M, EP0, EL, <- !app_assoc. cbn. rewrite <- ?app_assoc. reflexivity. }
    destruct (TF _ _ (sp_path (rm_span r')) M' eq_refl) as [d' [TR' _]]. apply tried_latest in TR'. rewrite dry_runs_none in TR'; [cbn in TR'; congruence|].
    intros e0 I0. apply ND. rewrite EL. apply in_or_app. right. right. exact I0. }
  rewrite <- EP0 in ER. rewrite <- EA in ER. cbn [spoken says] in ER. rewrite <- !app_assoc in ER. cbn [app] in ER. rewrite ER in EP.
  rewrite !map_app, printed_app in EP. set (open_ := printed_by v m1 _) in EP. set (m2 := after_ops v m1 _) in EP. rewrite printed_app in EP. set (earlier := printed_by v m2 _) in EP. set (m3 := after_ops v m2 _) in EP.
  cbn [map] in EP.
  match type of EP with _ ++ _ ++ printed_by _ _ (?h :: ?tl) = _ => change (h :: tl) with ([h] ++ tl) in EP end. rewrite printed_app, (println_line v x _ _ PX XO) in EP. set (m4 := after_ops v m3 _) in EP.
  rewrite map_app, printed_app in EP. set (warnings := printed_by v m4 _) in EP. set (m5 := after_ops v m4 _) in EP. cbn [map] in EP.
  match type of EP with context [printed_by _ m5 (?h :: ?tl)] => change (h :: tl) with ([h] ++ tl) in EP end. rewrite printed_app, (println_line v x _ _ PX XO) in EP. set (m6 := after_ops v m5 _) in EP.
  exists (lead ++ open_ ++ earlier), warnings, (printed_by v m6 (map (pair x) rest)). split; [rewrite <- EP, <- !app_assoc; reflexivity|]. split.
  - apply Forall_forall. intros y I. exact (printed_warns v x _ (CH _) _ _ I).
  - clearbody m6. clear -FR. revert m6. induction FR as [|op l QO FR IH]; intros m6; [constructor|]. cbn [map]. change ((x, op) :: map (pair x) l) with ([(x, op)] ++ map (pair x) l). rewrite printed_app. apply Forall_app. split; [|apply IH].
    apply Forall_forall. intros y I. destruct QO as [[w [s0 [m0 [b0 ->]]]]|[r' [-> RP]]]; [left; exact (warn_lines v _ _ _ _ _ _ _ I)|right]. apply removal_out in I as [t' ->]. exists r', t'. auto.
Qed.

(** The warning that the project has changed since the database was made appears at most once. *)
Theorem C82_changed_once : forall g o sel k n files,
  (forall tr w s m b, In (OpWarn w s m b) (parsing ++ chatter tr) -> w <> WFilesChanged) ->
  length (warning_lines WFilesChanged (printed g o sel k n files)) <= 1.
Proof.
  intros g o sel k n files H. apply (C21_once_at_most_once (g_env g) (calls (g_env g) chatter why o parsing n files (k_db k) where_ (a_trace (invoke g o sel k)))); [discriminate| |].
  - intros x op I. exact (proj1 (calls_proper _ _ _ _ _ _ _ _ _ _ x op I)).
  - intros x s t b I. unfold calls in I. cbv zeta in I. apply in_app_or in I as [I|I]; apply in_map_iff in I as [op [E I]]; injection E as _ ->.
    + apply in_app_or in I as [I|I]; [destruct (op_no_local_functions o); [destruct I as [I|[]]; discriminate|destruct I]|]. apply in_app_or in I as [I|I].
      * destruct (H [] WFilesChanged s t b); [apply in_or_app; left; exact I|reflexivity].
      * destruct I as [I|[]]. discriminate.
    + apply in_app_or in I as [I|I].
      * unfold opening in I. destruct (op_no_sqlite o), (k_db k); try destruct I. destruct (op_reset o); [destruct I as [I|[]]; discriminate|]. destruct (op_resume o); [destruct I as [I|[]]; discriminate|destruct I].
      * induction (a_trace (invoke g o sel k)) as [|e tr IH]; [destruct I|]. cbn [spoken] in I. apply in_app_or in I as [I|I]; [exact (IH I)|].
        assert (W : forall z, In (OpWarn WFilesChanged s t b) (chatter z) -> b = true) by (intros z J; destruct (H z WFilesChanged s t b); [apply in_or_app; right; exact J|reflexivity]).
        destruct e as [q d|q d|s' t' d|s' t' ev d|y|y|w|m| | |q|q|q]; cbn [says] in I; try (destruct I; fail); try (exact (W _ I)).
        -- destruct I as [I|I]; [discriminate I|exact (W _ I)].
        -- destruct I as [I|[]]; discriminate.
        -- destruct w; [|destruct I|]; destruct tr as [|[] tr']; cbn in I; try (destruct I; fail); destruct I as [I|[]]; discriminate I.
        -- destruct I as [I|[]]. injection I as _ _ <-. reflexivity.
        -- destruct tr as [|[] tr']; cbn in I; try (destruct I; fail). destruct I as [I|[]]. discriminate I.
Qed.

(** With --quiet, nothing is printed. *)
Theorem C82_quiet : forall g o sel k n files, given o quiet -> printed g o sel k n files = [].
Proof.
  intros g o sel k n files Q. apply (C22_quiet (g_env g) wmap_empty). intros x op I. destruct (calls_proper _ _ _ _ _ _ _ _ _ _ x op I) as [A1 A2]. split; [exact A1|]. rewrite A2. exact Q.
Qed.
End Prints.
Print Assumptions C82_printed_is_recorded.
Print Assumptions C82_printed_without_database.
Print Assumptions C82_blocks.
Print Assumptions C82_changed_once.
Print Assumptions C82_quiet.

(** Non-vacuity: the whole console of a run, and the rows it leaves: of two candidates, each in two tests, one passed and is printed. *)
Definition ex_printed (o : options) : list out :=
  console (g_env (ex_setting ex_files ex_o)) (fun _ => []) (fun _ => []) o [] 2 ex_files (k_db ex_start) [] (a_trace (ex_invoke (ex_setting ex_files ex_o) o ex_start)).
Example C82_nonvacuous :
  (forall tr : trace, only_warns ((fun _ : trace => []) tr)) /\ parses_well (ex_setting ex_files ex_o) /\ ~ given plain no_sqlite /\
  map (fun x => match x with OLine _ t => t | _ => [] end) (ex_printed plain) =
    [s2t "4 candidates in 2 tests in 1 source file"; s2t "t.rs: dry running"; s2t "t.rs: mutilating"; s2t "t.rs:1:7-1:11: `b();` passed"] /\
  length (removal_lines (ex_printed plain)) = 1 /\
  outcomes (final ex_start (ex_invoke (ex_setting ex_files ex_o) plain ex_start)) = [s2t "failed"; s2t "passed"].
Proof.
  split; [intros; constructor|]. split. { intros f c ps src n files E. cbn in E. injection E as <- <-. exact ex_paths_ok. }
  split; [unfold given; cbn; discriminate|]. repeat (split; [vm_compute; reflexivity|]). vm_compute. reflexivity.
Qed.
