(** C62: working through a project in several invocations.  C09 (the run loop with earlier rows), C55 (rows read back) and C57
    (invocations) together. *)
From Verif Require Import Base M_Text S_Text L_Text M_Rewriter M_Span S_Span L_Span P_Text M_Instr S_Instr P_Instr M_Run S_Run L_Run L_RunFinal L_Resume L_History L_Unique P_Run
  M_Output S_Output M_Sqlite P_Sqlite M_Options P_Options M_Config M_Main P_Main.
From Verif Require M_Skill P_Skill.

Section Resume.
Context {V : Type} (yaml : text -> option M_Skill.header) (semver : text -> option V) (vcmp : V -> V -> comparison)
        (vshow : V -> text) (pshow : path -> text) (builtin_skill : text) (builtin_version : V)
        (hash16 : text -> text) (default_toml : text).
Notation invoke := (necessist yaml semver vcmp vshow pshow builtin_skill builtin_version hash16 default_toml).
Notation exit g o sel k := (exit_code (invoke g o sel k)).

(** ** Specification *)
(** The database after the events [tr] of an invocation's run: every row is committed when it is inserted
    (core/src/sqlite.rs:155-179, diesel without a transaction around it). *)
Definition db_during (g : setting) (o : options) (k : disk) (tr : trace) : db_file :=
  if op_no_sqlite o then k_db k
  else Some (Some ((if op_reset o then [] else rows_in (k_db k)) ++ map (to_row g) (inserts tr))).
(** The databases an invocation can leave behind: it comes to its end, or it is killed while it prepares the run, or while it
    runs tests. *)
Inductive leaves (g : setting) (o : options) (sel : option framework) (k : disk) : db_file -> Prop :=
| lv_end : leaves g o sel k (k_db (final k (invoke g o sel k)))
| lv_early : leaves g o sel k (k_db k)
| lv_prepare s : In s (a_states (invoke g o sel k)) -> leaves g o sel k (k_db s)
| lv_run tr : a_trace (invoke g o sel k) <> [] -> moment tr (a_trace (invoke g o sel k)) -> leaves g o sel k (db_during g o k tr).

Section Project.
Context (src : path -> text) (files : list (path * span_test_maps)) (b : behaviour).
(** Circumstances of an invocation: the sources are [src], in which the back end, if asked, finds [files]; dry runs, builds and tests behave
    as [b] says, as far as they come to an end; the files of candidates exist.  Anything goes for the options, and for
    errors, panics, signals and failures of disk and database. *)
Definition usual (g : setting) (o : options) (sel : option framework) (k : disk) : Prop :=
  k_src k = src /\ (forall fl, prepared g o sel k fl -> fl = files) /\ follows b (g_oracle g) /\
  forall c, In c (all_cands files) -> g_file_exists g (sp_path (c_span c)) = true.
(** The databases that any number of such invocations can produce, starting without one. *)
Inductive reachable : db_file -> Prop :=
| re_none : reachable None
| re_next g o sel k d : reachable (k_db k) -> usual g o sel k -> leaves g o sel k d -> reachable d.
(** Candidates whose names can be read back (C02). *)
Definition nameable : Prop := forall c, In c (all_cands files) -> usize_span (c_span c) /\ ~ In 58%N (join_path (sp_path (c_span c))).

Hypothesis PR : project files.
Hypothesis NA : nameable.
Notation hist := (history hash16 src files src b).

(** ** Lemmas *)
Lemma oracle_follows g o : follows b (g_oracle g) -> follows b (oracle_of g o).
Proof. intros F. exact F. Qed.

Lemma row_for_to_row g x : row_for x (to_row g x).
Proof. unfold row_for, to_row. cbn. split; [reflexivity|]. split; [reflexivity|]. apply C19_names. Qed.
Lemma rows_for_to_row g l : Forall2 row_for l (map (to_row g) l).
Proof. induction l as [|x l IH]; cbn; constructor; [apply row_for_to_row|exact IH]. Qed.

Lemma row_reads ex x r : row_for x r -> wf_span (rm_span x) -> usize_span (rm_span x) -> ex (sp_path (rm_span x)) = true ->
  ~ In 58%N (join_path (sp_path (rm_span x))) -> into_internal ex r = Ok x.
Proof.
  intros [R1 [R2 R3]] W U E C. unfold into_internal. rewrite R1, R2, R3, (parse_display ex _ W U E C).
  rewrite <- (proj1 (C19_names (rm_outcome x))), C19_round_trip. destruct x; reflexivity.
Qed.
Lemma rows_read g o sel k rs rows : usual g o sel k -> hist rs -> Forall2 row_for rs rows -> into_internals (g_file_exists g) rows = Ok rs.
Proof.
  intros [_ [_ [_ EX]]] H F. pose proof (hist_rows hash16 src files src b PR rs H) as HR. clear H.
  induction F as [|x r rs rows E F IH]; [reflexivity|]. cbn.
  destruct (HR x (or_introl eq_refl)) as [c [Hc [S1 _]]]. destruct (NA c Hc) as [U C]. destruct (proj2 (proj2 PR) c Hc) as [W _].
  rewrite (row_reads (g_file_exists g) x r E) by (rewrite S1; auto). cbn.
  rewrite IH; [reflexivity|]. intros y I. apply HR. right. exact I.
Qed.

(** What a database stands for. *)
Definition stands_for (d : db_file) : Prop := forall rows, d = Some (Some rows) -> exists rs, hist rs /\ Forall2 row_for rs rows.
(** The earlier rows that a run starts from. *)
Definition earlier (o : options) (k : disk) (past : list removal) : Prop :=
  hist past /\ Forall2 row_for past (if op_reset o then [] else rows_in (k_db k)).

Lemma main_cases g o sel k : usual g o sel k -> stands_for (k_db k) -> op_dump o = false ->
  let a := main_run hash16 g o files k in
  (a_trace a = [] /\ a_end a <> Ok true /\ forall s, In s (a_states a) -> k_db s = k_db k \/ k_db s = Some None) \/
  (op_no_sqlite o = true /\ forall s, In s (a_states a) -> k_db s = k_db k) \/
  (op_no_sqlite o = false /\ exists past, earlier o k past /\
    let x := run_from hash16 src (oracle_of g o) files src (Some past) in
    a_trace a = w_trace (fst x) /\ (a_end a = Ok true <-> snd x = Ok tt) /\
    (forall s, In s (a_states a) -> stands_for (k_db s)) /\
    k_db (final k a) = db_during g o k (w_trace (fst x))).
Proof.
  intros US ST DU. cbv zeta. pose proof US as [SRC [_ [FO EX]]].
  unfold main_run. destruct (g_handler g); cbn [negb]; [|left; split; [reflexivity|]; split; [discriminate|intros s []]].
  destruct (op_no_sqlite o) eqn:NS.
  { right; left. split; [reflexivity|]. destruct (run_from _ _ _ _ _ _) as [w r]. intros s [<-|[]]. reflexivity. }
  unfold open_db. rewrite DU.
  pose proof (init_cases (g_sql g) (g_file_exists g) (denied o WDatabaseDoesNotExist) false (op_reset o) (op_resume o) (k_db k)) as C.
  cbv zeta in C. destruct (init _ _ _ _ _ _ _) as [states r]. cbn [fst snd] in C.
  assert (FRESH : op_reset o = true \/ k_db k = None -> states = [k_db k; Some None; Some (Some [])] -> r = Ok [] -> 
    (false = false /\ exists past, earlier o k past /\
      let x := run_from hash16 src (oracle_of g o) files src (Some past) in
      let a := (let '(states, r) := (map (fun d => with_db d k) (tl states), match r with Ok rs => Ok rs | Err _ => Err tt | Panic => Panic end) in
        match r with
        | Err e => Answer states [] (Some []) (Err e)
        | Panic => Answer states [] (Some []) Panic
        | Ok past => let k := last_disk states k in
          let '(w, r) := run_from hash16 (k_src k) (oracle_of g o) files (k_src k) (Some past) in
          let old := match k_db k with Some (Some rows) => rows | _ => [] end in
          let new := match w_db w with Some rows => map (to_row g) (skipn (length past) rows) | None => [] end in
          Answer (states ++ [with_db (Some (Some (old ++ new))) (with_src (w_fs w) k)]) (w_trace w) (Some [])
             (match r with Ok _ => Ok true | Err _ => Err tt | Panic => Panic end)
        end) in
      a_trace a = w_trace (fst x) /\ (a_end a = Ok true <-> snd x = Ok tt) /\
      (forall s, In s (a_states a) -> stands_for (k_db s)) /\
      k_db (final k a) = db_during g o k (w_trace (fst x)))).
  { intros RN -> ->. split; [reflexivity|]. exists []. split.
    { split; [apply h_new|]. destruct RN as [-> | ->]; [constructor|]. destruct (op_reset o); constructor. }
    cbv zeta. cbn [tl map last_disk last length skipn app]. change (k_src (with_db (Some (Some [])) k)) with (k_src k). rewrite SRC.
    change (k_db (with_db (Some (Some [])) k)) with (Some (Some (@nil row))). cbn [app].
    destruct (run_from hash16 src (oracle_of g o) files src (Some [])) as [w r'] eqn:E. cbn [fst snd a_trace a_end].
    pose proof (C12_rows_stay hash16 src (oracle_of g o) files src [] (proj1 PR)) as W. cbv zeta in W. rewrite E in W. cbn [fst app] in W.
    rewrite W. split; [reflexivity|]. split; [destruct r' as [[]|?|]; split; intros; congruence|].
    assert (DBD : db_during g o k (w_trace w) = Some (Some (map (to_row g) (inserts (w_trace w))))).
    { unfold db_during. rewrite NS. destruct RN as [-> | ->]; [reflexivity|]. destruct (op_reset o); reflexivity. }
    split.
    - cbn [a_states]. intros s [<-|[<-|[<-|[]]]]; cbn [with_db with_src k_db].
      + intros rows H. discriminate H.
      + intros rows H. injection H as <-. exists []. split; [apply h_new|constructor].
      + intros rows H. injection H as <-. exists (inserts (w_trace w)). split; [|apply rows_for_to_row].
        change (inserts (w_trace w)) with ([] ++ inserts (w_trace w)). apply (h_run _ _ _ _ _ [] (oracle_of g o)); [apply h_new|exact (oracle_follows g o FO)|].
        rewrite E. apply moment_refl.
    - unfold final. cbn [a_states last]. cbn [with_db with_src k_db]. symmetry. exact DBD. }
  destruct C as [[E1 [[e E2]|[[X|RE] [RS [rows [DB E2]]]]]]|[[rows [DB [RS [[E1 [e E2]]|[E1 E2]]]]]|[DB [_ [DN [[E1 [e E2]]|[E1 E2]]]]]]]; try discriminate.
  - subst states r. left. cbn. split; [reflexivity|]. split; [discriminate|intros s []].
  - destruct (ST rows DB) as [rs [HI FR]]. rewrite (rows_read g o sel k rs rows US HI FR) in E2. subst states r.
    right; right. split; [reflexivity|]. exists rs. split; [split; [exact HI|]; rewrite RS, DB; exact FR|].
    cbv zeta. cbn [tl map last_disk last app]. rewrite SRC, DB.
    destruct (run_from hash16 src (oracle_of g o) files src (Some rs)) as [w r'] eqn:E. cbn [fst snd a_trace a_end].
    pose proof (C12_rows_stay hash16 src (oracle_of g o) files src rs (proj1 PR)) as W. cbv zeta in W. rewrite E in W. cbn [fst] in W.
    rewrite W, skipn_app, skipn_all, Nat.sub_diag. cbn [app skipn].
    split; [reflexivity|]. split; [destruct r' as [[]|?|]; split; intros; congruence|]. split.
    + cbn [a_states]. intros s [<-|[]]; cbn [with_db with_src k_db]. intros rows' H. injection H as <-.
      exists (rs ++ inserts (w_trace w)). split; [|apply Forall2_app; [exact FR|apply rows_for_to_row]].
      apply (h_run _ _ _ _ _ rs (oracle_of g o)); [exact HI|exact (oracle_follows g o FO)|]. rewrite E. apply moment_refl.
    + unfold final, db_during. cbn [a_states last]. rewrite NS, RS, DB. reflexivity.
  - subst states r. left. cbn. split; [reflexivity|]. split; [discriminate|]. intros s [<-|[]]. right. reflexivity.
  - right; right. apply FRESH; auto.
  - subst states r. left. cbn. split; [reflexivity|]. split; [discriminate|]. intros s [<-|[]]. right. reflexivity.
  - right; right. apply FRESH; auto.
Qed.

Lemma final_or k a : k_db (final k a) = k_db k \/ In (final k a) (a_states a).
Proof.
  unfold final. destruct (a_states a) as [|s l] eqn:E; [left; reflexivity|]. right.
  destruct (exists_last (l := s :: l)) as [l' [y E']]; [discriminate|]. rewrite E'. rewrite last_last. apply in_or_app. right. left. reflexivity.
Qed.

Lemma invoke_cases g o sel k : usual g o sel k ->
  (a_trace (invoke g o sel k) = [] /\ (runs_tests o -> a_end (invoke g o sel k) <> Ok true) /\
   forall s, In s (a_states (invoke g o sel k)) -> k_db s = k_db k) \/
  (runs_tests o /\ prepared g o sel k files /\ invoke g o sel k = main_run hash16 g o files k).
Proof.
  intros US.
  destruct (shape_of yaml semver vcmp vshow pshow builtin_skill builtin_version hash16 default_toml g o sel k) as [|NS ND P|p AC CS|AC CS FS|AC DC CS FS|l r AC LK N|fl P R].
  - left. cbn. split; [reflexivity|]. split; [discriminate|intros s []].
  - left. cbn. split; [reflexivity|]. split; [discriminate|intros s []].
  - left. destruct (M_Skill.check _ _ _ _ _ _ _ _ _ _ _ _) as [[[f out] w] r]. cbn [a_trace a_end a_states]. split; [reflexivity|].
    split; [intros [_ [X _]]; destruct X; left; unfold given; congruence|]. intros s [<-|[]]. reflexivity.
  - left. destruct (M_Skill.find _ _ _ _ _ _ _ _ _ _ _) as [[f out] r]. cbn [a_trace a_end a_states]. split; [reflexivity|].
    split; [intros [_ [X _]]; destruct X; right; exact FS|]. intros s [<-|[]]. reflexivity.
  - left. destruct (write_default_config _ _ _) as [st r] eqn:E. cbn [a_trace a_end a_states]. split; [reflexivity|].
    split; [intros [_ [_ X]]; destruct X; exact DC|]. intros s I.
    destruct (write_default_spec yaml semver vcmp vshow builtin_skill builtin_version hash16 default_toml g k) as [[c [E' C]]|[E'|[E' C]]]; rewrite E in E'; injection E' as -> _; [destruct I as [<-|[]]; reflexivity|destruct I|destruct I as [<-|[]]; reflexivity].
  - left. cbn [a_trace a_end a_states]. split; [reflexivity|]. split; [intros [X _]; contradiction|intros s []].
  - right. split; [exact R|]. destruct US as [_ [PF _]]. assert (EF : fl = files) by (apply PF, P). subst fl. split; [exact P|reflexivity].
Qed.

Lemma reachable_stands d : reachable d -> stands_for d.
Proof.
  induction 1 as [|g o sel k d RD IH US LV]; [intros rows H; discriminate H|].
  assert (ALL : (forall s, In s (a_states (invoke g o sel k)) -> stands_for (k_db s)) /\
    (a_trace (invoke g o sel k) <> [] -> forall tr, moment tr (a_trace (invoke g o sel k)) -> stands_for (db_during g o k tr))).
  { destruct (invoke_cases g o sel k US) as [[T [_ S]]|[RT [P E]]].
    { split; [intros s I; rewrite (S s I); exact IH|]. congruence. }
    rewrite E. destruct (main_cases g o sel k US IH (runs_no_dump o RT)) as [[T [_ S]]|[[NS S]|[NS [past [[HI FR] [T [_ [S D]]]]]]]].
    - split; [|congruence]. intros s I. destruct (S s I) as [-> | ->]; [exact IH|]. intros rows H. discriminate H.
    - split; [intros s I; rewrite (S s I); exact IH|]. intros _ tr _. unfold db_during. rewrite NS. exact IH.
    - split; [exact S|]. intros _ tr M. rewrite T in M. unfold db_during. rewrite NS. intros rows H. injection H as <-.
      exists (past ++ inserts tr). split; [|apply Forall2_app; [exact FR|apply rows_for_to_row]].
      apply (h_run _ _ _ _ _ past (oracle_of g o)); [exact HI|apply oracle_follows, US|exact M]. }
  destruct ALL as [A1 A2]. destruct LV as [| |s I|tr T M].
  - destruct (final_or k (invoke g o sel k)) as [-> |I]; [exact IH|apply A1, I].
  - exact IH.
  - apply A1, I.
  - apply A2; assumption.
Qed.

Lemma forall2_in_l {A B} (R : A -> B -> Prop) l l' : Forall2 R l l' -> forall x, In x l -> exists y, In y l' /\ R x y.
Proof. induction 1 as [|x y l l' H F IH]; intros z []; [subst; exists y; split; [left; reflexivity|exact H]|]. destruct (IH z H0) as (w & I & W). exists w. split; [right; exact I|exact W]. Qed.
Lemma forall2_in_r {A B} (R : A -> B -> Prop) l l' : Forall2 R l l' -> forall y, In y l' -> exists x, In x l /\ R x y.
Proof.
  induction 1 as [|x y l l' H F IH]; intros z I; [destruct I|]. destruct I as [<-|I]; [exists x; split; [left; reflexivity|exact H]|].
  destruct (IH z I) as [u [U1 U2]]. exists u. split; [right; exact U1|exact U2].
Qed.

(** ** C62 *)
(** However the project was worked on so far, the rows recorded are rows of candidates, with their text and the outcome that
    their tests have. *)
Theorem C62_rows_right : forall rows, reachable (Some (Some rows)) ->
  forall r, In r rows -> exists c x, In c (all_cands files) /\ is_row src b c x /\ row_for x r.
Proof.
  intros rows RD r I. destruct (reachable_stands _ RD rows eq_refl) as [rs [H F]].
  destruct (forall2_in_r _ _ _ F r I) as [x [I' R]]. destruct (hist_rows hash16 src files src b PR rs H x I') as [c [Hc IR]]. eauto.
Qed.

Lemma spans_of_rows rs rows : Forall2 row_for rs rows -> map r_span rows = map (fun x => display_span (rm_span x)) rs.
Proof. induction 1 as [|x r rs rows [R1 _] F IH]; cbn; [reflexivity|]. now rewrite R1, IH. Qed.

Lemma hist_keys rs : hist rs -> NoDup (keys rs).
Proof.
  induction 1 as [|rs o tr H IH F M]; [constructor|]. exact (unique_moment hash16 src o files src rs tr (proj1 PR) IH M).
Qed.
(** No candidate is recorded twice. *)
Theorem C62_rows_distinct : forall rows, reachable (Some (Some rows)) -> NoDup (map r_span rows).
Proof.
  intros rows RD. destruct (reachable_stands _ RD rows eq_refl) as [rs [H F]]. rewrite (spans_of_rows rs rows F). exact (hist_keys rs H).
Qed.

(** From here on, the candidates come in ascending order (otherwise: C09_resume_refuted). *)
Hypothesis ASC : ascending (map c_span (all_cands files)).

(** No recorded candidate is tested again. *)
Theorem C62_not_again : forall g o sel k, reachable (k_db k) -> usual g o sel k -> ~ given o reset -> ~ given o no_sqlite ->
  forall s t, In (s, t) (runs (a_trace (invoke g o sel k))) -> ~ In (display_span s) (map r_span (rows_in (k_db k))).
Proof.
  intros g o sel k RD US NR NS s t I D. apply reachable_stands in RD as ST.
  destruct (invoke_cases g o sel k US) as [[T _]|[RT [P E]]]; [rewrite T in I; destruct I|]. rewrite E in I.
  destruct (main_cases g o sel k US ST (runs_no_dump o RT)) as [[T _]|[[NS' _]|[_ [past [[HI FR] [T _]]]]]].
  - rewrite T in I. destruct I.
  - unfold given in NS. congruence.
  - rewrite T in I. assert (RS : op_reset o = false) by (unfold given in NR; destruct (op_reset o); congruence).
    rewrite RS in FR. rewrite (spans_of_rows _ _ FR) in D. apply in_map_iff in D as [x [D1 D2]].
    destruct (C09_resume_unjudged_partial hash16 src files src b PR ASC (oracle_of g o) past HI (oracle_follows g o (proj1 (proj2 (proj2 US))))) as [_ [K _]].
    apply (K s t I). apply in_map_iff. exists x. split; [|exact D2].
    apply display_inj; [exact (hist_wf hash16 src files src b PR past HI x D2)| |exact D1].
    apply runs_in in I as [f I]. destruct (in_moment _ _ I) as [pre [later EQ]].
    destruct (tests_in_order hash16 src (oracle_of g o) files src (Some past) (proj1 PR) s t f pre) as [c [a [b' [Hc [<- _]]]]]; [exists later; exact EQ|].
    apply PR, Hc.
Qed.

(** An invocation that succeeds leaves a row for each candidate whose tests say how they end, and no other. *)
Theorem C62_complete : forall g o sel k, reachable (k_db k) -> usual g o sel k -> runs_tests o -> ~ given o no_sqlite -> exit g o sel k = 0%N ->
  exists rows all, k_db (final k (invoke g o sel k)) = Some (Some rows) /\ Forall2 row_for all rows /\ NoDup (map rm_span all) /\
    forall x, In x all <-> exists c, In c (all_cands files) /\ is_row src b c x.
Proof.
  intros g o sel k RD US RT NS X. apply reachable_stands in RD as ST.
  assert (X' : a_end (invoke g o sel k) = Ok true).
  { unfold exit_code in X. destruct (a_end (invoke g o sel k)) as [[]|?|]; try discriminate. reflexivity. }
  destruct (invoke_cases g o sel k US) as [[_ [T _]]|[_ [P E]]]; [destruct (T RT X')|]. rewrite E in *.
  destruct (main_cases g o sel k US ST (runs_no_dump o RT)) as [[_ [T _]]|[[NS' _]|[NQ [past [[HI FR] [T [EN [_ D]]]]]]]]; [contradiction|unfold given in NS; congruence|].
  apply EN in X'.
  destruct (C09_resume_unjudged_partial hash16 src files src b PR ASC (oracle_of g o) past HI (oracle_follows g o (proj1 (proj2 (proj2 US))))) as [_ [_ [_ K]]].
  destruct (K X') as [all [A1 [A2 A3]]].
  pose proof (C12_rows_stay hash16 src (oracle_of g o) files src past (proj1 PR)) as W. cbv zeta in W. rewrite A1 in W. injection W as W.
  rewrite D. unfold db_during. rewrite NQ. eexists. exists all. split; [reflexivity|]. split; [|split; assumption].
  rewrite W. apply Forall2_app; [exact FR|apply rows_for_to_row].
Qed.

(** If all tests say how they end, the rows come in the order of the candidates; so whatever happened before, the table is the same. *)
Theorem C62_in_order : (forall s t, b_result b s t <> XNone) ->
  forall g o sel k, reachable (k_db k) -> usual g o sel k -> runs_tests o -> ~ given o no_sqlite -> exit g o sel k = 0%N ->
  exists rows, k_db (final k (invoke g o sel k)) = Some (Some rows) /\
    Forall2 (fun c r => exists x, is_row src b c x /\ row_for x r) (all_cands files) rows.
Proof.
  intros J g o sel k RD US RT NS X. apply reachable_stands in RD as ST.
  assert (X' : a_end (invoke g o sel k) = Ok true).
  { unfold exit_code in X. destruct (a_end (invoke g o sel k)) as [[]|?|]; try discriminate. reflexivity. }
  destruct (invoke_cases g o sel k US) as [[_ [T _]]|[_ [P E]]]; [destruct (T RT X')|]. rewrite E in *.
  destruct (main_cases g o sel k US ST (runs_no_dump o RT)) as [[_ [T _]]|[[NS' _]|[NQ [past [[HI FR] [T [EN [_ D]]]]]]]]; [contradiction|unfold given in NS; congruence|].
  apply EN in X'.
  destruct (C09_resume_partial hash16 src files src b PR ASC J (oracle_of g o) past HI (oracle_follows g o (proj1 (proj2 (proj2 US))))) as [_ [_ [_ [_ K]]]].
  destruct (K X') as [all [A1 A2]].
  pose proof (C12_rows_stay hash16 src (oracle_of g o) files src past (proj1 PR)) as W. cbv zeta in W. rewrite A1 in W. injection W as W.
  rewrite D. unfold db_during. rewrite NQ. eexists. split; [reflexivity|].
  assert (F : Forall2 row_for all ((if op_reset o then [] else rows_in (k_db k)) ++ map (to_row g) (inserts (w_trace (fst (run_from hash16 src (oracle_of g o) files src (Some past))))))).
  { rewrite W. apply Forall2_app; [exact FR|apply rows_for_to_row]. }
  revert A2 F. generalize ((if op_reset o then [] else rows_in (k_db k)) ++ map (to_row g) (inserts (w_trace (fst (run_from hash16 src (oracle_of g o) files src (Some past)))))). clear.
  intros rows A2. revert rows. induction A2 as [|c x cs all H F IH]; intros rows F'; inversion F' as [|? r ? rows' R F'']; subst; constructor; eauto.
Qed.

Definition columns (r : row) : text * text * text := (r_span r, r_text r, r_outcome r).
Theorem C62_same_table : (forall s t, b_result b s t <> XNone) ->
  forall g o sel k g' o' sel' k',
  reachable (k_db k) -> usual g o sel k -> runs_tests o -> ~ given o no_sqlite -> exit g o sel k = 0%N ->
  reachable (k_db k') -> usual g' o' sel' k' -> runs_tests o' -> ~ given o' no_sqlite -> exit g' o' sel' k' = 0%N ->
  map columns (rows_in (k_db (final k (invoke g o sel k)))) = map columns (rows_in (k_db (final k' (invoke g' o' sel' k')))).
Proof.
  intros J g o sel k g' o' sel' k' R U T N X R' U' T' N' X'.
  destruct (C62_in_order J g o sel k R U T N X) as [rows [-> F]]. destruct (C62_in_order J g' o' sel' k' R' U' T' N' X') as [rows' [-> F']].
  cbn [rows_in]. clear -F F'. revert rows' F'. induction F as [|c r cs rows [x [I1 I2]] F IH]; intros rows' F'; inversion F' as [|? r' ? rs' [x' [I1' I2']] F'']; subst; [reflexivity|].
  cbn. f_equal; [|apply IH; assumption]. destruct I1 as [A1 [A2 A3]], I1' as [B1 [B2 B3]], I2 as [C1 [C2 C3]], I2' as [D1 [D2 D3]].
  unfold columns. rewrite C1, C2, C3, D1, D2, D3. congruence.
Qed.

(** Once an invocation has succeeded, no invocation that goes on from its database runs any test, with whatever options, unless
    it starts over or leaves the database out of account. *)
Theorem C62_finished : (forall s t, b_result b s t <> XNone) ->
  forall g o sel k g' o' sel' k',
  reachable (k_db k) -> usual g o sel k -> runs_tests o -> ~ given o no_sqlite -> exit g o sel k = 0%N ->
  k_db k' = k_db (final k (invoke g o sel k)) -> usual g' o' sel' k' -> ~ given o' reset -> ~ given o' no_sqlite ->
  runs (a_trace (invoke g' o' sel' k')) = [].
Proof.
  intros J g o sel k g' o' sel' k' RD US RT NS X K US' NR' NS'.
  destruct (C62_in_order J g o sel k RD US RT NS X) as [rows [DB F]].
  assert (RD' : reachable (k_db k')) by (rewrite K; exact (re_next g o sel k _ RD US (lv_end g o sel k))).
  pose proof (C62_not_again g' o' sel' k' RD' US' NR' NS') as NA'.
  destruct (runs (a_trace (invoke g' o' sel' k'))) as [|[s t] l] eqn:R; [reflexivity|]. exfalso. specialize (NA' s t (or_introl eq_refl)).
  assert (I : In (s, t) (runs (a_trace (invoke g' o' sel' k')))) by (rewrite R; left; reflexivity). clear R l. apply NA'. rewrite K, DB. cbn [rows_in].
  assert (HC : exists c, In c (all_cands files) /\ c_span c = s).
  { apply reachable_stands in RD' as ST. destruct (invoke_cases g' o' sel' k' US') as [[T _]|[RT' [P E]]]; [rewrite T in I; destruct I|]. rewrite E in I.
    destruct (main_cases g' o' sel' k' US' ST (runs_no_dump o' RT')) as [[T _]|[[NS2 _]|[_ [past [_ [T _]]]]]].
    - rewrite T in I. destruct I.
    - unfold given in NS'. congruence.
    - rewrite T in I. apply runs_in in I as [f I]. destruct (in_moment _ _ I) as [pre [later EQ]].
      destruct (tests_in_order hash16 src (oracle_of g' o') files src (Some past) (proj1 PR) s t f pre) as [c [a [b' [Hc [E' _]]]]]; [exists later; exact EQ|].
      exists c. split; [exact Hc|exact E']. }
  destruct HC as [c [Hc <-]]. destruct (forall2_in_l _ _ _ F c Hc) as [r [Ir [x [[S _] [S' _]]]]].
  apply in_map_iff. exists r. split; [|exact Ir]. rewrite S'. f_equal. exact S.
Qed.
End Project.
End Resume.
Print Assumptions C62_rows_right.
Print Assumptions C62_rows_distinct.
Print Assumptions C62_not_again.
Print Assumptions C62_complete.
Print Assumptions C62_in_order.
Print Assumptions C62_same_table.
Print Assumptions C62_finished.

(** A first invocation is interrupted, or killed just after its first row, and a second resumes: the same two rows, each tested once.
    ([with_src]: the first invocation leaves each file as it was (C06), but functions that agree everywhere need not be
    equal in Coq.) *)
Notation ex_reachable := (reachable P_Skill.ex_yaml P_Skill.ex_semver Nat.compare (fun _ => []) (fun _ => []) (P_Skill.ex_skill "5") 5 ex_hash
  (s2t "# defaults") ex_disk ex_files ex_b).
Lemma ex_usual ctrlc o k : k_src k = ex_disk -> usual ex_disk ex_files ex_b (ex_setting ex_files (ex_oracle ex_b ctrlc (fun _ => None))) o None k.
Proof.
  intros S. split; [exact S|]. split.
  - intros fl [_ [root [c [f [ps [n [_ [_ [_ [_ [_ [_ H]]]]]]]]]]]]. cbn in H. congruence.
  - split; [apply ex_follows|]. intros c _. reflexivity.
Qed.
Lemma ex_nameable : nameable ex_files.
Proof.
  intros c [<-|[<-|[]]]; (split; [repeat split; vm_compute; reflexivity|vm_compute; intuition discriminate]).
Qed.
Lemma with_src_db f k : k_db (with_src f k) = k_db k.
Proof. reflexivity. Qed.
Lemma with_src_src f k : k_src (with_src f k) = f.
Proof. reflexivity. Qed.
Example C62_nonvacuous :
  let g1 := ex_setting ex_files ex_o_ctrlc in
  let g := ex_setting ex_files ex_o in
  let k1 := with_src ex_disk (final ex_start (ex_invoke g1 plain ex_start)) in
  let k2 := final k1 (ex_invoke g with_resume k1) in
  project ex_files /\ nameable ex_files /\ ascending (map c_span (all_cands ex_files)) /\ (forall s t, b_result ex_b s t <> XNone) /\
  ex_reachable (k_db k1) /\ usual ex_disk ex_files ex_b g with_resume None k1 /\ runs_tests with_resume /\
  exit_code (ex_invoke g1 plain ex_start) = 2%N /\ length (rows_in (k_db k1)) = 1 /\
  exit_code (ex_invoke g with_resume k1) = 0%N /\ length (rows_in (k_db k2)) = 2 /\
  map fst (runs (a_trace (ex_invoke g with_resume k1))) = [ex_s2; ex_s2] /\
  outcomes k2 = [s2t "failed"; s2t "passed"] /\
  exit_code (ex_invoke g plain ex_start) = 0%N /\
  map columns (rows_in (k_db k2)) = map columns (rows_in (k_db (final ex_start (ex_invoke g plain ex_start)))) /\
  (exists tr, a_trace (ex_invoke g plain ex_start) <> [] /\ moment tr (a_trace (ex_invoke g plain ex_start)) /\
     db_during g plain ex_start tr = k_db k1 /\ ex_reachable (db_during g plain ex_start tr)).
Proof.
  cbv zeta. split; [exact ex_project|]. split; [exact ex_nameable|]. split; [exact ex_ascending|]. split; [exact ex_judged|].
  split.
  { rewrite (with_src_db ex_disk).
    apply (re_next _ _ _ _ _ _ _ _ _ _ _ _ (ex_setting ex_files ex_o_ctrlc) plain None ex_start); [apply re_none|apply (ex_usual (fun tr => Nat.leb 3 (length (runs tr)))); reflexivity|apply lv_end]. }
  split; [apply (ex_usual (fun _ => false)); apply with_src_src|]. split; [apply ex_runs_tests|].
  do 8 (split; [vm_compute; reflexivity|]).
  set (g := ex_setting ex_files ex_o).
  assert (M : moment (skipn 8 (a_trace (ex_invoke g plain ex_start))) (a_trace (ex_invoke g plain ex_start))).
  { exists (firstn 8 (a_trace (ex_invoke g plain ex_start))). symmetry. apply firstn_skipn. }
  assert (T : a_trace (ex_invoke g plain ex_start) <> []).
  { intros E. apply (f_equal (@length _)) in E. vm_compute in E. discriminate E. }
  exists (skipn 8 (a_trace (ex_invoke g plain ex_start))). split; [exact T|]. split; [exact M|].
  split; [vm_compute; reflexivity|].
  apply (re_next _ _ _ _ _ _ _ _ _ _ _ _ g plain None ex_start); [apply re_none|apply (ex_usual (fun _ => false)); reflexivity|apply lv_run; [exact T|exact M]].
Qed.
Example C62_finished_nonvacuous :
  let g := ex_setting ex_files ex_o in
  let k1 := with_src ex_disk (final ex_start (ex_invoke g plain ex_start)) in
  usual ex_disk ex_files ex_b g plain None ex_start /\ runs_tests plain /\ ~ given plain no_sqlite /\ exit_code (ex_invoke g plain ex_start) = 0%N /\
  length (runs (a_trace (ex_invoke g plain ex_start))) = 4 /\
  usual ex_disk ex_files ex_b g with_resume None k1 /\ ~ given with_resume reset /\ ~ given with_resume no_sqlite /\
  exit_code (ex_invoke g with_resume k1) = 0%N /\ runs (a_trace (ex_invoke g with_resume k1)) = [].
Proof.
  cbv zeta. split; [apply (ex_usual (fun _ => false)); reflexivity|]. split; [apply ex_runs_tests|]. split; [discriminate|].
  do 2 (split; [vm_compute; reflexivity|]). split; [apply (ex_usual (fun _ => false)); apply with_src_src|]. do 2 (split; [discriminate|]).
  split; vm_compute; reflexivity.
Qed.
