(** The database: C18, C19, C46, C55. *)
From Verif Require Import Base M_Text M_Rewriter M_Span S_Span L_Span M_Run S_Run M_Output S_Output L_Output M_Sqlite P_Run.

(** ** C19 *)
Theorem C19_round_trip : forall x, parse_outcome (outcome_name x) = Some x.
Proof. intros []; reflexivity. Qed.
Print Assumptions C19_round_trip.

Theorem C19_parse_only_names : forall t x, parse_outcome t = Some x -> t = outcome_name x.
Proof.
  intros t x H. unfold parse_outcome in H. apply find_some in H as [_ H]. apply text_eqb_eq in H. congruence.
Qed.
Print Assumptions C19_parse_only_names.

Theorem C19_check_exact : forall t, check_outcome t = true <-> exists x, t = s2t (outcome_word x).
Proof.
  intros t. unfold check_outcome. rewrite existsb_exists. split.
  - intros [y [I E]]. apply text_eqb_eq in E. subst y. simpl in I.
    destruct I as [<-|[<-|[<-|[<-|[<-|[]]]]]];
      [exists Skipped|exists Nonbuildable|exists Failed|exists TimedOut|exists Passed]; reflexivity.
  - intros [x ->]. exists (s2t (outcome_word x)). split; [|apply text_eqb_refl].
    destruct x; simpl; tauto.
Qed.
Print Assumptions C19_check_exact.

Theorem C19_names : forall x, outcome_name x = s2t (outcome_word x) /\ forall y, outcome_name x = outcome_name y -> x = y.
Proof.
  intros x. split; [apply outcome_name_word|]. intros y E.
  pose proof (C19_round_trip x) as H. rewrite E, C19_round_trip in H. congruence.
Qed.
Print Assumptions C19_names.

Example C19_nonvacuous : check_outcome (s2t "timed-out") = true /\ check_outcome (s2t "timedout") = false /\
  parse_outcome (s2t "timed-out") = Some TimedOut /\ parse_outcome (s2t "TimedOut") = None.
Proof. repeat split; vm_compute; reflexivity. Qed.

(** ** C18 *)

(** The state the database is in when [init] is over. *)
Definition after (db : db_file) (x : list db_file * res db_error (list removal)) : db_file := last (fst x) db.

Definition all_ok : sql := Sql true true true true true true.

Lemma init_cases q ex denied dump reset resume db : 
  let r := init q ex denied dump reset resume db in
  (fst r = [db] /\ ((exists e, snd r = Err e) \/
      (dump = true \/ resume = true) /\ reset = false /\ exists rows, db = Some (Some rows) /\ snd r = into_internals ex rows)) \/
  (exists rows, db = Some (Some rows) /\ reset = true /\ 
     ((fst r = [db; Some None] /\ exists e, snd r = Err e) \/ (fst r = [db; Some None; Some (Some [])] /\ snd r = Ok []))) \/
  (db = None /\ dump = false /\ (denied = false \/ reset = false /\ resume = false) /\
     ((fst r = [db; Some None] /\ exists e, snd r = Err e) \/ (fst r = [db; Some None; Some (Some [])] /\ snd r = Ok []))).
Proof.
  destruct q as [q1 q2 q3 q4 q5 q6]. unfold init. cbn [q_exists q_open q_drop q_create q_load].
  destruct q1; cbn [negb]; [|left; split; [reflexivity|left; exists EngineFailed; reflexivity]].
  destruct db as [[rows|]|].
  - destruct dump, reset, resume; cbn; destruct q2; cbn; try (left; split; [reflexivity|left; eauto]; fail);
      try (destruct q3; cbn; [|left; split; [reflexivity|left; eauto]]; right; left; exists rows; split; [reflexivity|];
           split; [reflexivity|]; destruct q4; cbn; [right; split; reflexivity|left; split; [reflexivity|eauto]]);
      try (destruct q5; cbn; left; (split; [reflexivity|]); [right|left; eauto]; split; [auto|]; split; [reflexivity|]; eauto).
  - destruct dump, reset, resume; cbn; destruct q2; cbn; (left; split; [reflexivity|left; eexists; reflexivity]).
  - destruct dump; [left; split; [reflexivity|left; cbn; eauto]|].
    destruct reset, resume, denied; cbn; try (left; split; [reflexivity|left; eauto]; fail);
      (destruct q2; cbn; [|left; split; [reflexivity|left; eauto]]); right; right; (split; [reflexivity|]); (split; [reflexivity|]);
      (split; [auto|]); destruct q4; cbn; first [right; split; reflexivity|left; split; [reflexivity|eauto]].
Qed.

(** Without --dump, --reset or --resume, an existing database is not touched at any moment, and the run is refused. *)
Theorem C18_existing_refused : forall q ex denied db, db <> None ->
  (forall d, In d (fst (init q ex denied false false false db)) -> d = db) /\
  exists e, snd (init q ex denied false false false db) = Err e.
Proof.
  intros q ex denied db N.
  destruct (init_cases q ex denied false false false db) as [[E [H|[[H|H] _]]]|[[rows [_ [H _]]]|[H _]]]; try congruence.
  rewrite E. split; [|exact H]. intros d [<-|[]]. reflexivity.
Qed.
Print Assumptions C18_existing_refused.

(** --dump and --resume do not change an existing database at any moment. *)
Theorem C18_preserved : forall q ex denied dump resume db, db <> None -> dump = true \/ resume = true ->
  forall d, In d (fst (init q ex denied dump false resume db)) -> d = db.
Proof.
  intros q ex denied dump resume db N F d I.
  destruct (init_cases q ex denied dump false resume db) as [[E _]|[[rows [_ [H _]]]|[H _]]]; try congruence.
  rewrite E in I. destruct I as [<-|[]]. reflexivity.
Qed.
Print Assumptions C18_preserved.

(** If they succeed they return every row; and if the engine does not fail, they fail only because some
    row cannot be read back. *)
Theorem C18_all_rows : forall q ex denied dump resume rows, dump = true \/ resume = true ->
  (forall rs, snd (init q ex denied dump false resume (Some (Some rows))) = Ok rs ->
     Forall2 (fun r x => parse_span ex (r_span r) = Ok (rm_span x) /\ r_text r = rm_text x /\
                         r_outcome r = outcome_name (rm_outcome x)) rows rs) /\
  ((forall r, In r rows -> exists s x, parse_span ex (r_span r) = Ok s /\ r_outcome r = outcome_name x) ->
   exists rs, snd (init all_ok ex denied dump false resume (Some (Some rows))) = Ok rs).
Proof.
  intros q ex denied dump resume rows F. split.
  - intros rs E.
    destruct (init_cases q ex denied dump false resume (Some (Some rows))) as [[_ [[e H]|[_ [_ [rows' [H1 H]]]]]]|[[rows' [_ [H _]]]|[H _]]];
      try congruence.
    injection H1 as <-. rewrite H in E. clear H q denied F dump resume. revert rs E.
    induction rows as [|r rows IH]; intros rs E; simpl in E; [injection E as <-; constructor|].
    unfold into_internal in E. destruct (parse_span ex (r_span r)) as [s| |] eqn:S; try discriminate.
    destruct (parse_outcome (r_outcome r)) as [x|] eqn:X; try discriminate. simpl in E.
    destruct (into_internals ex rows) as [xs| |]; try discriminate. simpl in E. injection E as <-.
    constructor; [|apply IH; reflexivity]. split; [exact S|]. split; [reflexivity|]. apply C19_parse_only_names, X.
  - intros H.
    assert (E : snd (init all_ok ex denied dump false resume (Some (Some rows))) = into_internals ex rows).
    { unfold init. cbn. destruct dump, resume; try reflexivity. destruct F; discriminate. }
    rewrite E. clear E. induction rows as [|r rows IH]; [exists []; reflexivity|].
    destruct (H r (or_introl eq_refl)) as [s [x [S X]]]. destruct IH as [rs E]; [intros r' I; apply H; right; exact I|].
    exists (Removal s (r_text r) x :: rs). simpl. unfold into_internal. rewrite S, X, C19_round_trip. simpl. rewrite E. reflexivity.
Qed.
Print Assumptions C18_all_rows.

(** --dump never creates a database; it fails if there is none. *)
Theorem C18_dump_no_create : forall q ex denied reset resume,
  fst (init q ex denied true reset resume None) = [None] /\
  exists e, snd (init q ex denied true reset resume None) = Err e.
Proof.
  intros q ex denied reset resume.
  destruct (init_cases q ex denied true reset resume None) as [[E [H|[_ [_ [rows [H _]]]]]]|[[rows [H _]]|[_ [H _]]]]; try congruence.
  split; assumption.
Qed.
Print Assumptions C18_dump_no_create.

(** --reset empties an existing table; a missing database is created empty (with a warning that, denied, stops it
    before anything is created, if --reset or --resume was given). *)
Theorem C18_reset : forall ex denied resume rows,
  after (Some (Some rows)) (init all_ok ex denied false true resume (Some (Some rows))) = Some (Some []) /\
  snd (init all_ok ex denied false true resume (Some (Some rows))) = Ok [].
Proof. intros ex denied [] rows; split; reflexivity. Qed.
Print Assumptions C18_reset.

Theorem C18_created : forall ex reset resume,
  after None (init all_ok ex false false reset resume None) = Some (Some []) /\
  snd (init all_ok ex false false reset resume None) = Ok [].
Proof. intros ex [] []; split; reflexivity. Qed.
Print Assumptions C18_created.

Theorem C18_denied_untouched : forall q ex reset resume, reset = true \/ resume = true ->
  fst (init q ex true false reset resume None) = [None] /\ exists e, snd (init q ex true false reset resume None) = Err e.
Proof.
  intros q ex reset resume F.
  destruct (init_cases q ex true false reset resume None) as [[E [H|[_ [_ [rows [H _]]]]]]|[[rows [H _]]|[_ [_ [[H|[H1 H2]] _]]]]]; try congruence.
  - split; assumption.
  - destruct F; congruence.
Qed.
Print Assumptions C18_denied_untouched.

(** ** Rows survive everything but --reset *)
Lemma insert_all_keeps root rt q rs : forall n rows,
  exists more, insert_all root rt q n (Some (Some rows)) rs = Some (Some (rows ++ more)).
Proof.
  induction rs as [|r rs IH]; intros n rows; simpl; [exists []; rewrite app_nil_r; reflexivity|].
  destruct (store root rt r) as [x|e|]; try (exists []; rewrite app_nil_r; reflexivity).
  destruct (_ || _ || _); [exists []; rewrite app_nil_r; reflexivity|].
  destruct (IH (S n) (rows ++ [x])) as [more E]. exists (x :: more). rewrite E, <- app_assoc. reflexivity.
Qed.

(** However many processes work on a database one after the other, with whatever flags but --reset, however
    they fail and wherever they are stopped, no row is lost or changed. *)
Theorem C18_rows_survive : forall root ps rows, (forall p, In p ps -> p_reset p = false) ->
  exists more, fold_left (fun db p => session root p db) ps (Some (Some rows)) = Some (Some (rows ++ more)).
Proof.
  intros root ps. induction ps as [|p ps IH]; intros rows H; simpl; [exists []; rewrite app_nil_r; reflexivity|].
  assert (S : exists more, session root p (Some (Some rows)) = Some (Some (rows ++ more))).
  { unfold session. pose proof (H p (or_introl eq_refl)) as R. rewrite R.
    destruct (init_cases (p_sql p 0) (p_exists p) (p_denied p) (p_dump p) false (p_resume p) (Some (Some rows)))
      as [[E _]|[[rows' [_ [X _]]]|[X _]]]; try congruence.
    destruct (init _ _ _ _ _ _ _) as [states r]. simpl in E. subst states. simpl.
    destruct (p_stop p) as [n|].
    - exists []. rewrite app_nil_r. destruct n as [|[|n]]; reflexivity.
    - destruct r as [rs|e|]; try (exists []; rewrite app_nil_r; reflexivity).
      destruct (p_dump p); [exists []; rewrite app_nil_r; reflexivity|]. apply insert_all_keeps. }
  destruct S as [more E]. rewrite E. destruct (IH (rows ++ more)) as [more' E']; [intros p' I; apply H; right; exact I|].
  exists (more ++ more'). rewrite E', app_assoc. reflexivity.
Qed.
Print Assumptions C18_rows_survive.

(** --reset does not always recover: a process stopped (or failing) between DROP TABLE and CREATE TABLE leaves a
    database that every later invocation refuses, whatever its flags. *)
Theorem C18_reset_recovers_refuted :
  exists root p rows, p_reset p = true /\ session root p (Some (Some rows)) = Some None /\
  forall q ex denied dump reset resume,
    (exists e, snd (init q ex denied dump reset resume (Some None)) = Err e) /\
    after (Some None) (init q ex denied dump reset resume (Some None)) = Some None.
Proof.
  exists [], (Process (fun _ => all_ok) (fun _ => true) false false true false None (Some 1) []), [].
  split; [reflexivity|]. split; [reflexivity|]. intros q ex denied dump reset resume.
  destruct (init_cases q ex denied dump reset resume (Some None)) as [[E [H|[_ [_ [rows [H _]]]]]]|[[rows [H _]]|[H _]]]; try congruence.
  split; [exact H|]. unfold after. rewrite E. reflexivity.
Qed.
Print Assumptions C18_reset_recovers_refuted.

Definition ex_stored : row := Row (s2t "t.rs:1:1-1:7") (s2t "x.a();") (s2t "failed") [].
Example C18_nonvacuous :
  init all_ok (fun _ => true) false false false true (Some (Some [ex_stored])) =
    ([Some (Some [ex_stored])], Ok [Removal ex_s1 (s2t "x.a();") Failed]) /\
  session [] (Process (fun _ => all_ok) (fun _ => true) false false false true None None
     [Removal ex_s2 (s2t "b();") Passed; Removal ex_s1 (s2t "x.a();") Passed]) (Some (Some [ex_stored])) =
    Some (Some [ex_stored; Row (s2t "t.rs:1:7-1:11") (s2t "b();") (s2t "passed") []]) /\
  snd (init all_ok (fun _ => false) false false false true (Some (Some [ex_stored]))) = Err RowUnreadable.
Proof. repeat split; vm_compute; reflexivity. Qed.

(** ** C55: what one process stores, another reads *)
Definition readable (ex : path -> bool) (r : removal) : Prop :=
  wf_span (rm_span r) /\ usize_span (rm_span r) /\ ex (sp_path (rm_span r)) = true /\ ~ In 58%N (join_path (sp_path (rm_span r))).

Lemma store_read root rt ex r x : readable ex r -> store root rt r = Ok x -> into_internal ex x = Ok r.
Proof.
  intros [W [U [E C]]] H.
  assert (X : r_span x = display_span (rm_span r) /\ r_text x = rm_text r /\ r_outcome x = outcome_name (rm_outcome r)).
  { unfold store in H. destruct rt as [rt|].
    - destruct (url_from_span root rt (rm_span r)); try discriminate. injection H as <-. auto.
    - injection H as <-. auto. }
  destruct X as [X1 [X2 X3]]. unfold into_internal. rewrite X1, X2, X3, (parse_display ex _ W U E C), C19_round_trip.
  destruct r; reflexivity.
Qed.

(** Rows stored for any removals of existing files read back as the same removals, in order. *)
Theorem C55_stored_rows_read_back : forall root rt ex rs rows,
  (forall r, In r rs -> readable ex r) ->
  Forall2 (fun r x => store root rt r = Ok x) rs rows ->
  snd (init all_ok ex false false false true (Some (Some rows))) = Ok rs.
Proof.
  intros root rt ex rs rows H F. change (into_internals ex rows = Ok rs).
  induction F as [|r x rs rows E F IH]; [reflexivity|]. simpl.
  rewrite (store_read root rt ex r x (H r (or_introl eq_refl)) E). simpl.
  rewrite IH; [reflexivity|]. intros r' I. apply H. right. exact I.
Qed.
Print Assumptions C55_stored_rows_read_back.

(** The table accepts a stored row iff the span is new (if the engine does not fail), and refuses it unchanged
    otherwise; so the run loop's view of the database (rows as removals) is the table's. *)
Theorem C55_insert_refines : forall root rt ex rs rows r x,
  (forall r', In r' (r :: rs) -> readable ex r') ->
  Forall2 (fun r x => store root rt r = Ok x) rs rows -> store root rt r = Ok x ->
  (In (rm_span r) (map rm_span rs) -> exists e, insert_row all_ok (Some (Some rows)) x = (Some (Some rows), Err e)) /\
  (~ In (rm_span r) (map rm_span rs) -> insert_row all_ok (Some (Some rows)) x = (Some (Some (rows ++ [x])), Ok tt)).
Proof.
  intros root rt ex rs rows r x H F E.
  assert (SX : forall r x, store root rt r = Ok x -> r_span x = display_span (rm_span r) /\ r_outcome x = outcome_name (rm_outcome r)).
  { intros r0 x0 E0. unfold store in E0. destruct rt as [rt|].
    - destruct (url_from_span root rt (rm_span r0)); try discriminate. injection E0 as <-. auto.
    - injection E0 as <-. auto. }
  assert (K : existsb (fun y => text_eqb (r_span y) (r_span x)) rows = true <-> In (rm_span r) (map rm_span rs)).
  { rewrite existsb_exists, in_map_iff. split.
    - intros [y [I Q]]. apply text_eqb_eq in Q. 
      assert (G : exists r', In r' rs /\ store root rt r' = Ok y).
      { clear -F I. induction F as [|a b l l' Hab F IH]; [destruct I|]. destruct I as [<-|I].
        - exists a. split; [left; reflexivity|exact Hab].
        - destruct (IH I) as [r' [I' E']]. exists r'. split; [right; exact I'|exact E']. }
      destruct G as [r' [I' E']]. exists r'. split; [|exact I'].
      rewrite (proj1 (SX _ _ E')), (proj1 (SX _ _ E)) in Q.
      destruct (H r' (or_intror I')) as [W' _]. destruct (H r (or_introl eq_refl)) as [W _].
      exact (display_inj _ _ W' W Q).
    - intros [r' [Q I]].
      assert (G : exists y, In y rows /\ store root rt r' = Ok y).
      { clear -F I. induction F as [|a b l l' Hab F IH]; [destruct I|]. destruct I as [->|I].
        - exists b. split; [left; reflexivity|exact Hab].
        - destruct (IH I) as [y [I' E']]. exists y. split; [right; exact I'|exact E']. }
      destruct G as [y [I' E']]. exists y. split; [exact I'|]. apply text_eqb_eq.
      rewrite (proj1 (SX _ _ E')), (proj1 (SX _ _ E)), Q. reflexivity. }
  assert (CK : check_outcome (r_outcome x) = true).
  { rewrite (proj2 (SX _ _ E)). destruct (rm_outcome r); reflexivity. }
  unfold insert_row. rewrite CK. cbn [q_insert all_ok negb orb].
  destruct (existsb _ rows); cbn [orb]; split; intros G.
  - eauto.
  - exfalso. apply G, K. reflexivity.
  - apply K in G. discriminate.
  - reflexivity.
Qed.
Print Assumptions C55_insert_refines.

Example C55_nonvacuous :
  readable (fun _ => true) (Removal ex_s1 (s2t "x.a();") Failed) /\
  store [] None (Removal ex_s1 (s2t "x.a();") Failed) = Ok ex_stored /\
  store [s2t "w"; s2t "r"] (Some (Remote (s2t "git@github.com:o/r.git") (s2t "abc") (Some [s2t "w"]))) (Removal ex_s1 (s2t "x.a();") Failed) =
    Ok (Row (s2t "t.rs:1:1-1:7") (s2t "x.a();") (s2t "failed") (s2t "https://github.com/o/r/blob/abc/r/t.rs#L1-L1")).
Proof.
  split; [|split; vm_compute; reflexivity]. split; [|split; [|split]].
  - split; [discriminate|]. constructor; [|constructor]. split; [discriminate|]. split; [discriminate|]. vm_compute. intuition discriminate.
  - repeat split; vm_compute; reflexivity.
  - reflexivity.
  - vm_compute. intuition discriminate.
Qed.

(** ** C46 *)
(** Where a remote's web pages are: a trailing ".git" is dropped, and an scp-like address "user@host:path"
    becomes "https://host/path". *)
Definition without_git (url base : text) : Prop :=
  url = base ++ s2t ".git" \/ (url = base /\ forall x, url <> x ++ s2t ".git").
Definition scp_like (t host p : text) : Prop :=
  exists user, t = user ++ 64%N :: host ++ 58%N :: p /\ ~ In 64%N user /\ ~ In 58%N host /\ ~ In NL p.
Definition web_base (url base : text) : Prop :=
  exists b, without_git url b /\
    ((exists host p, scp_like b host p /\ base = s2t "https://" ++ host ++ s2t "/" ++ p) \/
     ((forall host p, ~ scp_like b host p) /\ base = b)).

Lemma strip_suffix_spec s t r : strip_suffix s t = Some r <-> t = r ++ s.
Proof.
  unfold strip_suffix. destruct (strip_prefix (rev s) (rev t)) as [x|] eqn:E.
  - apply strip_prefix_spec in E. split.
    + intros H. injection H as <-. rewrite <- (rev_involutive t), E, rev_app_distr, rev_involutive. reflexivity.
    + intros ->. rewrite rev_app_distr in E. apply app_inv_head in E. rewrite <- E, rev_involutive. reflexivity.
  - split; [discriminate|]. intros ->. rewrite rev_app_distr in E.
    assert (strip_prefix (rev s) (rev s ++ rev r) = Some (rev r)) as X by (apply strip_prefix_spec; reflexivity).
    rewrite X in E. discriminate.
Qed.

Lemma ssh_spec t host p : ssh_captures t = Some (host, p) <-> scp_like t host p.
Proof.
  unfold ssh_captures, scp_like. split.
  - destruct (split_at AT t) as [[u rest]|] eqn:E1; [|discriminate].
    destruct (split_at COLON rest) as [[h q]|] eqn:E2; [|discriminate].
    destruct (existsb (fun c => N.eqb c NL) q) eqn:E3; [discriminate|]. intros H. injection H as <- <-.
    apply split_at_sound in E1 as [-> N1]. apply split_at_sound in E2 as [-> N2].
    exists u. split; [reflexivity|]. split; [exact N1|]. split; [exact N2|].
    intros I. assert (X : existsb (fun c => N.eqb c NL) q = true) by (apply existsb_exists; exists NL; split; [exact I|reflexivity]).
    rewrite X in E3. discriminate.
  - intros [u [-> [N1 [N2 N3]]]]. change 64%N with AT. rewrite (split_at_app AT u _ N1).
    cbv beta iota. rewrite (split_at_app COLON host p N2 : split_at COLON (host ++ 58%N :: p) = _). cbv beta iota.
    rewrite (existsb_nl p N3). reflexivity.
Qed.

Lemma web_base_fun url b b' : web_base url b -> web_base url b' -> b = b'.
Proof.
  intros [x [Hx Cx]] [y [Hy Cy]].
  assert (x = y).
  { destruct Hx as [Hx|[Hx Nx]], Hy as [Hy|[Hy Ny]]; subst.
    - apply app_inv_tail in Hy. congruence.
    - exfalso. exact (Ny x eq_refl).
    - exfalso. exact (Nx _ eq_refl).
    - reflexivity. }
  subst y. destruct Cx as [[h [p [S ->]]]|[N ->]], Cy as [[h' [p' [S' ->]]]|[N' ->]]; try reflexivity.
  - apply ssh_spec in S. apply ssh_spec in S'. rewrite S in S'. injection S' as -> ->. reflexivity.
  - destruct (N' _ _ S).
  - destruct (N _ _ S').
Qed.

Lemma strip_components_spec d p r : strip_components d p = Some r <-> p = d ++ r.
Proof.
  revert p. induction d as [|b d IH]; intros p; simpl.
  - split; congruence.
  - destruct p as [|c p]; [split; discriminate|]. destruct (text_eqb b c) eqn:E.
    + apply text_eqb_eq in E. subst c. rewrite IH. split; [intros ->; reflexivity|intros H; injection H; auto].
    + split; [discriminate|]. intros H. injection H as <- _. rewrite text_eqb_refl in E. discriminate.
Qed.

(** The URL of a row is the repository's web location, the commit, the path relative to the working
    directory, and the line range; this needs the file to be in the working directory. *)
Theorem C46_url : forall root rt s u,
  url_from_span root rt s = Ok u <->
  exists base dir rel, web_base (rt_url rt) base /\ rt_workdir rt = Some dir /\ root ++ sp_path s = dir ++ rel /\
    u = base ++ s2t "/blob/" ++ rt_oid rt ++ s2t "/" ++ join_path rel ++ s2t "#L" ++ print_usize (line (sp_start s))
        ++ s2t "-L" ++ print_usize (line (sp_end s)).
Proof.
  intros root rt s u.
  set (b := match strip_suffix (s2t ".git") (rt_url rt) with Some b => b | None => rt_url rt end).
  set (base := match ssh_captures b with Some (host, p) => s2t "https://" ++ host ++ SLASH :: p | None => b end).
  assert (HB : web_base (rt_url rt) base).
  { exists b. split.
    - unfold b. destruct (strip_suffix (s2t ".git") (rt_url rt)) as [x|] eqn:E.
      + left. apply strip_suffix_spec in E. exact E.
      + right. split; [reflexivity|]. intros x Ex. apply strip_suffix_spec in Ex. congruence.
    - unfold base. destruct (ssh_captures b) as [[h p]|] eqn:E.
      + left. exists h, p. split; [apply ssh_spec, E|reflexivity].
      + right. split; [|reflexivity]. intros h p S. apply ssh_spec in S. congruence. }
  unfold url_from_span. fold b. fold base. split.
  - destruct (rt_workdir rt) as [d|] eqn:D; [|discriminate].
    destruct (strip_components d (root ++ sp_path s)) as [rel|] eqn:E; [|discriminate].
    intros H. injection H as <-. exists base, d, rel. split; [exact HB|]. split; [reflexivity|].
    split; [apply strip_components_spec, E|reflexivity].
  - intros [base' [d [rel [HB' [D [E ->]]]]]]. rewrite D.
    apply strip_components_spec in E. rewrite E, (web_base_fun _ _ _ HB HB'). reflexivity.
Qed.
Print Assumptions C46_url.

(** The URL column: empty without a repository; and recording a removal panics iff the repository has no working
    directory containing the file. *)
Theorem C46_stored_url : forall root rt r,
  (rt = None -> exists x, store root rt r = Ok x /\ r_url x = []) /\
  (forall t, rt = Some t ->
     (forall x, store root rt r = Ok x -> url_from_span root t (rm_span r) = Ok (r_url x)) /\
     (store root rt r = Panic <->
        ~ exists dir rel, rt_workdir t = Some dir /\ root ++ sp_path (rm_span r) = dir ++ rel)).
Proof.
  intros root rt r. split; [intros ->; eexists; split; reflexivity|]. intros t ->. unfold store. split.
  - intros x. destruct (url_from_span root t (rm_span r)); try discriminate. intros H. injection H as <-. reflexivity.
  - unfold url_from_span. destruct (rt_workdir t) as [d|].
    + destruct (strip_components d (root ++ sp_path (rm_span r))) as [rel|] eqn:E.
      * split; [discriminate|]. intros H. exfalso. apply H. exists d, rel. split; [reflexivity|]. apply strip_components_spec, E.
      * split; [|reflexivity]. intros _ [d' [rel [D H]]]. injection D as <-. apply strip_components_spec in H. congruence.
    + split; [|reflexivity]. intros _ [d' [rel [D _]]]. discriminate.
Qed.
Print Assumptions C46_stored_url.

(** Not every remote's location is understood: a URL with a user name and a port is mistaken for an scp-like
    address, and the port becomes part of the path. *)
Theorem C46_port_refuted : exists root rt s,
  rt_url rt = s2t "ssh://git@example.com:22/o/r.git" /\
  url_from_span root rt s = Ok (s2t "https://example.com/22/o/r/blob/abc/t.rs#L1-L1").
Proof.
  exists [s2t "w"], (Remote (s2t "ssh://git@example.com:22/o/r.git") (s2t "abc") (Some [s2t "w"])), ex_s1.
  split; [reflexivity|]. vm_compute. reflexivity.
Qed.
Print Assumptions C46_port_refuted.

Example C46_nonvacuous :
  url_from_span [s2t "w"] (Remote (s2t "https://github.com/o/r") (s2t "abc") (Some [s2t "w"])) ex_s1 =
    Ok (s2t "https://github.com/o/r/blob/abc/t.rs#L1-L1") /\
  url_from_span [s2t "w"; s2t "sub"] (Remote (s2t "git@github.com:o/r.git") (s2t "abc") (Some [s2t "w"])) ex_s1 =
    Ok (s2t "https://github.com/o/r/blob/abc/sub/t.rs#L1-L1").
Proof. split; vm_compute; reflexivity. Qed.
