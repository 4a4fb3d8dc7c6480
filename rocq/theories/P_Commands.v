(** Property theorems C71: what is executed, and in which order. *)
From Verif Require Import Base M_Text M_Span M_Run M_Output M_Exec M_Rust M_Select L_Output M_Commands S_Commands L_Span L_Run.
Local Open Scope string_scope.
Local Open Scope list_scope.

Lemma below_app root rel : below root (root ++ rel) = Ok rel.
Proof. unfold below. destruct (strip_components root (root ++ rel)) as [r|] eqn:E.
  - apply strip_components_spec in E. apply app_inv_head in E. subst. reflexivity.
  - exfalso. assert (X : strip_components root (root ++ rel) = Some rel) by (apply strip_components_spec; reflexivity). congruence.
Qed.
Lemma below_dir root rel : rel <> [] -> below root (removelast (root ++ rel)) = Ok (removelast rel).
Proof. intros N. rewrite removelast_app by exact N. apply below_app. Qed.

Section C.
Context (root : path) (args : list text) (exists_at : list command -> text -> option bool) (ends : list command -> command -> option (bool * list N)) (denied : bool)
  (extract : list N -> option (list text)).
Notation carried_out := (carried_out ends).
Notation packages := (packages root exists_at).
Notation node_packages := (node_packages root exists_at).
Notation output := (output ends).

Lemma co_app ran p1 p2 d1 : forall d2 ok, carried_out ran p1 d1 true -> carried_out (rev d1 ++ ran) p2 d2 ok -> carried_out ran (p1 ++ p2) (d1 ++ d2) ok.
Proof.
  revert p1 ran. induction d1 as [|c d1 IH]; intros p1 ran d2 ok H1 H2.
  - inversion H1; subst. exact H2.
  - inversion H1 as [| |? ? ? out ? ? E H]; subst. cbn [app]. eapply co_next; [exact E|]. apply IH; [exact H|]. cbn [rev] in H2. rewrite <- app_assoc in H2. exact H2.
Qed.
Lemma co_app_stop ran p1 p2 d1 : carried_out ran p1 d1 false -> carried_out ran (p1 ++ p2) d1 false.
Proof.
  revert p1 ran. induction d1 as [|c d1 IH]; intros p1 ran H1; [inversion H1|].
  inversion H1 as [|? ? ? E|? ? ? out ? ? E H]; subst; cbn [app]; [apply co_stop; exact E|]. eapply co_next; [exact E|]. apply IH, H.
Qed.
(** The plan is followed to its end iff everything succeeds. *)
Lemma co_all ran p d ok : carried_out ran p d ok -> (ok = true -> d = p) /\ exists rest, p = d ++ rest.
Proof. induction 1 as [ran|ran c plan E|ran c plan out d ok E H [A (rest & B)]]; [split; [reflexivity|exists []; reflexivity]|split; [discriminate|exists plan; reflexivity]|].
  split; [intros T; rewrite (A T); reflexivity|]. exists rest. rewrite B. reflexivity. Qed.

Lemma output_spec c w w' r : output c w = (w', r) ->
  w' = CW (c :: cw_ran w) (cw_known w) (cw_warned w) /\
  ((exists out, r = Ok out /\ ends (cw_ran w) c = Some (true, out) /\ carried_out (cw_ran w) [c] [c] true) \/
   ((r = Err CStart \/ r = Err (CFailed c)) /\ carried_out (cw_ran w) [c] [c] false)).
Proof.
  unfold M_Commands.output. intros H. injection H as <- <-. split; [reflexivity|]. destruct (ends (cw_ran w) c) as [[[|] out]|] eqn:E.
  - left. exists out. split; [reflexivity|]. split; [reflexivity|]. eapply co_next; [exact E|constructor].
  - right. split; [auto|]. apply co_stop. intros o Q. congruence.
  - right. split; [auto|]. apply co_stop. intros o Q. congruence.
Qed.

(** A step: from [w] to [w'], the plan carried out. *)
Definition step {A} (plan : list command) (w w' : cworld) (r : res cerror A) (good : Prop) : Prop :=
  exists done ok, carried_out (cw_ran w) plan done ok /\ cw_ran w' = rev done ++ cw_ran w /\ cw_warned w' = cw_warned w /\ (ok = true <-> good) /\ r <> Panic.

Lemma then_output {A} c w (f : list N -> cworld -> cworld * res cerror A) w' r : then_ (output c w) f = (w', r) ->
  (exists out, ends (cw_ran w) c = Some (true, out) /\ carried_out (cw_ran w) [c] [c] true /\ f out (CW (c :: cw_ran w) (cw_known w) (cw_warned w)) = (w', r)) \/
  ((r = Err CStart \/ r = Err (CFailed c)) /\ w' = CW (c :: cw_ran w) (cw_known w) (cw_warned w) /\ carried_out (cw_ran w) [c] [c] false).
Proof.
  destruct (output c w) as [w1 r1] eqn:O. apply output_spec in O. destruct O as [-> [(out & -> & E & C)|[[->| ->] C]]]; cbn [then_]; intros H.
  - left. exists out. auto.
  - right. injection H as <- <-. auto.
  - right. injection H as <- <-. auto.
Qed.

(** Installation. *)
Definition installs (P : list command -> Prop) (w : cworld) (x : cworld * res cerror unit) : Prop :=
  (exists plan d, P plan /\ ((carried_out (cw_ran w) plan d true /\ snd x = Ok tt) \/ (carried_out (cw_ran w) plan d false /\ exists e, snd x = Err e)) /\
     fst x = CW (rev d ++ cw_ran w) (cw_known w) (cw_warned w)) \/
  ((forall plan, ~ P plan) /\ x = (w, Err CLook)).
Lemma installs_nothing (P : list command -> Prop) w : P [] -> installs P w (w, Ok tt).
Proof. intros H. left. exists [], []. split; [exact H|]. split; [left; split; [constructor|reflexivity]|]. destruct w; reflexivity. Qed.
Lemma installs_one (P : list command -> Prop) w c : P [c] -> installs P w (then_ (output c w) (fun _ w => (w, Ok tt))).
Proof.
  intros H. destruct (then_ (output c w) (fun _ w => (w, Ok tt))) as [w' r] eqn:E. apply then_output in E. left. exists [c], [c]. split; [exact H|].
  destruct E as [(out & _ & C & E)|(E & -> & C)].
  - injection E as <- <-. split; [left; auto|]. reflexivity.
  - split; [right; split; [exact C|]; destruct E as [->| ->]; cbn; eauto|reflexivity].
Qed.
Lemma install_node_spec w : installs (node_packages (cw_ran w)) w (install_node_modules root exists_at ends w).
Proof.
  unfold install_node_modules, try_exists. destruct (exists_at (cw_ran w) (s2t "node_modules")) as [[|]|] eqn:E1; cbn [then_].
  - apply installs_nothing. apply np_there. exact E1.
  - destruct (exists_at (cw_ran w) (s2t "pnpm-lock.yaml")) as [[|]|] eqn:E2; cbn [then_].
    + apply installs_one. apply np_pnpm; assumption.
    + destruct (exists_at (cw_ran w) (s2t "yarn.lock")) as [[|]|] eqn:E3; cbn [then_].
      * apply installs_one. apply np_yarn; assumption.
      * apply installs_one. apply np_npm; assumption.
      * right. split; [|reflexivity]. intros p H. inversion H; congruence.
    + right. split; [|reflexivity]. intros p H. inversion H; congruence.
  - right. split; [|reflexivity]. intros p H. inversion H; congruence.
Qed.
Definition install_of (k : kind) : cworld -> cworld * res cerror unit :=
  match k with
  | KRust _ | KGo => install_nothing | KPhp => install_php root exists_at ends | KFoundry => install_foundry root exists_at ends
  | _ => install_node_modules root exists_at ends end.
Lemma installs_iff (P Q : list command -> Prop) w x : (forall p, P p <-> Q p) -> installs P w x -> installs Q w x.
Proof.
  intros I [(p & d & H & R)|[N E]]; [left; exists p, d; split; [apply I, H|exact R]|right; split; [|exact E]]. intros p H. apply (N p), I, H.
Qed.
Lemma install_spec k w : installs (packages (cw_ran w) k) w (install_of k w).
Proof.
  destruct k; cbn [install_of].
  - apply installs_nothing. constructor.
  - apply installs_nothing. constructor.
  - unfold install_php, try_exists. destruct (exists_at (cw_ran w) (s2t "vendor")) as [[|]|] eqn:E; cbn [then_].
    + apply installs_nothing. apply pk_php_there. exact E.
    + apply installs_one. apply pk_php. exact E.
    + right. split; [|reflexivity]. intros p H. inversion H; congruence.
  - unfold install_foundry, try_exists. destruct (exists_at (cw_ran w) (s2t "package.json")) as [[|]|] eqn:E; cbn [then_].
    + eapply installs_iff; [|apply install_node_spec]. intros p. split; [intros H; apply pk_foundry; assumption|]. intros H; inversion H; congruence.
    + apply installs_nothing. apply pk_foundry_none. exact E.
    + right. split; [|reflexivity]. intros p H. inversion H; congruence.
  - eapply installs_iff; [|apply install_node_spec]. intros p. split; [intros H; constructor; assumption|]. intros H; inversion H; congruence.
  - eapply installs_iff; [|apply install_node_spec]. intros p. split; [intros H; constructor; assumption|]. intros H; inversion H; congruence.
Qed.

(** The file is one the back end knows. *)
Definition known_file (k : kind) (rel : path) : Prop := rel <> [] /\ match k with KRust flags => flags (root ++ rel) <> None | _ => True end.
Definition low_of (k : kind) : run_low :=
  match k with KRust flags => rust_low flags | KGo => go_low root | KPhp => php_low root | _ => foundry_low root end.
Lemma low_dry k rel : known_file k rel -> collects k = false -> dry_run_command (low_of k) args (root ++ rel) = Ok (whole_file root args k rel).
Proof.
  intros [N K] C. destruct k as [flags| | | | |]; try discriminate; unfold dry_run_command; cbn [low_of rust_low go_low php_low foundry_low to_run_source_file].
  - unfold rust_test_command. cbn [whole_file]. destruct (flags (root ++ rel)); [|congruence]. cbn [bind]. unfold add_args. cbn. reflexivity.
  - unfold go_test_command, package_path. rewrite below_dir by exact N. reflexivity.
  - rewrite below_app. reflexivity.
  - unfold foundry_test_command. rewrite below_app. reflexivity.
Qed.
Lemma low_check k rel : known_file k rel -> collects k = false -> build_command (low_of k) args (root ++ rel) = Ok (check_file root args k rel).
Proof.
  intros [N K] C. destruct k as [flags| | | | |]; try discriminate; unfold build_command; cbn [low_of rust_low go_low php_low foundry_low to_build_source_file].
  - unfold rust_build, rust_test_command. cbn [check_file]. destruct (flags (root ++ rel)); [|congruence]. cbn [bind]. unfold add_args. cbn [c_program c_args c_env c_dir app].
    rewrite <- app_assoc. reflexivity.
  - unfold go_build, go_test_command, package_path. rewrite below_dir by exact N. reflexivity.
  - reflexivity.
  - reflexivity.
Qed.
Lemma low_test k test rel : known_file k rel -> collects k = false ->
  exists check, exec_commands (low_of k) args test (root ++ rel) = Ok (check_file root args k rel, one_test root args k test rel, check).
Proof.
  intros [N K] C. destruct k as [flags| | | | |]; try discriminate; unfold exec_commands; cbn [low_of rust_low go_low php_low foundry_low to_build_test to_run_test].
  - unfold rust_build, rust_test_command. cbn [check_file one_test]. destruct (flags (root ++ rel)); [|congruence]. cbn [bind]. unfold add_args. cbn [c_program c_args c_env c_dir app].
    rewrite <- !app_assoc. eexists. reflexivity.
  - unfold go_build, go_test_command, package_path. rewrite below_dir by exact N. cbn [bind]. unfold add_args. cbn [c_program c_args c_env c_dir app one_test check_file]. rewrite ?app_nil_r. eexists. reflexivity.
  - rewrite below_app. cbn [bind]. unfold add_args. cbn [c_program c_args c_env c_dir app one_test check_file]. rewrite ?app_nil_r. eexists. reflexivity.
  - unfold foundry_test_command. rewrite below_app. cbn [bind]. unfold add_args. cbn [c_program c_args c_env c_dir app one_test check_file]. rewrite ?app_nil_r. eexists. reflexivity.
Qed.
Lemma full_under rel : full_path (root ++ rel) = under root rel. Proof. reflexivity. Qed.

Notation ad k := (adapter_of k root args exists_at ends denied extract).

(** The messages in the output of the last command can be read. *)
Definition readable (k : kind) (w : cworld) : Prop :=
  collects k = true -> exists c ran out ms, cw_ran w = c :: ran /\ ends ran c = Some (true, out) /\ extract out = Some ms.

(** A dry run: install what is missing, check (Hardhat), run the file; each only if what came before succeeded. It succeeds
    iff all does, and the names of tests can be read from the output where they are needed. *)
Theorem C71_dry_run : forall k rel w w' r, known_file k rel -> ad_dry_run (ad k) (root ++ rel) w = (w', r) ->
  (exists plan executed ok, packages (cw_ran w) k plan /\
     carried_out (cw_ran w) (plan ++ before_dry_run root args k rel ++ [whole_file root args k rel]) executed ok /\
     cw_ran w' = rev executed ++ cw_ran w /\ (r = Ok tt <-> ok = true /\ readable k w') /\ r <> Panic) \/
  ((forall plan, ~ packages (cw_ran w) k plan) /\ w' = w /\ r = Err CLook).
Proof.
  intros k rel w w' r K H.
  assert (Inst : exists f, ad_dry_run (ad k) (root ++ rel) w = then_ (install_of k w) (fun _ => f) /\
     forall w1 w' r, f w1 = (w', r) -> exists executed ok, carried_out (cw_ran w1) (before_dry_run root args k rel ++ [whole_file root args k rel]) executed ok /\
        cw_ran w' = rev executed ++ cw_ran w1 /\ (r = Ok tt <-> ok = true /\ readable k w') /\ r <> Panic).
  { destruct (collects k) eqn:C.
    - assert (In1 : forall c w1 w' r, inner_dry_run ends extract (root ++ rel) c w1 = (w', r) ->
        exists ok, carried_out (cw_ran w1) [c] [c] ok /\ cw_ran w' = c :: cw_ran w1 /\ (r = Ok tt <-> ok = true /\ readable k w') /\ r <> Panic).
      { intros c w1 w2 r1 E. unfold inner_dry_run in E. apply then_output in E. destruct E as [(out & E & Co & F)|(E & -> & Co)].
        - exists true. split; [exact Co|]. destruct (extract out) as [ms|] eqn:X; injection F as <- <-; cbn [cw_ran].
          + split; [reflexivity|]. split; [|discriminate]. split; [intros _|reflexivity]. split; [reflexivity|]. intros _. exists c, (cw_ran w1), out, ms. auto.
          + split; [reflexivity|]. split; [|discriminate]. split; [discriminate|]. intros [_ R]. destruct (R C) as (c' & ran & out' & ms & R1 & R2 & R3). injection R1 as <- <-. congruence.
        - exists false. split; [exact Co|]. split; [reflexivity|]. split; [|destruct E as [->| ->]; discriminate]. split; [destruct E as [->| ->]; discriminate|intros [Q _]; discriminate]. }
      destruct k; try discriminate; cbn [adapter_of hardhat_adapter vitest_adapter ad_dry_run hardhat_dry_run vitest_dry_run install_of before_dry_run app].
      + eexists. split; [reflexivity|]. intros w1 w2 r1 E. cbv beta in E. unfold hardhat_compile in E.
        match type of E with then_ (then_ (output ?c w1) ?g) ?h = _ => change (then_ (output c w1) (fun out w => then_ (g out w) h) = (w2, r1)) in E || idtac end.
        destruct (output (hardhat_compile_command root args) w1) as [w3 r3] eqn:O. apply output_spec in O. destruct O as [-> [(out & -> & E1 & Co)|[R Co]]].
        * cbn [then_] in E. apply In1 in E. destruct E as (ok & C1 & C2 & C3). cbn [cw_ran] in C1, C2.
          eexists (_ :: _), ok. split; [eapply co_next; [exact E1|exact C1]|]. split; [|exact C3]. cbn [rev app]. exact C2.
        * exists [hardhat_compile_command root args], false. destruct R as [->| ->]; cbn [then_] in E; injection E as <- <-.
          { split; [apply (co_app_stop _ [_]); exact Co|]. split; [reflexivity|]. split; [|discriminate]. split; [discriminate|intros [Q _]; discriminate]. }
          { split; [apply (co_app_stop _ [_]); exact Co|]. split; [reflexivity|]. split; [|discriminate]. split; [discriminate|intros [Q _]; discriminate]. }
      + eexists. split; [reflexivity|]. intros w1 w2 r1 E. cbv beta in E. apply In1 in E. destruct E as (ok & C1 & C2 & C3). exists [vitest_command root args (root ++ rel)], ok.
        split; [exact C1|]. split; [exact C2|exact C3].
    - assert (D : ad_dry_run (ad k) (root ++ rel) w = low_dry_run args ends (install_of k) (low_of k) (root ++ rel) w) by (destruct k; try discriminate; reflexivity).
      rewrite D. unfold low_dry_run. eexists. split; [reflexivity|]. intros w1 w2 r1 E. cbv beta in E. rewrite (low_dry k rel K C) in E. unfold lift in E. cbn [then_] in E.
      assert (B : before_dry_run root args k rel = []) by (destruct k; try discriminate; reflexivity). rewrite B. cbn [app].
      apply then_output in E. destruct E as [(out & E & Co & F)|(E & -> & Co)].
      + injection F as <- <-. exists [whole_file root args k rel], true. split; [exact Co|]. split; [reflexivity|]. split; [|discriminate]. split; [|reflexivity]. intros _. split; [reflexivity|intros Q; congruence].
      + exists [whole_file root args k rel], false. split; [exact Co|]. split; [reflexivity|]. split; [|destruct E as [->| ->]; discriminate]. split; [destruct E as [->| ->]; discriminate|intros [Q _]; discriminate]. }
  destruct Inst as (f & Ef & Hf). rewrite Ef in H. destruct (install_spec k w) as [(plan & d & P & R & Fx)|[N X]].
  - destruct (install_of k w) as [w1 r1]. cbn [fst snd] in R, Fx. left. destruct R as [[Co ->]|[Co (e & ->)]]; cbn [then_] in H.
    + apply Hf in H. destruct H as (ex & ok & C1 & C2 & C3). subst w1. cbn [cw_ran] in C1, C2. exists plan, (d ++ ex), ok. split; [exact P|]. split; [eapply co_app; eassumption|].
      split; [|exact C3]. rewrite C2, rev_app_distr, app_assoc. reflexivity.
    + injection H as <- <-. subst w1. exists plan, d, false. split; [exact P|]. split; [apply co_app_stop; exact Co|]. split; [reflexivity|]. split; [|discriminate].
      split; [discriminate|intros [Q _]; discriminate].
  - right. rewrite X in H. cbn [then_] in H. injection H as <- <-. auto.
Qed.

(** A check of a file that has been changed: one command, and it is what decides. *)
Theorem C71_build : forall k rel w w' r, known_file k rel -> ad_build (ad k) (root ++ rel) w = (w', r) ->
  w' = CW (check_file root args k rel :: cw_ran w) (cw_known w) (cw_warned w) /\
  (r = Ok tt <-> exists out, ends (cw_ran w) (check_file root args k rel) = Some (true, out)) /\ r <> Panic.
Proof.
  intros k rel w w' r K H.
  assert (E : ad_build (ad k) (root ++ rel) w = then_ (output (check_file root args k rel) w) (fun _ w => (w, Ok tt))).
  { destruct (collects k) eqn:C; [destruct k; try discriminate; reflexivity|].
    assert (D : ad_build (ad k) (root ++ rel) w = low_build args ends (low_of k) (root ++ rel) w) by (destruct k; try discriminate; reflexivity).
    rewrite D. unfold low_build. rewrite (low_check k rel K C). reflexivity. }
  rewrite E in H. apply then_output in H. destruct H as [(out & Eo & _ & F)|(R & -> & Co)].
  - injection F as <- <-. split; [reflexivity|]. split; [|discriminate]. split; [eauto|reflexivity].
  - split; [reflexivity|]. split; [|destruct R as [->| ->]; discriminate]. split; [destruct R as [->| ->]; discriminate|].
    intros (out & Eo). inversion Co as [|? ? ? N|? ? ? ? ? ? ? Q]; subst; [destruct (N _ Eo)|inversion Q].
Qed.

(** The name of the test was among the messages of a dry run of the file. *)
Definition found (w : cworld) (p : path) (test : text) : Prop := exists m, cw_known w p = Some m /\ m test = Found.

(** An execution: the check, and if it succeeds the test; for back ends that collect names, only if the name is known. *)
Theorem C71_exec : forall k test rel w w' r, known_file k rel -> ad_exec (ad k) test (root ++ rel) w = (w', r) ->
  exists executed ok, carried_out (cw_ran w) (before_test root args k rel) executed ok /\ cw_ran w' = rev executed ++ cw_ran w /\
  (forall c, r = Ok (Some c) <-> ok = true /\ c = one_test root args k test rel /\ (collects k = true -> found w (root ++ rel) test)) /\
  (collects k = false -> (r = Ok None <-> exists out, ends (cw_ran w) (check_file root args k rel) = Some (false, out)) /\ r <> Panic) /\
  (forall p t, found w' p t <-> found w p t).
Proof.
  intros k test rel w w' r K H. destruct (collects k) eqn:C.
  - assert (In1 : forall w1 w' r, inner_exec denied test (root ++ rel) (whole_file root args k rel) w1 = (w', r) ->
      cw_ran w' = cw_ran w1 /\ (forall c, r = Ok (Some c) <-> c = one_test root args k test rel /\ found w1 (root ++ rel) test) /\ (forall p t, found w' p t <-> found w1 p t)).
    { intros w1 w2 r1 E. unfold inner_exec in E.
      assert (O : one_test root args k test rel = whole_file root args k rel) by (destruct k; try discriminate; reflexivity). rewrite O. unfold it_exec in E.
      destruct (cw_known w1 (root ++ rel)) as [m|] eqn:Km.
      - destruct (m test) eqn:Mt.
        + destruct denied; injection E as <- <-; cbn [cw_ran].
          * split; [reflexivity|]. split; [|reflexivity]. intros c. split; [discriminate|]. intros [_ (m' & A & B)]. congruence.
          * split; [reflexivity|]. split; [intros c; split; [discriminate|]; intros [_ (m' & A & B)]; congruence|].
            intros p t. unfold found. cbn [cw_known]. unfold it_set. destruct (path_eqb (root ++ rel) p) eqn:P; [|reflexivity]. apply path_eqb_eq in P. subst p. rewrite Km. split.
            { intros (m' & A & B). injection A as <-. unfold msg_set in B. destruct (text_eqb test t); [discriminate|]. exists m. auto. }
            { intros (m' & A & B). injection A as <-. eexists. split; [reflexivity|]. unfold msg_set. destruct (text_eqb test t) eqn:T; [|exact B]. apply text_eqb_eq in T. subst t. congruence. }
        + injection E as <- <-. cbn [cw_ran]. split; [reflexivity|]. split; [|reflexivity]. intros c. split; [intros Q; injection Q as <-; split; [reflexivity|exists m; auto]|]. intros [-> _]. reflexivity.
        + injection E as <- <-. cbn [cw_ran]. split; [reflexivity|]. split; [|reflexivity]. intros c. split; [discriminate|]. intros [_ (m' & A & B)]. congruence.
      - injection E as <- <-. cbn [cw_ran]. split; [reflexivity|]. split; [|reflexivity]. intros c. split; [discriminate|]. intros [_ (m' & A & B)]. congruence. }
    destruct k; try discriminate; cbn [adapter_of hardhat_adapter vitest_adapter ad_exec before_test] in *.
    + unfold hardhat_exec, hardhat_compile in H. destruct (output (hardhat_compile_command root args) w) as [w1 r1] eqn:O. apply output_spec in O.
      destruct O as [-> [(out & -> & E1 & Co)|[R Co]]]; cbn [then_] in H.
      * apply In1 in H. destruct H as (A & B & D). cbn [cw_ran] in A. exists [hardhat_compile_command root args], true. split; [exact Co|]. split; [exact A|].
        split; [|split; [discriminate|exact D]]. intros c. rewrite B. split; [intros [-> F]; auto|]. intros (_ & -> & F). split; [reflexivity|]. apply F. reflexivity.
      * exists [hardhat_compile_command root args], false. split; [exact Co|]. destruct R as [->| ->]; cbn [then_] in H; injection H as <- <-.
        { split; [reflexivity|]. split; [|split; [discriminate|reflexivity]]. intros c. split; [discriminate|intros (Q & _); discriminate]. }
        { split; [reflexivity|]. split; [|split; [discriminate|reflexivity]]. intros c. split; [discriminate|intros (Q & _); discriminate]. }
    + apply In1 in H. destruct H as (A & B & D). exists [], true. split; [constructor|]. split; [exact A|]. split; [|split; [discriminate|exact D]].
      intros c. rewrite B. split; [intros [-> F]; auto|]. intros (_ & -> & F). split; [reflexivity|]. apply F. reflexivity.
  - destruct (low_test k test rel K C) as (check & E).
    assert (D : ad_exec (ad k) test (root ++ rel) w = low_exec args ends (low_of k) test (root ++ rel) w) by (destruct k; try discriminate; reflexivity).
    rewrite D in H. unfold low_exec in H. rewrite E in H. unfold lift in H. cbn [then_] in H.
    assert (B : before_test root args k rel = [check_file root args k rel]) by (destruct k; try discriminate; reflexivity). rewrite B.
    destruct (output (check_file root args k rel) w) as [w1 r1] eqn:O. pose proof O as O'. apply output_spec in O. destruct O as [-> [(out & -> & E1 & Co)|[R Co]]].
    + injection H as <- <-. exists [check_file root args k rel], true. split; [exact Co|]. split; [reflexivity|]. split; [|split; [|reflexivity]].
      * intros c. split; [intros Q; injection Q as <-; split; [reflexivity|split; [reflexivity|discriminate]]|]. intros (_ & -> & _). reflexivity.
      * intros _. split; [|discriminate]. split; [discriminate|]. intros (o & Q). congruence.
    + exists [check_file root args k rel], false. split; [exact Co|]. unfold M_Commands.output in O'. injection O' as Z.
      destruct R as [->| ->]; injection H as <- <-; (split; [reflexivity|]; split; [|split; [|reflexivity]]).
      * intros c. split; [discriminate|intros (Q & _); discriminate].
      * intros _. split; [|discriminate]. split; [discriminate|]. intros (o & Q). rewrite Q in Z. discriminate.
      * intros c. split; [discriminate|intros (Q & _); discriminate].
      * intros _. split; [|discriminate]. split; [intros _|reflexivity]. destruct (ends (cw_ran w) (check_file root args k rel)) as [[[|] o]|]; try discriminate. eauto.
Qed.

(** ** Sequences of requests *)
Definition w0 : cworld := CW [] (fun _ => None) [].
Definition request_for (k : kind) (r : request) : Prop :=
  exists rel, known_file k rel /\ (r = RDry (root ++ rel) \/ r = RBuild (root ++ rel) \/ exists t id, r = RExec t (root ++ rel) id).
(** A dry run among the requests succeeded, for this file, and the test is among the messages of its output. *)
Definition seen (k : kind) (rs : list request) (p : path) (t : text) : Prop :=
  exists rs1 rs2 w1 c ran out ms, rs = rs1 ++ RDry p :: rs2 /\ ad_dry_run (ad k) p (serve_all (ad k) rs1 w0) = (w1, Ok tt) /\
    cw_ran w1 = c :: ran /\ ends ran c = Some (true, out) /\ extract out = Some ms /\ In t ms.

Lemma serve_all_app a rs1 rs2 : forall w, serve_all a (rs1 ++ rs2) w = serve_all a rs2 (serve_all a rs1 w).
Proof. induction rs1 as [|r rs1 IH]; intros w; [reflexivity|]. cbn [app serve_all]. apply IH. Qed.
Lemma fold_found ms : forall m t, fold_left (fun m t => msg_set t Found m) ms m t = Found <-> m t = Found \/ In t ms.
Proof.
  induction ms as [|x ms IH]; intros m t; cbn [fold_left]; [split; [auto|intros [H|[]]; exact H]|]. rewrite IH. unfold msg_set. destruct (text_eqb x t) eqn:E.
  - apply text_eqb_eq in E. subst x. split; [right; left; reflexivity|left; reflexivity].
  - apply text_eqb_neq in E. split; [intros [H|H]; [left; exact H|right; right; exact H]|]. intros [H|[H|H]]; [left; exact H|congruence|right; exact H].
Qed.
Lemma found_dry_run p ms w q t : found (CW (cw_ran w) (it_dry_run p ms (cw_known w)) (cw_warned w)) q t <-> found w q t \/ (q = p /\ In t ms).
Proof.
  unfold found, it_dry_run, it_set. cbn [cw_known]. destruct (path_eqb p q) eqn:E.
  - apply path_eqb_eq in E. subst q. split.
    + intros (m & A & B). injection A as <-. apply fold_found in B. destruct B as [B|B]; [|right; auto]. left. destruct (cw_known w p) as [m|]; [exists m; auto|discriminate].
    + intros [(m & A & B)|[_ B]].
      * rewrite A. eexists. split; [reflexivity|]. apply fold_found. left. exact B.
      * eexists. split; [reflexivity|]. apply fold_found. right. exact B.
  - split; [left; exact H|]. intros [H|[-> _]]; [exact H|]. assert (path_eqb p p = true) by (apply path_eqb_eq; reflexivity). congruence.
Qed.
Lemma dry_found k p w w' r : collects k = true -> ad_dry_run (ad k) p w = (w', r) -> forall q t, found w' q t <->
  found w q t \/ (q = p /\ r = Ok tt /\ exists c ran out ms, cw_ran w' = c :: ran /\ ends ran c = Some (true, out) /\ extract out = Some ms /\ In t ms).
Proof.
  intros C H.
  assert (In1 : forall c w1 w' r, inner_dry_run ends extract p c w1 = (w', r) -> forall q t, found w' q t <->
    found w1 q t \/ (q = p /\ r = Ok tt /\ exists c ran out ms, cw_ran w' = c :: ran /\ ends ran c = Some (true, out) /\ extract out = Some ms /\ In t ms)).
  { intros c w1 w2 r1 E q t. unfold inner_dry_run in E. apply then_output in E. destruct E as [(out & E & _ & F)|(E & -> & _)].
    - destruct (extract out) as [ms|] eqn:X; injection F as <- <-; (etransitivity; [apply (found_dry_run p _ (CW (c :: cw_ran w1) (cw_known w1) (cw_warned w1)))|]); cbn [cw_ran].
      + split; (intros [H0|H0]; [left; exact H0|right]).
        * destruct H0 as [-> Ht]. split; [reflexivity|]. split; [reflexivity|]. exists c, (cw_ran w1), out, ms. auto.
        * destruct H0 as (-> & _ & c' & ran & out' & ms' & R1 & R2 & R3 & R4). split; [reflexivity|]. injection R1 as <- <-. congruence.
      + split; [intros [H0|[_ []]]; left; exact H0|]. intros [H0|(_ & Q & _)]; [left; exact H0|discriminate].
    - change (found (CW (c :: cw_ran w1) (cw_known w1) (cw_warned w1)) q t) with (found w1 q t). split; [left; assumption|].
      intros [H0|(_ & Q & _)]; [exact H0|]. destruct E as [->| ->]; discriminate. }
  assert (Fw : forall k', installs (packages (cw_ran w) k') w (install_of k' w) -> forall q t, found (fst (install_of k' w)) q t <-> found w q t).
  { intros k' [(plan & d & _ & _ & ->)|[_ ->]] q t; reflexivity. }
  specialize (Fw k (install_spec k w)).
  destruct k; try discriminate; cbn [adapter_of hardhat_adapter vitest_adapter ad_dry_run install_of] in *.
  - unfold hardhat_dry_run in H. destruct (install_node_modules root exists_at ends w) as [w1 [[]|e|]]; cbn [then_ fst] in *.
    + unfold hardhat_compile in H. destruct (output (hardhat_compile_command root args) w1) as [w2 r2] eqn:O. apply output_spec in O.
      destruct O as [-> [(out & -> & _)|[[->| ->] _]]]; cbn [then_] in H.
      * intros q t. etransitivity; [apply (In1 _ _ _ _ H)|]. change (found (CW (hardhat_compile_command root args :: cw_ran w1) (cw_known w1) (cw_warned w1)) q t) with (found w1 q t). rewrite Fw. reflexivity.
      * injection H as <- <-. intros q t. etransitivity; [apply (Fw q t)|]. split; [left; assumption|]. intros [H0|(_ & Q & _)]; [exact H0|discriminate].
      * injection H as <- <-. intros q t. etransitivity; [apply (Fw q t)|]. split; [left; assumption|]. intros [H0|(_ & Q & _)]; [exact H0|discriminate].
    + injection H as <- <-. intros q t. etransitivity; [apply (Fw q t)|]. split; [left; assumption|]. intros [H0|(_ & Q & _)]; [exact H0|discriminate].
    + injection H as <- <-. intros q t. etransitivity; [apply (Fw q t)|]. split; [left; assumption|]. intros [H0|(_ & Q & _)]; [exact H0|discriminate].
  - unfold vitest_dry_run in H. destruct (install_node_modules root exists_at ends w) as [w1 [[]|e|]]; cbn [then_ fst] in *.
    + intros q t. etransitivity; [apply (In1 _ _ _ _ H)|]. rewrite Fw. reflexivity.
    + injection H as <- <-. intros q t. etransitivity; [apply (Fw q t)|]. split; [left; assumption|]. intros [H0|(_ & Q & _)]; [exact H0|discriminate].
    + injection H as <- <-. intros q t. etransitivity; [apply (Fw q t)|]. split; [left; assumption|]. intros [H0|(_ & Q & _)]; [exact H0|discriminate].
Qed.
Lemma found_seen k rs : collects k = true -> Forall (request_for k) rs -> forall p t, found (serve_all (ad k) rs w0) p t <-> seen k rs p t.
Proof.
  intros C. induction rs as [|r rs IH] using rev_ind; intros G p t.
  - cbn [serve_all]. unfold found, w0. cbn [cw_known]. split; [intros (m & Q & _); discriminate|]. intros (rs1 & rs2 & w1 & c & ran & out & ms & Q & _). destruct rs1; discriminate.
  - apply Forall_app in G. destruct G as [G1 G2]. inversion G2 as [|? ? (rel & K & Hr) _]; subst. specialize (IH G1). rewrite serve_all_app. cbn [serve_all].
    assert (Mono : seen k rs p t -> seen k (rs ++ [r]) p t).
    { intros (rs1 & rs2 & w1 & c & ran & out & ms & -> & H). exists rs1, (rs2 ++ [r]), w1, c, ran, out, ms. split; [rewrite <- app_assoc; reflexivity|exact H]. }
    assert (Last : seen k (rs ++ [r]) p t -> seen k rs p t \/ (r = RDry p /\ exists w1 c ran out ms, ad_dry_run (ad k) p (serve_all (ad k) rs w0) = (w1, Ok tt) /\
        cw_ran w1 = c :: ran /\ ends ran c = Some (true, out) /\ extract out = Some ms /\ In t ms)).
    { intros (rs1 & rs2 & w1 & c & ran & out & ms & Q & H). destruct rs2 as [|x rs2 _] using rev_ind.
      - apply app_inj_tail in Q. destruct Q as [-> ->]. right. split; [reflexivity|]. exists w1, c, ran, out, ms. exact H.
      - rewrite app_comm_cons, app_assoc in Q. apply app_inj_tail in Q. destruct Q as [-> ->]. left. exists rs1, rs2, w1, c, ran, out, ms. auto. }
    destruct Hr as [->|[->|(t' & id & ->)]]; cbn [serve].
    + destruct (ad_dry_run (ad k) (root ++ rel) (serve_all (ad k) rs w0)) as [w1 r1] eqn:D. cbn [fst]. rewrite (dry_found k _ _ _ _ C D). rewrite IH. split.
      * intros [H|(-> & -> & c & ran & out & ms & H)]; [apply Mono, H|]. exists rs, [], w1, c, ran, out, ms. auto.
      * intros H. apply Last in H. destruct H as [H|(Q & w2 & c & ran & out & ms & D' & H)]; [left; exact H|]. injection Q as <-. rewrite D in D'. injection D' as <- ->.
        right. split; [reflexivity|]. split; [reflexivity|]. exists c, ran, out, ms. exact H.
    + destruct (ad_build (ad k) (root ++ rel) (serve_all (ad k) rs w0)) as [w1 r1] eqn:D. cbn [fst]. apply C71_build in D; [|exact K]. destruct D as [-> _].
      etransitivity; [apply (IH p t)|]. split; [exact Mono|]. intros H. apply Last in H. destruct H as [H|[Q _]]; [exact H|discriminate].
    + destruct (ad_exec (ad k) t' (root ++ rel) (serve_all (ad k) rs w0)) as [w1 r1] eqn:D. apply C71_exec in D; [|exact K]. destruct D as (ex & ok & _ & _ & _ & _ & F).
      assert (F' : found w1 p t <-> seen k (rs ++ [RExec t' (root ++ rel) id]) p t).
      { rewrite F, IH. split; [exact Mono|]. intros H. apply Last in H. destruct H as [H|[Q _]]; [exact H|discriminate]. }
      destruct r1 as [[c|]|e|]; exact F'.
Qed.

(** Whatever was asked before: for a test, the check is executed, and then the test if the check succeeded; with Hardhat
    and Vitest, only if a dry run of the same file has shown the test. *)
Lemma executed : forall k rs test rel id, Forall (request_for k) rs -> known_file k rel ->
  let w := serve_all (ad k) rs w0 in let w' := serve (ad k) (RExec test (root ++ rel) id) w in
  exists checked ok, carried_out (cw_ran w) (before_test root args k rel) checked ok /\
    ((ok = true /\ (collects k = true -> seen k rs (root ++ rel) test) /\ cw_ran w' = with_removal id (one_test root args k test rel) :: rev checked ++ cw_ran w) \/
     (~ (ok = true /\ (collects k = true -> seen k rs (root ++ rel) test)) /\ cw_ran w' = rev checked ++ cw_ran w)).
Proof.
  intros k rs test rel id G K w w'. subst w'. cbn [serve].
  destruct (ad_exec (ad k) test (root ++ rel) w) as [w1 r1] eqn:D. apply C71_exec in D; [|exact K]. destruct D as (ex & ok & Co & Rn & R & _ & _). exists ex, ok. split; [exact Co|].
  assert (FS : (collects k = true -> found w (root ++ rel) test) <-> (collects k = true -> seen k rs (root ++ rel) test)).
  { split; intros H C; specialize (H C); apply (found_seen k rs C G); exact H. }
  destruct r1 as [[c|]|e|].
  - left. destruct (proj1 (R c) eq_refl) as (-> & -> & F). split; [reflexivity|]. split; [apply FS, F|]. cbn [cw_ran]. rewrite Rn. reflexivity.
  - right. split; [|exact Rn]. intros [-> F]. assert (Q : Ok (A := option command) (E := cerror) None = Ok (Some (one_test root args k test rel))) by (apply R; split; [reflexivity|split; [reflexivity|apply FS, F]]). discriminate.
  - right. split; [|exact Rn]. intros [-> F]. assert (Q : Err (A := option command) (E := cerror) e = Ok (Some (one_test root args k test rel))) by (apply R; split; [reflexivity|split; [reflexivity|apply FS, F]]). discriminate.
  - right. split; [|exact Rn]. intros [-> F]. assert (Q : Panic (A := option command) (E := cerror) = Ok (Some (one_test root args k test rel))) by (apply R; split; [reflexivity|split; [reflexivity|apply FS, F]]). discriminate.
Qed.

Lemma removal_removing id c : removing id c (with_removal id c).
Proof. split; [reflexivity|]. split; [reflexivity|]. split; [reflexivity|]. exists (c_env c). split; [reflexivity|tauto]. Qed.
Theorem C71_executed : forall k rs test rel id, Forall (request_for k) rs -> known_file k rel ->
  let w := serve_all (ad k) rs w0 in let w' := serve (ad k) (RExec test (root ++ rel) id) w in
  exists checked ok, carried_out (cw_ran w) (before_test root args k rel) checked ok /\
    ((ok = true /\ (collects k = true -> seen k rs (root ++ rel) test) /\
      exists c, removing id (one_test root args k test rel) c /\ cw_ran w' = c :: rev checked ++ cw_ran w) \/
     (~ (ok = true /\ (collects k = true -> seen k rs (root ++ rel) test)) /\ cw_ran w' = rev checked ++ cw_ran w)).
Proof.
  intros k rs test rel id G K w w'. destruct (executed k rs test rel id G K) as (ch & ok & H1 & H2). exists ch, ok. split; [exact H1|].
  destruct H2 as [(H2 & H3 & H4)|H2]; [left|right; exact H2]. split; [exact H2|]. split; [exact H3|]. eexists. split; [apply removal_removing|exact H4].
Qed.

(** ** Tests whose names are not known *)
(** What is known of names, and what warnings say, agree. *)
Record agree (w : cworld) : Prop := {
  ag_once : NoDup (cw_warned w);
  ag_said : forall p t, In (p, t) (cw_warned w) -> exists m, cw_known w p = Some m /\ m t <> NotFound;
  ag_marked : forall p m t, cw_known w p = Some m -> m t = WarningEmitted -> In (p, t) (cw_warned w)
}.
Lemma agree_same w ran : agree w -> agree (CW ran (cw_known w) (cw_warned w)).
Proof. intros [A B C]. constructor; assumption. Qed.
Lemma fold_state ms : forall m t, fold_left (fun m t => msg_set t Found m) ms m t = Found \/ fold_left (fun m t => msg_set t Found m) ms m t = m t.
Proof.
  induction ms as [|x ms IH]; intros m t; cbn [fold_left]; [right; reflexivity|]. destruct (IH (msg_set x Found m) t) as [->|E]; [left; reflexivity|]. rewrite E.
  unfold msg_set. destruct (text_eqb x t); [left|right]; reflexivity.
Qed.
Lemma agree_dry w ran p ms : agree w -> agree (CW ran (it_dry_run p ms (cw_known w)) (cw_warned w)).
Proof.
  intros [A B C]. constructor; cbn [cw_known cw_warned]; [exact A| |]; unfold it_dry_run, it_set.
  - intros q t H. destruct (B q t H) as (m & E & N). destruct (path_eqb p q) eqn:P; [|exists m; auto]. apply path_eqb_eq in P. subst q. rewrite E.
    eexists. split; [reflexivity|]. destruct (fold_state ms m t) as [->| ->]; [discriminate|exact N].
  - intros q m t. destruct (path_eqb p q) eqn:P; [|apply C]. apply path_eqb_eq in P. subst q. intros E W. injection E as <-.
    destruct (fold_state ms (match cw_known w p with Some m => m | None => fun _ => NotFound end) t) as [Q|Q]; [congruence|]. rewrite Q in W. destruct (cw_known w p) as [m|] eqn:M; [|discriminate]. exact (C p m t M W).
Qed.
Definition noted (p : path) (w w' : cworld) : Prop :=
  cw_warned w' = cw_warned w /\ (cw_known w' = cw_known w \/ exists ms, cw_known w' = it_dry_run p ms (cw_known w)).
Lemma dry_noted k p w w' r : ad_dry_run (ad k) p w = (w', r) -> noted p w w'.
Proof.
  intros H.
  assert (In1 : forall c w1 w' r, inner_dry_run ends extract p c w1 = (w', r) -> noted p w1 w').
  { intros c w1 w2 r1 E. unfold inner_dry_run in E. apply then_output in E. destruct E as [(out & E & _ & F)|(E & -> & _)]; [|split; [reflexivity|left; reflexivity]].
    destruct (extract out); injection F as <- <-; (split; [reflexivity|right; eexists; reflexivity]). }
  assert (Fw : cw_known (fst (install_of k w)) = cw_known w /\ cw_warned (fst (install_of k w)) = cw_warned w).
  { destruct (install_spec k w) as [(plan & d & _ & _ & ->)|[_ ->]]; split; reflexivity. }
  assert (Nil : noted p w (fst (install_of k w))) by (split; [apply Fw|left; apply Fw]).
  destruct (collects k) eqn:C.
  - destruct k; try discriminate; cbn [adapter_of hardhat_adapter vitest_adapter ad_dry_run install_of] in *.
    + unfold hardhat_dry_run in H. destruct (install_node_modules root exists_at ends w) as [w1 [[]|e|]]; cbn [then_ fst] in *.
      * unfold hardhat_compile in H. destruct (output (hardhat_compile_command root args) w1) as [w2 r2] eqn:O. apply output_spec in O.
        destruct O as [-> [(out & -> & _)|[[->| ->] _]]]; cbn [then_] in H.
        { apply In1 in H. destruct H as [A B]. cbn [cw_known cw_warned] in A, B. destruct Fw as [Fw1 Fw2]. rewrite Fw1 in B. rewrite Fw2 in A. split; assumption. }
        { injection H as <- <-. exact Nil. }
        { injection H as <- <-. exact Nil. }
      * injection H as <- <-. exact Nil.
      * injection H as <- <-. exact Nil.
    + unfold vitest_dry_run in H. destruct (install_node_modules root exists_at ends w) as [w1 [[]|e|]]; cbn [then_ fst] in *.
      * apply In1 in H. destruct H as [A B]. destruct Fw as [Fw1 Fw2]. rewrite Fw1 in B. rewrite Fw2 in A. split; assumption.
      * injection H as <- <-. exact Nil.
      * injection H as <- <-. exact Nil.
  - assert (D : ad_dry_run (ad k) p w = low_dry_run args ends (install_of k) (low_of k) p w) by (destruct k; try discriminate; reflexivity).
    rewrite D in H. unfold low_dry_run in H. destruct (install_of k w) as [w1 [[]|e|]]; cbn [then_ fst] in *; try (injection H as <- <-; exact Nil).
    destruct (dry_run_command (low_of k) args p) as [c|e|]; unfold lift in H; cbn [then_] in H; try (injection H as <- <-; exact Nil).
    apply then_output in H. destruct H as [(out & _ & _ & F)|(_ & -> & _)]; [injection F as <- <-|]; exact Nil.
Qed.
(** The step: either nothing is said, or the test, which is not known, is named, and was not named before. *)
Lemma exec_noted k test rel w w' r : known_file k rel -> denied = false -> agree w -> ad_exec (ad k) test (root ++ rel) w = (w', r) ->
  agree w' /\ ((cw_warned w' = cw_warned w /\
                (collects k = true -> carried_out (cw_ran w) (before_test root args k rel) (before_test root args k rel) true -> r = Ok None -> In (root ++ rel, test) (cw_warned w))) \/
               (cw_warned w' = (root ++ rel, test) :: cw_warned w /\ collects k = true /\ ~ found w (root ++ rel) test)).
Proof.
  intros K Dn Ag H.
  assert (In1 : forall c w1 w' r, agree w1 -> inner_exec denied test (root ++ rel) c w1 = (w', r) ->
     agree w' /\ ((cw_warned w' = cw_warned w1 /\ (r = Ok None -> In (root ++ rel, test) (cw_warned w1))) \/
                  (cw_warned w' = (root ++ rel, test) :: cw_warned w1 /\ ~ found w1 (root ++ rel) test))).
  { clear Ag H. intros c w1 w2 r1 [A B C] E. unfold inner_exec, it_exec in E. rewrite Dn in E. destruct (cw_known w1 (root ++ rel)) as [m|] eqn:Km.
    - destruct (m test) eqn:Mt.
      + injection E as <- <-. split; [|right; split; [reflexivity|intros (m' & Q & F); congruence]]. constructor; cbn [cw_known cw_warned].
        * constructor; [|exact A]. intros I. destruct (B _ _ I) as (m' & Q & N). congruence.
        * intros p t [I|I].
          { injection I as <- <-. exists (msg_set test WarningEmitted m). unfold it_set. rewrite path_eqb_refl. split; [reflexivity|]. unfold msg_set. rewrite text_eqb_refl. discriminate. }
          { destruct (B _ _ I) as (m' & Q & N). unfold it_set. destruct (path_eqb (root ++ rel) p) eqn:P; [|exists m'; auto]. apply path_eqb_eq in P. subst p. eexists. split; [reflexivity|].
            unfold msg_set. destruct (text_eqb test t); [discriminate|]. congruence. }
        * intros p m' t. unfold it_set. destruct (path_eqb (root ++ rel) p) eqn:P; [|intros Q W; right; exact (C p m' t Q W)]. apply path_eqb_eq in P. subst p. intros Q W. injection Q as <-.
          unfold msg_set in W. destruct (text_eqb test t) eqn:T; [apply text_eqb_eq in T; subst t; left; reflexivity|right; exact (C _ m t Km W)].
      + injection E as <- <-. split; [constructor; assumption|]. left. split; [reflexivity|discriminate].
      + injection E as <- <-. split; [constructor; assumption|]. left. split; [reflexivity|]. intros _. exact (C _ m test Km Mt).
    - injection E as <- <-. split; [constructor; assumption|]. left. split; [reflexivity|discriminate]. }
  destruct (collects k) eqn:C.
  - destruct k; try discriminate; cbn [adapter_of hardhat_adapter vitest_adapter ad_exec before_test] in *.
    + unfold hardhat_exec, hardhat_compile in H. destruct (output (hardhat_compile_command root args) w) as [w1 r1] eqn:O. apply output_spec in O.
      destruct O as [-> [(out & -> & E1 & Co)|[R Co]]]; cbn [then_] in H.
      * apply In1 in H; [|apply agree_same, Ag]. cbn [cw_warned] in H. destruct H as [A [[H1 H2]|[H1 H2]]]; (split; [exact A|]); [left; auto|right; auto].
      * assert (NC : ~ carried_out (cw_ran w) [hardhat_compile_command root args] [hardhat_compile_command root args] true).
        { intros Q. inversion Co as [|? ? ? N|? ? ? ? ? ? ? X]; subst; [inversion Q as [| |? ? ? out ? ? E _]; subst; exact (N _ E)|inversion X]. }
        destruct R as [->| ->]; cbn [then_] in H; injection H as <- <-; (split; [apply agree_same, Ag|]); left; (split; [reflexivity|]); intros _ Q; destruct (NC Q).
    + apply In1 in H; [|exact Ag]. destruct H as [A [[H1 H2]|[H1 H2]]]; (split; [exact A|]); [left; auto|right; auto].
  - assert (D : ad_exec (ad k) test (root ++ rel) w = low_exec args ends (low_of k) test (root ++ rel) w) by (destruct k; try discriminate; reflexivity).
    rewrite D in H. destruct (low_test k test rel K C) as (check & E). unfold low_exec in H. rewrite E in H. unfold lift in H. cbn [then_] in H.
    destruct (output (check_file root args k rel) w) as [w1 r1] eqn:O. apply output_spec in O. destruct O as [-> _].
    destruct r1 as [out|[| | | |]|]; injection H as <- <-; (split; [apply agree_same, Ag|]); left; (split; [reflexivity|]); discriminate.
Qed.

(** In any sequence of requests, if the warning is not denied: a test that is to be executed although no dry run has shown
    its name is warned about, once; no other test is warned about. *)
Theorem C71_warned : forall k rs, Forall (request_for k) rs -> denied = false ->
  NoDup (cw_warned (serve_all (ad k) rs w0)) /\
  (forall p t, In (p, t) (cw_warned (serve_all (ad k) rs w0)) ->
     collects k = true /\ exists rs1 id rs2, rs = rs1 ++ RExec t p id :: rs2 /\ ~ seen k rs1 p t) /\
  (forall rs1 t rel id rs2 w1, collects k = true -> rs = rs1 ++ RExec t (root ++ rel) id :: rs2 ->
     carried_out (cw_ran (serve_all (ad k) rs1 w0)) (before_test root args k rel) (before_test root args k rel) true ->
     ad_exec (ad k) t (root ++ rel) (serve_all (ad k) rs1 w0) = (w1, Ok None) -> In (root ++ rel, t) (cw_warned (serve_all (ad k) rs w0))).
Proof.
  intros k rs G Dn.
  assert (Step : forall rs r, Forall (request_for k) (rs ++ [r]) -> agree (serve_all (ad k) rs w0) ->
     agree (serve (ad k) r (serve_all (ad k) rs w0)) /\
     ((cw_warned (serve (ad k) r (serve_all (ad k) rs w0)) = cw_warned (serve_all (ad k) rs w0) /\
       forall t rel id w1, collects k = true -> r = RExec t (root ++ rel) id -> carried_out (cw_ran (serve_all (ad k) rs w0)) (before_test root args k rel) (before_test root args k rel) true ->
          ad_exec (ad k) t (root ++ rel) (serve_all (ad k) rs w0) = (w1, Ok None) -> In (root ++ rel, t) (cw_warned (serve_all (ad k) rs w0))) \/
      exists t p id, r = RExec t p id /\ collects k = true /\ ~ seen k rs p t /\ cw_warned (serve (ad k) r (serve_all (ad k) rs w0)) = (p, t) :: cw_warned (serve_all (ad k) rs w0))).
  { clear rs G. intros rs r G Ag. apply Forall_app in G. destruct G as [G Gr]. inversion Gr as [|? ? (rel & K & Hr) _]; subst. set (w := serve_all (ad k) rs w0) in *. destruct Hr as [->|[->|(t & id & ->)]]; cbn [serve].
    - destruct (ad_dry_run (ad k) (root ++ rel) w) as [w1 r1] eqn:D. apply dry_noted in D. destruct D as [Wn Kn]. cbn [fst]. split.
      + destruct w1 as [ran kn wn]. cbn [cw_known cw_warned] in *. subst wn. destruct Kn as [->|(ms & ->)]; [apply agree_same, Ag|apply agree_dry, Ag].
      + left. split; [exact Wn|]. intros; discriminate.
    - destruct (ad_build (ad k) (root ++ rel) w) as [w1 r1] eqn:D. apply C71_build in D; [|exact K]. destruct D as [-> _]. cbn [fst]. split; [apply agree_same, Ag|]. left. split; [reflexivity|]. intros; discriminate.
    - destruct (ad_exec (ad k) t (root ++ rel) w) as [w1 r1] eqn:D. pose proof D as D0. apply exec_noted in D; [|exact K|exact Dn|exact Ag]. destruct D as [A1 D].
      assert (A2 : agree (match r1 with Ok (Some c) => CW (with_removal id c :: cw_ran w1) (cw_known w1) (cw_warned w1) | _ => w1 end)) by (destruct r1 as [[c|]|e|]; try exact A1; apply agree_same, A1).
      assert (W2 : cw_warned (match r1 with Ok (Some c) => CW (with_removal id c :: cw_ran w1) (cw_known w1) (cw_warned w1) | _ => w1 end) = cw_warned w1) by (destruct r1 as [[c|]|e|]; reflexivity).
      assert (X : exists w2, (match (w1, r1) with (w, Ok (Some c)) => CW (with_removal id c :: cw_ran w) (cw_known w) (cw_warned w) | (w, _) => w end) = w2 /\ agree w2 /\ cw_warned w2 = cw_warned w1).
      { eexists. split; [reflexivity|]. destruct r1 as [[c|]|e|]; (split; [exact A2|reflexivity]). }
      destruct X as (w2 & X & A3 & W3). split.
      + rewrite X. exact A3.
      + rewrite X. destruct D as [[D1 D2]|(D1 & D2 & D3)].
        * left. split; [congruence|]. intros t' rel' id' w1' Cl Q Co Ex. injection Q as <- Q <-. apply app_inv_head in Q. subst rel'. rewrite D0 in Ex. injection Ex as <- ->. apply D2; auto.
        * right. exists t, (root ++ rel), id. split; [reflexivity|]. split; [exact D2|]. split; [|rewrite W3; exact D1]. intros S1. apply D3. apply (found_seen k rs D2 G). exact S1. }
  assert (All : forall rs, Forall (request_for k) rs -> agree (serve_all (ad k) rs w0)).
  { clear rs G. intros rs. induction rs as [|r rs IH] using rev_ind; intros G; [constructor; [constructor|intros ? ? []|discriminate]|].
    rewrite serve_all_app. cbn [serve_all]. apply Step; [exact G|]. apply IH. apply Forall_app in G. apply G. }
  split; [apply All, G|]. revert G. induction rs as [|r rs IH] using rev_ind; intros G.
  { split; [intros p t []|]. intros rs1 t rel id rs2 w1 _ Q. destruct rs1; discriminate. }
  rewrite serve_all_app. cbn [serve_all]. pose proof (proj1 (proj1 (Forall_app _ _ _) G)) as G1. specialize (IH G1). destruct IH as [I1 I2].
  assert (Mono : forall x, In x (cw_warned (serve_all (ad k) rs w0)) -> In x (cw_warned (serve (ad k) r (serve_all (ad k) rs w0)))).
  { intros x I. destruct (proj2 (Step rs r G (All rs G1))) as [[E _]|(t' & p' & id & _ & _ & _ & E)]; rewrite E; [exact I|right; exact I]. }
  split.
  - intros p t I. assert (Old : In (p, t) (cw_warned (serve_all (ad k) rs w0)) -> collects k = true /\ exists rs1 id rs2, rs ++ [r] = rs1 ++ RExec t p id :: rs2 /\ ~ seen k rs1 p t).
    { intros J. destruct (I1 p t J) as (Cl & rs1 & id & rs2 & -> & N). split; [exact Cl|]. exists rs1, id, (rs2 ++ [r]). split; [|exact N]. rewrite <- app_assoc. reflexivity. }
    destruct (proj2 (Step rs r G (All rs G1))) as [[E _]|(t' & p' & id & -> & Cl & N & E)]; rewrite E in I; [apply Old, I|]. destruct I as [I|I]; [|apply Old, I].
    injection I as -> ->. split; [exact Cl|]. exists rs, id, []. auto.
  - intros rs1 t rel id rs2 w1 Cl Q Co Ex. destruct rs2 as [|x rs2 _] using rev_ind.
    + apply app_inj_tail in Q. destruct Q as [-> ->]. destruct (proj2 (Step rs1 _ G (All rs1 G1))) as [[E D]|(t' & p' & id' & Q & _ & N & E)].
      * rewrite E. eapply D; eauto.
      * injection Q as <- <- <-. rewrite E. left. reflexivity.
    + rewrite app_comm_cons, app_assoc in Q. apply app_inj_tail in Q. destruct Q as [Q ->]. apply Mono. eapply I2; eauto.
Qed.

(** ** Nothing is installed twice *)
Definition installation (c : command) : Prop :=
  In c [in_root root "pnpm" [s2t "install"]; in_root root "yarn" []; in_root root "npm" [s2t "install"]; in_root root "composer" [s2t "install"]].
Definition place (k : kind) : text := match k with KPhp => s2t "vendor" | _ => s2t "node_modules" end.
Lemma installation_program c : installation c -> In (c_program c) [s2t "pnpm"; s2t "yarn"; s2t "npm"; s2t "composer"].
Proof. intros [<-|[<-|[<-|[<-|[]]]]]; cbn [in_root c_program]; [left|right; left|right; right; left|right; right; right; left]; reflexivity. Qed.
Lemma no_installation c : In (c_program c) [s2t "cargo"; s2t "go"; s2t "vendor/bin/phpunit"; s2t "forge"; s2t "npx"; s2t "php"] -> ~ installation c.
Proof.
  intros H I. apply installation_program in I. revert H I. generalize (c_program c). intros t H I.
  repeat (destruct H as [<-|H]; [vm_compute in I; intuition discriminate|]). destruct H.
Qed.
Lemma check_not k rel : ~ installation (check_file root args k rel).
Proof. apply no_installation. destruct k; vm_compute; auto 10. Qed.
Lemma whole_not k rel : ~ installation (whole_file root args k rel).
Proof. apply no_installation. destruct k; vm_compute; auto 10. Qed.
Lemma test_not k test rel id : ~ installation (with_removal id (one_test root args k test rel)).
Proof. apply no_installation. destruct k; vm_compute; auto 10. Qed.
Lemma packages_one ran k plan : packages ran k plan -> plan = [] \/ exists c, plan = [c] /\ installation c /\ exists_at ran (place k) = Some false.
Proof.
  assert (N : forall plan, node_packages ran plan -> plan = [] \/ exists c, plan = [c] /\ installation c /\ exists_at ran (s2t "node_modules") = Some false).
  { intros p H. inversion H; subst; [left; reflexivity|right|right|right]; eexists; (split; [reflexivity|]); (split; [|assumption]); unfold installation; cbn [In]; auto 6. }
  intros H. inversion H; subst; auto. right. eexists. split; [reflexivity|]. split; [unfold installation; cbn [In]; auto 6|assumption].
Qed.
(** What one request adds. *)
Definition adds (k : kind) (ran new : list command) : Prop :=
  (forall c, In c new -> ~ installation c) \/
  exists c rest, new = rest ++ [c] /\ (forall c', In c' rest -> ~ installation c') /\ exists_at ran (place k) = Some false.
Lemma serve_adds k rs r : Forall (request_for k) rs -> request_for k r ->
  exists new, cw_ran (serve (ad k) r (serve_all (ad k) rs w0)) = new ++ cw_ran (serve_all (ad k) rs w0) /\ adds k (cw_ran (serve_all (ad k) rs w0)) new.
Proof.
  intros G (rel & K & Hr). set (w := serve_all (ad k) rs w0). destruct Hr as [->|[->|(t & id & ->)]].
  - cbn [serve]. destruct (ad_dry_run (ad k) (root ++ rel) w) as [w1 r1] eqn:D. cbn [fst]. apply C71_dry_run in D; [|exact K].
    destruct D as [(plan & ex & ok & P & Co & Rn & _)|(_ & -> & _)]; [|exists []; split; [reflexivity|left; intros c []]].
    exists (rev ex). split; [exact Rn|]. destruct (co_all _ _ _ _ Co) as [_ (rest & Q)].
    assert (B : forall c, In c (before_dry_run root args k rel ++ [whole_file root args k rel]) -> ~ installation c).
    { intros c Hc. apply in_app_iff in Hc. destruct Hc as [Hc|[<-|[]]]; [|apply whole_not]. destruct k; cbn in Hc; try destruct Hc as [<-|[]]; try destruct Hc. exact (check_not KHardhat rel). }
    destruct (packages_one _ _ _ P) as [->|(c & -> & I & E)].
    + left. intros c Hc. apply in_rev in Hc. apply B. cbn [app] in Q. rewrite Q. apply in_app_iff. left. exact Hc.
    + destruct ex as [|c' ex]; [left; intros x []|]. cbn [app] in Q. injection Q as <- Q. right. exists c, (rev ex). split; [reflexivity|]. split; [|exact E].
      intros x Hx. apply in_rev in Hx. apply B. rewrite Q. apply in_app_iff. left. exact Hx.
  - cbn [serve]. destruct (ad_build (ad k) (root ++ rel) w) as [w1 r1] eqn:D. cbn [fst]. apply C71_build in D; [|exact K]. destruct D as [-> _].
    exists [check_file root args k rel]. split; [reflexivity|]. left. intros c [<-|[]]. apply check_not.
  - destruct (executed k rs t rel id G K) as (ex & ok & Co & R). fold w in R, Co. destruct (co_all _ _ _ _ Co) as [_ (rest & Q)].
    assert (B : forall c, In c ex -> ~ installation c).
    { intros c Hc. assert (Hb : In c (before_test root args k rel)) by (rewrite Q; apply in_app_iff; left; exact Hc). destruct k; cbn in Hb; try destruct Hb as [<-|[]]; try destruct Hb; match goal with |- ~ installation ?x => first [apply (check_not (KRust flags) rel)|apply (check_not KGo rel)|apply (check_not KPhp rel)|apply (check_not KFoundry rel)|apply (check_not KHardhat rel)] end. }
    destruct R as [(_ & _ & R)|[_ R]].
    + exists (with_removal id (one_test root args k t rel) :: rev ex). split; [exact R|]. left. intros c [<-|Hc]; [apply test_not|]. apply B, in_rev. exact Hc.
    + exists (rev ex). split; [exact R|]. left. intros c Hc. apply B, in_rev. exact Hc.
Qed.
(** If installing has the effect that what is looked for is there, and it stays there: once something has been installed
    with success, nothing is installed again. *)
Theorem C71_installed_once : forall k rs,
  (forall ran c, exists_at ran (place k) = Some true -> exists_at (c :: ran) (place k) = Some true) ->
  (forall ran c out, installation c -> ends ran c = Some (true, out) -> exists_at (c :: ran) (place k) = Some true) ->
  Forall (request_for k) rs -> forall later c earlier out, cw_ran (serve_all (ad k) rs w0) = later ++ c :: earlier ->
  installation c -> ends earlier c = Some (true, out) -> forall c', In c' later -> ~ installation c'.
Proof.
  intros k rs St Ef. assert (There : forall later c earlier out, installation c -> ends earlier c = Some (true, out) -> exists_at (later ++ c :: earlier) (place k) = Some true).
  { intros later c earlier out I E. induction later as [|x later IH]; [eapply Ef; eassumption|]. cbn [app]. apply St, IH. }
  induction rs as [|r rs IH] using rev_ind; intros G later c earlier out Q I E; [destruct later; discriminate|].
  apply Forall_app in G. destruct G as [G1 G2]. inversion G2 as [|? ? Gr _]; subst. rewrite serve_all_app in Q. cbn [serve_all] in Q.
  destruct (serve_adds k rs r G1 Gr) as (new & R & A). rewrite R in Q. specialize (IH G1).
  apply app_eq_app in Q. destruct Q as (l & [[-> Q]|[-> Q]]).
  - destruct l as [|x l].
    + cbn [app] in Q. destruct A as [A|(y & rest & A1 & A2 & A3)].
      * rewrite app_nil_r in A. exact A.
      * rewrite app_nil_r in A1. subst later. intros c' Hc'. apply in_app_iff in Hc'. destruct Hc' as [Hc'|[<-|[]]]; [apply A2, Hc'|].
        exfalso. rewrite <- Q in A3. assert (T := There [] c earlier out I E). cbn [app] in T. congruence.
    + cbn [app] in Q. injection Q as <- Q. destruct A as [A|(y & rest & A1 & A2 & A3)].
      * destruct (A c); [|exact I]. apply in_app_iff. right. left. reflexivity.
      * destruct l as [|x l _] using rev_ind.
        { apply app_inj_tail in A1. destruct A1 as [-> ->]. exact A2. }
        { rewrite app_comm_cons, app_assoc in A1. apply app_inj_tail in A1. destruct A1 as [A1 _]. destruct (A2 c); [|exact I]. rewrite <- A1. apply in_app_iff. right. left. reflexivity. }
  - intros c' Hc'. apply in_app_iff in Hc'. destruct Hc' as [Hc'|Hc'].
    + destruct A as [A|(y & rest & A1 & A2 & A3)]; [apply A, Hc'|]. subst new. exfalso. rewrite Q in A3. rewrite (There l c earlier out I E) in A3. discriminate.
    + exact (IH l c earlier out Q I E c' Hc').
Qed.
End C.
Print Assumptions C71_dry_run.
Print Assumptions C71_build.
Print Assumptions C71_exec.
Print Assumptions C71_executed.
Print Assumptions C71_installed_once.
Print Assumptions C71_warned.

(** ** A run with Hardhat: nothing is there at first, two files, two tests seen, one not *)
Definition h_root : path := [s2t "r"].
Definition h_p : path := [s2t "test"; s2t "a.ts"].
Definition h_q : path := [s2t "test"; s2t "b.ts"].
Definition h_exists (ran : list command) (name : text) : option bool :=
  Some (text_eqb name (s2t "node_modules") && existsb (fun c => text_eqb (c_program c) (s2t "npm")) ran).
Definition h_ends (ran : list command) (c : command) : option (bool * list N) := Some (true, []).
Definition h_extract (stdout : list N) : option (list text) := Some [s2t "adds"; s2t "subtracts"].
Definition h_adapter := adapter_of KHardhat h_root [s2t "--verbose"] h_exists h_ends false h_extract.
Definition h_requests : list request :=
  [RDry (h_root ++ h_p); RDry (h_root ++ h_q); RBuild (h_root ++ h_p); RExec (s2t "adds") (h_root ++ h_p) (s2t "0x1"); RExec (s2t "divides") (h_root ++ h_p) (s2t "0x2")].
Example h_run : map (fun c => (c_program c, c_args c, c_env c)) (rev (cw_ran (serve_all h_adapter h_requests w0))) =
  let compile := (s2t "npx", [s2t "hardhat"; s2t "compile"; s2t "--verbose"], []) in
  [(s2t "npm", [s2t "install"], []); compile; (s2t "npx", [s2t "hardhat"; s2t "test"; s2t "/r/test/a.ts"; s2t "--verbose"], []);
   compile; (s2t "npx", [s2t "hardhat"; s2t "test"; s2t "/r/test/b.ts"; s2t "--verbose"], []);
   compile;
   compile; (s2t "npx", [s2t "hardhat"; s2t "test"; s2t "/r/test/a.ts"; s2t "--verbose"], [(s2t "NECESSIST_REMOVAL", s2t "0x1")]);
   compile].
Proof. vm_compute. reflexivity. Qed.
Example h_known : known_file h_root KHardhat h_p /\ Forall (request_for h_root KHardhat) h_requests.
Proof.
  split; [split; [discriminate|exact I]|]. repeat constructor; (eexists; split; [split; [|exact I]|]).
  2: left; reflexivity. discriminate. 2: left; reflexivity. discriminate. 2: right; left; reflexivity. discriminate.
  2: right; right; eexists; eexists; reflexivity. discriminate. 2: right; right; eexists; eexists; reflexivity. discriminate.
Qed.
Example h_seen : seen h_root [s2t "--verbose"] h_exists h_ends false h_extract KHardhat h_requests (h_root ++ h_p) (s2t "adds").
Proof.
  exists [], (tl h_requests). do 5 eexists. split; [reflexivity|]. split; [vm_compute; reflexivity|]. split; [reflexivity|]. split; [reflexivity|]. split; [reflexivity|]. left. reflexivity.
Qed.
Example h_warned : cw_warned (serve_all h_adapter (h_requests ++ [RExec (s2t "divides") (h_root ++ h_p) (s2t "0x3")]) w0) = [(h_root ++ h_p, s2t "divides")].
Proof. vm_compute. reflexivity. Qed.
Example h_stays : (forall ran c, h_exists ran (place KHardhat) = Some true -> h_exists (c :: ran) (place KHardhat) = Some true).
Proof.
  intros ran c H. unfold h_exists in *. cbn [place existsb] in *. rewrite text_eqb_refl in *. cbv iota beta in *.
  set (P := fun c : command => text_eqb (c_program c) (s2t "npm")) in *. change (Some (existsb P ran) = Some true) in H. change (Some (P c || existsb P ran) = Some true).
  assert (Q : existsb P ran = true) by congruence. rewrite Q. destruct (P c); reflexivity.
Qed.

(** What is not so: *)
(** The command for a test runs that test alone. With Hardhat and Vitest it does not depend on the test: all tests of the
    file are run, so a removal is reported as failing when any test in the file fails. *)
Theorem C71_alone_refuted : forall root args exists_at ends denied extract k t1 t2 rel w w1 w2 c1 c2, collects k = true -> known_file root k rel ->
  ad_exec (adapter_of k root args exists_at ends denied extract) t1 (root ++ rel) w = (w1, Ok (Some c1)) ->
  ad_exec (adapter_of k root args exists_at ends denied extract) t2 (root ++ rel) w = (w2, Ok (Some c2)) -> c1 = c2.
Proof.
  intros root args exists_at ends denied extract k t1 t2 rel w w1 w2 c1 c2 C K H1 H2. apply C71_exec in H1; [|exact K]. apply C71_exec in H2; [|exact K].
  destruct H1 as (e1 & o1 & _ & _ & R1 & _). destruct H2 as (e2 & o2 & _ & _ & R2 & _). destruct (proj1 (R1 c1) eq_refl) as (_ & -> & _). destruct (proj1 (R2 c2) eq_refl) as (_ & -> & _).
  destruct k; try discriminate; reflexivity.
Qed.
Print Assumptions C71_alone_refuted.
Example C71_alone_nonvacuous : let w := serve_all h_adapter h_requests w0 in
  exists w1 w2 c, ad_exec h_adapter (s2t "adds") (h_root ++ h_p) w = (w1, Ok (Some c)) /\ ad_exec h_adapter (s2t "subtracts") (h_root ++ h_p) w = (w2, Ok (Some c)).
Proof. do 3 eexists. split; vm_compute; reflexivity. Qed.

(** Additional arguments go to test commands only ("Additional arguments to pass to each test command"). They are also
    given to [npx hardhat compile] and [forge build]. So if these do not understand them, nothing works, although the test
    command with them, and the compilation without them, would. *)
Theorem C71_arguments_refuted : exists root args exists_at ends extract rel,
  (forall ran, exists out, ends ran (whole_file root args KHardhat rel) = Some (true, out)) /\
  (forall ran, exists out, ends ran (check_file root [] KHardhat rel) = Some (true, out)) /\
  (forall denied w, exists e, snd (ad_dry_run (adapter_of KHardhat root args exists_at ends denied extract) (root ++ rel) w) = Err e) /\
  (forall denied w test, snd (ad_exec (adapter_of KHardhat root args exists_at ends denied extract) test (root ++ rel) w) = Ok None).
Proof.
  exists h_root, [s2t "--grep"; s2t "adds"], (fun _ _ => Some true),
    (fun _ c => Some (negb (mem_text (s2t "compile") (c_args c)) || negb (mem_text (s2t "--grep") (c_args c)), [])), h_extract, h_p.
  split; [intros ran; eexists; vm_compute; reflexivity|]. split; [intros ran; eexists; vm_compute; reflexivity|]. split; [intros denied w; eexists; reflexivity|].
  intros denied w test. reflexivity.
Qed.
Print Assumptions C71_arguments_refuted.

(** Vitest runs every file whose path contains what it is given. *)
Definition vitest_filter (c : command) : option text :=
  match c_args c with _ :: r :: f :: _ => if text_eqb r (s2t "run") then Some f else None | _ => None end.
Definition vitest_runs (c : command) (file : text) : Prop := exists f a b, vitest_filter c = Some f /\ file = a ++ f ++ b.
Theorem C71_vitest_file : forall root args rel, vitest_runs (whole_file root args KVitest rel) (under root rel) /\
  forall file, vitest_runs (whole_file root args KVitest rel) file <-> exists a b, file = a ++ under root rel ++ b.
Proof.
  intros root args rel. assert (F : vitest_filter (whole_file root args KVitest rel) = Some (under root rel)) by reflexivity. unfold vitest_runs. split.
  - exists (under root rel), [], []. rewrite app_nil_r. auto.
  - intros file. split; [intros (f & a & b & E & H); rewrite F in E; injection E as <-; eauto|]. intros (a & b & H). exists (under root rel), a, b. auto.
Qed.
Print Assumptions C71_vitest_file.
(** So the command for [a.test.ts] runs [a.test.tsx] too. *)
Theorem C71_vitest_other_refuted : forall root args dir base,
  let ts := dir ++ [base ++ s2t ".test.ts"] in let tsx := dir ++ [base ++ s2t ".test.tsx"] in
  ts <> tsx /\ vitest_runs (whole_file root args KVitest ts) (under root tsx).
Proof.
  intros root args dir base ts tsx. split.
  - unfold ts, tsx. intros E. apply app_inv_head in E. injection E as E. apply app_inv_head in E. discriminate.
  - apply C71_vitest_file. exists [], [120%N].
    assert (J : forall d : path, join_path (d ++ [base ++ s2t ".test.tsx"]) = join_path (d ++ [base ++ s2t ".test.ts"]) ++ [120%N]).
    { induction d as [|x d IH]; [cbn [app join_path]; rewrite <- app_assoc; reflexivity|]. cbn [app].
      destruct d as [|y d]; cbn [app join_path] in *; rewrite IH; cbn [app]; rewrite <- ?app_assoc; cbn [app]; rewrite <- ?app_assoc; reflexivity. }
    unfold under, ts, tsx. rewrite <- !app_assoc. change ([] ++ s2t "/" ++ join_path (root ++ dir ++ [base ++ s2t ".test.ts"]) ++ [120%N]) with (s2t "/" ++ join_path (root ++ dir ++ [base ++ s2t ".test.ts"]) ++ [120%N]). f_equal. pose proof (J (root ++ dir)) as Q. rewrite <- !app_assoc in Q. exact Q.
Qed.
Print Assumptions C71_vitest_other_refuted.
