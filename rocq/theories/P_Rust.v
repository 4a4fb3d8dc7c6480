(** Theorems about names of Rust tests: C50, C51. *)
From Verif Require Import Base M_Text M_Rewriter M_Span M_Run L_Run M_Output P_Sqlite M_Rust.

(** ** Specification: Cargo's file layout and Rust's modules *)
Definition rs (stem : text) : text := stem ++ s2t ".rs".

(** The directories, relative to the package, that hold the modules of a crate; each with the stems of its root file. *)
Inductive modules_dir : path -> list text -> Prop :=
| md_src : modules_dir [s2t "src"] [s2t "lib"; s2t "main"]
| md_bin x : modules_dir [s2t "src"; s2t "bin"; x] [s2t "main"]
| md_test x : modules_dir [s2t "tests"; x] [s2t "main"].

(** [crate_module rel m]: the file [rel] of a package is the module [m] of its crate; the root of a crate is the module []. *)
Inductive crate_module : path -> path -> Prop :=
| cm_root d roots f : modules_dir d roots -> In f roots -> crate_module (d ++ [rs f]) []
| cm_bin x : x <> [] -> crate_module [s2t "src"; s2t "bin"; rs x] []
| cm_test x : x <> [] -> crate_module [s2t "tests"; rs x] []
| cm_file d roots dirs f : modules_dir d roots -> f <> [] -> f <> s2t "mod" -> ~ (dirs = [] /\ In f roots) ->
    (d = [s2t "src"] -> forall r, dirs <> s2t "bin" :: r) -> crate_module (d ++ dirs ++ [rs f]) (dirs ++ [f])
| cm_mod d roots dirs f : modules_dir d roots ->
    (d = [s2t "src"] -> forall r, dirs ++ [f] <> s2t "bin" :: r) -> crate_module (d ++ dirs ++ [f; rs (s2t "mod")]) (dirs ++ [f]).

(** The package of a source file: the innermost one that contains it. *)
Definition package_of (packages : list package) (source : path) (p : package) : Prop :=
  In p packages /\ (exists r, source = p_dir p ++ r) /\
  forall q, In q packages -> (exists r, source = p_dir q ++ r) -> length (p_dir q) <= length (p_dir p).

(** ** Lemmas *)
Lemma starts_with_path_spec p d : starts_with_path p d = true <-> exists r, p = d ++ r.
Proof.
  unfold starts_with_path. destruct (strip_components d p) as [r|] eqn:E.
  - apply strip_components_spec in E. split; [eauto|reflexivity].
  - split; [discriminate|]. intros [r H]. apply strip_components_spec in H. congruence.
Qed.

Lemma nearest_spec source : forall packages near,
  (forall p, near = Some p -> exists r, source = p_dir p ++ r) ->
  match nearest near packages source with
  | Some p => (near = Some p \/ In p packages) /\ (exists r, source = p_dir p ++ r) /\
              (forall q, near = Some q \/ In q packages -> (exists r, source = p_dir q ++ r) -> length (p_dir q) <= length (p_dir p))
  | None => near = None /\ forall q, In q packages -> ~ exists r, source = p_dir q ++ r
  end.
Proof.
  induction packages as [|c rest IH]; intros near H; cbn [nearest].
  - destruct near as [p|]; [|split; [reflexivity|intros q []]]. split; [auto|]. split; [auto|]. intros q [E|[]]. injection E as <-. auto.
  - destruct (starts_with_path source (p_dir c)) eqn:Ec; cbn [negb].
    + assert (Pc : exists r, source = p_dir c ++ r) by (apply starts_with_path_spec, Ec).
      assert (Cur : forall p, Some c = Some p -> exists r, source = p_dir p ++ r) by (intros p E; injection E as <-; exact Pc).
      destruct near as [prev|].
      * destruct (Nat.ltb_spec (length (p_dir prev)) (length (p_dir c))) as [L|L].
        -- specialize (IH (Some c) Cur). destruct (nearest (Some c) rest source) as [p|]; [|destruct IH as [X _]; discriminate].
           destruct IH as [I [P M]]. split; [destruct I as [I|I]; [injection I as ->; right; left; reflexivity|right; right; exact I]|].
           split; [exact P|]. intros q Q Pq. destruct Q as [Q|[Q|Q]].
           ++ injection Q as <-. pose proof (M c (or_introl eq_refl) Pc). lia.
           ++ subst q. apply M; auto.
           ++ apply M; auto.
        -- specialize (IH (Some prev) H). destruct (nearest (Some prev) rest source) as [p|]; [|destruct IH as [X _]; discriminate].
           destruct IH as [I [P M]]. split; [destruct I as [I|I]; [left; exact I|right; right; exact I]|].
           split; [exact P|]. intros q Q Pq. destruct Q as [Q|[Q|Q]].
           ++ apply M; auto.
           ++ subst q. pose proof (M prev (or_introl eq_refl) (H prev eq_refl)). lia.
           ++ apply M; auto.
      * specialize (IH (Some c) Cur). destruct (nearest (Some c) rest source) as [p|]; [|destruct IH as [X _]; discriminate].
        destruct IH as [I [P M]]. split; [destruct I as [I|I]; [injection I as ->; right; left; reflexivity|right; right; exact I]|].
        split; [exact P|]. intros q Q Pq. destruct Q as [Q|[Q|Q]]; [discriminate|subst q; apply M; auto|apply M; auto].
    + assert (Nc : ~ exists r, source = p_dir c ++ r) by (rewrite <- starts_with_path_spec, Ec; discriminate).
      specialize (IH near H). destruct (nearest near rest source) as [p|].
      * destruct IH as [I [P M]]. split; [destruct I as [I|I]; [left; exact I|right; right; exact I]|]. split; [exact P|].
        intros q [Q|[Q|Q]] Pq; [apply M; auto|subst q; contradiction|apply M; auto].
      * destruct IH as [I M]. split; [exact I|]. intros q [<-|Q]; [exact Nc|apply M, Q].
Qed.

(** C50: the package used for a source file is the innermost one that contains it. *)
Theorem C50_package : forall packages source,
  match nearest None packages source with
  | Some p => package_of packages source p
  | None => forall q, In q packages -> ~ exists r, source = p_dir q ++ r
  end.
Proof.
  intros packages source. pose proof (nearest_spec source packages None ltac:(discriminate)) as H.
  destruct (nearest None packages source) as [p|]; [|apply H].
  destruct H as [[H|H] [P M]]; [discriminate|]. split; [exact H|]. split; [exact P|]. intros q Q. apply M. right. exact Q.
Qed.
Print Assumptions C50_package.

Lemma after_dot_app a b : ~ In DOT a -> after_dot (a ++ DOT :: b) = Some b.
Proof.
  induction a as [|c a IH]; intros N; cbn [app after_dot]; [reflexivity|].
  destruct (N.eqb_spec c DOT) as [->|D]; [destruct N; left; reflexivity|]. apply IH. intros I. apply N. right. exact I.
Qed.
Lemma file_stem_rs f : f <> [] -> file_stem (rs f) = f.
Proof.
  intros H. unfold file_stem, rs. change (s2t ".rs") with (DOT :: s2t "rs"). rewrite rev_app_distr. cbn [rev].
  rewrite <- app_assoc. cbn [app]. rewrite after_dot_app.
  - destruct (rev f) as [|c r] eqn:E; apply (f_equal (@rev _)) in E; rewrite rev_involutive in E; [contradiction|symmetry; exact E].
  - cbn. intros [X|[X|[]]]; discriminate.
Qed.
Lemma fs_module_path_snoc dirs f : f <> [] -> fs_module_path (dirs ++ [rs f]) = dirs ++ (if mem_text f ROOT_STEMS then [] else [f]).
Proof. intros H. unfold fs_module_path. rewrite rev_app_distr. cbn [rev app]. rewrite rev_involutive, file_stem_rs by exact H. reflexivity. Qed.

Lemma strip_app d r : strip_components d (d ++ r) = Some r.
Proof. apply strip_components_spec. reflexivity. Qed.
Lemma strip_app2 d e r : strip_components (d ++ e) (d ++ r) = strip_components e r.
Proof. induction d as [|x d IH]; cbn [app strip_components]; [reflexivity|]. rewrite text_eqb_refl. exact IH. Qed.

Lemma rel_src d r : (forall r', r <> s2t "bin" :: r') -> relative_path PREFIXES d (d ++ s2t "src" :: r) = Some r.
Proof.
  intros H. unfold PREFIXES, relative_path. rewrite !strip_app2.
  destruct (strip_components [s2t "src"; s2t "bin"] (s2t "src" :: r)) as [r'|] eqn:E.
  - apply strip_components_spec in E. injection E as ->. destruct (H r' eq_refl).
  - cbn [strip_components]. rewrite text_eqb_refl. reflexivity.
Qed.
Lemma rel_bin d x r : relative_path PREFIXES d (d ++ s2t "src" :: s2t "bin" :: x :: r) = Some r.
Proof. unfold PREFIXES, relative_path. rewrite strip_app2. cbn [strip_components]. rewrite !text_eqb_refl. reflexivity. Qed.
Lemma rel_test d x r : relative_path PREFIXES d (d ++ s2t "tests" :: x :: r) = Some r.
Proof.
  unfold PREFIXES, relative_path. rewrite !strip_app2. change (strip_components [s2t "src"; s2t "bin"] (s2t "tests" :: x :: r)) with (@None path).
  change (strip_components [s2t "src"] (s2t "tests" :: x :: r)) with (@None path). cbn [strip_components]. rewrite text_eqb_refl. reflexivity.
Qed.
Lemma rel_dir d dir roots r : modules_dir dir roots -> (dir = [s2t "src"] -> forall r', r <> s2t "bin" :: r') ->
  relative_path PREFIXES d (d ++ dir ++ r) = Some r.
Proof. intros M H. destruct M; cbn [app]; [apply rel_src, H, eq_refl|apply rel_bin|apply rel_test]. Qed.

Lemma module_of_package packages p rel : package_of packages (p_dir p ++ rel) p ->
  exists p', nearest None packages (p_dir p ++ rel) = Some p' /\ p_dir p' = p_dir p.
Proof.
  intros [I [P M]]. pose proof (C50_package packages (p_dir p ++ rel)) as H. destruct (nearest None packages (p_dir p ++ rel)) as [p'|]; [|destruct (H p I P)].
  exists p'. split; [reflexivity|]. destruct H as [I' [[r' P'] M']]. pose proof (M p' I' ltac:(eauto)). pose proof (M' p I P).
  assert (L : length (p_dir p) = length (p_dir p')) by lia. clear - L P'. revert L P'. generalize (p_dir p) (p_dir p').
  intros a. induction a as [|x a IH]; intros [|y b] L E; try discriminate; [reflexivity|]. injection E as -> E. f_equal. apply IH; [cbn in L; lia|exact E].
Qed.

(** C50: the module path of a Rust source file is the one of Cargo's layout, unless the file is called [lib.rs] or [main.rs] and
    is not the root of its crate. *)
Theorem C50_module_path : forall packages p rel m, package_of packages (p_dir p ++ rel) p -> crate_module rel m ->
  (forall l, m <> l ++ [s2t "lib"] /\ m <> l ++ [s2t "main"]) ->
  module_path packages (p_dir p ++ rel) = Ok m.
Proof.
  intros packages p rel m P C X. destruct (module_of_package _ _ _ P) as [p' [N D]]. unfold module_path. rewrite N, D. clear N D P.
  destruct C as [d roots f Md I|x Hx|x Hx|d roots dirs f Md F0 F1 F2 F3|d roots dirs f Md F3].
  - assert (Hf : f <> [] /\ mem_text f ROOT_STEMS = true) by (destruct Md; cbn in I; repeat (destruct I as [<-|I]); try contradiction; (split; [discriminate|reflexivity])).
    destruct Hf as [Hf Hm].
    assert (B : d = [s2t "src"] -> forall r', [rs f] <> s2t "bin" :: r').
    { intros _ r' E. injection E as E _. apply (f_equal (@rev _)) in E. unfold rs in E. rewrite rev_app_distr in E. discriminate. }
    rewrite (rel_dir _ _ _ _ Md B). change [rs f] with ([] ++ [rs f]). rewrite fs_module_path_snoc by exact Hf. rewrite Hm. reflexivity.
  - rewrite rel_bin. reflexivity.
  - rewrite rel_test. reflexivity.
  - assert (B : d = [s2t "src"] -> forall r', dirs ++ [rs f] <> s2t "bin" :: r').
    { intros Ed r' E. destruct dirs as [|y dirs]; cbn in E; injection E as E _.
      - apply (f_equal (@rev _)) in E. unfold rs in E. rewrite rev_app_distr in E. discriminate.
      - subst y. exact (F3 Ed dirs eq_refl). }
    rewrite (rel_dir _ _ _ _ Md B), fs_module_path_snoc by exact F0.
    assert (Hm : mem_text f ROOT_STEMS = false).
    { destruct (mem_text f ROOT_STEMS) eqn:E; [|reflexivity]. apply mem_text_In in E. destruct (X dirs) as [X1 X2].
      destruct E as [<-|[<-|[<-|[]]]]; [destruct X1; reflexivity|destruct X2; reflexivity|destruct F1; reflexivity]. }
    rewrite Hm. reflexivity.
  - change [f; rs (s2t "mod")] with ([f] ++ [rs (s2t "mod")]). rewrite (app_assoc dirs).
    rewrite (rel_dir _ _ _ _ Md).
    + rewrite fs_module_path_snoc by discriminate. change (mem_text (s2t "mod") ROOT_STEMS) with true. rewrite app_nil_r. reflexivity.
    + intros Ed r' E. destruct (dirs ++ [f]) as [|y l] eqn:El; [destruct dirs; discriminate|]. cbn in E. injection E as -> _. exact (F3 Ed l eq_refl).
Qed.
Print Assumptions C50_module_path.

(** C50, the part that is false: a module called [lib] or [main] (the file a/lib.rs, say) gets its parent's path. *)
Theorem C50_module_lib_refuted : forall packages p d roots dirs x f, modules_dir d roots -> In f [s2t "lib"; s2t "main"] ->
  let rel := d ++ (dirs ++ [x]) ++ [rs f] in
  package_of packages (p_dir p ++ rel) p -> (d = [s2t "src"] -> forall r, dirs ++ [x] <> s2t "bin" :: r) ->
  crate_module rel ((dirs ++ [x]) ++ [f]) /\ module_path packages (p_dir p ++ rel) = Ok (dirs ++ [x]).
Proof.
  intros packages p d roots dirs x f Md I rel P B.
  assert (Hf : f <> [] /\ f <> s2t "mod" /\ mem_text f ROOT_STEMS = true) by (destruct I as [<-|[<-|[]]]; (split; [discriminate|split; [discriminate|reflexivity]])).
  destruct Hf as [F0 [F1 F2]]. split.
  - apply (cm_file d roots (dirs ++ [x]) f Md F0 F1); [|exact B]. intros [E _]. destruct dirs; discriminate.
  - destruct (module_of_package _ _ _ P) as [p' [N D]]. unfold module_path. rewrite N, D. unfold rel. rewrite (rel_dir _ _ _ _ Md).
    + rewrite fs_module_path_snoc by exact F0. rewrite F2, app_nil_r. reflexivity.
    + intros Ed r' E. destruct (dirs ++ [x]) as [|y l] eqn:El; [destruct dirs; discriminate|]. cbn in E. injection E as -> _. exact (B Ed l eq_refl).
Qed.
Print Assumptions C50_module_lib_refuted.

(** Outside of [src] and [tests] the module path is unknown (and the file's tests are reported as such, below). *)
Theorem C50_module_unknown : forall packages source,
  (forall e, module_path packages source = Err e ->
     (e = NoPackage <-> forall q, In q packages -> ~ exists r, source = p_dir q ++ r)) /\
  (forall p rel, package_of packages source p -> source = p_dir p ++ rel ->
     (exists e, module_path packages source = Err e) <->
     ~ (exists x r, rel = s2t "tests" :: x :: r) /\ ~ (exists r, rel = s2t "src" :: r /\ r <> [s2t "bin"])).
Proof.
  intros packages source. split.
  - intros e H. pose proof (C50_package packages source) as C. unfold module_path in H. destruct (nearest None packages source) as [p|].
    + destruct (relative_path PREFIXES (p_dir p) source); [discriminate|]. injection H as <-. split; [discriminate|].
      intros Q. destruct C as [I [P _]]. destruct (Q p I P).
    + injection H as <-. split; auto.
  - intros p rel P ->. destruct (module_of_package _ _ _ P) as [p' [N D]]. unfold module_path. rewrite N, D.
    assert (Bin : s2t "bin" <> s2t "src") by discriminate.
    split.
    + intros [e H]. destruct (relative_path PREFIXES (p_dir p) (p_dir p ++ rel)) as [r|] eqn:R; [discriminate|]. clear H. split.
      * intros [x [r ->]]. rewrite rel_test in R. discriminate.
      * intros [r [-> H]]. destruct r as [|y r]; [rewrite rel_src in R by discriminate; discriminate|].
        destruct (list_eq_dec N.eq_dec y (s2t "bin")) as [->|Ny].
        -- destruct r as [|z r]; [destruct H; reflexivity|]. rewrite rel_bin in R. discriminate.
        -- rewrite rel_src in R; [discriminate|]. intros r' E. injection E as E _. contradiction.
    + intros [H1 H2]. assert (R : relative_path PREFIXES (p_dir p) (p_dir p ++ rel) = None); [|rewrite R; eauto].
      unfold PREFIXES, relative_path. rewrite !strip_app2.
      destruct (strip_components [s2t "src"; s2t "bin"] rel) as [r|] eqn:E1.
      * apply strip_components_spec in E1. cbn [app] in E1. destruct r as [|x r]; [reflexivity|]. destruct H2. eexists. split; [exact E1|]. intros X. injection X as X. discriminate.
      * destruct (strip_components [s2t "src"] rel) as [r|] eqn:E2.
        -- apply strip_components_spec in E2. cbn [app] in E2. exfalso. apply H2. exists r. split; [exact E2|]. intros ->. rewrite E2 in E1. discriminate.
        -- destruct (strip_components [s2t "tests"] rel) as [r|] eqn:E3; [|reflexivity]. apply strip_components_spec in E3. cbn [app] in E3.
           destruct r as [|x r]; [reflexivity|]. destruct H1. eauto.
Qed.
Print Assumptions C50_module_unknown.

(** ** Tests *)
(** [test_at items mods name body]: a test [name] in the modules [mods], outside of other functions. *)
Inductive test_at : list item -> path -> text -> list item -> Prop :=
| ta_here name body r : test_at (IFn true name body :: r) [] name body
| ta_mod n items r mods name body : test_at items mods name body -> test_at (IMod n items :: r) (n :: mods) name body
| ta_other items r mods name body : test_at items mods name body -> test_at (IOther items :: r) mods name body
| ta_next i r mods name body : test_at r mods name body -> test_at (i :: r) mods name body.

Lemma item_ind' (P : item -> Prop) :
  (forall n l, Forall P l -> P (IMod n l)) -> (forall t n l, Forall P l -> P (IFn t n l)) -> (forall l, Forall P l -> P (IOther l)) -> forall i, P i.
Proof.
  intros Hm Hf Ho. fix IH 1. intros [n l|t n l|l]; [apply Hm|apply Hf|apply Ho]; induction l as [|x l IHl]; constructor; auto.
Qed.

Lemma ta_cons i r mods name body : test_at (i :: r) mods name body <-> test_at [i] mods name body \/ test_at r mods name body.
Proof.
  split.
  - intros H. inversion H; subst; [left; apply ta_here|left; apply ta_mod; assumption|left; apply ta_other; assumption|right; assumption].
  - intros [H|H]; [|apply ta_next, H]. inversion H; subst; [apply ta_here|apply ta_mod; assumption|apply ta_other; assumption|].
    match goal with X : test_at [] _ _ _ |- _ => inversion X end.
Qed.
Lemma ta_nil mods name body : ~ test_at [] mods name body. Proof. intros H. inversion H. Qed.
Lemma ta_one i mods name body : test_at [i] mods name body <->
  match i with
  | IFn true n b => mods = [] /\ name = n /\ body = b
  | IFn false _ _ => False
  | IMod n l => exists m, mods = n :: m /\ test_at l m name body
  | IOther l => test_at l mods name body
  end.
Proof.
  split.
  - intros H. inversion H; subst; eauto; match goal with X : test_at [] _ _ _ |- _ => inversion X end.
  - destruct i as [n l|[|] n b|l].
    + intros [m [-> H]]. apply ta_mod, H.
    + intros [-> [-> ->]]. apply ta_here.
    + intros [].
    + intros H. apply ta_other, H.
Qed.

Section Tests.
Context (fs : res path_error path) (listed ignored : text -> bool).
Notation visit := (visit_item fs listed ignored).

(** Within a test nothing is recorded; a test makes the assertion fail. *)
Lemma in_test_spec mods i : forall st,
  (visit mods true i st = Some st /\ forall m n b, ~ test_at [i] m n b) \/ (visit mods true i st = None /\ exists m n b, test_at [i] m n b).
Proof.
  revert mods. induction i as [n l IH|t n l IH|l IH] using item_ind'; intros mods st.
  - assert (G : forall ll, Forall (fun i => forall mods st, (visit mods true i st = Some st /\ forall m n b, ~ test_at [i] m n b) \/ (visit mods true i st = None /\ exists m n b, test_at [i] m n b)) ll ->
      forall st, (fold_items (visit mods true) ll st = Some st /\ forall m n b, ~ test_at ll m n b) \/ (fold_items (visit mods true) ll st = None /\ exists m n b, test_at ll m n b)).
    { induction ll as [|x ll IHl]; intros F s0; [left; split; [reflexivity|]; intros; apply ta_nil|]. inversion F as [|? ? F1 F2]; subst. cbn [fold_items].
      destruct (F1 mods s0) as [[-> Hx]|[-> [m1 [n1 [b1 Hx]]]]]; [|right; split; [reflexivity|]; exists m1, n1, b1; apply ta_cons; auto].
      destruct (IHl F2 s0) as [[E Hl]|[E [m1 [n1 [b1 Hl]]]]]; [left|right]; (split; [exact E|]).
      - intros m1 n1 b1 H. apply ta_cons in H as [H|H]; [exact (Hx _ _ _ H)|exact (Hl _ _ _ H)].
      - exists m1, n1, b1. apply ta_cons. auto. }
    cbn [visit_item]. destruct (G l IH st) as [[E H]|[E [m1 [n1 [b1 H]]]]]; [left|right]; (split; [exact E|]).
    + intros m1 n1 b1 X. apply ta_one in X as [m2 [_ X]]. exact (H _ _ _ X).
    + exists (n :: m1), n1, b1. apply ta_one. eauto.
  - destruct t; cbn [visit_item].
    + right. split; [reflexivity|]. exists [], n, l. apply ta_here.
    + left. split; [reflexivity|]. intros m1 n1 b1 X. apply ta_one in X. exact X.
  - assert (G : forall ll, Forall (fun i => forall mods st, (visit mods true i st = Some st /\ forall m n b, ~ test_at [i] m n b) \/ (visit mods true i st = None /\ exists m n b, test_at [i] m n b)) ll ->
      forall st, (fold_items (visit mods true) ll st = Some st /\ forall m n b, ~ test_at ll m n b) \/ (fold_items (visit mods true) ll st = None /\ exists m n b, test_at ll m n b)).
    { induction ll as [|x ll IHl]; intros F s0; [left; split; [reflexivity|]; intros; apply ta_nil|]. inversion F as [|? ? F1 F2]; subst. cbn [fold_items].
      destruct (F1 mods s0) as [[-> Hx]|[-> [m1 [n1 [b1 Hx]]]]]; [|right; split; [reflexivity|]; exists m1, n1, b1; apply ta_cons; auto].
      destruct (IHl F2 s0) as [[E Hl]|[E [m1 [n1 [b1 Hl]]]]]; [left|right]; (split; [exact E|]).
      - intros m1 n1 b1 H. apply ta_cons in H as [H|H]; [exact (Hx _ _ _ H)|exact (Hl _ _ _ H)].
      - exists m1, n1, b1. apply ta_cons. auto. }
    cbn [visit_item]. destruct (G l IH st) as [[E H]|[E [m1 [n1 [b1 H]]]]]; [left|right]; (split; [exact E|]).
    + intros m1 n1 b1 X. apply ta_one in X. exact (H _ _ _ X).
    + exists m1, n1, b1. apply ta_one. exact H.
Qed.
Lemma in_test_fold mods l : forall st,
  (fold_items (visit mods true) l st = Some st /\ forall m n b, ~ test_at l m n b) \/ (fold_items (visit mods true) l st = None /\ exists m n b, test_at l m n b).
Proof.
  intros st. pose proof (in_test_spec mods (IOther l) st) as H. cbn [visit_item] in H. destruct H as [[E H]|[E [m [n [b H]]]]]; [left|right]; (split; [exact E|]).
  - intros m n b X. apply (H m n b). apply ta_one. exact X.
  - apply ta_one in H. eauto.
Qed.

(** A test whose body would be walked and contains a test. *)
Definition bad (p : path) (l : list item) : Prop :=
  exists mods name body m n b, test_at l mods name body /\ listed (join_colons (p ++ mods ++ [name])) = true /\
    ignored (join_colons (p ++ mods ++ [name])) = false /\ test_at body m n b.

Definition found (p : path) (l : list item) (st : tstate) (o : option tstate) : Prop :=
  (bad p l /\ o = None) \/
  (~ bad p l /\ exists new, o = Some (fst st ++ new, snd st) /\
     forall q, In q new <-> exists mods name body, test_at l mods name body /\ q = p ++ mods ++ [name] /\ listed (join_colons q) = true).

Lemma bad_cons p i l : bad p (i :: l) <-> bad p [i] \/ bad p l.
Proof.
  unfold bad. split.
  - intros [mods [name [body [m [n [b [H R]]]]]]]. apply ta_cons in H as [H|H]; [left|right]; eauto 10.
  - intros [[mods [name [body [m [n [b [H R]]]]]]]|[mods [name [body [m [n [b [H R]]]]]]]]; exists mods, name, body, m, n, b; (split; [apply ta_cons; auto|exact R]).
Qed.

Lemma found_fold p mods0 : fs = Ok p -> forall l, Forall (fun i => forall mods0 st, found (p ++ mods0) [i] st (visit mods0 false i st)) l ->
  forall st, found (p ++ mods0) l st (fold_items (visit mods0 false) l st).
Proof.
  intros Efs. induction l as [|i l IH]; intros F st.
  - right. split; [intros [mods [name [body [m [n [b [H _]]]]]]]; exact (ta_nil _ _ _ H)|]. exists []. cbn [fold_items]. rewrite app_nil_r. split; [destruct st; reflexivity|].
    intros q. split; [intros []|]. intros [mods [name [body [H _]]]]. destruct (ta_nil _ _ _ H).
  - inversion F as [|? ? F1 F2]; subst. cbn [fold_items]. destruct (F1 mods0 st) as [[B E]|[B [new [E N]]]]; rewrite E; cbn iota.
    + left. split; [|reflexivity]. apply bad_cons. left. exact B.
    + destruct (IH F2 (fst st ++ new, snd st)) as [[B' E']|[B' [new' [E' N']]]]; rewrite E'.
      * left. split; [|reflexivity]. apply bad_cons. right. exact B'.
      * right. split; [rewrite bad_cons; tauto|]. exists (new ++ new'). cbn [fst snd]. rewrite app_assoc. split; [reflexivity|].
        intros q. rewrite in_app_iff, N, N'. split.
        -- intros [[mods [name [body [H R]]]]|[mods [name [body [H R]]]]]; exists mods, name, body; (split; [apply ta_cons; auto|exact R]).
        -- intros [mods [name [body [H R]]]]. apply ta_cons in H as [H|H]; [left|right]; eauto 6.
Qed.

Lemma found_item p i : fs = Ok p -> forall mods0 st, found (p ++ mods0) [i] st (visit mods0 false i st).
Proof.
  intros Efs. induction i as [n l IH|t n l IH|l IH] using item_ind'; intros mods0 st; cbn [visit_item].
  - destruct (found_fold p (mods0 ++ [n]) Efs l IH st) as [[B E]|[B [new [E N]]]]; rewrite E.
    + left. split; [|reflexivity]. destruct B as [mods [name [body [m [x [b [H R]]]]]]]. exists (n :: mods), name, body, m, x, b. split; [apply ta_one; eauto|].
      rewrite <- !app_assoc in R. rewrite <- app_assoc. exact R.
    + right. split.
      * intros [mods [name [body [m [x [b [H R]]]]]]]. apply ta_one in H as [mm [-> H]]. apply B. exists mm, name, body, m, x, b. split; [exact H|].
        rewrite <- !app_assoc. rewrite <- app_assoc in R. exact R.
      * exists new. split; [reflexivity|]. intros q. rewrite N. split.
        -- intros [mods [name [body [H [-> R]]]]]. exists (n :: mods), name, body. split; [apply ta_one; eauto|]. split; [rewrite <- !app_assoc; reflexivity|exact R].
        -- intros [mods [name [body [H [-> R]]]]]. apply ta_one in H as [mm [-> H]]. exists mm, name, body. split; [exact H|]. split; [rewrite <- !app_assoc; reflexivity|exact R].
  - destruct t.
    + assert (TP : test_path fs mods0 n = Ok (p ++ mods0 ++ [n])) by (unfold test_path; rewrite Efs; reflexivity). rewrite TP. cbv zeta. rewrite app_assoc. set (q := (p ++ mods0) ++ [n]).
      assert (One : forall mods name body, test_at [IFn true n l] mods name body -> (p ++ mods0) ++ mods ++ [name] = q).
      { intros mods name body H. apply ta_one in H as [-> [-> _]]. reflexivity. }
      destruct (listed (join_colons q)) eqn:Lq.
      * assert (New : forall q', In q' [q] <-> exists mods name body, test_at [IFn true n l] mods name body /\ q' = (p ++ mods0) ++ mods ++ [name] /\ listed (join_colons q') = true).
        { intros q'. split.
          - intros [<-|[]]. exists [], n, l. split; [apply ta_here|]. split; [reflexivity|exact Lq].
          - intros [mods [name [body [H [-> _]]]]]. left. symmetry. eapply One, H. }
        destruct (ignored (join_colons q)) eqn:Iq.
        -- right. split; [|exists [q]; split; [reflexivity|exact New]].
           intros [mods [name [body [m [x [b [H [_ [R _]]]]]]]]]. rewrite (One _ _ _ H), Iq in R. discriminate.
        -- match goal with |- found _ _ _ ?o => destruct (in_test_fold mods0 l (fst st ++ [q], snd st)) as [[E H]|[E [m [x [b H]]]]]; change o with (fold_items (visit mods0 true) l (fst st ++ [q], snd st)) end; rewrite E.
           ++ right. split; [|exists [q]; split; [reflexivity|exact New]].
              intros [mods [name [body [m [x [b [Hb [_ [_ R]]]]]]]]]. apply ta_one in Hb as [_ [_ ->]]. exact (H _ _ _ R).
           ++ left. split; [|reflexivity]. exists [], n, l, m, x, b. split; [apply ta_here|]. auto.
      * right. split.
        -- intros [mods [name [body [m [x [b [H [R _]]]]]]]]. rewrite (One _ _ _ H), Lq in R. discriminate.
        -- exists []. rewrite app_nil_r. split; [destruct st; reflexivity|]. intros q'. split; [intros []|].
           intros [mods [name [body [H [-> R]]]]]. rewrite (One _ _ _ H), Lq in R. discriminate.
    + right. split; [intros [mods [name [body [m [x [b [H _]]]]]]]; apply ta_one in H; exact H|]. exists []. rewrite app_nil_r. split; [destruct st; reflexivity|].
      intros q'. split; [intros []|]. intros [mods [name [body [H _]]]]. apply ta_one in H. destruct H.
  - destruct (found_fold p mods0 Efs l IH st) as [[B E]|[B [new [E N]]]]; rewrite E.
    + left. split; [|reflexivity]. destruct B as [mods [name [body [m [x [b [H R]]]]]]]. exists mods, name, body, m, x, b. split; [apply ta_one; exact H|exact R].
    + right. split.
      * intros [mods [name [body [m [x [b [H R]]]]]]]. apply ta_one in H. apply B. exists mods, name, body, m, x, b. auto.
      * exists new. split; [reflexivity|]. intros q. rewrite N. split; intros [mods [name [body [H R]]]]; exists mods, name, body; (split; [apply ta_one in H || apply ta_one; exact H|exact R]).
Qed.

Lemma unknown_fold e : fs = Err e -> forall l mods0 st, 
  exists new, fold_items (visit mods0 false) l st = Some (fst st, snd st ++ new) /\
    forall n, In n new <-> exists mods body, test_at l mods n body.
Proof.
  intros Efs.
  assert (Fold : forall l, Forall (fun i => forall mods0 st, exists new, visit mods0 false i st = Some (fst st, snd st ++ new) /\ forall n, In n new <-> exists mods body, test_at [i] mods n body) l ->
    forall mods0 st, exists new, fold_items (visit mods0 false) l st = Some (fst st, snd st ++ new) /\ forall n, In n new <-> exists mods body, test_at l mods n body).
  { induction l as [|i l IH]; intros F mods0 st.
    - exists []. cbn [fold_items]. rewrite app_nil_r. split; [destruct st; reflexivity|]. intros n. split; [intros []|]. intros [mods [body H]]. destruct (ta_nil _ _ _ H).
    - inversion F as [|? ? F1 F2]; subst. cbn [fold_items]. destruct (F1 mods0 st) as [new [-> N]]. destruct (IH F2 mods0 (fst st, snd st ++ new)) as [new' [-> N']].
      cbn [fst snd]. exists (new ++ new'). rewrite app_assoc. split; [reflexivity|]. intros n. rewrite in_app_iff, N, N'. split.
      + intros [[mods [body H]]|[mods [body H]]]; exists mods, body; apply ta_cons; auto.
      + intros [mods [body H]]. apply ta_cons in H as [H|H]; [left|right]; eauto. }
  intros l. apply Fold. apply Forall_forall. intros i _. induction i as [n l' IH|t n l' IH|l' IH] using item_ind'; intros mods0 st; cbn [visit_item].
  - destruct (Fold l' IH (mods0 ++ [n]) st) as [new [-> N]]. exists new. split; [reflexivity|]. intros x. rewrite N. split.
    + intros [mods [body H]]. exists (n :: mods), body. apply ta_one. eauto.
    + intros [mods [body H]]. apply ta_one in H as [m [_ H]]. eauto.
  - destruct t.
    + unfold test_path. rewrite Efs. exists [n]. split; [reflexivity|]. intros x. split.
      * intros [<-|[]]. exists [], l'. apply ta_here.
      * intros [mods [body H]]. apply ta_one in H as [_ [-> _]]. left. reflexivity.
    + exists []. rewrite app_nil_r. split; [destruct st; reflexivity|]. intros x. split; [intros []|]. intros [mods [body H]]. apply ta_one in H. exact H.
  - destruct (Fold l' IH mods0 st) as [new [-> N]]. exists new. split; [reflexivity|]. intros x. rewrite N. split; intros [mods [body H]]; exists mods, body; [apply ta_one|apply ta_one in H]; exact H.
Qed.
End Tests.

Lemma join_colons_separated p : join_colons p = separated (s2t "::") p.
Proof.
  induction p as [|x p IH]; [reflexivity|]. destruct p as [|y p]; [cbn; rewrite app_nil_r; reflexivity|].
  change (join_colons (x :: y :: p)) with (x ++ COLONS ++ join_colons (y :: p)). rewrite IH. cbn [separated map concat]. reflexivity.
Qed.

(** C50: the tests found in a file are those outside of other functions whose path, the file's module path followed by the
    enclosing modules and the function's name, is among the names that Cargo lists. The search fails (by a failed assertion)
    exactly if the body of a test it walks contains a test. *)
Theorem C50_tests : forall p listed ignored file,
  let qualified mods name := p ++ mods ++ [name] in
  let path_name := separated (s2t "::") in
  (find_tests (Ok p) listed ignored file = None <->
     exists mods name body m n b, test_at file mods name body /\ listed (path_name (qualified mods name)) = true /\
       ignored (path_name (qualified mods name)) = false /\ test_at body m n b) /\
  (forall tests unknown, find_tests (Ok p) listed ignored file = Some (tests, unknown) -> unknown = [] /\
     forall q, In q tests <-> exists mods name body, test_at file mods name body /\ q = qualified mods name /\ listed (path_name q) = true).
Proof.
  intros p listed ignored file qualified path_name.
  assert (F : found listed ignored (p ++ []) file ([], []) (find_tests (Ok p) listed ignored file)).
  { apply found_fold; [reflexivity|]. apply Forall_forall. intros i _. apply found_item. reflexivity. }
  rewrite app_nil_r in F. destruct F as [[B E]|[B [new [E N]]]]; rewrite E.
  - split; [split; [intros _; destruct B as (mods & name & body & m & n & b & B); exists mods, name, body, m, n, b; unfold path_name; rewrite <- join_colons_separated; exact B|reflexivity]|]. intros tests unknown H. discriminate.
  - split; [split; [discriminate|intros (mods & name & body & m & n & b & X); destruct B; exists mods, name, body, m, n, b; rewrite !join_colons_separated; exact X]|]. intros tests unknown H. injection H as <- <-. split; [reflexivity|].
    intros q. unfold path_name. rewrite <- join_colons_separated. apply N.
Qed.
Print Assumptions C50_tests.

(** C50: if the module path is unknown, no test of the file is found, and every one is reported. *)
Theorem C50_tests_unknown : forall e listed ignored file,
  exists unknown, find_tests (Err e) listed ignored file = Some ([], unknown) /\
    forall n, In n unknown <-> exists mods body, test_at file mods n body.
Proof. intros e listed ignored file. exact (unknown_fold (Err e) listed ignored e eq_refl file [] ([], [])). Qed.
Print Assumptions C50_tests_unknown.

(** ** Flags *)
(** C50: the flags select the file's package, and then the file's test target if it has exactly one, and otherwise the binaries
    and the library, each if the package has any, once. *)
Lemma unit_flags_spec kinds : forall bin lib, NoDup (unit_flags bin lib kinds) /\
  (forall f, In f (unit_flags bin lib kinds) <-> (f = s2t "--bins" /\ bin = false /\ In TBin kinds) \/ (f = s2t "--lib" /\ lib = false /\ In TLib kinds)).
Proof.
  induction kinds as [|k r IH]; intros bin lib; cbn [unit_flags].
  - split; [constructor|]. intros f. split; [intros []|]. intros [[_ [_ []]]|[_ [_ []]]].
  - destruct k.
    + destruct lib.
      * destruct (IH bin true) as [N S1]. split; [exact N|]. intros f. rewrite S1. split; intros [[A [B C]]|[A [B C]]]; auto; [left|discriminate|left|discriminate]; repeat split; auto; [right; exact C|destruct C as [C|C]; [discriminate|exact C]].
      * destruct (IH bin true) as [N S1]. split.
        -- constructor; [|exact N]. intros H. apply S1 in H as [[H _]|[_ [H _]]]; discriminate.
        -- intros f. cbn [In]. rewrite S1. split.
           ++ intros [<-|[[A [B C]]|[A [B C]]]]; [right|left|discriminate]; repeat split; auto.
           ++ intros [[A [B [C|C]]]|[A [B C]]]; [discriminate|right; left; auto|left; auto].
    + destruct bin.
      * destruct (IH true lib) as [N S1]. split; [exact N|]. intros f. rewrite S1. split; intros [[A [B C]]|[A [B C]]]; auto; [discriminate|right|discriminate|right]; repeat split; auto; [right; exact C|destruct C as [C|C]; [discriminate|exact C]].
      * destruct (IH true lib) as [N S1]. split.
        -- constructor; [|exact N]. intros H. apply S1 in H as [[_ [H _]]|[H _]]; discriminate.
        -- intros f. cbn [In]. rewrite S1. split.
           ++ intros [<-|[[A [B C]]|[A [B C]]]]; [left|discriminate|right]; repeat split; auto.
           ++ intros [[A [B C]]|[A [B [C|C]]]]; [left; auto|discriminate|right; right; auto].
    + destruct (IH bin lib) as [N S1]. split; [exact N|]. intros f. rewrite S1. cbn [In]. split; intros [[A [B C]]|[A [B C]]]; [left|right|left|right]; repeat split; auto; destruct C as [C|C]; (discriminate || exact C).
    + destruct (IH bin lib) as [N S1]. split; [exact N|]. intros f. rewrite S1. cbn [In]. split; intros [[A [B C]]|[A [B C]]]; [left|right|left|right]; repeat split; auto; destruct C as [C|C]; (discriminate || exact C).
Qed.
Lemma is_test_target_spec source t : is_test_target source t = true <-> t_kinds t = [TTest] /\ t_src t = source.
Proof.
  unfold is_test_target. destruct (t_kinds t) as [|[] [|? ?]]; try (split; [discriminate|intros [H _]; discriminate]).
  rewrite path_eqb_eq. split; [auto|intros [_ H]; exact H].
Qed.
Lemma slashes l : l <> [] -> SLASH :: join_path l = concat (map (fun x => s2t "/" ++ x) l).
Proof.
  induction l as [|x l IH]; [congruence|]. intros _. destruct l as [|y l]; [cbn; rewrite app_nil_r; reflexivity|].
  cbn [map concat join_path] in *. rewrite <- IH by discriminate. reflexivity.
Qed.
Theorem C50_flags : forall p source, exists rest,
  source_file_flags p source = s2t "--manifest-path" :: concat (map (fun x => s2t "/" ++ x) (p_dir p ++ [s2t "Cargo.toml"])) :: rest /\
  (forall l1 t l2, p_targets p = l1 ++ t :: l2 -> t_kinds t = [TTest] -> t_src t = source ->
     (forall t', In t' (l1 ++ l2) -> ~ (t_kinds t' = [TTest] /\ t_src t' = source)) -> rest = [s2t "--test"; t_name t]) /\
  ((forall t, In t (p_targets p) -> ~ (t_kinds t = [TTest] /\ t_src t = source)) ->
     NoDup rest /\ forall f, In f rest <-> exists t, In t (p_targets p) /\ ((f = s2t "--bins" /\ In TBin (t_kinds t)) \/ (f = s2t "--lib" /\ In TLib (t_kinds t)))).
Proof.
  intros p source. rewrite <- slashes by (destruct (p_dir p); discriminate). unfold source_file_flags. eexists. split; [reflexivity|]. unfold source_file_test.
  assert (None' : forall l, (forall t, In t l -> ~ (t_kinds t = [TTest] /\ t_src t = source)) -> filter (is_test_target source) l = []).
  { induction l as [|t l IH]; intros H; [reflexivity|]. cbn [filter]. destruct (is_test_target source t) eqn:E.
    - apply is_test_target_spec in E. destruct (H t (or_introl eq_refl) E).
    - apply IH. intros t' I. apply H. right. exact I. }
  split.
  - intros l1 t l2 E K Sx H. rewrite E, filter_app. cbn [filter]. rewrite (None' l1) by (intros t' I; apply H, in_or_app; auto).
    rewrite (None' l2) by (intros t' I; apply H, in_or_app; auto).
    assert (T : is_test_target source t = true) by (apply is_test_target_spec; auto). rewrite T. reflexivity.
  - intros H. rewrite (None' _ H). destruct (unit_flags_spec (flat_map t_kinds (p_targets p)) false false) as [N S1]. split; [exact N|].
    intros f. rewrite S1, !in_flat_map. split.
    + intros [[A [_ [t [I C]]]]|[A [_ [t [I C]]]]]; exists t; auto.
    + intros [t [I [[A C]|[A C]]]]; [left|right]; eauto 6.
Qed.
Print Assumptions C50_flags.

(** ** Caches *)
(** A cached computation gives what the computation gives, as long as that does not change for a key. *)
Theorem C50_cache_transparent : forall (K V E : Type) (eqb : K -> K -> bool) (f : K -> res E V),
  (forall a b, eqb a b = true <-> a = b) ->
  forall m k, (forall k v, lookup eqb k m = Some v -> f k = Ok v) ->
  snd (or_try_insert eqb m k (f k)) = f k /\
  forall k' v, lookup eqb k' (fst (or_try_insert eqb m k (f k))) = Some v -> f k' = Ok v.
Proof.
  intros K V E eqb f Eq m k Inv. unfold or_try_insert. destruct (lookup eqb k m) as [v|] eqn:L; cbn [fst snd].
  - split; [symmetry; apply Inv, L|exact Inv].
  - destruct (f k) as [v|e|] eqn:F; cbn [fst snd]; (split; [reflexivity|]); [|exact Inv|exact Inv].
    intros k' v'. cbn [lookup]. destruct (eqb k' k) eqn:Ek; [|apply Inv]. apply Eq in Ek. subst k'. intros H. injection H as <-. exact F.
Qed.
Print Assumptions C50_cache_transparent.

(** ** Identifiers *)
Lemma reserve_fresh st p : id_map st = [] -> reserve_test_path_id st p = (IdState [] (id_paths st ++ [p]), length (id_paths st)).
Proof. intros E. unfold reserve_test_path_id. rewrite E. reflexivity. Qed.
Lemma reserve_all_spec ps : forall st, id_map st = [] ->
  reserve_all st ps = (IdState [] (id_paths st ++ ps), List.seq (length (id_paths st)) (length ps)).
Proof.
  induction ps as [|p ps IH]; intros st E; cbn [reserve_all].
  - rewrite app_nil_r. destruct st as [mm pp]. cbn in E. subst mm. reflexivity.
  - rewrite reserve_fresh by exact E. rewrite IH by reflexivity. cbn [id_paths]. rewrite <- app_assoc, app_length. cbn [app length].
    rewrite Nat.add_comm. reflexivity.
Qed.

(** C51: whatever is reserved, in whatever order: the identifier of the [k]-th reservation leads to the name of its path, then and
    after all later reservations, and different reservations get different identifiers. *)
Theorem C51_identifiers : forall ps qs k p, nth_error ps k = Some p ->
  let '(st, ids) := reserve_all init_ids ps in
  let '(st', _) := reserve_all st qs in
  exists i, nth_error ids k = Some i /\ id_name st i = Some (separated (s2t "::") p) /\ id_name st' i = Some (separated (s2t "::") p) /\
    forall k', nth_error ids k' = Some i -> k' = k.
Proof.
  intros ps qs k p H. rewrite <- join_colons_separated. rewrite reserve_all_spec by reflexivity. rewrite reserve_all_spec by reflexivity. cbn [id_paths init_ids app length].
  assert (L : k < length ps) by (apply nth_error_Some; congruence).
  assert (Q : forall j, j < length ps -> nth_error (List.seq 0 (length ps)) j = Some j).
  { intros j J. rewrite (nth_error_nth' _ 0) by (rewrite seq_length; exact J). rewrite seq_nth by exact J. reflexivity. }
  exists k. split; [apply Q, L|]. unfold id_name. cbn [id_paths]. rewrite H. split; [reflexivity|]. split; [rewrite nth_error_app1 by exact L; rewrite H; reflexivity|].
  intros k' H'. assert (L' : k' < length ps). { rewrite <- (seq_length (length ps) 0). apply nth_error_Some. congruence. }
  rewrite (Q k' L') in H'. injection H' as ->. reflexivity.
Qed.
Print Assumptions C51_identifiers.

(** C51, the part that is false: equal paths do not get equal identifiers.  The map that is to provide for this is never filled. *)
Theorem C51_equal_paths_refuted : forall st p, id_map st = [] ->
  let '(st1, i) := reserve_test_path_id st p in
  let '(st2, j) := reserve_test_path_id st1 p in
  i <> j /\ id_map st2 = [] /\ id_name st2 i = id_name st2 j.
Proof.
  intros st p E. rewrite reserve_fresh by exact E. rewrite reserve_fresh by reflexivity. cbn [id_paths id_map].
  split; [rewrite app_length; cbn; lia|]. split; [reflexivity|]. unfold id_name. cbn [id_paths]. f_equal.
  rewrite nth_error_app1 by (rewrite app_length; cbn; lia).
  rewrite !nth_error_app2 by lia. rewrite !Nat.sub_diag. reflexivity.
Qed.
Print Assumptions C51_equal_paths_refuted.

(** ** Examples *)
Definition r_pkg : package := Package [s2t "w"; s2t "core"] [Target [TLib] (s2t "core") [s2t "w"; s2t "core"; s2t "src"; s2t "lib.rs"];
  Target [TTest] (s2t "it") [s2t "w"; s2t "core"; s2t "tests"; s2t "it.rs"]].
Definition r_pkgs : list package := [Package [s2t "w"] []; r_pkg; Package [s2t "w"; s2t "backends"] []].
Example r_package_of : package_of r_pkgs (p_dir r_pkg ++ [s2t "src"; s2t "a"; rs (s2t "b")]) r_pkg.
Proof.
  split; [right; left; reflexivity|]. split; [eexists; reflexivity|]. intros q [<-|[<-|[<-|[]]]] [r E]; cbn in *; try lia. 
Qed.
Example r_crate_module : crate_module [s2t "src"; s2t "a"; rs (s2t "b")] [s2t "a"; s2t "b"].
Proof. apply (cm_file _ _ [s2t "a"] (s2t "b") md_src); try discriminate; try (intros [H _]; discriminate); try (intros _ r H; discriminate). Qed.
Example r_module_path : module_path r_pkgs (p_dir r_pkg ++ [s2t "src"; s2t "a"; rs (s2t "b")]) = Ok [s2t "a"; s2t "b"].
Proof. vm_compute. reflexivity. Qed.
Example r_tests : find_tests (Ok [s2t "a"]) (fun _ => true) (fun _ => false)
  [IFn false (s2t "f") []; IMod (s2t "tests") [IFn true (s2t "t1") [IFn false (s2t "g") []]; IOther [IFn true (s2t "t2") []]]] =
  Some ([[s2t "a"; s2t "tests"; s2t "t1"]; [s2t "a"; s2t "tests"; s2t "t2"]], []).
Proof. vm_compute. reflexivity. Qed.
Example r_nested_test_panics : find_tests (Ok []) (fun _ => true) (fun _ => false) [IFn true (s2t "t") [IOther [IFn true (s2t "inner") []]]] = None.
Proof. vm_compute. reflexivity. Qed.
Example r_flags : source_file_flags r_pkg [s2t "w"; s2t "core"; s2t "tests"; s2t "it.rs"] =
  [s2t "--manifest-path"; s2t "/w/core/Cargo.toml"; s2t "--test"; s2t "it"].
Proof. vm_compute. reflexivity. Qed.
