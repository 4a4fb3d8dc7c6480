(** The TypeScript translation [jr]: the shapes of its nodes, and what [S_Swc]'s vocabulary becomes. *)
From Verif Require Import Base M_Text M_Span M_Run M_Visitor S_Visitor S_Walk S_Candidates L_Visitor L_VisitorFacts L_Candidates L_Tree M_Swc S_Swc.
Local Open Scope list_scope.

Fixpoint swc_ind' (P : swc -> Prop) (H : forall a k l, Forall P l -> P (Swc a k l)) (t : swc) : P t :=
  match t with
  | Swc a k l => H a k l ((fix go (l : list swc) : Forall P l := match l with [] => Forall_nil P | x :: r => Forall_cons x (swc_ind' P H x) (go r) end) l)
  end.
Lemma js_trans t u v : js_part t u -> js_part u v -> js_part t v.
Proof. induction 1; [auto|]. intros. econstructor; eauto. Qed.
Lemma js_part_in t p : In p (j_parts t) -> js_part t p.
Proof. destruct t as [a k l]. intros H. econstructor; [exact H|constructor]. Qed.

Definition jn (t : swc) (k : nkind) (l : list node) : node := Node (Label (2 * j_id (j_info t))%nat k [] (j_span (j_info t))) l.
Definition grp (t : swc) (l : list node) : node := Node (Label (S (2 * j_id (j_info t))) KGroup [] (j_span (j_info t))) l.
Notation jrs l := (map jr l).

Lemma it_call_spec e m : it_call e = Some m <-> exists b, it_expr e m b.
Proof.
  unfold it_call, it_expr. split.
  - destruct (j_kind e) eqn:Ke; try discriminate. destruct (j_parts e) as [|f [|s [|g [|]]]] eqn:Pe; try discriminate.
    destruct (j_kind f) eqn:Kf; try discriminate. destruct (j_kind s) as [| | | | |[v|]| | | |] eqn:Ks; try discriminate. destruct (j_kind g) as [| | | | | |[]| | |] eqn:Kg; try discriminate.
    destruct (j_parts g) as [|p0 pr] eqn:Pg; [discriminate|]. destruct (text_eqb x (s2t "it")) eqn:T; [|discriminate]. apply text_eqb_eq in T. subst x. intros H. inversion H; subst.
    destruct (exists_last (l := p0 :: pr)) as (pre & b & Hb); [discriminate|]. exists b, f, s, g, pre. rewrite <- Hb. auto 10.
  - intros (b & f & s & g & pre & -> & -> & -> & -> & -> & ->). rewrite text_eqb_refl. destruct pre; reflexivity.
Qed.
Lemma is_it_call u e r : j_kind u = JStmt SExpr -> j_parts u = e :: r -> (is_it u <-> it_call e <> None).
Proof.
  intros K P. split.
  - intros (m & b & _ & e' & r' & P' & H). rewrite P in P'. inversion P'; subst. assert (Q : it_call e' = Some m) by (apply it_call_spec; eauto). congruence.
  - destruct (it_call e) as [m|] eqn:Q; [intros _|congruence]. apply it_call_spec in Q. destruct Q as (b & Q). exists m, b. split; [exact K|]. eauto.
Qed.

Inductive jshape (t : swc) : node -> Prop :=
| jh_stmt s : j_kind t = JStmt s -> s <> SExpr -> jshape t (jn t (KStmt true (s_control s) (s_declaration s) false) (jrs (j_parts t)))
| jh_test e r m f s g pre b : j_kind t = JStmt SExpr -> j_parts t = e :: r -> j_kind e = JCall -> j_parts e = [f; s; g] -> j_kind f = JIdent (s2t "it") ->
    j_kind s = JStr (Some m) -> j_kind g = JFun true -> j_parts g = pre ++ [b] -> jshape t (jn t (KTest m 1) [grp t (jr f :: jr s :: jrs pre); jr b])
| jh_expr_stmt e r : j_kind t = JStmt SExpr -> j_parts t = e :: r -> ~ is_it t -> jshape t (jn t (KStmt true false false true) (jr e :: jrs r))
| jh_await b r : j_kind t = JAwait -> j_parts t = b :: r -> jshape t (jn t KAwait (jr b :: jrs r))
| jh_member x b r : j_kind t = JMember x -> j_parts t = b :: r -> jshape t (jn t (KField x) (jr b :: jrs r))
| jh_call h f r : j_kind t = JCall -> j_parts t = f :: r -> (h = true <-> exists m b, it_expr t m b) -> jshape t (jn t (KCall h (j_name f)) (jr f :: jrs r))
| jh_ident x : j_kind t = JIdent x -> jshape t (jn t (KIdent x) (jrs (j_parts t)))
| jh_other k : k = KExpr \/ k = KGroup -> ~ js_stmt t -> ~ js_call t -> (forall x b, ~ js_member t x b) -> (forall b, ~ js_await t b) -> (forall x, j_kind t <> JIdent x) ->
    ~ is_it t -> jshape t (jn t k (jrs (j_parts t))).
Ltac jnot := unfold js_stmt, js_call, js_call_of, js_member, js_await, is_it, it_statement; cbn [j_kind j_parts]; repeat split; intros; try congruence;
  try (intros [(ss & Q & Q')|(Q & Q' & _)]; congruence); try (intros (ff & Q & aa & Q'); congruence); try (intros (Q & rr & Q'); congruence);
  try (intros (mm & bb & Q & ee & rr & Q' & _); congruence).
Lemma jr_shape t : jshape t (jr t).
Proof.
  destruct t as [a k ks]. cbn [jr]. assert (O : forall k', k' = KExpr \/ k' = KGroup -> ~ js_stmt (Swc a k ks) -> ~ js_call (Swc a k ks) -> (forall x b, ~ js_member (Swc a k ks) x b) -> (forall b, ~ js_await (Swc a k ks) b) ->
    (forall x, k <> JIdent x) -> ~ is_it (Swc a k ks) -> jshape (Swc a k ks) (Node (Label (2 * j_id a) k' [] (j_span a)) (jrs ks))).
  { intros. exact (jh_other (Swc a k ks) k' H H0 H1 H2 H3 H4 H5). }
  destruct k as [s| |x| |x|v|bl| |n|].
  - destruct s; try (apply (jh_stmt (Swc a (JStmt _) ks) _ eq_refl); discriminate). destruct ks as [|e r]; [apply O; [auto|..]; jnot|]. cbn [map].
    destruct (it_call e) as [m|] eqn:Q.
    + apply it_call_spec in Q. destruct Q as (b & f & s & g & pre & K1 & P1 & K2 & K3 & K4 & P4).
      assert (T : test_kids (2 * j_id a) (j_span a) (jr e) = [grp (Swc a (JStmt SExpr) (e :: r)) (jr f :: jr s :: jrs pre); jr b]).
      { unfold test_kids. assert (Ee : n_kids (jr e) = [jr f; jr s; jr g]) by (destruct e as [ae ke le]; cbn [j_kind j_parts] in *; subst; reflexivity). rewrite Ee.
        assert (Eg : n_kids (jr g) = jrs (pre ++ [b])) by (destruct g as [ag kg lg]; cbn [j_kind j_parts] in *; subst; reflexivity). rewrite Eg, map_app, rev_app_distr. cbn [map rev app].
        rewrite rev_involutive. reflexivity. }
      rewrite T. exact (jh_test (Swc a (JStmt SExpr) (e :: r)) e r m f s g pre b eq_refl eq_refl K1 P1 K2 K3 K4 P4).
    + apply (jh_expr_stmt (Swc a (JStmt SExpr) (e :: r)) e r eq_refl eq_refl). rewrite (is_it_call _ e r) by reflexivity. congruence.
  - destruct ks as [|b r]; [apply O; [auto|..]; jnot|]. exact (jh_await (Swc a JAwait (b :: r)) b r eq_refl eq_refl).
  - destruct ks as [|b r]; [apply O; [auto|..]; jnot|]. exact (jh_member (Swc a (JMember x) (b :: r)) x b r eq_refl eq_refl).
  - destruct ks as [|f r]; [apply O; [auto|..]; jnot|]. apply (jh_call (Swc a JCall (f :: r)) _ f r eq_refl eq_refl).
    destruct (it_call (Swc a JCall (f :: r))) as [m|] eqn:Q.
    + apply it_call_spec in Q. split; [eauto|reflexivity].
    + split; [discriminate|]. intros (m & b & H). assert (it_call (Swc a JCall (f :: r)) = Some m) by (apply it_call_spec; eauto). congruence.
  - exact (jh_ident (Swc a (JIdent x) ks) x eq_refl).
  - apply O; [auto|..]; jnot.
  - apply O; [auto|..]; jnot.
  - apply O; [auto|..]; jnot.
  - apply O; [auto|..]; jnot.
  - apply O; [auto|..]; jnot.
Qed.
Ltac jshapes t := destruct (jr_shape t) as [s9 Hk Hse|e9 r9 m9 f9 s9 g9 pre9 b9 Hk Hp Ke9 Pe9 Kf9 Ks9 Kg9 Pg9|e9 r9 Hk Hp Hni|b9 r9 Hk Hp|x9 b9 r9 Hk Hp|h9 f9 r9 Hk Hp Hh|x9 Hk|k9 Hko Hns Hnc Hnm Hna Hnd Hni].
Lemma jr_span t : n_span (jr t) = j_span (j_info t).
Proof. destruct (jr_shape t); reflexivity. Qed.
Lemma jr_id t : n_id (jr t) = (2 * j_id (j_info t))%nat.
Proof. destruct (jr_shape t); reflexivity. Qed.
Lemma jr_parts t : ~ is_it t -> n_kids (jr t) = jrs (j_parts t).
Proof.
  intros N. jshapes t; try reflexivity; try (rewrite Hp; reflexivity). destruct N. exists m9, b9. split; [exact Hk|]. exists e9, r9. split; [exact Hp|]. exists f9, s9, g9, pre9. auto 10.
Qed.
(** Tests. *)
Lemma jr_test t m i : n_kind (jr t) = KTest m i -> i = 1%nat /\ exists b, it_statement t m b.
Proof.
  jshapes t; try discriminate; try (destruct Hko; subst; discriminate). intros H. injection H. intros <- <-. split; [reflexivity|]. exists b9. split; [exact Hk|]. exists e9, r9. split; [exact Hp|]. exists f9, s9, g9, pre9. auto 10.
Qed.
Lemma test_jr t m b : it_statement t m b -> exists pre, jr t = jn t (KTest m 1) [grp t (jrs pre); jr b] /\ forall p, In p pre \/ p = b -> exists e, In e (j_parts t) /\ js_part e p.
Proof.
  intros H0. assert (H := H0). destruct H as (K & e & r & P & f & s & g & pre & K1 & P1 & K2 & K3 & K4 & P4).
  assert (PP : forall p, In p (f :: s :: pre) \/ p = b -> exists e, In e (j_parts t) /\ js_part e p).
  { intros p Hp. exists e. split; [rewrite P; left; reflexivity|].
    assert (Hg : In p (pre ++ [b]) -> js_part e p).
    { intros Hi. apply js_trans with (u := g); [apply js_part_in; rewrite P1; cbn; auto|]. apply js_part_in. rewrite P4. exact Hi. }
    destruct Hp as [[<-|[<-|Hp]]| ->]; [apply js_part_in; rewrite P1; cbn; auto|apply js_part_in; rewrite P1; cbn; auto|apply Hg; apply in_or_app; auto|apply Hg; apply in_or_app; cbn; auto]. }
  jshapes t; try congruence.
  - rewrite P in Hp. inversion Hp; subst. rewrite P1 in Pe9. inversion Pe9; subst. rewrite P4 in Pg9. apply app_inj_tail in Pg9. destruct Pg9; subst. rewrite K3 in Ks9. inversion Ks9; subst.
    exists (f9 :: s9 :: pre9). split; [reflexivity|exact PP].
  - destruct Hni. exists m, b. exact H0.
  - destruct Hni. exists m, b. exact H0.
Qed.
Lemma jr_within_part t : forall u, js_part t u -> forall m, within (jr u) m -> exists v, js_part u v /\ (m = jr v \/ (is_it v /\ exists l, m = grp v l)).
Proof.
  induction t as [a k l IH] using swc_ind'. rewrite Forall_forall in IH. intros u Hu.
  assert (Hu' : u = Swc a k l \/ exists p, In p l /\ js_part p u) by (inversion Hu; subst; eauto). destruct Hu' as [->|(p & Hp & Hpu)]; [|exact (IH p Hp u Hpu)]. clear Hu.
  intros m Hm. destruct (within_inv _ _ Hm) as [->|(h & Hh & Hw)]; [exists (Swc a k l); split; [constructor|auto]|].
  assert (Sub : forall p q, In p l -> js_part p q -> within (jr q) m -> exists v, js_part (Swc a k l) v /\ (m = jr v \/ (is_it v /\ exists l0, m = grp v l0))).
  { intros p q Hp Hq Hq'. destruct (IH p Hp q Hq m Hq') as (v & Hv & Hmv). exists v. split; [|exact Hmv]. econstructor; [exact Hp|]. eapply js_trans; eassumption. }
  assert (D : is_it (Swc a k l) \/ ~ is_it (Swc a k l)).
  { destruct k as [[]| | | | | | | | |]; try (right; intros (m0 & b0 & K & _); discriminate). destruct l as [|e r]; [right; intros (m0 & b0 & _ & e0 & r0 & P0 & _); discriminate|].
    pose proof (is_it_call (Swc a (JStmt SExpr) (e :: r)) e r eq_refl eq_refl) as I. destruct (it_call e); [left; apply I; discriminate|right; intros H; apply I in H; congruence]. }
  destruct D as [D|D].
  - assert (D0 := D). destruct D as (msg & b & Ht). destruct (test_jr _ _ _ Ht) as (pre & Ej & Hpre). rewrite Ej in Hh. destruct Hh as [<-|[<-|[]]].
    + destruct (within_inv _ _ Hw) as [->|(h & Hh & Hw')]; [exists (Swc a k l); split; [constructor|]; right; split; [exact D0|eauto]|].
      cbn [grp n_kids] in Hh. apply in_map_iff in Hh. destruct Hh as (q & <- & Hq). destruct (Hpre q (or_introl Hq)) as (e & He & Heq). exact (Sub e q He Heq Hw').
    + destruct (Hpre b (or_intror eq_refl)) as (e & He & Heq). exact (Sub e b He Heq Hw).
  - rewrite (jr_parts _ D) in Hh. cbn [j_parts] in Hh. apply in_map_iff in Hh. destruct Hh as (q & <- & Hq). exact (Sub q q Hq (jp_here q) Hw).
Qed.
Lemma jr_within t m : within (jr t) m -> exists u, js_part t u /\ (m = jr u \/ (is_it u /\ exists l, m = grp u l)).
Proof. apply (jr_within_part t t (jp_here t)). Qed.
Lemma it_dec t : is_it t \/ ~ is_it t.
Proof.
  destruct t as [a k l]. destruct k as [[]| | | | | | | | |]; try (right; intros (m0 & b0 & K & _); discriminate). destruct l as [|e r]; [right; intros (m0 & b0 & _ & e0 & r0 & P0 & _); discriminate|].
  pose proof (is_it_call (Swc a (JStmt SExpr) (e :: r)) e r eq_refl eq_refl) as I. destruct (it_call e); [left; apply I; discriminate|right; intros H; apply I in H; congruence].
Qed.

(** What the nodes are. *)
Ltac other Hko := try (destruct Hko; subst; discriminate).
Lemma j_stmt t : is_stmt (jr t) <-> js_stmt t.
Proof.
  unfold js_stmt. split.
  - intros (r0 & c0 & d0 & e0 & H). jshapes t; try discriminate; other Hko; [left; eauto|right; split; [exact Hk|split; [congruence|exact Hni]]].
  - intros H. jshapes t; try (eexists _, _, _, _; reflexivity); try contradiction; try (destruct H as [(s & Q & _)|(Q & _)]; congruence).
    exfalso. destruct H as [(s & Q & N)|(_ & _ & N)]; [congruence|]. apply N. exists m9, b9. split; [exact Hk|]. exists e9, r9. split; [exact Hp|]. exists f9, s9, g9, pre9. auto 10.
Qed.
Lemma j_call t : is_call (jr t) <-> js_call t.
Proof.
  split.
  - intros (h & x & H). jshapes t; try discriminate; other Hko. exists f9. split; eauto.
  - intros (f & K & args & P). jshapes t; try congruence; [eexists _, _; reflexivity|]. destruct Hnc. exists f. split; eauto.
Qed.
Lemma j_seen t : (exists x, n_kind (jr t) = KCall false x) <-> js_call t /\ forall m b, ~ it_expr t m b.
Proof.
  split.
  - intros (x & H). split; [apply j_call; exists false, x; exact H|]. jshapes t; try discriminate; other Hko. injection H. intros _ E0 m b Hb. assert (h9 = true) by (apply Hh; eauto). congruence.
  - intros ((f & K & args & P) & N). jshapes t; try congruence; [|destruct Hnc; exists f; split; eauto]. destruct h9; [|eexists; reflexivity]. destruct (proj1 Hh eq_refl) as (m & b & Hb). destruct (N m b Hb).
Qed.
Lemma j_no_macro t x : n_kind (jr t) <> KMacro x.
Proof. jshapes t; try discriminate. destruct Hko; subst; discriminate. Qed.
Lemma j_member t x b : js_member t x b -> exists l r, jr t = Node l (jr b :: r) /\ l_kind l = KField x.
Proof.
  intros (K & r & P). jshapes t; try congruence; [|destruct (Hnm x b); split; eauto]. rewrite K in Hk. inversion Hk; subst. rewrite P in Hp. inversion Hp; subst. eexists _, _. split; reflexivity.
Qed.
Lemma j_member_inv t x : n_kind (jr t) = KField x -> exists b, js_member t x b.
Proof. intros H. jshapes t; try discriminate; other Hko. injection H. intros <-. exists b9. split; eauto. Qed.
Lemma j_await t b : js_await t b -> exists l r, jr t = Node l (jr b :: r) /\ l_kind l = KAwait.
Proof.
  intros (K & r & P). jshapes t; try congruence; [|destruct (Hna b); split; eauto]. rewrite P in Hp. inversion Hp; subst. eexists _, _. split; reflexivity.
Qed.
Lemma j_await_inv t : n_kind (jr t) = KAwait -> exists b, js_await t b.
Proof. intros H. jshapes t; try discriminate; other Hko. exists b9. split; eauto. Qed.
Lemma j_ident t x : n_kind (jr t) = KIdent x <-> j_kind t = JIdent x.
Proof.
  split; intros H; jshapes t; try discriminate; other Hko; try congruence.
  1: injection H; intros <-; exact Hk.
  rewrite Hk in H. inversion H. reflexivity.
Qed.
Lemma j_call_of t f : js_call_of t f -> exists l args, jr t = Node l (jr f :: args) /\ exists h, l_kind l = KCall h (j_name f).
Proof.
  intros (K & r & P). jshapes t; try congruence; [|destruct Hnc; exists f; split; eauto]. rewrite P in Hp. inversion Hp; subst. eexists _, _. split; [reflexivity|]. eexists. reflexivity.
Qed.
Lemma j_members e base p : js_members e base p -> field_path (jr e) (jr base) p.
Proof.
  induction 1 as [e H|e x b base p M _ IH].
  - apply fp_base. intros x K. destruct (j_member_inv e _ K) as (b & M). exact (H x b M).
  - destruct (j_member e (Some x) b M) as (l & r & -> & K). apply fp_field; [exact K|exact IH].
Qed.
Lemma j_members_inv B p n : field_path n B p -> forall e, n = jr e -> exists base, js_members e base p /\ B = jr base.
Proof.
  induction 1 as [n H|l x b r base p K _ IH]; intros e He; subst.
  - exists e. split; [|reflexivity]. apply jm_base. intros x b M. destruct (j_member e (Some x) b M) as (l & r & E0 & K). apply (H x). rewrite E0. exact K.
  - assert (Hk : n_kind (jr e) = KField (Some x)) by (rewrite <- He; exact K). destruct (j_member_inv e _ Hk) as (b' & M). destruct (j_member e _ b' M) as (l' & r' & E0 & _). rewrite E0 in He. inversion He; subst.
    destruct (IH b' eq_refl) as (base' & Hb & ->). exists base'. split; [|reflexivity]. eapply jm_member; eassumption.
Qed.
Lemma j_method t B p : method_call (jr t) B p <-> exists base, js_method t base p /\ B = jr base.
Proof.
  split.
  - intros (Hc & callee & args & Hk & Hf & Np). apply j_call in Hc. destruct Hc as (f & Hc). destruct (j_call_of t f Hc) as (l & args' & E0 & _). rewrite E0 in Hk. cbn [n_kids] in Hk. inversion Hk; subst.
    destruct (j_members_inv _ _ _ Hf f eq_refl) as (base & Hb & ->). exists base. split; [|reflexivity]. exists f. auto.
  - intros (base & (f & Hc & Hf & Np) & ->). split; [apply j_call; exists f; exact Hc|]. destruct (j_call_of t f Hc) as (l & args' & E0 & _). exists (jr f), args'. rewrite E0. split; [reflexivity|].
    split; [apply j_members; exact Hf|exact Np].
Qed.
Lemma j_performs e c : js_performs e c -> performs (jr e) (jr c).
Proof.
  induction 1 as [c H|e b c A _ IH|e x b c M _ IH].
  - apply pf_call. left. apply j_call. exact H.
  - destruct (j_await e b A) as (l & r & -> & K). eapply pf_await; [exact K|exact IH].
  - destruct (j_member e x b M) as (l & r & -> & K). eapply pf_field; [exact K|exact IH].
Qed.
Lemma j_performs_inv n k : performs n k -> forall e, n = jr e -> exists c, js_performs e c /\ k = jr c.
Proof.
  induction 1 as [k H|l b r k K _ IH|l x b r k K _ IH]; intros e He; subst.
  - exists e. split; [|reflexivity]. constructor. destruct H as [H|(x & H)]; [apply j_call; exact H|destruct (j_no_macro e x H)].
  - assert (Hk : n_kind (jr e) = KAwait) by (rewrite <- He; exact K). destruct (j_await_inv e Hk) as (b' & M). destruct (j_await e b' M) as (l' & r' & E0 & _). rewrite E0 in He. inversion He; subst.
    destruct (IH b' eq_refl) as (c & Hc & ->). exists c. split; [|reflexivity]. eapply jf_await; eassumption.
  - assert (Hk : n_kind (jr e) = KField x) by (rewrite <- He; exact K). destruct (j_member_inv e _ Hk) as (b' & M). destruct (j_member e _ b' M) as (l' & r' & E0 & _). rewrite E0 in He. inversion He; subst.
    destruct (IH b' eq_refl) as (c & Hc & ->). exists c. split; [|reflexivity]. eapply jf_member; eassumption.
Qed.
Lemma j_call_statement u n : call_statement (jr u) n <-> exists c, js_call_statement u c /\ n = jr c.
Proof.
  split.
  - intros (l & e0 & r0 & rm & ct & d & H & K & P). revert H. jshapes u; intros H; inversion H; subst; cbn in K; try discriminate; try (destruct Hko; subst; discriminate).
    destruct (j_performs_inv _ _ P e9 eq_refl) as (c & H1 & H2). exists c. split; [|exact H2]. split; [exact Hk|]. split; [exact Hni|]. eauto.
  - intros (c & (K & N & e & r & P & Hpf) & ->). jshapes u; try congruence.
    + destruct N. exists m9, b9. split; [exact Hk|]. exists e9, r9. split; [exact Hp|]. exists f9, s9, g9, pre9. auto 10.
    + rewrite P in Hp. inversion Hp; subst. eexists _, _, _, _, _, _. split; [reflexivity|]. split; [reflexivity|]. apply j_performs. exact Hpf.
    + destruct Hns. right. split; [exact K|]. split; [congruence|exact N].
Qed.

(** Well-formedness. *)
Lemma j_head E e : fw_expr_kids (v_fw E) = true -> (forall c m b, js_performs e c -> ~ it_expr c m b) -> head_ok E (jr e) = true.
Proof.
  intros F. induction e as [a k l IH] using swc_ind'. intros H. rewrite Forall_forall in IH.
  assert (I : forall b, In b l -> (forall c, js_performs b c -> js_performs (Swc a k l) c) -> head_ok E (jr b) = true).
  { intros b Hb Hs. apply (IH b Hb). intros c m b0 Hc. apply (H c m b0), Hs, Hc. }
  jshapes (Swc a k l); try reflexivity; try (destruct Hko; subst; reflexivity).
  - cbn [j_kind j_parts] in *. subst. cbn [jn head_ok l_kind]. rewrite F, (I b9); [destruct (head_is_call _); reflexivity|left; reflexivity|].
    intros c Hc. eapply jf_await; [|exact Hc]. split; [reflexivity|eexists; reflexivity].
  - cbn [j_kind j_parts] in *. subst. cbn [jn head_ok l_kind]. rewrite F, (I b9); [destruct (head_is_call _); reflexivity|left; reflexivity|].
    intros c Hc. eapply jf_member; [|exact Hc]. split; [reflexivity|eexists; reflexivity].
  - cbn [jn head_ok l_kind]. destruct h9; [|reflexivity]. destruct (proj1 Hh eq_refl) as (m & b & Hb). exfalso. apply (H (Swc a k l) m b); [|exact Hb]. constructor. exists f9. split; [exact Hk|]. eauto.
Qed.
Lemma well_formed_kids E n : (forall h, In h (n_kids n) -> well_formed E h = true) ->
  (match n_kind n with KCall _ _ | KField _ | KAwait => n_kids n <> [] | KStmt _ _ _ true => forall e, hd_error (n_kids n) = Some e -> head_ok E e = true | _ => True end) -> well_formed E n = true.
Proof.
  destruct n as [l ks]. intros H K. cbn [well_formed n_kids] in *. unfold n_kind in K. cbn [n_lab] in K. apply andb_true_intro. split; [|apply forallb_forall; exact H].
  destruct (l_kind l) as [x1 x2 x3 []| | | | | | | |]; try reflexivity; destruct ks; try reflexivity; try contradiction. apply K. reflexivity.
Qed.
Lemma j_wf_part E root : fw_expr_kids (v_fw E) = true -> js_regular root -> forall t, js_part root t -> forall u, js_part t u -> well_formed E (jr u) = true.
Proof.
  intros F R t. induction t as [a k l IH] using swc_ind'. intros Ht u Hu. rewrite Forall_forall in IH.
  assert (I : forall p, In p l -> js_part root p) by (intros p Hp; eapply js_trans; [exact Ht|apply js_part_in; exact Hp]).
  assert (Hu' : u = Swc a k l \/ exists p, In p l /\ js_part p u) by (inversion Hu; subst; eauto). destruct Hu' as [->|(p & Hp & Hpu)]; [|exact (IH p Hp (I p Hp) u Hpu)]. clear Hu.
  destruct (it_dec (Swc a k l)) as [D|D].
  - destruct D as (m & b & D0). destruct (test_jr _ _ _ D0) as (pre & Ej & Hpre).
    assert (W : forall q, In q pre \/ q = b -> well_formed E (jr q) = true).
    { intros q Hq. destruct (Hpre q Hq) as (e & He & Heq). exact (IH e He (I e He) q Heq). }
    rewrite Ej. apply well_formed_kids; [|exact Logic.I]. intros h [<-|[<-|[]]]; [|apply W; auto]. apply well_formed_kids; [|exact Logic.I]. intros h Hh. cbn [grp n_kids] in Hh. apply in_map_iff in Hh.
    destruct Hh as (q & <- & Hq). apply W. auto.
  - apply well_formed_kids.
    + rewrite (jr_parts _ D). cbn [j_parts]. intros h Hh. apply in_map_iff in Hh. destruct Hh as (p & <- & Hp). exact (IH p Hp (I p Hp) p (jp_here p)).
    + jshapes (Swc a k l); try exact Logic.I; try discriminate; try (destruct Hko; subst; exact Logic.I). cbn [j_kind j_parts] in *. intros e He. cbn in He. inversion He; subst.
      apply j_head; [exact F|]. intros c m b Hc. apply (R _ c m b Ht). split; [reflexivity|]. split; [exact D|]. exists e9, r9. auto.
Qed.
Lemma j_wf E root t : fw_expr_kids (v_fw E) = true -> js_regular root -> js_part root t -> well_formed E (jr t) = true.
Proof. intros F R H. exact (j_wf_part E root F R root (jp_here root) t H). Qed.
