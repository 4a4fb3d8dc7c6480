(** Lemmas about the translation of syn's trees. *)
From Verif Require Import Base M_Text M_Rewriter M_Span M_Run M_Visitor S_Visitor S_Walk S_Candidates L_Visitor L_VisitorFacts L_Candidates
  M_Rust P_Rust L_Tree M_Syn S_Syn.
Local Open Scope list_scope.

Section Ind.
Context (P : syn -> Prop) (H : forall a k l, Forall P l -> P (Syn a k l)).
Fixpoint syn_ind' (t : syn) : P t :=
  match t with
  | Syn a k l => H a k l ((fix all (l : list syn) : Forall P l :=
      match l with [] => Forall_nil _ | x :: r => Forall_cons x (syn_ind' x) (all r) end) l)
  end.
End Ind.

Lemma part_trans t u v : part_of t u -> part_of u v -> part_of t v.
Proof. induction 1; intros Hv; [exact Hv|]. econstructor; eauto. Qed.
Lemma part_in t p : In p (x_parts t) -> part_of t p.
Proof. destruct t as [a k l]. intros H. econstructor; [exact H|constructor]. Qed.

Lemma marks_test_spec at_ : is_test at_ = true <-> marks_test at_.
Proof.
  unfold is_test, marks_test. rewrite existsb_exists. split.
  - intros (p & Hp & T). destruct p as [|(x & []) [|(y & []) [|z r]]]; try discriminate; cbn [attr_is_test] in T.
    + apply text_eqb_eq in T. subst x. left. exact Hp.
    + apply andb_prop in T. destruct T as [T1 T2]. apply text_eqb_eq in T1, T2. subst. right. exact Hp.
  - intros [H|H]; eexists; (split; [exact H|reflexivity]).
Qed.

Section Translation.
Context (fs : option (list text)) (listed : text -> bool).
Notation tn := (tr fs listed).

Definition virt (t : syn) (kd : nkind) (l : list node) : node := Node (Label (S (2 * x_id (x_info t))) kd [] (x_span (x_info t))) l.
Definition real (t : syn) (kd : nkind) (l : list node) : node := Node (Label (2 * x_id (x_info t)) kd (x_text (x_info t)) (x_span (x_info t))) l.
Definition full (t : syn) (kd : nkind) (l : list node) : node := Node (Label (2 * x_id (x_info t)) kd (tokens t) (x_span (x_info t))) l.
Definition allk (c : ctx) (t : syn) : list node := map (tn (enter c (x_kind t)) false) (x_parts t).

(** The shape of a translated node. *)
Inductive shape (c : ctx) (cal : bool) (t : syn) : node -> Prop :=
| xs_decl : x_kind t = XLocal \/ x_kind t = XItemStmt -> shape c cal t (real t (KStmt true false true false) (allk c t))
| xs_stmt semi e r : x_kind t = XExprStmt semi -> x_parts t = e :: r ->
    shape c cal t (real t (KStmt (stmt_removable semi e) (stmt_control e) false true) (tn c false e :: map (tn c false) r))
| xs_macro_stmt p : x_kind t = XMacroStmt p -> shape c cal t (full t (KStmt true false false true) [virt t (KMacro p) []])
| xs_await b r : x_kind t = XAwait -> x_parts t = b :: r -> shape c cal t (real t KAwait (tn c false b :: map (tn c false) r))
| xs_field m b r : x_kind t = XField m -> x_parts t = b :: r -> shape c cal t (real t (KField m) (tn c false b :: map (tn c false) r))
| xs_call f r : x_kind t = XCall -> x_parts t = f :: r -> shape c cal t (real t (KCall false (call_shown f)) (tn c true f :: map (tn c false) r))
| xs_method m b r : x_kind t = XMethod m -> x_parts t = b :: r ->
    shape c cal t (real t (KCall false (Some m)) (virt t (KField (Some m)) [tn c false b] :: map (tn c false) r))
| xs_macro p : x_kind t = XMacro p -> shape c cal t (full t (KMacro p) [])
| xs_ident x s : x_kind t = XPath false (Some x) s -> cal = true -> shape c cal t (real t (KIdent x) (allk c t))
| xs_expr : (forall x s, x_kind t = XPath false (Some x) s -> cal = false) -> enters t -> ~ rs_stmt t -> ~ rs_call t ->
    (forall m b, ~ rs_field t m b) -> (forall b, ~ rs_await t b) -> (forall n, x_kind t <> XMod n) -> shape c cal t (real t KExpr (allk c t))
| xs_test at_ n x : x_kind t = XFn at_ n -> is_test at_ = true -> test_name fs listed (cx_mods c) n = Some x ->
    shape c cal t (real t (KTest x 1) (allk c t))
| xs_skip at_ n : x_kind t = XFn at_ n -> is_test at_ = false \/ test_name fs listed (cx_mods c) n = None -> shape c cal t (full t KGroup [])
| xs_group : enters t -> ~ rs_stmt t -> ~ rs_call t ->
    (forall m b, ~ rs_field t m b) -> (forall b, ~ rs_await t b) -> (forall q i s, x_kind t <> XPath q i s) -> shape c cal t (real t KGroup (allk c t)).

Ltac notk := unfold enters, rs_stmt, rs_call, rs_function_call, rs_calls_method, rs_field, rs_await; cbn [x_kind x_parts]; repeat split; intros; try congruence;
  try (intros [Q|[Q|[(pp & Q)|(ss & ee & rr & Q & Q')]]]; congruence); try (intros [(ff & Q & aa & Q')|(mm & rr & Q & aa & Q')]; congruence); try (intros (Q & rr & Q'); congruence).
Lemma tr_shape c cal t : shape c cal t (tn c cal t).
Proof.
  destruct t as [a k l]. cbn [tr]. destruct k as [| |semi|p| |m| |m|p|q x s|e|at_ n|n|n|].
  - apply (xs_decl c cal (Syn a XLocal l)). left; reflexivity.
  - apply (xs_decl c cal (Syn a XItemStmt l)). right; reflexivity.
  - destruct l as [|e r]; [apply (xs_group c cal (Syn a (XExprStmt semi) [])); notk|]. eapply (xs_stmt c cal (Syn a (XExprStmt semi) (e :: r))); reflexivity.
  - eapply (xs_macro_stmt c cal (Syn a (XMacroStmt p) l)). reflexivity.
  - destruct l as [|e r]; [apply (xs_expr c cal (Syn a XAwait [])); notk|]. eapply (xs_await c cal (Syn a XAwait (e :: r))); reflexivity.
  - destruct l as [|e r]; [apply (xs_expr c cal (Syn a (XField m) [])); notk|]. eapply (xs_field c cal (Syn a (XField m) (e :: r))); reflexivity.
  - destruct l as [|e r]; [apply (xs_expr c cal (Syn a XCall [])); notk|]. eapply (xs_call c cal (Syn a XCall (e :: r))); reflexivity.
  - destruct l as [|e r]; [apply (xs_expr c cal (Syn a (XMethod m) [])); notk|]. eapply (xs_method c cal (Syn a (XMethod m) (e :: r))); reflexivity.
  - eapply (xs_macro c cal (Syn a (XMacro p) l)). reflexivity.
  - assert (X : (exists y, cal = true /\ q = false /\ x = Some y) \/ (forall y s', XPath q x s = XPath false (Some y) s' -> cal = false)).
    { destruct cal; [|right; auto]. destruct q; [right; discriminate|]. destruct x as [y|]; [left; eauto|right; discriminate]. }
    destruct X as [(y & -> & -> & ->)|X].
    + eapply (xs_ident c true (Syn a (XPath false (Some y) s) l)); reflexivity.
    + assert (Y : (if cal && negb q then match x with Some y => KIdent y | None => KExpr end else KExpr) = KExpr).
      { destruct cal, q; try reflexivity. destruct x as [y|]; [|reflexivity]. specialize (X y s eq_refl). discriminate. }
      rewrite Y. apply (xs_expr c cal (Syn a (XPath q x s) l)); try exact X; notk.
  - apply (xs_expr c cal (Syn a (XExpr e) l)); notk.
  - destruct (is_test at_) eqn:T; [|eapply (xs_skip c cal (Syn a (XFn at_ n) l)); [reflexivity|left; exact T]].
    destruct (test_name fs listed (cx_mods c) n) as [x|] eqn:X.
    + eapply (xs_test c cal (Syn a (XFn at_ n) l)); [reflexivity|exact T|exact X].
    + eapply (xs_skip c cal (Syn a (XFn at_ n) l)); [reflexivity|right; exact X].
  - apply (xs_group c cal (Syn a (XImplFn n) l)); notk.
  - apply (xs_group c cal (Syn a (XMod n) l)); notk.
  - apply (xs_group c cal (Syn a XPart l)); notk.
Qed.
Lemma tr_span c cal t : n_span (tn c cal t) = x_span (x_info t).
Proof. destruct (tr_shape c cal t); reflexivity. Qed.
Lemma tr_id c cal t : n_id (tn c cal t) = (2 * x_id (x_info t))%nat.
Proof. destruct (tr_shape c cal t); reflexivity. Qed.
Lemma tr_flag c cal t : (forall q x s, x_kind t <> XPath q x s) -> tn c cal t = tn c false t.
Proof. destruct t as [a k l]. intros H. cbn [tr]. destruct k; try reflexivity. destruct (H _ _ _ eq_refl). Qed.
Lemma enter_test c k : cx_test c = true -> enter c k = c.
Proof. destruct c as [ms i]. cbn. intros ->. destruct k; reflexivity. Qed.
Lemma enter_same c k : (forall n, k <> XMod n) -> (forall at_ n, k <> XFn at_ n) -> enter c k = c.
Proof. intros H1 H2. destruct k; try reflexivity; [destruct (H2 _ _ eq_refl)|destruct (H1 _ eq_refl)]. Qed.

(** Nodes of the translation that stand for no node of the tree: the callee of a method call, the macro of a macro statement. *)
Definition virtual (c : ctx) (t : syn) (m : node) : Prop :=
  (exists x b r, x_kind t = XMethod x /\ x_parts t = b :: r /\ m = virt t (KField (Some x)) [tn c false b]) \/
  (exists p, x_kind t = XMacroStmt p /\ m = virt t (KMacro p) []).
Definition kid (c : ctx) (t : syn) (m : node) : Prop := exists cal p, In p (x_parts t) /\ m = tn (enter c (x_kind t)) cal p.
Lemma allk_kid c t m : In m (allk c t) -> kid c t m.
Proof. unfold allk. rewrite in_map_iff. intros (p & <- & H). exists false, p. auto. Qed.
Lemma tr_kids c cal t m : In m (n_kids (tn c cal t)) -> kid c t m \/ virtual c t m.
Proof.
  assert (K : forall k b r, x_kind t = k -> x_parts t = b :: r -> enter c k = c -> forall cl, In m (tn c cl b :: map (tn c false) r) -> kid c t m).
  { intros k b r Hk Hp He cl. cbn [In]. rewrite in_map_iff. intros [<-|(p & <- & H)]; eexists _, _; (split; [|rewrite Hk, He; reflexivity]); rewrite Hp; [left; reflexivity|right; exact H]. }
  destruct (tr_shape c cal t) as [D|semi e r Hk Hp|p Hk|b r Hk Hp|x b r Hk Hp|f r Hk Hp|x b r Hk Hp|p Hk|x s Hk Hc|_ _ _ _ _ _ _|at_ n x Hk Ht Hn|at_ n Hk Ht|_ _ _ _ _ _];
    cbn [real full n_kids]; intros Hm; try (left; apply allk_kid; exact Hm); try (left; eapply K; [eassumption|eassumption|reflexivity|exact Hm]; fail); try (destruct Hm; fail).
  - destruct Hm as [<-|[]]. right. right. eauto.
  - destruct Hm as [<-|Hm]; [right; left; eauto 8|]. left. eapply K with (cl := false); [eassumption|eassumption|reflexivity|right; exact Hm].
Qed.
Definition entered (t : syn) : Prop := enters t \/ exists at_ n, x_kind t = XFn at_ n /\ marks_test at_.
Lemma tr_entered c cal t m : In m (n_kids (tn c cal t)) -> ~ (exists p, x_kind t = XMacroStmt p) -> entered t.
Proof.
  assert (K : forall k, x_kind t = k -> match k with XFn _ _ | XMacro _ | XMacroStmt _ => False | _ => True end -> enters t).
  { intros k Hk H. unfold enters. rewrite Hk. destruct k; try destruct H; repeat split; discriminate. }
  intros Hm NM. destruct (tr_shape c cal t) as [[Hk|Hk]|semi e r Hk Hp|p Hk|b r Hk Hp|x b r Hk Hp|f r Hk Hp|x b r Hk Hp|p Hk|x s Hk Hc|_ He _ _ _ _ _|at_ n x Hk Ht Hn|at_ n Hk Ht|He _ _ _ _ _];
    try (left; eapply K; [exact Hk|exact I]; fail); try (left; exact He); try (destruct Hm; fail).
  - destruct NM. eauto.
  - right. exists at_, n. split; [exact Hk|]. apply marks_test_spec. exact Ht.
Qed.
Lemma through_true i t ms j u : through i t ms j u -> i = true -> ms = [] /\ j = true.
Proof. induction 1; intros Hi; subst; auto; discriminate. Qed.
Lemma through_part i t ms j u : through i t ms j u -> part_of t u.
Proof.
  induction 1 as [i t|i t p ms j u _ _ Hp _ IH|t n p ms j u _ Hp _ IH|i t at_ n p u _ _ Hp _ IH]; [constructor| | |]; destruct t as [a k l]; econstructor; eassumption.
Qed.
Lemma through_step c t p : entered t -> In p (x_parts t) -> forall ms j u, through (cx_test (enter c (x_kind t))) p ms j u ->
  exists ms', through (cx_test c) t ms' j u /\ cx_mods c ++ ms' = cx_mods (enter c (x_kind t)) ++ ms.
Proof.
  intros He Hp ms j u H. destruct c as [cm i]. cbn [cx_test cx_mods].
  assert (Std : enters t -> (forall n, x_kind t <> XMod n) -> exists ms', through i t ms' j u /\ cm ++ ms' = cx_mods (enter (Cx cm i) (x_kind t)) ++ ms).
  { intros Hen Hnm. rewrite enter_same in H |- * by (try exact Hnm; apply (proj1 Hen)). exists ms. split; [|reflexivity].
    eapply th_part; [exact Hen|intros n Hn; destruct (Hnm n Hn)|exact Hp|exact H]. }
  destruct (x_kind t) eqn:Hk;
    try (destruct He as [He|(at_ & n0 & Hk' & _)]; [|congruence]; apply Std; [exact He|intros; discriminate]).
  - destruct He as [(He & _)|(at_ & n0 & Hk' & Hm)]; [destruct (He _ _ Hk)|]. rewrite Hk in Hk'. cbn [enter cx_test cx_mods] in *.
    destruct (through_true _ _ _ _ _ H eq_refl) as (-> & ->). exists []. split; [|reflexivity]. inversion Hk'; subst. eapply th_test; [exact Hk|eassumption|eassumption|eassumption].
  - destruct He as [He|(at_ & n0 & Hk' & _)]; [|congruence]. cbn [enter cx_test cx_mods] in *. destruct i; cbn [cx_test cx_mods] in *.
    + exists ms. split; [|reflexivity]. eapply th_part; [exact He|reflexivity|exact Hp|exact H].
    + exists (name :: ms). split; [eapply th_mod; eassumption|]. rewrite <- app_assoc. reflexivity.
Qed.
(** Every node of the translation stands for a node of the tree, or is virtual. *)
Lemma tr_within t : forall c cal m, within (tn c cal t) m ->
  exists c' cal' ms u, through (cx_test c) t ms (cx_test c') u /\ cx_mods c' = cx_mods c ++ ms /\ (m = tn c' cal' u \/ virtual c' u m).
Proof.
  induction t as [a k l IH] using syn_ind'. intros c cal m H. rewrite Forall_forall in IH. set (t := Syn a k l) in *.
  assert (Here : forall x, x = tn c cal t \/ virtual c t x -> exists c' cal' ms u, through (cx_test c) t ms (cx_test c') u /\ cx_mods c' = cx_mods c ++ ms /\ (x = tn c' cal' u \/ virtual c' u x)).
  { intros x Hx. exists c, cal, [], t. split; [constructor|]. split; [rewrite app_nil_r; reflexivity|exact Hx]. }
  assert (K : forall cl p, entered t -> In p l -> within (tn (enter c k) cl p) m ->
     exists c' cal' ms u, through (cx_test c) t ms (cx_test c') u /\ cx_mods c' = cx_mods c ++ ms /\ (m = tn c' cal' u \/ virtual c' u m)).
  { intros cl p He Hp Hw. destruct (IH p Hp _ _ _ Hw) as (c' & cal' & ms & u & H1 & H2 & H3).
    destruct (through_step c t p He Hp ms (cx_test c') u H1) as (ms' & H4 & H5). exists c', cal', ms', u. split; [exact H4|]. split; [|exact H3].
    rewrite H2, H5. reflexivity. }
  destruct (within_inv _ _ H) as [->|(h & Hh & Hw)]; [apply Here; left; reflexivity|].
  destruct (tr_kids c cal t h Hh) as [(cl & p & Hp & ->)|Hv].
  - apply (K cl p); [|exact Hp|exact Hw]. eapply tr_entered; [exact Hh|]. intros (q & Hq). unfold t in Hq. cbn in Hq. subst k. cbn in Hh. destruct Hh as [E0|[]].
    apply (f_equal n_id) in E0. rewrite tr_id in E0. cbn [n_id n_lab l_id virt] in E0. lia.
  - destruct (within_inv _ _ Hw) as [->|(h' & Hh' & Hw')]; [apply Here; right; exact Hv|].
    destruct Hv as [(x & b & r & Hk & Hp & ->)|(q & Hk & ->)]; [|destruct Hh']. destruct Hh' as [<-|[]].
    apply (K false b); [left|cbn in Hp; rewrite Hp; left; reflexivity|cbn in Hk; subst k; exact Hw'].
    unfold enters. rewrite Hk. repeat split; discriminate.
Qed.

(** ** What translated nodes are *)
Ltac shapes c cal t := destruct (tr_shape c cal t) as [[Hk|Hk]|semi9 e9 r9 Hk Hp|p9 Hk|b9 r9 Hk Hp|x9 b9 r9 Hk Hp|f9 r9 Hk Hp|x9 b9 r9 Hk Hp|p9 Hk|x9 s9 Hk Hc|Hfl He Hns Hnc Hnf Hna Hnm|at9 n9 x9 Hk Ht Hn|at9 n9 Hk Ht|He Hns Hnc Hnf Hna Hnp].
Lemma v_stmt c cal t : is_stmt (tn c cal t) <-> rs_stmt t.
Proof.
  split.
  - intros (r0 & c0 & d0 & e0 & H). unfold rs_stmt. shapes c cal t; try discriminate; eauto 8.
  - intros H. shapes c cal t; try (eexists _, _, _, _; reflexivity); try contradiction;
      (destruct H as [H|[H|[(q & H)|(q & e1 & r1 & H & _)]]]; congruence).
Qed.
Lemma v_call c cal t : is_call (tn c cal t) <-> rs_call t.
Proof.
  split.
  - intros (h & y & H). unfold rs_call, rs_function_call, rs_calls_method. shapes c cal t; try discriminate; [left|right]; eauto 8.
  - intros H. shapes c cal t; try (eexists _, _; reflexivity); try contradiction;
      (destruct H as [(g & H & _)|(m & g & H & _)]; congruence).
Qed.
Lemma v_macro c cal t p : n_kind (tn c cal t) = KMacro p <-> rs_macro t p.
Proof.
  unfold rs_macro. split.
  - intros H. shapes c cal t; try discriminate. inversion H; subst. exact Hk.
  - intros H. shapes c cal t; try congruence; try (cbn; congruence).
    + destruct (proj1 (proj2 He) p H).
    + destruct (proj1 (proj2 He) p H).
Qed.
Lemma v_field c cal t x b : rs_field t x b -> exists l r, tn c cal t = Node l (tn c false b :: r) /\ l_kind l = KField x.
Proof.
  intros (Hk0 & r0 & Hp0). shapes c cal t; try congruence; try (destruct (Hnf x b); split; eauto; fail).
  rewrite Hk in Hk0; inversion Hk0; subst. rewrite Hp in Hp0; inversion Hp0; subst. eexists _, _. split; reflexivity.
Qed.
Lemma v_field_inv c cal t x : n_kind (tn c cal t) = KField x -> exists b, rs_field t x b.
Proof. intros H. shapes c cal t; try discriminate. inversion H; subst. exists b9. split; eauto. Qed.
Lemma v_await c cal t b : rs_await t b -> exists l r, tn c cal t = Node l (tn c false b :: r) /\ l_kind l = KAwait.
Proof.
  intros (Hk0 & r0 & Hp0). shapes c cal t; try congruence; try (destruct (Hna b); split; eauto; fail).
  rewrite Hp in Hp0; inversion Hp0; subst. eexists _, _. split; reflexivity.
Qed.
Lemma v_await_inv c cal t : n_kind (tn c cal t) = KAwait -> exists b, rs_await t b.
Proof. intros H. shapes c cal t; try discriminate. exists b9. split; eauto. Qed.
Lemma v_function_call c cal t f : rs_function_call t f ->
  exists l args, tn c cal t = Node l (tn c true f :: args) /\ l_kind l = KCall false (call_shown f) /\ l_span l = x_span (x_info t).
Proof.
  intros (Hk0 & r0 & Hp0). shapes c cal t; try congruence; try (destruct Hnc; left; exists f; split; eauto; fail).
  rewrite Hp in Hp0; inversion Hp0; subst. eexists _, _. split; [reflexivity|split; reflexivity].
Qed.
Lemma v_method_call c cal t m b : rs_calls_method t m b ->
  exists l args, tn c cal t = Node l (virt t (KField (Some m)) [tn c false b] :: args) /\ l_kind l = KCall false (Some m).
Proof.
  intros (Hk0 & r0 & Hp0). shapes c cal t; try congruence; try (destruct Hnc; right; exists m, b; split; eauto; fail).
  rewrite Hk in Hk0; inversion Hk0; subst. rewrite Hp in Hp0; inversion Hp0; subst. eexists _, _. split; reflexivity.
Qed.
Lemma v_ident c t x : n_kind (tn c false t) <> KIdent x.
Proof. intros H. shapes c false t; discriminate. Qed.
Lemma v_callee c f : (exists q x s, x_kind f = XPath q x s) \/ tn c true f = tn c false f.
Proof.
  destruct (x_kind f) eqn:Hk; try (right; apply tr_flag; congruence). left. eauto.
Qed.

(** Paths of fields. *)
Lemma v_fields c e base p : rs_fields e base p -> field_path (tn c false e) (tn c false base) p.
Proof.
  induction 1 as [e H|e x b base p Hf _ IH].
  - apply fp_base. intros x K. apply v_field_inv in K. destruct K as (b & K). exact (H x b K).
  - destruct (v_field c false e (Some x) b Hf) as (l & r & -> & K). eapply fp_field; eassumption.
Qed.
Lemma v_fields_inv c B p n : field_path n B p -> forall e, n = tn c false e -> exists base, rs_fields e base p /\ B = tn c false base.
Proof.
  induction 1 as [n H|l x b r base p K _ IH]; intros e He; subst.
  - exists e. split; [|reflexivity]. apply rf_base. intros x b Hf. destruct (v_field c false e (Some x) b Hf) as (l & r & E0 & K). apply (H x). rewrite E0. exact K.
  - destruct (v_field_inv c false e (Some x)) as (b0 & Hb). { rewrite <- He. exact K. }
    destruct (v_field c false e (Some x) b0 Hb) as (l' & r' & E0 & _). rewrite E0 in He. inversion He; subst.
    destruct (IH b0 eq_refl) as (base0 & H1 & H2). exists base0. split; [econstructor; eassumption|exact H2].
Qed.
Lemma v_rs_method c cal t base p : rs_method t base p -> method_call (tn c cal t) (tn c false base) p.
Proof.
  intros [(f & Hc & Hf & Np)|(m & b & q & Hc & Hf & ->)].
  - split; [apply v_call; left; eauto|]. destruct (v_function_call c cal t f Hc) as (l & args & -> & _). exists (tn c true f), args. split; [reflexivity|]. split; [|exact Np].
    destruct (v_callee c f) as [(q & x & s & Hk)|E0]; [|rewrite E0; apply v_fields; exact Hf]. exfalso. inversion Hf as [|e x0 b base0 p0 (K & _)]; subst; [contradiction|congruence].
  - split; [apply v_call; right; eauto|]. destruct (v_method_call c cal t m b Hc) as (l & args & -> & _). eexists _, args. split; [reflexivity|]. split; [|destruct q; discriminate].
    unfold virt. eapply fp_field; [reflexivity|]. apply v_fields. exact Hf.
Qed.
Lemma v_method_inv c cal t B p : method_call (tn c cal t) B p -> exists base, rs_method t base p /\ B = tn c false base.
Proof.
  intros (Hc & callee & args & Hk & Hf & Np). apply v_call in Hc. destruct Hc as [(f & Hc)|(m & b & Hc)].
  - destruct (v_function_call c cal t f Hc) as (l & args' & E0 & _). rewrite E0 in Hk. cbn [n_kids] in Hk. inversion Hk; subst callee args'.
    destruct (v_callee c f) as [(q & x & s & Hkf)|E1].
    + exfalso. inversion Hf as [e He|l0 x0 b0 r0 base0 p0 K0 _ E2]; subst; [contradiction|].
      assert (KK : n_kind (tn c true f) = KField (Some x0)) by (rewrite <- E2; exact K0). apply v_field_inv in KK. destruct KK as (b1 & K1 & _). congruence.
    + rewrite E1 in Hf. destruct (v_fields_inv c B p _ Hf f eq_refl) as (base & H1 & H2). exists base. split; [left; eauto|exact H2].
  - destruct (v_method_call c cal t m b Hc) as (l & args' & E0 & _). rewrite E0 in Hk. cbn [n_kids] in Hk. inversion Hk; subst callee args'.
    unfold virt in Hf. inversion Hf as [e He|l0 x0 b0 r0 base0 p0 K0 Hf0]; subst; [contradiction|]. cbn [l_kind] in K0. inversion K0; subst x0.
    destruct (v_fields_inv c B p0 _ Hf0 b eq_refl) as (base & H1 & H2). exists base. split; [right; eauto 8|exact H2].
Qed.

(** What a statement calls. *)
Lemma v_performs c e n : rs_performs e n -> performs (tn c false e) (tn c false n).
Proof.
  induction 1 as [t H|e b n Hb _ IH|e x b n Hb _ IH].
  - apply pf_call. destruct H as [H|(p & H)]; [left; apply v_call; exact H|right; exists p; apply v_macro; exact H].
  - destruct (v_await c false e b Hb) as (l & r & -> & K). eapply pf_await; eassumption.
  - destruct (v_field c false e x b Hb) as (l & r & -> & K). eapply pf_field; eassumption.
Qed.
Lemma v_performs_inv c n k : performs n k -> forall e, n = tn c false e -> exists u, rs_performs e u /\ k = tn c false u.
Proof.
  induction 1 as [k H|l b r k K _ IH|l x b r k K _ IH]; intros e He; subst.
  - exists e. split; [|reflexivity]. apply rp_call. destruct H as [H|(p & H)]; [left; eapply v_call; exact H|right; exists p; eapply v_macro; exact H].
  - destruct (v_await_inv c false e) as (b0 & Hb). { rewrite <- He. exact K. }
    destruct (v_await c false e b0 Hb) as (l' & r' & E0 & _). rewrite E0 in He. inversion He; subst.
    destruct (IH b0 eq_refl) as (u & H1 & H2). exists u. split; [eapply rp_await; eassumption|exact H2].
  - destruct (v_field_inv c false e x) as (b0 & Hb). { rewrite <- He. exact K. }
    destruct (v_field c false e x b0 Hb) as (l' & r' & E0 & _). rewrite E0 in He. inversion He; subst.
    destruct (IH b0 eq_refl) as (u & H1 & H2). exists u. split; [eapply rp_field; eassumption|exact H2].
Qed.
Lemma v_call_statement c cal u n : rs_call_statement u n -> call_statement (tn c cal u) (tn c false n).
Proof.
  intros (sm & e0 & r0 & Hk0 & Hp0 & Hf). shapes c cal u; try congruence; try (destruct Hns; unfold rs_stmt; eauto 12; fail).
  rewrite Hp in Hp0; inversion Hp0; subst. eexists _, _, _, _, _, _. split; [reflexivity|]. split; [reflexivity|]. apply v_performs. exact Hf.
Qed.
Lemma v_macro_statement c cal u p : rs_macro_statement u p -> call_statement (tn c cal u) (virt u (KMacro p) []).
Proof.
  intros Hk0. unfold rs_macro_statement in Hk0. shapes c cal u; try congruence; try (destruct Hns; unfold rs_stmt; eauto 12; fail).
  rewrite Hk in Hk0; inversion Hk0; subst. eexists _, _, _, _, _, _. split; [reflexivity|]. split; [reflexivity|]. apply pf_call. right. eexists. reflexivity.
Qed.
Lemma v_call_statement_inv c cal u n : call_statement (tn c cal u) n ->
  (exists k, rs_call_statement u k /\ n = tn c false k) \/ (exists p, rs_macro_statement u p /\ n = virt u (KMacro p) []).
Proof.
  intros (l & e0 & r0 & rm & ct & d & H & K & P). revert H. shapes c cal u; intros H; inversion H; subst; cbn in K; try discriminate.
  - destruct (v_performs_inv c _ _ P e9 eq_refl) as (k & H1 & H2). left. exists k. split; [|exact H2]. unfold rs_call_statement. eauto 8.
  - right. exists p9. split; [exact Hk|]. inversion P; subst; try discriminate. reflexivity.
Qed.

(** ** Well-formedness *)
Lemma tr_head E c t : fw_expr_kids (v_fw E) = true -> forall cal, head_ok E (tn c cal t) = true.
Proof.
  intros F. induction t as [a k l IH] using syn_ind'. intros cal. rewrite Forall_forall in IH.
  shapes c cal (Syn a k l); try reflexivity; cbn [real full virt head_ok l_kind]; cbn [x_parts] in Hp; subst l;
    rewrite F, (IH b9 (or_introl eq_refl)); destruct (head_is_call _); reflexivity.
Qed.
Lemma tr_wf E t : fw_expr_kids (v_fw E) = true -> forall c cal, well_formed E (tn c cal t) = true.
Proof.
  intros F. induction t as [a k l IH] using syn_ind'. intros c cal. rewrite Forall_forall in IH.
  assert (K : forall c' r, incl r l -> forallb (well_formed E) (map (tn c' false) r) = true).
  { intros c' r Hr. apply forallb_forall. intros m Hm. apply in_map_iff in Hm. destruct Hm as (p & <- & Hp). apply IH, Hr, Hp. }
  shapes c cal (Syn a k l); try (cbn [x_parts] in Hp; subst l); cbn [real full virt well_formed l_kind andb is_nil negb forallb allk x_parts];
    try (apply K; apply incl_refl); try reflexivity;
    rewrite ?(IH _ (or_introl eq_refl)), ?K by (apply incl_tl; apply incl_refl); rewrite ?Bool.andb_true_r; try reflexivity.
  apply tr_head. exact F.
Qed.

(** ** Equality *)
Fixpoint node_tokens (n : node) : text := match n with Node l ks => l_text l ++ flat_map node_tokens ks end.
Lemma shape_tokens a : forall b, shape_eqb a b = true -> node_tokens a = node_tokens b.
Proof.
  induction a as [l ks IH] using node_ind'. intros [l' ks'] H. cbn [shape_eqb] in H. rewrite Forall_forall in IH.
  apply andb_prop in H. destruct H as [H H2]. apply andb_prop in H. destruct H as [_ H1]. apply text_eqb_eq in H1. cbn [node_tokens]. rewrite H1. f_equal.
  revert ks' H2. induction ks as [|x xs IHx]; intros [|y ys] H2; try discriminate; [reflexivity|]. apply andb_prop in H2. destruct H2 as [H2 H3].
  cbn [flat_map]. rewrite (IH x (or_introl eq_refl) y H2). f_equal. apply IHx; [|exact H3]. intros z Hz. apply IH. right. exact Hz.
Qed.
Lemma tr_tokens t : forall c cal, node_tokens (tn c cal t) = tokens t.
Proof.
  induction t as [a k l IH] using syn_ind'. intros c cal. rewrite Forall_forall in IH.
  assert (K : forall c' r, incl r l -> flat_map node_tokens (map (tn c' false) r) = flat_map tokens r).
  { intros c' r Hr. induction r as [|p r IHr]; [reflexivity|]. cbn [map flat_map]. rewrite IH by (apply Hr; left; reflexivity). f_equal. apply IHr. intros z Hz. apply Hr. right. exact Hz. }
  shapes c cal (Syn a k l); try (cbn [x_parts] in Hp; subst l); unfold allk, real, full, virt; cbn [node_tokens l_text x_info x_parts flat_map tokens app];
    rewrite ?app_nil_r, ?(IH _ (or_introl eq_refl)), ?K by (try apply incl_refl; apply incl_tl; apply incl_refl); reflexivity.
Qed.
Lemma nkind_eqb_refl k : nkind_eqb k k = true.
Proof.
  assert (O : forall o, otext_eqb o o = true) by (intros [x|]; [apply text_eqb_refl|reflexivity]).
  destruct k; cbn; rewrite ?Bool.eqb_reflx, ?text_eqb_refl, ?O, ?Nat.eqb_refl; reflexivity.
Qed.
Scheme alike_rec := Induction for alike Sort Prop with all_alike_rec := Induction for all_alike Sort Prop.
Lemma alike_tokens t u : alike t u -> tokens t = tokens u.
Proof.
  intros H. induction H as [a b k l m Ht _ IH| |t u l m _ IH1 _ IH2] using alike_rec with (P0 := fun l m _ => flat_map tokens l = flat_map tokens m).
  - cbn [tokens]. rewrite Ht, IH. reflexivity.
  - reflexivity.
  - cbn [flat_map]. rewrite IH1, IH2. reflexivity.
Qed.
Definition shapes_eqb (xs ys : list node) : bool := (fix go (xs ys : list node) : bool :=
       match xs, ys with
       | [], [] => true
       | x :: xs', y :: ys' => shape_eqb x y && go xs' ys'
       | _, _ => false
       end) xs ys.
Lemma shape_node l ks l' ks' : l_kind l = l_kind l' -> l_text l = l_text l' -> shapes_eqb ks ks' = true -> shape_eqb (Node l ks) (Node l' ks') = true.
Proof. intros H1 H2 H3. cbn [shape_eqb]. rewrite H1, H2, nkind_eqb_refl, text_eqb_refl. exact H3. Qed.
Lemma alike_kind t u : alike t u -> x_kind t = x_kind u.
Proof. intros H. destruct H. reflexivity. Qed.
Lemma alike_shape t u : alike t u -> forall c cal, shape_eqb (tn c cal t) (tn c cal u) = true.
Proof.
  intros H. induction H as [a b k l m Ht Hl IH| |t u l m At IH1 Htl IH2] using alike_rec
    with (P0 := fun l m _ => forall c, shapes_eqb (map (tn c false) l) (map (tn c false) m) = true /\
       match l, m with x :: _, y :: _ => alike x y /\ forall cal, shape_eqb (tn c cal x) (tn c cal y) = true | [], [] => True | _, _ => False end).
  - intros c cal. assert (W : tokens (Syn a k l) = tokens (Syn b k m)) by (apply alike_tokens; constructor; assumption).
    cbn [tr]. pose proof (IH (enter c k)) as (I1 & I2).
    assert (I3 : forall x r y r', l = x :: r -> m = y :: r' -> shapes_eqb (map (tn (enter c k) false) r) (map (tn (enter c k) false) r') = true).
    { intros x r y r' -> ->. cbn [map shapes_eqb] in I1. apply andb_prop in I1. apply I1. }
    destruct k as [| |semi|p| |mm| |mm|p|q x s|e|at_ n|n|n|]; try (apply shape_node; [reflexivity|cbn; exact Ht|exact I1]; fail);
      try (apply shape_node; [reflexivity|cbn [l_text]; exact W|reflexivity]; fail).
    + destruct l as [|e r], m as [|e' r']; try contradiction; [apply shape_node; [reflexivity|exact Ht|reflexivity]|]. destruct I2 as (A & _). pose proof (alike_kind _ _ A) as KK.
      apply shape_node; [|exact Ht|exact I1]. cbn [l_kind]. unfold stmt_removable, expression_with_block, stmt_control. rewrite KK. reflexivity.
    + apply shape_node; [reflexivity|exact W|]. cbn [shapes_eqb]. rewrite shape_node; reflexivity.
    + destruct l as [|e r], m as [|e' r']; try contradiction; apply shape_node; try reflexivity; try exact Ht. exact I1.
    + destruct l as [|e r], m as [|e' r']; try contradiction; apply shape_node; try reflexivity; try exact Ht. exact I1.
    + destruct l as [|e r], m as [|e' r']; try contradiction; [apply shape_node; [reflexivity|exact Ht|reflexivity]|]. destruct I2 as (A & I2). pose proof (alike_kind _ _ A) as KK.
      apply shape_node; [cbn [l_kind]; unfold call_shown; rewrite KK; reflexivity|exact Ht|]. cbn [shapes_eqb]. rewrite I2. exact (I3 e r e' r' eq_refl eq_refl).
    + destruct l as [|e r], m as [|e' r']; try contradiction; [apply shape_node; [reflexivity|exact Ht|reflexivity]|]. destruct I2 as (A & I2).
      apply shape_node; [reflexivity|exact Ht|]. cbn [shapes_eqb]. rewrite shape_node; [exact (I3 e r e' r' eq_refl eq_refl)|reflexivity|reflexivity|]. cbn [shapes_eqb]. rewrite I2. reflexivity.
    + destruct (is_test at_); [destruct (test_name fs listed (cx_mods c) n)|]; apply shape_node; try reflexivity; try exact Ht; try exact W. exact I1.
  - intros c. split; [reflexivity|exact I].
  - intros c. destruct (IH2 c) as (J1 & _). cbn [map shapes_eqb]. rewrite IH1. split; [exact J1|]. split; [exact At|]. intros cal. apply IH1.
Qed.

(** ** Tests *)
Lemma tr_test c cal t x i : n_kind (tn c cal t) = KTest x i -> exists at_ n, x_kind t = XFn at_ n /\ marks_test at_ /\ test_name fs listed (cx_mods c) n = Some x /\ i = 1%nat.
Proof. intros H. shapes c cal t; try discriminate. inversion H; subst. exists at9, n9. split; [exact Hk|]. split; [apply marks_test_spec; exact Ht|]. auto. Qed.
Lemma test_name_spec ms n x : test_name fs listed ms n = Some x <-> exists p, fs = Some p /\ x = separated (s2t "::") (p ++ ms ++ [n]) /\ listed x = true.
Proof.
  unfold test_name. destruct fs as [p|]; [|split; [discriminate|intros (p & H & _); discriminate]]. rewrite join_colons_separated. split.
  - destruct (listed _) eqn:L; [|discriminate]. intros H. inversion H; subst. exists p. auto.
  - intros (q & H & -> & L). inversion H; subst. rewrite L. reflexivity.
Qed.
Lemma tr_known c cal t x i : n_kind (tn c cal t) = KTest x i -> known_as fs listed (cx_mods c) t x /\ i = 1%nat.
Proof.
  intros H. destruct (tr_test _ _ _ _ _ H) as (at_ & n & H1 & H2 & H3 & H4). split; [|exact H4]. apply test_name_spec in H3. destruct H3 as (p & H5 & H6 & H7).
  exists at_, n, p. auto.
Qed.
Lemma known_tr c cal t x : known_as fs listed (cx_mods c) t x -> tn c cal t = real t (KTest x 1) (map (tn (Cx (cx_mods c) true) false) (x_parts t)).
Proof.
  intros (at_ & n & p & H1 & H2 & H3 & H4 & H5). assert (H6 : test_name fs listed (cx_mods c) n = Some x) by (apply test_name_spec; exists p; auto).
  apply marks_test_spec in H2. shapes c cal t; try congruence.
  - destruct (proj1 He _ _ H1).
  - rewrite Hk in H1. inversion H1; subst. rewrite H6 in Hn. inversion Hn; subst. unfold allk. rewrite Hk. reflexivity.
  - rewrite Hk in H1. inversion H1; subst. destruct Ht; congruence.
  - destruct (proj1 He _ _ H1).
Qed.
Lemma tr_no_test c cal t : (forall u at_ n, part_of t u -> x_kind u = XFn at_ n -> ~ marks_test at_) -> no_test (tn c cal t).
Proof.
  intros H m x i Hm K. destruct (tr_within t c cal m Hm) as (c' & cal' & ms & u & Hu & _ & [->|[(y & b & r & _ & _ & ->)|(p & _ & ->)]]); try discriminate.
  destruct (tr_test _ _ _ _ _ K) as (at_ & n & H1 & H2 & _). exact (H u at_ n (through_part _ _ _ _ _ Hu) H1 H2).
Qed.
End Translation.
