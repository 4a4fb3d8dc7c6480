(** Rust's candidates in terms of syn's syntax trees: C67. *)
From Verif Require Import Base M_Text M_Rewriter M_Span M_Run M_Visitor S_Visitor S_Walk S_Candidates L_Visitor L_VisitorFacts L_Candidates
  P_Visitor M_Rust P_Rust L_Tree M_Syn S_Syn L_Syn.
Local Open Scope list_scope.

Lemma rs_fields_total e : exists base p, rs_fields e base p.
Proof.
  induction e as [a k l IH] using syn_ind'. rewrite Forall_forall in IH.
  assert (B : (forall x b, ~ rs_field (Syn a k l) (Some x) b) -> exists base p, rs_fields (Syn a k l) base p) by (intros H; eexists _, _; apply rf_base; exact H).
  destruct k as [| |semi|p| |[x|]| |m|p|q x s|e|at_ n|n|n|]; try (apply B; intros y b (K & _); discriminate).
  destruct l as [|b r]; [apply B; intros y b (_ & r & K); discriminate|]. destruct (IH b (or_introl eq_refl)) as (base & p & H).
  exists base, (p ++ [x]). eapply rf_field; [|exact H]. split; [reflexivity|eexists; reflexivity].
Qed.
Lemma rs_method_call t base p : rs_method t base p -> rs_call t.
Proof. intros [(f & H & _)|(m & r & q & H & _)]; [left|right]; eauto. Qed.

(** The functions of a file. *)
Lemma fun_of_spec n l x b : In (x, b) (fun_of n l) <-> x = n /\ exists h r, l = h :: b :: r.
Proof.
  unfold fun_of. destruct l as [|h [|b' r]]; split; try (intros []; fail); try (intros (_ & h' & r' & K); discriminate).
  - intros [H|[]]. inversion H; subst. eauto.
  - intros (-> & h' & r' & K). inversion K; subst. left. reflexivity.
Qed.
Lemma local_funs_spec root n b : In (n, b) (local_funs root) <-> rs_local root n b.
Proof.
  split.
  - revert n b. induction root as [a k l IH] using syn_ind'. intros n b H. rewrite Forall_forall in IH.
    assert (D : In (n, b) (flat_map local_funs l) -> ~ a_function (Syn a k l) -> rs_local (Syn a k l) n b).
    { intros Hd Nf. apply in_flat_map in Hd. destruct Hd as (p & Hp & Hd). destruct (IH p Hp n b Hd) as (f & Ho & Hf). exists f. split; [|exact Hf].
      eapply ou_part; [exact Nf|exact Hp|exact Ho]. }
    assert (F : forall x, In (n, b) (fun_of x l) -> (exists at_, k = XFn at_ x /\ is_test at_ = false) \/ k = XImplFn x -> rs_local (Syn a k l) n b).
    { intros x Hx Hk. apply fun_of_spec in Hx. destruct Hx as (-> & h & r & ->). exists (Syn a k (h :: b :: r)). split; [constructor|]. split; [|cbn; eauto].
      destruct Hk as [(at_ & -> & T)| ->]; [left|right; reflexivity]. exists at_. split; [reflexivity|]. intros M. apply marks_test_spec in M. congruence. }
    cbn [local_funs] in H. destruct k; try (apply D; [exact H|]; intros [(at_ & y & K)|(y & K)]; discriminate).
    + destruct (is_test attrs) eqn:T; [destruct H|]. eapply F; [exact H|left; eauto].
    + eapply F; [exact H|right; reflexivity].
  - intros (f & Ho & (Hk & Hp)). induction Ho as [t|t p u Nf Hin _ IH].
    + destruct t as [a k l]. cbn [x_kind x_parts] in *. cbn [local_funs]. destruct Hk as [(at_ & -> & NM)| ->].
      * destruct (is_test at_) eqn:T; [apply marks_test_spec in T; contradiction|]. apply fun_of_spec. auto.
      * apply fun_of_spec. auto.
    + specialize (IH Hk Hp). destruct t as [a k l]. cbn [x_parts] in Hin. cbn [local_funs].
      assert (D : In (n, b) (flat_map local_funs l)) by (apply in_flat_map; eauto).
      destruct k; try exact D; destruct Nf; [left|right]; cbn; eauto.
Qed.

Section Env.
Context (fs : option (list text)) (listed : text -> bool) (E : venv) (root : syn) (walkable : text -> bool).
Notation tn := (tr fs listed).
Notation ENV := (rs_env fs listed E root walkable).
Notation FILE := (rs_file fs listed root).
Notation BODY := (rs_body fs listed).

Lemma env_walkable x f gs : v_walkable ENV x = f :: gs -> exists b, walkable x = true /\ rs_local root x b /\ f = BODY b.
Proof.
  cbn [rs_env v_walkable]. destruct (walkable x) eqn:W; [|discriminate]. intros H. destruct (filter _ _) as [|(y & b) r] eqn:L; [discriminate|]. inversion H; subst.
  assert (I : In (y, b) ((y, b) :: r)) by (left; reflexivity). rewrite <- L in I. apply filter_In in I. destruct I as (I & T). cbn in T. apply text_eqb_eq in T. subst y.
  exists b. split; [reflexivity|]. split; [apply local_funs_spec; exact I|reflexivity].
Qed.
Lemma walkable_env x b : walkable x = true -> rs_local root x b -> exists b' gs, v_walkable ENV x = BODY b' :: gs /\ rs_local root x b'.
Proof.
  intros W H. apply local_funs_spec in H. cbn [rs_env v_walkable]. rewrite W. destruct (filter (fun f => text_eqb (fst f) x) (local_funs root)) as [|(y & b') r] eqn:L.
  - exfalso. assert (I : In (x, b) []) by (rewrite <- L; apply filter_In; split; [exact H|apply text_eqb_refl]). destruct I.
  - exists b', (map (fun f => BODY (snd f)) r). split; [reflexivity|]. assert (I : In (y, b') ((y, b') :: r)) by (left; reflexivity). rewrite <- L in I. apply filter_In in I.
    destruct I as (I & T). cbn in T. apply text_eqb_eq in T. subst y. apply local_funs_spec. exact I.
Qed.
Lemma rs_parsed : parsed ENV FILE.
Proof.
  split; [apply tr_wf; reflexivity|]. intros x f gs H. apply env_walkable in H. destruct H as (b & _ & _ & ->). apply tr_wf. reflexivity.
Qed.

(** *** Ignored calls *)
Lemma v_root c cal t : rs_root_ignored E t -> root_ignored ENV (tn c cal t).
Proof.
  intros H. revert cal. induction H as [t f q i s Hf Hm Hk Hi|t b p x Hm Hb Hi|t b p Hm Hc _ IH]; intros cal.
  - eapply ri_function with (f := s).
    + intros B p M. apply v_method_inv in M. destruct M as (base & M & _). exact (Hm base p M).
    + destruct (v_function_call fs listed c cal t f Hf) as (l & args & -> & K & _). unfold call_name. change (n_kind (Node l _)) with (l_kind l). rewrite K. unfold call_shown. rewrite Hk. reflexivity.
    + exact Hi.
  - eapply ri_macro; [apply v_rs_method; exact Hm|apply v_macro; exact Hb|exact Hi].
  - eapply ri_chain; [apply v_rs_method; exact Hm|apply v_call; exact Hc|apply IH].
Qed.
Lemma v_root_inv c n : root_ignored ENV n -> forall cal t, n = tn c cal t -> is_call n -> rs_root_ignored E t.
Proof.
  induction 1 as [n f Hm Hn Hi|n b p x Hm Hb Hi|n b p x Hm Hb Hi|n b p Hm Hc _ IH]; intros cal t He Hcn; subst.
  - apply v_call in Hcn. destruct Hcn as [(g & Hg)|(m & r & Hr)].
    + destruct (v_function_call fs listed c cal t g Hg) as (l & args & E0 & K & _). unfold call_name in Hn. rewrite E0 in Hn. change (n_kind (Node l _)) with (l_kind l) in Hn. rewrite K in Hn.
      unfold call_shown in Hn. destruct (x_kind g) as [| | | | | | | | |q i s| | | | |] eqn:Kg; try discriminate. inversion Hn; subst. eapply xi_function; [exact Hg| |exact Kg|exact Hi].
      intros base p M. apply (Hm (tn c false base) p). apply v_rs_method. exact M.
    + exfalso. destruct (rs_fields_total r) as (base & p & Hf). apply (Hm (tn c false base) (p ++ [m])). apply v_rs_method. right. eauto 8.
  - apply v_method_inv in Hm. destruct Hm as (base & Hm & ->). destruct (v_ident fs listed c base x Hb).
  - apply v_method_inv in Hm. destruct Hm as (base & Hm & ->). apply v_macro in Hb. eapply xi_macro; eassumption.
  - apply v_method_inv in Hm. destruct Hm as (base & Hm & ->). eapply xi_chain; [exact Hm|eapply v_call; exact Hc|]. eapply IH; [reflexivity|exact Hc].
Qed.
Lemma v_ignored_method c cal t : ignored_method ENV (tn c cal t) <-> rs_ignored_method E t.
Proof.
  split.
  - intros (B & p & Hm & Hi). apply v_method_inv in Hm. destruct Hm as (base & Hm & _). exists base, p. auto.
  - intros (base & p & Hm & Hi). exists (tn c false base), p. split; [apply v_rs_method; exact Hm|exact Hi].
Qed.
Lemma v_ignored_call c cal t : rs_call t -> (ignored_call ENV (tn c cal t) <-> rs_ignored_call E t).
Proof.
  intros Ht. pose proof (proj2 (v_call fs listed c cal t) Ht) as Hc. split.
  - intros [(x & K & _)|(_ & [Hr|(B & p & Hm & Hb & Hi)])].
    + apply v_macro in K. unfold rs_macro in K. destruct Ht as [(f & Q & _)|(m & r & Q & _)]; congruence.
    + left. eapply v_root_inv; [exact Hr|reflexivity|exact Hc].
    + right. apply v_method_inv in Hm. destruct Hm as (base & Hm & ->). exists base, p. split; [exact Hm|]. split; [|exact Hi]. intros Q. apply Hb. apply v_call. exact Q.
  - intros [Hr|(base & p & Hm & Hb & Hi)]; right; (split; [exact Hc|]).
    + left. apply v_root. exact Hr.
    + right. exists (tn c false base), p. split; [apply v_rs_method; exact Hm|]. split; [|exact Hi]. intros Q. apply Hb. apply v_call in Q. exact Q.
Qed.
Lemma v_ignored_macro n p : n_kind n = KMacro p -> (ignored_call ENV n <-> v_ign_mac E p = true).
Proof.
  intros K. split.
  - intros [(x & K' & H)|((h & y & K') & _)]; [rewrite K in K'; inversion K'; subst; exact H|congruence].
  - intros H. left. exists p. auto.
Qed.

(** *** Calls of functions of the file *)
Lemma v_callee_name c cal t x : callee_name t x <->
  rs_call t /\ exists callee args, n_kids (tn c cal t) = callee :: args /\ expr_name ENV callee = Some x.
Proof.
  split.
  - intros H. assert (FC : forall f, rs_function_call t f -> expr_name ENV (tn c true f) = Some x -> rs_call t /\ exists callee args, n_kids (tn c cal t) = callee :: args /\ expr_name ENV callee = Some x).
    { intros f Hf Hn. split; [left; eauto|]. destruct (v_function_call fs listed c cal t f Hf) as (l & args & -> & _). exists (tn c true f), args. split; [reflexivity|exact Hn]. }
    destruct H as [t m r Hr|t f y s Hf Hk|t f y b Hf Hb|t f p Hf Hp|t f g q i s Hf Hg Hk|t f m r Hf Hr].
    + split; [right; eauto|]. destruct (v_method_call fs listed c cal t m r Hr) as (l & args & -> & _). eexists _, args. split; [reflexivity|]. reflexivity.
    + apply (FC f Hf). destruct (tr_shape fs listed c true f) as [[Q|Q]|? ? ? Q ?|? Q|? ? Q ?|? ? ? Q ?|? ? Q ?|? ? ? Q ?|? Q|? ? Q ?|Hfl _ _ _ _ _ _|? ? ? Q ? ?|? ? Q ?|_ _ _ _ _ Hnp]; try congruence; try (rewrite Q in Hk; inversion Hk; subst; reflexivity); specialize (Hfl _ _ Hk); discriminate.
    + apply (FC f Hf). destruct (v_field fs listed c true f (Some y) b Hb) as (l & r & -> & K). unfold expr_name. change (n_kind (Node l _)) with (l_kind l). rewrite K. reflexivity.
    + apply (FC f Hf). unfold expr_name. rewrite (proj2 (v_macro fs listed c true f p) Hp). reflexivity.
    + apply (FC f Hf). destruct (v_function_call fs listed c true f g Hg) as (l & args & -> & K & _). unfold expr_name. change (n_kind (Node l _)) with (l_kind l). rewrite K. cbn. unfold call_shown. rewrite Hk. reflexivity.
    + apply (FC f Hf). destruct (v_method_call fs listed c true f m r Hr) as (l & args & -> & K). unfold expr_name. change (n_kind (Node l _)) with (l_kind l). rewrite K. reflexivity.
  - intros (Ht & callee & args & Hk & Hn). destruct Ht as [(f & Hf)|(m & r & Hr)].
    + destruct (v_function_call fs listed c cal t f Hf) as (l & args' & E0 & _). rewrite E0 in Hk. cbn [n_kids] in Hk. inversion Hk; subst callee args'.
      unfold expr_name in Hn. destruct (tr_shape fs listed c true f) as [[Q|Q]|? ? ? Q ?|? Q|? ? Q ?|y b r Q P|g r Q P|y b r Q P|y Q|y s Q ?|Hfl _ _ _ _ _ _|? ? ? Q ? ?|? ? Q ?|_ _ _ _ _ Hnp]; cbn in Hn; try discriminate.
      * subst y. eapply cn_field; [exact Hf|split; eauto].
      * unfold call_shown in Hn. destruct (x_kind g) as [| | | | | | | | |q i s| | | | |] eqn:Kg; try discriminate. inversion Hn; subst. eapply cn_call; [exact Hf|split; eauto|exact Kg].
      * inversion Hn; subst. eapply cn_inner; [exact Hf|split; eauto].
      * inversion Hn; subst. eapply cn_macro; [exact Hf|exact Q].
      * inversion Hn; subst. eapply cn_ident; [exact Hf|exact Q].
    + destruct (v_method_call fs listed c cal t m r Hr) as (l & args' & E0 & _). rewrite E0 in Hk. cbn [n_kids] in Hk. inversion Hk; subst callee args'. cbn in Hn. inversion Hn; subst. eapply cn_method. exact Hr.
Qed.
Lemma v_local_call c cal t f : rs_call t -> local_call ENV (tn c cal t) f -> exists b, f = BODY b /\ rs_local_call root walkable t b.
Proof.
  intros Ht (callee & args & x & gs & Hk & Hn & Hw). destruct (env_walkable _ _ _ Hw) as (b & W & Hl & ->). exists b. split; [reflexivity|]. exists x. split; [|auto].
  apply (v_callee_name c cal). split; [exact Ht|]. eauto.
Qed.

(** *** Where the walk goes *)
Lemma enters_kid c cal t p : enters t -> In p (x_parts t) -> exists cal',
  In (tn (enter c (x_kind t)) cal' p) (n_kids (tn c cal t)) \/
  exists h x, In h (n_kids (tn c cal t)) /\ n_kind h = KField x /\ In (tn (enter c (x_kind t)) cal' p) (n_kids h).
Proof.
  intros (N1 & N2 & N3) Hin.
  assert (A : In (tn (enter c (x_kind t)) false p) (allk fs listed c t)) by (apply in_map; exact Hin).
  assert (K : forall k b r, x_kind t = k -> x_parts t = b :: r -> enter c k = c -> forall cl, exists cal', In (tn (enter c (x_kind t)) cal' p) (tn c cl b :: map (tn c false) r)).
  { intros k b r Hk Hp He cl. rewrite Hk, He. rewrite Hp in Hin. destruct Hin as [<-|Hin]; [exists cl; left; reflexivity|exists false; right; apply in_map; exact Hin]. }
  destruct (tr_shape fs listed c cal t) as [[Hk|Hk]|semi9 e9 r9 Hk Hp|p9 Hk|b9 r9 Hk Hp|x9 b9 r9 Hk Hp|f9 r9 Hk Hp|x9 b9 r9 Hk Hp|p9 Hk|x9 s9 Hk Hc|Hfl He Hns Hnc Hnf Hna Hnm|at9 n9 x9 Hk Ht Hn|at9 n9 Hk Ht|He Hns Hnc Hnf Hna Hnp];
    try (exists false; left; exact A); try (destruct (K _ _ _ Hk Hp eq_refl false) as (cal' & H); exists cal'; left; exact H); try (exfalso; (eapply N1; exact Hk) || (eapply N2; exact Hk) || (eapply N3; exact Hk)).
  - destruct (K _ _ _ Hk Hp eq_refl true) as (cal' & H). exists cal'. left. exact H.
  - rewrite Hk. cbn [enter]. rewrite Hp in Hin. destruct Hin as [<-|Hin].
    + exists false. right. eexists _, (Some x9). split; [left; reflexivity|]. split; [reflexivity|left; reflexivity].
    + exists false. left. right. apply in_map. exact Hin.
Qed.
Lemma enters_kind c cal t : enters t ->
  is_stmt (tn c cal t) \/ n_kind (tn c cal t) = KGroup \/ is_call (tn c cal t) \/ n_kind (tn c cal t) = KExpr \/
  (exists x, n_kind (tn c cal t) = KIdent x) \/ n_kind (tn c cal t) = KAwait \/ exists x, n_kind (tn c cal t) = KField x.
Proof.
  intros (N1 & N2 & N3).
  destruct (tr_shape fs listed c cal t) as [[Hk|Hk]|semi9 e9 r9 Hk Hp|p9 Hk|b9 r9 Hk Hp|x9 b9 r9 Hk Hp|f9 r9 Hk Hp|x9 b9 r9 Hk Hp|p9 Hk|x9 s9 Hk Hc|Hfl He Hns Hnc Hnf Hna Hnm|at9 n9 x9 Hk Ht Hn|at9 n9 Hk Ht|He Hns Hnc Hnf Hna Hnp];
    try (exfalso; (eapply N1; exact Hk) || (eapply N2; exact Hk) || (eapply N3; exact Hk)).
  1-3: left; eexists _, _, _, _; reflexivity.
  - do 5 right. left. reflexivity.
  - do 6 right. eexists. reflexivity.
  - do 2 right. left. eexists _, _. reflexivity.
  - do 2 right. left. eexists _, _. reflexivity.
  - do 4 right. left. eexists. reflexivity.
  - do 3 right. left. reflexivity.
  - right. left. reflexivity.
Qed.
Lemma v_open t u : rs_in E t u -> forall c cal, exists c' cal', (cx_test c = true -> c' = c) /\ open_path ENV (tn c cal t) (tn c' cal' u).
Proof.
  induction 1 as [t|t p u He Ho Hp _ IH|t f u Hf _ IH|t m r u Hr _ IH]; intros c cal; [exists c, cal; split; [auto|constructor]| | |].
  2:{ destruct (v_function_call fs listed c cal t f Hf) as (l & args & E0 & K & _). destruct (IH c true) as (c' & cal' & H1 & H2). exists c', cal'. split; [exact H1|]. rewrite E0.
      eapply op_callee; [exists false; eexists; exact K|reflexivity|reflexivity|exact H2]. }
  2:{ destruct (v_method_call fs listed c cal t m r Hr) as (l & args & E0 & K). destruct (IH c false) as (c' & cal' & H1 & H2). exists c', cal'. split; [exact H1|]. rewrite E0.
      eapply op_callee; [exists false; eexists; exact K|reflexivity|reflexivity|]. eapply op_kid; [|left; reflexivity|exact H2]. right. right. right. split; [reflexivity|]. right. right. right. eexists. reflexivity. }
  destruct (enters_kid c cal t p He Hp) as (cl & Hkid). destruct (IH (enter c (x_kind t)) cl) as (c' & cal' & H1 & H2). exists c', cal'.
  split; [intros T; rewrite (enter_test c _ T) in H1; auto|].
  assert (OK : forall k, In k (n_kids (tn c cal t)) -> open_path ENV k (tn c' cal' u) -> open_path ENV (tn c cal t) (tn c' cal' u)).
  { intros k Hk H. eapply op_kid; [|exact Hk|exact H]. destruct (enters_kind c cal t He) as [K|[K|[K|K]]]; [auto|auto| |right; right; right; split; [reflexivity|exact K]].
    right. right. left. split; [auto|]. apply v_call in K. destruct (Ho K) as [Hv|(H3 & H4)]; [left; exact Hv|right]. split; [rewrite v_ignored_call; assumption|rewrite v_ignored_method; exact H4]. }
  destruct Hkid as [Hk|(h & x & Hh & K & Hk)]; [apply (OK _ Hk H2)|]. apply (OK _ Hh). eapply op_kid; [|exact Hk|exact H2].
  right. right. right. split; [reflexivity|]. eauto.
Qed.
Lemma v_test_path i t ms j u : through i t ms j u -> i = false -> j = false -> forall c cal, cx_test c = false ->
  exists cal', S_Walk.test_path ENV (tn c cal t) (tn (Cx (cx_mods c ++ ms) false) cal' u).
Proof.
  induction 1 as [i t|i t p ms j u He Hm Hp _ IH|t n p ms j u Hk Hp _ IH|i t at_ n p u _ _ _ _ _]; intros Hi Hj c cal Hc; [|subst i|subst j|discriminate].
  - exists cal. rewrite app_nil_r. destruct c as [m b]. cbn in Hc. subst b. constructor.
  - assert (Ec : enter c (x_kind t) = c).
    { apply enter_same; [intros n K; specialize (Hm n K); discriminate|intros at_ n K; exact (proj1 He at_ n K)]. }
    destruct (enters_kid c cal t p He Hp) as (cl & Hkid). rewrite Ec in Hkid. destruct (IH eq_refl Hj c cl Hc) as (cal' & H2). exists cal'.
    assert (OK : forall k, In k (n_kids (tn c cal t)) -> S_Walk.test_path ENV k (tn (Cx (cx_mods c ++ ms) false) cal' u) -> S_Walk.test_path ENV (tn c cal t) (tn (Cx (cx_mods c ++ ms) false) cal' u)).
    { intros k Hk H. eapply tp_kid; [|exact Hk|exact H]. destruct (enters_kind c cal t He) as [K|[K|[K|K]]]; [auto|auto|auto|]. do 4 right. split; [reflexivity|exact K]. }
    destruct Hkid as [Hk|(h & x & Hh & K & Hk)]; [apply (OK _ Hk H2)|]. apply (OK _ Hh). eapply tp_kid; [|exact Hk|exact H2].
    do 4 right. split; [reflexivity|]. eauto 6.
  - assert (He : enters t) by (unfold enters; rewrite Hk; repeat split; discriminate).
    assert (Ec : enter c (x_kind t) = Cx (cx_mods c ++ [n]) false) by (rewrite Hk; cbn [enter]; rewrite Hc; reflexivity).
    destruct (enters_kid c cal t p He Hp) as (cl & Hkid). rewrite Ec in Hkid. destruct (IH eq_refl eq_refl (Cx (cx_mods c ++ [n]) false) cl eq_refl) as (cal' & H2). exists cal'.
    cbn [cx_mods] in H2. rewrite <- app_assoc in H2. cbn [app] in H2.
    assert (OK : forall k, In k (n_kids (tn c cal t)) -> S_Walk.test_path ENV k (tn (Cx (cx_mods c ++ n :: ms) false) cal' u) -> S_Walk.test_path ENV (tn c cal t) (tn (Cx (cx_mods c ++ n :: ms) false) cal' u)).
    { intros k Hk' H. eapply tp_kid; [|exact Hk'|exact H]. destruct (enters_kind c cal t He) as [K|[K|[K|K]]]; [auto|auto|auto|]. do 4 right. split; [reflexivity|exact K]. }
    destruct Hkid as [Hk'|(h & x & Hh & K & Hk')]; [apply (OK _ Hk' H2)|]. apply (OK _ Hh). eapply tp_kid; [|exact Hk'|exact H2].
    do 4 right. split; [reflexivity|]. eauto 6.
Qed.

(** *** Tests and functions *)
Lemma rs_file_test f t : rs_test fs listed root f t -> v_ign_test E t = false ->
  exists c cal, file_test ENV FILE (tn c cal f) t /\ cx_test c = false /\ known_as fs listed (cx_mods c) f t.
Proof.
  intros (ms & Ht & Hk) Hi. destruct (v_test_path _ _ _ _ _ Ht eq_refl eq_refl top false eq_refl) as (cal & H). cbn [cx_mods top app] in H.
  exists (Cx ms false), cal. split; [|auto]. split; [exact H|]. split; [|exact Hi]. exists 1%nat. rewrite (known_tr fs listed (Cx ms false) cal f t Hk). reflexivity.
Qed.
Lemma rs_named n t : test_named ENV FILE n t -> exists c cal f, n = tn c cal f /\ rs_test_somewhere fs listed root f t /\ known_as fs listed (cx_mods c) f t /\ v_ign_test E t = false.
Proof.
  intros (Hin & (i & K) & Hi).
  assert (W : forall r, within (tn top false r) n -> (r = root \/ exists x, rs_local root x r) -> exists c cal f, n = tn c cal f /\ rs_test_somewhere fs listed root f t /\ known_as fs listed (cx_mods c) f t /\ v_ign_test E t = false).
  { intros r Hw Hr. destruct (tr_within fs listed r top false n Hw) as (c & cal & ms & f & Hth & Hms & [->|[(y & b & r0 & _ & _ & ->)|(p & _ & ->)]]); try discriminate.
    destruct (tr_known fs listed c cal f t i K) as (Hkn & _). exists c, cal, f. split; [reflexivity|]. split; [|auto]. cbn in Hms. rewrite <- Hms in Hth. exists (cx_mods c), (cx_test c). split; [|exact Hkn].
    destruct Hr as [->|(x & Hx)]; [left; exact Hth|right; exists x, r; auto]. }
  destruct Hin as [Hw|(x & g & gs & Hw & H)]; [apply (W root Hw); auto|].
  destruct (env_walkable _ _ _ Hw) as (b & _ & Hb & ->). apply (W b H). eauto.
Qed.
Lemma tr_inside c cal t m : within (tn c cal t) m -> is_stmt m \/ is_call m -> exists c' cal' u, m = tn c' cal' u /\ (exists ms j, through (cx_test c) t ms j u) /\ (cx_test c = true -> c' = c).
Proof.
  intros H Hm. destruct (tr_within fs listed t c cal m H) as (c' & cal' & ms & u & Hth & Hms & Hu). destruct Hu as [->|Hu].
  - exists c', cal', u. split; [reflexivity|]. split; [exists ms, (cx_test c'); exact Hth|]. intros T. destruct (through_true _ _ _ _ _ Hth T) as (-> & T').
    rewrite app_nil_r in Hms. destruct c, c'. cbn in *. congruence.
  - exfalso. destruct Hu as [(y & b & r & _ & _ & ->)|(p & _ & ->)]; destruct Hm as [(a1 & a2 & a3 & a4 & K)|(h & y' & K)]; discriminate.
Qed.
Lemma rs_mentions c cal t f : mentions ENV (tn c cal t) f -> exists k b, rs_within t k /\ f = BODY b /\ rs_local_call root walkable k b.
Proof.
  intros (n & callee & args & x & gs & Hw & Hc & Hk & Hn & Hwk). destruct (tr_inside c cal t n Hw (or_intror Hc)) as (c' & cal' & u & -> & (ms & j & Hu) & _).
  destruct (v_local_call c' cal' u f (proj1 (v_call _ _ _ _ _) Hc)) as (b & Hb & Hl); [exists callee, args, x, gs; auto|]. exists u, b. split; [eexists _, _, _; exact Hu|]. auto.
Qed.
Lemma rs_calls t n : test_calls ENV FILE t n -> exists b x, n = BODY b /\ rs_runs fs listed root walkable t b /\ rs_local root x b /\ v_ign_test E t = false.
Proof.
  induction 1 as [n f Hn Hm|g f _ IH Hm].
  - destruct (rs_named n t Hn) as (c & cal & f0 & -> & H1 & _ & H2). destruct (rs_mentions c cal f0 f Hm) as (k & b & Hk & -> & Hl).
    assert (exists x, rs_local root x b) as (x & Hx) by (destruct Hl as (x & _ & _ & Hx); eauto). exists b, x. split; [reflexivity|]. split; [|auto]. eapply rr_call; [apply rr_test; exact H1|exact Hk|exact Hl].
  - destruct IH as (b0 & x0 & -> & H1 & _ & H2). destruct (rs_mentions _ _ b0 f Hm) as (k & b & Hk & -> & Hl).
    assert (exists x, rs_local root x b) as (x & Hx) by (destruct Hl as (x & _ & _ & Hx); eauto). exists b, x. split; [reflexivity|]. split; [|auto]. eapply rr_call; [exact H1|exact Hk|exact Hl].
Qed.
Lemma rs_apart : bodies_apart root -> functions_apart ENV.
Proof.
  intros A x y f g fs0 gs Hx Hy Hs. destruct (env_walkable _ _ _ Hx) as (b & _ & Hb & ->). destruct (env_walkable _ _ _ Hy) as (b' & _ & Hb' & ->).
  unfold same in Hs. cbn [rs_env v_fw fw_rust fw_structural] in Hs. apply shape_tokens in Hs. unfold rs_body in Hs. rewrite !tr_tokens in Hs. rewrite (A x y b b' Hb Hb' Hs). reflexivity.
Qed.

(** *** Statements *)
Lemma with_block_spec e : expression_with_block e = true <-> ends_in_block e.
Proof.
  unfold expression_with_block, ends_in_block. split.
  - destruct (x_kind e) as [| | | | | | | | | |k| | | |] eqn:K; try discriminate. intros H. exists k. split; [reflexivity|]. destruct k; try discriminate; cbn; tauto.
  - intros (k & -> & H). cbn in H. repeat (destruct H as [<-|H]; [reflexivity|]). destruct H.
Qed.
Lemma stmt_control_spec e : stmt_control e = true <-> exists k, x_kind e = XExpr k /\ In k [EBreak; EContinue; EReturn].
Proof.
  unfold stmt_control. split.
  - destruct (x_kind e) as [| | | | | | | | | |k| | | |] eqn:K; try discriminate. intros H. exists k. split; [reflexivity|]. destruct k; try discriminate; cbn; tauto.
  - intros (k & -> & H). cbn in H. repeat (destruct H as [<-|H]; [reflexivity|]). destruct H.
Qed.
Lemma v_removable c cal u : rs_stmt u -> (removable (tn c cal u) = true <-> ~ block_value u).
Proof.
  intros Hs. unfold block_value.
  destruct (tr_shape fs listed c cal u) as [Hk|semi9 e9 r9 Hk Hp|p9 Hk|b9 r9 Hk Hp|x9 b9 r9 Hk Hp|f9 r9 Hk Hp|x9 b9 r9 Hk Hp|p9 Hk|x9 s9 Hk Hc|Hfl He Hns Hnc Hnf Hna Hnm|at9 n9 x9 Hk Ht Hn|at9 n9 Hk Ht|He Hns Hnc Hnf Hna Hnp];
    try contradiction; try (exfalso; destruct Hs as [Q|[Q|[(pp & Q)|(ss & ee & rr & Q & Q')]]]; congruence).
  - split; [intros _ (e & r & Q & _); destruct Hk; congruence|reflexivity].
  - change (removable (real u _ _)) with (stmt_removable semi9 e9). unfold stmt_removable. split.
    + intros H (e & r & Q & Q' & Nb). rewrite Hk in Q. inversion Q; subst. rewrite Hp in Q'. inversion Q'; subst. apply Nb, with_block_spec. exact H.
    + intros H. destruct semi9; [reflexivity|]. cbn [orb]. destruct (expression_with_block e9) eqn:B; [reflexivity|]. destruct H. exists e9, r9. split; [exact Hk|]. split; [exact Hp|].
      intros Q. apply with_block_spec in Q. congruence.
  - split; [intros _ (e & r & Q & _); congruence|reflexivity].
Qed.
Lemma v_kept c cal u : rs_stmt u -> (control (tn c cal u) = false /\ declaration (tn c cal u) = false <-> ~ rs_kept u).
Proof.
  intros Hs. unfold rs_kept.
  destruct (tr_shape fs listed c cal u) as [Hk|semi9 e9 r9 Hk Hp|p9 Hk|b9 r9 Hk Hp|x9 b9 r9 Hk Hp|f9 r9 Hk Hp|x9 b9 r9 Hk Hp|p9 Hk|x9 s9 Hk Hc|Hfl He Hns Hnc Hnf Hna Hnm|at9 n9 x9 Hk Ht Hn|at9 n9 Hk Ht|He Hns Hnc Hnf Hna Hnp];
    try contradiction; try (exfalso; destruct Hs as [Q|[Q|[(pp & Q)|(ss & ee & rr & Q & Q')]]]; congruence).
  - split; [intros (_ & H); discriminate|intros H; exfalso; apply H; tauto].
  - change (control (real u _ _)) with (stmt_control e9). change (declaration (real u _ _)) with false. split.
    + intros (H & _) [Q|[Q|(sm & e & r & k & Q & Q1 & Q2 & Q3)]]; try congruence. rewrite Hp in Q1. inversion Q1; subst.
      assert (stmt_control e = true) by (apply stmt_control_spec; eauto). congruence.
    + intros H. split; [|reflexivity]. destruct (stmt_control e9) eqn:B; [|reflexivity]. apply stmt_control_spec in B. destruct B as (k & B1 & B2).
      destruct H. right. right. exists semi9, e9, r9, k. auto.
  - split; [intros _ [Q|[Q|(sm & e & r & k & Q & _)]]; congruence|split; reflexivity].
Qed.
Lemma performs_not_kept u k : rs_call_statement u k -> ~ rs_kept u.
Proof.
  intros (sm & e & r & Hk & Hp & Hf) [Q|[Q|(sm' & e' & r' & k' & Q & Q1 & Q2 & Q3)]]; try congruence. rewrite Hp in Q1. inversion Q1; subst.
  destruct Hf as [n [[(f & K & _)|(m & r0 & K & _)]|(p & K)]|e b n (K & _) _|e x b n (K & _) _]; unfold rs_macro in *; congruence.
Qed.
Lemma macro_not_kept u p : rs_macro_statement u p -> ~ rs_kept u.
Proof. unfold rs_macro_statement. intros H [Q|[Q|(sm & e & r & k & Q & _)]]; congruence. Qed.
Lemma performs_callee e n : rs_performs e n -> rs_call n \/ exists p, rs_macro n p.
Proof. induction 1; auto. Qed.

(** *** The last statement of a test *)
Lemma last_map {A} (g : A -> node) pre u : last_of (map g (pre ++ [u])) = Some (g u).
Proof. unfold last_of. rewrite map_app, rev_app_distr. reflexivity. Qed.
Lemma rs_last_node c cal f t u : known_as fs listed (cx_mods c) f t -> rs_last f u -> last_statement (tn c cal f) = Some (tn (Cx (cx_mods c) true) false u).
Proof.
  intros Hk (h & b & pre & Hp & Kb & Hb). rewrite (known_tr fs listed c cal f t Hk), Hp. unfold last_statement.
  change (n_kind (real f (KTest t 1) _)) with (KTest t 1). cbn [real n_kids map].
  assert (Eb : n_kids (tn (Cx (cx_mods c) true) false b) = map (tn (Cx (cx_mods c) true) false) (x_parts b)).
  { destruct b as [ab kb lb]. cbn [x_kind] in Kb. subst kb. cbn [tr enter cx_test n_kids x_parts]. reflexivity. }
  unfold test_statements. cbn [nth_error]. rewrite Eb, Hb. apply last_map.
Qed.
Lemma node_last_rs c cal f t l b : known_as fs listed (cx_mods c) f t -> has_body f b -> last_statement (tn c cal f) = Some l ->
  exists u, rs_last f u /\ l = tn (Cx (cx_mods c) true) false u.
Proof.
  intros Hk (h & Hp & Kb) Hl. destruct (exists_last (l := x_parts b)) as (pre & u & Hb).
  - intros Hn. rewrite (known_tr fs listed c cal f t Hk), Hp in Hl. unfold last_statement in Hl. change (n_kind (real f (KTest t 1) _)) with (KTest t 1) in Hl. cbn [real n_kids map] in Hl.
    destruct b as [ab kb lb]. cbn [x_kind x_parts] in *. subst kb lb. discriminate.
  - assert (R : rs_last f u) by (exists h, b, pre; auto). exists u. split; [exact R|]. rewrite (rs_last_node c cal f t u Hk R) in Hl. inversion Hl. reflexivity.
Qed.
End Env.

(** The tests found are those functions marked [#[test]] or [#[tokio::test]] that Cargo lists under the name that the file's place and
    the modules around the function give them, and that the configuration does not ignore. Those in no other function are found. *)
Theorem C67_tests : forall fs listed E root walkable st, result (rs_env fs listed E root walkable) (rs_file fs listed root) st ->
  (forall t, In t (s_tset st) -> v_ign_test E t = false /\ exists f, rs_test_somewhere fs listed root f t) /\
  (forall t f, rs_test fs listed root f t -> v_ign_test E t = false -> In t (s_tset st)).
Proof.
  intros fs listed E root walkable st HR. pose proof (rs_parsed fs listed E root walkable) as HP. split.
  - intros t H. destruct (in_named _ _ _ HP HR t H) as (n & Hn). destruct (rs_named fs listed E root walkable n t Hn) as (c & cal & f & _ & H1 & _ & H2). eauto.
  - intros t f Hf Hi. destruct (rs_file_test fs listed E root walkable f t Hf Hi) as (c & cal & Ht & _). exact (file_test_in _ _ _ HP HR t _ Ht).
Qed.
Print Assumptions C67_tests.

Section Origin.
Context (fs : option (list text)) (listed : text -> bool) (E : venv) (root : syn) (walkable : text -> bool).
Notation tn := (tr fs listed).
Notation ENV := (rs_env fs listed E root walkable).
Notation FILE := (rs_file fs listed root).
Lemma rs_origin_test n t s k : test_named ENV FILE n t -> In k (n_kids n) -> within k s -> is_stmt s \/ is_call s ->
  v_ign_test E t = false /\ exists m u c cal c' cal', s = tn c cal u /\ rs_within m u /\ n = tn c' cal' m /\ rs_test_somewhere fs listed root m t /\
    known_as fs listed (cx_mods c') m t /\ c = Cx (cx_mods c') true.
Proof.
  intros Hn Hk Hw Hs. destruct (rs_named fs listed E root walkable n t Hn) as (c & cal & f & -> & H1 & H2 & H3). split; [exact H3|].
  assert (Hk' := Hk). rewrite (known_tr fs listed c cal f t H2) in Hk'. cbn [real n_kids] in Hk'. apply in_map_iff in Hk'. destruct Hk' as (p & <- & Hp).
  destruct (tr_inside fs listed _ _ p s Hw Hs) as (c' & cal' & u & -> & (ms & j & Hu) & Hc). specialize (Hc eq_refl). subst c'.
  exists f, u, (Cx (cx_mods c) true), cal', c, cal. split; [reflexivity|]. destruct (through_true _ _ _ _ _ Hu eq_refl) as (-> & ->).
  split; [|auto]. destruct H2 as (at_ & nm & p0 & K1 & K2 & _).
  exists false, [], true. eapply th_test; [exact K1|exact K2|exact Hp|exact Hu].
Qed.
Lemma rs_origin_fun n t s k : test_calls ENV FILE t n -> In k (n_kids n) -> within k s -> is_stmt s \/ is_call s ->
  v_ign_test E t = false /\ exists m u c cal, s = tn c cal u /\ rs_within m u /\ rs_runs fs listed root walkable t m /\ exists x, rs_local root x m.
Proof.
  intros Hn Hk Hw Hs. destruct (rs_calls fs listed E root walkable t n Hn) as (b & x & -> & H1 & H2 & H3). split; [exact H3|].
  destruct (tr_inside fs listed top false b s (wi_kid _ _ _ Hk Hw) Hs) as (c' & cal' & u & -> & (ms & j & Hu) & _).
  exists b, u, c', cal'. split; [reflexivity|]. split; [eexists _, _, _; exact Hu|]. eauto.
Qed.
End Origin.

(** A statement that is a candidate of the test [t] is a statement of the code of [t]. It is not a block's value, not a declaration, [break],
    [continue] or [return], and not equal to the last statement of [t]. It is a call that is not ignored, or else no statement occurs in it, but for
    functions, macros and the arguments of ignored calls. *)
Theorem C67_statement_candidates : forall fs listed E root walkable st sp t, result (rs_env fs listed E root walkable) (rs_file fs listed root) st ->
  bodies_apart root -> candidate st Statement sp t ->
  v_skip E sp = false /\ v_ign_test E t = false /\
  exists n u, rs_code fs listed root walkable t n u /\ rs_stmt u /\ x_span (x_info u) = sp /\ ~ rs_kept u /\ ~ block_value u /\
    ((exists c, rs_call_statement u c /\ rs_call c /\ ~ rs_ignored_call E c) \/
     (exists c p, rs_call_statement u c /\ rs_macro c p /\ v_ign_mac E p = false) \/
     (exists p, rs_macro_statement u p /\ v_ign_mac E p = false) \/
     ((forall c, ~ rs_call_statement u c) /\ (forall p, ~ rs_macro_statement u p) /\
      forall k v, In k (x_parts u) -> enters u -> rs_in E k v -> ~ rs_stmt v)).
Proof.
  intros fs listed E root walkable st sp t HR A HC. pose proof (rs_parsed fs listed E root walkable) as HP. pose proof (rs_apart fs listed E root walkable A) as FA.
  destruct (candidate_runs_last _ _ _ HP HR Statement sp t FA HC) as (n & L & R & Hn & Hy).
  apply yields_statement in Hy. destruct Hy as (k & s & Hk & Hw & Hs & Hsk & (His & Hkp & Hcase)). split; [exact Hsk|].
  assert (O : v_ign_test E t = false /\ exists m u c cal, s = tr fs listed c cal u /\ rs_code fs listed root walkable t m u).
  { destruct Hn as [(Hn & ->)|(Hn & ->)].
    - destruct (rs_origin_test fs listed E root walkable n t s k Hn Hk Hw (or_introl His)) as (Hi & m & u & c & cal & c' & cal' & -> & Hin & -> & H1 & H2 & ->). split; [exact Hi|].
      exists m, u, (Cx (cx_mods c') true), cal. split; [reflexivity|]. split; [exact Hin|]. left. split; [exact H1|]. intros l Hl Hal. apply Hkp. right.
      eexists. split; [apply (rs_last_node fs listed c' cal' m t l H2 Hl)|]. unfold same. cbn [rs_env v_fw fw_rust fw_structural].
      rewrite (tr_flag fs listed (Cx (cx_mods c') true) cal u).
      + apply alike_shape. exact Hal.
      + intros q i s0 Q. apply v_stmt in His. destruct His as [Q'|[Q'|[(pp & Q')|(ss & ee & rr & Q' & _)]]]; congruence.
    - destruct (rs_origin_fun fs listed E root walkable n t s k Hn Hk Hw (or_introl His)) as (Hi & m & u & c & cal & -> & Hin & H1). split; [exact Hi|].
      exists m, u, c, cal. split; [reflexivity|]. split; [exact Hin|]. right. exact H1. }
  destruct O as (Hi & m & u & c & cal & -> & Hm). split; [exact Hi|].
  assert (S0 : rs_stmt u) by (eapply v_stmt; exact His).
  exists m, u. split; [exact Hm|]. split; [exact S0|]. split; [rewrite <- Hs; symmetry; apply tr_span|]. split; [|split].
  - destruct Hcase as [(_ & H1 & H2 & _)|(n0 & Hc & _)]; [rewrite <- (v_kept fs listed c cal u S0); auto|].
    apply v_call_statement_inv in Hc. destruct Hc as [(k0 & Hc & _)|(p & Hc & _)]; [eapply performs_not_kept; exact Hc|eapply macro_not_kept; exact Hc].
  - apply (v_removable fs listed c cal u S0). destruct (removable (tr fs listed c cal u)) eqn:Rm; [reflexivity|]. destruct Hkp. left. exact Rm.
  - destruct Hcase as [(H1 & _ & _ & H2)|(n0 & Hc & Hni & _)].
    + right. right. right. split; [intros k0 Hc; apply (H1 (tr fs listed c false k0)); apply v_call_statement; exact Hc|].
      split; [intros p Hc; eapply H1; apply v_macro_statement; exact Hc|]. intros k0 v Hk0 He Hv Hsv.
      destruct (enters_kid fs listed c cal u k0 He Hk0) as (cl & Hkid).
      destruct (v_open fs listed E root walkable k0 v Hv (enter c (x_kind u)) cl) as (c' & cal' & _ & Ho).
      assert (Sv : is_stmt (tr fs listed c' cal' v)) by (apply v_stmt; exact Hsv).
      destruct Hkid as [Hkid|(h & x & Hh & Kh & Hkid)]; [exact (leaf_open _ L R _ His H2 _ _ Hkid Ho Sv)|].
      eapply (leaf_open _ L R _ His H2 h _ Hh); [|exact Sv]. eapply op_kid; [|exact Hkid|exact Ho]. right. right. right. split; [reflexivity|]. eauto.
    + apply v_call_statement_inv in Hc. destruct Hc as [(k0 & Hc & ->)|(p & Hc & ->)].
      * assert (Hpk : rs_call k0 \/ exists p, rs_macro k0 p) by (destruct Hc as (_ & e & r & _ & _ & Hf); exact (performs_callee e k0 Hf)).
        destruct Hpk as [Hpk|(p & Hpk)]; [left|right; left].
        -- exists k0. split; [exact Hc|]. split; [exact Hpk|]. rewrite <- (v_ignored_call fs listed E root walkable c false k0 Hpk). exact Hni.
        -- exists k0, p. split; [exact Hc|]. split; [exact Hpk|]. destruct (v_ign_mac E p) eqn:I; [|reflexivity]. destruct Hni. eapply v_ignored_macro; [apply v_macro; exact Hpk|exact I].
      * right. right. left. exists p. split; [exact Hc|]. destruct (v_ign_mac E p) eqn:I; [|reflexivity]. destruct Hni. eapply v_ignored_macro; [reflexivity|exact I].
Qed.
Print Assumptions C67_statement_candidates.

(** A method call that is a candidate of [t] is a call [base.p1...pn(..)] in the code of [t] that is not ignored; the candidate is what follows [base]. *)
Theorem C67_method_candidates : forall fs listed E root walkable st sp t, result (rs_env fs listed E root walkable) (rs_file fs listed root) st ->
  bodies_apart root -> candidate st MethodCall sp t ->
  v_skip E sp = false /\ v_ign_test E t = false /\
  exists n c base p, rs_within n c /\ (rs_test_somewhere fs listed root n t \/ (rs_runs fs listed root walkable t n /\ exists x, rs_local root x n)) /\
    rs_method c base p /\ method_span E (x_span (x_info c)) (x_span (x_info base)) = Some sp /\ ~ rs_ignored_call E c /\ ~ rs_ignored_method E c.
Proof.
  intros fs listed E root walkable st sp t HR A HC. pose proof (rs_parsed fs listed E root walkable) as HP. pose proof (rs_apart fs listed E root walkable A) as FA.
  destruct (candidate_runs_last _ _ _ HP HR MethodCall sp t FA HC) as (n & L & R & Hn & Hy).
  apply yields_method in Hy. destruct Hy as (k & m & ctx & Hk & Hv & Hsk & ((x & Kx) & Hni & Hnm & B & p & Hm & Hsp) & _). split; [exact Hsk|].
  assert (Hc : is_call m) by (eexists _, _; exact Kx). apply visits_within in Hv.
  assert (O : v_ign_test E t = false /\ exists n u c cal, m = tr fs listed c cal u /\ rs_within n u /\ (rs_test_somewhere fs listed root n t \/ (rs_runs fs listed root walkable t n /\ exists x, rs_local root x n))).
  { destruct Hn as [(Hn & _)|(Hn & _)].
    - destruct (rs_origin_test fs listed E root walkable n t m k Hn Hk Hv (or_intror Hc)) as (Hi & f & u & c & cal & c' & cal' & -> & Hin & _ & H1 & _). split; [exact Hi|]. exists f, u, c, cal. auto.
    - destruct (rs_origin_fun fs listed E root walkable n t m k Hn Hk Hv (or_intror Hc)) as (Hi & f & u & c & cal & -> & Hin & H1). split; [exact Hi|]. exists f, u, c, cal. auto. }
  destruct O as (Hi & f & u & c & cal & -> & Hin & Hf). split; [exact Hi|]. apply v_method_inv in Hm. destruct Hm as (base & Hm & ->).
  exists f, u, base, p. split; [exact Hin|]. split; [exact Hf|]. split; [exact Hm|]. rewrite !tr_span in Hsp. split; [exact Hsp|].
  split; [rewrite <- (v_ignored_call fs listed E root walkable c cal u (rs_method_call _ _ _ Hm)); exact Hni|rewrite <- (v_ignored_method fs listed E root walkable c cal u); exact Hnm].
Qed.
Print Assumptions C67_method_candidates.

Section Listed.
Context (fs : option (list text)) (listed : text -> bool) (E : venv) (root : syn) (walkable : text -> bool).
Notation tn := (tr fs listed).
Notation ENV := (rs_env fs listed E root walkable).
Notation FILE := (rs_file fs listed root).
Lemma rs_in_test c cal f t u : known_as fs listed (cx_mods c) f t -> rs_part E f u -> exists cal', in_body ENV (tn c cal f) (tn (Cx (cx_mods c) true) cal' u).
Proof.
  intros Hk (p & Hp & Hin). destruct (v_open fs listed E root walkable p u Hin (Cx (cx_mods c) true) false) as (c' & cal' & H1 & H2). rewrite (H1 eq_refl) in H2. exists cal'.
  rewrite (known_tr fs listed c cal f t Hk). eexists. split; [cbn [real n_kids]; apply in_map; exact Hp|exact H2].
Qed.
Lemma rs_in_fun b u : x_kind b = XPart -> rs_part E b u -> exists c cal, in_body ENV (rs_body fs listed b) (tn c cal u).
Proof.
  intros Hk (p & Hp & Hin). destruct (v_open fs listed E root walkable p u Hin top false) as (c' & cal' & _ & H2). exists c', cal'.
  destruct b as [a k l]. cbn [x_kind x_parts] in *. subst k. eexists. split; [cbn [rs_body tr enter n_kids]; apply in_map; exact Hp|exact H2].
Qed.
Lemma stmts_below c cal u k m : In k (n_kids (tn c cal u)) -> within k m -> is_stmt m -> exists p v, In p (x_parts u) /\ part_of p v /\ rs_stmt v.
Proof.
  intros Hk Hw Hm. apply tr_kids in Hk.
  assert (G : forall c' cal' p, In p (x_parts u) -> within (tn c' cal' p) m -> exists p v, In p (x_parts u) /\ part_of p v /\ rs_stmt v).
  { intros c' cal' p Hp H. destruct (tr_inside fs listed c' cal' p m H (or_introl Hm)) as (c2 & cal2 & v & -> & (ms & j & Hv) & _). exists p, v. split; [exact Hp|].
    split; [eapply through_part; exact Hv|eapply v_stmt; exact Hm]. }
  destruct Hk as [(cl & p & Hp & ->)|[(x & b & r & _ & Hp & ->)|(p & _ & ->)]].
  - exact (G _ _ p Hp Hw).
  - destruct (within_inv _ _ Hw) as [->|(h & [<-|[]] & Hw')]; [destruct Hm as (a1 & a2 & a3 & a4 & Q); discriminate|]. apply (G c false b); [rewrite Hp; left; reflexivity|exact Hw'].
  - destruct (within_inv _ _ Hw) as [->|(h & [] & _)]. destruct Hm as (a1 & a2 & a3 & a4 & Q); discriminate.
Qed.
Lemma plain_leaf c cal u : rs_plain_statement u -> removable_leaf (tn c cal u).
Proof.
  intros (S0 & Nk & Nb & Nc & Nm & Nin). pose proof (proj2 (v_kept fs listed c cal u S0) Nk) as (H1 & H2). split; [apply v_stmt; exact S0|]. split.
  - intros n Hn. apply v_call_statement_inv in Hn. destruct Hn as [(k & Hk & _)|(p & Hp & _)]; [exact (Nc k Hk)|exact (Nm p Hp)].
  - split; [apply v_removable; assumption|]. split; [exact H1|]. split; [exact H2|]. intros k m Hk Hw Hm. destruct (stmts_below c cal u k m Hk Hw Hm) as (p & v & Hp & Hv & Hs). exact (Nin p v Hp Hv Hs).
Qed.
Lemma call_leaf c cal u : rs_removable_call E root walkable u -> removable_call ENV (tn c cal u).
Proof.
  intros [(n & Hc & Nb & Hn & Hl)|(p & Hp & Hi)].
  - assert (S0 : rs_stmt u) by (destruct Hc as (sm & e & r & H1 & H2 & _); right; right; right; eauto). split; [apply v_removable; assumption|].
    exists (tn c false n). split; [apply v_call_statement; exact Hc|]. destruct Hn as [(Hcl & Hni)|(p & Hm & Hi)].
    + split; [rewrite v_ignored_call; assumption|]. intros f Hf. destruct (v_local_call fs listed E root walkable c false n f Hcl Hf) as (b & _ & Hb). exact (Hl b Hb).
    + split; [intros Hg; apply (v_ignored_macro fs listed E root walkable _ p) in Hg; [congruence|apply v_macro; exact Hm]|]. intros f (callee & args & x & gs & Hk & _).
      destruct n as [an kn ln]. unfold rs_macro in Hm. cbn [x_kind] in Hm. subst kn. discriminate.
  - assert (S0 : rs_stmt u) by (right; right; left; exists p; exact Hp). split; [apply v_removable; [exact S0|]; intros (e & r & Q & _); unfold rs_macro_statement in Hp; congruence|].
    eexists. split; [apply v_macro_statement; exact Hp|]. split; [intros Hg; eapply v_ignored_macro in Hg; [|reflexivity]; congruence|]. intros f (callee & args & x & gs & Hk & _). discriminate.
Qed.
Lemma not_last c cal f t b cal' u l : known_as fs listed (cx_mods c) f t -> has_body f b -> (forall v, rs_last f v -> tokens v <> tokens u) ->
  last_statement (tn c cal f) = Some l -> same ENV l (tn (Cx (cx_mods c) true) cal' u) = false.
Proof.
  intros Hk Hb Hn Hl. destruct (node_last_rs fs listed c cal f t l b Hk Hb Hl) as (v & Hv & ->). unfold same. cbn [rs_env v_fw fw_rust fw_structural].
  destruct (shape_eqb _ _) eqn:Q; [|reflexivity]. apply shape_tokens in Q. rewrite !tr_tokens in Q. destruct (Hn v Hv Q).
Qed.
End Listed.

(** Every statement of a test whose text is not that of its last statement is a candidate of that test, if it is plain, or a call that is not
    ignored and not of a function of the file. *)
Theorem C67_statements_of_tests : forall fs listed E root walkable st t f b u, result (rs_env fs listed E root walkable) (rs_file fs listed root) st ->
  rs_test fs listed root f t -> has_body f b -> v_ign_test E t = false -> rs_part E f u ->
  rs_plain_statement u \/ rs_removable_call E root walkable u -> (forall l, rs_last f l -> tokens l <> tokens u) ->
  v_skip E (x_span (x_info u)) = false -> candidate st Statement (x_span (x_info u)) t.
Proof.
  intros fs listed E root walkable st t f b u HR Hf Hb Hi Hin Hu Hl Hsk. pose proof (rs_parsed fs listed E root walkable) as HP.
  destruct (rs_file_test fs listed E root walkable f t Hf Hi) as (c & cal & Ht & _ & Hk).
  destruct (rs_in_test fs listed E root walkable c cal f t u Hk Hin) as (cal' & Hbody).
  rewrite <- (tr_span fs listed (Cx (cx_mods c) true) cal' u) in *. eapply C33_statements_of_tests; [exact HP|exact HR|exact Ht|exact Hbody| | |exact Hsk].
  - destruct Hu as [Hu|Hu]; [left; apply plain_leaf; exact Hu|right; apply call_leaf; exact Hu].
  - intros l Hll. eapply not_last; eassumption.
Qed.
Print Assumptions C67_statements_of_tests.

(** Every method call of a test that is not ignored and not of a function of the file is a candidate of that test, unless it makes up a statement that
    is a block's value or has the text of the last. *)
Theorem C67_method_calls_of_tests : forall fs listed E root walkable st t f b c base p sp, result (rs_env fs listed E root walkable) (rs_file fs listed root) st ->
  places_apart root -> rs_test fs listed root f t -> has_body f b -> v_ign_test E t = false -> rs_part E f c -> rs_method c base p ->
  ~ rs_ignored_call E c -> v_ign_met E (dotted p) = false -> (forall g, ~ rs_local_call root walkable c g) ->
  (forall u, part_of f u -> rs_call_statement u c -> ~ block_value u /\ forall l, rs_last f l -> tokens l <> tokens u) ->
  method_span E (x_span (x_info c)) (x_span (x_info base)) = Some sp -> v_skip E sp = false -> candidate st MethodCall sp t.
Proof.
  intros fs listed E root walkable st t f b k base p sp HR Ap Hf Hb Hi Hin Hm Hnc Hnm Hnl Hst Hsp Hsk. pose proof (rs_parsed fs listed E root walkable) as HP.
  destruct (rs_file_test fs listed E root walkable f t Hf Hi) as (c & cal & Ht & _ & Hk).
  destruct (rs_in_test fs listed E root walkable c cal f t k Hk Hin) as (cal' & Hbody).
  pose proof (rs_method_call _ _ _ Hm) as Hc.
  assert (Pf : part_of root f) by (destruct Hf as (ms & Hth & _); eapply through_part; exact Hth).
  eapply C33_method_calls_of_tests; [exact HP|exact HR|exact Ht|exact Hbody| |apply v_rs_method; exact Hm|rewrite v_ignored_call; assumption|exact Hnm| | | |exact Hsk].
  - destruct Hc as [(g & Hg)|(m & r & Hr)].
    + destruct (v_function_call fs listed (Cx (cx_mods c) true) cal' k g Hg) as (l & args & -> & K & _). eexists. exact K.
    + destruct (v_method_call fs listed (Cx (cx_mods c) true) cal' k m r Hr) as (l & args & -> & K). eexists. exact K.
  - intros g Hg. destruct (v_local_call fs listed E root walkable _ _ k g Hc Hg) as (b0 & _ & Hb0). exact (Hnl b0 Hb0).
  - intros s Hs Hcs. assert (Ss : is_stmt s) by (eapply call_statement_stmt; exact Hcs).
    destruct (within_inv _ _ Hs) as [->|(h & Hh & Hw)]; [exfalso; rewrite (known_tr fs listed c cal f t Hk) in Ss; destruct Ss as (a1 & a2 & a3 & a4 & Q); discriminate|].
    rewrite (known_tr fs listed c cal f t Hk) in Hh. cbn [real n_kids] in Hh. apply in_map_iff in Hh. destruct Hh as (q & <- & Hq).
    destruct (tr_inside fs listed _ _ q s Hw (or_introl Ss)) as (c2 & cal2 & u & -> & (ms & j & Hth) & Hc2). rewrite (Hc2 eq_refl) in *.
    assert (Pq : part_of f u) by (apply through_part in Hth; destruct f as [af kf lf]; econstructor; eassumption).
    assert (Hcu : rs_call_statement u k).
    { destruct (v_call_statement_inv fs listed (Cx (cx_mods c) true) cal2 u _ Hcs) as [(k' & Hk' & Ek)|(p0 & _ & Ek)].
      - assert (k' = k); [|subst; exact Hk']. apply Ap.
        + eapply part_trans; [exact Pf|]. eapply part_trans; [exact Pq|]. destruct Hk' as (sm & e & r & _ & Hpu & Hf'). destruct u as [au ku lu]. cbn [x_parts] in Hpu. subst lu.
          eapply po_part; [left; reflexivity|]. clear - Hf'. induction Hf' as [n _|e b n (_ & r & Hb) _ IH|e x b n (_ & r & Hb) _ IH]; [constructor| |];
            destruct e as [ae ke le]; cbn [x_parts] in Hb; subst le; (eapply po_part; [left; reflexivity|exact IH]).
        + eapply part_trans; [exact Pf|]. destruct Hin as (q0 & Hq0 & Hin). destruct f as [af kf lf]. eapply po_part; [exact Hq0|]. clear - Hin.
          induction Hin as [|t0 p1 u0 _ _ Hp1 _ IH|t0 f0 u0 (_ & r0 & Hp1) _ IH|t0 m0 f0 u0 (_ & r0 & Hp1) _ IH]; [constructor| | |]; destruct t0 as [at0 kt0 lt0]; (eapply po_part; [|exact IH]); [exact Hp1| |];
            cbn [x_parts] in Hp1; subst lt0; left; reflexivity.
        + apply (f_equal n_id) in Ek. rewrite !tr_id in Ek. lia.
      - exfalso. apply (f_equal n_id) in Ek. rewrite tr_id in Ek. unfold virt in Ek. cbn in Ek. lia. }
    destruct (Hst u Pq Hcu) as (H1 & H2). split.
    + apply v_removable; [eapply v_stmt; exact Ss|exact H1].
    + intros l Hl. eapply not_last; eassumption.
  - rewrite !tr_span. exact Hsp.
Qed.
Print Assumptions C67_method_calls_of_tests.

(** So are the statements of a function of the file that a test calls, if it is the only function with that name. *)
Theorem C67_statements_of_called_functions : forall fs listed E root walkable st t f c x b u, result (rs_env fs listed E root walkable) (rs_file fs listed root) st ->
  bodies_apart root -> rs_test fs listed root f t -> v_ign_test E t = false -> rs_part E f c -> rs_call c -> callee_name c x -> walkable x = true ->
  rs_local root x b -> (forall b', rs_local root x b' -> b' = b) -> x_kind b = XPart -> rs_part E b u ->
  rs_plain_statement u \/ rs_removable_call E root walkable u -> v_skip E (x_span (x_info u)) = false -> candidate st Statement (x_span (x_info u)) t.
Proof.
  intros fs listed E root walkable st t f k x b u HR A Hf Hi Hin Hc Hx Wx Hl Honly Kb Hu Hpl Hsk. pose proof (rs_parsed fs listed E root walkable) as HP.
  destruct (rs_file_test fs listed E root walkable f t Hf Hi) as (c & cal & Ht & _ & Hk).
  destruct (rs_in_test fs listed E root walkable c cal f t k Hk Hin) as (cal' & Hbody).
  destruct (rs_in_fun fs listed E root walkable b u Kb Hu) as (c2 & cal2 & Hbu).
  rewrite <- (tr_span fs listed c2 cal2 u) in *.
  eapply C33_statements_of_called_functions; [exact HP|exact HR|apply rs_apart; exact A|exact Ht|exact Hbody| | |exact Hbu| |exact Hsk].
  - destruct Hc as [(g & Hg)|(m & r & Hr)].
    + destruct (v_function_call fs listed (Cx (cx_mods c) true) cal' k g Hg) as (l & args & -> & K & _). eexists. exact K.
    + destruct (v_method_call fs listed (Cx (cx_mods c) true) cal' k m r Hr) as (l & args & -> & K). eexists. exact K.
  - apply (v_callee_name fs listed E root walkable (Cx (cx_mods c) true) cal') in Hx. destruct Hx as (_ & callee & args & Hkk & Hn).
    destruct (walkable_env fs listed E root walkable x b Wx Hl) as (b' & gs & Hw & Hl'). rewrite (Honly b' Hl') in Hw. exists callee, args, x, gs. auto.
  - destruct Hpl as [Hpl|Hpl]; [left; apply plain_leaf; exact Hpl|right; apply call_leaf; exact Hpl].
Qed.
Print Assumptions C67_statements_of_called_functions.

Lemma rs_local_part root x b : rs_local root x b -> part_of root b.
Proof.
  intros (f & Ho & _ & h & r & Hp). eapply part_trans; [|apply (part_in f); rewrite Hp; right; left; reflexivity]. clear h r Hp. induction Ho as [|t p u _ Hp _ IH]; [constructor|].
  eapply part_trans; [apply part_in; exact Hp|exact IH].
Qed.
Section Entered.
Context (fs : option (list text)) (listed : text -> bool) (E : venv) (root : syn) (walkable : text -> bool).
Notation ENV := (rs_env fs listed E root walkable).
Notation FILE := (rs_file fs listed root).
Notation tn := (tr fs listed).
Lemma rs_seen c cal k : rs_call k -> seen_call (tn c cal k).
Proof.
  intros [(g & Hg)|(m & r & Hr)].
  - destruct (v_function_call fs listed c cal k g Hg) as (l & args & -> & K & _). eexists. exact K.
  - destruct (v_method_call fs listed c cal k m r Hr) as (l & args & -> & K). eexists. exact K.
Qed.
Lemma rs_names c cal k x b : callee_name k x -> walkable x = true -> rs_local root x b -> (forall b', rs_local root x b' -> b' = b) ->
  local_call ENV (tn c cal k) (rs_body fs listed b).
Proof.
  intros Hx Wx Hl Honly. apply (v_callee_name fs listed E root walkable c cal) in Hx. destruct Hx as (_ & callee & args & Hkk & Hn).
  destruct (walkable_env fs listed E root walkable x b Wx Hl) as (b' & gs & Hw & Hl'). rewrite (Honly b' Hl') in Hw. exists callee, args, x, gs. auto.
Qed.
Lemma rs_method_hyps b k base p sp : places_apart root -> part_of root b -> x_kind b = XPart -> rs_part E b k -> rs_method k base p ->
  ~ rs_ignored_call E k -> (forall g, ~ rs_local_call root walkable k g) -> (forall u, part_of b u -> rs_call_statement u k -> ~ block_value u) ->
  method_span E (x_span (x_info k)) (x_span (x_info base)) = Some sp ->
  exists c cal base', in_body ENV (rs_body fs listed b) (tn c cal k) /\ seen_call (tn c cal k) /\ method_call (tn c cal k) base' p /\ ~ ignored_call ENV (tn c cal k) /\
    (forall f, ~ local_call ENV (tn c cal k) f) /\
    (forall s, within (rs_body fs listed b) s -> call_statement s (tn c cal k) -> removable s = true) /\
    method_span ENV (n_span (tn c cal k)) (n_span base') = Some sp.
Proof.
  intros Ap Pb Kb Hu Hm Hnc Hnl Hst Hsp. destruct (rs_in_fun fs listed E root walkable b k Kb Hu) as (c2 & cal2 & Hbu). pose proof (rs_method_call _ _ _ Hm) as Hc.
  exists c2, cal2. eexists. split; [exact Hbu|]. split; [apply rs_seen; exact Hc|]. split; [apply v_rs_method; exact Hm|]. split; [rewrite v_ignored_call; assumption|]. split; [|split].
  - intros g Hg. destruct (v_local_call fs listed E root walkable _ _ k g Hc Hg) as (b0 & _ & Hb0). exact (Hnl b0 Hb0).
  - intros s Hs Hcs. assert (Ss : is_stmt s) by (eapply call_statement_stmt; exact Hcs).
    destruct (tr_inside fs listed _ _ b s Hs (or_introl Ss)) as (c3 & cal3 & u & -> & (ms & j & Hth) & _). apply through_part in Hth.
    assert (Hcu : rs_call_statement u k).
    { destruct (v_call_statement_inv fs listed c3 cal3 u _ Hcs) as [(k' & Hk' & Ek)|(p0 & _ & Ek)].
      - assert (k' = k); [|subst; exact Hk']. apply Ap.
        + eapply part_trans; [exact Pb|]. eapply part_trans; [exact Hth|]. destruct Hk' as (sm & e & r & _ & Hpu & Hf'). destruct u as [au ku lu]. cbn [x_parts] in Hpu. subst lu.
          eapply po_part; [left; reflexivity|]. clear - Hf'. induction Hf' as [n _|e b n (_ & r & Hb) _ IH|e x b n (_ & r & Hb) _ IH]; [constructor| |];
            destruct e as [ae ke le]; cbn [x_parts] in Hb; subst le; (eapply po_part; [left; reflexivity|exact IH]).
        + eapply part_trans; [exact Pb|]. destruct Hu as (q0 & Hq0 & Hin'). destruct b as [af kf lf]. eapply po_part; [exact Hq0|]. clear - Hin'.
          induction Hin' as [|t0 p1 u0 _ _ Hp1 _ IH|t0 f0 u0 (_ & r0 & Hp1) _ IH|t0 m0 f0 u0 (_ & r0 & Hp1) _ IH]; [constructor| | |]; destruct t0 as [at0 kt0 lt0]; (eapply po_part; [|exact IH]); [exact Hp1| |];
            cbn [x_parts] in Hp1; subst lt0; left; reflexivity.
        + apply (f_equal n_id) in Ek. rewrite !tr_id in Ek. lia.
      - exfalso. apply (f_equal n_id) in Ek. rewrite tr_id in Ek. unfold virt in Ek. cbn in Ek. lia. }
    apply v_removable; [eapply v_stmt; exact Ss|]. exact (Hst u Hth Hcu).
  - rewrite !tr_span. exact Hsp.
Qed.
(** Where the walk of the file goes outside of tests. *)
Lemma tr_test_path t : forall c cal m, cx_test c = false -> S_Walk.test_path ENV (tn c cal t) m ->
  exists c' cal' ms u, through false t ms false u /\ (m = tn c' cal' u \/ virtual fs listed c' u m).
Proof.
  induction t as [a k l IH] using syn_ind'. intros c cal m Hc H. rewrite Forall_forall in IH. set (t := Syn a k l) in *.
  assert (K : forall cl p, enters t -> In p l -> S_Walk.test_path ENV (tn (enter c k) cl p) m ->
     exists c' cal' ms u, through false t ms false u /\ (m = tn c' cal' u \/ virtual fs listed c' u m)).
  { intros cl p He Hp Hw. assert (Hc' : cx_test (enter c k) = false).
    { destruct k; try exact Hc; [destruct (proj1 He attrs name eq_refl)|cbn [enter]; rewrite Hc; reflexivity]. }
    destruct (IH p Hp _ _ _ Hc' Hw) as (c' & cal' & ms & u & H1 & H2). rewrite <- Hc' in H1 at 1.
    destruct (through_step c t p (or_introl He) Hp ms false u H1) as (ms' & H4 & _). rewrite Hc in H4. exists c', cal', ms', u. auto. }
  inversion H as [n|n h m0 Hkd Hh Hw]; subst; [exists c, cal, [], t; split; [constructor|left; reflexivity]|].
  assert (NT : forall at_ n, x_kind t <> XFn at_ n).
  { intros at_ n Q. destruct (tr_shape fs listed c cal t) as [[Q1|Q1]|semi9 e9 r9 Q1 Hp9|p9 Q1|b9 r9 Q1 Hp9|x9 b9 r9 Q1 Hp9|f9 r9 Q1 Hp9|x9 b9 r9 Q1 Hp9|p9 Q1|x9 s9 Q1 Hc9|Hfl (He & _) Hns Hnc Hnf Hna Hnm|at9 n9 x9 Q1 Ht9 Hn9|at9 n9 Q1 Ht9|(He & _) Hns Hnc Hnf Hna Hnp];
      try congruence; try (exact (He _ _ Q)); [|destruct Hh].
    destruct Hkd as [(? & ? & ? & ? & X)|[(? & ? & X)|[(? & X)|[X|(_ & [X|[(? & X)|[X|(? & X)]]])]]]]; discriminate. }
  destruct (tr_kids fs listed c cal t h Hh) as [(cl & p & Hp & ->)|Hv].
  - apply (K cl p); [|exact Hp|exact Hw]. destruct (tr_entered fs listed c cal t _ Hh) as [X|(at_ & n & X & _)]; [|exact X|destruct (NT _ _ X)].
    intros (q & Hq). unfold t in Hq. cbn in Hq. subst k. cbn in Hh. destruct Hh as [E0|[]].
    apply (f_equal n_id) in E0. rewrite tr_id in E0. cbn [n_id n_lab l_id virt] in E0. lia.
  - inversion Hw as [n|n h' m0 _ Hh' Hw']; subst; [exists c, cal, [], t; split; [constructor|right; exact Hv]|].
    destruct Hv as [(x & b & r & Hk & Hp & ->)|(q & Hk & ->)]; [|destruct Hh']. destruct Hh' as [<-|[]].
    apply (K false b); [|cbn in Hp; rewrite Hp; left; reflexivity|cbn in Hk; subst k; exact Hw'].
    unfold enters. rewrite Hk. repeat split; discriminate.
Qed.
Lemma rs_tests_only : rs_calls_in_tests root walkable -> calls_in_tests_only ENV FILE.
Proof.
  intros HO m f Hp (x & K) Hl. destruct (tr_test_path root top false m eq_refl Hp) as (c & cal & ms & u & Hth & [->|[(? & ? & ? & _ & _ & ->)|(? & _ & ->)]]); try discriminate.
  assert (Hc : rs_call u) by (apply (v_call fs listed c cal); eexists _, _; exact K).
  destruct (v_local_call fs listed E root walkable c cal u f Hc Hl) as (b & _ & Hb). exact (HO ms u b Hth Hb).
Qed.
Lemma rs_entered_reached b : rs_entered fs listed E root walkable b -> x_kind b = XPart /\ part_of root b /\ reached ENV FILE (rs_body fs listed b).
Proof.
  induction 1 as [t f b Hf Hi (k & x & H1 & H2 & H3 & H4 & H5 & H6 & H7)|b0 b _ (IH1 & IH2 & IH3) (k & x & H1 & H2 & H3 & H4 & H5 & H6 & H7)];
    (split; [exact H7|]); (split; [eapply rs_local_part; exact H5|]).
  - destruct (rs_file_test fs listed E root walkable f t Hf Hi) as (c & cal & Ht & _ & Hk). destruct (rs_in_test fs listed E root walkable c cal f t k Hk H1) as (cal' & Hbody).
    eapply re_test; [exact Ht|exact Hbody|apply rs_seen; exact H2|eapply rs_names; eassumption].
  - destruct (rs_in_fun fs listed E root walkable b0 k IH1 H1) as (c2 & cal2 & Hbu). eapply re_fun; [exact IH3|exact Hbu|apply rs_seen; exact H2|eapply rs_names; eassumption].
Qed.
End Entered.

(** And the method calls of such a function, unless one is a block's value. *)
Theorem C67_method_calls_of_called_functions : forall fs listed E root walkable st t f b c base p sp, result (rs_env fs listed E root walkable) (rs_file fs listed root) st ->
  bodies_apart root -> places_apart root -> rs_test fs listed root f t -> v_ign_test E t = false -> rs_enters E root walkable f b -> rs_part E b c -> rs_method c base p ->
  ~ rs_ignored_call E c -> v_ign_met E (dotted p) = false -> (forall g, ~ rs_local_call root walkable c g) ->
  (forall u, part_of b u -> rs_call_statement u c -> ~ block_value u) ->
  method_span E (x_span (x_info c)) (x_span (x_info base)) = Some sp -> v_skip E sp = false -> candidate st MethodCall sp t.
Proof.
  intros fs listed E root walkable st t f b k base p sp HR A Ap Hf Hi (k0 & x & H1 & H2 & H3 & H4 & H5 & H6 & H7) Hu Hm Hnc Hnm Hnl Hst Hsp Hsk. pose proof (rs_parsed fs listed E root walkable) as HP.
  destruct (rs_file_test fs listed E root walkable f t Hf Hi) as (c & cal & Ht & _ & Hk).
  destruct (rs_in_test fs listed E root walkable c cal f t k0 Hk H1) as (cal' & Hbody).
  destruct (rs_method_hyps fs listed E root walkable b k base p sp Ap (rs_local_part _ _ _ H5) H7 Hu Hm Hnc Hnl Hst Hsp) as (c2 & cal2 & base' & B1 & B2 & B3 & B4 & B5 & B6 & B7).
  eapply (C33_method_calls_of_called_functions _ _ _ (tr fs listed c cal f) t (tr fs listed (Cx (cx_mods c) true) cal' k0) (rs_body fs listed b) (tr fs listed c2 cal2 k));
    [exact HP|exact HR|apply rs_apart; exact A|exact Ht|exact Hbody|apply rs_seen; exact H2|eapply rs_names; eassumption|exact B1|exact B2|exact B3|exact B4|exact Hnm|exact B5|exact B6|exact B7|exact Hsk].
Qed.
Print Assumptions C67_method_calls_of_called_functions.

(** In Rust, if functions of the file are only called from tests and from one another: every statement of every function that is entered, from a test or
    from another such function, is a candidate, if it is plain or a call that is neither ignored nor of a function of the file. *)
Theorem C78_rust_statements : forall fs listed E root walkable st b u, result (rs_env fs listed E root walkable) (rs_file fs listed root) st -> bodies_apart root ->
  rs_calls_in_tests root walkable -> rs_entered fs listed E root walkable b -> rs_part E b u -> rs_plain_statement u \/ rs_removable_call E root walkable u ->
  v_skip E (x_span (x_info u)) = false -> exists t, candidate st Statement (x_span (x_info u)) t.
Proof.
  intros fs listed E root walkable st b u HR A HO He Hu Hpl Hsk. destruct (rs_entered_reached _ _ _ _ _ _ He) as (Kb & _ & Hg).
  destruct (rs_in_fun fs listed E root walkable b u Kb Hu) as (c2 & cal2 & Hbu). rewrite <- (tr_span fs listed c2 cal2 u) in *.
  eapply C33_statements_of_reached_functions; [apply rs_parsed|exact HR|apply rs_apart; exact A|apply rs_tests_only; exact HO|exact Hg|exact Hbu| |exact Hsk].
  destruct Hpl as [Hpl|Hpl]; [left; apply plain_leaf; exact Hpl|right; apply call_leaf; exact Hpl].
Qed.
Print Assumptions C78_rust_statements.
(** And every method call of such a function that is not ignored, not of a function of the file, and not a block's value. *)
Theorem C78_rust_method_calls : forall fs listed E root walkable st b c base p sp, result (rs_env fs listed E root walkable) (rs_file fs listed root) st ->
  bodies_apart root -> places_apart root -> rs_calls_in_tests root walkable -> rs_entered fs listed E root walkable b -> rs_part E b c -> rs_method c base p ->
  ~ rs_ignored_call E c -> v_ign_met E (dotted p) = false -> (forall g, ~ rs_local_call root walkable c g) ->
  (forall u, part_of b u -> rs_call_statement u c -> ~ block_value u) ->
  method_span E (x_span (x_info c)) (x_span (x_info base)) = Some sp -> v_skip E sp = false -> exists t, candidate st MethodCall sp t.
Proof.
  intros fs listed E root walkable st b k base p sp HR A Ap HO He Hu Hm Hnc Hnm Hnl Hst Hsp Hsk. destruct (rs_entered_reached _ _ _ _ _ _ He) as (Kb & Pb & Hg).
  destruct (rs_method_hyps fs listed E root walkable b k base p sp Ap Pb Kb Hu Hm Hnc Hnl Hst Hsp) as (c2 & cal2 & base' & B1 & B2 & B3 & B4 & B5 & B6 & B7).
  eapply C33_method_calls_of_reached_functions; [apply rs_parsed|exact HR|apply rs_apart; exact A|apply rs_tests_only; exact HO|exact Hg|exact B1|exact B2|exact B3|exact B4|exact Hnm|exact B5|exact B6|exact B7|exact Hsk].
Qed.
Print Assumptions C78_rust_method_calls.

(** The walk of a Rust file without tests inside of functions does not panic, provided the places of the method calls can be computed. *)
Theorem C67_no_panic : forall fs listed E root walkable fuel, no_inner_test root ->
  (forall c base p, part_of root c -> rs_method c base p -> method_span E (x_span (x_info c)) (x_span (x_info base)) <> None) ->
  visit_file (rs_env fs listed E root walkable) fuel (rs_file fs listed root) <> LPanic.
Proof.
  intros fs listed E root walkable fuel NT HS. pose proof (rs_parsed fs listed E root walkable) as HP.
  assert (SP : forall r, part_of root r -> spans_ok (rs_env fs listed E root walkable) (tr fs listed top false r)).
  { intros r Hr n B p Hn Hm. destruct (tr_inside fs listed top false r n Hn (or_intror (proj1 Hm))) as (c & cal & u & -> & (ms & j & Hu) & _).
    apply v_method_inv in Hm. destruct Hm as (base & Hm & ->). rewrite !tr_span. apply (HS u base p); [|exact Hm]. eapply part_trans; [exact Hr|eapply through_part; exact Hu]. }
  apply C36_no_panic; [exact HP| |apply (SP root); constructor|].
  - intros m t i k Hm K Hk. destruct (tr_within fs listed root top false m Hm) as (c & cal & ms & u & Hu & _ & [->|[(y & b & r & _ & _ & ->)|(p & _ & ->)]]); try discriminate.
    destruct (tr_known fs listed c cal u t i K) as (Hkn & _). rewrite (known_tr fs listed c cal u t Hkn) in Hk. cbn [real n_kids] in Hk. apply in_map_iff in Hk. destruct Hk as (q & <- & Hq).
    apply tr_no_test. intros v at_ n Hv Kv. apply (NT u q v at_ n); [eapply through_part; exact Hu| |exact Hq|exact Hv|exact Kv].
    destruct Hkn as (at0 & n0 & p0 & K0 & _). left. eauto.
  - intros x f gs Hx. destruct (env_walkable fs listed E root walkable x f gs Hx) as (b & _ & (g & Hg & Hpf) & ->).
    assert (Pg : part_of root g). { clear - Hg. induction Hg as [|t p u _ Hp _ IH]; [constructor|]. destruct t as [a k l]. econstructor; eassumption. }
    destruct Hpf as (Hkg & h & r & Hpg). assert (Pb : part_of g b) by (destruct g as [ag kg lg]; cbn [x_parts] in Hpg; subst lg; eapply po_part; [right; left; reflexivity|constructor]).
    split; [|apply SP; eapply part_trans; eassumption]. apply tr_no_test. intros v at_ n Hv Kv. apply (NT g b v at_ n); [exact Pg| |rewrite Hpg; right; left; reflexivity|exact Hv|exact Kv].
    destruct Hkg as [(at0 & K0 & _)|K0]; [left; eauto|right; eauto].
Qed.
Print Assumptions C67_no_panic.

(** The walk of a Rust file ends, with a result if the above holds. *)
Theorem C67_result : forall fs listed E root walkable, no_inner_test root ->
  (forall c base p, part_of root c -> rs_method c base p -> method_span E (x_span (x_info c)) (x_span (x_info base)) <> None) ->
  exists st, result (rs_env fs listed E root walkable) (rs_file fs listed root) st.
Proof.
  intros fs listed E root walkable NT HS. destruct (rs_parsed fs listed E root walkable) as [W WF].
  destruct (C35_walk_ends (rs_env fs listed E root walkable) (rs_file fs listed root) (map (fun f => rs_body fs listed (snd f)) (local_funs root)) W) as (r & Hr & HF).
  { intros x f gs Hx. split; [eapply WF; exact Hx|]. destruct (env_walkable fs listed E root walkable x f gs Hx) as (b & _ & Hb & ->). apply local_funs_spec in Hb.
    apply in_map_iff. exists (x, b). auto. }
  specialize (HF _ (le_n _)). pose proof (C67_no_panic fs listed E root walkable (length (map (fun f => rs_body fs listed (snd f)) (local_funs root))) NT HS) as HP.
  destruct r as [st| |]; [exists st; eexists; exact HF| |congruence]. congruence.
Qed.
Print Assumptions C67_result.

(** ** An example *)
Fixpoint all_parts (t : syn) : list syn := match t with Syn _ _ l => t :: flat_map all_parts l end.
Lemma all_parts_spec t : forall u, In u (all_parts t) <-> part_of t u.
Proof.
  induction t as [a k l IH] using syn_ind'. rewrite Forall_forall in IH. intros u. cbn [all_parts]. split.
  - intros [<-|H]; [constructor|]. apply in_flat_map in H. destruct H as (p & Hp & H). econstructor; [exact Hp|]. apply (IH p Hp). exact H.
  - intros H. inversion H as [|a' k' l' p u' Hp Hu]; subst; [left; reflexivity|right]. apply in_flat_map. exists p. split; [exact Hp|]. apply (IH p Hp). exact Hu.
Qed.
Definition rs_ex_text : text := s2t "#[test]" ++ [NL] ++ s2t "fn a() { let x = 1; g(x); x.m(); h(); { v = 2; } match x { _ => k() } z(); }" ++ [NL] ++ s2t "fn h() { p(); q(); }" ++ [NL] ++ s2t "mod t { #[tokio::test] async fn b() { r!(); s(); } }" ++ [NL].
Definition rs_a_sig : syn := Syn (XI 3 (Span xp (LC 1 0) (LC 2 6)) (s2t "#[test]fna()")) XPart [].
Definition rs_let_1 : syn := Syn (XI 6 (Span xp (LC 2 17) (LC 2 18)) (s2t "1")) (XExpr ELit) [].
Definition rs_let : syn := Syn (XI 5 (Span xp (LC 2 9) (LC 2 19)) (s2t "letx=;")) XLocal [rs_let_1].
Definition rs_g_call_f : syn := Syn (XI 9 (Span xp (LC 2 20) (LC 2 21)) (s2t "g")) (XPath false (Some (s2t "g")) (s2t "g")) [].
Definition rs_g_call_x : syn := Syn (XI 10 (Span xp (LC 2 22) (LC 2 23)) (s2t "x")) (XPath false (Some (s2t "x")) (s2t "x")) [].
Definition rs_g_call : syn := Syn (XI 8 (Span xp (LC 2 20) (LC 2 24)) (s2t "()")) XCall [rs_g_call_f; rs_g_call_x].
Definition rs_g : syn := Syn (XI 7 (Span xp (LC 2 20) (LC 2 25)) (s2t ";")) (XExprStmt true) [rs_g_call].
Definition rs_m_x : syn := Syn (XI 13 (Span xp (LC 2 26) (LC 2 27)) (s2t "x")) (XPath false (Some (s2t "x")) (s2t "x")) [].
Definition rs_m_call : syn := Syn (XI 12 (Span xp (LC 2 26) (LC 2 31)) (s2t ".m()")) (XMethod (s2t "m")) [rs_m_x].
Definition rs_m : syn := Syn (XI 11 (Span xp (LC 2 26) (LC 2 32)) (s2t ";")) (XExprStmt true) [rs_m_call].
Definition rs_h_call_f : syn := Syn (XI 16 (Span xp (LC 2 33) (LC 2 34)) (s2t "h")) (XPath false (Some (s2t "h")) (s2t "h")) [].
Definition rs_h_call : syn := Syn (XI 15 (Span xp (LC 2 33) (LC 2 36)) (s2t "()")) XCall [rs_h_call_f].
Definition rs_h : syn := Syn (XI 14 (Span xp (LC 2 33) (LC 2 37)) (s2t ";")) (XExprStmt true) [rs_h_call].
Definition rs_v_l : syn := Syn (XI 22 (Span xp (LC 2 40) (LC 2 41)) (s2t "v")) (XPath false (Some (s2t "v")) (s2t "v")) [].
Definition rs_v_r : syn := Syn (XI 23 (Span xp (LC 2 44) (LC 2 45)) (s2t "2")) (XExpr ELit) [].
Definition rs_v_e : syn := Syn (XI 21 (Span xp (LC 2 40) (LC 2 45)) (s2t "=")) (XExpr EAssign) [rs_v_l; rs_v_r].
Definition rs_v : syn := Syn (XI 20 (Span xp (LC 2 40) (LC 2 46)) (s2t ";")) (XExprStmt true) [rs_v_e].
Definition rs_blk_b : syn := Syn (XI 19 (Span xp (LC 2 38) (LC 2 48)) (s2t "{}")) XPart [rs_v].
Definition rs_blk_e : syn := Syn (XI 18 (Span xp (LC 2 38) (LC 2 48)) (s2t "")) (XExpr EBlock) [rs_blk_b].
Definition rs_blk : syn := Syn (XI 17 (Span xp (LC 2 38) (LC 2 48)) (s2t "")) (XExprStmt false) [rs_blk_e].
Definition rs_match_x : syn := Syn (XI 26 (Span xp (LC 2 55) (LC 2 56)) (s2t "x")) (XPath false (Some (s2t "x")) (s2t "x")) [].
Definition rs_k_call_f : syn := Syn (XI 29 (Span xp (LC 2 64) (LC 2 65)) (s2t "k")) (XPath false (Some (s2t "k")) (s2t "k")) [].
Definition rs_k_call : syn := Syn (XI 28 (Span xp (LC 2 64) (LC 2 67)) (s2t "()")) XCall [rs_k_call_f].
Definition rs_match_arm : syn := Syn (XI 27 (Span xp (LC 2 59) (LC 2 67)) (s2t "_=>")) XPart [rs_k_call].
Definition rs_match_e : syn := Syn (XI 25 (Span xp (LC 2 49) (LC 2 69)) (s2t "match{}")) (XExpr EMatch) [rs_match_x; rs_match_arm].
Definition rs_match : syn := Syn (XI 24 (Span xp (LC 2 49) (LC 2 69)) (s2t "")) (XExprStmt false) [rs_match_e].
Definition rs_z_call_f : syn := Syn (XI 32 (Span xp (LC 2 70) (LC 2 71)) (s2t "z")) (XPath false (Some (s2t "z")) (s2t "z")) [].
Definition rs_z_call : syn := Syn (XI 31 (Span xp (LC 2 70) (LC 2 73)) (s2t "()")) XCall [rs_z_call_f].
Definition rs_z : syn := Syn (XI 30 (Span xp (LC 2 70) (LC 2 74)) (s2t ";")) (XExprStmt true) [rs_z_call].
Definition rs_a_body : syn := Syn (XI 4 (Span xp (LC 2 7) (LC 2 76)) (s2t "{}")) XPart [rs_let; rs_g; rs_m; rs_h; rs_blk; rs_match; rs_z].
Definition rs_a : syn := Syn (XI 2 (Span xp (LC 1 0) (LC 2 76)) (s2t "")) (XFn [[(s2t "test", false)]] (s2t "a")) [rs_a_sig; rs_a_body].
Definition rs_hf_sig : syn := Syn (XI 34 (Span xp (LC 3 0) (LC 3 6)) (s2t "fnh()")) XPart [].
Definition rs_p_call_f : syn := Syn (XI 38 (Span xp (LC 3 9) (LC 3 10)) (s2t "p")) (XPath false (Some (s2t "p")) (s2t "p")) [].
Definition rs_p_call : syn := Syn (XI 37 (Span xp (LC 3 9) (LC 3 12)) (s2t "()")) XCall [rs_p_call_f].
Definition rs_p : syn := Syn (XI 36 (Span xp (LC 3 9) (LC 3 13)) (s2t ";")) (XExprStmt true) [rs_p_call].
Definition rs_q_call_f : syn := Syn (XI 41 (Span xp (LC 3 14) (LC 3 15)) (s2t "q")) (XPath false (Some (s2t "q")) (s2t "q")) [].
Definition rs_q_call : syn := Syn (XI 40 (Span xp (LC 3 14) (LC 3 17)) (s2t "()")) XCall [rs_q_call_f].
Definition rs_q : syn := Syn (XI 39 (Span xp (LC 3 14) (LC 3 18)) (s2t ";")) (XExprStmt true) [rs_q_call].
Definition rs_hf_body : syn := Syn (XI 35 (Span xp (LC 3 7) (LC 3 20)) (s2t "{}")) XPart [rs_p; rs_q].
Definition rs_hf : syn := Syn (XI 33 (Span xp (LC 3 0) (LC 3 20)) (s2t "")) (XFn [] (s2t "h")) [rs_hf_sig; rs_hf_body].
Definition rs_b_sig : syn := Syn (XI 44 (Span xp (LC 4 8) (LC 4 35)) (s2t "#[tokio::test]asyncfnb()")) XPart [].
Definition rs_r : syn := Syn (XI 46 (Span xp (LC 4 38) (LC 4 43)) (s2t "r!();")) (XMacroStmt (s2t "r")) [].
Definition rs_s_call_f : syn := Syn (XI 49 (Span xp (LC 4 44) (LC 4 45)) (s2t "s")) (XPath false (Some (s2t "s")) (s2t "s")) [].
Definition rs_s_call : syn := Syn (XI 48 (Span xp (LC 4 44) (LC 4 47)) (s2t "()")) XCall [rs_s_call_f].
Definition rs_s : syn := Syn (XI 47 (Span xp (LC 4 44) (LC 4 48)) (s2t ";")) (XExprStmt true) [rs_s_call].
Definition rs_b_body : syn := Syn (XI 45 (Span xp (LC 4 36) (LC 4 50)) (s2t "{}")) XPart [rs_r; rs_s].
Definition rs_b : syn := Syn (XI 43 (Span xp (LC 4 8) (LC 4 50)) (s2t "")) (XFn [[(s2t "tokio", false); (s2t "test", false)]] (s2t "b")) [rs_b_sig; rs_b_body].
Definition rs_mod : syn := Syn (XI 42 (Span xp (LC 4 0) (LC 4 52)) (s2t "modt{}")) (XMod (s2t "t")) [rs_b].
Definition rs_ex : syn := Syn (XI 1 (Span xp (LC 1 0) (LC 4 52)) (s2t "")) XPart [rs_a; rs_hf; rs_mod].
Definition rs_ex_env : venv := VEnv fw_rust (fun _ => false) (fun _ => false) (fun _ => false) (fun _ => false) false DNone (fun _ => []) (fun _ => false) rs_ex_text.
Definition rs_ex_walkable (x : text) : bool := text_eqb x (s2t "h").
Definition rs_ex_listed (x : text) : bool := mem_text x [s2t "c::a"; s2t "c::t::b"].
Definition rs_ex_fs : option (list text) := Some [s2t "c"].
Definition rs_ex_st : vst := st_of (rs_env rs_ex_fs rs_ex_listed rs_ex_env rs_ex rs_ex_walkable) (rs_file rs_ex_fs rs_ex_listed rs_ex).
Example rs_ex_result : result (rs_env rs_ex_fs rs_ex_listed rs_ex_env rs_ex rs_ex_walkable) (rs_file rs_ex_fs rs_ex_listed rs_ex) rs_ex_st.
Proof. exists 9. vm_compute. reflexivity. Qed.
Example rs_ex_candidates : cands rs_ex_st =
  [(Statement, 20, 25, [s2t "c::a"]); (Statement, 26, 32, [s2t "c::a"]); (Statement, 40, 46, [s2t "c::a"]); (Statement, 9, 13, [s2t "c::a"]);
   (Statement, 14, 18, [s2t "c::a"]); (Statement, 38, 43, [s2t "c::t::b"]); (MethodCall, 27, 31, [s2t "c::a"])]%nat /\
  s_tset rs_ex_st = [s2t "c::a"; s2t "c::t::b"].
Proof. split; vm_compute; reflexivity. Qed.
Lemma rs_ex_none_ignored c : ~ rs_ignored_call rs_ex_env c /\ ~ rs_ignored_method rs_ex_env c.
Proof.
  split; [|intros (b & p & _ & H); discriminate]. intros [H|(b & p & _ & _ & H)]; [|discriminate].
  induction H as [c f q i s _ _ _ H|c b p x _ _ H|c b p _ _ _ IH]; [discriminate|discriminate|exact IH].
Qed.
Lemma rs_ex_step t p u : enters t -> In p (x_parts t) -> rs_in rs_ex_env p u -> rs_in rs_ex_env t u.
Proof. intros He Hp Hu. eapply ri_part; [exact He| |exact Hp|exact Hu]. intros _. right. split; apply rs_ex_none_ignored. Qed.
Lemma rs_ex_apart : places_apart rs_ex.
Proof.
  intros u v Hu Hv. apply all_parts_spec in Hu, Hv. assert (H : NoDup (map (fun t => x_id (x_info t)) (all_parts rs_ex))).
  { assert (Q : map (fun t => x_id (x_info t)) (all_parts rs_ex) = List.seq 1 (length (all_parts rs_ex))) by (vm_compute; reflexivity). rewrite Q. apply seq_NoDup. }
  revert Hu Hv H. generalize (all_parts rs_ex). induction l as [|t l IH]; intros Hu Hv H Q; [destruct Hu|]. inversion H as [|? ? Hn Hd]; subst.
  destruct Hu as [<-|Hu]; destruct Hv as [<-|Hv]; [reflexivity| | |apply IH; assumption]; exfalso; apply Hn; [rewrite Q|rewrite <- Q]; apply (in_map (fun t => x_id (x_info t))); assumption.
Qed.
Lemma rs_ex_local n b : rs_local rs_ex n b -> n = s2t "h" /\ b = rs_hf_body.
Proof. intros H. apply local_funs_spec in H. destruct H as [H|[]]. inversion H. auto. Qed.
Lemma rs_ex_bodies : bodies_apart rs_ex.
Proof. intros x y b b' H H' _. apply rs_ex_local in H, H'. destruct H as (_ & ->). destruct H' as (_ & ->). reflexivity. Qed.
Lemma rs_ex_last u : rs_last rs_a u -> u = rs_z.
Proof.
  intros (h & b & pre & Hp & _ & Hb). cbn [rs_a x_parts] in Hp. inversion Hp; subst. cbn [rs_a_body x_parts] in Hb.
  apply (f_equal (@rev syn)) in Hb. rewrite rev_app_distr in Hb. inversion Hb. reflexivity.
Qed.
Lemma rs_ex_callee n f s x l : callee_name n x -> n = Syn (x_info n) XCall (f :: l) -> x_kind f = XPath false (Some s) s -> x = s.
Proof.
  intros H E0 K. rewrite E0 in H. inversion H as [? m r (Q & _)|? g y s0 (_ & a & P) Kg|? g y b (_ & a & P) (Kg & _)|? g p (_ & a & P) Kg|? g g' q i s0 (_ & a & P) (Kg & _) _|? g m r (_ & a & P) (Kg & _)]; subst; try discriminate Q; cbn [x_parts] in P;
    inversion P; subst; unfold rs_macro in *; congruence.
Qed.
Lemma rs_ex_not_call u c : rs_call_statement u c -> (forall semi e r, x_kind u = XExprStmt semi -> x_parts u = e :: r -> exists k, x_kind e = XExpr k) -> False.
Proof.
  intros (sm & e & r & Hk & Hp & Hf) H. destruct (H sm e r Hk Hp) as (k & K).
  destruct Hf as [n [[(f & Q & _)|(m & r0 & Q & _)]|(p & Q)]|e b n (Q & _) _|e x b n (Q & _) _]; unfold rs_macro in *; congruence.
Qed.
(** The hypotheses of the theorems above, for the statements [g(x);] and [v = 2;] and the call [x.m()] of the test [a], for [r!();] of the test [b], and for
    [p();] in [h]. *)
Example C67_nonvacuous :
  places_apart rs_ex /\ bodies_apart rs_ex /\ no_inner_test rs_ex /\
  (forall c base p, part_of rs_ex c -> rs_method c base p -> method_span rs_ex_env (x_span (x_info c)) (x_span (x_info base)) <> None) /\
  rs_test rs_ex_fs rs_ex_listed rs_ex rs_a (s2t "c::a") /\ rs_test rs_ex_fs rs_ex_listed rs_ex rs_b (s2t "c::t::b") /\ has_body rs_a rs_a_body /\ has_body rs_b rs_b_body /\
  (rs_part rs_ex_env rs_a rs_g /\ rs_removable_call rs_ex_env rs_ex rs_ex_walkable rs_g /\ (forall l, rs_last rs_a l -> tokens l <> tokens rs_g)) /\
  (rs_part rs_ex_env rs_a rs_v /\ rs_plain_statement rs_v /\ (forall l, rs_last rs_a l -> tokens l <> tokens rs_v)) /\
  (rs_part rs_ex_env rs_b rs_r /\ rs_removable_call rs_ex_env rs_ex rs_ex_walkable rs_r) /\
  (rs_part rs_ex_env rs_a rs_m_call /\ rs_method rs_m_call rs_m_x [s2t "m"] /\ (forall g, ~ rs_local_call rs_ex rs_ex_walkable rs_m_call g) /\
   (forall u, part_of rs_a u -> rs_call_statement u rs_m_call -> ~ block_value u /\ forall l, rs_last rs_a l -> tokens l <> tokens u)) /\
  (rs_part rs_ex_env rs_a rs_h_call /\ rs_call rs_h_call /\ callee_name rs_h_call (s2t "h") /\ rs_local rs_ex (s2t "h") rs_hf_body /\ (forall b, rs_local rs_ex (s2t "h") b -> b = rs_hf_body) /\
   rs_part rs_ex_env rs_hf_body rs_p /\ rs_removable_call rs_ex_env rs_ex rs_ex_walkable rs_p).
Proof.
  assert (RC : forall n f x s, x_kind s = XExprStmt true -> x_parts s = [n] -> n = Syn (x_info n) XCall (f :: x) -> (exists y, x_kind f = XPath false (Some y) y /\ rs_ex_walkable y = false) -> rs_removable_call rs_ex_env rs_ex rs_ex_walkable s).
  { intros n f x s K P En (y & Ky & W). left. exists n. split; [exists true, n, []; split; [exact K|split; [exact P|]]; constructor; left; left; exists f; rewrite En; split; [reflexivity|eexists; reflexivity]|].
    split; [intros (e & r & Q & _); congruence|]. split; [left; split; [left; exists f; rewrite En; split; [reflexivity|eexists; reflexivity]|apply rs_ex_none_ignored]|].
    intros b (z & Hz & Wz & _). rewrite (rs_ex_callee n f y z x Hz En Ky) in Wz. congruence. }
  split; [exact rs_ex_apart|]. split; [exact rs_ex_bodies|]. split.
  { intros f p u at_ n Hf Hfun Hp Hu K. exfalso. apply all_parts_spec in Hf.
    assert (A : forallb (fun f => match x_kind f with XFn _ _ | XImplFn _ => forallb (fun p => forallb (fun u => match x_kind u with XFn _ _ => false | _ => true end) (all_parts p)) (x_parts f) | _ => true end) (all_parts rs_ex) = true) by (vm_compute; reflexivity).
    rewrite forallb_forall in A. specialize (A f Hf). cbv beta in A. destruct Hfun as [(a0 & n0 & Q)|(n0 & Q)]; rewrite Q in A; rewrite forallb_forall in A; specialize (A p Hp); cbv beta in A; rewrite forallb_forall in A;
      apply all_parts_spec in Hu; specialize (A u Hu); cbv beta in A; rewrite K in A; discriminate. }
  split.
  { intros c base p Hc Hm. apply all_parts_spec in Hc.
    assert (A : forallb (fun c => match x_kind c, x_parts c with XMethod _, r :: _ => match x_kind r with XField _ => false | _ => match method_span rs_ex_env (x_span (x_info c)) (x_span (x_info r)) with Some _ => true | None => false end end
                | XCall, f :: _ => match x_kind f with XPath _ _ _ => true | _ => false end | _, _ => true end) (all_parts rs_ex) = true) by (vm_compute; reflexivity).
    rewrite forallb_forall in A. specialize (A c Hc). cbv beta in A. destruct Hm as [(f & (K & a & P) & Hf & Np)|(m & r & q & (K & a & P) & Hf & _)]; rewrite K, P in A.
    - exfalso. inversion Hf as [e Hn|e x b base0 q (Kf & _) _]; subst; [destruct (Np eq_refl)|]. rewrite Kf in A. discriminate.
    - inversion Hf as [e Hn|e x b base0 q0 (Kf & _) _]; subst; [|rewrite Kf in A; discriminate]. destruct (x_kind base); try discriminate; intros Q; rewrite Q in A; discriminate. }
  split.
  { exists []. split.
    - eapply th_part; [repeat split; discriminate|discriminate|left; reflexivity|constructor].
    - eexists _, _, _. split; [reflexivity|]. split; [left; left; reflexivity|]. split; [reflexivity|]. split; reflexivity. }
  split.
  { exists [s2t "t"]. split.
    - eapply th_part; [repeat split; discriminate|discriminate|right; right; left; reflexivity|]. eapply th_mod; [reflexivity|left; reflexivity|constructor].
    - eexists _, _, _. split; [reflexivity|]. split; [right; left; reflexivity|]. split; [reflexivity|]. split; reflexivity. }
  split; [eexists; split; reflexivity|]. split; [eexists; split; reflexivity|].
  split.
  { split; [exists rs_a_body; split; [right; left; reflexivity|]; eapply rs_ex_step; [repeat split; discriminate|right; left; reflexivity|constructor]|]. split; [eapply RC; [reflexivity|reflexivity|reflexivity|eexists; split; reflexivity]|]. intros l Hl. apply rs_ex_last in Hl. subst. vm_compute. discriminate. }
  split.
  { split.
    - exists rs_a_body. split; [right; left; reflexivity|].
      eapply rs_ex_step with (p := rs_blk); [repeat split; discriminate|cbn [rs_a_body x_parts In]; auto 12|].
      eapply rs_ex_step with (p := rs_blk_e); [repeat split; discriminate|left; reflexivity|]. eapply rs_ex_step with (p := rs_blk_b); [repeat split; discriminate|left; reflexivity|].
      eapply rs_ex_step; [repeat split; discriminate|left; reflexivity|constructor].
    - split; [|intros l Hl; apply rs_ex_last in Hl; subst; vm_compute; discriminate].
      split; [right; right; right; eexists _, _, _; split; reflexivity|]. split; [intros [Q|[Q|(sm & e & r & k & Q & Q1 & Q2 & Q3)]]; try discriminate; inversion Q1; subst; inversion Q2; subst; cbn in Q3; intuition discriminate|].
      split; [intros (e & r & Q & _); discriminate|]. split; [intros c Hc; apply (rs_ex_not_call _ _ Hc); intros sm e r _ P; inversion P; eexists; reflexivity|]. split; [intros p Q; discriminate|].
      intros k v Hk Hv Hs. apply all_parts_spec in Hv. destruct Hk as [<-|[]]. cbn in Hv.
      destruct Hv as [<-|[<-|[<-|[]]]]; destruct Hs as [Q|[Q|[(p & Q)|(sm & e & r & Q & _)]]]; discriminate. }
  split.
  { split; [exists rs_b_body; split; [right; left; reflexivity|]; eapply rs_ex_step; [repeat split; discriminate|left; reflexivity|constructor]|]. right. exists (s2t "r"). split; reflexivity. }
  split.
  { split.
    - exists rs_a_body. split; [right; left; reflexivity|]. eapply rs_ex_step with (p := rs_m); [repeat split; discriminate|cbn [rs_a_body x_parts In]; auto 12|].
      eapply rs_ex_step; [repeat split; discriminate|left; reflexivity|constructor].
    - split; [right; exists (s2t "m"), rs_m_x, []; split; [split; [reflexivity|eexists; reflexivity]|split; [apply rf_base; intros x b (Q & _); discriminate|reflexivity]]|]. split.
      + intros g (x & Hx & W & _). inversion Hx as [? m r (Q & _)|? f y s (Q & _) _|? f y b (Q & _) _|? f p (Q & _) _|? f f' q i s (Q & _) _ _|? f m r (Q & _) _]; subst; try discriminate. inversion Q; subst. discriminate.
      + intros u Hu Hc. assert (u = rs_m).
        { apply all_parts_spec in Hu. destruct Hc as (sm & e & r & K & P & Hf). inversion Hf as [n Hn|e0 b n (Q & _) _|e0 x b n (Q & _) _]; subst.
          - assert (A : forallb (fun u => match x_kind u, x_parts u with XExprStmt _, e :: _ => negb (x_id (x_info e) =? x_id (x_info rs_m_call))%nat || (x_id (x_info u) =? x_id (x_info rs_m))%nat | _, _ => true end) (all_parts rs_a) = true) by (vm_compute; reflexivity).
            rewrite forallb_forall in A. specialize (A u Hu). cbv beta in A. rewrite K, P, Nat.eqb_refl in A. cbn [negb orb] in A. apply Nat.eqb_eq in A. apply rs_ex_apart; [| |exact A].
            + eapply po_part; [left; reflexivity|apply all_parts_spec; exact Hu].
            + apply all_parts_spec. vm_compute. tauto.
          - exfalso. assert (A : forallb (fun u => match x_kind u with XAwait => false | _ => true end) (all_parts rs_a) = true) by (vm_compute; reflexivity). rewrite forallb_forall in A.
            assert (He : In e (all_parts rs_a)) by (apply all_parts_spec; eapply part_trans; [apply all_parts_spec; exact Hu|]; destruct u as [au ku lu]; cbn [x_parts] in P; subst lu; eapply po_part; [left; reflexivity|constructor]).
            specialize (A e He). cbv beta in A. rewrite Q in A. discriminate.
          - exfalso. assert (A : forallb (fun u => match x_kind u with XField _ => false | _ => true end) (all_parts rs_a) = true) by (vm_compute; reflexivity). rewrite forallb_forall in A.
            assert (He : In e (all_parts rs_a)) by (apply all_parts_spec; eapply part_trans; [apply all_parts_spec; exact Hu|]; destruct u as [au ku lu]; cbn [x_parts] in P; subst lu; eapply po_part; [left; reflexivity|constructor]).
            specialize (A e He). cbv beta in A. rewrite Q in A. discriminate. }
        subst u. split; [intros (e & r & Q & _); discriminate|]. intros l Hl. apply rs_ex_last in Hl. subst. vm_compute. discriminate. }
  split.
  { exists rs_a_body. split; [right; left; reflexivity|]. eapply rs_ex_step with (p := rs_h); [repeat split; discriminate|cbn [rs_a_body x_parts In]; auto 12|].
    eapply rs_ex_step; [repeat split; discriminate|left; reflexivity|constructor]. }
  split; [left; exists rs_h_call_f; split; [reflexivity|eexists; reflexivity]|]. split; [eapply cn_ident; [split; [reflexivity|eexists; reflexivity]|reflexivity]|].
  split; [apply local_funs_spec; left; reflexivity|]. split; [intros b Hb; apply rs_ex_local in Hb; apply Hb|].
  split; [exists rs_p; split; [left; reflexivity|constructor]|]. eapply RC; [reflexivity|reflexivity|reflexivity|eexists; split; reflexivity].
Qed.

Lemma fn_stop t ms u at_ n : x_kind t = XFn at_ n -> through false t ms false u -> u = t.
Proof.
  intros K H. inversion H as [|? ? ? ? ? ? (He & _) _ _ _|? ? ? ? ? ? K' _ _|]; subst; [reflexivity|destruct (He _ _ K)|congruence].
Qed.
Lemma rs_ex_only w : rs_calls_in_tests rs_ex w.
Proof.
  intros ms u b Hu (x & Hx & _). assert (K : x_kind u = XCall \/ exists m, x_kind u = XMethod m).
    { inversion Hx as [? m r (Q & _)|? g y s0 (Q & _)|? g y b0 (Q & _)|? g p (Q & _)|? g g' q i s0 (Q & _)|? g m r (Q & _)]; subst; eauto. }
    assert (Q : u = rs_ex \/ u = rs_a \/ u = rs_hf \/ u = rs_mod \/ u = rs_b).
    { inversion Hu as [|? ? q ? ? ? _ _ Hq Hu'|? ? ? ? ? ? Kq|]; subst; [auto| |discriminate]. destruct Hq as [<-|[<-|[<-|[]]]].
      - right. left. eapply fn_stop; [reflexivity|exact Hu'].
      - right. right. left. eapply fn_stop; [reflexivity|exact Hu'].
      - inversion Hu' as [|? ? q ? ? ? _ Kq _ _|? n0 q ? ? ? Kq Hq Hu''|]; subst; [auto|specialize (Kq _ eq_refl); discriminate|]. destruct Hq as [<-|[]]. do 4 right. eapply fn_stop; [reflexivity|exact Hu'']. }
    destruct Q as [->|[->|[->|[->| ->]]]]; destruct K as [K|(m & K)]; discriminate.
Qed.
(** The hypotheses of C78_rust_statements, for [p();] in [h]. *)
Example C78_rust_nonvacuous : bodies_apart rs_ex /\ rs_calls_in_tests rs_ex rs_ex_walkable /\ rs_entered rs_ex_fs rs_ex_listed rs_ex_env rs_ex rs_ex_walkable rs_hf_body /\
  rs_part rs_ex_env rs_hf_body rs_p /\ rs_removable_call rs_ex_env rs_ex rs_ex_walkable rs_p.
Proof.
  destruct C67_nonvacuous as (_ & H1 & _ & _ & H2 & _ & _ & _ & _ & _ & _ & _ & H3 & H4 & H5 & H6 & H7 & H8 & H9).
  split; [exact H1|]. split; [|split; [|split; [exact H8|exact H9]]].
  - apply rs_ex_only.
  - eapply rd_test; [exact H2|reflexivity|]. exists rs_h_call, (s2t "h"). split; [exact H3|]. split; [exact H4|]. split; [exact H5|]. split; [reflexivity|]. split; [exact H6|]. split; [exact H7|reflexivity].
Qed.

(** A [match] statement without semicolon is not a candidate, though a block in its place is looked into, and it has no statement inside: the program's
    list of expressions with blocks does not have [match]. *)
Theorem C67_match_refuted : exists fs listed E root walkable st t f e u, result (rs_env fs listed E root walkable) (rs_file fs listed root) st /\
  places_apart root /\ bodies_apart root /\ rs_test fs listed root f t /\ v_ign_test E t = false /\ rs_part E f u /\
  x_kind u = XExprStmt false /\ x_parts u = [e] /\ x_kind e = XExpr EMatch /\ ~ rs_last f u /\ (forall k v, In k (x_parts u) -> part_of k v -> ~ rs_stmt v) /\
  v_skip E (x_span (x_info u)) = false /\ ~ candidate st Statement (x_span (x_info u)) t.
Proof.
  exists rs_ex_fs, rs_ex_listed, rs_ex_env, rs_ex, rs_ex_walkable, rs_ex_st, (s2t "c::a"), rs_a, rs_match_e, rs_match. split; [exact rs_ex_result|].
  split; [exact rs_ex_apart|]. split; [exact rs_ex_bodies|]. split; [apply C67_nonvacuous|]. split; [reflexivity|].
  split; [exists rs_a_body; split; [right; left; reflexivity|]; eapply rs_ex_step; [repeat split; discriminate|cbn [rs_a_body x_parts In]; do 5 right; left; reflexivity|constructor]|].
  split; [reflexivity|]. split; [reflexivity|]. split; [reflexivity|]. split; [intros H; apply rs_ex_last in H; apply (f_equal (fun t => x_id (x_info t))) in H; vm_compute in H; discriminate|].
  split; [|split; [reflexivity|apply lists_none; vm_compute; reflexivity]].
  intros k v Hk Hv Hs. apply all_parts_spec in Hv. destruct Hk as [<-|[]]. cbn in Hv.
  destruct Hv as [<-|[<-|[<-|[<-|[<-|[]]]]]]; destruct Hs as [Q|[Q|[(p & Q)|(sm & e & r & Q & _)]]]; discriminate.
Qed.
Print Assumptions C67_match_refuted.
