(** Lemmas about the translation of tree-sitter trees. *)
From Verif Require Import Base M_Text M_Rewriter M_Span M_Run M_Visitor S_Visitor S_Walk S_Candidates L_Visitor L_VisitorFacts L_Candidates
  M_Directives M_Tree S_Tree.
Local Open Scope list_scope.

Section Ind.
Context (P : tree -> Prop) (H : forall a ks, Forall (fun fk => P (snd fk)) ks -> P (Tree a ks)).
Fixpoint tree_ind' (t : tree) : P t :=
  match t with
  | Tree a ks => H a ks ((fix all (l : list (option text * tree)) : Forall (fun fk => P (snd fk)) l :=
      match l with [] => Forall_nil _ | x :: r => Forall_cons x (tree_ind' (snd x)) (all r) end) ks)
  end.
End Ind.

Lemma starts_spec p l : starts_with_text p l = true <-> exists r, l = p ++ r.
Proof.
  unfold starts_with_text. destruct (strip_prefix p l) as [r|] eqn:X; split; intros H; try reflexivity; try discriminate.
  - exists r. apply strip_prefix_spec. exact X.
  - destruct H as (r & ->). assert (strip_prefix p (p ++ r) = Some r) by (apply strip_prefix_spec; reflexivity). congruence.
Qed.
Lemma within_inv n m : within n m -> m = n \/ exists k, In k (n_kids n) /\ within k m.
Proof. intros H. destruct H; [left; reflexivity|right; eauto]. Qed.

Lemma take_out_some {A} : forall (l : list A) i, (i < length l)%nat -> exists x r, take_out i l = Some (x, r).
Proof.
  induction l as [|y l IH]; intros i Hi; cbn [length] in Hi; [lia|]. destruct i as [|i]; cbn [take_out]; [eauto|].
  destruct (IH i) as (x & r & ->); [lia|]. eauto.
Qed.
Lemma take_out_in {A} : forall (l : list A) i x r, take_out i l = Some (x, r) -> nth_error l i = Some x /\ forall y, In y l <-> y = x \/ In y r.
Proof.
  induction l as [|z l IH]; intros i x r H; [discriminate|]. destruct i as [|i]; cbn [take_out] in H.
  - inversion H; subst. split; [reflexivity|]. intros y. cbn [In]. split; intros [->|Hy]; auto.
  - destruct (take_out i l) as [(x' & r')|] eqn:T; [|discriminate]. inversion H; subst. destruct (IH i x r' T) as (H1 & H2).
    split; [exact H1|]. intros y. cbn [In]. rewrite H2. tauto.
Qed.
Lemma find_index_lt {A} (p : A -> bool) : forall l i, find_index p l = Some i -> (i < length l)%nat.
Proof.
  induction l as [|x l IH]; intros i H; [discriminate|]. cbn [find_index length] in *. destruct (p x); [inversion H; lia|].
  destruct (find_index p l) as [j|]; [|discriminate]. inversion H; subst. specialize (IH j eq_refl). lia.
Qed.
Lemma find_index_find {A} (p : A -> bool) : forall l i, find_index p l = Some i -> exists x, nth_error l i = Some x /\ find p l = Some x.
Proof.
  induction l as [|x l IH]; intros i H; [discriminate|]. cbn [find_index find] in *. destruct (p x); [inversion H; subst; exists x; auto|].
  destruct (find_index p l) as [j|]; [|discriminate]. inversion H; subst. exact (IH j eq_refl).
Qed.
Lemma find_find_index {A} (p : A -> bool) : forall l x, find p l = Some x -> exists i, find_index p l = Some i.
Proof.
  induction l as [|y l IH]; intros x H; [discriminate|]. cbn [find_index find] in *. destruct (p y); [eauto|]. destruct (IH x H) as (i & ->). eauto.
Qed.

(** ** Occurrences with their parents *)
Inductive occurs : option tinfo -> tree -> option tinfo -> tree -> Prop :=
| oc_here p t : occurs p t p t
| oc_kid p a ks f k q u : In (f, k) ks -> occurs (Some a) k q u -> occurs p (Tree a ks) q u.
Lemma occurs_inside p t q u : occurs p t q u -> inside t u.
Proof. induction 1; [constructor|econstructor; eassumption]. Qed.
Lemma inside_occurs t u : inside t u -> forall p, exists q, occurs p t q u.
Proof. induction 1 as [t|a ks f k u Hk _ IH]; intros p; [exists p; constructor|]. destruct (IH (Some a)) as (q & Hq). exists q. econstructor; eassumption. Qed.
Lemma inside_trans t u v : inside t u -> inside u v -> inside t v.
Proof. induction 1; intros Hv; [exact Hv|]. econstructor; eauto. Qed.
Lemma inside_kid t f k : In (f, k) (t_kids t) -> inside t k.
Proof. destruct t as [a ks]. intros H. econstructor; [exact H|constructor]. Qed.
Lemma occurs_parent p t q u : occurs p t q u -> (q = p /\ u = t) \/ exists v f, inside t v /\ q = Some (t_info v) /\ In (f, u) (t_kids v).
Proof.
  induction 1 as [p t|p a ks f k q u Hk _ IH]; [left; auto|right]. destruct IH as [(-> & ->)|(v & f' & H1 & H2 & H3)].
  - exists (Tree a ks), f. split; [constructor|]. auto.
  - exists v, f'. split; [econstructor; eassumption|]. auto.
Qed.
Lemma subtrees_inside t : forall u, In u (subtrees t) <-> inside t u.
Proof.
  induction t as [a ks IH] using tree_ind'. intros u. cbn [subtrees]. split.
  - intros [<-|H]; [constructor|]. apply in_flat_map in H. destruct H as ((f & k) & Hk & H). rewrite Forall_forall in IH.
    apply (IH (f, k) Hk) in H. econstructor; eassumption.
  - intros H. inversion H as [|a' ks' f k u' Hk Hu]; subst; [left; reflexivity|right]. apply in_flat_map. exists (f, k). split; [exact Hk|].
    rewrite Forall_forall in IH. apply (IH (f, k) Hk). exact Hu.
Qed.
Lemma child_in field t c : child field t = Some c -> exists f, In (f, c) (t_kids t).
Proof.
  unfold child. destruct (find (has_field field) (t_kids t)) as [(f & k)|] eqn:F; [|discriminate]. intros H. inversion H; subst.
  apply find_some in F. exists f. apply F.
Qed.
Lemma child_nth field t j : child_index field t = Some j -> exists f c, nth_error (t_kids t) j = Some (f, c) /\ child field t = Some c.
Proof.
  unfold child_index, child. intros H. destruct (find_index_find _ _ _ H) as ((f & c) & H1 & H2). exists f, c. rewrite H2. auto.
Qed.
Lemma child_has_index field t c : child field t = Some c -> exists j, child_index field t = Some j.
Proof.
  unfold child_index, child. destruct (find (has_field field) (t_kids t)) as [x|] eqn:F; [|discriminate]. intros _. eapply find_find_index; exact F.
Qed.

(** ** The translation *)
Section Translation.
Context (cls : option tinfo -> tree -> tclass).
Definition class_ok : Prop := forall p t,
  match cls p t with
  | CStmt _ _ (Some j) | CCall _ j | CMethod _ j | CField _ j => (j < length (t_kids t))%nat
  | _ => True
  end.
Context (CO : class_ok).
Notation tn := (ts_node cls).

Definition kids_nodes (t : tree) : list node := map (fun fk => tn (Some (t_info t)) (snd fk)) (t_kids t).
Lemma kids_length t : length (kids_nodes t) = length (t_kids t).
Proof. unfold kids_nodes. apply map_length. Qed.

(** The shape of a translated node. *)
Inductive shape (p : option tinfo) (t : tree) : node -> Prop :=
| sh_expr_stmt c d j e r : cls p t = CStmt c d (Some j) -> take_out j (kids_nodes t) = Some (e, r) ->
    shape p t (tnode (2 * t_id (t_info t)) (KStmt true c d true) (t_span (t_info t)) (e :: r))
| sh_stmt c d : cls p t = CStmt c d None -> shape p t (tnode (2 * t_id (t_info t)) (KStmt true c d false) (t_span (t_info t)) (kids_nodes t))
| sh_call x j e r : cls p t = CCall x j -> take_out j (kids_nodes t) = Some (e, r) ->
    shape p t (tnode (2 * t_id (t_info t)) (KCall false x) (t_span (t_info t)) (e :: r))
| sh_method x j e r : cls p t = CMethod x j -> take_out j (kids_nodes t) = Some (e, r) ->
    shape p t (tnode (2 * t_id (t_info t)) (KCall false None) (t_span (t_info t))
      (tnode (S (2 * t_id (t_info t))) (KField x) (t_span (t_info t)) [e] :: r))
| sh_field x j e r : cls p t = CField x j -> take_out j (kids_nodes t) = Some (e, r) ->
    shape p t (tnode (2 * t_id (t_info t)) (KField x) (t_span (t_info t)) (e :: r))
| sh_ident x : cls p t = CIdent x -> shape p t (tnode (2 * t_id (t_info t)) (KIdent x) (t_span (t_info t)) (kids_nodes t))
| sh_other : cls p t = COther -> shape p t (tnode (2 * t_id (t_info t)) KExpr (t_span (t_info t)) (kids_nodes t)).
Lemma ts_shape p t : shape p t (tn p t).
Proof.
  pose proof (CO p t) as K. destruct t as [a ks]. cbn [ts_node].
  change (map (fun fk => tn (Some a) (snd fk)) ks) with (kids_nodes (Tree a ks)).
  destruct (cls p (Tree a ks)) as [c d [j|]|x j|x j|x j|x|] eqn:C; cbn [t_kids] in K;
    try (destruct (take_out_some (kids_nodes (Tree a ks)) j) as (e & r & T); [rewrite kids_length; exact K|]; rewrite T).
  - exact (sh_expr_stmt p (Tree a ks) c d j e r C T).
  - exact (sh_stmt p (Tree a ks) c d C).
  - exact (sh_call p (Tree a ks) x j e r C T).
  - exact (sh_method p (Tree a ks) x j e r C T).
  - exact (sh_field p (Tree a ks) x j e r C T).
  - exact (sh_ident p (Tree a ks) x C).
  - exact (sh_other p (Tree a ks) C).
Qed.
Lemma ts_span p t : n_span (tn p t) = t_span (t_info t).
Proof. destruct (ts_shape p t); reflexivity. Qed.
Lemma ts_id p t : n_id (tn p t) = (2 * t_id (t_info t))%nat.
Proof. destruct (ts_shape p t); reflexivity. Qed.
Lemma in_kids_nodes t k : In k (kids_nodes t) <-> exists f u, In (f, u) (t_kids t) /\ k = tn (Some (t_info t)) u.
Proof.
  unfold kids_nodes. rewrite in_map_iff. split.
  - intros ((f & u) & <- & H). exists f, u. auto.
  - intros (f & u & H & ->). exists (f, u). auto.
Qed.
Definition virtual (p : option tinfo) (t : tree) (m : node) : Prop :=
  exists x j u, cls p t = CMethod x j /\ m = tnode (S (2 * t_id (t_info t))) (KField x) (t_span (t_info t)) [tn (Some (t_info t)) u] /\
    exists f, nth_error (t_kids t) j = Some (f, u).
Lemma taken t j e r : take_out j (kids_nodes t) = Some (e, r) -> exists f u, nth_error (t_kids t) j = Some (f, u) /\ e = tn (Some (t_info t)) u.
Proof.
  intros T. apply take_out_in in T. destruct T as (T & _). unfold kids_nodes in T. rewrite nth_error_map in T.
  destruct (nth_error (t_kids t) j) as [(f & u)|]; [|discriminate]. cbn in T. inversion T. exists f, u. auto.
Qed.
(** The children of a translated node. *)
Lemma ts_kids p t k : In k (n_kids (tn p t)) -> In k (kids_nodes t) \/ virtual p t k.
Proof.
  destruct (ts_shape p t) as [c d j e r C T|c d C|x j e r C T|x j e r C T|x j e r C T|x C|C]; cbn [tnode n_kids]; intros H; auto;
    pose proof (proj2 (take_out_in _ _ _ _ T)) as TI.
  - left. apply TI. destruct H as [H|H]; [left; symmetry; exact H|right; exact H].
  - left. apply TI. destruct H as [H|H]; [left; symmetry; exact H|right; exact H].
  - destruct H as [<-|H]; [right|left; apply TI; right; exact H].
    destruct (taken t j e r T) as (f & u & H1 & ->). exists x, j, u. split; [exact C|]. split; [reflexivity|eauto].
  - left. apply TI. destruct H as [H|H]; [left; symmetry; exact H|right; exact H].
Qed.
Lemma kid_within p t k : In k (kids_nodes t) -> exists h, In h (n_kids (tn p t)) /\ (h = k \/ virtual p t h /\ In k (n_kids h)).
Proof.
  destruct (ts_shape p t) as [c d j e r C T|c d C|x j e r C T|x j e r C T|x j e r C T|x C|C]; cbn [tnode n_kids]; intros H; eauto;
    pose proof (proj1 (proj2 (take_out_in _ _ _ _ T) k) H) as [->|Hr].
  - exists e. cbn [In]. auto.
  - exists k. cbn [In]. auto.
  - exists e. cbn [In]. auto.
  - exists k. cbn [In]. auto.
  - eexists. split; [left; reflexivity|]. right. split; [|left; reflexivity].
    destruct (taken t j e r T) as (f & u & H1 & ->). exists x, j, u. split; [exact C|]. split; [reflexivity|eauto].
  - exists k. cbn [In]. auto.
  - exists e. cbn [In]. auto.
  - exists k. cbn [In]. auto.
Qed.
(** Every node of the translation stands for a node of the tree, or is a callee. *)
Lemma ts_within t : forall p m, within (tn p t) m -> exists q u, occurs p t q u /\ (m = tn q u \/ virtual q u m).
Proof.
  induction t as [a ks IH] using tree_ind'. intros p m H. rewrite Forall_forall in IH.
  assert (K : forall k, In k (kids_nodes (Tree a ks)) -> within k m -> exists q u, occurs p (Tree a ks) q u /\ (m = tn q u \/ virtual q u m)).
  { intros k Hk Hw. apply in_kids_nodes in Hk. destruct Hk as (f & u & Hu & ->). cbn [t_kids t_info] in *.
    destruct (IH (f, u) Hu (Some a) m Hw) as (q & v & H1 & H2). exists q, v. split; [econstructor; eassumption|exact H2]. }
  destruct (within_inv _ _ H) as [->|(k & Hk & Hw)]; [exists p, (Tree a ks); split; [constructor|left; reflexivity]|].
  apply ts_kids in Hk. destruct Hk as [Hk|Hv]; [exact (K k Hk Hw)|].
  destruct (within_inv _ _ Hw) as [->|(k' & Hk' & Hw')]; [exists p, (Tree a ks); split; [constructor|right; exact Hv]|].
  destruct Hv as (x & j & u & _ & -> & f & Hn). destruct Hk' as [<-|[]]. apply (K (tn (Some a) u)); [|exact Hw'].
  apply in_kids_nodes. exists f, u. split; [eapply nth_error_In; exact Hn|reflexivity].
Qed.
Lemma occurs_within p t q u : occurs p t q u -> within (tn p t) (tn q u).
Proof.
  induction 1 as [p t|p a ks f k q u Hk _ IH]; [constructor|].
  assert (Hkn : In (tn (Some a) k) (kids_nodes (Tree a ks))) by (apply in_kids_nodes; exists f, k; auto).
  destruct (kid_within p _ _ Hkn) as (h & Hh & [->|(_ & Hk')]); [eapply wi_kid; eassumption|].
  eapply wi_kid; [exact Hh|]. eapply wi_kid; eassumption.
Qed.

(** What the nodes are. *)
Lemma ts_stmt p t : is_stmt (tn p t) -> exists c d o, cls p t = CStmt c d o /\ control (tn p t) = c /\ declaration (tn p t) = d.
Proof.
  intros (r0 & c0 & d0 & e0 & H). destruct (ts_shape p t) as [c d j e r C T|c d C|x j e r C T|x j e r C T|x j e r C T|x C|C]; try discriminate.
  - exists c, d, (Some j). auto.
  - exists c, d, None. auto.
Qed.
Lemma ts_is_stmt p t c d o : cls p t = CStmt c d o -> is_stmt (tn p t) /\ control (tn p t) = c /\ declaration (tn p t) = d /\ removable (tn p t) = true.
Proof.
  intros H. destruct (ts_shape p t) as [c' d' j e r C T|c' d' C|x j e r C T|x j e r C T|x j e r C T|x C|C]; rewrite H in C; inversion C; subst;
    (split; [eexists _, _, _, _; reflexivity|]); auto.
Qed.
Lemma virtual_not p t m : virtual p t m -> ~ is_stmt m /\ ~ is_call m /\ (forall x b, n_kind m <> KTest x b).
Proof.
  intros (x & j & u & _ & -> & _). split; [intros (a & b & c & d & H); discriminate|]. split; [intros (h & y & H); discriminate|]. intros y b H. discriminate.
Qed.
Lemma ts_no_test p t : no_test (tn p t).
Proof.
  intros m x b H K. destruct (ts_within t p m H) as (q & u & _ & [->|Hv]); [|exact (proj2 (proj2 (virtual_not _ _ _ Hv)) x b K)].
  destruct (ts_shape q u); discriminate.
Qed.
Lemma ts_stmt_within p t m : within (tn p t) m -> is_stmt m -> exists q u, occurs p t q u /\ m = tn q u.
Proof.
  intros H K. destruct (ts_within t p m H) as (q & u & Hu & [->|Hv]); [eauto|]. destruct (proj1 (virtual_not _ _ _ Hv) K).
Qed.
Lemma ts_call_within p t m : within (tn p t) m -> is_call m -> exists q u, occurs p t q u /\ m = tn q u.
Proof.
  intros H K. destruct (ts_within t p m H) as (q & u & Hu & [->|Hv]); [eauto|]. destruct (proj1 (proj2 (virtual_not _ _ _ Hv)) K).
Qed.
Lemma ts_call p t : is_call (tn p t) -> exists x j, cls p t = CCall x j \/ cls p t = CMethod x j.
Proof.
  intros (h & y & H). destruct (ts_shape p t); try discriminate; eauto.
Qed.

(** Well-formed, for frameworks whose walk descends into expressions. *)
Lemma ts_head E p t : fw_expr_kids (v_fw E) = true -> head_ok E (tn p t) = true.
Proof.
  intros F. revert p. induction t as [a ks IH] using tree_ind'. intros p. rewrite Forall_forall in IH.
  destruct (ts_shape p (Tree a ks)) as [c d j e r C T|c d C|x j e r C T|x j e r C T|x j e r C T|x C|C]; try reflexivity.
  cbn [tnode head_ok l_kind]. destruct (taken _ j e r T) as (f & u & Hu & ->). rewrite F, (IH (f, u)); [destruct (head_is_call _); reflexivity|].
  cbn [t_kids] in Hu. eapply nth_error_In; exact Hu.
Qed.
Lemma ts_wf E p t : fw_expr_kids (v_fw E) = true -> well_formed E (tn p t) = true.
Proof.
  intros F. revert p. induction t as [a ks IH] using tree_ind'. intros p. rewrite Forall_forall in IH.
  assert (K : forall k, In k (kids_nodes (Tree a ks)) -> well_formed E k = true).
  { intros k Hk. apply in_kids_nodes in Hk. destruct Hk as (f & u & Hu & ->). exact (IH (f, u) Hu _). }
  assert (KF : forallb (well_formed E) (kids_nodes (Tree a ks)) = true) by (apply forallb_forall; exact K).
  assert (KT : forall j e r, take_out j (kids_nodes (Tree a ks)) = Some (e, r) -> well_formed E e = true /\ forallb (well_formed E) r = true).
  { intros j e r T. apply take_out_in in T. destruct T as (_ & T). split; [apply K, T; left; reflexivity|]. apply forallb_forall. intros y Hy. apply K, T. right. exact Hy. }
  destruct (ts_shape p (Tree a ks)) as [c d j e r C T|c d C|x j e r C T|x j e r C T|x j e r C T|x C|C]; cbn [tnode well_formed l_kind andb is_nil negb forallb]; auto;
    destruct (KT j e r T) as (H1 & H2); rewrite ?H1, ?H2, ?Bool.andb_true_r; try reflexivity.
  destruct (taken _ j e r T) as (f & u & Hu & ->). apply ts_head. exact F.
Qed.

(** A call statement is an expression statement whose expression is, or is a field of, a call. *)
Lemma ts_call_statement p t c : call_statement (tn p t) c -> exists ct d j f u, cls p t = CStmt ct d (Some j) /\ nth_error (t_kids t) j = Some (f, u) /\ performs (tn (Some (t_info t)) u) c.
Proof.
  intros (l & e & r & rm & ct & d & H & K & P).
  destruct (ts_shape p t) as [c' d' j e' r' C T|c' d' C|x j e' r' C T|x j e' r' C T|x j e' r' C T|x C|C]; inversion H; subst; try discriminate.
  destruct (taken t j e r T) as (f & u & Hu & ->). exists c', d', j, f, u. auto.
Qed.
Lemma performs_class p t c : performs (tn p t) c -> exists x j, cls p t = CCall x j \/ cls p t = CMethod x j \/ cls p t = CField x j.
Proof.
  intros P. destruct (ts_shape p t) as [c' d' j e' r' C T|c' d' C|x j e' r' C T|x j e' r' C T|x j e' r' C T|x C|C]; eauto;
    exfalso; inversion P as [c0 [(h & y & K)|(y & K)]|l b r c0 K _|l y b r c0 K _]; subst; discriminate.
Qed.

(** The path from a node to a statement below it. *)
Lemma virtual_open E p t h k m : fw_expr_kids (v_fw E) = true -> virtual p t h -> In k (n_kids h) -> open_path E k m -> open_path E h m.
Proof.
  intros F (x & j & u & _ & -> & _) Hk Ho. eapply op_kid; [|exact Hk|exact Ho]. right; right; right. split; [exact F|]. right; right; right. eexists. reflexivity.
Qed.
Definition passes (E : venv) (p : option tinfo) (t : tree) : Prop :=
  (exists x j, cls p t = CCall x j \/ cls p t = CMethod x j) ->
  v_visit_args E = true \/ (~ ignored_call E (tn p t) /\ ~ ignored_method E (tn p t)).
Inductive opens (E : venv) : option tinfo -> tree -> option tinfo -> tree -> Prop :=
| os_here p t : opens E p t p t
| os_kid p a ks f k q u : passes E p (Tree a ks) -> In (f, k) ks -> opens E (Some a) k q u -> opens E p (Tree a ks) q u.
Lemma opens_path E p t q u : fw_expr_kids (v_fw E) = true -> opens E p t q u -> open_path E (tn p t) (tn q u).
Proof.
  intros F. induction 1 as [p t|p a ks f k q u Hp Hk _ IH]; [constructor|].
  assert (Hkn : In (tn (Some a) k) (kids_nodes (Tree a ks))) by (apply in_kids_nodes; exists f, k; auto).
  destruct (kid_within p _ _ Hkn) as (h & Hh & Hk').
  assert (Ho : open_path E h (tn q u)) by (destruct Hk' as [->|(Hv & Hin)]; [exact IH|eapply virtual_open; eassumption]).
  eapply op_kid; [|exact Hh|exact Ho]. unfold passes in Hp.
  destruct (ts_shape p (Tree a ks)) as [c d j e r C T|c d C|x j e r C T|x j e r C T|x j e r C T|x C|C].
  - left. eexists _, _, _, _. reflexivity.
  - left. eexists _, _, _, _. reflexivity.
  - right; right; left. split; [left; eexists _, _; reflexivity|]. apply Hp. eauto.
  - right; right; left. split; [left; eexists _, _; reflexivity|]. apply Hp. eauto.
  - right; right; right. split; [exact F|]. right; right; right. eexists. reflexivity.
  - right; right; right. split; [exact F|]. right; left. eexists. reflexivity.
  - right; right; right. split; [exact F|]. left. reflexivity.
Qed.
End Translation.

(** ** Functions found by a query *)
Lemma query_spec K N B root f : In f (query_funs K N B root) <-> inside root (tf_decl f) /\ declares K N B (tf_decl f) (tf_name f) (tf_body f).
Proof.
  unfold query_funs. rewrite in_flat_map. split.
  - intros (t & Ht & H). apply subtrees_inside in Ht. unfold match_fun in H.
    destruct (child (s2t "name") t) as [n|] eqn:Cn; [|destruct H]. destruct (child (s2t "body") t) as [b|] eqn:Cb; [|destruct H].
    destruct (text_eqb (kind_of t) K && text_eqb (kind_of n) N && text_eqb (kind_of b) B) eqn:X; [|destruct H]. destruct H as [<-|[]].
    apply andb_prop in X. destruct X as [X X3]. apply andb_prop in X. destruct X as [X1 X2]. apply text_eqb_eq in X1, X2, X3.
    cbn [tf_decl tf_name tf_body]. split; [exact Ht|]. split; [exact X1|]. split; [exact Cb|]. split; [exact X3|]. exists n. auto.
  - intros (Ht & H1 & H2 & H3 & x & H4 & H5 & H6). exists (tf_decl f). split; [apply subtrees_inside; exact Ht|]. unfold match_fun. rewrite H4, H2, H1, H5, H3, !text_eqb_refl. cbn [andb].
    left. destruct f as [d n b]; cbn in *. subst n. reflexivity.
Qed.

(** ** Origins of candidates *)
Section Origin.
Context (E : venv) (root : node) (st : vst) (P : parsed E root) (HR : result E root st).
Lemma candidate_runs_last k sp t : functions_apart E -> candidate st k sp t ->
  exists n L R, ((test_named E root n t /\ L = last_statement n) \/ (test_calls E root t n /\ L = None)) /\ yields E true L R (n_kids n) k sp.
Proof.
  intros FA HL. destruct (history_of E root st P HR) as (H & HH & _ & (X & _ & _)).
  apply X in HL. destruct HL as (b & Hb & [[Ht Hy]|(tn & Hfd & Hy)]).
  - destruct (history_nodes E root H HH b Hb) as [(_ & _ & Hn)|(f & Hf & Hn & Hd)]; [rewrite Hn in Ht; destruct Ht|].
    rewrite Hn in Hy. exists f, None, (b_done b). split; [|exact Hy]. right. split; [|reflexivity]. eapply history_calls; eassumption.
  - exists tn, (last_statement tn), (b_done b). split; [|exact Hy]. left. split; [|reflexivity]. eapply found_named; [|exact Hfd]. apply (history_file _ _ _ HH). exact Hb.
Qed.
Lemma file_test_in t tn : file_test E root tn t -> In t (s_tset st).
Proof.
  intros H. destruct (history_of E root st P HR) as (H0 & HH & _ & (_ & X & _)). apply X. exists (file_body root), tn. split; [eapply history_has_file; exact HH|].
  apply file_test_found. exact H.
Qed.
Lemma in_named t : In t (s_tset st) -> exists tn, test_named E root tn t.
Proof.
  intros H. destruct (history_of E root st P HR) as (H0 & HH & _ & (_ & X & _)). apply X in H. destruct H as (b & tn & Hb & Hf). exists tn.
  eapply found_named; [|exact Hf]. apply (history_file _ _ _ HH). exact Hb.
Qed.
Lemma leaf_open L R s : is_stmt s -> ~ contains_stmt E true L R s -> forall k m, In k (n_kids s) -> open_path E k m -> ~ is_stmt m.
Proof.
  intros His Hcs k m Hkm Ho Hm.
  destruct (open_visits E true L R s m (op_kid E s k m (or_introl His) Hkm Ho) None) as (ctx & Hv).
  inversion Hv as [n0 c0|n0 c0 k' c' m' c'' Hch Hv']; subst.
  - apply open_within in Ho.
    assert (Hid : forall a b, within a b -> nsize b <= nsize a).
    { intros a b Hab. induction Hab as [|a0 k0 b0 Hk0 _ IH0]; [lia|]. destruct a0 as [l0 ks0]. pose proof (nsize_kid l0 ks0 k0 Hk0). lia. }
    pose proof (Hid _ _ Ho). destruct m as [l ks]. pose proof (nsize_kid l ks k Hkm). lia.
  - apply Hcs. exists k', c', m, ctx. auto.
Qed.
End Origin.
