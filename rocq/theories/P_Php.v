(** Property theorems C65: which methods of a PHP file are tests, and which of their statements are candidates. *)
From Verif Require Import Base M_Text M_Rewriter M_Span M_Run M_Visitor S_Visitor S_Walk S_Candidates L_Visitor L_VisitorFacts L_Candidates
  P_Visitor M_Directives M_Tree S_Tree L_Tree P_GoTree.
Local Open Scope list_scope.

(** A PHP node that is not a statement, as the visitor sees it. *)
Definition php_view (t : tree) : node := ts_node php_class None t.
Lemma php_ok : class_ok php_class.
Proof.
  intros p t. unfold php_class. destruct (php_statement p t).
  - cbv zeta. destruct (text_eqb (kind_of t) (s2t "expression_statement")); [|exact I]. destruct (first_named t) as [j|] eqn:F; [|exact I]. eapply find_index_lt; exact F.
  - destruct (text_eqb (kind_of t) _); [destruct (child_index _ t) as [j|] eqn:F; [|exact I]; eapply find_index_lt; exact F|].
    destruct (mem_text (kind_of t) _); [destruct (child_index _ t) as [j|] eqn:F; [|exact I]; eapply find_index_lt; exact F|].
    destruct (mem_text (kind_of t) _); [destruct (child_index _ t) as [j|] eqn:F; [|exact I]; eapply find_index_lt; exact F|].
    destruct (mem_text (kind_of t) _); exact I.
Qed.
Lemma php_none t : php_statement None t = false.
Proof. unfold php_statement. rewrite Bool.andb_false_r. reflexivity. Qed.
Lemma php_class_parent p t : php_statement p t = false -> php_class p t = php_class None t.
Proof. unfold php_class. intros ->. rewrite php_none. reflexivity. Qed.
Lemma php_parent p t : php_statement p t = false -> ts_node php_class p t = php_view t.
Proof.
  intros H. pose proof (php_class_parent p t H) as C. destruct t as [a ks]. unfold php_view. cbn [ts_node]. rewrite C. reflexivity.
Qed.
Lemma php_not_in a t : t_kind a <> s2t "compound_statement" -> php_statement (Some a) t = false.
Proof. intros H. unfold php_statement. apply text_eqb_neq in H. rewrite H. apply Bool.andb_false_r. Qed.
Lemma php_kid t u : kind_of t <> s2t "compound_statement" -> ts_node php_class (Some (t_info t)) u = php_view u.
Proof. intros H. apply php_parent. apply php_not_in. exact H. Qed.
Lemma php_statement_spec q u : php_statement (Some (t_info q)) u = true <-> kind_of q = s2t "compound_statement" /\ t_named (t_info u) = true /\ t_extra (t_info u) = false.
Proof.
  unfold php_statement, kind_of. split.
  - intros H. apply andb_prop in H. destruct H as [H H3]. apply andb_prop in H. destruct H as [H1 H2]. apply text_eqb_eq in H3. apply Bool.negb_true_iff in H2. auto.
  - intros (H1 & H2 & H3). rewrite H1, H2, H3. reflexivity.
Qed.
Definition php_throws (t : tree) : bool :=
  text_eqb (kind_of t) (s2t "expression_statement") && match first_named_kind t with Some x => text_eqb x (s2t "throw_expression") | None => false end.
Lemma php_stmt_class p t c d o : php_class p t = CStmt c d o -> php_statement p t = true /\ c = mem_text (kind_of t) php_control_kinds || php_throws t /\
  d = mem_text (kind_of t) php_declaration_kinds /\ o = if text_eqb (kind_of t) (s2t "expression_statement") then first_named t else None.
Proof.
  unfold php_class. destruct (php_statement p t).
  - cbv zeta. intros H. inversion H. auto.
  - destruct (text_eqb _ _); [destruct (child_index _ _); discriminate|]. destruct (mem_text _ _); [destruct (child_index _ _); discriminate|].
    destruct (mem_text _ _); [destruct (child_index _ _); discriminate|]. destruct (mem_text _ _); discriminate.
Qed.
Lemma php_class_stmt p t : php_statement p t = true -> php_class p t = CStmt (mem_text (kind_of t) php_control_kinds || php_throws t) (mem_text (kind_of t) php_declaration_kinds)
  (if text_eqb (kind_of t) (s2t "expression_statement") then first_named t else None).
Proof. unfold php_class. intros ->. reflexivity. Qed.
Lemma php_class_not p t : (forall c d o, php_class p t <> CStmt c d o) -> php_statement p t = false.
Proof. intros H. destruct (php_statement p t) eqn:S0; [|reflexivity]. destruct (H _ _ _ (php_class_stmt p t S0)). Qed.

(** The classes of expressions. *)
Lemma method_kind k : php_method_call_kind k <-> mem_text k php_call_kinds = true.
Proof. unfold php_method_call_kind. rewrite mem_text_In. reflexivity. Qed.
Lemma access_kind k : php_access_kind k <-> mem_text k php_field_kinds = true.
Proof. unfold php_access_kind. rewrite mem_text_In. reflexivity. Qed.
Lemma object_child e b : php_object e b <-> child (php_base_field (kind_of e)) e = Some b.
Proof.
  unfold php_object, php_base_field. change (map s2t ["scoped_call_expression"%string; "scoped_property_access_expression"%string]) with [s2t "scoped_call_expression"; s2t "scoped_property_access_expression"].
  rewrite <- mem_text_In. destruct (mem_text (kind_of e) _); [split; [intros [(_ & H)|(H & _)]; [exact H|destruct (H eq_refl)]|intros H; left; auto]|].
  split; [intros [(H & _)|(_ & H)]; [discriminate|exact H]|intros H; right; split; [discriminate|exact H]].
Qed.
Ltac kinds := repeat match goal with
  | H : In _ (map s2t _) |- _ => cbn [map In] in H
  | H : In _ _ |- _ => cbn [In] in H
  end.
Inductive pclass (t : tree) : tclass -> Prop :=
| pc_call f j : php_function_call t f -> child_index (s2t "function") t = Some j -> pclass t (CCall (Some (t_text (t_info f))) j)
| pc_method b j : php_method_call_kind (kind_of t) -> php_object t b -> child_index (php_base_field (kind_of t)) t = Some j ->
    pclass t (CMethod (child_text (s2t "name") t) j)
| pc_field b j : php_access t b -> child_index (php_base_field (kind_of t)) t = Some j -> pclass t (CField (child_text (s2t "name") t) j)
| pc_ident x : php_identifier t x -> pclass t (CIdent x)
| pc_other : ~ php_call t -> (forall b, ~ php_access t b) -> (forall x, ~ php_identifier t x) -> pclass t COther.
Lemma kinds_apart k : (k = s2t "function_call_expression" -> ~ php_method_call_kind k /\ ~ php_access_kind k /\ ~ In k (map s2t ["name"; "qualified_name"]%string)) /\
  (php_method_call_kind k -> ~ php_access_kind k /\ ~ In k (map s2t ["name"; "qualified_name"]%string)) /\
  (php_access_kind k -> ~ In k (map s2t ["name"; "qualified_name"]%string)).
Proof.
  split; [intros ->; split; [|split]; intros H; apply mem_text_In in H; vm_compute in H; discriminate|].
  unfold php_method_call_kind, php_access_kind. split.
  - intros H. cbn [map In] in H. destruct H as [<-|[<-|[<-|[]]]]; (split; intros H; apply mem_text_In in H; vm_compute in H; discriminate).
  - intros H. cbn [map In] in H. destruct H as [<-|[<-|[<-|[]]]]; intros H; apply mem_text_In in H; vm_compute in H; discriminate.
Qed.
Lemma php_classes t : pclass t (php_class None t).
Proof.
  unfold php_class. rewrite php_none. pose proof (kinds_apart (kind_of t)) as (A1 & A2 & A3).
  destruct (text_eqb (kind_of t) (s2t "function_call_expression")) eqn:K1; [apply text_eqb_eq in K1|apply text_eqb_neq in K1].
  { destruct (A1 K1) as (B1 & B2 & B3). destruct (child_index (s2t "function") t) as [j|] eqn:J.
    - destruct (child_nth _ _ _ J) as (f & c & _ & Hc). unfold child_text. rewrite Hc. apply pc_call; [split; assumption|exact J].
    - apply pc_other.
      + intros [(f & _ & Hf)|(H & _)]; [destruct (child_has_index _ _ _ Hf); congruence|tauto].
      + intros b (H & _). tauto.
      + intros x (H & _). tauto. }
  destruct (mem_text (kind_of t) php_call_kinds) eqn:K2.
  { apply method_kind in K2. destruct (A2 K2) as (B2 & B3). destruct (child_index (php_base_field (kind_of t)) t) as [j|] eqn:J.
    - destruct (child_nth _ _ _ J) as (f & c & _ & Hc). apply pc_method with (b := c); [exact K2|apply object_child; exact Hc|exact J].
    - apply pc_other.
      + intros [(f & H & _)|(_ & b & Hb)]; [tauto|]. apply object_child in Hb. destruct (child_has_index _ _ _ Hb). congruence.
      + intros b (H & _). tauto.
      + intros x (H & _). tauto. }
  assert (N2 : ~ php_method_call_kind (kind_of t)) by (rewrite method_kind, K2; discriminate).
  destruct (mem_text (kind_of t) php_field_kinds) eqn:K3.
  { apply access_kind in K3. pose proof (A3 K3) as B3. destruct (child_index (php_base_field (kind_of t)) t) as [j|] eqn:J.
    - destruct (child_nth _ _ _ J) as (f & c & _ & Hc). apply pc_field with (b := c); [split; [exact K3|apply object_child; exact Hc]|exact J].
    - apply pc_other.
      + intros [(f & H & _)|(H & _)]; tauto.
      + intros b (_ & Hb). apply object_child in Hb. destruct (child_has_index _ _ _ Hb). congruence.
      + intros x (H & _). tauto. }
  assert (N3 : ~ php_access_kind (kind_of t)) by (rewrite access_kind, K3; discriminate).
  destruct (mem_text (kind_of t) [s2t "name"; s2t "qualified_name"]) eqn:K4.
  - apply pc_ident. split; [apply mem_text_In; exact K4|reflexivity].
  - apply pc_other.
    + intros [(f & H & _)|(H & _)]; tauto.
    + intros b (H & _). tauto.
    + intros x (H & _). apply mem_text_In in H. change (map s2t ["name"%string; "qualified_name"%string]) with [s2t "name"; s2t "qualified_name"] in H. congruence.
Qed.
Lemma not_compound t : php_call t \/ (exists b, php_access t b) -> kind_of t <> s2t "compound_statement".
Proof.
  intros H K. destruct H as [[(f & H & _)|(H & _)]|(b & H & _)].
  - rewrite K in H. discriminate.
  - apply method_kind in H. rewrite K in H. vm_compute in H. discriminate.
  - apply access_kind in H. rewrite K in H. vm_compute in H. discriminate.
Qed.
(** The nodes. *)
Inductive pnode (t : tree) : node -> Prop :=
| pn_call f args : php_function_call t f -> pnode t (tnode (2 * t_id (t_info t)) (KCall false (Some (t_text (t_info f)))) (t_span (t_info t)) (php_view f :: args))
| pn_method b args : php_method_call_kind (kind_of t) -> php_object t b ->
    pnode t (tnode (2 * t_id (t_info t)) (KCall false None) (t_span (t_info t))
      (tnode (S (2 * t_id (t_info t))) (KField (child_text (s2t "name") t)) (t_span (t_info t)) [php_view b] :: args))
| pn_field b r : php_access t b -> pnode t (tnode (2 * t_id (t_info t)) (KField (child_text (s2t "name") t)) (t_span (t_info t)) (php_view b :: r))
| pn_ident x ks : php_identifier t x -> pnode t (tnode (2 * t_id (t_info t)) (KIdent x) (t_span (t_info t)) ks)
| pn_other ks : ~ php_call t -> (forall b, ~ php_access t b) -> (forall x, ~ php_identifier t x) -> pnode t (tnode (2 * t_id (t_info t)) KExpr (t_span (t_info t)) ks).
Lemma taken_child t j e r field c : take_out j (kids_nodes php_class t) = Some (e, r) -> child_index field t = Some j -> child field t = Some c ->
  kind_of t <> s2t "compound_statement" -> e = php_view c.
Proof.
  intros T J C K. destruct (taken php_class t j e r T) as (f & u & Hu & ->). destruct (child_nth _ _ _ J) as (g & v & Hv & Hc).
  rewrite Hu in Hv. rewrite C in Hc. inversion Hv; inversion Hc; subst. apply php_kid. exact K.
Qed.
Lemma php_nodes t : pnode t (php_view t).
Proof.
  unfold php_view. pose proof (php_classes t) as PC. destruct (ts_shape php_class php_ok None t) as [c d j e r C T|c d C|x j e r C T|x j e r C T|x j e r C T|x C|C]; rewrite C in PC.
  - exfalso. inversion PC.
  - exfalso. inversion PC.
  - inversion PC as [f j' F J| | | |]; subst. assert (NC : kind_of t <> s2t "compound_statement") by (apply not_compound; left; left; eauto).
    rewrite (taken_child t j e r _ f T J (proj2 F) NC). apply pn_call. exact F.
  - inversion PC as [|b j' K O J| | |]; subst. assert (NC : kind_of t <> s2t "compound_statement") by (apply not_compound; left; right; eauto).
    rewrite (taken_child t j e r _ b T J (proj1 (object_child _ _) O) NC). eapply pn_method; eassumption.
  - inversion PC as [| |b j' A J| |]; subst. assert (NC : kind_of t <> s2t "compound_statement") by (apply not_compound; right; eauto).
    rewrite (taken_child t j e r _ b T J (proj1 (object_child _ _) (proj2 A)) NC). eapply pn_field; eassumption.
  - inversion PC; subst. apply pn_ident. assumption.
  - inversion PC; subst. apply pn_other; assumption.
Qed.

(** ** Calls, properties, names *)
Lemma function_not_method t f : php_function_call t f -> ~ php_method_call_kind (kind_of t).
Proof. intros (K & _). apply kinds_apart. exact K. Qed.
Lemma pcall_view c : is_call (php_view c) <-> php_call c.
Proof.
  destruct (php_nodes c) as [f args F|b args K O|b r A|x ks X|ks N1 N2 N3].
  - split; [intros _; left; eauto|intros _; eexists _, _; reflexivity].
  - split; [intros _; right; eauto|intros _; eexists _, _; reflexivity].
  - split; [intros (h & y & H); discriminate|]. intros [(f & K & _)|(K & _)]; exfalso; destruct A as (K' & _).
    + destruct (proj1 (kinds_apart (kind_of c)) K) as (_ & H & _). tauto.
    + destruct (proj1 (proj2 (kinds_apart (kind_of c))) K) as (H & _). tauto.
  - split; [intros (h & y & H); discriminate|]. intros [(f & K & _)|(K & _)]; exfalso; destruct X as (K' & _).
    + destruct (proj1 (kinds_apart (kind_of c)) K) as (_ & _ & H). tauto.
    + destruct (proj1 (proj2 (kinds_apart (kind_of c))) K) as (_ & H). tauto.
  - split; [intros (h & y & H); discriminate|]. tauto.
Qed.
Lemma paccess_view e b : php_access e b -> exists r, php_view e = tnode (2 * t_id (t_info e)) (KField (child_text (s2t "name") e)) (t_span (t_info e)) (php_view b :: r).
Proof.
  intros A. destruct (php_nodes e) as [f args F|b' args K O|b' r A'|x ks X|ks N1 N2 N3].
  - exfalso. destruct (proj1 (kinds_apart (kind_of e)) (proj1 F)) as (_ & H & _). destruct A. tauto.
  - exfalso. destruct (proj1 (proj2 (kinds_apart (kind_of e))) K) as (H & _). destruct A. tauto.
  - exists r. destruct A as (_ & A). destruct A' as (_ & A'). apply object_child in A, A'. rewrite A in A'. inversion A'. reflexivity.
  - exfalso. destruct X as (X & _). apply (proj2 (proj2 (kinds_apart (kind_of e)))); [apply A|exact X].
  - destruct (N2 b A).
Qed.
Lemma pfield_view e x : n_kind (php_view e) = KField x -> exists b, php_access e b /\ x = child_text (s2t "name") e.
Proof.
  destruct (php_nodes e) as [f args F|b' args K O|b' r A'|y ks X|ks N1 N2 N3]; intros H; try discriminate. exists b'. split; [exact A'|].
  change (KField (child_text (s2t "name") e) = KField x) in H. injection H. intros <-. reflexivity.
Qed.
Lemma pident_view e x : n_kind (php_view e) = KIdent x <-> php_identifier e x.
Proof.
  destruct (php_nodes e) as [f args F|b' args K O|b' r A'|y ks X|ks N1 N2 N3]; split; intros H; try discriminate.
  - exfalso. destruct (proj1 (kinds_apart (kind_of e)) (proj1 F)) as (_ & _ & H'). destruct H. tauto.
  - exfalso. destruct (proj1 (proj2 (kinds_apart (kind_of e))) K) as (_ & H'). destruct H. tauto.
  - exfalso. destruct H as (H & _). apply (proj2 (proj2 (kinds_apart (kind_of e)))); [apply A'|exact H].
  - cbn in H. inversion H; subst. exact X.
  - cbn. destruct X as (_ & X). destruct H as (_ & H). congruence.
  - destruct (N3 x H).
Qed.
Lemma pno_macro e x : n_kind (php_view e) <> KMacro x.
Proof. destruct (php_nodes e); discriminate. Qed.
Lemma pno_await e : n_kind (php_view e) <> KAwait.
Proof. destruct (php_nodes e); discriminate. Qed.
Lemma name_text e x : php_name e x <-> child_text (s2t "name") e = Some x.
Proof.
  unfold php_name, child_text. destruct (child (s2t "name") e) as [f|]; split.
  - intros (f' & H & <-). inversion H. reflexivity.
  - intros H. inversion H. eauto.
  - intros (f & H & _). discriminate.
  - discriminate.
Qed.
Lemma ppath_view e b p : php_path e b p -> field_path (php_view e) (php_view b) p.
Proof.
  induction 1 as [e H|e x b base p A X _ IH].
  - apply fp_base. intros x K. destruct (pfield_view e _ K) as (b & A & Hx). apply (H x b). split; [exact A|]. apply name_text. congruence.
  - destruct (paccess_view e b A) as (r & ->). apply name_text in X. rewrite X. apply fp_field; [reflexivity|exact IH].
Qed.
Lemma view_ppath : forall N B p, field_path N B p -> forall e, N = php_view e -> exists b, B = php_view b /\ php_path e b p.
Proof.
  induction 1 as [n H|l x k r base p K _ IH]; intros e H0.
  - subst n. exists e. split; [reflexivity|]. apply pp_base. intros x b (A & X). apply (H x). destruct (paccess_view e b A) as (r & ->). apply name_text in X. rewrite X. reflexivity.
  - assert (Hk : n_kind (php_view e) = KField (Some x)) by (rewrite <- H0; exact K). destruct (pfield_view e _ Hk) as (b & A & Hx).
    destruct (paccess_view e b A) as (r' & He). rewrite He in H0. inversion H0; subst. destruct (IH b eq_refl) as (b' & -> & Hp). exists b'. split; [reflexivity|].
    apply pp_access with (b := b); [exact A|apply name_text; symmetry; exact Hx|exact Hp].
Qed.
Lemma view_method_php c B p : method_call (php_view c) B p <-> exists b, B = php_view b /\ php_method c b p.
Proof.
  unfold method_call. rewrite pcall_view. destruct (php_nodes c) as [f args F|b args K O|b r A|x ks X|ks N1 N2 N3]; cbn [tnode n_kids].
  - split.
    + intros (_ & callee & args' & Hk & Hp & Hne). inversion Hk; subst. destruct (view_ppath _ _ _ Hp f eq_refl) as (b & -> & Hb). exists b. split; [reflexivity|]. left. eauto.
    + intros (b & -> & [(f' & F' & Hp & Hne)|(b' & x & q & K & _)]); [|destruct (function_not_method _ _ F K)]. split; [left; eauto|].
      assert (f' = f) by (destruct F as (_ & F); destruct F' as (_ & F'); congruence). subst f'. exists (php_view f), args. split; [reflexivity|]. split; [apply ppath_view; exact Hp|exact Hne].
  - split.
    + intros (_ & callee & args' & Hk & Hp & Hne). inversion Hk; subst. inversion Hp as [n Hno|l x k r base q Kx Hp']; subst; [destruct (Hne eq_refl)|].
      destruct (view_ppath _ _ _ Hp' b eq_refl) as (b0 & -> & Hb). exists b0. split; [reflexivity|]. right. exists b, x, q. split; [exact K|]. split; [exact O|].
      split; [apply name_text; change (KField (child_text (s2t "name") c) = KField (Some x)) in Kx; injection Kx; intros Kx'; exact Kx'|]. auto.
    + intros (b0 & -> & [(f & F & _)|(b' & x & q & _ & O' & X & Hp & ->)]); [destruct (function_not_method _ _ F K)|].
      assert (b' = b) by (apply object_child in O, O'; congruence). subst b'. split; [right; eauto|]. eexists _, args. split; [reflexivity|]. apply name_text in X. rewrite X.
      split; [apply fp_field; [reflexivity|apply ppath_view; exact Hp]|]. destruct q; discriminate.
  - split.
    + intros (Hc & _). exfalso. apply pcall_view in Hc. destruct (paccess_view c b A) as (r' & He). rewrite He in Hc. destruct Hc as (h & y & Hy). discriminate.
    + intros (b0 & _ & Hm). exfalso. destruct (paccess_view c b A) as (r' & He).
      assert (Hc : php_call c) by (destruct Hm as [(f & F & _)|(b' & x & q & K & O & _)]; [left; eauto|right; eauto]). apply pcall_view in Hc. rewrite He in Hc. destruct Hc as (h & y & Hy). discriminate.
  - assert (Hno : ~ php_call c) by (intros Hc; apply pcall_view in Hc; destruct Hc as (h & y & Hy); apply pident_view in X; congruence).
    split; [tauto|]. intros (b0 & _ & Hm). exfalso. apply Hno. destruct Hm as [(f & F & _)|(b' & y & q & K & O & _)]; [left; eauto|right; eauto].
  - split; [tauto|]. intros (b0 & _ & Hm). exfalso. apply N1. destruct Hm as [(f & F & _)|(b' & y & q & K & O & _)]; [left; eauto|right; eauto].
Qed.
Lemma method_is_call c b p : php_method c b p -> php_call c.
Proof. intros [(f & F & _)|(b' & y & q & K & O & _)]; [left; eauto|right; eauto]. Qed.
Lemma pmethod_view c b p : php_method c b p -> method_call (php_view c) (php_view b) p.
Proof. intros H. apply view_method_php. eauto. Qed.

Section File.
Context (E0 : venv) (root : tree).
Notation E := (php_env E0).
Notation file := (php_file root).
Lemma pfw_kids : fw_expr_kids (v_fw E) = true. Proof. reflexivity. Qed.

Lemma proot_ignored_view c : php_root_ignored E0 c -> root_ignored E (php_view c).
Proof.
  induction 1 as [c f F Hno Hi|c b p x Hm Hx Hi|c b p Hm Hb _ IH].
  - apply ri_function with (f := t_text (t_info f)).
    + intros B p Hm. apply view_method_php in Hm. destruct Hm as (b & _ & Hb). exact (Hno b p Hb).
    + destruct (php_nodes c) as [f' args F'|b args K O|b r A|x ks X|ks N1 N2 N3].
      * destruct F as (_ & F). destruct F' as (_ & F'). assert (f' = f) by congruence. subst. reflexivity.
      * destruct (function_not_method _ _ F K).
      * exfalso. destruct (proj1 (kinds_apart (kind_of c)) (proj1 F)) as (_ & H & _). destruct A. tauto.
      * exfalso. destruct (proj1 (kinds_apart (kind_of c)) (proj1 F)) as (_ & _ & H). destruct X. tauto.
      * exfalso. apply N1. left. eauto.
    + exact Hi.
  - eapply ri_path; [apply pmethod_view; exact Hm|apply pident_view; exact Hx|exact Hi].
  - eapply ri_chain; [apply pmethod_view; exact Hm|apply pcall_view; exact Hb|exact IH].
Qed.
Lemma view_proot_ignored : forall N, root_ignored E N -> forall c, N = php_view c -> is_call N -> php_root_ignored E0 c.
Proof.
  induction 1 as [n f Hno Hn Hi|n b p x Hm Hx Hi|n b p x Hm Hx|n b p Hm Hb _ IH]; intros c -> Hc.
  - assert (F : exists g, php_function_call c g /\ f = t_text (t_info g)).
    { revert Hn. destruct (php_nodes c) as [f' args F'|b args K O|b r A|x ks X|ks N1 N2 N3]; try discriminate. intros Hn. exists f'. cbn in Hn. split; [exact F'|congruence]. }
    destruct F as (g & F & ->). eapply hi_function; [exact F| |exact Hi]. intros b p Hb. exact (Hno _ _ (pmethod_view _ _ _ Hb)).
  - apply view_method_php in Hm. destruct Hm as (b' & -> & Hb'). apply pident_view in Hx. eapply hi_path; eassumption.
  - apply view_method_php in Hm. destruct Hm as (b' & -> & Hb'). destruct (pno_macro _ _ Hx).
  - apply view_method_php in Hm. destruct Hm as (b' & -> & Hb'). eapply hi_chain; [exact Hb'|apply pcall_view; exact Hb|]. apply IH; [reflexivity|exact Hb].
Qed.
Lemma pignored_method_view c : ignored_method E (php_view c) <-> php_ignored_method E0 c.
Proof.
  split.
  - intros (B & p & Hm & Hi). apply view_method_php in Hm. destruct Hm as (b & -> & Hb). exists b, p. auto.
  - intros (b & p & Hm & Hi). exists (php_view b), p. split; [apply pmethod_view; exact Hm|exact Hi].
Qed.
Lemma pignored_call_view c : php_call c -> (ignored_call E (php_view c) <-> php_ignored_call E0 c).
Proof.
  intros Hc. split.
  - intros [(x & K & _)|(_ & [H|(B & p & Hm & Hn & Hi)])]; [destruct (pno_macro _ _ K)| |].
    + left. eapply view_proot_ignored; [exact H|reflexivity|apply pcall_view; exact Hc].
    + right. apply view_method_php in Hm. destruct Hm as (b & -> & Hb). exists b, p. split; [exact Hb|]. split; [rewrite <- pcall_view; exact Hn|exact Hi].
  - intros H. right. split; [apply pcall_view; exact Hc|]. destruct H as [H|(b & p & Hm & Hn & Hi)]; [left; apply proot_ignored_view; exact H|].
    right. exists (php_view b), p. split; [apply pmethod_view; exact Hm|]. split; [rewrite pcall_view; exact Hn|exact Hi].
Qed.
Lemma no_local c f : ~ local_call E c f.
Proof. intros (callee & args & x & fs & _ & _ & H). discriminate. Qed.

(** ** Statements *)
Lemma view_pperforms e c : php_performs e c -> performs (php_view e) (php_view c).
Proof.
  induction 1 as [c H|e b c H _ IH]; [apply pf_call; left; apply pcall_view; exact H|].
  destruct (paccess_view e b H) as (r & ->). eapply pf_field; [reflexivity|exact IH].
Qed.
Lemma pperforms_view : forall N C, performs N C -> forall e, N = php_view e -> exists c, C = php_view c /\ php_performs e c.
Proof.
  induction 1 as [n H|l b r C K _ IH|l x b r C K _ IH]; intros e He; subst.
  - destruct H as [H|(x & H)]; [|destruct (pno_macro _ _ H)]. exists e. split; [reflexivity|]. constructor. apply pcall_view. exact H.
  - exfalso. apply (pno_await e). rewrite <- He. exact K.
  - assert (Hk : n_kind (php_view e) = KField x) by (rewrite <- He; exact K). destruct (pfield_view e _ Hk) as (b' & A & _). destruct (paccess_view e b' A) as (r' & He').
    rewrite He' in He. inversion He; subst. destruct (IH b' eq_refl) as (c & -> & Hc). exists c. split; [reflexivity|]. eapply ph_access; eassumption.
Qed.
Lemma first_split (g : tree -> bool) (e : tree) : forall l, (exists pre f post, l = pre ++ (f, e) :: post /\ g e = true /\ forall x : option text * tree, In x pre -> g (snd x) = false) <->
    exists j f, find_index (fun fk : option text * tree => g (snd fk)) l = Some j /\ nth_error l j = Some (f, e).
Proof.
  induction l as [|x l IH]; [split; [intros (pre & f & post & H & _); destruct pre; discriminate|intros (j & f & H & _); discriminate]|]. cbn [find_index]. split.
  - intros (pre & f & post & H & H1 & H2). destruct pre as [|y pre].
    + inversion H; subst. cbn [snd]. rewrite H1. exists 0%nat, f. auto.
    + inversion H; subst. rewrite (H2 y (or_introl eq_refl)). destruct (proj1 IH) as (j & h & Hj & Hn); [exists pre, f, post; split; [reflexivity|]; split; [exact H1|]; intros z Hz; apply H2; right; exact Hz|].
      rewrite Hj. exists (S j), h. auto.
  - intros (j & f & Hj & Hn). destruct (g (snd x)) eqn:T.
    + inversion Hj; subst. cbn in Hn. inversion Hn; subst. exists [], f, l. split; [reflexivity|]. split; [exact T|intros y []].
    + destruct (find_index _ l) as [i|] eqn:F; [|discriminate]. inversion Hj; subst. destruct (proj2 IH) as (pre & h & post & -> & H1 & H2); [exists i, f; auto|].
      exists (x :: pre), h, post. split; [reflexivity|]. split; [exact H1|]. intros y [<-|Hy]; auto.
Qed.
Lemma pexpression_index u e : php_expression u e <-> kind_of u = s2t "expression_statement" /\ exists j f, first_named u = Some j /\ nth_error (t_kids u) j = Some (f, e).
Proof. unfold php_expression. rewrite (first_split (fun t => t_named (t_info t)) e (t_kids u)). reflexivity. Qed.
Lemma first_named_throws u e : php_expression u e -> php_throws u = text_eqb (kind_of e) (s2t "throw_expression").
Proof.
  intros H. apply pexpression_index in H. destruct H as (K & j & f & J & N). unfold php_throws, first_named_kind. rewrite K. cbn [andb].
  unfold first_named in J. destruct (find_index_find _ _ _ J) as (x & Hx & ->). rewrite N in Hx. inversion Hx. subst x. reflexivity.
Qed.
Lemma throws_spec u : php_throws u = true <-> kind_of u = s2t "expression_statement" /\ exists pre f e post, t_kids u = pre ++ (f, e) :: post /\ kind_of e = s2t "throw_expression" /\
  t_named (t_info e) = true /\ forall x, In x pre -> t_named (t_info (snd x)) = false.
Proof.
  split.
  - intros H. pose proof H as H0. unfold php_throws in H. apply andb_prop in H. destruct H as [K H]. apply text_eqb_eq in K. split; [exact K|]. unfold first_named_kind in H.
    destruct (find (fun fk => t_named (t_info (snd fk))) (t_kids u)) as [(f & e)|] eqn:F; [|discriminate]. cbn [snd] in H. apply text_eqb_eq in H.
    destruct (find_find_index _ _ _ F) as (j & J). destruct (find_index_find _ _ _ J) as (x & Hx & Hf). rewrite F in Hf. inversion Hf; subst x.
    destruct (proj2 (first_split (fun t => t_named (t_info t)) e (t_kids u))) as (pre & f' & post & H1 & H2 & H3); [eauto|]. exists pre, f', e, post. auto.
  - intros (K & pre & f & e & post & H1 & H2 & H3 & H4). assert (X : php_expression u e) by (split; [exact K|]; eauto 6). rewrite (first_named_throws u e X), H2. reflexivity.
Qed.
Lemma pkept u : php_kept u <-> (mem_text (kind_of u) php_control_kinds || php_throws u = true \/ mem_text (kind_of u) php_declaration_kinds = true).
Proof.
  unfold php_kept. rewrite Bool.orb_true_iff, throws_spec, !mem_text_In. unfold php_control_kinds, php_declaration_kinds. cbn [map In]. tauto.
Qed.
Lemma expression_kid u e p : php_expression u e -> In (ts_node php_class (Some (t_info u)) e) (kids_nodes php_class u) /\ (php_statement p u = true -> exists r,
  ts_node php_class p u = tnode (2 * t_id (t_info u)) (KStmt true (mem_text (kind_of u) php_control_kinds || php_throws u) (mem_text (kind_of u) php_declaration_kinds) true) (t_span (t_info u)) (php_view e :: r)).
Proof.
  intros H. apply pexpression_index in H. destruct H as (K & j & f & J & N). split; [apply in_kids_nodes; exists f, e; split; [eapply nth_error_In; exact N|reflexivity]|].
  intros S0. pose proof (php_class_stmt p u S0) as C. rewrite K, J in C. rewrite text_eqb_refl in C.
  destruct (ts_shape php_class php_ok p u) as [c0 d j' e' r C' T|c0 d C'|y j' e' r C'|y j' e' r C'|y j' e' r C'|y C'|C']; rewrite C in C'; try discriminate.
  inversion C'; subst. destruct (taken php_class u j' e' r T) as (g & v & Hv & ->). rewrite N in Hv. inversion Hv; subst. exists r. rewrite K. rewrite php_kid; [reflexivity|]. rewrite K. discriminate.
Qed.
Lemma pcall_statement_view p u C : php_statement p u = true -> (call_statement (ts_node php_class p u) C <-> exists c, C = php_view c /\ php_call_statement u c).
Proof.
  intros S0. split.
  - intros H. destruct (ts_call_statement php_class php_ok p u C H) as (ct & d & j & f & e & K & Hn & P).
    destruct (php_stmt_class _ _ _ _ _ K) as (_ & _ & _ & Ho). destruct (text_eqb (kind_of u) (s2t "expression_statement")) eqn:K'; [|discriminate]. apply text_eqb_eq in K'.
    rewrite php_kid in P by (rewrite K'; discriminate). destruct (pperforms_view _ _ P e eq_refl) as (c & -> & Hc). exists c. split; [reflexivity|]. exists e. split; [|exact Hc].
    apply pexpression_index. split; [exact K'|]. eauto.
  - intros (c & -> & e & He & Hp). destruct (expression_kid u e p He) as (_ & X). destruct (X S0) as (r & ->). eexists _, _, _, _, _, _. split; [reflexivity|]. split; [reflexivity|]. apply view_pperforms. exact Hp.
Qed.
Lemma pperforms_call e c : php_performs e c -> php_call c.
Proof. induction 1; assumption. Qed.
Lemma pperforms_not_throw e c : php_performs e c -> kind_of e <> s2t "throw_expression".
Proof.
  intros H K. inversion H as [c0 [(f & F & _)|(F & _)]|e0 b c0 (F & _)]; subst.
  - rewrite K in F. discriminate.
  - apply method_kind in F. rewrite K in F. vm_compute in F. discriminate.
  - apply access_kind in F. rewrite K in F. vm_compute in F. discriminate.
Qed.
Lemma call_statement_not_kept u c : php_call_statement u c -> ~ php_kept u.
Proof.
  intros (e & He & Hp) Hk. apply pkept in Hk. pose proof (first_named_throws u e He) as T. destruct He as (K & _). rewrite K in Hk.
  apply pperforms_not_throw in Hp. apply text_eqb_neq in Hp. rewrite T, Hp in Hk. vm_compute in Hk. destruct Hk; discriminate.
Qed.
Lemma object_inside e b : php_object e b -> inside e b.
Proof. intros H. apply object_child in H. destruct (child_in _ _ _ H) as (f & Hf). eapply inside_kid; exact Hf. Qed.
Lemma pperforms_inside e c : php_performs e c -> inside e c.
Proof. induction 1 as [c H|e b c (_ & H) _ IH]; [constructor|]. eapply inside_trans; [apply object_inside; exact H|exact IH]. Qed.
Lemma pcall_statement_inside u c : php_call_statement u c -> inside u c.
Proof.
  intros (e & (_ & pre & f & post & H & _) & Hp). eapply inside_trans; [|apply pperforms_inside; exact Hp]. apply (inside_kid u f). rewrite H. apply in_or_app. right. left. reflexivity.
Qed.

(** ** Tests *)
Lemma php_tests_spec f : In f (php_tests root) -> php_test root (tf_name f) (tf_body f).
Proof.
  unfold php_tests. intros H. apply filter_In in H. destruct H as [H1 H2]. apply query_spec in H1. split; [exists (tf_decl f); exact H1|]. apply starts_spec. exact H2.
Qed.
Lemma php_test_tests n b : php_test root n b -> exists f, In f (php_tests root) /\ tf_name f = n /\ tf_body f = b.
Proof.
  intros ((d & H1) & H2). exists (TF d n b). split; [|auto]. apply filter_In. split; [apply query_spec; exact H1|]. apply starts_spec. exact H2.
Qed.
Lemma php_body_kind f : In f (php_tests root) -> kind_of (tf_body f) = s2t "compound_statement" /\ inside root (tf_body f).
Proof.
  intros H. apply php_tests_spec in H. destruct H as ((d & Hd & _ & Hb & K & _) & _). split; [exact K|]. eapply inside_trans; [exact Hd|].
  destruct (child_in _ _ _ Hb) as (g & Hg). eapply inside_kid; exact Hg.
Qed.
Lemma php_parsed : parsed E file.
Proof.
  split; [|intros x f fs H; discriminate].
  unfold php_file, tnode. cbn [well_formed l_kind andb]. apply forallb_forall. intros n Hn. apply in_map_iff in Hn. destruct Hn as (f & <- & _).
  unfold php_test_node, test_node, tnode. cbn [well_formed l_kind andb forallb]. rewrite Bool.andb_true_r. apply andb_true_intro.
  split; apply forallb_forall; intros n Hn; apply in_map_iff in Hn; destruct Hn as (pt & <- & _); apply ts_wf; reflexivity || exact php_ok.
Qed.
Lemma php_apart : functions_apart E.
Proof. intros x y f g fs gs Hx. discriminate. Qed.
Lemma kids_parent b p u : In (p, u) (php_stmts b) \/ In (p, u) (php_rest b) -> p = Some (t_info b) /\ exists f, In (f, u) (t_kids b).
Proof.
  intros H. assert (X : In (p, u) (kids_in b)) by (destruct H as [H|H]; apply filter_In in H; apply H).
  unfold kids_in in X. apply in_map_iff in X. destruct X as ((f & v) & X & Hv). inversion X; subst. eauto.
Qed.
Lemma parent_kids b f u : In (f, u) (t_kids b) -> In (Some (t_info b), u) (php_stmts b) \/ In (Some (t_info b), u) (php_rest b).
Proof.
  intros H. assert (X : In (Some (t_info b), u) (kids_in b)) by (apply in_map_iff; exists (f, u); auto). unfold php_stmts, php_rest. rewrite !filter_In. cbn [fst snd].
  destruct (php_statement (Some (t_info b)) u); auto.
Qed.
Lemma ptest_below f m : within (php_test_node f) m -> (n_kind m = KGroup \/ m = php_test_node f) \/
  exists g k q u, In (g, k) (t_kids (tf_body f)) /\ occurs (Some (t_info (tf_body f))) k q u /\ (m = ts_node php_class q u \/ virtual php_class q u m).
Proof.
  intros H. destruct (within_inv _ _ H) as [->|(k & Hk & Hw)]; [left; right; reflexivity|].
  assert (X : forall (l : list (option tinfo * tree)), (forall p u, In (p, u) l -> In (p, u) (php_stmts (tf_body f)) \/ In (p, u) (php_rest (tf_body f))) ->
    forall n, In n (map (fun pt => ts_node php_class (fst pt) (snd pt)) l) -> within n m ->
    exists g k q u, In (g, k) (t_kids (tf_body f)) /\ occurs (Some (t_info (tf_body f))) k q u /\ (m = ts_node php_class q u \/ virtual php_class q u m)).
  { intros l Hl n Hn Hnm. apply in_map_iff in Hn. destruct Hn as ((p & u) & <- & Hu). cbn [fst snd] in Hnm.
    destruct (kids_parent _ _ _ (Hl p u Hu)) as (-> & g & Hg). destruct (ts_within php_class php_ok u _ m Hnm) as (q & v & H1 & H2). exists g, u, q, v. auto. }
  cbn [php_test_node test_node tnode n_kids] in Hk. destruct Hk as [<-|[<-|[]]]; (destruct (within_inv _ _ Hw) as [->|(n & Hn & Hnm)]; [left; left; reflexivity|right]).
  - eapply X; [|exact Hn|exact Hnm]. auto.
  - eapply X; [|exact Hn|exact Hnm]. auto.
Qed.
Lemma occurs_below b g k q u : In (g, k) (t_kids b) -> occurs (Some (t_info b)) k q u -> exists p f, inside b p /\ In (f, u) (t_kids p) /\ q = Some (t_info p).
Proof.
  intros Hk Ho. destruct (occurs_parent _ _ _ _ Ho) as [(-> & ->)|(v & f & H1 & -> & H3)]; [exists b, g; split; [constructor|]; auto|].
  exists v, f. split; [eapply kid_inside; eassumption|]. auto.
Qed.
Lemma ptest_stmt f m : within (php_test_node f) m -> is_stmt m -> exists p g u, inside (tf_body f) p /\ In (g, u) (t_kids p) /\ m = ts_node php_class (Some (t_info p)) u /\
  php_statement (Some (t_info p)) u = true.
Proof.
  intros Hw Hs. destruct (ptest_below f m Hw) as [[K| ->]|(g & k & q & u & Hk & Ho & [->|Hv])].
  - destruct Hs as (r & ct & d & e & H). congruence.
  - destruct Hs as (r & ct & d & e & H). discriminate.
  - destruct (occurs_below _ _ _ _ _ Hk Ho) as (p & h & H1 & H2 & ->). exists p, h, u. split; [exact H1|]. split; [exact H2|]. split; [reflexivity|].
    destruct (ts_stmt php_class php_ok _ u Hs) as (c & d & o & C & _). apply php_stmt_class in C. apply C.
  - destruct (virtual_not _ _ _ _ Hv) as (H & _). tauto.
Qed.
Lemma ptest_call f m : within (php_test_node f) m -> is_call m -> exists p g u, inside (tf_body f) p /\ In (g, u) (t_kids p) /\ m = php_view u /\ php_call u.
Proof.
  intros Hw Hs. destruct (ptest_below f m Hw) as [[K| ->]|(g & k & q & u & Hk & Ho & [->|Hv])].
  - destruct Hs as (h & x & H). congruence.
  - destruct Hs as (h & x & H). discriminate.
  - destruct (occurs_below _ _ _ _ _ Hk Ho) as (p & h & H1 & H2 & ->). exists p, h, u. split; [exact H1|]. split; [exact H2|].
    assert (S0 : php_statement (Some (t_info p)) u = false).
    { apply php_class_not. intros c d o C. destruct (ts_call php_class php_ok _ u Hs) as (x & j & [C'|C']); congruence. }
    rewrite (php_parent _ _ S0) in *. split; [reflexivity|]. apply pcall_view. exact Hs.
  - destruct (virtual_not _ _ _ _ Hv) as (_ & H & _). tauto.
Qed.
Lemma ptest_no_test f m x b : within (php_test_node f) m -> n_kind m = KTest x b -> m = php_test_node f.
Proof.
  intros Hw K. destruct (ptest_below f m Hw) as [[K'| ->]|(g & k & q & u & Hk & Ho & [->|Hv])]; [congruence|reflexivity| |].
  - destruct (ts_no_test php_class php_ok q u _ x b (wi_here _) K).
  - destruct (virtual_not _ _ _ _ Hv) as (_ & _ & H). destruct (H x b K).
Qed.
Lemma php_named n t : test_named E file n t -> exists f, In f (php_tests root) /\ n = php_test_node f /\ tf_name f = t /\ v_ign_test E0 t = false.
Proof.
  intros ([H|(x & f & fs & Hx & H)] & (i & K) & Hi); [|discriminate].
  destruct (within_inv _ _ H) as [->|(k & Hk & Hw)]; [discriminate|]. cbn [php_file tnode n_kids] in Hk. apply in_map_iff in Hk. destruct Hk as (f & <- & Hf).
  exists f. split; [exact Hf|]. pose proof (ptest_no_test f n t i Hw K). subst n. split; [reflexivity|]. inversion K; subst. split; [reflexivity|exact Hi].
Qed.
Lemma php_file_test f : In f (php_tests root) -> v_ign_test E0 (tf_name f) = false -> file_test E file (php_test_node f) (tf_name f).
Proof.
  intros Hf Hi. split; [|split; [exists 0%nat; reflexivity|exact Hi]]. eapply tp_kid; [right; right; right; left; reflexivity| |constructor].
  cbn [php_file tnode n_kids]. apply in_map. exact Hf.
Qed.
Lemma no_test_calls t n : ~ test_calls E file t n.
Proof.
  intros H. assert (X : forall a f, ~ mentions E a f) by (intros a f (c & callee & args & x & fs & _ & _ & _ & _ & Hx); discriminate).
  destruct H as [m f _ Hm|g f _ Hm]; exact (X _ _ Hm).
Qed.

(** The last statement. *)
Lemma ptops_eq b : kind_of b = s2t "compound_statement" -> map snd (php_stmts b) = php_tops b.
Proof.
  intros K. unfold php_stmts, php_tops, kids_in. set (o := Some (t_info b)).
  assert (X : forall u, php_statement o u = t_named (t_info u) && negb (t_extra (t_info u))).
  { intros u. unfold php_statement, o. unfold kind_of in K. rewrite K. rewrite text_eqb_refl, Bool.andb_true_r. reflexivity. }
  clearbody o. induction (t_kids b) as [|(g & u) r IH]; [reflexivity|]. cbn [map filter snd fst]. rewrite X. destruct (t_named (t_info u) && negb (t_extra (t_info u))); cbn [map snd]; rewrite IH; reflexivity.
Qed.
Lemma plast_node f l : In f (php_tests root) -> last_statement (php_test_node f) = Some l -> exists u, php_last (tf_body f) u /\ l = ts_node php_class (Some (t_info (tf_body f))) u.
Proof.
  intros Hf. destruct (php_body_kind f Hf) as (Kb & _).
  unfold last_statement. cbn [php_test_node test_node tnode n_kind n_lab l_kind n_kids test_statements nth_error]. unfold last_of.
  destruct (rev (map _ (php_stmts (tf_body f)))) as [|x r] eqn:R; [discriminate|]. intros H. inversion H; subst x.
  rewrite <- map_rev in R. destruct (rev (php_stmts (tf_body f))) as [|(p & u) s] eqn:R'; [discriminate|]. cbn [map fst snd] in R. inversion R; subst.
  assert (Hin : In (p, u) (php_stmts (tf_body f))) by (apply in_rev; rewrite R'; left; reflexivity). destruct (kids_parent _ _ _ (or_introl Hin)) as (-> & _).
  exists u. split; [|reflexivity]. exists (map snd (rev s)). rewrite <- ptops_eq, <- (rev_involutive (php_stmts (tf_body f))), R' by exact Kb. cbn [rev]. rewrite map_app. reflexivity.
Qed.
Lemma plast_some f u : In f (php_tests root) -> php_last (tf_body f) u -> last_statement (php_test_node f) = Some (ts_node php_class (Some (t_info (tf_body f))) u).
Proof.
  intros Hf (pre & H). destruct (php_body_kind f Hf) as (Kb & _). rewrite <- ptops_eq in H by exact Kb.
  unfold last_statement. cbn [php_test_node test_node tnode n_kind n_lab l_kind n_kids test_statements nth_error]. unfold last_of.
  destruct (rev (php_stmts (tf_body f))) as [|(p & v) s] eqn:R.
  - assert (X : php_stmts (tf_body f) = []) by (rewrite <- (rev_involutive (php_stmts (tf_body f))), R; reflexivity). rewrite X in H. destruct pre; discriminate.
  - assert (G : php_stmts (tf_body f) = rev s ++ [(p, v)]) by (rewrite <- (rev_involutive (php_stmts (tf_body f))), R; reflexivity).
    assert (Hin : In (p, v) (php_stmts (tf_body f))) by (apply in_rev; rewrite R; left; reflexivity). destruct (kids_parent _ _ _ (or_introl Hin)) as (-> & _).
    rewrite G, map_app in H. cbn [map snd] in H. apply app_inj_tail in H. destruct H as [_ ->].
    rewrite G, map_app, rev_app_distr. cbn [map rev app fst snd]. reflexivity.
Qed.
Lemma plast_inside b u : php_last b u -> exists f, In (f, u) (t_kids b).
Proof.
  intros (pre & H). assert (Hu : In u (php_tops b)) by (rewrite H; apply in_or_app; right; left; reflexivity). unfold php_tops in Hu. apply filter_In in Hu. destruct Hu as (Hu & _).
  apply in_map_iff in Hu. destruct Hu as ((f & v) & <- & Hv). exists f. exact Hv.
Qed.
Lemma psame p q u v : same E (ts_node php_class p u) (ts_node php_class q v) = Nat.eqb (2 * t_id (t_info u)) (2 * t_id (t_info v)).
Proof. unfold same. cbn [php_env v_fw fw_php fw_structural]. rewrite !(ts_id php_class php_ok). reflexivity. Qed.

(** ** Places in a body *)
Lemma call_or_not_php c : php_call c \/ ~ php_call c.
Proof.
  destruct (php_nodes c) as [f args F|b args K O|b r A|x ks X|ks N1 N2 N3]; [left; left; eauto|left; right; eauto| | |right; exact N1].
  - right. intros Hc. apply pcall_view in Hc. destruct (paccess_view c b A) as (r' & He). rewrite He in Hc. destruct Hc as (h & y & Hy). discriminate.
  - right. intros Hc. apply pcall_view in Hc. apply pident_view in X. destruct Hc as (h & y & Hy). congruence.
Qed.
Lemma open_passes p t : php_open E0 t -> passes php_class E p t.
Proof.
  intros Ho (x & j & C). assert (S0 : php_statement p t = false) by (apply php_class_not; intros c d o C'; destruct C; congruence).
  rewrite (php_parent _ _ S0). assert (Hc : php_call t).
  { rewrite (php_class_parent _ _ S0) in C. pose proof (php_classes t) as PC. destruct C as [C|C]; rewrite C in PC; inversion PC; subst; [left; eauto|right; eauto]. }
  destruct (Ho Hc) as [O|(O1 & O2)]; [left; exact O|right]. rewrite (pignored_call_view _ Hc), pignored_method_view. auto.
Qed.
Lemma opens_snoc p t q u f v : opens php_class E p t q u -> passes php_class E q u -> In (f, v) (t_kids u) -> opens php_class E p t (Some (t_info u)) v.
Proof.
  induction 1 as [p t|p a ks g k q u Hp Hk _ IH]; intros Hu Hv.
  - destruct t as [a ks]. eapply os_kid; [exact Hu|exact Hv|constructor].
  - eapply os_kid; [exact Hp|exact Hk|]. apply IH; assumption.
Qed.
Lemma reaches_opens t q : reaches (php_open E0) t q -> forall p, exists p', opens php_class E p t p' q.
Proof.
  induction 1 as [t|a ks f k u Ho Hk _ IH]; intros p; [exists p; constructor|]. destruct (IH (Some a)) as (q & Hq). exists q. eapply os_kid; [|exact Hk|exact Hq]. apply open_passes. exact Ho.
Qed.
(** A child [u] of [q], which is in the body. *)
Lemma php_in_body f q g u : reaches (php_open E0) (tf_body f) q -> php_open E0 q -> In (g, u) (t_kids q) -> in_body E (php_test_node f) (ts_node php_class (Some (t_info q)) u).
Proof.
  intros Hr Ho Hu.
  assert (X : exists h k, In (h, k) (t_kids (tf_body f)) /\ opens php_class E (Some (t_info (tf_body f))) k (Some (t_info q)) u).
  { inversion Hr as [t|a ks h k u' Hob Hk Hr' Ha]; subst.
    - exists g, u. split; [exact Hu|constructor].
    - exists h, k. split; [cbn [t_kids]; exact Hk|]. cbn [t_info]. destruct (reaches_opens k q Hr' (Some a)) as (p' & Hp'). eapply opens_snoc; [exact Hp'|apply open_passes; exact Ho|exact Hu]. }
  destruct X as (h & k & Hk & Hop). apply (opens_path php_class php_ok E _ _ _ _ pfw_kids) in Hop.
  destruct (parent_kids _ _ _ Hk) as [Hi|Hi].
  - eexists. split; [left; reflexivity|]. eapply op_kid; [right; left; reflexivity| |exact Hop]. cbn [tnode n_kids]. apply in_map_iff. eexists. split; [|exact Hi]. reflexivity.
  - eexists. split; [right; left; reflexivity|]. eapply op_kid; [right; left; reflexivity| |exact Hop]. cbn [tnode n_kids]. apply in_map_iff. eexists. split; [|exact Hi]. reflexivity.
Qed.
Lemma reaches_inside (ok : tree -> Prop) t u : reaches ok t u -> inside t u.
Proof. induction 1; [constructor|econstructor; eassumption]. Qed.
Lemma stmt_view_facts p u : php_statement p u = true -> is_stmt (ts_node php_class p u) /\ removable (ts_node php_class p u) = true /\
  (control (ts_node php_class p u) = true \/ declaration (ts_node php_class p u) = true <-> php_kept u).
Proof.
  intros S0. destruct (ts_is_stmt php_class php_ok p u _ _ _ (php_class_stmt p u S0)) as (H1 & H2 & H3 & H4). split; [exact H1|]. split; [exact H4|]. rewrite H2, H3, pkept. reflexivity.
Qed.
Lemma pplain_leaf p u : php_statement p u = true -> php_plain_statement u -> removable_leaf (ts_node php_class p u).
Proof.
  intros S0 (K & Hno & Hin). destruct (stmt_view_facts p u S0) as (H1 & H2 & H3). split; [exact H1|].
  split; [intros c Hc; apply (pcall_statement_view p u c S0) in Hc; destruct Hc as (c' & _ & Hc); exact (Hno c' Hc)|]. split; [exact H2|].
  split; [destruct (control _); [exfalso; apply K, H3; auto|reflexivity]|]. split; [destruct (declaration _); [exfalso; apply K, H3; auto|reflexivity]|].
  intros k m Hk Hm Hs. assert (Hw : within (ts_node php_class p u) m) by (eapply wi_kid; eassumption).
  destruct (ts_stmt_within php_class php_ok p u m Hw Hs) as (q & w & Ho & Em). destruct (occurs_parent _ _ _ _ Ho) as [(-> & ->)|(v & f & H4 & -> & H6)].
  - assert (Hid : forall a b, within a b -> nsize b <= nsize a).
    { intros a b Hab. induction Hab as [|a0 k0 b0 Hk0 _ IH0]; [lia|]. destruct a0 as [l0 ks0]. pose proof (nsize_kid l0 ks0 k0 Hk0). lia. }
    subst m. pose proof (Hid _ _ Hm). destruct (ts_node php_class p u) as [l ks]. pose proof (nsize_kid l ks k Hk). lia.
  - subst m. destruct (ts_stmt php_class php_ok _ w Hs) as (c & d & o & C & _). apply php_stmt_class in C. destruct C as (C & _). apply php_statement_spec in C. destruct C as (C1 & C2 & C3).
    apply (Hin w). exists v, f. auto.
Qed.
Lemma pcall_removable p u : php_statement p u = true -> php_removable_call E0 u -> removable_call E (ts_node php_class p u).
Proof.
  intros S0 (c & Hc & Hni). pose proof Hc as (e & _ & Hp). pose proof (pperforms_call e c Hp) as Hcall. destruct (stmt_view_facts p u S0) as (H1 & H2 & H3).
  split; [exact H2|]. exists (php_view c). split; [apply (pcall_statement_view p u _ S0); eauto|]. split; [rewrite (pignored_call_view c Hcall); exact Hni|]. intros f Hf. exact (no_local _ _ Hf).
Qed.
End File.

(** ** C65 *)
(** The tests of a PHP file are the methods whose names start with "test", but for those that the configuration ignores. *)
Theorem C65_tests : forall E root st, result (php_env E) (php_file root) st ->
  forall t, In t (s_tset st) <-> v_ign_test E t = false /\ exists b, php_test root t b.
Proof.
  intros E root st HR t. pose proof (php_parsed E root) as HP. split.
  - intros H. destruct (in_named _ _ _ HP HR t H) as (tn & Hn). destruct (php_named E root tn t Hn) as (f & Hf & _ & Ht & Hi).
    split; [exact Hi|]. exists (tf_body f). rewrite <- Ht. apply php_tests_spec. exact Hf.
  - intros (Hi & b & Hb). destruct (php_test_tests root t b Hb) as (f & Hf & Hn & _). eapply (file_test_in _ _ _ HP HR). rewrite <- Hn in *.
    apply php_file_test; assumption.
Qed.
Print Assumptions C65_tests.

(** A statement that is a candidate of the test [t] is a statement of a block in braces in the body of [t], but not the last of the body. It is not of a
    kind that is kept. It is a call that is not ignored, or else no statement of such a block occurs in it, but for the arguments of ignored calls. *)
Theorem C65_statement_candidates : forall E root st sp t, result (php_env E) (php_file root) st ->
  NoDup (tree_ids root) -> candidate st Statement sp t ->
  v_skip E sp = false /\ v_ign_test E t = false /\
  exists b u, php_test root t b /\ php_stmt_in b u /\ t_span (t_info u) = sp /\ ~ php_last b u /\ ~ php_kept u /\
    ((exists c, php_call_statement u c /\ ~ php_ignored_call E c) \/
     ((forall c, ~ php_call_statement u c) /\ forall v, ~ php_statement_of E u v)).
Proof.
  intros E root st sp t HR N HC. pose proof (php_parsed E root) as HP.
  destruct (candidate_runs_last _ _ _ HP HR Statement sp t (php_apart E) HC) as (n & L & R & Hn & Hy).
  apply yields_statement in Hy. destruct Hy as (k & s & Hk & Hw & Hs & Hsk & (His & Hkp & Hcase)). split; [exact Hsk|].
  destruct Hn as [(Hn & ->)|(Hn & _)]; [|destruct (no_test_calls E root t n Hn)].
  destruct (php_named E root n t Hn) as (f & Hf & -> & Ht & Hi). split; [exact Hi|].
  assert (Hws : within (php_test_node f) s) by (eapply wi_kid; eassumption).
  destruct (ptest_stmt f s Hws His) as (p & g & u & Hp & Hu & Es & S0). subst s. destruct (stmt_view_facts _ _ S0) as (_ & Hrm & Hkept).
  exists (tf_body f), u. split; [rewrite <- Ht; apply php_tests_spec; exact Hf|].
  assert (Hst : php_stmt_in (tf_body f) u) by (apply php_statement_spec in S0; destruct S0 as (K1 & K2 & K3); exists p, g; auto).
  split; [exact Hst|]. split; [rewrite <- Hs; symmetry; apply ts_span; exact php_ok|]. split; [|split].
  - intros Hl. apply Hkp. right. exists (ts_node php_class (Some (t_info (tf_body f))) u). split; [apply (plast_some root); assumption|]. rewrite psame. apply Nat.eqb_refl.
  - destruct Hcase as [(_ & H1 & H2 & _)|(c & Hc & _)]; [intros Hk'; apply Hkept in Hk'; destruct Hk'; congruence|].
    apply (pcall_statement_view _ _ _ S0) in Hc. destruct Hc as (c' & _ & Hc). eapply call_statement_not_kept. exact Hc.
  - destruct Hcase as [(H1 & _ & _ & H2)|(c & Hc & Hni & _)].
    + right. split; [intros c Hc; apply (H1 (php_view c)); apply (pcall_statement_view _ _ _ S0); eauto|]. intros v (q & h & Hr & Ho & Kq & Hv & Nv & Xv).
      assert (X : exists h' w, In (h', w) (t_kids u) /\ opens php_class (php_env E) (Some (t_info u)) w (Some (t_info q)) v).
      { inversion Hr as [t0|a ks h' w u' Hob Hkw Hr' Ha]; subst; [exists h, v; split; [exact Hv|constructor]|].
        exists h', w. split; [exact Hkw|]. cbn [t_info]. destruct (reaches_opens E w q Hr' (Some a)) as (p' & Hp'). eapply opens_snoc; [exact Hp'|apply open_passes; exact Ho|exact Hv]. }
      destruct X as (h' & w & Hw' & Hop). apply (opens_path php_class php_ok (php_env E) _ _ _ _ (pfw_kids E)) in Hop.
      assert (Hkn : In (ts_node php_class (Some (t_info u)) w) (kids_nodes php_class u)) by (apply in_kids_nodes; eauto).
      assert (Hsv : is_stmt (ts_node php_class (Some (t_info q)) v)) by (apply stmt_view_facts; apply php_statement_spec; auto).
      destruct (kid_within php_class php_ok (Some (t_info p)) u _ Hkn) as (x & Hx & [->|((y & j & v0 & Cv & _) & _)]); [|rewrite (php_class_stmt _ _ S0) in Cv; discriminate].
      exact (leaf_open _ _ R _ His H2 _ _ Hx Hop Hsv).
    + left. apply (pcall_statement_view _ _ _ S0) in Hc. destruct Hc as (c' & -> & Hc). exists c'. split; [exact Hc|]. destruct Hc as (e & _ & Hp').
      rewrite <- (pignored_call_view E c' (pperforms_call e c' Hp')). exact Hni.
Qed.
Print Assumptions C65_statement_candidates.

(** A method call that is a candidate of [t] is a call [base->p1...->pn(..)] in the body of [t] that is not ignored; the candidate is what follows [base]. *)
Theorem C65_method_candidates : forall E root st sp t, result (php_env E) (php_file root) st -> candidate st MethodCall sp t ->
  v_skip E sp = false /\ v_ign_test E t = false /\
  exists b c base p, php_test root t b /\ inside b c /\ php_method c base p /\
    method_span E (t_span (t_info c)) (t_span (t_info base)) = Some sp /\ ~ php_ignored_call E c /\ ~ php_ignored_method E c.
Proof.
  intros E root st sp t HR HC. pose proof (php_parsed E root) as HP.
  destruct (candidate_runs_last _ _ _ HP HR MethodCall sp t (php_apart E) HC) as (n & L & R & Hn & Hy).
  apply yields_method in Hy. destruct Hy as (k & m & ctx & Hk & Hv & Hsk & ((x & Kx) & Hni & Hnm & B & p & Hm & Hsp) & _). split; [exact Hsk|].
  destruct Hn as [(Hn & ->)|(Hn & _)]; [|destruct (no_test_calls E root t n Hn)].
  destruct (php_named E root n t Hn) as (f & Hf & -> & Ht & Hi). split; [exact Hi|]. apply visits_within in Hv.
  assert (Hws : within (php_test_node f) m) by (eapply wi_kid; eassumption). assert (Hc : is_call m) by (eexists _, _; exact Kx).
  destruct (ptest_call f m Hws Hc) as (q & g & c & Hq & Hcq & -> & Hcc). apply view_method_php in Hm. destruct Hm as (base & -> & Hm).
  exists (tf_body f), c, base, p. split; [rewrite <- Ht; apply php_tests_spec; exact Hf|]. split; [eapply inside_trans; [exact Hq|eapply inside_kid; exact Hcq]|]. split; [exact Hm|].
  split; [unfold php_view in Hsp; rewrite !(ts_span php_class php_ok) in Hsp; exact Hsp|]. split; [rewrite <- (pignored_call_view E c Hcc); exact Hni|rewrite <- (pignored_method_view E c); exact Hnm].
Qed.
Print Assumptions C65_method_candidates.

(** Every statement of a block of a test but the last is a candidate of that test, if it is plain, or a call that is not ignored. *)
Theorem C65_statements_of_tests : forall E root st t b u, result (php_env E) (php_file root) st ->
  NoDup (tree_ids root) -> php_test root t b -> v_ign_test E t = false -> php_statement_of E b u ->
  php_plain_statement u \/ php_removable_call E u -> ~ php_last b u -> v_skip E (t_span (t_info u)) = false ->
  candidate st Statement (t_span (t_info u)) t.
Proof.
  intros E root st t b u HR N Hb Hi (q & g & Hr & Ho & Kq & Hu & Nu & Xu) Hcase Hl Hsk. pose proof (php_parsed E root) as HP. destruct (php_test_tests root t b Hb) as (f & Hf & <- & <-).
  assert (S0 : php_statement (Some (t_info q)) u = true) by (apply php_statement_spec; auto).
  assert (Hsp : n_span (ts_node php_class (Some (t_info q)) u) = t_span (t_info u)) by (apply ts_span; exact php_ok). rewrite <- Hsp in *.
  eapply C33_statements_of_tests; [exact HP|exact HR|apply php_file_test; eassumption|eapply php_in_body; eassumption| | |exact Hsk].
  - destruct Hcase as [Hc|Hc]; [left; apply pplain_leaf; assumption|right; apply pcall_removable; assumption].
  - intros l Hll. destruct (plast_node root f l Hf Hll) as (v & Hv & ->). rewrite psame. apply Nat.eqb_neq. intros Heq. apply Hl.
    destruct (php_body_kind root f Hf) as (_ & Hbody). destruct (plast_inside _ _ Hv) as (h & Hh).
    assert (v = u); [|subst; exact Hv]. apply (same_tree root N); [eapply inside_trans; [exact Hbody|eapply inside_kid; exact Hh]| |lia].
    eapply inside_trans; [exact Hbody|]. eapply inside_trans; [eapply reaches_inside; exact Hr|eapply inside_kid; exact Hu].
Qed.
Print Assumptions C65_statements_of_tests.

(** Every method call of a test that is not ignored is a candidate of that test, unless it makes up its last statement. *)
Theorem C65_method_calls_of_tests : forall E root st t b c base p sp, result (php_env E) (php_file root) st ->
  NoDup (tree_ids root) -> php_test root t b -> v_ign_test E t = false -> php_part_of E b c -> php_method c base p ->
  ~ php_ignored_call E c -> ~ php_ignored_method E c -> (forall u, php_last b u -> ~ php_call_statement u c) ->
  method_span E (t_span (t_info c)) (t_span (t_info base)) = Some sp -> v_skip E sp = false ->
  candidate st MethodCall sp t.
Proof.
  intros E root st t b c base p sp HR N Hb Hi (q & g & Hr & Ho & Kq & Hu) Hm Hni Hnm Hl Hsp Hsk. pose proof (php_parsed E root) as HP. destruct (php_test_tests root t b Hb) as (f & Hf & <- & <-).
  pose proof (method_is_call _ _ _ Hm) as Hc. destruct (php_body_kind root f Hf) as (_ & Hbody).
  eapply C33_method_calls_of_tests with (c := php_view c) (b := php_view base) (p := p); [exact HP|exact HR|apply php_file_test; eassumption| | | | | | | | |].
  - rewrite <- (php_kid q c Kq). eapply php_in_body; eassumption.
  - apply pcall_view in Hc. revert Hc. destruct (php_nodes c) as [f0 args F|b0 args K O|b0 r A|x ks X|ks N1 N2 N3]; intros (h & y & Hy); try discriminate; eexists; reflexivity.
  - apply pmethod_view. exact Hm.
  - rewrite (pignored_call_view E c Hc). exact Hni.
  - destruct (v_ign_met (php_env E) (dotted p)) eqn:V; [|reflexivity]. exfalso. apply Hnm. exists base, p. auto.
  - intros h. apply no_local.
  - intros s Hws Hcs. assert (Hs : is_stmt s) by (eapply call_statement_stmt; exact Hcs). destruct (ptest_stmt f s Hws Hs) as (p' & h & u & Hp' & Hup & -> & S0).
    destruct (stmt_view_facts _ _ S0) as (_ & Hrm & _). split; [exact Hrm|]. intros l Hll. destruct (plast_node root f l Hf Hll) as (v & Hv & ->). rewrite psame. apply Nat.eqb_neq. intros Heq.
    destruct (plast_inside _ _ Hv) as (h' & Hh').
    assert (Hin : inside root u) by (eapply inside_trans; [exact Hbody|]; eapply inside_trans; [exact Hp'|eapply inside_kid; exact Hup]).
    assert (v = u) by (apply (same_tree root N); [eapply inside_trans; [exact Hbody|eapply inside_kid; exact Hh']|exact Hin|lia]). subst v.
    apply (pcall_statement_view _ _ _ S0) in Hcs. destruct Hcs as (c' & He & Hcs). assert (c' = c); [|subst c'; exact (Hl u Hv Hcs)]. symmetry.
    apply (same_tree root N).
    + eapply inside_trans; [exact Hbody|]. eapply inside_trans; [eapply reaches_inside; exact Hr|eapply inside_kid; exact Hu].
    + eapply inside_trans; [exact Hin|]. apply pcall_statement_inside. exact Hcs.
    + assert (X : n_id (php_view c) = n_id (php_view c')) by congruence. unfold php_view in X. rewrite !(ts_id php_class php_ok) in X. lia.
  - unfold php_view. rewrite !(ts_span php_class php_ok). exact Hsp.
  - exact Hsk.
Qed.
Print Assumptions C65_method_calls_of_tests.

(** No PHP file makes the walk panic, as long as the base of each method call starts and ends inside the call. *)
Theorem C65_no_panic : forall E root fuel,
  (forall c base p, inside root c -> php_method c base p -> method_span E (t_span (t_info c)) (t_span (t_info base)) <> None) ->
  visit_file (php_env E) fuel (php_file root) <> LPanic.
Proof.
  intros E root fuel HS. pose proof (php_parsed E root) as HP. apply C36_no_panic; [exact HP| | |intros x f fs Hx; discriminate].
  - intros m t b k Hm K Hk. destruct (within_inv _ _ Hm) as [->|(h & Hh & Hw)]; [discriminate|]. cbn [php_file tnode n_kids] in Hh. apply in_map_iff in Hh. destruct Hh as (f & <- & Hf).
    pose proof (ptest_no_test f m t b Hw K). subst m. intros x y z Hx Ky. assert (Hx' : within (php_test_node f) x) by (eapply wi_kid; eassumption).
    pose proof (ptest_no_test f x y z Hx' Ky). subst x. clear - Hk Hx. assert (Hid : forall a b, within a b -> nsize b <= nsize a).
    { intros a b Hab. induction Hab as [|a0 k0 b0 Hk0 _ IH0]; [lia|]. destruct a0 as [l0 ks0]. pose proof (nsize_kid l0 ks0 k0 Hk0). lia. }
    pose proof (Hid _ _ Hx). destruct (php_test_node f) as [l ks]. pose proof (nsize_kid l ks k Hk). lia.
  - intros c B p Hc Hm. destruct (within_inv _ _ Hc) as [->|(h & Hh & Hw)]; [destruct Hm as ((h & x & K) & _); discriminate|]. cbn [php_file tnode n_kids] in Hh. apply in_map_iff in Hh. destruct Hh as (f & <- & Hf).
    destruct (ptest_call f c Hw (proj1 Hm)) as (q & g & u & Hq & Hu & -> & Huc). apply view_method_php in Hm. destruct Hm as (base & -> & Hm).
    unfold php_view. rewrite !(ts_span php_class php_ok). apply (HS u base p); [|exact Hm].
    eapply inside_trans; [apply (php_body_kind root f Hf)|]. eapply inside_trans; [exact Hq|eapply inside_kid; exact Hu].
Qed.
Print Assumptions C65_no_panic.

(** The walk of a PHP file ends, with a result if the above holds. *)
Theorem C65_result : forall E root,
  (forall c base p, inside root c -> php_method c base p -> method_span E (t_span (t_info c)) (t_span (t_info base)) <> None) ->
  exists st, result (php_env E) (php_file root) st.
Proof.
  intros E root HS. destruct (php_parsed E root) as [W WF].
  destruct (C35_walk_ends (php_env E) (php_file root) [] W) as (r & Hr & HF); [intros x f fs Hx; discriminate|].
  specialize (HF _ (le_n _)). pose proof (C65_no_panic E root (length (@nil node)) HS) as HP.
  destruct r as [st| |]; [exists st; eexists; exact HF| |congruence]. congruence.
Qed.
Print Assumptions C65_result.

(** A class with the test [testA] and a method that is not a test. *)
Definition php_ex_text : text := s2t "<?php" ++ [NL] ++ s2t "class ATest extends TestCase {" ++ [NL] ++ s2t "function testA() { /* c */ $x = 1; g($x); $o->p->m(); $this->assertTrue($y); if ($b) { h(); } switch ($c) { case 1: k(); } throw $e; z(); }" ++ [NL] ++ s2t "function helper() { q(); r(); }" ++ [NL] ++ s2t "}" ++ [NL] ++ s2t "".
(** The texts of nodes that span several lines are left out. *)
Definition php_ex : tree :=
 Tree (TI 1 (s2t "program") true false false false (Span xp (LC 1 0) (LC 6 0)) []) [(None, Tree (TI 2 (s2t "php_tag") true false false false (Span xp (LC 1 0) (LC 1 5)) (s2t "<?php")) []);
 (None, Tree (TI 3 (s2t "class_declaration") true false false false (Span xp (LC 2 0) (LC 5 1)) []) [(Some (s2t "name"), Tree (TI 4 (s2t "name") true false false false (Span xp (LC 2 6) (LC 2 11)) (s2t "ATest")) []);
  (Some (s2t "body"), Tree (TI 5 (s2t "declaration_list") true false false false (Span xp (LC 2 29) (LC 5 1)) []) [(None, Tree (TI 6 (s2t "method_declaration") true false false false (Span xp (LC 3 0) (LC 3 139)) (s2t "function testA() { /* c */ $x = 1; g($x); $o->p->m(); $this->assertTrue($y); if ($b) { h(); } switch ($c) { case 1: k(); } throw $e; z(); }")) [(Some (s2t "name"), Tree (TI 7 (s2t "name") true false false false (Span xp (LC 3 9) (LC 3 14)) (s2t "testA")) []);
    (Some (s2t "parameters"), Tree (TI 8 (s2t "formal_parameters") true false false false (Span xp (LC 3 14) (LC 3 16)) (s2t "()")) []);
    (Some (s2t "body"), Tree (TI 9 (s2t "compound_statement") true false false false (Span xp (LC 3 17) (LC 3 139)) (s2t "{ /* c */ $x = 1; g($x); $o->p->m(); $this->assertTrue($y); if ($b) { h(); } switch ($c) { case 1: k(); } throw $e; z(); }")) [(None, Tree (TI 10 (s2t "{") false false false false (Span xp (LC 3 17) (LC 3 18)) (s2t "{")) []);
     (None, Tree (TI 11 (s2t "comment") true true false false (Span xp (LC 3 19) (LC 3 26)) (s2t "/* c */")) []);
     (None, Tree (TI 12 (s2t "expression_statement") true false false false (Span xp (LC 3 27) (LC 3 34)) (s2t "$x = 1;")) [(None, Tree (TI 13 (s2t "assignment_expression") true false false false (Span xp (LC 3 27) (LC 3 33)) (s2t "$x = 1")) [(Some (s2t "left"), Tree (TI 14 (s2t "variable_name") true false false false (Span xp (LC 3 27) (LC 3 29)) (s2t "$x")) []);
       (Some (s2t "right"), Tree (TI 15 (s2t "integer") true false false false (Span xp (LC 3 32) (LC 3 33)) (s2t "1")) [])]);
      (None, Tree (TI 16 (s2t ";") false false false false (Span xp (LC 3 33) (LC 3 34)) (s2t ";")) [])]);
     (None, Tree (TI 17 (s2t "expression_statement") true false false false (Span xp (LC 3 35) (LC 3 41)) (s2t "g($x);")) [(None, Tree (TI 18 (s2t "function_call_expression") true false false false (Span xp (LC 3 35) (LC 3 40)) (s2t "g($x)")) [(Some (s2t "function"), Tree (TI 19 (s2t "name") true false false false (Span xp (LC 3 35) (LC 3 36)) (s2t "g")) []);
       (Some (s2t "arguments"), Tree (TI 20 (s2t "arguments") true false false false (Span xp (LC 3 36) (LC 3 40)) (s2t "($x)")) [])]);
      (None, Tree (TI 21 (s2t ";") false false false false (Span xp (LC 3 40) (LC 3 41)) (s2t ";")) [])]);
     (None, Tree (TI 22 (s2t "expression_statement") true false false false (Span xp (LC 3 42) (LC 3 53)) (s2t "$o->p->m();")) [(None, Tree (TI 23 (s2t "member_call_expression") true false false false (Span xp (LC 3 42) (LC 3 52)) (s2t "$o->p->m()")) [(Some (s2t "object"), Tree (TI 24 (s2t "member_access_expression") true false false false (Span xp (LC 3 42) (LC 3 47)) (s2t "$o->p")) [(Some (s2t "object"), Tree (TI 25 (s2t "variable_name") true false false false (Span xp (LC 3 42) (LC 3 44)) (s2t "$o")) []);
        (Some (s2t "name"), Tree (TI 26 (s2t "name") true false false false (Span xp (LC 3 46) (LC 3 47)) (s2t "p")) [])]);
       (Some (s2t "name"), Tree (TI 27 (s2t "name") true false false false (Span xp (LC 3 49) (LC 3 50)) (s2t "m")) []);
       (Some (s2t "arguments"), Tree (TI 28 (s2t "arguments") true false false false (Span xp (LC 3 50) (LC 3 52)) (s2t "()")) [])]);
      (None, Tree (TI 29 (s2t ";") false false false false (Span xp (LC 3 52) (LC 3 53)) (s2t ";")) [])]);
     (None, Tree (TI 30 (s2t "expression_statement") true false false false (Span xp (LC 3 54) (LC 3 76)) (s2t "$this->assertTrue($y);")) [(None, Tree (TI 31 (s2t "member_call_expression") true false false false (Span xp (LC 3 54) (LC 3 75)) (s2t "$this->assertTrue($y)")) [(Some (s2t "object"), Tree (TI 32 (s2t "variable_name") true false false false (Span xp (LC 3 54) (LC 3 59)) (s2t "$this")) []);
       (Some (s2t "name"), Tree (TI 33 (s2t "name") true false false false (Span xp (LC 3 61) (LC 3 71)) (s2t "assertTrue")) []);
       (Some (s2t "arguments"), Tree (TI 34 (s2t "arguments") true false false false (Span xp (LC 3 71) (LC 3 75)) (s2t "($y)")) [])]);
      (None, Tree (TI 35 (s2t ";") false false false false (Span xp (LC 3 75) (LC 3 76)) (s2t ";")) [])]);
     (None, Tree (TI 36 (s2t "if_statement") true false false false (Span xp (LC 3 77) (LC 3 93)) (s2t "if ($b) { h(); }")) [(Some (s2t "condition"), Tree (TI 37 (s2t "parenthesized_expression") true false false false (Span xp (LC 3 80) (LC 3 84)) (s2t "($b)")) []);
      (Some (s2t "body"), Tree (TI 38 (s2t "compound_statement") true false false false (Span xp (LC 3 85) (LC 3 93)) (s2t "{ h(); }")) [(None, Tree (TI 39 (s2t "{") false false false false (Span xp (LC 3 85) (LC 3 86)) (s2t "{")) []);
       (None, Tree (TI 40 (s2t "expression_statement") true false false false (Span xp (LC 3 87) (LC 3 91)) (s2t "h();")) [(None, Tree (TI 41 (s2t "function_call_expression") true false false false (Span xp (LC 3 87) (LC 3 90)) (s2t "h()")) [(Some (s2t "function"), Tree (TI 42 (s2t "name") true false false false (Span xp (LC 3 87) (LC 3 88)) (s2t "h")) []);
         (Some (s2t "arguments"), Tree (TI 43 (s2t "arguments") true false false false (Span xp (LC 3 88) (LC 3 90)) (s2t "()")) [])]);
        (None, Tree (TI 44 (s2t ";") false false false false (Span xp (LC 3 90) (LC 3 91)) (s2t ";")) [])]);
       (None, Tree (TI 45 (s2t "}") false false false false (Span xp (LC 3 92) (LC 3 93)) (s2t "}")) [])])]);
     (None, Tree (TI 46 (s2t "switch_statement") true false false false (Span xp (LC 3 94) (LC 3 122)) (s2t "switch ($c) { case 1: k(); }")) [(Some (s2t "condition"), Tree (TI 47 (s2t "parenthesized_expression") true false false false (Span xp (LC 3 101) (LC 3 105)) (s2t "($c)")) []);
      (Some (s2t "body"), Tree (TI 48 (s2t "switch_block") true false false false (Span xp (LC 3 106) (LC 3 122)) (s2t "{ case 1: k(); }")) [(None, Tree (TI 49 (s2t "case_statement") true false false false (Span xp (LC 3 108) (LC 3 120)) (s2t "case 1: k();")) [(Some (s2t "value"), Tree (TI 50 (s2t "integer") true false false false (Span xp (LC 3 113) (LC 3 114)) (s2t "1")) []);
        (None, Tree (TI 51 (s2t "expression_statement") true false false false (Span xp (LC 3 116) (LC 3 120)) (s2t "k();")) [(None, Tree (TI 52 (s2t "function_call_expression") true false false false (Span xp (LC 3 116) (LC 3 119)) (s2t "k()")) [(Some (s2t "function"), Tree (TI 53 (s2t "name") true false false false (Span xp (LC 3 116) (LC 3 117)) (s2t "k")) []);
          (Some (s2t "arguments"), Tree (TI 54 (s2t "arguments") true false false false (Span xp (LC 3 117) (LC 3 119)) (s2t "()")) [])]);
         (None, Tree (TI 55 (s2t ";") false false false false (Span xp (LC 3 119) (LC 3 120)) (s2t ";")) [])])])])]);
     (None, Tree (TI 56 (s2t "expression_statement") true false false false (Span xp (LC 3 123) (LC 3 132)) (s2t "throw $e;")) [(None, Tree (TI 57 (s2t "throw_expression") true false false false (Span xp (LC 3 123) (LC 3 131)) (s2t "throw $e")) [(None, Tree (TI 58 (s2t "variable_name") true false false false (Span xp (LC 3 129) (LC 3 131)) (s2t "$e")) [])]);
      (None, Tree (TI 59 (s2t ";") false false false false (Span xp (LC 3 131) (LC 3 132)) (s2t ";")) [])]);
     (None, Tree (TI 60 (s2t "expression_statement") true false false false (Span xp (LC 3 133) (LC 3 137)) (s2t "z();")) [(None, Tree (TI 61 (s2t "function_call_expression") true false false false (Span xp (LC 3 133) (LC 3 136)) (s2t "z()")) [(Some (s2t "function"), Tree (TI 62 (s2t "name") true false false false (Span xp (LC 3 133) (LC 3 134)) (s2t "z")) []);
       (Some (s2t "arguments"), Tree (TI 63 (s2t "arguments") true false false false (Span xp (LC 3 134) (LC 3 136)) (s2t "()")) [])]);
      (None, Tree (TI 64 (s2t ";") false false false false (Span xp (LC 3 136) (LC 3 137)) (s2t ";")) [])]);
     (None, Tree (TI 65 (s2t "}") false false false false (Span xp (LC 3 138) (LC 3 139)) (s2t "}")) [])])]);
   (None, Tree (TI 66 (s2t "method_declaration") true false false false (Span xp (LC 4 0) (LC 4 31)) (s2t "function helper() { q(); r(); }")) [(Some (s2t "name"), Tree (TI 67 (s2t "name") true false false false (Span xp (LC 4 9) (LC 4 15)) (s2t "helper")) []);
    (Some (s2t "parameters"), Tree (TI 68 (s2t "formal_parameters") true false false false (Span xp (LC 4 15) (LC 4 17)) (s2t "()")) []);
    (Some (s2t "body"), Tree (TI 69 (s2t "compound_statement") true false false false (Span xp (LC 4 18) (LC 4 31)) (s2t "{ q(); r(); }")) [(None, Tree (TI 70 (s2t "{") false false false false (Span xp (LC 4 18) (LC 4 19)) (s2t "{")) []);
     (None, Tree (TI 71 (s2t "expression_statement") true false false false (Span xp (LC 4 20) (LC 4 24)) (s2t "q();")) [(None, Tree (TI 72 (s2t "function_call_expression") true false false false (Span xp (LC 4 20) (LC 4 23)) (s2t "q()")) [(Some (s2t "function"), Tree (TI 73 (s2t "name") true false false false (Span xp (LC 4 20) (LC 4 21)) (s2t "q")) []);
       (Some (s2t "arguments"), Tree (TI 74 (s2t "arguments") true false false false (Span xp (LC 4 21) (LC 4 23)) (s2t "()")) [])]);
      (None, Tree (TI 75 (s2t ";") false false false false (Span xp (LC 4 23) (LC 4 24)) (s2t ";")) [])]);
     (None, Tree (TI 76 (s2t "expression_statement") true false false false (Span xp (LC 4 25) (LC 4 29)) (s2t "r();")) [(None, Tree (TI 77 (s2t "function_call_expression") true false false false (Span xp (LC 4 25) (LC 4 28)) (s2t "r()")) [(Some (s2t "function"), Tree (TI 78 (s2t "name") true false false false (Span xp (LC 4 25) (LC 4 26)) (s2t "r")) []);
       (Some (s2t "arguments"), Tree (TI 79 (s2t "arguments") true false false false (Span xp (LC 4 26) (LC 4 28)) (s2t "()")) [])]);
      (None, Tree (TI 80 (s2t ";") false false false false (Span xp (LC 4 28) (LC 4 29)) (s2t ";")) [])]);
     (None, Tree (TI 81 (s2t "}") false false false false (Span xp (LC 4 30) (LC 4 31)) (s2t "}")) [])])])])])].
Definition php_ex_env : venv :=
  VEnv fw_php (fun _ => false) (fun _ => false) (fun m => starts_with_text (s2t "assert") m) (fun _ => false) false DNone (fun _ => []) (fun _ => false) php_ex_text.
Definition php_ex_st : vst := st_of (php_env php_ex_env) (php_file php_ex).
Definition php_at (i : nat) : tree := match find (fun t => Nat.eqb (t_id (t_info t)) i) (subtrees php_ex) with Some t => t | None => php_ex end.
Lemma php_at_inside i : inside php_ex (php_at i).
Proof. apply subtrees_inside. unfold php_at. destruct (find _ (subtrees php_ex)) as [t|] eqn:F; [eapply find_some; exact F|]. left. reflexivity. Qed.
Example php_ex_result : result (php_env php_ex_env) (php_file php_ex) php_ex_st.
Proof. exists 9. vm_compute. reflexivity. Qed.
Example php_ex_candidates : cands php_ex_st =
  [(Statement, 27, 34, [s2t "testA"]); (Statement, 35, 41, [s2t "testA"]); (Statement, 42, 53, [s2t "testA"]); (Statement, 87, 91, [s2t "testA"]);
   (Statement, 94, 122, [s2t "testA"]); (MethodCall, 44, 52, [s2t "testA"])]%nat /\ s_tset php_ex_st = [s2t "testA"].
Proof. split; vm_compute; reflexivity. Qed.
Lemma php_ex_ids : NoDup (tree_ids php_ex).
Proof. assert (H : tree_ids php_ex = List.seq 1 (length (tree_ids php_ex))) by (vm_compute; reflexivity). rewrite H. apply seq_NoDup. Qed.
Lemma php_ex_kid b k : existsb (fun fk => Nat.eqb (t_id (t_info (snd fk))) k) (t_kids (php_at b)) = true -> k = t_id (t_info (php_at k)) -> exists f, In (f, php_at k) (t_kids (php_at b)).
Proof.
  intros H Hk. apply existsb_exists in H. destruct H as ((f & v) & Hv & He). cbn [snd] in He. apply Nat.eqb_eq in He.
  assert (v = php_at k). { apply (same_tree php_ex php_ex_ids); [eapply inside_trans; [apply (php_at_inside b)|eapply inside_kid; exact Hv]|apply php_at_inside|congruence]. }
  subst v. eauto.
Qed.
Lemma php_not_call t : kind_of t <> s2t "function_call_expression" -> mem_text (kind_of t) php_call_kinds = false -> forall E, php_open E t.
Proof. intros H1 H2 E [(f & F & _)|(K & _)]; [destruct (H1 F)|]. apply method_kind in K. congruence. Qed.
Lemma php_reach E b k u : existsb (fun fk => Nat.eqb (t_id (t_info (snd fk))) k) (t_kids (php_at b)) = true -> k = t_id (t_info (php_at k)) -> php_open E (php_at b) ->
  reaches (php_open E) (php_at k) u -> reaches (php_open E) (php_at b) u.
Proof.
  intros H1 H2 H3 H4. destruct (php_ex_kid b k H1 H2) as (f & Hf). destruct (php_at b) as [a ks]. econstructor; [exact H3|exact Hf|exact H4].
Qed.
Lemma php_ex_last u : php_last (php_at 9) u -> u = php_at 60.
Proof.
  intros Hl. destruct (plast_inside _ _ Hl) as (f & Hf). destruct Hl as (pre & H). apply (f_equal (fun l => last (map (fun t => t_id (t_info t)) l) 0%nat)) in H.
  rewrite map_app in H. cbn [map] in H. rewrite last_last in H.
  apply (same_tree php_ex php_ex_ids); [eapply inside_trans; [apply (php_at_inside 9)|eapply inside_kid; exact Hf]|apply php_at_inside|]. rewrite <- H. vm_compute. reflexivity.
Qed.
Lemma php_ex_method : php_method (php_at 23) (php_at 25) [s2t "p"; s2t "m"].
Proof.
  right. exists (php_at 24), (s2t "m"), [s2t "p"]. split; [apply mem_text_In; vm_compute; reflexivity|]. split; [apply object_child; vm_compute; reflexivity|].
  split; [exists (php_at 27); split; vm_compute; reflexivity|]. split; [|reflexivity].
  apply (pp_access _ (s2t "p") (php_at 25) _ []); [split; [apply mem_text_In; vm_compute; reflexivity|apply object_child; vm_compute; reflexivity]|exists (php_at 26); split; vm_compute; reflexivity|].
  apply pp_base. intros x b ((K & _) & _). apply access_kind in K. vm_compute in K. discriminate.
Qed.
Lemma php_ex_method_only b p : php_method (php_at 23) b p -> php_view b = php_view (php_at 25) /\ p = [s2t "p"; s2t "m"].
Proof.
  intros H. apply pmethod_view in H. pose proof (pmethod_view _ _ _ php_ex_method) as H'. destruct (method_call_det _ _ _ _ _ H H') as [-> ->]. auto.
Qed.
Lemma php_ex_23 : ~ php_ignored_call php_ex_env (php_at 23) /\ ~ php_ignored_method php_ex_env (php_at 23).
Proof.
  assert (M : ~ php_ignored_method php_ex_env (php_at 23)).
  { intros (b & p & Hm & Hi). destruct (php_ex_method_only b p Hm) as (_ & ->). vm_compute in Hi. discriminate. }
  split; [|exact M]. intros [H|(b & p & Hm & _ & Hi)]; [|apply M; exists b, p; auto].
  inversion H as [c f (K & _)|c b p x Hm Hx|c b p Hm Hb]; subst.
  - vm_compute in K. discriminate.
  - destruct (php_ex_method_only b p Hm) as (Hv & _). apply pident_view in Hx. rewrite Hv in Hx. vm_compute in Hx. discriminate.
  - destruct (php_ex_method_only b p Hm) as (Hv & _). apply pcall_view in Hb. rewrite Hv in Hb. destruct Hb as (h & y & Hy). vm_compute in Hy. discriminate.
Qed.
Lemma php_ex_plain_call c f : kind_of c = s2t "function_call_expression" -> child (s2t "function") c = Some f -> kind_of f = s2t "name" -> ~ php_ignored_call php_ex_env c.
Proof.
  intros Kc Cf Kf. assert (NM : forall b p, ~ php_method c b p).
  { intros b p [(f' & (_ & F') & Hp & Hne)|(b' & x & q & K & _)]; [|apply method_kind in K; rewrite Kc in K; vm_compute in K; discriminate].
    rewrite Cf in F'. inversion F'; subst f'. inversion Hp as [e Hno|e x b0 base p0 (K & _)]; subst; [apply Hne; reflexivity|]. apply access_kind in K. rewrite Kf in K. vm_compute in K. discriminate. }
  intros [H|(b & p & Hm & _)]; [|exact (NM b p Hm)]. inversion H as [c0 f0 F Hno Hi|c0 b p x Hm Hx|c0 b p Hm Hb]; subst; [discriminate|exact (NM b p Hm)|exact (NM b p Hm)].
Qed.
(** The hypotheses of the theorems above, for the statements [$x = 1;], [g($x);] and [h();] and the call [$o->p->m()] of [testA]. *)
Example C65_nonvacuous :
  NoDup (tree_ids php_ex) /\ php_test php_ex (s2t "testA") (php_at 9) /\ v_ign_test php_ex_env (s2t "testA") = false /\
  (php_statement_of php_ex_env (php_at 9) (php_at 12) /\ php_plain_statement (php_at 12) /\ ~ php_last (php_at 9) (php_at 12)) /\
  (php_statement_of php_ex_env (php_at 9) (php_at 17) /\ php_removable_call php_ex_env (php_at 17) /\ ~ php_last (php_at 9) (php_at 17)) /\
  (php_statement_of php_ex_env (php_at 9) (php_at 40) /\ php_removable_call php_ex_env (php_at 40) /\ ~ php_last (php_at 9) (php_at 40)) /\
  (php_part_of php_ex_env (php_at 9) (php_at 23) /\ php_method (php_at 23) (php_at 25) [s2t "p"; s2t "m"] /\ ~ php_ignored_call php_ex_env (php_at 23) /\
   ~ php_ignored_method php_ex_env (php_at 23) /\ forall u, php_last (php_at 9) u -> ~ php_call_statement u (php_at 23)) /\
  t_text (t_info (php_at 12)) = s2t "$x = 1;" /\ t_text (t_info (php_at 17)) = s2t "g($x);" /\ t_text (t_info (php_at 40)) = s2t "h();" /\
  t_text (t_info (php_at 23)) = s2t "$o->p->m()".
Proof.
  split; [exact php_ex_ids|].
  assert (O9 : php_open php_ex_env (php_at 9)) by (apply php_not_call; [vm_compute; discriminate|vm_compute; reflexivity]).
  assert (NL : forall i, i <> 60%nat -> i = t_id (t_info (php_at i)) -> ~ php_last (php_at 9) (php_at i)).
  { intros i Hi Hid H. apply php_ex_last in H. rewrite H in Hid. apply Hi. rewrite Hid. vm_compute. reflexivity. }
  assert (CS : forall i j k, kind_of (php_at i) = s2t "expression_statement" -> (exists post, t_kids (php_at i) = (None, php_at j) :: post) -> t_named (t_info (php_at j)) = true ->
    kind_of (php_at j) = s2t "function_call_expression" -> child (s2t "function") (php_at j) = Some (php_at k) -> kind_of (php_at k) = s2t "name" -> php_removable_call php_ex_env (php_at i)).
  { intros i j k K (post & Hk) Hn Kj Ck Kk. exists (php_at j). split; [|eapply php_ex_plain_call; eassumption]. exists (php_at j).
    split; [split; [exact K|]; exists [], None, post; split; [exact Hk|]; split; [exact Hn|intros x []]|]. constructor. left. exists (php_at k). split; assumption. }
  split; [split|].
  { exists (php_at 6). split; [apply php_at_inside|]. split; [vm_compute; reflexivity|]. split; [vm_compute; reflexivity|]. split; [vm_compute; reflexivity|].
    exists (php_at 7). split; [vm_compute; reflexivity|]. split; vm_compute; reflexivity. }
  { exists (s2t "A"). reflexivity. }
  split; [reflexivity|]. split; [|split; [|split; [|split]]].
  - split; [|split; [|apply NL; [discriminate|vm_compute; reflexivity]]].
    + destruct (php_ex_kid 9 12) as (f & Hf); [vm_compute; reflexivity|vm_compute; reflexivity|]. exists (php_at 9), f. split; [constructor|]. split; [exact O9|]. split; [vm_compute; reflexivity|].
      split; [exact Hf|]. split; vm_compute; reflexivity.
    + split; [intros H; apply pkept in H; vm_compute in H; destruct H; discriminate|]. split.
      * intros c (e & He & Hp). apply pexpression_index in He. destruct He as (_ & j & f & J & Nj). assert (J' : first_named (php_at 12) = Some 0%nat) by (vm_compute; reflexivity). rewrite J' in J. inversion J; subst j.
        assert (Ne : nth_error (t_kids (php_at 12)) 0 = Some (None, php_at 13)) by (vm_compute; reflexivity). rewrite Ne in Nj. inversion Nj; subst e.
        inversion Hp as [c0 [(f' & F & _)|(F & _)]|e0 b c0 (F & _)]; subst; [vm_compute in F; discriminate|apply method_kind in F; vm_compute in F; discriminate|apply access_kind in F; vm_compute in F; discriminate].
      * intros v (q & f & Hq & Kq & _). apply subtrees_inside in Hq. apply (in_map kind_of) in Hq. rewrite Kq in Hq. apply mem_text_In in Hq. vm_compute in Hq. discriminate.
  - split; [|split; [|apply NL; [discriminate|vm_compute; reflexivity]]].
    + destruct (php_ex_kid 9 17) as (f & Hf); [vm_compute; reflexivity|vm_compute; reflexivity|]. exists (php_at 9), f. split; [constructor|]. split; [exact O9|]. split; [vm_compute; reflexivity|].
      split; [exact Hf|]. split; vm_compute; reflexivity.
    + apply (CS 17 18 19)%nat; try (vm_compute; reflexivity). eexists. vm_compute. reflexivity.
  - split; [|split; [|apply NL; [discriminate|vm_compute; reflexivity]]].
    + destruct (php_ex_kid 38 40) as (f & Hf); [vm_compute; reflexivity|vm_compute; reflexivity|]. exists (php_at 38), f.
      split; [|split; [apply php_not_call; [vm_compute; discriminate|vm_compute; reflexivity]|]].
      * apply (php_reach _ 9 36); [vm_compute; reflexivity|vm_compute; reflexivity|exact O9|]. apply (php_reach _ 36 38); [vm_compute; reflexivity|vm_compute; reflexivity| |constructor].
        apply php_not_call; [vm_compute; discriminate|vm_compute; reflexivity].
      * split; [vm_compute; reflexivity|]. split; [exact Hf|]. split; vm_compute; reflexivity.
    + apply (CS 40 41 42)%nat; try (vm_compute; reflexivity). eexists. vm_compute. reflexivity.
  - split; [|split; [exact php_ex_method|split; [apply php_ex_23|split; [apply php_ex_23|]]]].
    + destruct (php_ex_kid 22 23) as (f & Hf); [vm_compute; reflexivity|vm_compute; reflexivity|]. exists (php_at 22), f.
      split; [apply (php_reach _ 9 22); [vm_compute; reflexivity|vm_compute; reflexivity|exact O9|constructor]|].
      split; [apply php_not_call; [vm_compute; discriminate|vm_compute; reflexivity]|]. split; [vm_compute; discriminate|exact Hf].
    + intros u Hu Hc. apply php_ex_last in Hu. subst u. apply pcall_statement_inside in Hc. apply subtrees_inside in Hc. apply (in_map (fun t => t_id (t_info t))) in Hc. vm_compute in Hc. intuition discriminate.
  - split; [vm_compute; reflexivity|]. split; [vm_compute; reflexivity|]. split; vm_compute; reflexivity.
Qed.

(** The statements of a [switch] are not among the candidates, although nothing ignores or keeps them: [k();] is a call as a statement, in a test and not
    its last, but only the [switch] as a whole is a candidate. *)
Theorem C65_switch_refuted : exists E root st t b u, result (php_env E) (php_file root) st /\ NoDup (tree_ids root) /\ php_test root t b /\ v_ign_test E t = false /\
  reaches (php_open E) b u /\ php_removable_call E u /\ ~ php_last b u /\ v_skip E (t_span (t_info u)) = false /\ ~ candidate st Statement (t_span (t_info u)) t.
Proof.
  exists php_ex_env, php_ex, php_ex_st, (s2t "testA"), (php_at 9), (php_at 51). split; [exact php_ex_result|]. split; [exact php_ex_ids|]. split; [apply C65_nonvacuous|]. split; [reflexivity|].
  assert (O : forall i, text_eqb (kind_of (php_at i)) (s2t "function_call_expression") = false -> mem_text (kind_of (php_at i)) php_call_kinds = false -> php_open php_ex_env (php_at i)).
  { intros i H1 H2. apply php_not_call; [apply text_eqb_neq; exact H1|exact H2]. }
  split; [|split; [|split; [|split]]].
  - apply (php_reach _ 9 46); [vm_compute; reflexivity|vm_compute; reflexivity|apply O; vm_compute; reflexivity|].
    apply (php_reach _ 46 48); [vm_compute; reflexivity|vm_compute; reflexivity|apply O; vm_compute; reflexivity|].
    apply (php_reach _ 48 49); [vm_compute; reflexivity|vm_compute; reflexivity|apply O; vm_compute; reflexivity|].
    apply (php_reach _ 49 51); [vm_compute; reflexivity|vm_compute; reflexivity|apply O; vm_compute; reflexivity|constructor].
  - exists (php_at 52). split; [|apply (php_ex_plain_call (php_at 52) (php_at 53)); vm_compute; reflexivity]. exists (php_at 52).
    split; [split; [vm_compute; reflexivity|]; exists [], None; eexists; split; [vm_compute; reflexivity|]; split; [vm_compute; reflexivity|intros x []]|].
    constructor. left. exists (php_at 53). split; vm_compute; reflexivity.
  - intros H. apply php_ex_last in H. apply (f_equal (fun t => t_id (t_info t))) in H. vm_compute in H. discriminate.
  - reflexivity.
  - apply lists_none. vm_compute. reflexivity.
Qed.
Print Assumptions C65_switch_refuted.
