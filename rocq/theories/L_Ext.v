(** The walk depends on the local functions only through what each name denotes. *)
From Verif Require Import Base M_Text M_Rewriter M_Span M_Run M_Visitor L_Visitor.

Section Ext.
Context (fw : framework) (f1 f2 f3 f4 : text -> bool) (va : bool) (d : disambiguation) (w w' : text -> list node) (sk : span -> bool) (t : text).
Context (W : forall x, w x = w' x).
Notation E := (VEnv fw f1 f2 f3 f4 va d w sk t).
Notation E' := (VEnv fw f1 f2 f3 f4 va d w' sk t).

Lemma walk_target_ext ret c : walk_target E ret c = walk_target E' ret c.
Proof.
  unfold walk_target. destruct (n_kids c) as [|callee args]; [reflexivity|]. change (expr_name E callee) with (expr_name E' callee).
  destruct (expr_name E' callee) as [x|]; [|reflexivity]. cbn [v_walkable]. rewrite W. reflexivity.
Qed.
Lemma visit_call_ext c st : visit_call E c st = visit_call E' c st.
Proof. unfold visit_call. rewrite walk_target_ext. reflexivity. Qed.
Lemma fold_ext (g h : node -> vst -> option vst) l : Forall (fun n => forall st, g n st = h n st) l -> forall st, fold_kids g l st = fold_kids h l st.
Proof.
  induction 1 as [|x r X _ IH]; intros st; [reflexivity|]. cbn [fold_kids]. rewrite X. destruct (h x st) as [st'|]; [|reflexivity]. cbn [obind]. apply IH.
Qed.
Lemma walk_ext n : forall st, walk E n st = walk E' n st.
Proof.
  induction n as [l ks IH] using node_ind'. intros st.
  assert (K : forall st, fold_kids (walk E) ks st = fold_kids (walk E') ks st) by (intros st'; apply fold_ext; exact IH).
  cbn [walk]. destruct (l_kind l) as [r c dd e| |fl|it x|x|x|x b| |].
  - destruct (visit_statement (Node l ks) st) as [st1|]; [|reflexivity]. cbn [obind]. rewrite K. reflexivity.
  - destruct (fw_expr_kids (v_fw E)) eqn:X; cbn [v_fw] in X |- *; rewrite X; [apply K|reflexivity].
  - destruct (fw_expr_kids (v_fw E)) eqn:X; cbn [v_fw] in X |- *; rewrite X; [apply K|reflexivity].
  - destruct it; [apply K|]. rewrite visit_call_ext. destruct (visit_call E' (Node l ks) st) as [[st1 b]|]; [|reflexivity].
    cbn [obind]. destruct b; [apply K|]. change (v_fw E) with (v_fw E'). destruct (fw_skip_whole (v_fw E')); [reflexivity|]. destruct ks as [|k r]; [reflexivity|].
    inversion IH; subst. auto.
  - change (visit_macro_call E) with (visit_macro_call E'). destruct (visit_macro_call E' x (l_span l) st) as [[st1 b]|]; [|reflexivity].
    cbn [obind]. destruct b; [apply K|reflexivity].
  - destruct (fw_expr_kids (v_fw E)) eqn:X; cbn [v_fw] in X |- *; rewrite X; [apply K|reflexivity].
  - change (visit_test E) with (visit_test E'). destruct (visit_test E' x (test_statements b ks) st) as [[st1 b1]|]; [|reflexivity].
    change (visit_test_post E) with (visit_test_post E'). cbn [obind]. destruct b1; [rewrite K|]; reflexivity.
  - destruct (fw_expr_kids (v_fw E)) eqn:X; cbn [v_fw] in X |- *; rewrite X; [apply K|reflexivity].
  - apply K.
Qed.
Lemma loop_ext fuel : forall st, local_loop E fuel st = local_loop E' fuel st.
Proof.
  induction fuel as [|fuel IH]; intros st; cbn [local_loop]; destruct (next_local_function st) as [[f st']|]; try reflexivity.
  rewrite (fold_ext (walk E) (walk E')) by (apply Forall_forall; intros x _; apply walk_ext).
  destruct (fold_kids (walk E') (n_kids f) st') as [st''|]; [apply IH|reflexivity].
Qed.
Lemma visit_ext fuel root : visit_file E fuel root = visit_file E' fuel root.
Proof. unfold visit_file. rewrite walk_ext. destruct (walk E' root init_vst) as [st|]; [apply loop_ext|reflexivity]. Qed.
End Ext.
