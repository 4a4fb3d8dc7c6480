(** Property theorems C53: Foundry's cheatcodes, and which Solidity statements are candidates. *)
From Verif Require Import Base M_Text M_Rewriter M_Span M_Run M_Visitor S_Visitor S_Walk S_Candidates L_Visitor L_VisitorFacts L_Candidates
  P_Visitor M_Directives M_Foundry S_Foundry.
Local Open Scope list_scope.

(** ** Induction over Solidity trees *)
Section Ind.
Context (P : sexpr -> Prop)
  (Hv : forall i sp n, P (EVar i sp n))
  (Hm : forall i sp b n, P b -> P (EMember i sp b n))
  (Hc : forall i sp c args, P c -> Forall P args -> P (ECall i sp c args))
  (Hb : forall i sp c opts, P c -> Forall P opts -> P (ECallBlock i sp c opts))
  (Ha : forall i sp ns r, P r -> P (EAssignList i sp ns r))
  (Ho : forall i sp ks, Forall P ks -> P (EOther i sp ks)).
Fixpoint sexpr_ind' (e : sexpr) : P e :=
  let fix all (l : list sexpr) : Forall P l :=
    match l with [] => Forall_nil P | x :: r => Forall_cons x (sexpr_ind' x) (all r) end in
  match e with
  | EVar i sp n => Hv i sp n
  | EMember i sp b n => Hm i sp b n (sexpr_ind' b)
  | ECall i sp c args => Hc i sp c args (sexpr_ind' c) (all args)
  | ECallBlock i sp c opts => Hb i sp c opts (sexpr_ind' c) (all opts)
  | EAssignList i sp ns r => Ha i sp ns r (sexpr_ind' r)
  | EOther i sp ks => Ho i sp ks (all ks)
  end.
End Ind.
Section Ind2.
Context (P : sstmt -> Prop)
  (Hb : forall i sp l, Forall P l -> P (SBlock i sp l))
  (Hs : forall k i sp parts, (forall x, In (PStmt x) parts -> P x) -> P (SStmt k i sp parts)).
Fixpoint sstmt_ind' (s : sstmt) : P s :=
  match s with
  | SBlock i sp l =>
    Hb i sp l ((fix all (l : list sstmt) : Forall P l :=
      match l with [] => Forall_nil P | x :: r => Forall_cons x (sstmt_ind' x) (all r) end) l)
  | SStmt k i sp parts =>
    Hs k i sp parts
      ((fix all (l : list spart) : forall x, In (PStmt x) l -> P x :=
        match l return forall x, In (PStmt x) l -> P x with
        | [] => fun x H => match H with end
        | p :: r => fun x H =>
          match H with
          | or_introl H1 =>
            (match p return p = PStmt x -> P x with
             | PExpr _ => fun H2 => ltac:(discriminate)
             | PStmt y => fun H2 => ltac:(injection H2; intros <-; exact (sstmt_ind' y))
             end) H1
          | or_intror H1 => all r x H1
          end
        end) parts)
  end.
End Ind2.

Lemma starts_spec p l : starts_with_text p l = true <-> exists r, l = p ++ r.
Proof.
  unfold starts_with_text. destruct (strip_prefix p l) as [r|] eqn:X; split; intros H; try reflexivity; try discriminate.
  - exists r. apply strip_prefix_spec. exact X.
  - destruct H as (r & ->). assert (strip_prefix p (p ++ r) = Some r) by (apply strip_prefix_spec; reflexivity). congruence.
Qed.
Lemma prefix_spec s : is_prefix_cheatcode s = true <-> prefix_cheatcode s.
Proof.
  split.
  - destruct s as [i sp l|k i sp parts]; [discriminate|]. cbn [is_prefix_cheatcode].
    destruct k; try discriminate. destruct parts as [|[e|s] r]; try discriminate.
    destruct e as [| |i1 sp1 c args| | |]; try discriminate. destruct c as [|i2 sp2 b m| | | |]; try discriminate.
    destruct b as [i3 sp3 v| | | | |]; try discriminate. destruct r; try discriminate. intros H. apply andb_prop in H. destruct H as [H1 H2].
    apply text_eqb_eq in H1. subst v. exists i, sp, i1, sp1, i2, sp2, i3, sp3, m, args. split; [reflexivity|].
    apply Bool.orb_true_iff in H2. destruct H2 as [H2|H2]; [left; apply text_eqb_eq; exact H2|right].
    apply starts_spec in H2. exact H2.
  - intros (i & sp & i1 & sp1 & i2 & sp2 & i3 & sp3 & m & args & -> & H). cbn [is_prefix_cheatcode].
    replace (text_eqb (s2t "vm") VM) with true by (symmetry; apply text_eqb_refl). cbn [andb].
    apply Bool.orb_true_iff. destruct H as [->|(r & ->)]; [left; apply text_eqb_refl|right; apply starts_spec; eauto].
Qed.

(** ** The translated trees *)
Lemma filter_in {A} (prefix : sstmt -> bool) (faux : A) f : forall l prev y, In y (filter_from prefix faux f prev l) ->
  y = faux \/ exists pre x post, l = pre ++ x :: post /\ y = f x /\ (pre = [] -> prev = false) /\ forall p c, pre = p ++ [c] -> prefix c = false.
Proof.
  induction l as [|s r IH]; intros prev y H; [destruct H|]. cbn [filter_from] in H. destruct H as [H|H].
  - destruct prev; [left; symmetry; exact H|right]. exists [], s, r. split; [reflexivity|]. split; [symmetry; exact H|]. split; [reflexivity|].
    intros p c Hp. destruct p; discriminate.
  - destruct (IH _ _ H) as [->|(pre & x & post & -> & -> & H1 & H2)]; [left; reflexivity|right].
    exists (s :: pre), x, post. split; [reflexivity|]. split; [reflexivity|]. split; [discriminate|].
    intros p c Hp. destruct p as [|p0 p]; cbn [app] in Hp; inversion Hp; subst; [apply H1; reflexivity|]. eapply H2. reflexivity.
Qed.
Lemma filter_has {A} (prefix : sstmt -> bool) (faux : A) f : forall pre x post prev, (pre = [] -> prev = false) -> (forall p c, pre = p ++ [c] -> prefix c = false) ->
  In (f x) (filter_from prefix faux f prev (pre ++ x :: post)).
Proof.
  induction pre as [|s r IH]; intros x post prev H1 H2; cbn [app filter_from].
  - rewrite (H1 eq_refl). left. reflexivity.
  - right. apply IH; [intros ->; apply (H2 [] s); reflexivity|]. intros p c ->. apply (H2 (s :: p) c). reflexivity.
Qed.
Lemma filter_last {A} (prefix : sstmt -> bool) (faux : A) f : forall l prev x, exists y,
  filter_from prefix faux f prev (l ++ [x]) = filter_from prefix faux f prev l ++ [y] /\ (y = faux \/ y = f x).
Proof.
  induction l as [|s r IH]; intros prev x; cbn [app filter_from].
  - exists (if prev then faux else f x). split; [reflexivity|]. destruct prev; auto.
  - destruct (IH (prefix s) x) as (y & -> & H). exists y. auto.
Qed.

(** Nodes of expressions. *)
Definition expr_nodes (e : sexpr) (n : node) : Prop :=
  forall m, within n m -> ~ is_stmt m /\ (forall t b, n_kind m <> KTest t b) /\
    (is_call m -> exists i sp c args, subexpr e (ECall i sp c args) /\ m = expr_node (ECall i sp c args)).
Lemma within_inv n m : within n m -> m = n \/ exists k, In k (n_kids n) /\ within k m.
Proof. intros H. destruct H; [left; reflexivity|right; eauto]. Qed.
Lemma expr_nodes_sub (e e' : sexpr) n : (forall x, subexpr e' x -> subexpr e x) -> expr_nodes e' n -> expr_nodes e n.
Proof.
  intros Hs H m Hm. destruct (H m Hm) as (H1 & H2 & H3). split; [exact H1|]. split; [exact H2|]. intros Hc.
  destruct (H3 Hc) as (i & sp & c & args & H4 & H5). exists i, sp, c, args. auto.
Qed.
Lemma expr_nodes_node e i k sp ks :
  match k with KStmt _ _ _ _ | KTest _ _ | KCall _ _ => False | _ => True end ->
  (forall x, In x ks -> expr_nodes e x) -> expr_nodes e (nd i k sp ks).
Proof.
  intros Hk Hks m Hm. destruct (within_inv _ _ Hm) as [->|(x & Hx & Hw)]; [|exact (Hks x Hx m Hw)].
  unfold is_stmt, is_call, n_kind, nd; cbn [n_lab l_kind]. destruct k; try destruct Hk;
    (split; [intros (a & b & c & d & H); discriminate|split; [intros t b H; discriminate|intros (h & x & H); discriminate]]).
Qed.
Lemma expr_nodes_call i sp c args : (forall p, expr_nodes c (callee_node p c)) -> Forall (fun a => expr_nodes a (expr_node a)) args ->
  expr_nodes (ECall i sp c args) (expr_node (ECall i sp c args)).
Proof.
  intros Hc Ha m Hm. destruct (within_inv _ _ Hm) as [->|(x & Hx & Hw)].
  - unfold is_stmt, is_call, n_kind; cbn [n_lab l_kind expr_node nd].
    split; [intros (a & b & d & d' & H); discriminate|split; [intros t b H; discriminate|intros _]]. exists i, sp, c, args. split; [constructor|reflexivity].
  - cbn [expr_node nd n_kids] in Hx. destruct Hx as [<-|Hx].
    + revert m Hm Hw. intros m _. revert m. apply expr_nodes_sub with (e' := c); [intros x Hs; constructor; exact Hs|apply Hc].
    + apply in_map_iff in Hx. destruct Hx as (a & <- & Hi). rewrite Forall_forall in Ha.
      apply (expr_nodes_sub _ a (expr_node a)); [intros x Hs; eapply se_arg; eassumption|apply Ha; exact Hi|exact Hw].
Qed.
Lemma expr_within e : expr_nodes e (expr_node e) /\ forall p, expr_nodes e (callee_node p e).
Proof.
  induction e as [i sp n|i sp b n [IH _]|i sp c args [IHc IHc'] IHa|i sp c opts [IHc IHc'] IHo|i sp ns r [IH _]|i sp ks IHk] using sexpr_ind'.
  - assert (expr_nodes (EVar i sp n) (expr_node (EVar i sp n))) by (apply expr_nodes_node; [exact I|intros x []]). split; [assumption|intros p; assumption].
  - assert (expr_nodes (EMember i sp b n) (expr_node (EMember i sp b n))).
    { apply expr_nodes_node; [exact I|]. intros x [<-|[]]. apply (expr_nodes_sub _ b); [intros x Hs; constructor; exact Hs|exact IH]. }
    split; [assumption|intros p; assumption].
  - assert (H : expr_nodes (ECall i sp c args) (expr_node (ECall i sp c args))).
    { apply expr_nodes_call; [exact IHc'|]. eapply Forall_impl; [|exact IHa]. intros a [Ha _]. exact Ha. }
    split; [exact H|]. intros p. destruct p; [cbn [callee_node]; apply expr_nodes_node; [exact I|intros x []]|exact H].
  - split.
    + apply expr_nodes_node; [exact I|]. intros x [<-|Hx]; [apply (expr_nodes_sub _ c); [intros x Hs; constructor; exact Hs|exact IHc]|].
      apply in_map_iff in Hx. destruct Hx as (a & <- & Hi). rewrite Forall_forall in IHo.
      apply (expr_nodes_sub _ a); [intros x Hs; eapply se_option; eassumption|apply IHo; exact Hi].
    + intros p. cbn [callee_node]. apply (expr_nodes_sub _ c); [intros x Hs; constructor; exact Hs|apply IHc'].
  - assert (expr_nodes (EAssignList i sp ns r) (expr_node (EAssignList i sp ns r))).
    { apply expr_nodes_node; [exact I|]. intros x [<-|[]]. apply (expr_nodes_sub _ r); [intros x Hs; constructor; exact Hs|exact IH]. }
    split; [assumption|intros p; assumption].
  - assert (expr_nodes (EOther i sp ks) (expr_node (EOther i sp ks))).
    { apply expr_nodes_node; [exact I|]. intros x Hx. apply in_map_iff in Hx. destruct Hx as (a & <- & Hi). rewrite Forall_forall in IHk.
      apply (expr_nodes_sub _ a); [intros x Hs; eapply se_other; eassumption|apply IHk; exact Hi]. }
    split; [assumption|intros p; assumption].
Qed.

(** Expressions are well-formed trees. *)
Lemma expr_wf E e : well_formed E (expr_node e) = true /\ forall p, well_formed E (callee_node p e) = true.
Proof.
  assert (FM : forall l, Forall (fun e => well_formed E (expr_node e) = true /\ forall p, well_formed E (callee_node p e) = true) l ->
    forallb (well_formed E) (map expr_node l) = true).
  { intros l Hl. apply forallb_forall. intros x Hx. apply in_map_iff in Hx. destruct Hx as (a & <- & Hi). rewrite Forall_forall in Hl. apply Hl. exact Hi. }
  induction e as [i sp n|i sp b n [IH _]|i sp c args [IHc IHc'] IHa|i sp c opts [IHc IHc'] IHo|i sp ns r [IH _]|i sp ks IHk] using sexpr_ind'.
  - split; [reflexivity|intros p; reflexivity].
  - assert (well_formed E (expr_node (EMember i sp b n)) = true) by (cbn; rewrite IH; reflexivity). split; [assumption|intros p; assumption].
  - assert (H : well_formed E (expr_node (ECall i sp c args)) = true).
    { cbn [expr_node nd well_formed l_kind is_nil negb andb forallb]. rewrite IHc', FM by exact IHa. reflexivity. }
    split; [exact H|]. intros [|]; [reflexivity|exact H].
  - split; [cbn [expr_node nd well_formed l_kind is_nil negb andb forallb]; rewrite IHc, FM by exact IHo; reflexivity|intros p; apply IHc'].
  - assert (well_formed E (expr_node (EAssignList i sp ns r)) = true) by (cbn; rewrite IH; reflexivity). split; [assumption|intros p; assumption].
  - assert (well_formed E (expr_node (EOther i sp ks)) = true) by (cbn [expr_node nd well_formed l_kind andb]; apply FM; exact IHk). split; [assumption|intros p; assumption].
Qed.

(** Statements inside a statement. *)
Lemma stmt_within s : forall m, within (stmt_node s) m -> is_stmt m \/ is_call m ->
  m = faux_continue \/ (exists s', exposed s s' /\ proper s' /\ m = stmt_node s') \/
  (exists s' i sp c args, exposed s s' /\ directly_in s' (ECall i sp c args) /\ m = expr_node (ECall i sp c args)).
Proof.
  induction s as [i sp l IH|k i sp parts IH] using sstmt_ind'; intros m Hm Hk.
  - destruct (within_inv _ _ Hm) as [->|(x & Hx & Hw)].
    { exfalso. unfold is_stmt, is_call, n_kind in Hk; cbn in Hk. destruct Hk as [(a & b & c & d & H)|(a & b & H)]; discriminate. }
    cbn [stmt_node nd n_kids] in Hx. apply filter_in in Hx. destruct Hx as [->|(pre & y & post & -> & -> & _ & Hp)].
    + left. destruct (within_inv _ _ Hw) as [->|(z & [] & _)]. reflexivity.
    + rewrite Forall_forall in IH. assert (Hy : In y (pre ++ y :: post)) by (apply in_or_app; right; left; reflexivity).
      assert (Hex : forall p c, pre = p ++ [c] -> ~ prefix_cheatcode c) by (intros p c Hpc Hc; apply prefix_spec in Hc; rewrite (Hp p c Hpc) in Hc; discriminate).
      destruct (IH y Hy m Hw Hk) as [H|[(s' & H1 & H2 & H3)|(s' & i1 & sp1 & c & args & H1 & H2 & H3)]]; [left; exact H| |].
      * right; left. exists s'. split; [apply ex_block; assumption|]. auto.
      * right; right. exists s', i1, sp1, c, args. split; [apply ex_block; assumption|]. auto.
  - destruct (within_inv _ _ Hm) as [->|(x & Hx & Hw)].
    { right; left. exists (SStmt k i sp parts). split; [constructor|]. split; [exists k, i, sp, parts; reflexivity|reflexivity]. }
    cbn [stmt_node nd n_kids] in Hx. apply in_map_iff in Hx. destruct Hx as ([e|y] & <- & Hi); cbn [part_node] in Hw.
    + destruct (proj1 (expr_within e) m Hw) as (H1 & _ & H3). destruct Hk as [Hk|Hk]; [destruct (H1 Hk)|].
      destruct (H3 Hk) as (i1 & sp1 & c & args & H4 & H5). right; right. exists (SStmt k i sp parts), i1, sp1, c, args.
      split; [constructor|]. split; [|exact H5]. exists k, i, sp, parts, e. auto.
    + destruct (IH y Hi m Hw Hk) as [H|[(s' & H1 & H2 & H3)|(s' & i1 & sp1 & c & args & H1 & H2 & H3)]]; [left; exact H| |].
      * right; left. exists s'. split; [eapply ex_part; eassumption|]. auto.
      * right; right. exists s', i1, sp1, c, args. split; [eapply ex_part; eassumption|]. auto.
Qed.

(** Statements are well-formed trees, unless one is [f().x;]. *)
Lemma head_call_expr e : head_is_call (expr_node e) = match e with ECall _ _ _ _ => true | _ => member_of_call e end.
Proof.
  induction e as [i sp n|i sp b n IH|i sp c args _ _|i sp c opts _ _|i sp ns r _|i sp ks _] using sexpr_ind'; try reflexivity.
  cbn [expr_node nd head_is_call l_kind member_of_call]. rewrite IH. destruct b; reflexivity.
Qed.
Lemma head_ok_expr E e : v_fw E = fw_foundry -> member_of_call e = false -> head_ok E (expr_node e) = true.
Proof.
  intros Hf H. destruct e as [i sp n|i sp b n|i sp c args|i sp c opts|i sp ns r|i sp ks]; try reflexivity.
  cbn [expr_node nd head_ok l_kind]. rewrite head_call_expr. cbn [member_of_call] in H. rewrite Hf. cbn.
  destruct b; try discriminate; rewrite ?H; reflexivity.
Qed.
Lemma stmt_wf E s : v_fw E = fw_foundry ->
  (forall k i sp e parts, inside s (SStmt k i sp (PExpr e :: parts)) -> member_of_call e = false) -> well_formed E (stmt_node s) = true.
Proof.
  intros Hf. induction s as [i sp l IH|k i sp parts IH] using sstmt_ind'; intros Hno.
  - cbn [stmt_node nd well_formed l_kind andb]. apply forallb_forall. intros x Hx. apply filter_in in Hx.
    destruct Hx as [->|(pre & y & post & -> & -> & _)]; [reflexivity|]. rewrite Forall_forall in IH.
    assert (Hy : In y (pre ++ y :: post)) by (apply in_or_app; right; left; reflexivity).
    apply IH; [exact Hy|]. intros k' i' sp' e' parts' Hin. eapply Hno. eapply in_block; eassumption.
  - cbn [stmt_node nd well_formed l_kind]. apply andb_true_intro. split.
    + destruct (sol_isexpr k); [|reflexivity]. destruct parts as [|[e|y] parts]; cbn [map part_node]; [reflexivity| |destruct y; reflexivity].
      apply head_ok_expr; [exact Hf|]. eapply Hno. constructor.
    + apply forallb_forall. intros x Hx. apply in_map_iff in Hx. destruct Hx as ([e|y] & <- & Hi); cbn [part_node]; [apply expr_wf|].
      apply IH; [exact Hi|]. intros k' i' sp' e' parts' Hin. eapply Hno. eapply in_part; eassumption.
Qed.

Section File.
Context (E0 : venv) (items : list sitem) (walkable : text -> bool).
Notation E := (sol_env E0 items walkable).
Notation root := (file_node items).
Context (HN : no_member_statement items).

Lemma fun_kids_wf f : In f (functions items) -> forallb (well_formed E) (fun_kids f) = true.
Proof.
  intros Hf. unfold fun_kids. rewrite forallb_app. apply andb_true_intro. split.
  - apply forallb_forall. intros x Hx. apply in_map_iff in Hx. destruct Hx as (a & <- & _). apply expr_wf.
  - destruct (f_body f) as [b|] eqn:Hb; [|reflexivity]. cbn [forallb]. rewrite stmt_wf; [reflexivity|reflexivity|].
    intros k i sp e parts Hin. eapply HN; try eassumption. reflexivity.
Qed.
Lemma functions_in f : In (IFun f) items -> In f (functions items).
Proof. intros H. unfold functions. apply in_flat_map. exists (IFun f). split; [exact H|left; reflexivity]. Qed.
Lemma functions_inv f : In f (functions items) -> In (IFun f) items.
Proof. intros H. unfold functions in H. apply in_flat_map in H. destruct H as (i & Hi & H). destruct i as [g|e]; [destruct H as [->|[]]; exact Hi|destruct H]. Qed.
Lemma walkable_inv x f fs : v_walkable E x = f :: fs -> exists g, In g (functions items) /\ f = local_node g /\ f_name g = Some x /\ f_pure g = false /\ walkable x = true.
Proof.
  cbn [sol_env v_walkable]. destruct (walkable x) eqn:Hw; [|discriminate]. intros H.
  destruct (local_functions items x) as [|g gs] eqn:Hl; [discriminate|]. inversion H; subst. exists g.
  assert (Hg : In g (local_functions items x)) by (rewrite Hl; left; reflexivity). unfold local_functions in Hg. apply filter_In in Hg. destruct Hg as [Hg1 Hg2].
  apply andb_prop in Hg2. destruct Hg2 as [Hg2 Hg3]. destruct (f_name g) as [n|]; [|discriminate]. apply text_eqb_eq in Hg2. subst n. apply Bool.negb_true_iff in Hg3. auto.
Qed.

Lemma sol_parsed : parsed E root.
Proof.
  split.
  - cbn [file_node nd well_formed l_kind andb]. apply forallb_forall. intros x Hx. apply in_map_iff in Hx. destruct Hx as (i & <- & Hi).
    destruct i as [f|e]; cbn [item_node]; [|apply expr_wf]. destruct (test_name f); [|reflexivity].
    cbn [nd well_formed l_kind andb]. apply fun_kids_wf, functions_in. exact Hi.
  - intros x f fs H. destruct (walkable_inv x f fs H) as (g & Hg & -> & _). cbn [local_node nd well_formed l_kind andb]. apply fun_kids_wf. exact Hg.
Qed.

(** The statements and calls of a function. *)
Lemma fun_within f m : In f (functions items) -> (exists k, In k (fun_kids f) /\ within k m) -> is_stmt m \/ is_call m ->
  m = faux_continue \/
  (exists b s, f_body f = Some b /\ exposed b s /\ proper s /\ m = stmt_node s) \/
  (exists i sp c args, m = expr_node (ECall i sp c args) /\
     ((exists a, In a (f_attrs f) /\ subexpr a (ECall i sp c args)) \/
      exists b s, f_body f = Some b /\ exposed b s /\ directly_in s (ECall i sp c args))).
Proof.
  intros Hf (k & Hk & Hw) Hm. unfold fun_kids in Hk. apply in_app_or in Hk. destruct Hk as [Hk|Hk].
  - apply in_map_iff in Hk. destruct Hk as (a & <- & Ha). destruct (proj1 (expr_within a) m Hw) as (H1 & _ & H3).
    destruct Hm as [Hm|Hm]; [destruct (H1 Hm)|]. destruct (H3 Hm) as (i & sp & c & args & H4 & H5). right; right. exists i, sp, c, args. split; [exact H5|]. left. eauto.
  - destruct (f_body f) as [b|] eqn:Hb; [|destruct Hk]. destruct Hk as [<-|[]].
    destruct (stmt_within b m Hw Hm) as [H|[(s & H1 & H2 & H3)|(s & i & sp & c & args & H1 & H2 & H3)]]; [left; exact H| |].
    + right; left. exists b, s. auto.
    + right; right. exists i, sp, c, args. split; [exact H3|]. right. exists b, s. auto.
Qed.
Lemma file_stmt m : in_file E root m -> is_stmt m ->
  m = faux_continue \/ exists f b s, In f (functions items) /\ f_body f = Some b /\ exposed b s /\ proper s /\ m = stmt_node s.
Proof.
  intros Hin Hm. assert (X : exists f k, In f (functions items) /\ In k (fun_kids f) /\ within k m).
  { destruct Hin as [Hin|(x & f & fs & Hx & Hin)].
    - destruct (within_inv _ _ Hin) as [->|(k & Hk & Hw)]; [exfalso; destruct Hm as (a & b & c & d & H); discriminate|].
      cbn [file_node nd n_kids] in Hk. apply in_map_iff in Hk. destruct Hk as ([f|e] & <- & Hi); cbn [item_node] in Hw.
      + exists f. destruct (test_name f) as [t|].
        * destruct (within_inv _ _ Hw) as [->|(k & Hk & Hw')]; [exfalso; destruct Hm as (a & b & c & d & H); discriminate|].
          exists k. split; [apply functions_in; exact Hi|]. auto.
        * destruct (within_inv _ _ Hw) as [->|(k & [] & Hw')]. exfalso; destruct Hm as (a & b & c & d & H); discriminate.
      + exfalso. exact (proj1 (proj1 (expr_within e) m Hw) Hm).
    - destruct (walkable_inv x f fs Hx) as (g & Hg & -> & _). exists g.
      destruct (within_inv _ _ Hin) as [->|(k & Hk & Hw)]; [exfalso; destruct Hm as (a & b & c & d & H); discriminate|]. exists k. auto. }
  destruct X as (f & k & Hf & Hk & Hw). destruct (fun_within f m Hf (ex_intro _ k (conj Hk Hw)) (or_introl Hm)) as [H|[(b & s & H1 & H2 & H3 & H4)|(i & sp & c & args & H1 & _)]].
  - left. exact H.
  - right. exists f, b, s. auto.
  - exfalso. subst m. destruct Hm as (a & b & c' & d & H). discriminate.
Qed.
End File.

(** ** C53 *)
(** A statement is a candidate only if nothing it is inside of directly follows a cheatcode; and it is not a declaration, nor
    [break], [continue], [emit], [return], [revert]. *)
Theorem C53_candidates_exposed : forall E items walkable st sp t, no_member_statement items ->
  result (sol_env E items walkable) (file_node items) st -> candidate st Statement sp t ->
  exists f b k i parts, In f (functions items) /\ f_body f = Some b /\ exposed b (SStmt k i sp parts) /\
    (k = SKOther \/ k = SKExpr /\ forall i' sp' named rhs, parts = [PExpr (EAssignList i' sp' named rhs)] -> ~ In true named).
Proof.
  intros E items walkable st sp t HN HR HC.
  destruct (statement_origin _ _ _ (sol_parsed E items walkable HN) HR sp t HC) as (n & L & R & s & _ & Hin & _ & Hsp & _ & (His & _ & Hcase)).
  assert (Hcd : control s = false /\ (declaration s = false \/ exists c, call_statement s c)).
  { destruct Hcase as [(_ & Hct & Hd & _)|(c & Hc & _)]; [auto|]. split; [|eauto].
    destruct (file_stmt E items walkable s Hin His) as [->|(f & b & s' & _ & _ & _ & (k & i & sp' & parts & ->) & ->)].
    - destruct Hc as (l & e & r & rm & ct & d & H & _). discriminate.
    - destruct Hc as (l & e & r & rm & ct & d & H & K & _). cbn [stmt_node nd] in H. inversion H; subst l. cbn in K. inversion K.
      unfold control; cbn. destruct k; try discriminate; reflexivity. }
  destruct (file_stmt E items walkable s Hin His) as [->|(f & b & s' & Hf & Hb & Hex & (k & i & sp' & parts & ->) & ->)]; [destruct Hcd; discriminate|].
  cbn [stmt_node nd n_span n_lab l_span] in Hsp. subst sp'. exists f, b, k, i, parts. split; [exact Hf|]. split; [exact Hb|]. split; [exact Hex|].
  unfold control, declaration in Hcd; cbn [stmt_node nd n_kind n_lab l_kind] in Hcd. destruct Hcd as [H1 H2].
  destruct k; try discriminate H1; [right; split; [reflexivity|]|exfalso|left; reflexivity].
  - intros i' sp' named rhs -> Hn. destruct H2 as [H2|(c & l & e & r & rm & ct & d & H & K & P)].
    + cbn [sol_declaration] in H2. assert (existsb (fun b => b) named = true) by (apply existsb_exists; exists true; auto). congruence.
    + cbn [stmt_node nd map part_node expr_node] in H. inversion H; subst. inversion P as [c0 [(h & x & Hk)|(x & Hk)]|l0 b0 r0 c0 Hk|l0 x b0 r0 c0 Hk]; subst; discriminate.
  - destruct H2 as [H2|(c & l & e & r & rm & ct & d & H & K & P)]; [discriminate|]. cbn [stmt_node nd] in H. inversion H; subst. discriminate.
Qed.
Print Assumptions C53_candidates_exposed.

(** Every statement of a function's body is either exposed or directly follows (or is inside of what directly follows) a
    cheatcode. *)
Lemma exposed_inside b s : exposed b s -> inside b s.
Proof.
  intros H. induction H as [s|i sp pre x post s _ _ IH|k i sp parts x s Hx _ IH]; [constructor| |eapply in_part; eassumption].
  eapply in_block; [|exact IH]. apply in_or_app. right. left. reflexivity.
Qed.
Lemma inside_trans a b c : inside a b -> inside b c -> inside a c.
Proof. intros H. induction H as [s|i sp l x s Hx _ IH|k i sp parts x s Hx _ IH]; intros Hc; [exact Hc|eapply in_block; eauto|eapply in_part; eauto]. Qed.
Lemma protected_up a b s : inside a b -> protected b s -> protected a s.
Proof. intros H (i & sp & pre & c & g & post & H1 & H2). exists i, sp, pre, c, g, post. split; [eapply inside_trans; eassumption|exact H2]. Qed.
Theorem C53_exposed_or_protected : forall b s, inside b s -> exposed b s \/ protected b s.
Proof.
  intros b s H. induction H as [s|i sp l x s Hx Hin IH|k i sp parts x s Hx Hin IH]; [left; constructor| |].
  - apply in_split in Hx. destruct Hx as (pre & post & ->).
    assert (Hd : (exists p c, pre = p ++ [c] /\ prefix_cheatcode c) \/ forall p c, pre = p ++ [c] -> ~ prefix_cheatcode c).
    { destruct (rev pre) as [|c r] eqn:Hr.
      - right. intros p c ->. rewrite rev_app_distr in Hr. discriminate.
      - assert (Hp : pre = rev r ++ [c]) by (rewrite <- (rev_involutive pre), Hr; reflexivity).
        destruct (is_prefix_cheatcode c) eqn:Hc; [left; exists (rev r), c; split; [exact Hp|apply prefix_spec; exact Hc]|].
        right. intros p c' -> H. apply app_inj_tail in Hp. destruct Hp as [_ ->]. apply prefix_spec in H. congruence. }
    destruct Hd as [(p & c & -> & Hc)|Hd].
    + right. exists i, sp, p, c, x, post. split; [|auto]. rewrite <- app_assoc. constructor.
    + destruct IH as [IH|IH]; [left; apply ex_block; assumption|right]. eapply protected_up; [|exact IH]. eapply in_block; [apply in_or_app; right; left; reflexivity|constructor].
  - destruct IH as [IH|IH]; [left; eapply ex_part; eassumption|right]. eapply protected_up; [|exact IH]. eapply in_part; [exact Hx|constructor].
Qed.
Print Assumptions C53_exposed_or_protected.

Lemma inside_span b s : inside b s -> proper s -> In (stmt_span s) (spans b).
Proof.
  intros H. induction H as [s|i sp l x s Hx _ IH|k i sp parts x s Hx _ IH]; intros Hp.
  - destruct Hp as (k & i & sp & parts & ->). left. reflexivity.
  - cbn [spans]. apply in_flat_map. exists x. auto.
  - cbn [spans]. right. apply in_flat_map. exists (PStmt x). auto.
Qed.
Lemma nodup_app {A} (l r : list A) : NoDup (l ++ r) -> NoDup l /\ NoDup r /\ forall x, In x l -> ~ In x r.
Proof.
  induction l as [|a l IH]; cbn [app]; intros H; [split; [constructor|split; [exact H|intros x []]]|].
  inversion H as [|x y Hn Hd]; subst. destruct (IH Hd) as (H1 & H2 & H3). split; [constructor; [intros Hi; apply Hn, in_or_app; auto|exact H1]|].
  split; [exact H2|]. intros x [->|Hx] Hr; [apply Hn, in_or_app; auto|exact (H3 x Hx Hr)].
Qed.
(** Elements of a duplicate-free concatenation determine their place. *)
Lemma nodup_flat_place {A B} (f : A -> list B) : forall l, NoDup (flat_map f l) ->
  forall pre x post pre' y post' z, l = pre ++ x :: post -> l = pre' ++ y :: post' -> In z (f x) -> In z (f y) -> pre = pre' /\ x = y /\ post = post'.
Proof.
  induction l as [|a l IH]; intros Hn pre x post pre' y post' z H1 H2 Hx Hy; [destruct pre; discriminate|].
  cbn [flat_map] in Hn. apply nodup_app in Hn. destruct Hn as (_ & Hn2 & Hn3).
  destruct pre as [|p pre], pre' as [|p' pre']; cbn [app] in H1, H2; inversion H1; inversion H2; subst; auto.
  - exfalso. apply (Hn3 z Hx). apply in_flat_map. exists y. split; [apply in_or_app; right; left; reflexivity|exact Hy].
  - exfalso. apply (Hn3 z Hy). apply in_flat_map. exists x. split; [apply in_or_app; right; left; reflexivity|exact Hx].
  - match goal with H : _ ++ _ :: _ = _ ++ _ :: _ |- _ => destruct (IH Hn2 _ _ _ _ _ _ z eq_refl (eq_sym H) Hx Hy) as (-> & -> & ->) || destruct (IH Hn2 _ _ _ _ _ _ z eq_refl H Hx Hy) as (-> & -> & ->) end. auto.
Qed.
Lemma nodup_flat_elem {A B} (f : A -> list B) l x : NoDup (flat_map f l) -> In x l -> NoDup (f x).
Proof.
  induction l as [|a l IH]; intros Hn Hx; [destruct Hx|]. cbn [flat_map] in Hn. apply nodup_app in Hn. destruct Hn as (H1 & H2 & _).
  destruct Hx as [->|Hx]; [exact H1|exact (IH H2 Hx)].
Qed.
Lemma exposed_protected b : NoDup (spans b) -> forall s s', exposed b s -> protected b s' -> proper s -> proper s' -> stmt_span s <> stmt_span s'.
Proof.
  induction b as [i sp l IH|k i sp parts IH] using sstmt_ind'; intros Hn s s' Hex (i2 & sp2 & pre & c & g & post & Hin & Hc & Hg) Hp Hp' Heq.
  - assert (Hg' : In (stmt_span s') (spans g)) by (apply inside_span; assumption).
    inversion Hex as [|i1 sp1 pre1 x post1 s1 Hno Hx|]; subst; [destruct Hp as (? & ? & ? & ? & H); discriminate|].
    assert (Hx' : In (stmt_span s) (spans x)) by (apply inside_span; [apply exposed_inside; exact Hx|exact Hp]).
    inversion Hin as [|i3 sp3 l3 y z Hy Hw|]; subst.
    + (* the cheatcode is in this block *)
      assert (Hl : pre ++ c :: g :: post = (pre ++ [c]) ++ g :: post) by (rewrite <- app_assoc; reflexivity).
      match goal with H : pre1 ++ x :: post1 = pre ++ c :: g :: post |- _ => rewrite <- H in Hl end.
      rewrite Heq in Hx'. cbn [spans] in Hn. destruct (nodup_flat_place spans _ Hn _ _ _ _ _ _ _ eq_refl Hl Hx' Hg') as (H1 & _ & _). exact (Hno pre c H1 Hc).
    + assert (Hw' : In (stmt_span s') (spans y)) by (apply inside_span; [|exact Hp']; eapply inside_trans; [exact Hw|]; eapply in_block; [apply in_or_app; right; right; left; reflexivity|exact Hg]).
      apply in_split in Hy. destruct Hy as (pre3 & post3 & Hl). rewrite Heq in Hx'. cbn [spans] in Hn.
      destruct (nodup_flat_place spans _ Hn _ _ _ _ _ _ _ eq_refl Hl Hx' Hw') as (_ & -> & _).
      rewrite Forall_forall in IH. assert (Hy : In y (pre1 ++ y :: post1)) by (apply in_or_app; right; left; reflexivity).
      eapply (IH y Hy (nodup_flat_elem spans _ y Hn Hy)); [exact Hx| |exact Hp|exact Hp'|exact Heq]. exists i2, sp2, pre, c, g, post. auto.
  - cbn [spans] in Hn. inversion Hn as [|z zs Hn1 Hn2]; subst.
    inversion Hin as [| |k3 i3 sp3 p3 y z Hy Hw]; subst.
    assert (Hw' : In (stmt_span s') (spans y)) by (apply inside_span; [|exact Hp']; eapply inside_trans; [exact Hw|]; eapply in_block; [apply in_or_app; right; right; left; reflexivity|exact Hg]).
    inversion Hex as [| |k1 i1 sp1 p1 x s1 Hx Hex']; subst.
    + apply Hn1. cbn [stmt_span] in Heq. rewrite Heq. apply in_flat_map. exists (PStmt y). auto.
    + assert (Hx' : In (stmt_span s) (spans x)) by (apply inside_span; [apply exposed_inside; exact Hex'|exact Hp]).
      apply in_split in Hy. destruct Hy as (pre3 & post3 & Hl). pose proof Hx as Hx0. apply in_split in Hx. destruct Hx as (pre1 & post1 & Hl1). rewrite Heq in Hx'.
      destruct (nodup_flat_place part_spans _ Hn2 _ _ _ _ _ _ (stmt_span s') Hl1 Hl Hx' Hw') as (_ & Hxy & _). inversion Hxy; subst y.
      eapply (IH x Hx0 (nodup_flat_elem part_spans _ (PStmt x) Hn2 Hx0)); [exact Hex'| |exact Hp|exact Hp'|exact Heq]. exists i2, sp2, pre, c, g, post. auto.
Qed.

(** A statement that directly follows [vm.prank(..)] or [vm.expect..(..)], or is inside such a statement, is never a
    candidate -- wherever it is: in a test or in a local function. (Statements at different places have different spans.) *)
Theorem C53_protected_never : forall E items walkable st t f b s, no_member_statement items ->
  result (sol_env E items walkable) (file_node items) st -> NoDup (flat_map fun_spans (functions items)) ->
  In f (functions items) -> f_body f = Some b -> protected b s -> proper s ->
  ~ candidate st Statement (stmt_span s) t.
Proof.
  intros E items walkable st t f b s HN HR HD Hf Hb Hpr Hp HC.
  destruct (C53_candidates_exposed E items walkable st _ t HN HR HC) as (g & b' & k & i & parts & Hg & Hb' & Hex & _).
  assert (Hs : inside b s). { destruct Hpr as (i2 & sp2 & pre & c & x & post & H1 & _ & H3). eapply inside_trans; [exact H1|]. eapply in_block; [apply in_or_app; right; right; left; reflexivity|exact H3]. }
  pose proof (inside_span b s Hs Hp) as H1.
  assert (Hp' : proper (SStmt k i (stmt_span s) parts)) by (exists k, i, (stmt_span s), parts; reflexivity).
  pose proof (inside_span b' _ (exposed_inside _ _ Hex) Hp') as H2. cbn [stmt_span] in H2.
  pose proof Hf as Hf0. apply in_split in Hf. destruct Hf as (p1 & q1 & Hl1). apply in_split in Hg. destruct Hg as (p2 & q2 & Hl2).
  destruct (nodup_flat_place fun_spans _ HD _ _ _ _ _ _ (stmt_span s) Hl1 Hl2) as (_ & <- & _); [unfold fun_spans; rewrite Hb; exact H1|unfold fun_spans; rewrite Hb'; exact H2|].
  rewrite Hb in Hb'. inversion Hb'; subst b'.
  assert (Hnb : NoDup (spans b)). { pose proof (nodup_flat_elem fun_spans _ f HD Hf0) as H. unfold fun_spans in H. rewrite Hb in H. exact H. }
  exact (exposed_protected b Hnb _ s Hex Hpr Hp' Hp eq_refl).
Qed.
Print Assumptions C53_protected_never.

(** ** All other statements *)
Lemma exposed_open E b s : exposed b s -> open_path E (stmt_node b) (stmt_node s).
Proof.
  intros H. induction H as [s|i sp pre x post s Hno _ IH|k i sp parts x s Hx _ IH]; [constructor| |].
  - eapply op_kid; [right; left; reflexivity| |exact IH]. cbn [stmt_node nd n_kids]. apply filter_has; [reflexivity|].
    intros p c Hp. destruct (is_prefix_cheatcode c) eqn:Hc; [|reflexivity]. apply prefix_spec in Hc. destruct (Hno p c Hp Hc).
  - eapply op_kid; [left; eexists _, _, _, _; reflexivity| |exact IH]. cbn [stmt_node nd n_kids]. apply in_map_iff. exists (PStmt x). auto.
Qed.
Lemma test_name_spec f t : test_name f = Some t <-> test_function f t.
Proof.
  unfold test_name, test_function. destruct (f_name f) as [n|]; [|split; [discriminate|intros (H & _); discriminate]].
  destruct (f_body f) as [[i sp l|k i sp parts]|].
  - destruct (starts_with_text TEST n) eqn:Hs.
    + apply starts_spec in Hs. destruct (f_pure f); cbn [andb negb]; split; try discriminate.
      * intros (_ & _ & H & _). discriminate.
      * intros H. inversion H; subst. split; [reflexivity|]. split; [exact Hs|]. split; [reflexivity|]. eauto.
      * intros (H & _). exact H.
    + split; [discriminate|]. intros (H & H2 & _). inversion H; subst. apply starts_spec in H2. fold TEST in H2. congruence.
  - split; [discriminate|]. intros (_ & _ & _ & i' & sp' & l' & H). discriminate.
  - split; [discriminate|]. intros (_ & _ & _ & i' & sp' & l' & H). discriminate.
Qed.
Lemma callee_of_node c c' : callee_of c c' -> forall p, callee_node p c = callee_node (match c with ECallBlock _ _ _ _ => true | _ => p end) c'.
Proof.
  intros H. induction H as [c Hc|i sp c o c' H IH]; intros p; [destruct c; try reflexivity; exfalso; eapply Hc; reflexivity|].
  cbn [callee_node]. rewrite IH. destruct c; reflexivity.
Qed.

(** What can be removed: a call whose callee is not ignored and not a local function ... *)
Definition removable_call_statement (E : venv) (items : list sitem) (walkable : text -> bool) (s : sstmt) : Prop :=
  exists i sp i1 sp1 c args, s = SStmt SKExpr i sp [PExpr (ECall i1 sp1 c args)] /\
    ~ ignored_call E (expr_node (ECall i1 sp1 c args)) /\
    forall i2 sp2 n g, callee_of c (EVar i2 sp2 n) -> In g (functions items) -> f_name g = Some n -> f_pure g = false -> walkable n = false.
(** ... or a statement that is neither a call, nor a declaration, nor a control statement, and without statements inside. *)
Definition removable_leaf_statement (s : sstmt) : Prop :=
  exists k i sp parts, s = SStmt k i sp parts /\
    (k = SKOther \/ k = SKExpr /\ exists e, parts = [PExpr e] /\ (forall i1 sp1 c args, e <> ECall i1 sp1 c args) /\ member_of_call e = false /\
       forall i1 sp1 named rhs, e = EAssignList i1 sp1 named rhs -> ~ In true named) /\
    forall x s', In (PStmt x) parts -> inside x s' -> ~ proper s'.

Lemma call_statement_sol E items walkable s : no_member_statement items -> 
  removable_call_statement E items walkable s -> removable_call (sol_env E items walkable) (stmt_node s).
Proof.
  intros HN (i & sp & i1 & sp1 & c & args & -> & Hni & Hno). split; [reflexivity|]. exists (expr_node (ECall i1 sp1 c args)).
  split; [|split].
  - eexists _, _, _, _, _, _. split; [reflexivity|]. split; [reflexivity|]. apply pf_call. left. eexists _, _. reflexivity.
  - intros H. apply Hni. clear - H. destruct H as [H|(H1 & H2)]; [left; exact H|right]. split; [exact H1|]. destruct H2 as [H2|H2]; [left|right; exact H2].
    clear H1. revert H2; generalize (expr_node (ECall i1 sp1 c args)); intros nn H2; induction H2 as [cc f H1 H2 H3|cc b p x H1 H2 H3|cc b p x H1 H2 H3|cc b p H1 H2 _ IH]; [eapply ri_function|eapply ri_path|eapply ri_macro|eapply ri_chain]; eassumption.
  - intros f (callee & args' & x & fs & Hk & Hn & Hw). cbn [expr_node nd n_kids] in Hk. inversion Hk; subst callee args'.
    destruct (walkable_inv E items walkable x f fs Hw) as (g & Hg & _ & Hgn & Hgp & Hwk).
    assert (Hc : exists i2 sp2, callee_of c (EVar i2 sp2 x)).
    { clear - Hn. cut (forall p, expr_name (sol_env E items walkable) (callee_node p c) = Some x -> exists i2 sp2, callee_of c (EVar i2 sp2 x)); [intros X; exact (X false Hn)|].
      clear Hn. induction c as [i sp n|i sp b n _|i sp c args _ _|i sp c opts IH _|i sp ns r _|i sp ks _] using sexpr_ind'; intros p Hn.
      - inversion Hn; subst. exists i, sp. apply co_plain. discriminate.
      - discriminate.
      - destruct p; discriminate.
      - cbn [callee_node] in Hn. destruct (IH true Hn) as (i2 & sp2 & H). exists i2, sp2. apply co_options. exact H.
      - discriminate.
      - discriminate. }
    destruct Hc as (i2 & sp2 & Hc). rewrite (Hno i2 sp2 x g Hc Hg Hgn Hgp) in Hwk. discriminate.
Qed.
Lemma leaf_statement_sol s : removable_leaf_statement s -> removable_leaf (stmt_node s).
Proof.
  intros (k & i & sp & parts & -> & Hk & Hin).
  split; [eexists _, _, _, _; reflexivity|]. split.
  { intros c (l & e & r & rm & ct & d & H & K & P). cbn [stmt_node nd] in H. inversion H as [[Hl Hks]]. subst l. cbn in K. inversion K as [[K1 K2 K3 K4]].
    destruct Hk as [->|Hk]; [discriminate|]. destruct Hk as (-> & e' & -> & Hnc & Hmc & _). cbn [map part_node] in Hks. inversion Hks; subst e r.
    assert (Hh : head_is_call (expr_node e') = true).
    { clear - P. induction P as [c0 [(h & x & K)|(x & K)]|l b r c0 K _ IH|l x b r c0 K _ IH].
      - destruct c0 as [l ks]. unfold n_kind in K; cbn in K. cbn [head_is_call]. rewrite K. reflexivity.
      - destruct c0 as [l ks]. unfold n_kind in K; cbn in K. cbn [head_is_call]. rewrite K. reflexivity.
      - cbn [head_is_call]. rewrite K. exact IH.
      - cbn [head_is_call]. rewrite K. exact IH. }
    rewrite head_call_expr in Hh. destruct e'; try congruence. }
  split; [reflexivity|]. split; [|split].
  - unfold control; cbn. destruct Hk as [->|(-> & _)]; reflexivity.
  - unfold declaration; cbn. destruct Hk as [->|(-> & e & -> & _ & _ & Hd)]; [reflexivity|]. destruct e as [| | | |i1 sp1 named rhs|]; try reflexivity. cbn.
    destruct (existsb (fun b => b) named) eqn:He; [|reflexivity]. apply existsb_exists in He. destruct He as (b & Hb & ->). destruct (Hd i1 sp1 named rhs eq_refl Hb).
  - intros x m Hx Hw Hm. cbn [stmt_node nd n_kids] in Hx. apply in_map_iff in Hx. destruct Hx as ([e|y] & <- & Hi); cbn [part_node] in Hw.
    + exact (proj1 (proj1 (expr_within e) m Hw) Hm).
    + destruct (stmt_within y m Hw (or_introl Hm)) as [->|[(s' & H1 & H2 & H3)|(s' & i1 & sp1 & c & args & H1 & H2 & ->)]].
      * (* a replaced statement stands for a protected one *)
        revert Hw. assert (X : forall y, (forall s', inside y s' -> ~ proper s') -> ~ within (stmt_node y) faux_continue).
        { clear. induction y as [i sp l IH|k i sp parts IH] using sstmt_ind'; intros Hno Hw; [|apply (Hno (SStmt k i sp parts)); [constructor|eexists _, _, _, _; reflexivity]].
          destruct (within_inv _ _ Hw) as [H|(z & Hz & Hwz)]; [discriminate|]. cbn [stmt_node nd n_kids] in Hz. destruct l as [|s l]; [destruct Hz|].
          assert (Hl : forall w, In w (s :: l) -> is_prefix_cheatcode w = false).
          { intros w Hw'. destruct w as [i' sp' l'|k' i' sp' parts']; [reflexivity|]. exfalso. apply (Hno (SStmt k' i' sp' parts')); [eapply in_block; [exact Hw'|constructor]|eexists _, _, _, _; reflexivity]. }
          assert (Hz' : exists w, In w (s :: l) /\ z = stmt_node w).
          { revert Hz Hl. generalize (s :: l). clear. intros l0. induction l0 as [|w l0 IHl]; intros Hz Hl; [destruct Hz|]. cbn [filter_from] in Hz. destruct Hz as [<-|Hz]; [exists w; split; [left; reflexivity|reflexivity]|].
            rewrite (Hl w (or_introl eq_refl)) in Hz. destruct (IHl Hz (fun w' H => Hl w' (or_intror H))) as (w' & H1 & H2). exists w'. split; [right; exact H1|exact H2]. }
          destruct Hz' as (w & Hw' & ->). rewrite Forall_forall in IH. eapply (IH w Hw'); [|exact Hwz]. intros s' Hs'. apply Hno. eapply in_block; eassumption. }
        exact (X y (fun s' H => Hin y s' Hi H)).
      * exact (Hin y s' Hi (exposed_inside _ _ H1) H2).
      * destruct Hm as (a & b & c' & d & H). discriminate.
Qed.

(** The last statement of a test's block. *)
Lemma sol_last f t i sp l s E items walkable : test_name f = Some t -> f_body f = Some (SBlock i sp l) ->
  (forall p x, l = p ++ [x] -> stmt_id x <> stmt_id s) ->
  forall y, last_statement (item_node (IFun f)) = Some y -> same (sol_env E items walkable) y (stmt_node s) = false.
Proof.
  intros Ht Hb Hl y. cbn [item_node]. rewrite Ht. unfold last_statement, nd, n_kind; cbn [n_lab l_kind n_kids].
  unfold test_statements, fun_kids. rewrite Hb, nth_error_app2 by (rewrite map_length; apply le_n). rewrite map_length, Nat.sub_diag. cbn [nth_error].
  cbn [stmt_node nd n_kids]. unfold last_of. 
  destruct (rev l) as [|x r] eqn:Hr.
  - assert (l = []) by (rewrite <- (rev_involutive l), Hr; reflexivity). subst l. discriminate.
  - assert (Hlr : l = rev r ++ [x]) by (rewrite <- (rev_involutive l), Hr; reflexivity).
    destruct (filter_last is_prefix_cheatcode faux_continue stmt_node (rev r) false x) as (z & Hz & Hzc).
    rewrite Hlr, Hz, rev_app_distr. cbn [rev app]. intros H. inversion H; subst y. unfold same. cbn [sol_env v_fw fw_structural fw_foundry].
    assert (Hid : forall s, n_id (stmt_node s) = S (stmt_id s)) by (intros [| ]; reflexivity).
    destruct Hzc as [->| ->]; [rewrite Hid; reflexivity|]. rewrite !Hid. apply Nat.eqb_neq. intros Heq. injection Heq. apply (Hl (rev r) x Hlr).
Qed.

(** Conversely: every other removable statement of a test is a candidate of that test, unless it is the test's last
    statement (or skipped by a directive). *)
Theorem C53_exposed_statements : forall E items walkable st f t i sp l s, no_member_statement items ->
  result (sol_env E items walkable) (file_node items) st -> In f (functions items) -> test_function f t -> v_ign_test E t = false ->
  f_body f = Some (SBlock i sp l) -> exposed (SBlock i sp l) s ->
  removable_call_statement E items walkable s \/ removable_leaf_statement s ->
  (forall p x, l = p ++ [x] -> stmt_id x <> stmt_id s) -> v_skip E (stmt_span s) = false ->
  candidate st Statement (stmt_span s) t.
Proof.
  intros E items walkable st f t i sp l s HN HR Hf Ht Hig Hb Hex Hrm Hl Hsk. apply test_name_spec in Ht.
  assert (Hs : n_span (stmt_node s) = stmt_span s) by (destruct s; reflexivity). rewrite <- Hs.
  eapply (C33_statements_of_tests (sol_env E items walkable) (file_node items) st (item_node (IFun f)) t (stmt_node s)).
  - apply sol_parsed. exact HN.
  - exact HR.
  - split; [|split; [|exact Hig]].
    + eapply tp_kid; [right; right; right; left; reflexivity| |constructor]. cbn [file_node nd n_kids]. apply in_map. apply functions_inv. exact Hf.
    + cbn [item_node]. rewrite Ht. eexists. reflexivity.
  - exists (stmt_node (SBlock i sp l)). split; [|apply exposed_open; exact Hex]. cbn [item_node]. rewrite Ht. cbn [nd n_kids]. unfold fun_kids. rewrite Hb.
    apply in_or_app. right. left. reflexivity.
  - destruct Hrm as [Hrm|Hrm]; [right; apply call_statement_sol; assumption|left; apply leaf_statement_sol; exact Hrm].
  - eapply sol_last; eassumption.
  - rewrite Hs. exact Hsk.
Qed.
Print Assumptions C53_exposed_statements.

(** ** Method calls *)
Lemma method_call_sol e b p : (exists i sp c args, e = ECall i sp c args) -> method_call (expr_node e) b p ->
  exists base, method_call_of e base /\ b = expr_node base.
Proof.
  intros (i & sp & c & args & ->) (_ & callee & args' & Hk & Hp & Hne). cbn [expr_node nd n_kids] in Hk. inversion Hk; subst callee args'. clear Hk.
  assert (M : forall e' b p, field_path (expr_node e') b p -> p <> [] -> exists base, members e' base /\ b = expr_node base).
  { clear. induction e' as [i sp n|i sp b n IH|i sp c args _ _|i sp c opts _ _|i sp ns r _|i sp ks _] using sexpr_ind'; intros b0 p Hf Hp;
      try (solve [inversion Hf; subst; first [exfalso; apply Hp; reflexivity | discriminate]]).
    cbn [expr_node nd] in Hf. inversion Hf as [e Hno|l x b1 r base q Hl Hf']; subst; [exfalso; apply Hp; reflexivity|].
    destruct q as [|q0 q].
    - inversion Hf' as [e Hno|l' x' b2 r' base' q' Hl' Hf'' Hx Hy Hz]; subst; [|destruct q'; discriminate].
      exists b. split; [|reflexivity]. apply me_one. intros i' sp' b' n' ->. eapply Hno. reflexivity.
    - destruct (IH b0 (q0 :: q) Hf') as (base & H1 & H2); [discriminate|]. exists base. split; [apply me_more; exact H1|exact H2]. }
  assert (C : forall q, field_path (callee_node q c) b p -> exists c' base, callee_of c c' /\ members c' base /\ b = expr_node base).
  { revert Hne. clear - M. intros Hne. induction c as [i sp n|i sp b0 n _|i sp c args _ _|i sp c opts IH _|i sp ns r _|i sp ks _] using sexpr_ind'; intros q Hf.
    - destruct (M (EVar i sp n) b p Hf Hne) as (base & H1 & H2). exists (EVar i sp n), base. split; [apply co_plain; discriminate|auto].
    - destruct (M (EMember i sp b0 n) b p Hf Hne) as (base & H1 & H2). exists (EMember i sp b0 n), base. split; [apply co_plain; discriminate|auto].
    - destruct q; cbn [callee_node] in Hf; inversion Hf; subst; try (destruct Hne; reflexivity); discriminate.
    - cbn [callee_node] in Hf. destruct (IH true Hf) as (c' & base & H1 & H2). exists c', base. split; [apply co_options; exact H1|exact H2].
    - destruct (M (EAssignList i sp ns r) b p Hf Hne) as (base & H1 & H2). exists (EAssignList i sp ns r), base. split; [apply co_plain; discriminate|auto].
    - destruct (M (EOther i sp ks) b p Hf Hne) as (base & H1 & H2). exists (EOther i sp ks), base. split; [apply co_plain; discriminate|auto]. }
  destruct (C false Hp) as (c' & base & H1 & H2 & H3). exists base. split; [|exact H3]. exists i, sp, c, args, c'. auto.
Qed.

(** A method call is a candidate only if it is in a statement that is not protected (or in a modifier's arguments). *)
Theorem C53_method_calls_exposed : forall E items walkable st sp t, no_member_statement items -> NoDup (map f_id (functions items)) ->
  result (sol_env E items walkable) (file_node items) st -> candidate st MethodCall sp t ->
  exists f e base, In f (functions items) /\ method_call_of e base /\
    method_span E (expr_span e) (expr_span base) = Some sp /\
    ((exists b s, f_body f = Some b /\ exposed b s /\ directly_in s e) \/ exists a, In a (f_attrs f) /\ subexpr a e).
Proof.
  intros E items walkable st sp t HN HD HR HC.
  assert (FA : functions_apart (sol_env E items walkable)).
  { intros x y f g fs gs Hx Hy Hs. destruct (walkable_inv E items walkable x f fs Hx) as (f' & Hf & -> & _). destruct (walkable_inv E items walkable y g gs Hy) as (g' & Hg & -> & _).
    unfold same in Hs. cbn [sol_env v_fw fw_foundry fw_structural] in Hs. apply Nat.eqb_eq in Hs. unfold n_id, local_node in Hs; cbn in Hs. inversion Hs as [Hid].
    f_equal. clear - HD Hf Hg Hid. induction (functions items) as [|z l IH]; [destruct Hf|]. cbn [map] in HD. inversion HD as [|a b Hn Hd]; subst.
    destruct Hf as [->|Hf], Hg as [->|Hg]; auto; exfalso; apply Hn; [rewrite Hid|rewrite <- Hid]; apply in_map; assumption. }
  destruct (C34_tests_reach _ _ _ MethodCall sp t (sol_parsed E items walkable HN) HR FA HC) as (m & (b & p & Hm & Hsp) & Hrun).
  assert (X : exists f, In f (functions items) /\ exists k, In k (fun_kids f) /\ within k m).
  { assert (Hic : is_call m) by (destruct Hm; assumption).
    destruct Hrun as [(tn & (Hin & (i & Hk) & _) & Hw)|(f & Hf & Hw)].
    - assert (Hroot : exists g, In g (functions items) /\ n_kids tn = fun_kids g).
      { destruct Hin as [Hin|(x & f & fs & Hx & Hin)].
        - destruct (within_inv _ _ Hin) as [->|(k & Hkk & Hw')]; [discriminate|]. cbn [file_node nd n_kids] in Hkk. apply in_map_iff in Hkk. destruct Hkk as ([g|e] & <- & Hi); cbn [item_node] in Hw'.
          + destruct (test_name g) as [t'|] eqn:Htn.
            * destruct (within_inv _ _ Hw') as [->|(k & Hkk & Hw'')]; [exists g; split; [apply functions_in; exact Hi|reflexivity]|].
              exfalso. unfold fun_kids in Hkk. apply in_app_or in Hkk. destruct Hkk as [Hkk|Hkk].
              -- apply in_map_iff in Hkk. destruct Hkk as (a & <- & _). exact (proj1 (proj2 (proj1 (expr_within a) tn Hw'')) t i Hk).
              -- destruct (f_body g) as [bd|]; [|destruct Hkk]. destruct Hkk as [<-|[]]. revert Hw'' Hk. clear.
                 induction bd as [i0 sp0 l IH|k0 i0 sp0 parts IH] using sstmt_ind'; intros Hw Hk; (destruct (within_inv _ _ Hw) as [->|(z & Hz & Hwz)]; [discriminate|]); cbn [stmt_node nd n_kids] in Hz.
                 ++ apply filter_in in Hz. destruct Hz as [->|(pre & y & post & -> & -> & _)]; [destruct (within_inv _ _ Hwz) as [->|(w & [] & _)]; discriminate|].
                    rewrite Forall_forall in IH. eapply (IH y); [apply in_or_app; right; left; reflexivity|exact Hwz|exact Hk].
                 ++ apply in_map_iff in Hz. destruct Hz as ([e|y] & <- & Hi); cbn [part_node] in Hwz; [exact (proj1 (proj2 (proj1 (expr_within e) tn Hwz)) t i Hk)|exact (IH y Hi Hwz Hk)].
            * destruct (within_inv _ _ Hw') as [->|(k & [] & _)]; discriminate.
          + exfalso. exact (proj1 (proj2 (proj1 (expr_within e) tn Hw')) t i Hk).
        - exfalso. destruct (walkable_inv E items walkable x f fs Hx) as (g & Hg & -> & _). destruct (within_inv _ _ Hin) as [->|(k & Hkk & Hw'')]; [discriminate|].
          cbn [local_node nd n_kids] in Hkk. unfold fun_kids in Hkk. apply in_app_or in Hkk. destruct Hkk as [Hkk|Hkk].
          -- apply in_map_iff in Hkk. destruct Hkk as (a & <- & _). exact (proj1 (proj2 (proj1 (expr_within a) tn Hw'')) t i Hk).
          -- destruct (f_body g) as [bd|]; [|destruct Hkk]. destruct Hkk as [<-|[]]. revert Hw'' Hk. clear.
             induction bd as [i0 sp0 l IH|k0 i0 sp0 parts IH] using sstmt_ind'; intros Hw Hk; (destruct (within_inv _ _ Hw) as [->|(z & Hz & Hwz)]; [discriminate|]); cbn [stmt_node nd n_kids] in Hz.
             ++ apply filter_in in Hz. destruct Hz as [->|(pre & y & post & -> & -> & _)]; [destruct (within_inv _ _ Hwz) as [->|(w & [] & _)]; discriminate|].
                rewrite Forall_forall in IH. eapply (IH y); [apply in_or_app; right; left; reflexivity|exact Hwz|exact Hk].
             ++ apply in_map_iff in Hz. destruct Hz as ([e|y] & <- & Hi); cbn [part_node] in Hwz; [exact (proj1 (proj2 (proj1 (expr_within e) tn Hwz)) t i Hk)|exact (IH y Hi Hwz Hk)]. }
      destruct Hroot as (g & Hg & Hkids). exists g. split; [exact Hg|]. destruct (within_inv _ _ Hw) as [->|(k & Hkk & Hw')].
      + exfalso. destruct Hic as (h & x & H). congruence.
      + rewrite Hkids in Hkk. eauto.
    - assert (Hwk : exists x fs, v_walkable (sol_env E items walkable) x = f :: fs) by (inversion Hf as [tn g _ (c & cl & ar & x & fs & _ & _ & _ & _ & Hx)|g h _ (c & cl & ar & x & fs & _ & _ & _ & _ & Hx)]; subst; eauto).
      destruct Hwk as (x & fs & Hx). destruct (walkable_inv E items walkable x f fs Hx) as (g & Hg & -> & _). exists g. split; [exact Hg|].
      destruct (within_inv _ _ Hw) as [->|(k & Hkk & Hw')]; [exfalso; destruct Hic as (h & y & H); discriminate|]. exists k. auto. }
  destruct X as (f & Hf & Hk). destruct (fun_within items f m Hf Hk (or_intror (proj1 Hm))) as [->|[(b' & s & _ & _ & (k' & i' & sp' & parts' & ->) & ->)|(i & sp1 & c & args & -> & Hwhere)]].
  - exfalso. destruct Hm as [(h & x & H) _]. discriminate.
  - exfalso. destruct Hm as [(h & x & H) _]. discriminate.
  - destruct (method_call_sol (ECall i sp1 c args) b p (ex_intro _ i (ex_intro _ sp1 (ex_intro _ c (ex_intro _ args eq_refl)))) Hm) as (base & Hbase & ->).
    exists f, (ECall i sp1 c args), base. split; [exact Hf|]. split; [exact Hbase|]. split.
    + cbn [expr_span]. replace (n_span (expr_node base)) with (expr_span base) in Hsp by (destruct base; reflexivity). exact Hsp.
    + destruct Hwhere as [H|H]; [right; exact H|left; exact H].
Qed.
Print Assumptions C53_method_calls_exposed.

(** ** Examples *)
Local Open Scope string_scope.
Local Open Scope list_scope.
(** [function testA() { vm.prank(a); c.f(); c.g(); if (y) { vm.expectRevert(); g(); h(); } vm.expectEmit(); { k(); } x = helper(); last(); }]
    and [function helper() { k(); vm.prank(a); c.f(); }] *)
Definition f_var (i a b : nat) (x : string) := EVar i (xsp 1 a b) (s2t x).
Definition f_call (i a b : nat) (c : string) (args : list sexpr) := ECall i (xsp 1 a b) (f_var (i + 1) a (a + length (s2t c)) c) args.
Definition f_meth (i a b : nat) (x m : string) := ECall i (xsp 1 a b) (EMember (i + 1) (xsp 1 a (b - 2)) (f_var (i + 2) a (a + length (s2t x)) x) (s2t m)) [].
Definition f_stmt (i a b : nat) (e : sexpr) := SStmt SKExpr i (xsp 1 a b) [PExpr e].
Definition f_prank := f_stmt 1 0 12 (f_meth 2 0 11 "vm" "prank").
Definition f_cf := f_stmt 5 13 19 (f_meth 6 13 18 "c" "f").
Definition f_cg := f_stmt 10 20 26 (f_meth 11 20 25 "c" "g").
Definition f_expect := f_stmt 15 36 54 (f_meth 16 36 53 "vm" "expectRevert").
Definition f_g := f_stmt 20 55 59 (f_call 21 55 58 "g" []).
Definition f_h := f_stmt 25 60 64 (f_call 26 60 63 "h" []).
Definition f_if := SStmt SKOther 30 (xsp 1 27 66) [PExpr (f_var 31 31 32 "y"); PStmt (SBlock 32 (xsp 1 34 66) [f_expect; f_g; f_h])].
Definition f_emit := f_stmt 35 67 84 (f_meth 36 67 83 "vm" "expectEmit").
Definition f_k := f_stmt 40 87 91 (f_call 41 87 90 "k" []).
Definition f_blk := SBlock 45 (xsp 1 85 93) [f_k].
Definition f_asg := f_stmt 50 94 107 (EOther 51 (xsp 1 94 106) [f_var 52 94 95 "x"; f_call 53 98 106 "helper" []]).
Definition f_last := f_stmt 55 108 115 (f_call 56 108 114 "last" []).
Definition f_body1 := SBlock 60 (xsp 1 0 200) [f_prank; f_cf; f_cg; f_if; f_emit; f_blk; f_asg; f_last].
Definition f_test := SFun 61 (xsp 1 0 200) (Some (s2t "testA")) false [] (Some f_body1).
Definition f_hk := f_stmt 70 120 124 (f_call 71 120 123 "k" []).
Definition f_hp := f_stmt 75 125 137 (f_meth 76 125 136 "vm" "prank").
Definition f_hf := f_stmt 80 138 144 (f_meth 81 138 143 "c" "f").
Definition f_helper := SFun 85 (xsp 1 118 150) (Some (s2t "helper")) false [] (Some (SBlock 86 (xsp 1 118 150) [f_hk; f_hp; f_hf])).
Definition f_items := [IFun f_test; IFun f_helper].
Definition f_env0 := x_env fw_foundry ["vm.expectRevert"; "vm.expectEmit"] [] false (fun _ => []) (repeat 97%N 300).
Definition f_env := sol_env f_env0 f_items (fun _ => true).
Definition f_st := st_of f_env (file_node f_items).

(** [vm.prank(a)] itself is a candidate; [c.f()] after it is not; [h()] is, [g()] is not; [k()] in the block is not; the
    method calls of unprotected statements are. *)
Example f_result : result f_env (file_node f_items) f_st.
Proof. exists 9%nat. vm_compute. reflexivity. Qed.
Example f_cands : cands f_st =
  [(Statement, 0, 12, [s2t "testA"]); (Statement, 20, 26, [s2t "testA"]); (Statement, 60, 64, [s2t "testA"]); (Statement, 94, 107, [s2t "testA"]);
   (MethodCall, 2, 11, [s2t "testA"]); (MethodCall, 21, 25, [s2t "testA"])]%nat.
Proof. vm_compute. reflexivity. Qed.
Example f_no_member : no_member_statement f_items.
Proof.
  intros f b s k i sp e parts Hf Hb Hin ->.
  cut (Forall (fun s => match s with SStmt _ _ _ (PExpr e :: _) => member_of_call e = false | _ => True end) 
    [f_body1; f_prank; f_cf; f_cg; f_if; SBlock 32 (xsp 1 34 66) [f_expect; f_g; f_h]; f_expect; f_g; f_h; f_emit; f_blk; f_k; f_asg; f_last; SBlock 86 (xsp 1 118 150) [f_hk; f_hp; f_hf]; f_hk; f_hp; f_hf]);
    [|repeat constructor].
  intros HF. rewrite Forall_forall in HF.
  assert (C : forall x s, inside x s -> In x [f_body1; f_prank; f_cf; f_cg; f_if; SBlock 32 (xsp 1 34 66) [f_expect; f_g; f_h]; f_expect; f_g; f_h; f_emit; f_blk; f_k; f_asg; f_last; SBlock 86 (xsp 1 118 150) [f_hk; f_hp; f_hf]; f_hk; f_hp; f_hf] ->
     In s [f_body1; f_prank; f_cf; f_cg; f_if; SBlock 32 (xsp 1 34 66) [f_expect; f_g; f_h]; f_expect; f_g; f_h; f_emit; f_blk; f_k; f_asg; f_last; SBlock 86 (xsp 1 118 150) [f_hk; f_hp; f_hf]; f_hk; f_hp; f_hf]).
  { intros x y Hxy. induction Hxy as [y|i0 sp0 l0 x y Hx _ IH|k0 i0 sp0 p0 x y Hx _ IH]; intros Hi; [exact Hi| |]; apply IH; clear IH;
      cbn [In] in Hi; repeat (destruct Hi as [Hi|Hi]; [try discriminate Hi; injection Hi; intros; subst; cbn [In] in Hx;
        repeat (destruct Hx as [Hx|Hx]; [first [discriminate Hx | (first [injection Hx; intros; subst | subst]); cbn [In]; tauto]|]); destruct Hx|]); destruct Hi. }
  assert (Hs : In (SStmt k i sp (PExpr e :: parts)) [f_body1; f_prank; f_cf; f_cg; f_if; SBlock 32 (xsp 1 34 66) [f_expect; f_g; f_h]; f_expect; f_g; f_h; f_emit; f_blk; f_k; f_asg; f_last; SBlock 86 (xsp 1 118 150) [f_hk; f_hp; f_hf]; f_hk; f_hp; f_hf]).
  { apply (C b _ Hin). cbn in Hf. destruct Hf as [<-|[<-|[]]]; cbn [f_test f_helper f_body] in Hb; inversion Hb; subst; cbn [In]; tauto. }
  exact (HF _ Hs).
Qed.
Example C53_nonvacuous_protected : NoDup (flat_map fun_spans (functions f_items)) /\ NoDup (map f_id (functions f_items)) /\
  In f_test (functions f_items) /\ protected f_body1 f_cf /\ protected f_body1 f_g /\ protected f_body1 f_k /\ proper f_k /\ exposed f_body1 f_h.
Proof.
  assert (V : prefix_cheatcode f_prank /\ prefix_cheatcode f_expect /\ prefix_cheatcode f_emit).
  { split; [apply prefix_spec; vm_compute; reflexivity|]. split; apply prefix_spec; vm_compute; reflexivity. }
  split. { vm_compute. repeat (constructor; [cbn [In]; intros H; repeat (destruct H as [H|H]; [discriminate H|]); exact H|]). constructor. }
  split. { vm_compute. repeat (constructor; [cbn [In]; intros H; repeat (destruct H as [H|H]; [discriminate H|]); exact H|]). constructor. }
  split; [left; reflexivity|].
  split. { exists 60%nat, (xsp 1 0 200), [], f_prank, f_cf, [f_cg; f_if; f_emit; f_blk; f_asg; f_last]. split; [constructor|]. split; [apply V|constructor]. }
  split. { exists 32%nat, (xsp 1 34 66), [], f_expect, f_g, [f_h]. split; [|split; [apply V|constructor]].
    eapply in_block; [right; right; right; left; reflexivity|]. eapply in_part; [right; left; reflexivity|constructor]. }
  split. { exists 60%nat, (xsp 1 0 200), [f_prank; f_cf; f_cg; f_if], f_emit, f_blk, [f_asg; f_last]. split; [constructor|]. split; [apply V|]. eapply in_block; [left; reflexivity|constructor]. }
  split; [eexists _, _, _, _; reflexivity|].
  apply (ex_block 60 (xsp 1 0 200) [f_prank; f_cf; f_cg] f_if [f_emit; f_blk; f_asg; f_last]).
  - intros p c Hp Hc. change ([f_prank; f_cf; f_cg]) with ([f_prank; f_cf] ++ [f_cg]) in Hp. apply app_inj_tail in Hp. destruct Hp as [_ <-]. apply prefix_spec in Hc. vm_compute in Hc. discriminate.
  - eapply ex_part; [right; left; reflexivity|]. apply (ex_block _ _ [f_expect; f_g] f_h []); [|constructor].
    intros p c Hp Hc. change ([f_expect; f_g]) with ([f_expect] ++ [f_g]) in Hp. apply app_inj_tail in Hp. destruct Hp as [_ <-]. apply prefix_spec in Hc. vm_compute in Hc. discriminate.
Qed.
Example C53_nonvacuous_exposed : test_function f_test (s2t "testA") /\ removable_leaf_statement f_asg /\ 
  removable_call_statement f_env0 f_items (fun _ => true) f_h /\
  (forall p x, [f_prank; f_cf; f_cg; f_if; f_emit; f_blk; f_asg; f_last] = p ++ [x] -> stmt_id x <> stmt_id f_h).
Proof.
  split; [apply test_name_spec; vm_compute; reflexivity|].
  split. { eexists _, _, _, _. split; [reflexivity|]. split; [right; split; [reflexivity|]; eexists; split; [reflexivity|]; split; [discriminate|]; split; [reflexivity|discriminate]|].
    intros x s' [H|[]]. discriminate. }
  split. { eexists _, _, _, _, _, _. split; [reflexivity|]. split.
    - intros [(x & K & _)|(_ & [H|(b & p & Hm & _)])]; [discriminate| |].
      + inversion H as [c f H1 H2 H3|c b p x H1 H2 H3|c b p x H1 H2 H3|c b p H1 H2]; subst.
        * inversion H2; subst f. vm_compute in H3. discriminate.
        * destruct (method_call_sol _ _ _ (ex_intro _ _ (ex_intro _ _ (ex_intro _ _ (ex_intro _ _ eq_refl)))) H1) as (base & (a1 & a2 & a3 & a4 & a5 & HE & HC & HM) & _).
          inversion HE; subst. inversion HC; subst. inversion HM.
        * destruct (method_call_sol _ _ _ (ex_intro _ _ (ex_intro _ _ (ex_intro _ _ (ex_intro _ _ eq_refl)))) H1) as (base & (a1 & a2 & a3 & a4 & a5 & HE & HC & HM) & _).
          inversion HE; subst. inversion HC; subst. inversion HM.
        * destruct (method_call_sol _ _ _ (ex_intro _ _ (ex_intro _ _ (ex_intro _ _ (ex_intro _ _ eq_refl)))) H1) as (base & (a1 & a2 & a3 & a4 & a5 & HE & HC & HM) & _).
          inversion HE; subst. inversion HC; subst. inversion HM.
      + destruct (method_call_sol _ _ _ (ex_intro _ _ (ex_intro _ _ (ex_intro _ _ (ex_intro _ _ eq_refl)))) Hm) as (base & (a1 & a2 & a3 & a4 & a5 & HE & HC & HM) & _).
        inversion HE; subst. inversion HC; subst. inversion HM.
    - intros i2 sp2 n g Hc Hg Hn _. exfalso. inversion Hc; subst. cbn in Hg. destruct Hg as [<-|[<-|[]]]; vm_compute in Hn; discriminate. }
  intros p x Hp. change ([f_prank; f_cf; f_cg; f_if; f_emit; f_blk; f_asg; f_last]) with ([f_prank; f_cf; f_cg; f_if; f_emit; f_blk; f_asg] ++ [f_last]) in Hp.
  apply app_inj_tail in Hp. destruct Hp as [_ <-]. discriminate.
Qed.

(** Refuted: that the statements of every function a test calls are considered. A call inside an assignment, or any other
    expression that is not a call, is not seen: in [x = helper();] the function [helper] is not walked for [testA]. *)
Theorem C53_call_in_assignment_refuted : exists E items walkable st f t b s e g gb s',
  no_member_statement items /\ result (sol_env E items walkable) (file_node items) st /\ In f (functions items) /\ test_function f t /\ v_ign_test E t = false /\
  f_body f = Some b /\ exposed b s /\ directly_in s e /\
  (exists i sp i1 sp1 n, e = ECall i sp (EVar i1 sp1 n) [] /\ f_name g = Some n /\ walkable n = true) /\ In g (functions items) /\ f_pure g = false /\
  f_body g = Some gb /\ exposed gb s' /\ (exists i sp i1 sp1 c, s' = SStmt SKExpr i sp [PExpr (ECall i1 sp1 c [])]) /\ forall t', ~ candidate st Statement (stmt_span s') t'.
Proof.
  exists f_env0, f_items, (fun _ => true), f_st, f_test, (s2t "testA"), f_body1, f_asg, (f_call 53 98 106 "helper" []), f_helper, (SBlock 86 (xsp 1 118 150) [f_hk; f_hp; f_hf]), f_hk.
  split; [exact f_no_member|]. split; [exact f_result|]. split; [left; reflexivity|]. split; [apply test_name_spec; vm_compute; reflexivity|]. split; [reflexivity|].
  split; [reflexivity|]. split.
  { apply (ex_block 60 (xsp 1 0 200) [f_prank; f_cf; f_cg; f_if; f_emit; f_blk] f_asg [f_last]); [|constructor].
    intros p c Hp Hc. change ([f_prank; f_cf; f_cg; f_if; f_emit; f_blk]) with ([f_prank; f_cf; f_cg; f_if; f_emit] ++ [f_blk]) in Hp. apply app_inj_tail in Hp. destruct Hp as [_ <-]. apply prefix_spec in Hc. vm_compute in Hc. discriminate. }
  split. { eexists _, _, _, _, _. split; [reflexivity|]. split; [left; reflexivity|]. eapply se_other; [right; left; reflexivity|constructor]. }
  split. { eexists _, _, _, _, _. split; [reflexivity|]. split; reflexivity. }
  split; [right; left; reflexivity|]. split; [reflexivity|]. split; [reflexivity|].
  split. { apply (ex_block _ _ [] f_hk [f_hp; f_hf]); [|constructor]. intros p c Hp. destruct p; discriminate. }
  split; [eexists _, _, _, _, _; reflexivity|]. apply lists_none. vm_compute. reflexivity.
Qed.
Print Assumptions C53_call_in_assignment_refuted.
