(** C80: which calls of a Solidity file are looked at. *)
From Verif Require Import Base M_Text M_Span M_Run M_Visitor S_Visitor S_Walk S_Candidates L_Visitor L_VisitorFacts L_Candidates
  P_Visitor M_Directives M_Foundry S_Foundry P_Foundry L_Tree S_Sol P_Sol.
From Verif Require M_Solang S_Solang S_SolangCalls P_Solang.
Local Open Scope list_scope.

(** ** The calls that the walk comes to, on the trees of [M_Foundry] *)
Inductive seen : sexpr -> sexpr -> Prop :=
| se_self e : seen e e
| se_fun i sp f args c : (forall i' sp' g o, f <> ECallBlock i' sp' g o) -> seen f c -> seen (ECall i sp f args) c
| se_argument i sp f args a c : In a args -> seen a c -> seen (ECall i sp f args) c.
Definition seen_in (f : sfun) (c : sexpr) : Prop :=
  (exists a, In a (f_attrs f) /\ seen a c) \/
  exists b k i sp parts e, f_body f = Some b /\ exposed b (SStmt k i sp parts) /\ In (PExpr e) parts /\ seen e c.

Lemma exposed_trans a b c : exposed a b -> exposed b c -> exposed a c.
Proof. intros H. induction H as [|i sp pre x post s Hp _ IH|k i sp parts x s Hp _ IH]; intros K; [exact K|apply ex_block; auto|eapply ex_part; eauto]. Qed.

Section Seen.
Context (E : venv) (items : list sitem) (walkable : text -> bool).
Notation ENV := (sol_env E items walkable).
Lemma seen_trans a b c : seen a b -> seen b c -> seen a c.
Proof. intros H. induction H as [|i sp f args c' Hf _ IH|i sp f args a c' Ha _ IH]; intros K; [exact K|apply se_fun; auto|eapply se_argument; eauto]. Qed.
(** Nothing below is visited. *)
Definition dead (n : node) : Prop := ~ is_call n /\ ~ is_stmt n /\ match n_kind n with KExpr | KIdent _ | KField _ => True | _ => False end.
Lemma dead_child live L R n ctx k ctx' : dead n -> ~ child ENV live L R n ctx k ctx'.
Proof.
  intros (D1 & D2 & D3) H. destruct H as [n e r c ctx _ (l & e' & r' & rm & ct & d & -> & Q & _)|n pre k post ctx Q _ _|n k post ctx _ Q _|n pre k post ctx _ Q _ _|n k ctx _ Q _|n k ctx Q _|n x k ctx Q _|n x k ctx Q _ _|n x k r ctx Q _ _|n x k ctx Q _ _];
    try discriminate Q; try (rewrite Q in D3; exact D3); try (apply D1; eexists _, _; exact Q).
  - apply D2. eexists _, _, _, _. exact Q.
  - exact (D2 Q).
Qed.
Lemma callee_dead c : dead (callee_node true c).
Proof.
  induction c as [i sp n|i sp b n _|i sp c args _ _|i sp c opts IH _|i sp ns r _|i sp ks _] using sexpr_ind'; cbn [callee_node]; try exact IH;
    (split; [intros (h & x & H); discriminate|split; [intros (a & b' & c' & d & H); discriminate|exact I]]).
Qed.
Lemma callee_places f i sp g args : seen_in f (ECall i sp g args) -> forall k, In k (n_kids (expr_node (ECall i sp g args))) ->
  dead k \/ exists c, seen_in f c /\ k = expr_node c.
Proof.
  intros H k Hk. assert (S1 : forall c, seen (ECall i sp g args) c -> seen_in f c).
  { intros c Hc. destruct H as [(a & Ha & Hs)|(b & kk & i0 & sp0 & parts & e & H1 & H2 & H3 & H4)].
    - left. exists a. split; [exact Ha|]. eapply seen_trans; eassumption.
    - right. exists b, kk, i0, sp0, parts, e. split; [exact H1|]. split; [exact H2|]. split; [exact H3|]. eapply seen_trans; eassumption. }
  cbn [expr_node nd n_kids] in Hk. destruct Hk as [<-|Hk].
  - destruct g as [j q n|j q b n|j q h a|j q h o|j q ns r|j q ks]; try (right; eexists; split; [apply S1; apply se_fun; [discriminate|constructor]|reflexivity]).
    left. cbn [callee_node]. apply callee_dead.
  - apply in_map_iff in Hk as (a & <- & Ha). right. exists a. split; [apply S1; eapply se_argument; [exact Ha|constructor]|reflexivity].
Qed.
(** Where the walk of a function may be. *)
Definition pos (f : sfun) (n : node) : Prop :=
  dead n \/ n = faux_continue \/ (exists b s, f_body f = Some b /\ exposed b s /\ n = stmt_node s) \/ exists c, seen_in f c /\ n = expr_node c.
Lemma pos_kids f n k : pos f n -> is_stmt n \/ n_kind n = KGroup \/ is_call n -> In k (n_kids n) -> pos f k.
Proof.
  intros [(D1 & D2 & D3)|[->|[(b & s & Hb & Hs & ->)|(c & Hc & ->)]]] Hn Hk.
  - exfalso. destruct Hn as [Hn|[Hn|Hn]]; [exact (D2 Hn)|rewrite Hn in D3; exact D3|exact (D1 Hn)].
  - destruct Hk.
  - destruct s as [i sp l|kk i sp parts]; cbn [stmt_node nd n_kids] in Hk.
    + apply filter_in in Hk as [->|(pre & y & post & -> & -> & _ & Hp)]; [right; left; reflexivity|]. right. right. left. exists b, y. split; [exact Hb|]. split; [|reflexivity].
      eapply exposed_trans; [exact Hs|]. apply ex_block; [|constructor]. intros p c Q Hcc. apply prefix_spec in Hcc. rewrite (Hp p c Q) in Hcc. discriminate.
    + apply in_map_iff in Hk as ([e|y] & <- & Hp); cbn [part_node].
      * right. right. right. exists e. split; [|reflexivity]. right. exists b, kk, i, sp, parts, e. split; [exact Hb|]. split; [exact Hs|]. split; [exact Hp|constructor].
      * right. right. left. exists b, y. split; [exact Hb|]. split; [|reflexivity]. eapply exposed_trans; [exact Hs|]. eapply ex_part; [exact Hp|constructor].
  - destruct c as [i sp n|i sp b n|i sp g args|i sp g o|i sp ns r|i sp ks]; try (exfalso; destruct Hn as [(q1 & q2 & q3 & q4 & Hn)|[Hn|(h & x & Hn)]]; discriminate).
    destruct (callee_places f i sp g args Hc k Hk) as [H|H]; [left; exact H|do 3 right; exact H].
Qed.
Lemma pos_child live L R f n ctx k ctx' : pos f n -> child ENV live L R n ctx k ctx' -> pos f k.
Proof.
  intros P H. destruct H as [n e r c ctx K (l & e' & r' & rm & ct & d & -> & Q & _)|n pre k post ctx Q K _|n k post ctx _ Q _|n pre k post ctx _ Q _ _|n k ctx _ Q _|n k ctx Q K|n x k ctx Q K|n x k ctx Q _ K|n x k r ctx Q _ K|n x k ctx Q _ K];
    try discriminate Q; (eapply pos_kids; [exact P| |]).
  - left. eexists _, _, _, _. exact Q.
  - rewrite K. left. reflexivity.
  - left. exact Q.
  - rewrite K. apply in_or_app. right. left. reflexivity.
  - right. left. exact Q.
  - exact K.
  - right. right. eexists _, _. exact Q.
  - exact K.
  - right. right. eexists _, _. exact Q.
  - exact K.
  - right. right. eexists _, _. exact Q.
  - rewrite K. left. reflexivity.
  - exfalso. destruct P as [(_ & _ & D)|[->|[(b & s & _ & _ & ->)|(c & _ & ->)]]]; [rewrite Q in D; exact D|discriminate|destruct s; discriminate|destruct c; discriminate].
  - exact K.
Qed.
Lemma pos_visits live L R f n ctx m ctx' : pos f n -> visits ENV live L R n ctx m ctx' -> pos f m.
Proof. intros P H. induction H as [|n ctx k c1 m ctx' Hc _ IH]; [exact P|]. apply IH. eapply pos_child; eassumption. Qed.
Lemma pos_start f k : In k (fun_kids f) -> pos f k.
Proof.
  intros H. unfold fun_kids in H. apply in_app_or in H as [H|H].
  - apply in_map_iff in H as (a & <- & Ha). right. right. right. exists a. split; [left; exists a; split; [exact Ha|constructor]|reflexivity].
  - destruct (f_body f) as [b|] eqn:Hb; [|destruct H]. destruct H as [<-|[]]. right. right. left. exists b, b. split; [exact Hb|]. split; [constructor|reflexivity].
Qed.
Lemma pos_call f m : pos f m -> is_call m -> exists c, m = expr_node c /\ sol_call c /\ seen_in f c.
Proof.
  intros [(D & _)|[->|[(b & s & _ & _ & ->)|(c & Hc & ->)]]] Hm.
  - contradiction.
  - destruct Hm as (h & x & Hm). discriminate.
  - destruct Hm as (h & x & Hm). destruct s; discriminate.
  - exists c. split; [reflexivity|]. split; [apply e_call; exact Hm|exact Hc].
Qed.
End Seen.

(** Every method call that is a candidate stands at a place that is looked at. *)
Theorem seen_candidates : forall E items walkable st sp t, no_member_statement items -> NoDup (map f_id (functions items)) ->
  result (sol_env E items walkable) (file_node items) st -> candidate st MethodCall sp t ->
  v_skip E sp = false /\ v_ign_test E t = false /\
  exists f c base p, (sol_test items f t \/ sol_calls items walkable t f) /\ In f (functions items) /\ seen_in f c /\ sol_method c base p /\
    method_span E (expr_span c) (expr_span base) = Some sp /\ ~ sol_ignored_call E c /\ ~ sol_ignored_method E c.
Proof.
  intros E items walkable st sp t HN HD HR HC. pose proof (sol_parsed E items walkable HN) as HP. pose proof (sol_functions_apart E items walkable HD) as FA.
  destruct (candidate_runs_last _ _ _ HP HR MethodCall sp t FA HC) as (n & L & R & Hn & Hy).
  apply yields_method in Hy. destruct Hy as (k & m & ctx & Hk & Hv & Hsk & ((x & Kx) & Hni & Hnm & B & p & Hm & Hsp) & _). split; [exact Hsk|].
  assert (Hc : is_call m) by (eexists _, _; exact Kx).
  assert (O : v_ign_test E t = false /\ exists f c, m = expr_node c /\ sol_call c /\ seen_in f c /\ In f (functions items) /\ (sol_test items f t \/ sol_calls items walkable t f)).
  { destruct Hn as [(Hn & _)|(Hn & _)].
    - destruct (sol_named E items walkable n t Hn) as (Hi & f & Hf & -> & Hkids). split; [exact Hi|]. rewrite Hkids in Hk.
      destruct (pos_call f m (pos_visits E items walkable _ _ _ f _ _ _ _ (pos_start f k Hk) Hv) Hc) as (c & -> & H1 & H2). exists f, c. split; [reflexivity|]. split; [exact H1|]. split; [exact H2|]. split; [exact (proj1 Hf)|left; exact Hf].
    - destruct (sol_called E items walkable t n Hn) as (Hi & f & Hf & Hf2 & ->). split; [exact Hi|].
      destruct (pos_call f m (pos_visits E items walkable _ _ _ f _ _ _ _ (pos_start f k Hk) Hv) Hc) as (c & -> & H1 & H2). exists f, c. auto 6. }
  destruct O as (Hi & f & c & -> & Cc & He & Hf' & Hf). split; [exact Hi|]. apply e_method in Hm. destruct Hm as (base & Hm & ->). rewrite !e_span in Hsp.
  exists f, c, base, p. split; [exact Hf|]. split; [exact Hf'|]. split; [exact He|]. split; [exact Hm|]. split; [exact Hsp|].
  rewrite <- (v_ignored_call E items walkable c Cc), <- (v_ignored_method E items walkable c). auto.
Qed.

(** ** The same, on the parser's trees *)
Import M_Solang S_SolangCalls.
Notation s_reached := S_Solang.reached.
Lemma to_expr_span e : expr_span (to_expr e) = l_span (expr_loc e).
Proof. destruct e as [| | | | | | |l a b| | | | | | |]; try reflexivity. destruct a; reflexivity. Qed.
Lemma to_expr_id e : expr_id (to_expr e) = l_id (expr_loc e).
Proof. destruct e as [| | | | | | |l a b| | | | | | |]; try reflexivity. destruct a; reflexivity. Qed.
Lemma pt_options e i sp g o : to_expr e = ECallBlock i sp g o -> exists l h oo, e = XCallBlock l h oo /\ g = to_expr h.
Proof.
  destruct e as [l n|l b n|l f args|l f oo|l f args|u l b|u l b c|l b c|l c b d|l b oo|l b oo o'|l ps|l es|l|l es]; cbn [to_expr]; intros H; try discriminate.
  - inversion H; subst. eauto.
  - destruct b; discriminate.
Qed.
Lemma options_iff e : with_options e <-> exists i sp g o, to_expr e = ECallBlock i sp g o.
Proof.
  split.
  - intros (l & g & o & ->). eexists _, _, _, _. reflexivity.
  - intros (i & sp & g & o & H). apply pt_options in H as (l & h & oo & -> & _). eexists _, _, _. reflexivity.
Qed.
Lemma stripped_iff f g' : callee_of (to_expr f) g' <-> exists g, stripped f g /\ g' = to_expr g.
Proof.
  split.
  - intros H. remember (to_expr f) as r eqn:Q. revert f Q. induction H as [c Hc|i sp c o c' _ IH]; intros f Q.
    + exists f. split; [|exact Q]. constructor. intros W. apply options_iff in W as (i & sp & g & o & W). subst c. exact (Hc _ _ _ _ W).
    + symmetry in Q. apply pt_options in Q as (l & h & oo & -> & ->). destruct (IH h eq_refl) as (g & Hg & ->). exists g. split; [constructor; exact Hg|reflexivity].
  - intros (g & H & ->). induction H as [e He|l e o g _ IH].
    + constructor. intros i sp c o Q. apply He, options_iff. eauto.
    + cbn [to_expr]. constructor. exact IH.
Qed.
Lemma member_iff e : (exists l b x, e = XMember l b x) <-> exists i sp b x, to_expr e = EMember i sp b x.
Proof.
  split.
  - intros (l & b & x & ->). eexists _, _, _, _. reflexivity.
  - intros (i & sp & b & x & H). apply P_Solang.pt_member in H as (l & c & -> & _). eauto.
Qed.
Lemma members_iff e b' p : sol_members (to_expr e) b' p <-> exists b, dotted_path e b p /\ b' = to_expr b.
Proof.
  split.
  - intros H. remember (to_expr e) as r eqn:Q. revert e Q. induction H as [r Hr|i sp b x base p _ IH]; intros e Q.
    + exists e. split; [|exact Q]. constructor. intros l b x ->. subst r. exact (Hr _ _ _ _ eq_refl).
    + symmetry in Q. apply P_Solang.pt_member in Q as (l & c & -> & ->). destruct (IH c eq_refl) as (g & Hg & ->). exists g. split; [constructor; exact Hg|reflexivity].
  - intros (b & H & ->). induction H as [e He|l b x base p _ IH].
    + constructor. intros i sp b x Q. apply P_Solang.pt_member in Q as (l & c & -> & _). exact (He _ _ _ eq_refl).
    + cbn [to_expr]. constructor. exact IH.
Qed.
Lemma is_call_iff e : sol_call (to_expr e) <-> is_call e.
Proof.
  split.
  - intros (i & sp & f & a & H). apply P_Solang.pt_call in H as (l & g & args & -> & _). eexists _, _, _. reflexivity.
  - intros (l & f & args & ->). eexists _, _, _, _. reflexivity.
Qed.
Lemma calls_iff c g' : sol_call_of (to_expr c) g' <-> exists g, calls c g /\ g' = to_expr g.
Proof.
  split.
  - intros (i & sp & f & a & H & Hc). apply P_Solang.pt_call in H as (l & h & args & -> & -> & _). apply stripped_iff in Hc as (g & Hg & ->).
    exists g. split; [eexists _, _, _; split; [reflexivity|exact Hg]|reflexivity].
  - intros (g & (l & f & args & -> & H) & ->). eexists _, _, _, _. split; [reflexivity|]. apply stripped_iff. eauto.
Qed.
Lemma method_iff c b' p : sol_method (to_expr c) b' p <-> exists b, method c b p /\ b' = to_expr b.
Proof.
  split.
  - intros (g' & Hg & Hm & Hp). apply calls_iff in Hg as (g & Hg & ->). apply members_iff in Hm as (b & Hb & ->). exists b. split; [exists g; auto|reflexivity].
  - intros (b & (g & Hg & Hm & Hp) & ->). exists (to_expr g). split; [apply calls_iff; eauto|]. split; [apply members_iff; eauto|exact Hp].
Qed.
Section Ignored.
Context (E : venv).
Lemma root_iff c : sol_root_ignored E (to_expr c) <-> root_ignored E c.
Proof.
  split.
  - intros H. remember (to_expr c) as r eqn:Q. revert c Q. induction H as [i sp i' sp' x args Hx|r i sp p x Hm Hx|r b p Hm Hb _ IH]; intros c Q.
    + symmetry in Q. apply P_Solang.pt_call in Q as (l & g & a & -> & Q & _). symmetry in Q. apply P_Solang.pt_variable in Q as (l' & -> & _). constructor. exact Hx.
    + subst r. apply method_iff in Hm as (b & Hm & Q). symmetry in Q. apply P_Solang.pt_variable in Q as (l' & -> & _). eapply ri_path; eassumption.
    + subst r. apply method_iff in Hm as (b0 & Hm & ->). eapply ri_chain; [exact Hm|apply is_call_iff; exact Hb|apply IH; reflexivity].
  - intros H. induction H as [l l' x args Hx|c l x p Hm Hx|c b p Hm Hb _ IH].
    + constructor. exact Hx.
    + eapply (si_path _ _ (l_id l) (l_span l)); [apply method_iff; exists (XVariable l x); split; [exact Hm|reflexivity]|exact Hx].
    + eapply si_chain; [apply method_iff; eauto|apply is_call_iff; exact Hb|exact IH].
Qed.
Lemma met_iff c : sol_ignored_method E (to_expr c) <-> method_ignored E c.
Proof.
  split.
  - intros (b & p & H & Hp). apply method_iff in H as (b0 & H & _). exists b0, p. auto.
  - intros (b & p & H & Hp). exists (to_expr b), p. split; [apply method_iff; eauto|exact Hp].
Qed.
Lemma ign_iff c : sol_ignored_call E (to_expr c) <-> ignored E c.
Proof.
  unfold sol_ignored_call, ignored. rewrite root_iff. split; (intros [H|(b & p & H & Hn & Hp)]; [left; exact H|right]).
  - apply method_iff in H as (b0 & H & ->). exists b0, p. rewrite is_call_iff in Hn. auto.
  - exists (to_expr b), p. rewrite is_call_iff. split; [apply method_iff; eauto|auto].
Qed.
Lemma open_in e c : open_among E e c -> is_call c -> sol_in E (to_expr e) (to_expr c).
Proof.
  intros H Cc. induction H as [e|l f args c Hf _ IH|l f args a c Ho Ha Hac IH]; cbn [to_expr].
  - constructor.
  - apply sn_callee; [|exact (IH Cc)]. intros i sp g o Q. apply Hf, options_iff. eauto.
  - eapply sn_call; [|right; apply in_map; exact Ha| |exact (IH Cc)].
    + rewrite <- !ign_iff, <- !met_iff in Ho. exact Ho.
    + intros i sp g o Q1 Q2. rewrite Q2 in Q1. apply pt_options in Q1 as (l' & h & oo & -> & _). inversion Hac; subst. destruct Cc as (l2 & f2 & a2 & Q). discriminate.
Qed.
End Ignored.
Lemma seen_iff e c' : seen (to_expr e) c' <-> exists c, among e c /\ c' = to_expr c.
Proof.
  split.
  - intros H. remember (to_expr e) as r eqn:Q. revert e Q. induction H as [r|i sp f args c Hf _ IH|i sp f args a c Ha _ IH]; intros e Q.
    + exists e. split; [constructor|exact Q].
    + symmetry in Q. apply P_Solang.pt_call in Q as (l & g & a & -> & -> & _). destruct (IH g eq_refl) as (x & Hx & ->). exists x. split; [|reflexivity].
      apply am_callee; [|exact Hx]. intros W. apply options_iff in W as (i1 & sp1 & g1 & o1 & W). exact (Hf _ _ _ _ W).
    + symmetry in Q. apply P_Solang.pt_call in Q as (l & g & aa & -> & -> & -> & _). apply in_map_iff in Ha as (y & <- & Hy). destruct (IH y eq_refl) as (x & Hx & ->).
      exists x. split; [|reflexivity]. eapply am_argument; eassumption.
  - intros (c & H & ->). induction H as [e|l f args c Hf _ IH|l f args a c Ha _ IH]; cbn [to_expr].
    + constructor.
    + apply se_fun; [|exact IH]. intros i sp g o Q. apply Hf, options_iff. eauto.
    + eapply se_argument; [apply in_map; exact Ha|exact IH].
Qed.

Lemma parameters_in ps e : In e (params_exprs ps) <-> in_parameters ps e.
Proof.
  unfold params_exprs. rewrite in_flat_map. split.
  - intros ([[a ty n]|] & Hp & H); [|destruct H]. cbn [param_exprs] in H. exists a, ty, n. split; [exact Hp|].
    apply in_app_or in H as [H|[H|[]]]; [left; apply P_Solang.in_olist in H; exact H|right; symmetry; exact H].
  - intros (a & ty & n & Hp & H). exists (Some (PParam a ty n)). split; [exact Hp|]. cbn [param_exprs]. apply in_or_app.
    destruct H as [->| ->]; [left; left; reflexivity|right; left; reflexivity].
Qed.
Lemma parameter_in p e : In e (param_exprs p) <-> in_parameters [Some p] e.
Proof. rewrite <- parameters_in. unfold params_exprs. cbn [flat_map]. rewrite app_nil_r. reflexivity. Qed.
Lemma simple_in o e : In e (flat_map param_exprs (olist o)) <-> in_parameters [o] e.
Proof. destruct o as [p|]; cbn [olist flat_map]; [rewrite app_nil_r; apply parameter_in|]. split; [intros []|intros (a & ty & n & [H|[]] & _); discriminate]. Qed.
Lemma in_pe l y : In (PExpr y) (map pe l) <-> exists e, In e l /\ y = to_expr e.
Proof.
  rewrite in_map_iff. unfold pe. split.
  - intros (e & H & I). injection H as <-. eauto.
  - intros (e & I & ->). eauto.
Qed.
Lemma in_pe_named (l : list (text * pexpr)) y : In (PExpr y) (map (fun a => pe (snd a)) l) <-> exists n e, In (n, e) l /\ y = to_expr e.
Proof.
  rewrite in_map_iff. unfold pe. split.
  - intros ([n e] & H & I). injection H as <-. eauto.
  - intros (n & e & I & ->). exists (n, e). auto.
Qed.
(** The expressions among the parts of a statement. *)
Lemma operand_part s e : operand s e -> exists k i sp parts, to_stmt s = SStmt k i sp parts /\ In (PExpr (to_expr e)) parts.
Proof.
  intros H. destruct H; cbn [to_stmt]; unfold at_loc; eexists _, _, _, _; (split; [reflexivity|]); unfold pe.
  - left. reflexivity.
  - left. reflexivity.
  - left. reflexivity.
  - right. left. reflexivity.
  - rewrite !in_app_iff. right. left. left. reflexivity.
  - rewrite !in_app_iff. right. right. left. left. reflexivity.
  - left. reflexivity.
  - right. left. reflexivity.
  - left. reflexivity.
  - apply in_pe. eauto.
  - apply in_pe_named. eauto.
  - left. reflexivity.
  - left. reflexivity.
  - right. rewrite !in_app_iff. left. left. apply in_pe. exists e. split; [apply parameters_in; assumption|reflexivity].
  - right. apply in_or_app. right. apply in_flat_map. eexists. split; [eassumption|]. cbn. apply in_or_app. left. apply in_pe. exists e. split; [apply simple_in; assumption|reflexivity].
  - right. apply in_or_app. right. apply in_flat_map. eexists. split; [eassumption|]. cbn. apply in_or_app. left. apply in_pe. exists e. split; [apply parameter_in; assumption|reflexivity].
  - apply in_pe_named. eauto.
Qed.
Lemma part_operand s k i sp parts y : to_stmt s = SStmt k i sp parts -> In (PExpr y) parts -> exists e, operand s e /\ y = to_expr e.
Proof.
  intros H I. destruct s as [l u ss|l|l args|l c a o|l c a|l e|l t n o|l o c n b|l a c|l|l|l o|l es|l args|l e|l e r cs|l]; cbn [to_stmt] in H; unfold at_loc in H; try discriminate;
    inversion H; subst; clear H; cbn [In app] in I; try solve [destruct I].
  - apply in_pe_named in I as (n & e & I & ->). exists e. split; [econstructor; exact I|reflexivity].
  - destruct I as [I|[I|I]]; [injection I as <-|discriminate|]. 1: eexists; split; [constructor|reflexivity].
    destruct o; [destruct I as [I|[]]; discriminate|destruct I].
  - destruct I as [I|[I|[]]]; [injection I as <-|discriminate]. eexists; split; [constructor|reflexivity].
  - destruct I as [I|[]]. injection I as <-. eexists; split; [constructor|reflexivity].
  - destruct I as [I|I]; [injection I as <-; eexists; split; [constructor|reflexivity]|]. apply in_pe in I as (e & I & ->). apply P_Solang.in_olist in I as ->. eexists; split; [apply or_value|reflexivity].
  - rewrite !in_app_iff in I. destruct I as [I|[I|[I|I]]].
    + destruct o; [destruct I as [I|[]]; discriminate|destruct I].
    + apply in_pe in I as (e & I & ->). apply P_Solang.in_olist in I as ->. eexists; split; [constructor|reflexivity].
    + apply in_pe in I as (e & I & ->). apply P_Solang.in_olist in I as ->. eexists; split; [apply or_for_next|reflexivity].
    + destruct b; [destruct I as [I|[]]; discriminate|destruct I].
  - destruct I as [I|[I|[]]]; [discriminate|injection I as <-]. eexists; split; [constructor|reflexivity].
  - apply in_pe in I as (e & I & ->). apply P_Solang.in_olist in I as ->. eexists; split; [constructor|reflexivity].
  - apply in_pe in I as (e & I & ->). exists e. split; [constructor; exact I|reflexivity].
  - apply in_pe_named in I as (n & e & I & ->). exists e. split; [econstructor; exact I|reflexivity].
  - destruct I as [I|[]]. injection I as <-. eexists; split; [constructor|reflexivity].
  - destruct I as [I|I]; [injection I as <-; eexists; split; [constructor|reflexivity]|]. apply in_app_or in I as [I|I].
    + destruct r as [[ps x]|]; [|destruct I]. apply in_app_or in I as [I|[I|[]]]; [|discriminate]. apply in_pe in I as (z & I & ->). exists z. split; [apply or_returns, parameters_in; exact I|reflexivity].
    + apply in_flat_map in I as ([o x|n p x] & Hc & I); (apply in_app_or in I as [I|[I|[]]]; [|discriminate]); apply in_pe in I as (z & I & ->); exists z; (split; [|reflexivity]).
      * eapply or_catch; [exact Hc|apply simple_in; exact I].
      * eapply or_catch_named; [exact Hc|apply parameter_in; exact I].
Qed.
Lemma head_iff f a' : In a' (f_attrs (to_fun f)) <-> exists a, in_head f a /\ a' = to_expr a.
Proof.
  cbn [to_fun f_attrs]. rewrite in_map_iff. split.
  - intros (a & <- & H). exists a. split; [|reflexivity]. rewrite !in_app_iff, !parameters_in in H. destruct H as [H|[H|H]]; [left; exact H|right; right|right; left; exact H].
    apply in_flat_map in H as ([v|m|n [es|]|] & Ha & H); try (destruct H; fail). exists n, es. auto.
  - intros (a & H & ->). exists a. split; [reflexivity|]. rewrite !in_app_iff, !parameters_in. destruct H as [H|[H|(n & es & Ha & H)]]; [auto|auto|].
    right. left. apply in_flat_map. eexists. split; [exact Ha|exact H].
Qed.
(** The calls that are looked at are those at the places described. *)
Theorem C80_places : forall f c', seen_in (to_fun f) c' <-> exists c, place f c /\ c' = to_expr c.
Proof.
  intros f c'. split.
  - intros [(a' & Ha & H)|(b' & k & i & sp & parts & e' & Hb & Hs & He & H)].
    + apply head_iff in Ha as (a & Ha & ->). apply seen_iff in H as (c & H & ->). exists c. split; [left; eauto|reflexivity].
    + cbn [to_fun f_body] in Hb. destruct (pf_body f) as [b|] eqn:B; [|discriminate]. injection Hb as <-. apply P_Solang.C79_reached in Hs as (s & Hs & Q).
      symmetry in Q. destruct (part_operand _ _ _ _ _ _ Q He) as (e & He' & ->). apply seen_iff in H as (c & H & ->). exists c. split; [right; exists b, s, e; auto|reflexivity].
  - intros (c & [(e & He & H)|(b & s & e & Hb & Hs & He & H)] & ->).
    + left. exists (to_expr e). split; [apply head_iff; eauto|apply seen_iff; eauto].
    + right. destruct (operand_part _ _ He) as (k & i & sp & parts & Q & I). exists (to_stmt b), k, i, sp, parts, (to_expr e).
      split; [cbn [to_fun f_body]; rewrite Hb; reflexivity|]. split; [apply P_Solang.C79_reached; eauto|]. split; [exact I|apply seen_iff; eauto].
Qed.
Print Assumptions C80_places.

Lemma functions_to u : functions (to_items u) = map to_fun (functions_of u).
Proof.
  assert (D : forall d, functions (decl_items d) = []) by (intros d; unfold decl_items, functions; induction (decl_exprs d) as [|e r IH]; [reflexivity|exact IH]).
  assert (A : forall a b, functions (a ++ b) = functions a ++ functions b) by (intros a b; apply flat_map_app).
  unfold to_items, functions_of. induction u as [|p u IH]; [reflexivity|]. cbn [flat_map]. rewrite A, map_app, IH. f_equal. clear IH.
  destruct p as [c|f|d]; cbn [part_items]; [|reflexivity|apply D]. unfold contract_items. rewrite A.
  match goal with |- functions ?x ++ _ = _ => replace (functions x) with (@nil sfun) end.
  2:{ induction (flat_map (fun b : text * option (list pexpr) => match snd b with Some es => es | None => [] end) (pc_bases c)) as [|e r IH]; [reflexivity|exact IH]. }
  cbn [app]. induction (pc_parts c) as [|k ks IH]; [reflexivity|]. cbn [flat_map]. rewrite A, map_app, IH. f_equal. destruct k as [f|d]; [reflexivity|apply D].
Qed.
Lemma map_to_split : forall (l : list pfun) pre g post, map to_fun l = pre ++ g :: post -> exists a x b, l = a ++ x :: b /\ map to_fun a = pre /\ to_fun x = g /\ map to_fun b = post.
Proof.
  intros l pre. revert l. induction pre as [|y pre IH]; intros [|x l] g post H; try discriminate; cbn [map app] in H; injection H as H1 H2.
  - exists [], x, l. auto.
  - destruct (IH _ _ _ H2) as (a & z & b & -> & <- & <- & <-). exists (x :: a), z, b. split; [reflexivity|]. split; [cbn; f_equal; exact H1|auto].
Qed.
Lemma local_iff u x g' : sol_local (to_items u) x g' <-> exists g, first_named u x g /\ g' = to_fun g.
Proof.
  unfold sol_local, first_named. rewrite functions_to. split.
  - intros (pre & post & H & N & P & F). apply map_to_split in H as (a & g & b & H & <- & <- & <-). exists g. split; [|reflexivity]. exists a, b. split; [exact H|]. split; [exact N|].
    split; [apply P_Solang.pure_iff; exact P|]. intros h Hh Hn. destruct (is_pure h) eqn:Q; [|exfalso].
    + unfold is_pure in Q. apply existsb_exists in Q as ([v|m|n es|] & I & Q); try discriminate. destruct m; try discriminate. exact I.
    + pose proof (F (to_fun h) (in_map _ _ _ Hh) Hn) as Z. cbn [to_fun f_pure] in Z. congruence.
  - intros (g & (pre & post & H & N & P & F) & ->). exists (map to_fun pre), (map to_fun post). split; [rewrite H, map_app; reflexivity|]. split; [exact N|]. split; [apply P_Solang.pure_iff; exact P|].
    intros h Hh Hn. apply in_map_iff in Hh as (k & <- & Hk). cbn [to_fun f_pure f_name] in *. destruct (is_pure k) eqn:Q; [reflexivity|]. apply P_Solang.pure_iff in Q. destruct Q. exact (F k Hk Hn).
Qed.
Lemma functions_of_in u f : In f (functions_of u) -> S_Solang.function_of u f.
Proof.
  unfold functions_of. intros H. apply in_flat_map in H as ([c|g|d] & Hp & H); [|destruct H as [<-|[]]; left; exact Hp|destruct H].
  apply in_flat_map in H as ([g|d] & Hk & H); [destruct H as [<-|[]]; right; eauto|destruct H].
Qed.
Section Theorems.
Context (E : venv) (u : punit) (walkable : text -> bool) (st : vst).
Lemma local_call_iff c g' : sol_local_call (to_items u) walkable (to_expr c) g' <-> exists g, calls_function u walkable c g /\ g' = to_fun g.
Proof.
  split.
  - intros (i & sp & x & H & W & L). apply calls_iff in H as (h & H & Q). symmetry in Q. apply P_Solang.pt_variable in Q as (l & -> & _). apply local_iff in L as (g & L & ->).
    exists g. split; [exists l, x; auto|reflexivity].
  - intros (g & (l & x & H & W & L) & ->). exists (l_id l), (l_span l), x. split; [apply calls_iff; exists (XVariable l x); auto|]. split; [exact W|apply local_iff; eauto].
Qed.
Lemma calls_is_call c g : calls c g -> is_call c.
Proof. intros (l & f & args & -> & _). eexists _, _, _. reflexivity. Qed.
Lemma enters_iff f g : function_calls E u walkable f g -> sol_enters E (to_items u) walkable (to_fun f) (to_fun g).
Proof.
  intros (b & s & e & c & Hb & Hs & He & Hc & Hg). destruct (operand_part _ _ He) as (k & i & sp & parts & Q & I).
  exists (to_stmt b), k, i, sp, parts, (to_expr e), (to_expr c). split; [cbn [to_fun f_body]; rewrite Hb; reflexivity|]. split; [apply P_Solang.C79_reached; eauto|]. split; [exact I|].
  split; [|apply local_call_iff; eauto]. apply open_in; [exact Hc|]. destruct Hg as (l & x & Hg & _). exact (calls_is_call _ _ Hg).
Qed.
Lemma removable_iff s : removable_call E u walkable s -> sol_removable_call E (to_items u) walkable (to_stmt s).
Proof.
  intros (l & c & -> & Hc & Hi & Hl). exists (l_id l), (l_span l), (to_expr c). split; [reflexivity|]. split; [apply is_call_iff; exact Hc|]. split; [rewrite ign_iff; exact Hi|].
  intros g Hg. apply local_call_iff in Hg as (h & Hh & _). exact (Hl h Hh).
Qed.
Hypothesis NM : no_member_statement (to_items u).
Hypothesis R : result (sol_env E (to_items u) walkable) (file_node (to_items u)) st.
(** A statement of a test that is a call is a candidate, if the call is not ignored and not of a function that is searched instead. *)
Theorem C80_call_statements : forall t f b s, S_Solang.test_of u f t -> v_ign_test E t = false -> pf_body f = Some b -> s_reached b s -> removable_call E u walkable s ->
  (forall r, S_Solang.last_of f r -> l_id (S_Solang.stmt_loc r) <> l_id (S_Solang.stmt_loc s)) -> v_skip E (l_span (S_Solang.stmt_loc s)) = false ->
  candidate st Statement (l_span (S_Solang.stmt_loc s)) t.
Proof.
  intros t f b s Ht Hi Hb Hs Hr Hl Hk. eapply P_Solang.C79_statements_of_tests; try eassumption. right. apply removable_iff. exact Hr.
Qed.
(** A method call of a test, at a place that is looked at, is a candidate for the test, unless it is ignored, in an ignored call, or is the last statement. *)
Theorem C80_method_calls_of_tests : forall t f b s e c base p sp, S_Solang.test_of u f t -> v_ign_test E t = false ->
  pf_body f = Some b -> s_reached b s -> operand s e -> open_among E e c -> method c base p -> ~ ignored E c -> v_ign_met E (dotted p) = false ->
  (forall l c' r, s_reached b (TExpression l c') -> l_id (expr_loc c') = l_id (expr_loc c) -> S_Solang.last_of f r -> l_id (S_Solang.stmt_loc r) <> l_id l) ->
  method_span E (l_span (expr_loc c)) (l_span (expr_loc base)) = Some sp -> v_skip E sp = false -> candidate st MethodCall sp t.
Proof.
  intros t f b s e c base p sp Ht Hi Hb Hs He Hc Hm Hn Hp Hl Hsp Hk. destruct (operand_part _ _ He) as (k & i & sp0 & parts & Q & I).
  eapply (C69_method_calls_of_tests E (to_items u) walkable st t (to_fun f) (to_stmt b) k i sp0 parts (to_expr e) (to_expr c) (to_expr base) p sp NM R).
  - apply P_Solang.C79_tests. eauto.
  - exact Hi.
  - cbn [to_fun f_body]. rewrite Hb. reflexivity.
  - apply P_Solang.C79_reached. eauto.
  - exact I.
  - apply open_in; [exact Hc|]. destruct Hm as (g & Hg & _). exact (calls_is_call _ _ Hg).
  - apply method_iff. eauto.
  - rewrite ign_iff. exact Hn.
  - exact Hp.
  - intros s' r' c' Hs' (Cc & i' & sp' & parts' & Q') Hid Hr. apply P_Solang.C79_reached in Hs' as (s1 & Hs1 & ->). apply P_Solang.pt_expression in Q' as (l & e1 & -> & Q' & _). injection Q' as Q' _.
    subst c'. apply P_Solang.last_iff in Hr as (r & Hr & ->). rewrite !P_Solang.to_stmt_id. rewrite !to_expr_id in Hid. exact (Hl l e1 r Hs1 Hid Hr).
  - rewrite !to_expr_span. exact Hsp.
  - exact Hk.
Qed.
Hypothesis ND : NoDup (map (fun f => l_id (pf_loc f)) (functions_of u)).
Lemma nodup_to : NoDup (map f_id (functions (to_items u))).
Proof. rewrite functions_to, map_map. exact ND. Qed.
(** The statements and method calls of a function that a test calls are candidates for the test. *)
Theorem C80_statements_of_called_functions : forall t f g b s, S_Solang.test_of u f t -> v_ign_test E t = false -> function_calls E u walkable f g ->
  pf_body g = Some b -> s_reached b s -> S_Solang.plain s \/ removable_call E u walkable s -> v_skip E (l_span (S_Solang.stmt_loc s)) = false ->
  candidate st Statement (l_span (S_Solang.stmt_loc s)) t.
Proof.
  intros t f g b s Ht Hi Hg Hb Hs Hp Hk. rewrite <- P_Solang.to_stmt_span in *. destruct (enters_iff _ _ Hg) as (b0 & k & i & sp0 & parts & e & c & H1 & H2 & H3 & H4 & H5).
  eapply (C69_statements_of_called_functions E (to_items u) walkable st t (to_fun f) b0 k i sp0 parts e c (to_fun g) (to_stmt b) (to_stmt s) NM nodup_to R); try eassumption.
  - apply P_Solang.C79_tests. eauto.
  - cbn [to_fun f_body]. rewrite Hb. reflexivity.
  - apply P_Solang.C79_reached. eauto.
  - destruct Hp as [Hp|Hp]; [left; apply P_Solang.plain_iff; exact Hp|right; apply removable_iff; exact Hp].
Qed.
Theorem C80_method_calls_of_called_functions : forall t f g b s e c base p sp, S_Solang.test_of u f t -> v_ign_test E t = false -> function_calls E u walkable f g ->
  pf_body g = Some b -> s_reached b s -> operand s e -> open_among E e c -> method c base p -> ~ ignored E c -> v_ign_met E (dotted p) = false ->
  method_span E (l_span (expr_loc c)) (l_span (expr_loc base)) = Some sp -> v_skip E sp = false -> candidate st MethodCall sp t.
Proof.
  intros t f g b s e c base p sp Ht Hi Hg Hb Hs He Hc Hm Hn Hp Hsp Hk. destruct (operand_part _ _ He) as (k & i & sp0 & parts & Q & I).
  eapply (C69_method_calls_of_called_functions E (to_items u) walkable st t (to_fun f) (to_fun g) (to_stmt b) k i sp0 parts (to_expr e) (to_expr c) (to_expr base) p sp NM nodup_to R).
  - apply P_Solang.C79_tests. eauto.
  - exact Hi.
  - apply enters_iff. exact Hg.
  - cbn [to_fun f_body]. rewrite Hb. reflexivity.
  - apply P_Solang.C79_reached. eauto.
  - exact I.
  - apply open_in; [exact Hc|]. destruct Hm as (h & Hh & _). exact (calls_is_call _ _ Hh).
  - apply method_iff. eauto.
  - rewrite ign_iff. exact Hn.
  - exact Hp.
  - rewrite !to_expr_span. exact Hsp.
  - exact Hk.
Qed.
(** Conversely, a method call that is a candidate stands at such a place, in a test or a function that may be searched, and is not ignored. *)
Theorem C80_method_candidates : forall sp t, candidate st MethodCall sp t ->
  v_skip E sp = false /\ v_ign_test E t = false /\ exists f c base p, S_Solang.function_of u f /\ place f c /\ method c base p /\
    method_span E (l_span (expr_loc c)) (l_span (expr_loc base)) = Some sp /\ ~ ignored E c /\ ~ method_ignored E c /\
    (S_Solang.test_of u f t \/ exists x, first_named u x f /\ walkable x = true).
Proof.
  intros sp t C. destruct (seen_candidates E (to_items u) walkable st sp t NM nodup_to R C) as (Hk & Hi & f' & c' & base' & p & Hf & If & Hs & Hm & Hsp & H1 & H2).
  split; [exact Hk|]. split; [exact Hi|]. 
  assert (G : exists f, f' = to_fun f /\ (S_Solang.test_of u f t \/ exists x, first_named u x f /\ walkable x = true)).
  { destruct Hf as [Hf|Hf]; [apply P_Solang.C79_tests in Hf as (f & Hf & ->); exists f; auto|].
    assert (L : exists c, sol_local_call (to_items u) walkable c f') by (destruct Hf; eauto). destruct L as (c & i & sp' & x & _ & W & L). apply local_iff in L as (g & L & ->). exists g. eauto. }
  destruct G as (f & -> & Hor). apply P_Solang.C79_functions in If as (f1 & Hf1 & Q).
  apply C80_places in Hs as (c & Hc & ->). apply method_iff in Hm as (base & Hm & ->). rewrite !to_expr_span in Hsp. rewrite ign_iff in H1. rewrite met_iff in H2.
  exists f, c, base, p. split; [|auto 10]. destruct Hor as [Hor|(x & (pre & post & Hor & _) & _)]; [exact (proj1 Hor)|].
  apply functions_of_in. rewrite Hor. apply in_elt.
Qed.
(** A call that is a statement and a candidate is not ignored. *)
Theorem C80_statement_candidates : forall sp t, candidate st Statement sp t ->
  exists f b s, S_Solang.function_of u f /\ pf_body f = Some b /\ s_reached b s /\ l_span (S_Solang.stmt_loc s) = sp /\ ~ S_Solang.is_block s /\ ~ S_Solang.kept s /\
    (S_Solang.test_of u f t /\ (forall r, S_Solang.last_of f r -> l_id (S_Solang.stmt_loc r) <> l_id (S_Solang.stmt_loc s)) \/ exists x, first_named u x f /\ walkable x = true) /\
    ((exists l c, s = TExpression l c /\ is_call c /\ ~ ignored E c) \/
     ~ S_Solang.call_statement s /\ forall x y, S_Solang.branch s x -> s_reached x y -> S_Solang.is_block y).
Proof.
  intros sp t C. destruct (C69_statement_candidates E (to_items u) walkable st sp t NM nodup_to R C) as (_ & _ & s0 & Hc & Hsp & Hk & Hcase).
  destruct Hc as (g & b0 & Hb & Hex & Hpr & Hcode).
  assert (G : exists f, g = to_fun f /\ S_Solang.function_of u f /\
    (S_Solang.test_of u f t /\ (forall r, S_Solang.last_of f r -> l_id (S_Solang.stmt_loc r) <> stmt_id s0) \/ exists x, first_named u x f /\ walkable x = true)).
  { destruct Hcode as [Hcall|(Ht & Hl)].
    - assert (L : exists c, sol_local_call (to_items u) walkable c g) by (destruct Hcall; eauto). destruct L as (c & i & sp' & x & _ & W & L). apply local_iff in L as (f & L & ->).
      exists f. split; [reflexivity|]. split; [|right; eauto]. destruct L as (pre & post & L & _). apply functions_of_in. rewrite L. apply in_elt.
    - apply P_Solang.C79_tests in Ht as (f & Ht & ->). exists f. split; [reflexivity|]. split; [exact (proj1 Ht)|left]. split; [exact Ht|].
      intros r Hr. rewrite <- P_Solang.to_stmt_id. apply Hl, P_Solang.last_iff. eauto. }
  destruct G as (f & -> & Hf & Hor). cbn [to_fun f_body] in Hb. destruct (pf_body f) as [b|] eqn:B; [|discriminate]. injection Hb as <-.
  apply P_Solang.C79_reached in Hex as (s & Hs & ->). exists f, b, s. split; [exact Hf|]. split; [exact B|]. split; [exact Hs|]. rewrite P_Solang.to_stmt_span in Hsp. split; [exact Hsp|].
  split; [rewrite P_Solang.block_iff; tauto|]. split; [rewrite <- P_Solang.kept_iff; exact Hk|]. rewrite P_Solang.to_stmt_id in Hor. split; [exact Hor|].
  destruct Hcase as [(c & (Cc & i & sp' & parts & Q) & Hn)|(Hn0 & Hn)]; [left|right].
  - apply P_Solang.pt_expression in Q as (l & e & -> & Q & _). injection Q as Q _. subst c. exists l, e. split; [reflexivity|]. rewrite <- is_call_iff, <- ign_iff. auto.
  - split; [intros Q; apply P_Solang.call_iff in Q as (c & Q); exact (Hn0 c Q)|]. intros x y Hx Hy.
    destruct (P_Solang.branch_part _ _ Hx) as (k & parts & Q & Hp). apply P_Solang.block_iff. unfold at_loc in Q. rewrite Hsp in Q. eapply Hn; [exact Q|exact Hp|]. apply P_Solang.C79_reached. exists y. auto.
Qed.
End Theorems.
Print Assumptions C80_call_statements.
Print Assumptions C80_method_calls_of_tests.
Print Assumptions C80_statements_of_called_functions.
Print Assumptions C80_method_calls_of_called_functions.
Print Assumptions C80_method_candidates.
Print Assumptions C80_statement_candidates.

(** ** An example, and what is not so *)
Definition pl := P_Solang.pl.
Definition q_text : text := s2t "contract C { function h() pure { k.l(); } function h() { a.b(); c.d(); } function testA() { if (a.q()) {} return_(a.r(), i.s(a.t())); h(); x = a.u(); a.v().w(); n.o{v: 1}(a.x()); f().z(); } }".
Definition q_x : pexpr := XCall (pl 56 171 176) (XMember (pl 55 171 174) (XVariable (pl 54 171 172) (s2t "a")) (s2t "x")) [].
Definition q_o : pexpr := XCall (pl 57 161 177) (XCallBlock (pl 52 161 170) (XMember (pl 50 161 164) (XVariable (pl 49 161 162) (s2t "n")) (s2t "o")) (TArgs (pl 53 164 170) [(s2t "v", (XLiteral (pl 51 168 169)))])) [q_x].
Definition q_call : pexpr := XCall (pl 35 134 137) (XVariable (pl 34 134 135) (s2t "h")) [].
Definition q_u : pexpr := XCall (pl 40 143 148) (XMember (pl 39 143 146) (XVariable (pl 38 143 144) (s2t "a")) (s2t "u")) [].
Definition q_v : pexpr := XCall (pl 45 150 155) (XMember (pl 44 150 153) (XVariable (pl 43 150 151) (s2t "a")) (s2t "v")) [].
Definition q_d : pexpr := XCall (pl 13 64 69) (XMember (pl 12 64 67) (XVariable (pl 11 64 65) (s2t "c")) (s2t "d")) [].
Definition q_pure_body : pstmt := TBlock (pl 5 31 41) false [(TExpression (pl 4 33 39) (XCall (pl 3 33 38) (XMember (pl 2 33 36) (XVariable (pl 1 33 34) (s2t "k")) (s2t "l")) []))].
Definition q_pure : pfun := PFun (pl 6 13 41) TFunction (Some (s2t "h")) [] [AMutability MPure] [] (Some q_pure_body).
Definition q_h_body : pstmt := TBlock (pl 15 55 72) false [(TExpression (pl 10 57 63) (XCall (pl 9 57 62) (XMember (pl 8 57 60) (XVariable (pl 7 57 58) (s2t "a")) (s2t "b")) []));
   (TExpression (pl 14 64 70) q_d)].
Definition q_h : pfun := PFun (pl 16 42 72) TFunction (Some (s2t "h")) [] [] [] (Some q_h_body).
Definition q_test_body : pstmt := TBlock (pl 64 90 189) false [(TIf (pl 21 92 105) (XCall (pl 19 96 101) (XMember (pl 18 96 99) (XVariable (pl 17 96 97) (s2t "a")) (s2t "q")) []) (TBlock (pl 20 103 105) false []) None);
   (TExpression (pl 33 106 133) (XCall (pl 32 106 132) (XVariable (pl 22 106 113) (s2t "return_")) [(XCall (pl 25 114 119) (XMember (pl 24 114 117) (XVariable (pl 23 114 115) (s2t "a")) (s2t "r")) []); (XCall (pl 31 121 131) (XMember (pl 27 121 124) (XVariable (pl 26 121 122) (s2t "i")) (s2t "s")) [(XCall (pl 30 125 130) (XMember (pl 29 125 128) (XVariable (pl 28 125 126) (s2t "a")) (s2t "t")) [])])]));
   (TExpression (pl 36 134 138) q_call);
   (TExpression (pl 42 139 149) (XAssign (pl 41 139 148) (XVariable (pl 37 139 140) (s2t "x")) q_u));
   (TExpression (pl 48 150 160) (XCall (pl 47 150 159) (XMember (pl 46 150 157) q_v (s2t "w")) []));
   (TExpression (pl 58 161 178) q_o);
   (TExpression (pl 63 179 187) (XCall (pl 62 179 186) (XMember (pl 61 179 184) (XCall (pl 60 179 182) (XVariable (pl 59 179 180) (s2t "f")) []) (s2t "z")) []))].
Definition q_test : pfun := PFun (pl 65 73 189) TFunction (Some (s2t "testA")) [] [] [] (Some q_test_body).
Definition q_unit : punit := [UContract (PContract (Some (s2t "C")) [] [KFun q_pure; KFun q_h; KFun q_test])].
Definition q_env0 := x_env fw_foundry ["return_"%string] ["w"%string] false (fun _ => []) q_text.
Definition q_walk : text -> bool := fun x => text_eqb x (s2t "h").
Definition q_st := st_of (sol_env q_env0 (to_items q_unit) q_walk) (file_node (to_items q_unit)).
Example q_cands : map (fun c => match c with (k, a, b, ts) => (k, firstn (b - a) (skipn a q_text), ts) end) (cands q_st) =
  map (fun x => (Statement, s2t x, [s2t "testA"])) ["a.b();"; "c.d();"; "if (a.q()) {}"; "x = a.u();"; "a.v().w();"; "n.o{v: 1}(a.x());"]%string ++
  map (fun x => (MethodCall, s2t x, [s2t "testA"])) [".b()"; ".d()"; ".q()"; ".o{v: 1}(a.x())"; ".x()"]%string.
Proof. vm_compute. reflexivity. Qed.

Lemma q_facts : no_member_statement (to_items q_unit) /\ NoDup (map (fun f => l_id (pf_loc f)) (functions_of q_unit)) /\
  result (sol_env q_env0 (to_items q_unit) q_walk) (file_node (to_items q_unit)) q_st.
Proof.
  split; [apply no_member_checked; vm_compute; reflexivity|]. split; [|exists 9%nat; vm_compute; reflexivity].
  vm_compute. repeat (constructor; [cbn [In]; intros H; repeat (destruct H as [H|H]; [discriminate H|]); exact H|]). constructor.
Qed.
Lemma q_is_test : S_Solang.test_of q_unit q_test (s2t "testA").
Proof.
  split; [right; eexists; split; [left; reflexivity|right; right; left; reflexivity]|]. split; [reflexivity|]. split; [exists (s2t "A"); reflexivity|]. split; [intros []|].
  eexists. split; [reflexivity|]. eexists _, _, _. reflexivity.
Qed.
(** The statements of the test, none of which is a cheatcode. *)
Lemma q_reached pre s post : (exists l v, q_test_body = TBlock l v (pre ++ s :: post)) -> s_reached q_test_body s.
Proof.
  intros (l & v & Q). rewrite Q. apply S_Solang.re_block; [|constructor]. intros p c -> (l0 & l1 & l2 & l3 & m & args & -> & _). injection Q as _ _ Q. rewrite <- app_assoc in Q. cbn [app] in Q.
  destruct p as [|p1 [|p2 [|p3 [|p4 [|p5 [|p6 [|p7 p]]]]]]]; inversion Q. destruct p; discriminate.
Qed.
Lemma stripped_unique f g h : stripped f g -> stripped f h -> g = h.
Proof.
  intros H. revert h. induction H as [e He|l e o g _ IH]; intros h K; inversion K; subst; [reflexivity|exfalso; apply He; eexists _, _, _; reflexivity| |auto].
  exfalso. apply H. eexists _, _, _. reflexivity.
Qed.
Lemma path_unique e b p b' p' : dotted_path e b p -> dotted_path e b' p' -> b = b' /\ p = p'.
Proof.
  intros H. revert b' p'. induction H as [e He|l c x b p _ IH]; intros b' p' K; inversion K; subst; try (exfalso; eapply He; reflexivity); try (exfalso; eapply H; reflexivity); [auto|].
  destruct (IH _ _ H4) as [-> ->]. auto.
Qed.
Lemma method_unique c b p b' p' : method c b p -> method c b' p' -> b = b' /\ p = p'.
Proof.
  intros (g & (l & f & args & -> & Hf) & Hd & _) (h & (l' & f' & args' & Q & Hf') & Hd' & _). injection Q as <- <- <-. rewrite <- (stripped_unique _ _ _ Hf Hf') in Hd'. exact (path_unique _ _ _ _ _ Hd Hd').
Qed.
Lemma dotted_one (x : text) : dotted [x] = x.
Proof. unfold dotted, separated. cbn [map concat]. apply app_nil_r. Qed.
Lemma not_ignored E l l2 f args y x : v_disamb E = DNone -> (forall l0 z, f <> XVariable l0 z) -> method (XCall l f args) (XVariable l2 y) [x] ->
  v_ign_fun E (y ++ s2t "." ++ x) = false -> v_ign_met E x = false -> ~ ignored E (XCall l f args).
Proof.
  intros HD HF HM H1 H2 [H|(b & p & Hm & _ & Hp)].
  - inversion H as [l0 l' z a Hz Q|c l0 z p Hm Hz Q|c b p Hm Hb _ Q]; subst.
    + eapply HF. reflexivity.
    + destruct (method_unique _ _ _ _ _ HM Hm) as [Q <-]. injection Q as <- <-. rewrite HD in Hz. rewrite dotted_one in Hz. destruct Hz; congruence.
    + destruct (method_unique _ _ _ _ _ HM Hm) as [<- _]. destruct Hb as (? & ? & ? & Q). discriminate.
  - destruct (method_unique _ _ _ _ _ HM Hm) as [_ <-]. rewrite dotted_one in Hp. congruence.
Qed.
Lemma q_member l l1 l2 y x args : method (XCall l (XMember l1 (XVariable l2 y) x) args) (XVariable l2 y) [x].
Proof.
  eexists. split; [eexists _, _, _; split; [reflexivity|constructor; intros (? & ? & ? & Q); discriminate]|]. split; [|discriminate]. apply (dp_member _ _ _ _ []). constructor. discriminate.
Qed.
Lemma q_o_method : method q_o (XVariable (pl 49 161 162) (s2t "n")) [s2t "o"].
Proof.
  eexists. split; [eexists _, _, _; split; [reflexivity|]; constructor; constructor; intros (? & ? & ? & Q); discriminate|]. split; [|discriminate].
  apply (dp_member _ _ _ _ []). constructor. discriminate.
Qed.
Lemma q_o_free : ~ ignored q_env0 q_o /\ ~ method_ignored q_env0 q_o.
Proof.
  split; [eapply not_ignored; [reflexivity|discriminate|apply q_o_method|vm_compute; reflexivity|vm_compute; reflexivity]|].
  intros (b & p & Hm & Hp). destruct (method_unique _ _ _ _ _ q_o_method Hm) as [_ <-]. vm_compute in Hp. discriminate.
Qed.
Lemma q_last r : S_Solang.last_of q_test r -> l_id (S_Solang.stmt_loc r) = 63.
Proof.
  intros (l & v & pre & Q & _). injection Q as _ _ Q. apply (f_equal (@rev pstmt)) in Q. rewrite rev_app_distr in Q. cbn [rev app] in Q. injection Q as <- _. reflexivity.
Qed.
Lemma q_o_reached : s_reached q_test_body (TExpression (pl 58 161 178) q_o).
Proof.
  unfold q_test_body. match goal with |- s_reached (TBlock ?l ?v [?a; ?b; ?c; ?d; ?e; ?f; ?g]) _ => apply (q_reached [a; b; c; d; e] f [g]); exists l, v; reflexivity end.
Qed.
(** [n.o{v: 1}(a.x());] is a removable call, with the method call [a.x()] in it; the test calls [h], which has [c.d();]. *)
Example C80_nonvacuous : S_Solang.test_of q_unit q_test (s2t "testA") /\ pf_body q_test = Some q_test_body /\
  s_reached q_test_body (TExpression (pl 58 161 178) q_o) /\ removable_call q_env0 q_unit q_walk (TExpression (pl 58 161 178) q_o) /\
  operand (TExpression (pl 58 161 178) q_o) q_o /\ open_among q_env0 q_o q_x /\ method q_x (XVariable (pl 54 171 172) (s2t "a")) [s2t "x"] /\ ~ ignored q_env0 q_x /\
  (forall l c' r, s_reached q_test_body (TExpression l c') -> l_id (expr_loc c') = l_id (expr_loc q_x) -> S_Solang.last_of q_test r -> l_id (S_Solang.stmt_loc r) <> l_id l) /\
  function_calls q_env0 q_unit q_walk q_test q_h /\ pf_body q_h = Some q_h_body /\ exists s, s_reached q_h_body s /\ operand s q_d.
Proof.
  split; [exact q_is_test|]. split; [reflexivity|]. split; [exact q_o_reached|]. split.
  { exists (pl 58 161 178), q_o. split; [reflexivity|]. split; [eexists _, _, _; reflexivity|]. split; [apply q_o_free|].
    intros g (l & x & (l0 & f & args & Q & Hf) & _). injection Q as <- <- <-. inversion Hf as [|l1 e o g0 Hg]; subst. inversion Hg. }
  split; [constructor|]. split; [eapply oa_argument; [right; apply q_o_free|left; reflexivity|constructor]|]. split; [apply q_member|].
  split; [eapply not_ignored; [reflexivity|discriminate|apply q_member|vm_compute; reflexivity|vm_compute; reflexivity]|]. split.
  { intros l c' r Hr Q Hl. rewrite (q_last r Hl). intros Q2. remember (TExpression l c') as s0 eqn:S0. unfold q_test_body in Hr.
    assert (D : forall a, s_reached a s0 -> (exists l1 c1, a = TExpression l1 c1) -> a = s0).
    { intros a Ha (l1 & c1 & ->). inversion Ha as [|? ? ? ? ? ? ? ? Q5|a0 y s1 Hb Hy]; subst; [reflexivity|inversion Hb]. }
    assert (Z : forall a l1 c1, s_reached a s0 -> a = TExpression l1 c1 -> l_id (expr_loc c1) = l_id (expr_loc q_x) ).
    { intros a l1 c1 Ha ->. apply D in Ha; [|eauto]. subst s0. injection Ha as -> ->. exact Q. }
    assert (W : exists pre x post, s_reached x s0 /\ (exists l1 v, q_test_body = TBlock l1 v (pre ++ x :: post))).
    { inversion Hr; subst; try match goal with H : S_Solang.branch (TBlock _ _ _) _ |- _ => inversion H end; try discriminate.
      eexists _, _, _. split; [eassumption|]. eexists _, _. unfold q_test_body. f_equal. symmetry. eassumption. }
    destruct W as (pre & x & post & Hx & l1 & v & Q3). injection Q3 as _ _ Q3.
    repeat (destruct pre as [|? pre]; [injection Q3 as <- _|injection Q3 as _ Q3]); [| | | | | | |destruct pre; discriminate Q3].
    2-7: specialize (Z _ _ _ Hx eq_refl); discriminate Z.
    inversion Hx; subst; try discriminate. match goal with H : S_Solang.branch _ _ |- _ => inversion H; subst end.
    match goal with H : s_reached (TBlock _ _ []) _ |- _ => inversion H; subst end; try discriminate.
    - match goal with H : _ ++ _ :: _ = [] |- _ => destruct (app_cons_not_nil _ _ _ (eq_sym H)) end.
    - match goal with H : S_Solang.branch (TBlock _ _ _) _ |- _ => inversion H end. }
  split.
  { exists q_test_body. unfold q_test_body. match goal with |- context [s_reached (TBlock ?l ?v [?a; ?b; ?c; ?d; ?e; ?f; ?g]) _] => exists c, q_call, q_call;
      split; [reflexivity|]; split; [apply (q_reached [a; b] c [d; e; f; g]); exists l, v; reflexivity|] end.
    split; [constructor|]. split; [constructor|]. eexists _, _. split; [eexists _, _, _; split; [reflexivity|constructor; intros (? & ? & ? & Q); discriminate]|]. split; [vm_compute; reflexivity|].
    exists [q_pure], [q_test]. split; [reflexivity|]. split; [reflexivity|]. split; [intros []|]. intros f [<-|[]] _. left. reflexivity. }
  split; [reflexivity|]. eexists. split; [|constructor]. unfold q_h_body. match goal with |- s_reached (TBlock ?l ?v [?a; ?b]) _ => apply (S_Solang.re_block l v [a] b []); [|constructor] end.
  intros p c Q (l0 & l1 & l2 & l3 & m & args & -> & _). destruct p as [|p0 p]; inversion Q. destruct p; discriminate.
Qed.
(** Refuted: that every method call in a test that is not ignored is a candidate: those in a value that is assigned, and those that another
    method is called on the result of, are passed over. *)
Definition passed_over (E : venv) (u : punit) (walkable : text -> bool) (st : vst) (c : pexpr) (s : pstmt) : Prop :=
  no_member_statement (to_items u) /\ NoDup (map (fun f => l_id (pf_loc f)) (functions_of u)) /\ result (sol_env E (to_items u) walkable) (file_node (to_items u)) st /\
  exists f t b base p sp, S_Solang.test_of u f t /\ v_ign_test E t = false /\ pf_body f = Some b /\ s_reached b s /\
    (forall r, S_Solang.last_of f r -> l_id (S_Solang.stmt_loc r) <> l_id (S_Solang.stmt_loc s)) /\ method c base p /\ ~ ignored E c /\ v_ign_met E (dotted p) = false /\
    method_span E (l_span (expr_loc c)) (l_span (expr_loc base)) = Some sp /\ v_skip E sp = false /\ ~ candidate st MethodCall sp t.
Theorem C80_assigned_refuted : exists E u walkable st c l l' lhs, passed_over E u walkable st c (TExpression l (XAssign l' lhs c)).
Proof.
  destruct q_facts as (F1 & F2 & F3). exists q_env0, q_unit, q_walk, q_st, q_u, (pl 42 139 149), (pl 41 139 148), (XVariable (pl 37 139 140) (s2t "x")).
  split; [exact F1|]. split; [exact F2|]. split; [exact F3|]. exists q_test, (s2t "testA"), q_test_body. eexists _, _, _. split; [exact q_is_test|]. split; [reflexivity|]. split; [reflexivity|].
  split; [unfold q_test_body; match goal with |- s_reached (TBlock ?l ?v [?a; ?b; ?c; ?d; ?e; ?f; ?g]) _ => apply (q_reached [a; b; c] d [e; f; g]); exists l, v; reflexivity end|].
  split; [intros r Hr; rewrite (q_last r Hr); discriminate|]. split; [apply q_member|].
  split; [eapply not_ignored; [reflexivity|discriminate|apply q_member|vm_compute; reflexivity|vm_compute; reflexivity]|]. split; [vm_compute; reflexivity|].
  split; [vm_compute; reflexivity|]. split; [reflexivity|]. apply lists_none. vm_compute. reflexivity.
Qed.
Theorem C80_chain_refuted : exists E u walkable st c l l1 l2 x args, passed_over E u walkable st c (TExpression l (XCall l1 (XMember l2 c x) args)).
Proof.
  destruct q_facts as (F1 & F2 & F3). exists q_env0, q_unit, q_walk, q_st, q_v, (pl 48 150 160), (pl 47 150 159), (pl 46 150 157), (s2t "w"), [].
  split; [exact F1|]. split; [exact F2|]. split; [exact F3|]. exists q_test, (s2t "testA"), q_test_body. eexists _, _, _. split; [exact q_is_test|]. split; [reflexivity|]. split; [reflexivity|].
  split; [unfold q_test_body; match goal with |- s_reached (TBlock ?l ?v [?a; ?b; ?c; ?d; ?e; ?f; ?g]) _ => apply (q_reached [a; b; c; d] e [f; g]); exists l, v; reflexivity end|].
  split; [intros r Hr; rewrite (q_last r Hr); discriminate|]. split; [apply q_member|].
  split; [eapply not_ignored; [reflexivity|discriminate|apply q_member|vm_compute; reflexivity|vm_compute; reflexivity]|]. split; [vm_compute; reflexivity|].
  split; [vm_compute; reflexivity|]. split; [reflexivity|]. apply lists_none. vm_compute. reflexivity.
Qed.
Print Assumptions C80_assigned_refuted.
Print Assumptions C80_chain_refuted.
