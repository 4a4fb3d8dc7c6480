From Verif Require Import Base M_Text M_Rewriter M_Span L_Span M_Run M_Visitor S_Visitor S_Walk L_Visitor L_VisitorLive L_VisitorWalk L_VisitorDead L_VisitorLoop.
From Coq Require Import Lia.

Lemma within_kid l ks k m : In k ks -> within k m -> within (Node l ks) m.
Proof. intros H H'. eapply wi_kid; [exact H|exact H']. Qed.
Lemma within_trans a b c : within a b -> within b c -> within a c.
Proof. induction 1 as [|n k m Hk _ IH]; [auto|]. intros H. eapply wi_kid; [exact Hk|auto]. Qed.

Lemma field_path_within e b p : field_path e b p -> within e b.
Proof.
  induction 1 as [|l x b r base p K Hp IH]; [constructor|]. eapply within_kid; [left; reflexivity|exact IH].
Qed.
Lemma method_call_within c b p : method_call c b p -> within c b.
Proof.
  intros (_ & callee & args & Hk & Hf & _). apply (wi_kid c callee); [rewrite Hk; left; reflexivity|]. eapply field_path_within; exact Hf.
Qed.

Lemma spans_ok_sub E n m : spans_ok E n -> within n m -> spans_ok E m.
Proof. intros H Hw c b p Hc. apply H. eapply within_trans; eauto. Qed.
Lemma no_test_sub n m : no_test n -> within n m -> no_test m.
Proof. intros H Hw x t b Hx. apply H. eapply within_trans; eauto. Qed.
Lemma flat_tests_sub n m : flat_tests n -> within n m -> flat_tests m.
Proof. intros H Hw x t b k Hx. apply H. eapply within_trans; eauto. Qed.
Lemma within_self_kid l ks k : In k ks -> within (Node l ks) k.
Proof. intros H. eapply within_kid; [exact H|constructor]. Qed.

(** [call_info_inner] succeeds when the method spans exist. *)
Lemma ci_inner_some E : forall k c b p, nsize c < k -> well_formed E c = true -> spans_ok E c -> method_call c b p ->
  forall rc, exists ci, call_info_inner E true rc (n_span c) p b = Some ci.
Proof.
  induction k as [|k IH]; [lia|]. intros c b p Hs W SO Hm rc.
  assert (Hms : method_span E (n_span c) (n_span b) <> None) by (eapply SO; [constructor|exact Hm]).
  assert (Hb : forall x, n_kind b <> KField (Some x)) by (destruct Hm as (_ & e & a & _ & Hf & _); eapply field_path_base; exact Hf).
  assert (Wb : well_formed E b = true).
  { destruct Hm as (_ & e & a & Hk & Hf & _). eapply field_path_wf; [exact Hf|]. destruct c as [l ks]; cbn [n_kids] in Hk; subst. eapply wf_kid; [exact W|left; reflexivity]. }
  assert (Sb : nsize b < nsize c).
  { destruct Hm as (_ & e & a & Hk & Hf & _). pose proof (field_path_size _ _ _ Hf). destruct c as [l ks]; cbn [n_kids] in Hk; subst.
    pose proof (nsize_kid l (e :: a) e (or_introl eq_refl)). lia. }
  assert (SOb : spans_ok E b) by (eapply spans_ok_sub; [exact SO|eapply method_call_within; exact Hm]).
  assert (Hmi : exists ci, method_info E (n_span c) (n_span b) p rc = Some ci).
  { unfold method_info. destruct (method_span E (n_span c) (n_span b)) as [s|] eqn:Hsp; [|contradiction]. cbn. eauto. }
  destruct b as [l ks]. destruct (l_kind l) as [r0 c0 d0 e0| |o|h nm|nm|nm|nm bi| |] eqn:K;
    try solve [cbn [call_info_inner]; rewrite K; first [exact Hmi|eexists; reflexivity]].
  - cbn [call_info_inner]. rewrite K. destruct o as [y|]; [exfalso; apply (Hb y); exact K|]. exact Hmi.
  - rewrite call_branch by eauto. destruct (callee_is_named_field (Node l ks)) as [[x b0]|] eqn:Hc; [|eauto].
    destruct (named_field_some E (Node l ks) x b0) as (b' & p' & Hp' & Hm' & _ & _); [exists h, nm; exact K|exact Wb|exact Hc|].
    rewrite (ci_path _ _ _ _ _ _ _ Hp'). eapply (IH (Node l ks)); eauto. lia.
Qed.

Lemma vmm_some E sp ic im imet st : exists r, visit_maybe_macro_call E sp ic im imet st = Some r.
Proof.
  unfold visit_maybe_macro_call. change (s_tests (set_call None st)) with (s_tests st).
  destruct (is_nil (s_tests st)) eqn:Hn; cbn [negb andb]; [eauto|].
  assert (Hne : s_tests st <> []) by (intros H; rewrite H in Hn; discriminate).
  destruct (match s_call st with Some s => removable s && negb (is_last E (set_call None st) s) | None => true end); [|eauto].
  assert (H1 : exists st1, match s_call st with Some s => if negb ic then register_span E (n_span s) Statement (set_call None st) else Some (set_call None st)
      | None => Some (set_call None st) end = Some st1 /\ s_tests st1 = s_tests st).
  { destruct (s_call st); [destruct ic; cbn [negb]|]; eauto.
    destruct (register_span_some E (n_span n) Statement (set_call None st)) as (st1 & H1); [exact Hne|]. exists st1. split; [exact H1|].
    apply register_span_spec in H1. destruct H1 as [(m & ->) _]. reflexivity. }
  destruct H1 as (st1 & -> & Ht). cbn [obind].
  destruct (negb ic && im && negb imet); cbn [obind]; [|eauto].
  destruct (register_span_some E sp MethodCall st1) as (st2 & ->); [congruence|]. cbn. eauto.
Qed.

Lemma visit_call_some E c st : callnode c -> well_formed E c = true -> spans_ok E c -> exists r, visit_call E c st = Some r.
Proof.
  intros Hcn W SO. unfold visit_call. destruct (walk_target E (s_ret st) c) as [[[nm amb] f]|]; [eauto|].
  destruct (callee_is_named_field c) as [[x b0]|] eqn:Hf; [|apply vmm_some].
  destruct (named_field_some E _ _ _ (callnode_is_call _ Hcn) W Hf) as (b & p & Hp & Hm & _ & _).
  rewrite (ci_path _ _ _ _ _ _ _ Hp).
  destruct (ci_inner_some E _ c b (p ++ [x]) (PeanoNat.Nat.lt_succ_diag_r _) W SO Hm false) as (ci & ->). cbn [obind].
  rewrite (ci_path _ _ _ _ _ _ _ Hp), (ci_outer _ _ _ _ _ (field_path_base _ _ _ Hp)).
  unfold method_info. destruct (method_span E (n_span c) (n_span b)) as [sp0|] eqn:Hsp.
  - cbn [obind ci_method guard]. apply vmm_some.
  - exfalso. exact (SO c b (p ++ [x]) (wi_here c) Hm Hsp).
Qed.

Lemma visit_statement_some s st : s_call st = None -> exists st', visit_statement s st = Some st'.
Proof.
  intros H. unfold visit_statement. destruct (statement_is_call s); [|eauto]. cbn [set_before s_call]. rewrite H. cbn. eauto.
Qed.
Lemma visit_post_some E s st nb rest : s_call st = None -> s_before st = nb :: rest ->
  exists st', visit_statement_post E s st = Some st'.
Proof.
  intros H1 H2. unfold visit_statement_post. rewrite H1, H2. cbn [is_none guard obind].
  destruct (negb (nb =? s_leaves (set_before rest st))%nat); [eauto|].
  match goal with |- context [if ?b then _ else _] => destruct b eqn:Hb end; [|eauto].
  apply register_span_some. cbn [set_leaves set_before s_tests] in *. intros Hn. rewrite Hn in Hb. discriminate.
Qed.

Definition total_live (E : venv) (n : node) : Prop := forall st,
  well_formed E n = true -> no_test n -> spans_ok E n -> s_tests st <> [] ->
  (forall t, In t (s_tests st) -> v_ign_test E t = false) -> headc E n (s_call st) ->
  exists st', walk E n st = Some st'.

Lemma fold_total_live E ks : Forall (total_live E) ks -> forall st,
  forallb (well_formed E) ks = true -> (forall k, In k ks -> no_test k) -> (forall k, In k ks -> spans_ok E k) ->
  s_tests st <> [] -> (forall t, In t (s_tests st) -> v_ign_test E t = false) ->
  (s_call st = None \/ exists k r, ks = k :: r /\ headc E k (s_call st)) ->
  exists st', fold_kids (walk E) ks st = Some st'.
Proof.
  induction 1 as [|k r Hk _ IH]; intros st W NT SO Hne Hig Hh; cbn [fold_kids]; [eauto|].
  cbn [forallb] in W. apply Bool.andb_true_iff in W. destruct W as [Wk Wr].
  assert (Hhk : headc E k (s_call st)).
  { destruct Hh as [Hh|(k' & r' & Hx & Hh)]; [left; exact Hh|inversion Hx; subst; exact Hh]. }
  destruct (Hk st Wk (NT k (or_introl eq_refl)) (SO k (or_introl eq_refl)) Hne Hig Hhk) as (st1 & H1).
  rewrite H1. cbn [obind].
  apply (walk_live_all E) in H1; [|exact Wk|exact Hne|exact Hig|exact Hhk]. destruct H1 as (A & Hc & _).
  apply IH; [exact Wr|intros; apply NT; right; assumption|intros; apply SO; right; assumption| | |left; exact Hc].
  - rewrite (h_tests _ _ _ _ _ A). exact Hne.
  - intros t. rewrite (h_tests _ _ _ _ _ A). apply Hig.
Qed.

Lemma head_chain E l ks ctx : (l_kind l = KAwait \/ exists x, l_kind l = KField x) -> fw_expr_kids (v_fw E) = true ->
  headc E (Node l ks) ctx -> ctx = None \/ exists k r, ks = k :: r /\ headc E k ctx.
Proof.
  intros K He [Hh|[Hh1 Hh2]]; [left; exact Hh|]. right. cbn [head_is_call] in Hh1. cbn [head_ok] in Hh2.
  destruct ks as [|b r]; [destruct K as [K|(x & K)]; rewrite K in Hh1; discriminate|].
  exists b, r. split; [reflexivity|]. right. destruct K as [K|(x & K)]; rewrite K in Hh1, Hh2; rewrite Hh1 in Hh2;
    cbn [negb orb] in Hh2; apply Bool.andb_true_iff in Hh2; split; [exact Hh1|apply Hh2|exact Hh1|apply Hh2].
Qed.
Lemma head_plain E l ks ctx : match l_kind l with KAwait | KField _ | KCall false _ | KMacro _ => False | _ => True end ->
  headc E (Node l ks) ctx -> ctx = None.
Proof.
  intros K [Hh|[Hh1 Hh2]]; [exact Hh|]. cbn [head_is_call] in Hh1. cbn [head_ok] in Hh2.
  destruct (l_kind l) as [| | |[|]| | | | |]; try discriminate; contradiction.
Qed.

Lemma total_live_all E n : total_live E n.
Proof.
  induction n as [l ks IH] using node_ind'. intros st W NT SO Hne Hig Hh.
  assert (Wk : forallb (well_formed E) ks = true) by (eapply wf_kids; exact W).
  assert (NTk : forall k, In k ks -> no_test k) by (intros k Hk; eapply no_test_sub; [exact NT|apply within_self_kid; exact Hk]).
  assert (SOk : forall k, In k ks -> spans_ok E k) by (intros k Hk; eapply spans_ok_sub; [exact SO|apply within_self_kid; exact Hk]).
  cbn [walk]. destruct (l_kind l) as [r0 c0 d0 e0| |o|h nm|nm|nm|nm bi| |] eqn:K.
  - assert (Hc0 : s_call st = None) by (eapply head_plain; [|exact Hh]; rewrite K; exact I).
    assert (Hst : is_stmt (Node l ks)) by (exists r0, c0, d0, e0; exact K).
    destruct (visit_statement_some (Node l ks) st Hc0) as (st1 & H1). rewrite H1. cbn [obind].
    apply visit_statement_spec in H1. destruct H1 as (A1 & A2 & A3 & A4 & A5 & A6 & A7 & A8 & A9 & _). rewrite Hc0 in A9.
    assert (Hh1 : s_call st1 = None \/ exists k r, ks = k :: r /\ headc E k (s_call st1)).
    { rewrite A9. destruct (statement_is_call (Node l ks)) eqn:Hs; [right|left; reflexivity].
      destruct (stmt_head E l ks W Hst Hs) as (k & r & -> & Hk). exists k, r. auto. }
    destruct (fold_total_live E ks IH st1 Wk NTk SOk) as (st2 & H2); [congruence|intros t; rewrite A1; apply Hig|exact Hh1|].
    rewrite H2. cbn [obind].
    apply fold_live in H2; [|apply Forall_forall; intros k _; apply walk_live_all|exact Wk|congruence|intros t; rewrite A1; apply Hig|exact Hh1].
    destruct H2 as (B1 & B2 & _). eapply visit_post_some; [exact B2|]. rewrite (h_before _ _ _ _ _ B1). exact A3.
  - destruct (fw_expr_kids (v_fw E)) eqn:He; [|eauto]. apply fold_total_live; auto. eapply head_chain; [left; exact K|exact He|exact Hh].
  - destruct (fw_expr_kids (v_fw E)) eqn:He; [|eauto]. apply fold_total_live; auto. eapply head_chain; [right; exists o; exact K|exact He|exact Hh].
  - destruct h.
    + apply fold_total_live; auto. left. eapply head_plain; [|exact Hh]; rewrite K; exact I.
    + assert (Hcn : callnode (Node l ks)) by (exists nm; exact K).
      destruct (visit_call_some E (Node l ks) st Hcn W SO) as ([st1 w] & H1). rewrite H1. cbn [obind].
      apply visit_call_spec in H1; [|exact Hcn|exact W]. cbn zeta in H1.
      destruct H1 as ((F1 & F2 & F3 & F4 & F5 & F6 & F7) & _).
      destruct w; [apply fold_total_live; auto; [congruence|intros t; rewrite F3; apply Hig]|].
      destruct (fw_skip_whole (v_fw E)); [eauto|]. destruct ks as [|callee args]; [eauto|].
      inversion IH as [|? ? IHc _]; subst. cbn [forallb] in Wk. apply Bool.andb_true_iff in Wk.
      apply IHc; [apply Wk|apply NTk; left; reflexivity|apply SOk; left; reflexivity|congruence|intros t; rewrite F3; apply Hig|left; exact F1].
  - unfold visit_macro_call. destruct (vmm_some E (l_span l) (v_ign_mac E nm) false false st) as ([st1 w] & H1). rewrite H1. cbn [obind].
    apply vmm_spec in H1. destruct H1 as [(m & ->) _].
    destruct w; [|eauto]. apply fold_total_live; auto.
  - destruct (fw_expr_kids (v_fw E)); [|eauto]. apply fold_total_live; auto. left. eapply head_plain; [|exact Hh]; rewrite K; exact I.
  - exfalso. exact (NT (Node l ks) nm bi (wi_here _) K).
  - destruct (fw_expr_kids (v_fw E)); [|eauto]. apply fold_total_live; auto. left. eapply head_plain; [|exact Hh]; rewrite K; exact I.
  - apply fold_total_live; auto. left. eapply head_plain; [|exact Hh]; rewrite K; exact I.
Qed.

Definition total_dead (E : venv) (n : node) : Prop := forall st,
  well_formed E n = true -> flat_tests n -> spans_ok E n -> s_tests st = [] -> s_last st = None ->
  headc E n (s_call st) -> exists st', walk E n st = Some st'.

Lemma fold_total_dead E ks : Forall (total_dead E) ks -> forall st,
  forallb (well_formed E) ks = true -> (forall k, In k ks -> flat_tests k) -> (forall k, In k ks -> spans_ok E k) ->
  s_tests st = [] -> s_last st = None ->
  (s_call st = None \/ exists k r, ks = k :: r /\ headc E k (s_call st)) ->
  exists st', fold_kids (walk E) ks st = Some st'.
Proof.
  induction 1 as [|k r Hk _ IH]; intros st W NT SO Hne Hla Hh; cbn [fold_kids]; [eauto|].
  cbn [forallb] in W. apply Bool.andb_true_iff in W. destruct W as [Wk Wr].
  assert (Hhk : headc E k (s_call st)).
  { destruct Hh as [Hh|(k' & r' & Hx & Hh)]; [left; exact Hh|inversion Hx; subst; exact Hh]. }
  destruct (Hk st Wk (NT k (or_introl eq_refl)) (SO k (or_introl eq_refl)) Hne Hla Hhk) as (st1 & H1).
  rewrite H1. cbn [obind].
  apply (walk_dead_all E) in H1; [|exact Wk|exact Hne|exact Hla|exact Hhk]. destruct H1 as (A & Hc).
  apply IH; [exact Wr|intros; apply NT; right; assumption|intros; apply SO; right; assumption| | |left; exact Hc].
  - rewrite (h_tests _ _ _ _ _ A). exact Hne.
  - rewrite (h_last _ _ _ _ _ A). exact Hla.
Qed.

Lemma total_dead_all E n : total_dead E n.
Proof.
  induction n as [l ks IH] using node_ind'. intros st W NT SO Hne Hla Hh.
  assert (Wk : forallb (well_formed E) ks = true) by (eapply wf_kids; exact W).
  assert (NTk : forall k, In k ks -> flat_tests k) by (intros k Hk; eapply flat_tests_sub; [exact NT|apply within_self_kid; exact Hk]).
  assert (SOk : forall k, In k ks -> spans_ok E k) by (intros k Hk; eapply spans_ok_sub; [exact SO|apply within_self_kid; exact Hk]).
  cbn [walk]. destruct (l_kind l) as [r0 c0 d0 e0| |o|h nm|nm|nm|nm bi| |] eqn:K.
  - assert (Hc0 : s_call st = None) by (eapply head_plain; [|exact Hh]; rewrite K; exact I).
    assert (Hst : is_stmt (Node l ks)) by (exists r0, c0, d0, e0; exact K).
    destruct (visit_statement_some (Node l ks) st Hc0) as (st1 & H1). rewrite H1. cbn [obind].
    apply visit_statement_spec in H1. destruct H1 as (A1 & A2 & A3 & A4 & A5 & A6 & A7 & A8 & A9 & _). rewrite Hc0 in A9.
    assert (Hh1 : s_call st1 = None \/ exists k r, ks = k :: r /\ headc E k (s_call st1)).
    { rewrite A9. destruct (statement_is_call (Node l ks)) eqn:Hs; [right|left; reflexivity].
      destruct (stmt_head E l ks W Hst Hs) as (k & r & -> & Hk). exists k, r. auto. }
    destruct (fold_total_dead E ks IH st1 Wk NTk SOk) as (st2 & H2); [congruence|congruence|exact Hh1|].
    rewrite H2. cbn [obind].
    apply fold_dead in H2; [|apply Forall_forall; intros k _; apply walk_dead_all|exact Wk|congruence|congruence|exact Hh1].
    destruct H2 as (B1 & B2). eapply visit_post_some; [exact B2|]. rewrite (h_before _ _ _ _ _ B1). exact A3.
  - destruct (fw_expr_kids (v_fw E)) eqn:He; [|eauto]. apply fold_total_dead; auto. eapply head_chain; [left; exact K|exact He|exact Hh].
  - destruct (fw_expr_kids (v_fw E)) eqn:He; [|eauto]. apply fold_total_dead; auto. eapply head_chain; [right; exists o; exact K|exact He|exact Hh].
  - destruct h.
    + apply fold_total_dead; auto. left. eapply head_plain; [|exact Hh]; rewrite K; exact I.
    + assert (Hcn : callnode (Node l ks)) by (exists nm; exact K).
      destruct (visit_call_some E (Node l ks) st Hcn W SO) as ([st1 w] & H1). rewrite H1. cbn [obind].
      apply visit_call_spec in H1; [|exact Hcn|exact W]. cbn zeta in H1.
      destruct H1 as ((F1 & F2 & F3 & F4 & F5 & F6 & F7) & Hw & _).
      destruct w; [apply fold_total_dead; auto; congruence|].
      exfalso. destruct (proj1 Hw eq_refl) as ((Hlv & _) & _). apply liveb_iff in Hlv. contradiction.
  - unfold visit_macro_call. destruct (vmm_some E (l_span l) (v_ign_mac E nm) false false st) as ([st1 w] & H1). rewrite H1. cbn [obind].
    apply vmm_spec in H1. destruct H1 as [(m & ->) _].
    destruct w; [|eauto]. apply fold_total_dead; auto.
  - destruct (fw_expr_kids (v_fw E)); [|eauto]. apply fold_total_dead; auto. left. eapply head_plain; [|exact Hh]; rewrite K; exact I.
  - assert (Hc0 : s_call st = None) by (eapply head_plain; [|exact Hh]; rewrite K; exact I).
    unfold visit_test. destruct (v_ign_test E nm) eqn:Hi; cbn [obind].
    + unfold visit_test_post. cbn [set_last s_tests]. rewrite Hne, Hi. cbn. eauto.
    + cbn [set_tset s_tests set_tests s_last]. rewrite Hne, Hla. cbn [is_nil is_none guard obind].
      match goal with |- context [fold_kids (walk E) ks ?s] => set (st1 := s) end.
      assert (Hig : forall t, In t (s_tests st1) -> v_ign_test E t = false) by (intros t [<-|[]]; exact Hi).
      destruct (fold_total_live E ks) with (st := st1) as (st2 & H2); auto.
      * apply Forall_forall. intros k _. apply total_live_all.
      * intros k Hk. eapply NT; [constructor|exact K|exact Hk].
      * discriminate.
      * rewrite H2. cbn [obind].
        apply fold_live in H2; [|apply Forall_forall; intros k _; apply walk_live_all|exact Wk|discriminate|exact Hig|left; exact Hc0].
        destruct H2 as (B1 & _). unfold visit_test_post. cbn [set_last s_tests]. rewrite (h_tests _ _ _ _ _ B1).
        change (s_tests st1) with [nm]. cbn iota. rewrite text_eqb_refl. cbn. eauto.
  - destruct (fw_expr_kids (v_fw E)); [|eauto]. apply fold_total_dead; auto. left. eapply head_plain; [|exact Hh]; rewrite K; exact I.
  - apply fold_total_dead; auto. left. eapply head_plain; [|exact Hh]; rewrite K; exact I.
Qed.

Lemma loop_no_panic E root fuel : forall H st,
  (forall x g fs, v_walkable E x = g :: fs -> well_formed E g = true /\ no_test g /\ spans_ok E g) ->
  inv E root H st -> local_loop E fuel st <> LPanic.
Proof.
  induction fuel as [|fuel IH]; intros H st WF IV; cbn [local_loop].
  - destruct (next_local_function st) as [[f st1]|]; discriminate.
  - destruct (next_local_function st) as [[f st1]|] eqn:Hn; [|discriminate].
    destruct (step_history _ _ _ _ _ _ IV Hn) as (pre & ts & Hp & Hst1 & Hh & Hr & x & fs & Hx).
    destruct (WF x f fs Hx) as (Wf & NT & SO).
    assert (Wk : forallb (well_formed E) (n_kids f) = true) by (destruct f as [l ks]; eapply wf_kids; exact Wf).
    assert (NTk : forall k, In k (n_kids f) -> no_test k) by (intros k Hk; destruct f as [l ks]; eapply no_test_sub; [exact NT|apply within_self_kid; exact Hk]).
    assert (SOk : forall k, In k (n_kids f) -> spans_ok E k) by (intros k Hk; destruct f as [l ks]; eapply spans_ok_sub; [exact SO|apply within_self_kid; exact Hk]).
    assert (Hw : exists st2, fold_kids (walk E) (n_kids f) st1 = Some st2).
    { assert (Hig : forall t, In t ts -> v_ign_test E t = false).
      { intros t Ht. destruct (history_ign _ _ _ Hh) as [Hi _]. apply (Hi (fun_body f ts (done H)) t); [left; reflexivity|exact Ht]. }
      destruct IV. subst st1. destruct ts as [|t r] eqn:Hts.
      - apply fold_total_dead; auto.
        + apply Forall_forall. intros k _. apply total_dead_all.
        + intros k Hk m t b k' Hm K. exfalso. exact (NTk k Hk m t b Hm K).
      - apply fold_total_live; auto.
        + apply Forall_forall. intros k _. apply total_live_all.
        + discriminate. }
    destruct Hw as (st2 & Hw). rewrite Hw.
    assert (WF' : forall x g fs, v_walkable E x = g :: fs -> forallb (well_formed E) (n_kids g) = true).
    { intros y g gs Hy. destruct (WF y g gs Hy) as (Wg & _). destruct g as [l ks]. eapply wf_kids. exact Wg. }
    destruct (inv_step _ _ _ _ _ _ _ IV WF' Hn Hw) as (T & IV').
    eapply IH; eauto.
Qed.

Theorem visit_no_panic E fuel root :
  well_formed E root = true -> flat_tests root -> spans_ok E root ->
  (forall x g fs, v_walkable E x = g :: fs -> well_formed E g = true /\ no_test g /\ spans_ok E g) ->
  visit_file E fuel root <> LPanic.
Proof.
  intros W FT SO WF. unfold visit_file.
  destruct (total_dead_all E root init_vst W FT SO eq_refl eq_refl (or_introl eq_refl)) as (st0 & Hw). rewrite Hw.
  eapply loop_no_panic; [exact WF|]. apply inv_file; [exact W|exact Hw].
Qed.
