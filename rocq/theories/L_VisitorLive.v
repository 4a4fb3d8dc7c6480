From Verif Require Import Base M_Text M_Rewriter M_Span L_Span M_Run M_Visitor S_Visitor L_Visitor.
From Coq Require Import Lia.

Lemma head_is_call_iff e : head_is_call e = true <-> exists c, performs e c.
Proof.
  induction e as [l ks IH] using node_ind'. cbn [head_is_call]. split.
  - destruct (l_kind l) as [| |o|h x|x| | | |] eqn:K; try discriminate.
    + destruct ks as [|b r]; [discriminate|]. inversion IH as [|? ? Hb _]; subst.
      intros H. apply Hb in H. destruct H as (c & H). exists c. apply pf_await; auto.
    + destruct ks as [|b r]; [discriminate|]. inversion IH as [|? ? Hb _]; subst.
      intros H. apply Hb in H. destruct H as (c & H). exists c. eapply pf_field; eauto.
    + intros _. exists (Node l ks). apply pf_call. left. exists h, x. exact K.
    + intros _. exists (Node l ks). apply pf_call. right. exists x. exact K.
  - intros (c & H). inversion H as [c' Hc|l' b r c' K Hp|l' x b r c' K Hp]; subst.
    + destruct Hc as [(h & x & K)|(x & K)]; unfold n_kind in K; cbn [n_lab] in K; rewrite K; reflexivity.
    + rewrite K. inversion IH as [|? ? Hb _]; subst. apply Hb. eauto.
    + rewrite K. inversion IH as [|? ? Hb _]; subst. apply Hb. eauto.
Qed.

Lemma statement_is_call_iff s : statement_is_call s = true <-> exists c, call_statement s c.
Proof.
  destruct s as [l ks]. unfold statement_is_call, n_kind. cbn [n_lab n_kids]. split.
  - destruct (l_kind l) as [r0 c0 d0 e0| | | | | | | |] eqn:K; try discriminate.
    destruct e0; [|discriminate]. destruct ks as [|e r]; [discriminate|]. intros H.
    apply head_is_call_iff in H. destruct H as (c & H). exists c. exists l, e, r, r0, c0, d0. auto.
  - intros (c & l' & e & r & r0 & c0 & d0 & Heq & K & Hp). inversion Heq; subst. rewrite K.
    apply head_is_call_iff. eauto.
Qed.
Lemma statement_is_call_false s : statement_is_call s = false <-> forall c, ~ call_statement s c.
Proof.
  split.
  - intros H c Hc. enough (statement_is_call s = true) by congruence. apply statement_is_call_iff. eauto.
  - intros H. destruct (statement_is_call s) eqn:Hs; [|reflexivity].
    apply statement_is_call_iff in Hs. destruct Hs as (c & Hc). exfalso. exact (H c Hc).
Qed.

(** ** Unfolding [visits] *)
Section Unfold.
Context (E : venv) (live : bool) (L : option node) (R : list node).
Notation vis := (visits E live L R).
Notation chi := (child E live L R).

Lemma visits_inv n ctx m c : vis n ctx m c <->
  (m = n /\ c = ctx) \/ exists k c', chi n ctx k c' /\ vis k c' m c.
Proof.
  split.
  - intros H. destruct H; [auto|]. right. eauto.
  - intros [[-> ->]|(k & c' & H & H')]; [apply vi_here|eapply vi_step; eauto].
Qed.

Definition below n ctx m c : Prop := exists k c', chi n ctx k c' /\ vis k c' m c.

Definition LV (ctx : option node) (ks : list node) (m : node) (c : option node) : Prop :=
  match ks with
  | [] => False
  | k :: r => vis k ctx m c \/ exists k', In k' r /\ vis k' None m c
  end.
Lemma LV_none ks m c : LV None ks m c <-> exists k, In k ks /\ vis k None m c.
Proof.
  destruct ks as [|k r]; cbn [LV]; [split; [tauto|intros (k & [] & _)]|]. split.
  - intros [H|(k' & H & H')]; [exists k; split; [left; reflexivity|exact H]|exists k'; split; [right; exact H|exact H']].
  - intros (k' & [->|H] & H'); [auto|right; eauto].
Qed.

Lemma below_stmt n ctx m c : is_stmt n ->
  (below n ctx m c <-> LV (if statement_is_call n then Some n else None) (n_kids n) m c).
Proof.
  intros (r0 & c0 & d0 & e0 & K). destruct (statement_is_call n) eqn:Hs.
  - pose proof Hs as Hs'. apply statement_is_call_iff in Hs'. destruct Hs' as (cc & Hcc).
    destruct (n_kids n) as [|e r] eqn:Hk; [unfold statement_is_call in Hs; rewrite K, Hk in Hs; destruct e0; discriminate|].
    cbn [LV]. split.
    + intros (k & c' & H & H'). destruct H; try congruence.
      * rewrite Hk in H. inversion H; subst. auto.
      * rewrite Hk in H0. destruct pre as [|p pre]; [exfalso; destruct H1 as [H1|H1]; [congruence|exact (H1 _ Hcc)]|].
        inversion H0; subst. right. exists k. split; [apply in_or_app; right; left; reflexivity|exact H'].
      * exfalso. rewrite K in H. destruct H as [H|(x & H)]; discriminate.
      * exfalso. rewrite K in H. destruct H as [H|(x & H)]; discriminate.
      * exfalso. rewrite K in H. destruct H as [H|(x & H)]; discriminate.
    + intros [H|(k' & H & H')].
      * exists e, (Some n). split; [eapply ch_call_stmt; eauto|exact H].
      * apply in_split in H. destruct H as (l1 & l2 & ->).
        exists k', None. split; [|exact H']. eapply (ch_stmt _ _ _ _ n (e :: l1) k' l2).
        { exists r0, c0, d0, e0. exact K. } { exact Hk. } { left. discriminate. }
  - pose proof (proj1 (statement_is_call_false _) Hs) as Hno.
    rewrite LV_none. split.
    + intros (k & c' & H & H'). destruct H; try congruence.
      * exfalso. exact (Hno _ H0).
      * exists k. split; [rewrite H0; apply in_or_app; right; left; reflexivity|exact H'].
      * exfalso. rewrite K in H. destruct H as [H|(x & H)]; discriminate.
      * exfalso. rewrite K in H. destruct H as [H|(x & H)]; discriminate.
      * exfalso. rewrite K in H. destruct H as [H|(x & H)]; discriminate.
    + intros (k & H & H'). apply in_split in H. destruct H as (l1 & l2 & Hk).
      exists k, None. split; [|exact H']. eapply (ch_stmt _ _ _ _ n l1 k l2); [exists r0, c0, d0, e0; exact K|exact Hk|auto].
Qed.

Ltac inv_child H K :=
  destruct H; try congruence;
  repeat match goal with
  | Hx : is_stmt _ |- _ => exfalso; destruct Hx as (? & ? & ? & ? & Hx); congruence
  | Hx : call_statement _ _ |- _ => exfalso; destruct Hx as (? & ? & ? & ? & ? & ? & Hx & ? & _); subst; unfold n_kind in K; cbn [n_lab] in K; congruence
  | Hx : _ \/ exists x, n_kind _ = _ |- _ => destruct Hx as [Hx|(? & Hx)]; try congruence
  end.

Lemma below_chain n ctx m c : (n_kind n = KAwait \/ exists x, n_kind n = KField x) ->
  (below n ctx m c <-> fw_expr_kids (v_fw E) = true /\ LV ctx (n_kids n) m c).
Proof.
  intros K. split.
  - intros (k & c' & H & H'). destruct K as [K|(x0 & K)]; inv_child H K;
      (split; [assumption|]);
      try (match goal with Hk : n_kids _ = _ :: _ |- _ => rewrite Hk; left; exact H' end);
      (match goal with Hk : n_kids _ = ?pre ++ _, Hp : ?pre <> [] |- _ =>
         rewrite Hk; destruct pre as [|q pre]; [congruence|]; right; eexists; split; [apply in_or_app; right; left; reflexivity|exact H'] end).
  - intros [He H]. destruct (n_kids n) as [|k r] eqn:Hk; [destruct H|]. cbn [LV] in H. destruct H as [H|(k' & H & H')].
    + exists k, ctx. split; [eapply ch_head; eauto|exact H].
    + apply in_split in H. destruct H as (l1 & l2 & ->). exists k', None. split; [|exact H'].
      eapply (ch_tail _ _ _ _ n (k :: l1) k' l2); eauto. discriminate.
Qed.

Lemma below_expr n ctx m c : (n_kind n = KExpr \/ exists x, n_kind n = KIdent x) ->
  (below n ctx m c <-> fw_expr_kids (v_fw E) = true /\ LV None (n_kids n) m c).
Proof.
  intros K. rewrite LV_none. split.
  - intros (k & c' & H & H'). destruct K as [K|(x0 & K)]; inv_child H K; split; eauto.
  - intros [He (k & H & H')]. exists k, None. split; [eapply ch_expr; eauto|exact H'].
Qed.

Lemma below_group n ctx m c : n_kind n = KGroup -> (below n ctx m c <-> LV None (n_kids n) m c).
Proof.
  intros K. rewrite LV_none. split.
  - intros (k & c' & H & H'). inv_child H K. eauto.
  - intros (k & H & H'). exists k, None. split; [eapply ch_group; eauto|exact H'].
Qed.
Lemma below_hidden n ctx x m c : n_kind n = KCall true x -> (below n ctx m c <-> LV None (n_kids n) m c).
Proof.
  intros K. rewrite LV_none. split.
  - intros (k & c' & H & H'). inv_child H K. eauto.
  - intros (k & H & H'). exists k, None. split; [eapply ch_hidden; eauto|exact H'].
Qed.
Lemma below_test n ctx x b m c : n_kind n = KTest x b -> ~ below n ctx m c.
Proof. intros K (k & c' & H & H'). inv_child H K. Qed.

Lemma below_open n ctx x m c : n_kind n = KCall false x -> ~ closed E live L R n ctx ->
  (below n ctx m c <-> LV None (n_kids n) m c).
Proof.
  intros K Hc. rewrite LV_none. split.
  - intros (k & c' & H & H'). inv_child H K; eauto. exists k. split; [|exact H']. match goal with Q : n_kids _ = k :: _ |- _ => rewrite Q end. left. reflexivity.
  - intros (k & H & H'). exists k, None. split; [eapply ch_open; eauto|exact H'].
Qed.
Lemma below_closed_skip n ctx x m c : n_kind n = KCall false x -> closed E live L R n ctx ->
  fw_skip_whole (v_fw E) = true -> ~ below n ctx m c.
Proof.
  intros K Hc Hs (k & c' & H & H'). inv_child H K.
Qed.
Lemma below_closed_callee n ctx x k r m c : n_kind n = KCall false x -> closed E live L R n ctx ->
  fw_skip_whole (v_fw E) = false -> n_kids n = k :: r -> (below n ctx m c <-> vis k None m c).
Proof.
  intros K Hc Hs Hk. split.
  - intros (k' & c' & H & H'). inv_child H K.
  - intros H. exists k, None. split; [eapply ch_callee; eauto|exact H].
Qed.
Lemma below_macro_open n ctx x m c : n_kind n = KMacro x -> ~ closed E live L R n ctx ->
  (below n ctx m c <-> LV None (n_kids n) m c).
Proof.
  intros K Hc. rewrite LV_none. split.
  - intros (k & c' & H & H'). inv_child H K. eauto.
  - intros (k & H & H'). exists k, None. split; [eapply ch_macro; eauto|exact H'].
Qed.
Lemma below_macro_closed n ctx x m c : n_kind n = KMacro x -> closed E live L R n ctx -> ~ below n ctx m c.
Proof. intros K Hc (k & c' & H & H'). inv_child H K. Qed.

Lemma contains_below s : is_stmt s -> forall ctx, (contains_stmt E live L R s <-> exists m c, below s ctx m c /\ is_stmt m).
Proof.
  intros Hs ctx. unfold contains_stmt. split.
  - intros (k & c' & m & c'' & H & H' & Hm). exists m, c''. split; [|exact Hm].
    apply (below_stmt s ctx); [exact Hs|]. apply (below_stmt s None); [exact Hs|]. exists k, c'. auto.
  - intros (m & c & H & Hm). apply below_stmt in H; [|exact Hs]. apply (below_stmt s None) in H; [|exact Hs].
    destruct H as (k & c' & H & H'). exists k, c', m, c. auto.
Qed.
End Unfold.

(** ** Walking a body that some test runs *)
Definition Qlive (E : venv) (T : list text) (L : option node) (R : list node) : quad :=
  Quad (fun m c k sp t => In t T /\ contributes E true L R m c k sp)
       (fun m c f => callnode m /\ calls_local E R m f)
       (fun m c f t => In t T /\ callnode m /\ calls_local E R m f)
       (fun m c t => False).

Definition leafc (V : node -> option node -> Prop) (st st' : vst) : Prop :=
  s_leaves st <= s_leaves st' /\ (s_leaves st' <> s_leaves st <-> exists m c, V m c /\ is_stmt m).

Lemma leafc_trans (V1 V2 : node -> option node -> Prop) st st1 st2 : leafc V1 st st1 -> leafc V2 st1 st2 ->
  leafc (fun m c => V1 m c \/ V2 m c) st st2.
Proof.
  intros [A1 A2] [B1 B2]. split; [lia|]. split.
  - intros H. destruct (PeanoNat.Nat.eq_dec (s_leaves st1) (s_leaves st)) as [Heq|Hne].
    + destruct (proj1 B2) as (m & c & HV & Hm); [congruence|]. exists m, c. auto.
    + destruct (proj1 A2 Hne) as (m & c & HV & Hm). exists m, c. auto.
  - intros (m & c & [HV|HV] & Hm).
    + assert (s_leaves st1 <> s_leaves st) by (apply A2; exists m, c; auto). lia.
    + assert (s_leaves st2 <> s_leaves st1) by (apply B2; exists m, c; auto). lia.
Qed.
Lemma leafc_iff (V1 V2 : node -> option node -> Prop) st st' : (forall m c, V1 m c <-> V2 m c) -> leafc V1 st st' -> leafc V2 st st'.
Proof.
  intros I [A B]. split; [exact A|]. rewrite B. split; intros (m & c & HV & Hm); exists m, c; split; auto; apply I; auto.
Qed.
Lemma leafc_none (V : node -> option node -> Prop) st st' : s_leaves st' = s_leaves st -> (forall m c, V m c -> ~ is_stmt m) -> leafc V st st'.
Proof.
  intros H N. split; [lia|]. split; [congruence|]. intros (m & c & HV & Hm). exfalso. exact (N _ _ HV Hm).
Qed.

Definition at_node (n : node) (ctx : option node) (m : node) (c : option node) : Prop := m = n /\ c = ctx.

Lemma call_holds_live E c st st' w : s_tests st <> [] ->
  callnode c -> well_formed E c = true -> visit_call E c st = Some (st', w) ->
  holds E (Qlive E (s_tests st) (s_last st) (s_ret st)) (at_node c (s_call st)) st st'.
Proof.
  intros Hne Hcn W H. apply visit_call_spec in H; [|exact Hcn|exact W]. cbn zeta in H.
  apply liveb_iff in Hne. rewrite Hne in H.
  destruct H as ((F1 & F2 & F3 & F4 & F5 & F6 & F7) & _ & Hl & Hp).
  constructor; try assumption; cbn [Qlive q_c q_k q_p q_t].
  - intros t. rewrite F7. split; [auto|]. intros [?|(m & x & _ & [])]; auto.
  - intros k sp t. rewrite Hl. unfold at_node. split.
    + intros [?|H]; [auto|]. right. exists c, (s_call st). auto.
    + intros [?|(m & x & [-> ->] & H)]; auto.
  - intros g Hg. destruct Hp as [(f & _ & ->)|[_ ->]]; [apply pend_keys_mono|]; exact Hg.
  - intros g Hg. destruct Hp as [(f & Hf & Hp)|[_ Hp]]; rewrite Hp in Hg; [|auto].
    apply pend_keys_new in Hg. destruct Hg as [Hg| ->]; [auto|]. right. exists c, (s_call st). split; [split; reflexivity|split; assumption].
  - intros m x f [-> ->] [_ Hf]. destruct Hp as [(f' & Hf' & ->)|[Hno _]]; [|exfalso; exact (Hno _ Hf)].
    rewrite (calls_local_det _ _ _ _ _ Hf Hf'). apply pend_keys_all.
  - intros g t Hg. destruct Hp as [(f & _ & ->)|[_ ->]]; [apply pend_mono|]; exact Hg.
  - intros g t Hg. destruct Hp as [(f & Hf & Hp)|[_ Hp]]; rewrite Hp in Hg; [|auto].
    apply pend_new in Hg. destruct Hg as [Hg|[Ht Hs]]; [auto|]. right. exists c, (s_call st), f. split; [split; reflexivity|]. split; [|exact Hs]. split; [exact Ht|]. split; assumption.
  - intros m x f t [-> ->] (Ht & _ & Hf). destruct Hp as [(f' & Hf' & ->)|[Hno _]]; [|exfalso; exact (Hno _ Hf)].
    rewrite (calls_local_det _ _ _ _ _ Hf Hf'). apply pend_all. exact Ht.
  - intros Hd. destruct Hp as [(f & _ & ->)|[_ ->]]; [apply pend_distinct|]; exact Hd.
Qed.

Lemma macro_holds_live E c x sp st st' w : s_tests st <> [] ->
  n_kind c = KMacro x -> visit_macro_call E x sp st = Some (st', w) ->
  holds E (Qlive E (s_tests st) (s_last st) (s_ret st)) (at_node c (s_call st)) st st'.
Proof.
  intros Hne K H. apply (visit_macro_spec E c) in H; [|exact K]. cbn zeta in H.
  apply liveb_iff in Hne. rewrite Hne in H.
  destruct H as ((F1 & F2 & F3 & F4 & F5 & F6 & F7) & _ & Hl & Hp).
  constructor; try assumption; cbn [Qlive q_c q_k q_p q_t]; rewrite ?Hp; auto.
  - intros t. rewrite F7. split; [auto|]. intros [?|(m & y & _ & [])]; auto.
  - intros k sp' t. rewrite Hl. unfold at_node. split.
    + intros [?|H]; [auto|]. right. exists c, (s_call st). auto.
    + intros [?|(m & y & [-> ->] & H)]; auto.
  - intros m y f [-> ->] [(z & Hz) _]. congruence.
  - intros m y f t [-> ->] (_ & (z & Hz) & _). congruence.
Qed.

Definition inert (n : node) : Prop :=
  match n_kind n with KAwait | KField _ | KIdent _ | KExpr | KGroup => True | KCall h _ => h = true | _ => False end.

Lemma inert_live E T L R n ctx st : inert n -> holds E (Qlive E T L R) (at_node n ctx) st st.
Proof.
  intros I. apply holds_silent; [|apply quiet_refl]. intros m c [-> ->]. cbn [Qlive q_c q_k q_p q_t].
  unfold inert in I. repeat split.
  - intros k sp t [_ H]. destruct H as [s ctx' _ (r0 & c0 & d0 & e0 & K)|s c [(x & K)|(x & K)]|c ctx' x b p sp K]; rewrite K in I; try contradiction; discriminate.
  - intros f [(x & K) _]. rewrite K in I. discriminate.
  - intros f t (_ & (x & K) & _). rewrite K in I. discriminate.
  - intros t H; exact H.
Qed.

Definition headc (E : venv) (n : node) (ctx : option node) : Prop :=
  ctx = None \/ (head_is_call n = true /\ head_ok E n = true).

Definition walk_live (E : venv) (n : node) : Prop :=
  forall st st', well_formed E n = true -> s_tests st <> [] ->
    (forall t, In t (s_tests st) -> v_ign_test E t = false) ->
    headc E n (s_call st) ->
    walk E n st = Some st' ->
    holds E (Qlive E (s_tests st) (s_last st) (s_ret st)) (visits E true (s_last st) (s_ret st) n (s_call st)) st st' /\
    s_call st' = None /\
    leafc (visits E true (s_last st) (s_ret st) n (s_call st)) st st'.

Lemma holds_frame E Q V st st' : holds E Q V st st' ->
  s_tests st' = s_tests st /\ s_last st' = s_last st /\ s_before st' = s_before st /\ s_ret st' = s_ret st.
Proof. intros H. repeat split; apply H. Qed.

Lemma fold_live E ks : Forall (walk_live E) ks -> forall st st',
  forallb (well_formed E) ks = true -> s_tests st <> [] ->
  (forall t, In t (s_tests st) -> v_ign_test E t = false) ->
  (s_call st = None \/ exists k r, ks = k :: r /\ headc E k (s_call st)) ->
  fold_kids (walk E) ks st = Some st' ->
  holds E (Qlive E (s_tests st) (s_last st) (s_ret st)) (LV E true (s_last st) (s_ret st) (s_call st) ks) st st' /\
  s_call st' = None /\
  leafc (LV E true (s_last st) (s_ret st) (s_call st) ks) st st'.
Proof.
  induction 1 as [|k r Hk _ IH]; intros st st' W Hne Hig Hh H.
  - cbn [fold_kids] in H. inversion H; subst st'; clear H.
    assert (Hn : s_call st = None) by (destruct Hh as [Hh|(k & r & Hx & _)]; [exact Hh|discriminate]).
    split; [|split; [exact Hn|]].
    + apply holds_silent; [intros m c []|apply quiet_refl].
    + apply leafc_none; [reflexivity|intros m c []].
  - cbn [fold_kids] in H. destruct (walk E k st) as [st1|] eqn:H1; [|discriminate]. cbn [obind] in H.
    cbn [forallb] in W. apply Bool.andb_true_iff in W. destruct W as [Wk Wr].
    apply Hk in H1; [|exact Wk|exact Hne|exact Hig|
      destruct Hh as [Hh|(k' & r' & Hx & Hh)]; [left; exact Hh|inversion Hx; subst; exact Hh]].
    destruct H1 as (A1 & A2 & A3). destruct (holds_frame _ _ _ _ _ A1) as (Ft & Fl & Fb & Fr).
    apply IH in H; [|exact Wr|congruence|intros t; rewrite Ft; apply Hig|left; exact A2].
    destruct H as (B1 & B2 & B3). rewrite Ft, Fl, Fr, A2 in B1. rewrite Fl, Fr, A2 in B3.
    split; [|split; [exact B2|]].
    + eapply holds_iff; [|eapply holds_trans; [exact A1|exact B1]].
      intros m c. cbn [LV]. rewrite LV_none. reflexivity.
    + eapply leafc_iff; [|eapply leafc_trans; [exact A3|exact B3]].
      intros m c. cbn [LV]. rewrite LV_none. reflexivity.
Qed.

(** The node itself, then what is below it. *)
Lemma node_then_below E Q live L R n ctx (V2 : node -> option node -> Prop) st st1 st2 :
  holds E Q (at_node n ctx) st st1 -> holds E Q V2 st1 st2 ->
  (forall m c, V2 m c <-> below E live L R n ctx m c) ->
  holds E Q (visits E live L R n ctx) st st2.
Proof.
  intros A B I. eapply holds_iff; [|eapply holds_trans; [exact A|exact B]].
  intros m c. rewrite visits_inv. unfold at_node. rewrite I. reflexivity.
Qed.
Lemma node_then_below_leaf E live L R n ctx (V2 : node -> option node -> Prop) st st1 st2 :
  leafc (at_node n ctx) st st1 -> leafc V2 st1 st2 ->
  (forall m c, V2 m c <-> below E live L R n ctx m c) ->
  leafc (visits E live L R n ctx) st st2.
Proof.
  intros A B I. eapply leafc_iff; [|eapply leafc_trans; [exact A|exact B]].
  intros m c. rewrite visits_inv. unfold at_node. rewrite I. reflexivity.
Qed.
Lemma at_leafc n ctx st st' : s_leaves st' = s_leaves st -> ~ is_stmt n -> leafc (at_node n ctx) st st'.
Proof. intros H N. apply leafc_none; [exact H|]. intros m c [-> _]. exact N. Qed.

Lemma nothing_below E Q live L R n ctx st st1 :
  holds E Q (at_node n ctx) st st1 -> (forall m c, ~ below E live L R n ctx m c) ->
  holds E Q (visits E live L R n ctx) st st1.
Proof.
  intros A N. eapply holds_iff; [|exact A]. intros m c. rewrite visits_inv. unfold at_node.
  specialize (N m c). unfold below in N. tauto.
Qed.
Lemma nothing_below_leaf E live L R n ctx st st1 :
  leafc (at_node n ctx) st st1 -> (forall m c, ~ below E live L R n ctx m c) ->
  leafc (visits E live L R n ctx) st st1.
Proof.
  intros A N. eapply leafc_iff; [|exact A]. intros m c. rewrite visits_inv. unfold at_node.
  specialize (N m c). unfold below in N. tauto.
Qed.
