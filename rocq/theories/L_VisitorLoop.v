From Verif Require Import Base M_Text M_Rewriter M_Span L_Span M_Run M_Visitor S_Visitor S_Walk L_Visitor L_VisitorLive L_VisitorWalk L_VisitorDead.
From Coq Require Import Lia.

(** ** One body *)
Record body_step (E : venv) (B : body) (st st' : vst) : Prop := BodyStep {
  bs_ret : s_ret st' = s_ret st;
  bs_last : s_last st' = None;
  bs_call : s_call st' = None;
  bs_before : s_before st' = s_before st;
  bs_tests : s_tests st' = s_tests st;
  bs_lists : forall k sp t, lists (s_maps st') k sp t <-> lists (s_maps st) k sp t \/ body_yields E B k sp t;
  bs_tset : forall t, In t (s_tset st') <-> In t (s_tset st) \/ exists tn, finds_test E B tn t;
  bs_keys_mono : forall g, In g (keys (s_pend st)) -> In g (keys (s_pend st'));
  bs_keys_new : forall g, In g (keys (s_pend st')) -> In g (keys (s_pend st)) \/ body_reaches E B g;
  bs_keys_all : forall f, body_reaches E B f -> exists g, In g (keys (s_pend st')) /\ same E f g = true;
  bs_p_mono : forall g t, pnames (s_pend st) g t -> pnames (s_pend st') g t;
  bs_p_new : forall g t, pnames (s_pend st') g t ->
      pnames (s_pend st) g t \/ exists f, body_calls E B f t /\ same E f g = true;
  bs_p_all : forall f t, body_calls E B f t -> exists g, same E f g = true /\ pnames (s_pend st') g t;
  bs_distinct : distinct E (keys (s_pend st)) -> distinct E (keys (s_pend st'))
}.

Lemma walk_body E B st st' :
  forallb (well_formed E) (b_nodes B) = true ->
  s_tests st = b_tests B -> s_ret st = b_done B -> s_last st = None -> s_call st = None ->
  (forall t, In t (b_tests B) -> v_ign_test E t = false) ->
  fold_kids (walk E) (b_nodes B) st = Some st' ->
  body_step E B st st'.
Proof.
  intros W Ht Hr Hl Hc Hig H.
  assert (HT : b_tests B = [] \/ b_tests B <> []) by (destruct (b_tests B); [left; reflexivity|right; discriminate]).
  destruct HT as [HT|HT].
  - apply fold_dead in H; [|apply Forall_forall; intros k _; apply walk_dead_all|exact W|congruence|exact Hl|left; exact Hc].
    rewrite Hc, Hr in H. destruct H as [A A2]. destruct A. cbn [Qdead q_c q_k q_p q_t] in *.
    assert (Hfind : forall tn t, finds_test E B tn t <-> exists c, LV E false None (b_done B) None (b_nodes B) tn c /\ testnode E tn t).
    { intros tn t. unfold finds_test, a_test_in, testnode. split.
      - intros (_ & n & c & b & Hn & Hv & K & Hi). exists c. split; [apply LV_none; eauto|eauto].
      - intros (c & HV & b & K & Hi). split; [exact HT|]. apply LV_none in HV. destruct HV as (n & Hn & Hv). exists n, c, b. auto. }
    assert (Hcalls : forall f t, body_calls E B f t <-> exists m c, LV E false None (b_done B) None (b_nodes B) m c /\
        (testnode E m t /\ yields_call E true (last_statement m) (b_done B) (n_kids m) f)).
    { intros f t. unfold body_calls. rewrite HT. split.
      - intros [[[] _]|(tn & Hf & Hy)]. apply Hfind in Hf. destruct Hf as (c & HV & Htn). exists tn, c. auto.
      - intros (m & c & HV & Htn & Hy). right. exists m. split; [apply Hfind; eauto|exact Hy]. }
    assert (Hreach : forall f, body_reaches E B f <-> exists m c, LV E false None (b_done B) None (b_nodes B) m c /\
        ((callnode m /\ calls_local E (b_done B) m f) \/
         exists t, testnode E m t /\ yields_call E true (last_statement m) (b_done B) (n_kids m) f)).
    { intros f. unfold body_reaches. rewrite yields_call_LV. split.
      - intros [(t & Hb)|[_ (m & c & HV & Hk)]].
        + apply Hcalls in Hb. destruct Hb as (m & c & HV & Hm). exists m, c. split; [exact HV|]. right. exists t. exact Hm.
        + exists m, c. auto.
      - intros (m & c & HV & [Hk|(t & Hm)]).
        + right. split; [exact HT|]. exists m, c. auto.
        + left. exists t. apply Hcalls. exists m, c. auto. }
    constructor; try congruence; auto.
    + intros k sp t. rewrite h_lists. unfold body_yields. rewrite HT. split.
      * intros [?|(m & c & HV & Hm & Hy)]; [auto|]. right. right. exists m. split; [apply Hfind; eauto|exact Hy].
      * intros [?|[[[] _]|(tn & Hf & Hy)]]; [auto|]. right. apply Hfind in Hf. destruct Hf as (c & HV & Hm). exists tn, c. auto.
    + intros t. rewrite h_tset. split.
      * intros [?|(m & c & HV & Hm)]; [auto|]. right. exists m. apply Hfind. eauto.
      * intros [?|(tn & Hf)]; [auto|]. right. apply Hfind in Hf. destruct Hf as (c & HV & Hm). exists tn, c. auto.
    + intros g Hg. apply h_keys_new in Hg. destruct Hg as [Hg|(m & c & HV & Hk)]; [auto|]. right. apply Hreach. exists m, c. auto.
    + intros f Hf. apply Hreach in Hf. destruct Hf as (m & c & HV & Hk). eapply h_keys_all; eauto.
    + intros g t Hg. apply h_p_new in Hg. destruct Hg as [Hg|(m & c & f & HV & Hk & Hs)]; [auto|]. right. exists f. split; [|exact Hs].
      apply Hcalls. exists m, c. auto.
    + intros f t Hf. apply Hcalls in Hf. destruct Hf as (m & c & HV & Hk). eapply h_p_all; eauto.
  - rewrite <- Ht in HT.
    apply fold_live in H; [|apply Forall_forall; intros k _; apply walk_live_all|exact W|exact HT|intros t; rewrite Ht; apply Hig|left; exact Hc].
    rewrite Hc, Hr, Hl, Ht in H. destruct H as (A & A2 & _). destruct A. cbn [Qlive q_c q_k q_p q_t] in *.
    rewrite Ht in HT.
    assert (Hnf : forall tn t, ~ finds_test E B tn t) by (intros tn t [Hn _]; contradiction).
    assert (Hyl : forall k sp, yields E true None (b_done B) (b_nodes B) k sp <->
        exists m c, LV E true None (b_done B) None (b_nodes B) m c /\ contributes E true None (b_done B) m c k sp) by (intros; apply yields_LV).
    assert (Hyk : forall f, yields_call E true None (b_done B) (b_nodes B) f <->
        exists m c, LV E true None (b_done B) None (b_nodes B) m c /\ callnode m /\ calls_local E (b_done B) m f) by (intros; apply yields_call_LV).
    assert (Hreach : forall f, body_reaches E B f <-> yields_call E true None (b_done B) (b_nodes B) f).
    { intros f. unfold body_reaches, body_calls. split.
      - intros [(t & [[_ Hy]|(tn & Hf & _)])|[Hn _]]; [exact Hy|exfalso; exact (Hnf _ _ Hf)|contradiction].
      - intros Hy. left. destruct (b_tests B) as [|t r] eqn:Htb; [contradiction|]. exists t. left. split; [left; reflexivity|exact Hy]. }
    constructor; try congruence; auto.
    + intros k sp t. rewrite h_lists. unfold body_yields. rewrite Hyl. split.
      * intros [?|(m & c & HV & Hm & Hy)]; [auto|]. right. left. split; [exact Hm|]. eauto.
      * intros [?|[[Hin (m & c & HV & Hk)]|(tn & Hf & Hy)]]; [auto| |exfalso; exact (Hnf _ _ Hf)]. right. exists m, c. auto.
    + intros t. rewrite h_tset. split.
      * intros [?|(m & c & HV & [])]; auto.
      * intros [?|(tn & Hf)]; [auto|exfalso; exact (Hnf _ _ Hf)].
    + intros g Hg. apply h_keys_new in Hg. destruct Hg as [Hg|(m & c & HV & Hk)]; [auto|]. right. apply Hreach, Hyk. exists m, c. auto.
    + intros f Hf. apply Hreach, Hyk in Hf. destruct Hf as (m & c & HV & Hk). eapply h_keys_all; eauto.
    + intros g t Hg. apply h_p_new in Hg. destruct Hg as [Hg|(m & c & f & HV & [Hin Hk] & Hs)]; [auto|]. right. exists f. split; [|exact Hs].
      left. split; [exact Hin|]. apply Hyk. exists m, c. auto.
    + intros f t [[Hin Hf]|(tn & Hf & _)]; [|exfalso; exact (Hnf _ _ Hf)].
      apply Hyk in Hf. destruct Hf as (m & c & HV & Hk). eapply h_p_all; [exact HV|]. split; [exact Hin|exact Hk].
Qed.

Lemma yields_call_new E live L R ks f : yields_call E live L R ks f -> forall r, In r R -> same E f r = false.
Proof. intros (n & m & c & _ & _ & _ & Hk). apply Hk. Qed.
Lemma body_calls_reaches E B f t : body_calls E B f t -> body_reaches E B f.
Proof. intros H. left. eauto. Qed.
Lemma reaches_new E B f : body_reaches E B f -> forall r, In r (b_done B) -> same E f r = false.
Proof.
  intros [(t & [[_ H]|(tn & _ & H)])|[_ H]]; eapply yields_call_new; exact H.
Qed.
Lemma yields_call_walkable E live L R ks f : yields_call E live L R ks f -> exists x fs, v_walkable E x = f :: fs.
Proof. intros (n & m & c & _ & _ & _ & _ & _ & callee & args & x & fs & _ & _ & H). eauto. Qed.
Lemma reaches_walkable E B f : body_reaches E B f -> exists x fs, v_walkable E x = f :: fs.
Proof.
  intros [(t & [[_ H]|(tn & _ & H)])|[_ H]]; eapply yields_call_walkable; exact H.
Qed.

Lemma history_ign E root H : walk_history E root H ->
  (forall b t, In b H -> In t (b_tests b) -> v_ign_test E t = false) /\
  (forall b f t, In b H -> body_calls E b f t -> v_ign_test E t = false).
Proof.
  assert (Hc : forall b f t, (forall t, In t (b_tests b) -> v_ign_test E t = false) -> body_calls E b f t -> v_ign_test E t = false).
  { intros b f t Hb [[H' _]|(tn & (_ & n & c & i & _ & _ & _ & H') & _)]; [apply Hb; exact H'|exact H']. }
  induction 1 as [|f T H Hh IH _ _ HT].
  - assert (Hb : forall b t, In b [file_body root] -> In t (b_tests b) -> v_ign_test E t = false).
    { intros b t [<-|[]] []. }
    split; [exact Hb|]. intros b f t Hin. apply Hc. intros t'. apply Hb. exact Hin.
  - destruct IH as [IH1 IH2].
    assert (Hb : forall b t, In b (fun_body f T (done H) :: H) -> In t (b_tests b) -> v_ign_test E t = false).
    { intros b t [<-|Hin] Ht; [|eapply IH1; eauto]. cbn [fun_body b_tests] in Ht. apply HT in Ht.
      destruct Ht as (b & f' & Hin & Hcl & _). eapply IH2; eauto. }
    split; [exact Hb|]. intros b g t Hin. apply Hc. intros t'. apply Hb. exact Hin.
Qed.

(** ** The loop *)
Record inv (E : venv) (root : node) (H : list body) (st : vst) : Prop := Inv {
  i_hist : walk_history E root H;
  i_expl : explains E H st;
  i_last : s_last st = None;
  i_call : s_call st = None;
  i_before : s_before st = [];
  i_dist : distinct E (keys (s_pend st));
  i_ret : forall g r, In g (keys (s_pend st)) -> In r (s_ret st) -> same E g r = false;
  i_keys : forall g, In g (keys (s_pend st)) -> exists b, In b H /\ body_reaches E b g;
  i_keyw : forall g, In g (keys (s_pend st)) -> exists x fs, v_walkable E x = g :: fs;
  i_names : forall g t, pnames (s_pend st) g t <-> In g (keys (s_pend st)) /\ called_by E H g t;
  i_reach : forall b f, In b H -> body_reaches E b f ->
      (exists g, In g (keys (s_pend st)) /\ same E f g = true) \/ (exists g, In g (done H) /\ same E f g = true)
}.

Lemma keys_app a b : keys (a ++ b) = keys a ++ keys b.
Proof. apply map_app. Qed.
Lemma distinct_app E a b : distinct E (a ++ b) <->
  distinct E a /\ distinct E b /\ forall x y, In x a -> In y b -> same E x y = false.
Proof.
  induction a as [|z a IH]; cbn [app distinct]; [split; [intros H; repeat split; auto; intros x y []|tauto]|].
  rewrite IH. split.
  - intros (H1 & H2 & H3 & H4). split; [split; [intros h Hh; apply H1, in_or_app; auto|exact H2]|].
    split; [exact H3|]. intros x y [->|Hx] Hy; [apply H1, in_or_app; auto|auto].
  - intros ((H1 & H2) & H3 & H4). split; [|split; [exact H2|split; [exact H3|]]].
    + intros h Hh. apply in_app_or in Hh. destruct Hh as [Hh|Hh]; [auto|apply H4; [left; reflexivity|exact Hh]].
    + intros x y Hx Hy. apply H4; [right; exact Hx|exact Hy].
Qed.
Lemma distinct_unique E l x y : distinct E l -> In x l -> In y l -> same E x y = true -> x = y.
Proof.
  induction l as [|z l IH]; [intros _ []|]. cbn [distinct]. intros [H1 H2] [->|Hx] [->|Hy] Hs; auto.
  - rewrite H1 in Hs by assumption. discriminate.
  - rewrite same_sym, H1 in Hs by assumption. discriminate.
Qed.

Lemma pnames_key l g t : pnames l g t -> In g (keys l).
Proof. intros (ts & H & _). apply in_map_iff. exists (g, ts). auto. Qed.

Lemma same_left_false E f g r : same E f g = true -> same E f r = false -> same E g r = false.
Proof.
  intros H1 H2. destruct (same E g r) eqn:H3; [|reflexivity].
  rewrite (same_trans _ _ _ _ H1 H3) in H2. discriminate.
Qed.

Lemma inv_file E root st : well_formed E root = true -> walk E root (init_vst) = Some st ->
  inv E root [file_body root] st.
Proof.
  intros W H.
  assert (BS : body_step E (file_body root) init_vst st).
  { apply walk_body; try reflexivity; [cbn; rewrite W; reflexivity|intros t []|]. cbn [file_body b_nodes fold_kids]. rewrite H. reflexivity. }
  destruct BS. cbn [init_vst s_ret s_before s_maps s_tset s_pend keys map] in *.
  assert (Hno : forall k sp t, ~ lists (STM [] []) k sp t).
  { intros k sp t (ts & Hin & _). destruct k; destruct Hin. }
  assert (Hnp : forall g t, ~ pnames [] g t) by (intros g t (ts & [] & _)).
  constructor; try assumption.
  - apply wh_file.
  - split; [|split].
    + intros k sp t. rewrite bs_lists0. split.
      * intros [Hl|Hy]; [exfalso; exact (Hno _ _ _ Hl)|]. eexists. split; [left; reflexivity|exact Hy].
      * intros (b & [<-|[]] & Hy). auto.
    + intros t. rewrite bs_tset0. split.
      * intros [[]|(tn & Hf)]. exists (file_body root), tn. split; [left; reflexivity|exact Hf].
      * intros (b & tn & [<-|[]] & Hf). eauto.
    + exact bs_ret0.
  - apply bs_distinct0. exact I.
  - rewrite bs_ret0. intros g r _ [].
  - intros g Hg. apply bs_keys_new0 in Hg. destruct Hg as [[]|Hg]. exists (file_body root). split; [left; reflexivity|exact Hg].
  - intros g Hg. apply bs_keys_new0 in Hg. destruct Hg as [[]|Hg]. eapply reaches_walkable; exact Hg.
  - intros g t. split.
    + intros Hp. split; [eapply pnames_key; exact Hp|]. apply bs_p_new0 in Hp. destruct Hp as [Hp|(f & Hc & Hs)]; [exfalso; exact (Hnp _ _ Hp)|].
      exists (file_body root), f. split; [left; reflexivity|auto].
    + intros (Hg & b & f & [<-|[]] & Hc & Hs). destruct (bs_p_all0 _ _ Hc) as (g' & Hs' & Hp).
      assert (g' = g); [|subst; exact Hp].
      eapply distinct_unique; [apply bs_distinct0; exact I|eapply pnames_key; exact Hp|exact Hg|].
      eapply same_trans; [rewrite same_sym; exact Hs'|exact Hs].
  - intros b f [<-|[]] Hr. left. apply bs_keys_all0. exact Hr.
Qed.

Lemma next_some st f st1 : next_local_function st = Some (f, st1) ->
  exists pre ts, s_pend st = pre ++ [(f, ts)] /\ st1 = set_tests ts (set_ret (f :: s_ret st) (set_pend pre st)).
Proof.
  unfold next_local_function. destruct (rev (s_pend st)) as [|[g ts] r] eqn:Hr; [discriminate|].
  intros H; inversion H; subst; clear H. exists (rev r), ts. split; [|reflexivity].
  rewrite <- (rev_involutive (s_pend st)), Hr. reflexivity.
Qed.
Lemma next_none st : next_local_function st = None -> s_pend st = [].
Proof.
  unfold next_local_function. destruct (rev (s_pend st)) as [|[g ts] r] eqn:Hr; [|discriminate].
  intros _. rewrite <- (rev_involutive (s_pend st)), Hr. reflexivity.
Qed.

Lemma step_history E root H st f st1 : inv E root H st -> next_local_function st = Some (f, st1) ->
  exists pre ts, s_pend st = pre ++ [(f, ts)] /\ st1 = set_tests ts (set_ret (f :: s_ret st) (set_pend pre st)) /\
    walk_history E root (fun_body f ts (done H) :: H) /\ s_ret st = done H /\ (exists x fs, v_walkable E x = f :: fs).
Proof.
  intros IV Hn. apply next_some in Hn. destruct Hn as (pre & ts & Hp & ->). exists pre, ts. split; [exact Hp|]. split; [reflexivity|].
  destruct IV. destruct i_expl0 as (X1 & X2 & X3).
  rewrite Hp in *. rewrite keys_app in *. cbn [keys map fst] in *.
  assert (Hf : In f (map fst pre ++ [f])) by (apply in_or_app; right; left; reflexivity).
  apply distinct_app in i_dist0. destruct i_dist0 as (D1 & _ & D3).
  split; [|split; [exact X3|apply i_keyw0; exact Hf]].
  apply wh_fun; auto.
  - intros g Hg. apply i_ret0; [exact Hf|]. rewrite X3. exact Hg.
  - intros t. split.
    + intros Ht. apply (i_names0 f t). exists ts. split; [apply in_or_app; right; left; reflexivity|exact Ht].
    + intros Hc. destruct (proj2 (i_names0 f t) (conj Hf Hc)) as (us & Hin & Ht).
      apply in_app_or in Hin. destruct Hin as [Hin|[Hin|[]]]; [|inversion Hin; subst; exact Ht].
      exfalso. assert (Hk : In f (keys pre)) by (apply in_map_iff; exists (f, us); auto).
      pose proof (D3 f f Hk (or_introl eq_refl)) as Hx. rewrite same_refl in Hx. discriminate.
Qed.

Lemma inv_step E root H st f st1 st2 : inv E root H st ->
  (forall x g fs, v_walkable E x = g :: fs -> forallb (well_formed E) (n_kids g) = true) ->
  next_local_function st = Some (f, st1) -> fold_kids (walk E) (n_kids f) st1 = Some st2 ->
  exists T, inv E root (fun_body f T (done H) :: H) st2.
Proof.
  intros IV WF Hn Hw. destruct (step_history _ _ _ _ _ _ IV Hn) as (pre & ts & Hp & -> & Hh' & Hr & x & fs & Hwk).
  exists ts. set (B := fun_body f ts (done H)) in *.
  assert (BS : body_step E B (set_tests ts (set_ret (f :: s_ret st) (set_pend pre st))) st2).
  { destruct IV. apply walk_body; auto.
    - eapply WF. exact Hwk.
    - cbn. rewrite Hr. reflexivity.
    - intros t Ht. destruct (history_ign _ _ _ Hh') as [Hi _]. apply (Hi B t); [left; reflexivity|exact Ht]. }
  destruct IV. destruct i_expl0 as (X1 & X2 & X3).
  destruct BS. cbn [set_tests set_ret set_pend s_ret s_before s_maps s_tset s_pend] in *.
  rewrite Hp, keys_app in *. cbn [keys map fst] in *. fold (keys pre) in *.
  apply distinct_app in i_dist0. destruct i_dist0 as (D1 & _ & D3).
  assert (Hpre : forall g, In g (keys pre) -> In g (keys pre ++ [f])) by (intros g Hg; apply in_or_app; auto).
  assert (Hret' : forall g r, In g (keys (s_pend st2)) -> In r (s_ret st2) -> same E g r = false).
  { rewrite bs_ret0. intros g r Hg Hrr. apply bs_keys_new0 in Hg. destruct Hg as [Hg|Hg].
    - destruct Hrr as [<-|Hrr]; [apply D3; [exact Hg|left; reflexivity]|apply i_ret0; auto].
    - eapply reaches_new; [exact Hg|]. cbn. rewrite <- Hr. exact Hrr. }
  assert (Hdist2 : distinct E (keys (s_pend st2))) by (apply bs_distinct0; exact D1).
  constructor; try assumption.
  - split; [|split].
    + intros k sp t. rewrite bs_lists0, X1. split.
      * intros [(b & Hb & Hy)|Hy]; [exists b; split; [right; exact Hb|exact Hy]|exists B; split; [left; reflexivity|exact Hy]].
      * intros (b & [<-|Hb] & Hy); [auto|left; eauto].
    + intros t. rewrite bs_tset0, X2. split.
      * intros [(b & tn & Hb & Hy)|(tn & Hy)]; [exists b, tn; split; [right; exact Hb|exact Hy]|exists B, tn; split; [left; reflexivity|exact Hy]].
      * intros (b & tn & [<-|Hb] & Hy); [eauto|left; eauto].
    + rewrite bs_ret0, Hr. reflexivity.
  - congruence.
  - intros g Hg. apply bs_keys_new0 in Hg. destruct Hg as [Hg|Hg].
    + destruct (i_keys0 g (Hpre _ Hg)) as (b & Hb & Hx). exists b. split; [right; exact Hb|exact Hx].
    + exists B. split; [left; reflexivity|exact Hg].
  - intros g Hg. apply bs_keys_new0 in Hg. destruct Hg as [Hg|Hg]; [auto|]. eapply reaches_walkable; exact Hg.
  - intros g t. split.
    + intros Hpn. split; [eapply pnames_key; exact Hpn|]. apply bs_p_new0 in Hpn. destruct Hpn as [(us & Hin & Ht)|(f' & Hc & Hs)].
      * destruct (proj1 (i_names0 g t)) as (_ & b & f' & Hb & Hx); [exists us; split; [apply in_or_app; auto|exact Ht]|].
        exists b, f'. split; [right; exact Hb|exact Hx].
      * exists B, f'. split; [left; reflexivity|auto].
    + intros (Hg & b & f' & [<-|Hb] & Hc & Hs).
      * destruct (bs_p_all0 _ _ Hc) as (g' & Hs' & Hpn).
        assert (g' = g); [|subst; exact Hpn].
        eapply distinct_unique; [exact Hdist2|eapply pnames_key; exact Hpn|exact Hg|].
        eapply same_trans; [rewrite same_sym; exact Hs'|exact Hs].
      * (* called from an earlier body: it was pending already *)
        destruct (i_reach0 b f' Hb (body_calls_reaches _ _ _ _ Hc)) as [(g' & Hg' & Hs')|(g' & Hg' & Hs')].
        { destruct (proj2 (i_names0 g' t)) as (us & Hin & Ht).
          { split; [exact Hg'|]. exists b, f'. auto. }
          assert (Hgg : same E g g' = true) by (eapply same_trans; [rewrite same_sym; exact Hs|exact Hs']).
          apply in_app_or in Hin. destruct Hin as [Hin|[Hin|[]]].
          - assert (Hk : pnames (s_pend st2) g' t) by (apply bs_p_mono0; exists us; auto).
            assert (g' = g); [|subst; exact Hk].
            eapply distinct_unique; [exact Hdist2|eapply pnames_key; exact Hk|exact Hg|rewrite same_sym; exact Hgg].
          - exfalso. inversion Hin; subst g' us.
            rewrite (Hret' g f Hg) in Hgg; [discriminate|]. rewrite bs_ret0. left. reflexivity. }
        { exfalso. assert (Hgg : same E g g' = true) by (eapply same_trans; [rewrite same_sym; exact Hs|exact Hs']).
          rewrite (Hret' g g' Hg) in Hgg; [discriminate|]. rewrite bs_ret0, Hr. right. exact Hg'. }
  - intros b f' [<-|Hb] Hx; [left; apply bs_keys_all0; exact Hx|].
    destruct (i_reach0 b f' Hb Hx) as [(g' & Hg' & Hs')|(g' & Hg' & Hs')].
    + apply in_app_or in Hg'. destruct Hg' as [Hg'|[<-|[]]].
      * left. exists g'. auto.
      * right. exists f. split; [left; reflexivity|exact Hs'].
    + right. exists g'. split; [right; exact Hg'|exact Hs'].
Qed.

Lemma loop_explained E root fuel : forall H st st',
  (forall x g fs, v_walkable E x = g :: fs -> forallb (well_formed E) (n_kids g) = true) ->
  inv E root H st -> local_loop E fuel st = LDone st' ->
  exists H', walk_history E root H' /\ complete E H' /\ explains E H' st'.
Proof.
  induction fuel as [|fuel IH]; intros H st st' WF IV HL; cbn [local_loop] in HL.
  - destruct (next_local_function st) as [[f st1]|] eqn:Hn; [discriminate|]. inversion HL; subst st'.
    apply next_none in Hn. destruct IV. exists H. split; [assumption|]. split; [|assumption].
    intros b f Hb Hr. destruct (i_reach0 b f Hb Hr) as [(g & Hg & _)|Hd]; [rewrite Hn in Hg; destruct Hg|exact Hd].
  - destruct (next_local_function st) as [[f st1]|] eqn:Hn.
    + destruct (fold_kids (walk E) (n_kids f) st1) as [st2|] eqn:Hw; [|discriminate].
      destruct (inv_step _ _ _ _ _ _ _ IV WF Hn Hw) as (T & IV'). eapply IH; eauto.
    + inversion HL; subst st'.
      apply next_none in Hn. destruct IV. exists H. split; [assumption|]. split; [|assumption].
      intros b f Hb Hr. destruct (i_reach0 b f Hb Hr) as [(g & Hg & _)|Hd]; [rewrite Hn in Hg; destruct Hg|exact Hd].
Qed.

Theorem visit_explained E fuel root st :
  well_formed E root = true ->
  (forall x g fs, v_walkable E x = g :: fs -> well_formed E g = true) ->
  visit_file E fuel root = LDone st ->
  exists H, walk_history E root H /\ complete E H /\ explains E H st.
Proof.
  intros W WF HV. unfold visit_file in HV. destruct (walk E root init_vst) as [st0|] eqn:Hw; [|discriminate].
  eapply loop_explained; [|eapply inv_file; eassumption|exact HV].
  intros x g fs Hx. specialize (WF x g fs Hx). destruct g as [l ks]. eapply wf_kids. exact WF.
Qed.

(** ** Termination *)
Lemma history_distinct E root H : walk_history E root H -> distinct E (done H).
Proof.
  induction 1 as [|f T H Hh IH _ Hnew _]; [exact I|]. change (done (fun_body f T (done H) :: H)) with (f :: done H).
  cbn [distinct]. auto.
Qed.
Lemma distinct_nodup E l : distinct E l -> NoDup l.
Proof.
  induction l as [|x l IH]; cbn [distinct]; [constructor|]. intros [H1 H2]. constructor; [|auto].
  intros Hin. specialize (H1 x Hin). rewrite same_refl in H1. discriminate.
Qed.

Lemma loop_terminates E root F fuel : forall H st,
  (forall x g fs, v_walkable E x = g :: fs -> forallb (well_formed E) (n_kids g) = true) ->
  (forall x g fs, v_walkable E x = g :: fs -> In g F) ->
  inv E root H st -> incl (done H) F -> length F <= fuel + length (done H) ->
  local_loop E fuel st <> LOutOfFuel.
Proof.
  induction fuel as [|fuel IH]; intros H st WF HF IV Hi Hlen; cbn [local_loop].
  - destruct (next_local_function st) as [[f st1]|] eqn:Hn; [|discriminate]. exfalso.
    destruct (step_history _ _ _ _ _ _ IV Hn) as (pre & ts & _ & _ & Hh & _ & x & fs & Hx).
    pose proof (history_distinct _ _ _ Hh) as Hd. change (done (fun_body f ts (done H) :: H)) with (f :: done H) in Hd.
    apply distinct_nodup in Hd.
    assert (length (f :: done H) <= length F); [|cbn [length] in *; lia].
    apply NoDup_incl_length; [exact Hd|]. intros y [<-|Hy]; [eapply HF; exact Hx|apply Hi; exact Hy].
  - destruct (next_local_function st) as [[f st1]|] eqn:Hn; [|discriminate].
    destruct (fold_kids (walk E) (n_kids f) st1) as [st2|] eqn:Hw; [|discriminate].
    destruct (step_history _ _ _ _ _ _ IV Hn) as (pre & ts & _ & _ & _ & _ & x & fs & Hx).
    destruct (inv_step _ _ _ _ _ _ _ IV WF Hn Hw) as (T & IV'). eapply IH; eauto.
    + change (incl (f :: done H) F). intros y [<-|Hy]; [eapply HF; exact Hx|apply Hi; exact Hy].
    + change (length F <= fuel + length (f :: done H)). cbn [length]. lia.
Qed.

Theorem visit_terminates E F fuel root :
  well_formed E root = true ->
  (forall x g fs, v_walkable E x = g :: fs -> well_formed E g = true /\ In g F) ->
  length F <= fuel -> visit_file E fuel root <> LOutOfFuel.
Proof.
  intros W WF Hlen. unfold visit_file. destruct (walk E root init_vst) as [st0|] eqn:Hw; [|discriminate].
  eapply loop_terminates; [| |eapply inv_file; eassumption| |].
  - intros x g fs Hx. destruct (WF x g fs Hx) as [Hg _]. destruct g as [l ks]. eapply wf_kids. exact Hg.
  - intros x g fs Hx. apply (WF x g fs Hx).
  - intros y [].
  - cbn. lia.
Qed.
