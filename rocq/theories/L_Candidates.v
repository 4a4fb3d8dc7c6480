(** Lemmas for C29-C38. *)
From Verif Require Import Base M_Text M_Rewriter M_Span M_Run M_Visitor S_Visitor S_Walk S_Candidates
  L_Visitor L_VisitorLive L_VisitorWalk L_VisitorDead L_VisitorLoop L_VisitorTotal L_VisitorMaps L_VisitorFacts.

Lemma performs_det e c : performs e c -> forall c', performs e c' -> c = c'.
Proof.
  induction 1 as [c Hc|l b r c K Hp IH|l x b r c K Hp IH]; intros c' H.
  - symmetry. eapply performs_self; eauto.
  - apply IH. apply (performs_chain (Node l (b :: r)) b r); [left; exact K|reflexivity|exact H].
  - apply IH. apply (performs_chain (Node l (b :: r)) b r); [right; exists x; exact K|reflexivity|exact H].
Qed.
Lemma call_statement_det s c c' : call_statement s c -> call_statement s c' -> c = c'.
Proof.
  intros (l & e & r & rm & ct & d & -> & K & H) H'. eapply call_statement_kid in H'; [|reflexivity]. eapply performs_det; eauto.
Qed.
Lemma call_statement_within s c : call_statement s c -> within s c.
Proof.
  intros (l & e & r & rm & ct & d & -> & K & H). eapply wi_kid; [left; reflexivity|].
  clear K. induction H as [c Hc|l0 b r0 c K Hp IH|l0 x b r0 c K Hp IH]; [constructor| |]; eapply wi_kid; [left; reflexivity|exact IH|left; reflexivity|exact IH].
Qed.

Lemma named_belongs E root t n L s : body_of E root t n L -> within n s -> belongs E root t s.
Proof. intros [tn H|f H] Hw; [left; eauto|right; eauto]. Qed.

Lemma local_of_calls E R c f : calls_local E R c f -> local_call E c f.
Proof. intros (_ & _ & callee & args & x & fs & H). exists callee, args, x, fs. exact H. Qed.

Section Result.
Context (E : venv) (root : node) (st : vst) (P : parsed E root) (HR : result E root st).

Lemma history_of : exists H, walk_history E root H /\ complete E H /\ explains E H st.
Proof. destruct HR as (fuel & Hv). destruct P as [W WF]. exact (visit_explained E fuel root st W WF Hv). Qed.

(** Walked functions are in the file. *)
Lemma origin k sp t : candidate st k sp t ->
  exists H b n L, walk_history E root H /\ In b H /\ body_of E root t n L /\ in_file E root n /\
    yields E true L (b_done b) (n_kids n) k sp.
Proof.
  intros HL. destruct history_of as (H & HH & _ & (X & _ & _)).
  apply X in HL. destruct HL as (b & Hb & [[Ht Hy]|(tn & Hfd & Hy)]).
  - destruct (history_nodes E root H HH b Hb) as [(_ & _ & Hn)|(f & Hf & Hn & Hd)]; [rewrite Hn in Ht; destruct Ht|].
    rewrite Hn in Hy. exists H, b, f, None. split; [exact HH|]. split; [exact Hb|]. split; [apply bo_fun; eapply history_reaches; eassumption|].
    split; [|exact Hy]. destruct (history_walkable _ _ _ HH f Hd) as (x & fs & Hx). right. exists x, f, fs. split; [exact Hx|constructor].
  - assert (Hnm : test_named E root tn t) by (eapply found_named; [|exact Hfd]; apply (history_file _ _ _ HH); exact Hb).
    exists H, b, tn, (last_statement tn). split; [exact HH|]. split; [exact Hb|]. split; [apply bo_test; exact Hnm|]. split; [apply Hnm|exact Hy].
Qed.

Lemma statement_origin sp t : candidate st Statement sp t ->
  exists n L R s, body_of E root t n L /\ in_file E root s /\ within n s /\ n_span s = sp /\ v_skip E sp = false /\
    statement_candidate E L R s.
Proof.
  intros HL. destruct (origin _ _ _ HL) as (H & b & n & L & _ & _ & Hb & Hin & Hy).
  apply yields_statement in Hy. destruct Hy as (k & s & Hk & Hw & Hs & Hsk & Hc).
  assert (Hns : within n s) by (eapply wi_kid; eassumption).
  exists n, L, (b_done b), s. split; [exact Hb|]. split; [eapply in_file_kid; eassumption|]. auto.
Qed.
Lemma method_origin sp t : candidate st MethodCall sp t ->
  exists n L R c ctx, body_of E root t n L /\ in_file E root c /\ within n c /\ v_skip E sp = false /\ method_candidate E c sp /\
    considered E true L R c ctx.
Proof.
  intros HL. destruct (origin _ _ _ HL) as (H & b & n & L & _ & _ & Hb & Hin & Hy).
  apply yields_method in Hy. destruct Hy as (k & c & ctx & Hk & Hv & Hsk & Hm & Hc).
  assert (Hns : within n c) by (eapply wi_kid; [exact Hk|eapply visits_within; exact Hv]).
  exists n, L, (b_done b), c, ctx. split; [exact Hb|]. split; [eapply in_file_kid; eassumption|]. auto.
Qed.

(** ** Completeness *)
Lemma leaf_candidate L R s : removable_leaf s -> (forall l, L = Some l -> same E l s = false) -> statement_candidate E L R s.
Proof.
  intros (Hs & Hnc & Hr & Hct & Hd & Hno) HL. split; [exact Hs|]. split.
  - intros [H|(l & -> & H)]; [congruence|]. rewrite (HL l eq_refl) in H. discriminate.
  - left. split; [exact Hnc|]. split; [exact Hct|]. split; [exact Hd|]. apply no_stmt_below; assumption.
Qed.
Lemma call_candidate L R s : removable_call E s -> (forall l, L = Some l -> same E l s = false) -> statement_candidate E L R s.
Proof.
  intros (Hr & c & Hc & Hni & Hno) HL. split; [eapply call_statement_stmt; exact Hc|]. split.
  - intros [H|(l & -> & H)]; [congruence|]. rewrite (HL l eq_refl) in H. discriminate.
  - right. exists c. split; [exact Hc|]. split; [exact Hni|]. intros f Hf. apply (Hno f). eapply local_of_calls; exact Hf.
Qed.

Lemma wf_in_file n : in_file E root n -> well_formed E n = true.
Proof.
  destruct P as [W WF]. intros [Hw|(x & f & fs & Hx & Hw)]; [eapply wf_within; eassumption|].
  eapply wf_within; [eapply WF; exact Hx|exact Hw].
Qed.

Lemma method_yields L R n k c b p sp : In k (n_kids n) -> open_path E k c -> seen_call c -> method_call c b p ->
  ~ ignored_call E c -> ~ ignored_method E c -> (forall f, ~ local_call E c f) ->
  (forall s, within n s -> call_statement s c -> ~ kept E L s) ->
  method_span E (n_span c) (n_span b) = Some sp -> v_skip E sp = false -> yields E true L R (n_kids n) MethodCall sp.
Proof.
  intros Hk Ho (x & Hx) Hm Hni Hnm Hl Hkp Hsp Hsk. destruct (open_visits E true L R k c Ho None) as (ctx & Hv).
  exists k, c, ctx. split; [exact Hk|]. split; [exact Hv|]. eapply cb_method; eauto.
  split; [reflexivity|]. split; [intros f Hf; apply (Hl f); eapply local_of_calls; exact Hf|].
  intros s ->. apply Hkp.
  - destruct (ctx_stmt_within _ _ _ _ _ _ _ _ Hv) as [H|H]; [discriminate|]. eapply wi_kid; eassumption.
  - assert (HC : ctx_for c (Some s)) by (eapply visits_ctx; [|exact Hv]; apply ctx_none).
    destruct (HC s eq_refl) as (c0 & Hcs & Hp). apply performs_self in Hp; [subst c0; exact Hcs|]. left. exists false, x. exact Hx.
Qed.

Lemma test_yields H : walk_history E root H -> explains E H st -> forall tn t k sp, file_test E root tn t ->
  yields E true (last_statement tn) [] (n_kids tn) k sp -> candidate st k sp t.
Proof.
  intros HH (X & _) tn t k sp Hft Hy. apply X. exists (file_body root). split; [|right; exists tn; split; [apply file_test_found; exact Hft|exact Hy]].
  clear X Hy. induction HH; [left; reflexivity|right; assumption].
Qed.

Lemma file_test_named tn t : file_test E root tn t -> test_named E root tn t.
Proof. intros (Hp & K & Hi). split; [left; eapply test_within; exact Hp|]. auto. Qed.

Lemma in_body_within n s : in_body E n s -> within n s.
Proof. intros (k & Hk & Ho). eapply wi_kid; [exact Hk|eapply open_within; exact Ho]. Qed.

Lemma test_statement_listed tn t s : file_test E root tn t -> in_body E tn s ->
  removable_leaf s \/ removable_call E s -> (forall l, last_statement tn = Some l -> same E l s = false) ->
  v_skip E (n_span s) = false -> candidate st Statement (n_span s) t.
Proof.
  intros Hft Hb Hs HL Hsk. destruct history_of as (H & HH & _ & HX). eapply test_yields; [exact HH|exact HX|exact Hft|].
  assert (W : well_formed E s = true).
  { apply wf_in_file. eapply in_file_kid; [apply (file_test_named _ _ Hft)|apply in_body_within; exact Hb]. }
  destruct Hb as (k & Hk & Ho). eapply statement_yields; [exact W|exact Hk|exact Ho|exact Hsk|].
  destruct Hs as [Hs|Hs]; [apply leaf_candidate|apply call_candidate]; assumption.
Qed.

(** Every function body of the history, with its tests. *)
Lemma history_body H : walk_history E root H -> forall g, In g (done H) ->
  exists T H0 H1, H = H1 ++ fun_body g T (done H0) :: H0 /\ walk_history E root H0 /\ (exists b, In b H0 /\ body_reaches E b g) /\
    (forall t, In t T <-> called_by E H0 g t).
Proof.
  induction 1 as [|f T H HH IH Hr Hnew HT]; intros g Hg; [destruct Hg|].
  change (done (fun_body f T (done H) :: H)) with (f :: done H) in Hg. destruct Hg as [->|Hg].
  - exists T, H, []. auto.
  - destruct (IH g Hg) as (T' & H0 & H1 & -> & X). exists T', H0, (fun_body f T (done (H1 ++ fun_body g T' (done H0) :: H0)) :: H1). auto.
Qed.
Lemma history_has_file H : walk_history E root H -> In (file_body root) H.
Proof. induction 1; [left; reflexivity|right; assumption]. Qed.

Lemma local_seen_calls R c f : seen_call c -> local_call E c f -> (forall r, In r R -> same E f r = false) -> calls_local E R c f.
Proof.
  intros (x & Hx) (callee & args & y & fs & H) HRr. split; [exists false, x; exact Hx|]. split; [exact HRr|]. exists callee, args, y, fs. exact H.
Qed.

(** A test's direct callees are walked on its behalf. *)
Lemma direct_walked H tn t c f : walk_history E root H -> complete E H -> file_test E root tn t -> in_body E tn c -> seen_call c -> local_call E c f ->
  exists b g, In b H /\ b_fun b = Some g /\ b_nodes b = n_kids g /\ same E f g = true /\ In t (b_tests b) /\ exists x fs, v_walkable E x = g :: fs.
Proof.
  intros HH HC Hft (k & Hk & Ho) Hsc Hlc.
  assert (Hyc : yields_call E true (last_statement tn) [] (n_kids tn) f).
  { destruct (open_visits E true (last_statement tn) [] k c Ho None) as (ctx & Hv). exists k, c, ctx. split; [exact Hk|]. split; [exact Hv|].
    split; [exact Hsc|]. apply local_seen_calls; auto. intros r []. }
  assert (Hbc : body_calls E (file_body root) f t) by (right; exists tn; split; [apply file_test_found; exact Hft|exact Hyc]).
  destruct (HC (file_body root) f (history_has_file H HH)) as (g & Hg & Hsame); [left; exists t; exact Hbc|].
  destruct (history_body H HH g Hg) as (T & H0 & H1 & -> & HH0 & _ & HT).
  exists (fun_body g T (done H0)), g. split; [apply in_or_app; right; left; reflexivity|]. split; [reflexivity|]. split; [reflexivity|].
  split; [exact Hsame|]. split; [|eapply history_walkable; [exact HH|exact Hg]].
  apply HT. exists (file_body root), f. split; [apply history_has_file; exact HH0|]. auto.
Qed.

Lemma function_yields H b g s t : explains E H st -> In b H -> b_nodes b = n_kids g -> In t (b_tests b) -> in_file E root g ->
  in_body E g s -> removable_leaf s \/ removable_call E s -> v_skip E (n_span s) = false -> candidate st Statement (n_span s) t.
Proof.
  intros (X & _) Hb Hn Ht Hin Hbd Hs Hsk. apply X. exists b. split; [exact Hb|]. left. split; [exact Ht|]. rewrite Hn.
  assert (W : well_formed E s = true) by (apply wf_in_file; eapply in_file_kid; [exact Hin|apply in_body_within; exact Hbd]).
  destruct Hbd as (k & Hk & Ho). eapply statement_yields; [exact W|exact Hk|exact Ho|exact Hsk|].
  destruct Hs as [Hs|Hs]; [apply leaf_candidate|apply call_candidate]; auto; intros l Hl; discriminate.
Qed.

Lemma walkable_in_file x g fs : v_walkable E x = g :: fs -> in_file E root g.
Proof. intros Hx. right. exists x, g, fs. split; [exact Hx|constructor]. Qed.

Lemma local_call_walkable c f : local_call E c f -> exists x fs, v_walkable E x = f :: fs.
Proof. intros (callee & args & x & fs & _ & _ & H). eauto. Qed.

(** Nothing is walked without a test when tests alone call local functions. *)
Lemma dead_test_path L R n ctx m c : visits E false L R n ctx m c -> test_path E n m.
Proof.
  induction 1 as [|n ctx k c' m c'' Hc _ IH]; [constructor|]. eapply tp_kid; [|eapply child_kid; exact Hc|exact IH].
  destruct Hc.
  - left. eapply call_statement_stmt; eassumption.
  - left. assumption.
  - right; right; right; right. split; [assumption|]. right; right. assumption.
  - right; right; right; right. split; [assumption|]. right; right. assumption.
  - right; right; right; right. split; [assumption|]. destruct H as [H|H]; [left|right; left]; assumption.
  - right; right; right; left. assumption.
  - right; left. eexists _, _. eassumption.
  - right; left. eexists _, _. eassumption.
  - right; left. eexists _, _. eassumption.
  - right; right; left. eexists. eassumption.
Qed.
Lemma tests_only_nonempty H : walk_history E root H -> calls_in_tests_only E root ->
  forall b, In b H -> b_fun b <> None -> b_tests b <> [].
Proof.
  intros HH HO. induction HH as [|f T H HH IH (b0 & Hb0 & Hr) Hnew HT]; intros b [<-|Hb] Hf; [exfalso; apply Hf; reflexivity|destruct Hb| |exact (IH b Hb Hf)].
  cbn [fun_body b_tests]. destruct Hr as [(t & Ht)|(Hbt & Hy)].
  - assert (Hin : In t T) by (apply HT; exists b0, f; split; [exact Hb0|split; [exact Ht|apply same_refl]]).
    intros ->. destruct Hin.
  - destruct (history_nodes E root H HH b0 Hb0) as [(_ & Hn & _)|(g & Hg & _)].
    + exfalso. rewrite Hn in Hy. destruct Hy as (n & m & ctx & [<-|[]] & Hv & Hs & Hc).
      apply (HO m f); [eapply dead_test_path; exact Hv|exact Hs|eapply local_of_calls; exact Hc].
    + exfalso. apply (IH b0 Hb0); [rewrite Hg; discriminate|exact Hbt].
Qed.

Lemma reached_walked H : walk_history E root H -> complete E H -> functions_apart E -> calls_in_tests_only E root ->
  forall f, reached E root f -> exists b t, In b H /\ b_fun b = Some f /\ b_nodes b = n_kids f /\ In t (b_tests b).
Proof.
  intros HH HC FA HO f Hf. induction Hf as [tn t c f Hft Hb Hs Hl|g c f Hg IH Hb Hs Hl].
  - destruct (direct_walked H tn t c f HH HC Hft Hb Hs Hl) as (b & g & H1 & H2 & H3 & H4 & H5 & x & fs & H6).
    destruct (local_call_walkable _ _ Hl) as (y & gs & Hy). assert (f = g) by (eapply FA; eassumption). subst g. exists b, t. auto.
  - destruct IH as (b & t & Hbb & Hbf & Hbn & Hbt).
    assert (Hdone : exists g', In g' (done H) /\ same E f g' = true).
    { destruct (existsb (same E f) (b_done b)) eqn:Hex.
      - apply existsb_exists in Hex. destruct Hex as (r & Hr & Hsr). exists r. split; [|exact Hsr].
        clear - HH Hbb Hr. induction HH as [|h T H HH IH _ _ _]; [destruct Hbb as [<-|[]]; destruct Hr|].
        change (done (fun_body h T (done H) :: H)) with (h :: done H). destruct Hbb as [<-|Hbb]; [exact Hr|right; apply IH; exact Hbb].
      - apply (HC b f Hbb). left. exists t. left. split; [exact Hbt|]. rewrite Hbn.
        destruct Hb as (k & Hk & Ho). destruct (open_visits E true None (b_done b) k c Ho None) as (ctx & Hv). exists k, c, ctx. split; [exact Hk|].
        split; [exact Hv|]. split; [exact Hs|]. apply local_seen_calls; auto. intros r Hr. destruct (same E f r) eqn:Hsr; [|reflexivity].
        exfalso. assert (existsb (same E f) (b_done b) = true) by (apply existsb_exists; eauto). congruence. }
    destruct Hdone as (g' & Hg' & Hsame). destruct (history_walkable _ _ _ HH g' Hg') as (x & fs & Hx).
    destruct (local_call_walkable _ _ Hl) as (y & gs & Hy). assert (f = g') by (eapply FA; eassumption). subst g'.
    destruct (history_body H HH f Hg') as (T & H0 & H1 & -> & HH0 & _ & HT).
    pose proof (tests_only_nonempty _ HH HO (fun_body f T (done H0))) as HN.
    assert (Hin : In (fun_body f T (done H0)) (H1 ++ fun_body f T (done H0) :: H0)) by (apply in_or_app; right; left; reflexivity).
    specialize (HN Hin). cbn [fun_body b_fun b_tests] in HN. destruct T as [|t' T']; [exfalso; apply HN; [discriminate|reflexivity]|].
    exists (fun_body f (t' :: T') (done H0)), t'. split; [exact Hin|]. split; [reflexivity|]. split; [reflexivity|left; reflexivity].
Qed.

Lemma called_walkable n f : mentions E n f -> exists x fs, v_walkable E x = f :: fs.
Proof. intros (c & callee & args & x & fs & _ & _ & _ & _ & H). eauto. Qed.

Lemma history_calls H : functions_apart E -> walk_history E root H ->
  forall b f, In b H -> b_fun b = Some f -> forall t, In t (b_tests b) -> test_calls E root t f.
Proof.
  intros FA HH. induction HH as [|f T H HH IH (b0 & Hb0 & Hr) Hnew HT]; intros b g [<-|Hb] Hf t Ht; try (destruct Hb; fail); [discriminate| |eauto].
  cbn [fun_body b_fun b_tests] in *. inversion Hf; subst g. apply HT in Ht. destruct Ht as (b & f' & Hb & Hc & Hs).
  apply reaches_walkable in Hr. destruct Hr as (x & fs & Hx).
  destruct Hc as [[Ht Hy]|(tn & Hfd & Hy)].
  - destruct (history_nodes E root H HH b Hb) as [(_ & _ & Hn)|(h & Hh & Hn & _)]; [rewrite Hn in Ht; destruct Ht|].
    apply yields_call_mentions in Hy. destruct Hy as (k & Hk & Hm). rewrite Hn in Hk.
    destruct (called_walkable _ _ Hm) as (y & gs & Hy'). assert (f' = f) by (eapply FA; eassumption). subst f'.
    eapply tc_fun; [eapply IH; eassumption|]. eapply mentions_kid; eauto.
  - apply yields_call_mentions in Hy. destruct Hy as (k & Hk & Hm).
    destruct (called_walkable _ _ Hm) as (y & gs & Hy'). assert (f' = f) by (eapply FA; eassumption). subst f'.
    eapply tc_test; [|eapply mentions_kid; eassumption].
    eapply found_named; [|exact Hfd]. apply (history_file _ _ _ HH). exact Hb.
Qed.

Lemma candidate_runs k sp t : functions_apart E -> candidate st k sp t ->
  exists n L R, (test_named E root n t \/ test_calls E root t n) /\ yields E true L R (n_kids n) k sp.
Proof.
  intros FA HL. destruct history_of as (H & HH & _ & (X & _ & _)).
  apply X in HL. destruct HL as (b & Hb & [[Ht Hy]|(tn & Hfd & Hy)]).
  - destruct (history_nodes E root H HH b Hb) as [(_ & _ & Hn)|(f & Hf & Hn & Hd)]; [rewrite Hn in Ht; destruct Ht|].
    rewrite Hn in Hy. exists f, None, (b_done b). split; [|exact Hy]. right. eapply history_calls; eassumption.
  - exists tn, (last_statement tn), (b_done b). split; [|exact Hy]. left. eapply found_named; [|exact Hfd]. apply (history_file _ _ _ HH). exact Hb.
Qed.

Lemma within_mentions n m f : within n m -> mentions E m f -> mentions E n f.
Proof. intros Hw (c & callee & args & x & fs & H1 & H2). exists c, callee, args, x, fs. split; [eapply within_trans; eassumption|exact H2]. Qed.

Lemma history_called H : walk_history E root H -> forall f, In f (done H) -> called E root f.
Proof.
  intros HH. induction HH as [|f T H HH IH (b & Hb & Hr) Hnew HT]; intros g Hg; [destruct Hg|].
  change (done (fun_body f T (done H) :: H)) with (f :: done H) in Hg. destruct Hg as [<-|Hg]; [|auto].
  assert (Hm : exists k, In k (b_nodes b) /\ mentions E k f).
  { destruct Hr as [(t & [[_ Hy]|(tn & (_ & n & c & i & Hn & Hv & _) & Hy)])|(_ & Hy)].
    - eapply yields_call_mentions; exact Hy.
    - apply yields_call_mentions in Hy. destruct Hy as (k & Hk & Hm). exists n. split; [exact Hn|].
      eapply within_mentions; [eapply visits_within; exact Hv|]. eapply mentions_kid; eauto.
    - eapply yields_call_mentions; exact Hy. }
  destruct Hm as (k & Hk & Hm). destruct (history_nodes E root H HH b Hb) as [(_ & Hn & _)|(h & _ & Hn & Hd)]; rewrite Hn in Hk.
  - destruct Hk as [<-|[]]. apply ca_file. exact Hm.
  - eapply ca_fun; [apply IH; exact Hd|]. eapply mentions_kid; eauto.
Qed.

Lemma yields_source L R ks k sp : yields E true L R ks k sp ->
  exists n m x ctx, In n ks /\ source E m k sp /\ visits E true L R n None x ctx /\ within m x /\ within n m.
Proof.
  intros (n & x & ctx & Hn & Hv & Hc). destruct Hc as [s ctx _ Hs|s c Hck Hcons|c ctx x b p sp Hk _ Hm _ _ Hsp _].
  - exists n, s, s, ctx. split; [exact Hn|]. split; [split; [exact Hs|reflexivity]|]. split; [exact Hv|]. split; [constructor|eapply visits_within; exact Hv].
  - assert (HC : ctx_for c (Some s)) by (eapply visits_ctx; [|exact Hv]; apply ctx_none).
    destruct (HC s eq_refl) as (c0 & Hcs & Hp).
    apply performs_self in Hp; [subst c0|destruct Hck as [(y & Hy)|Hy]; [left; exists false, y; exact Hy|right; exact Hy]].
    exists n, s, c, (Some s). split; [exact Hn|]. split; [split; [eapply call_statement_stmt; exact Hcs|reflexivity]|].
    split; [exact Hv|]. split; [apply call_statement_within; exact Hcs|].
    destruct (ctx_stmt_within _ _ _ _ _ _ _ _ Hv) as [X|X]; [discriminate|exact X].
  - exists n, c, c, ctx. split; [exact Hn|]. split; [exists b, p; split; assumption|]. split; [exact Hv|].
    split; [constructor|eapply visits_within; exact Hv].
Qed.

Lemma candidate_body k sp t : candidate st k sp t ->
  exists n L R, body_of E root t n L /\ ((exists i, n_kind n = KTest t i) \/ exists x fs, v_walkable E x = n :: fs) /\
    in_file E root n /\ yields E true L R (n_kids n) k sp.
Proof.
  intros HL. destruct history_of as (H & HH & _ & (X & _ & _)).
  apply X in HL. destruct HL as (b & Hb & [[Ht Hy]|(tn & Hfd & Hy)]).
  - destruct (history_nodes E root H HH b Hb) as [(_ & _ & Hn)|(f & Hf & Hn & Hd)]; [rewrite Hn in Ht; destruct Ht|].
    rewrite Hn in Hy. exists f, None, (b_done b). split; [apply bo_fun; eapply history_reaches; eassumption|].
    destruct (history_walkable _ _ _ HH f Hd) as (x & fs & Hx). split; [right; eauto|]. split; [|exact Hy]. eapply walkable_in_file; exact Hx.
  - assert (Hnm : test_named E root tn t) by (eapply found_named; [|exact Hfd]; apply (history_file _ _ _ HH); exact Hb).
    exists tn, (last_statement tn), (b_done b). split; [apply bo_test; exact Hnm|]. split; [left; apply Hnm|]. split; [apply Hnm|exact Hy].
Qed.

Lemma arguments_closed k sp t : NoDup (ids root) -> (forall x f fs, v_walkable E x = f :: fs -> n_kind f = KGroup /\ NoDup (ids f)) ->
  candidate st k sp t -> exists n L m, body_of E root t n L /\ within n m /\ source E m k sp /\
    forall c, within n c -> seen_call c \/ is_macro c -> ignored_call E c \/ ignored_method E c -> v_visit_args E = false ->
      (forall f, ~ local_call E c f) ->
      (forall s, within n s -> call_statement s c -> removable s = true /\ forall l, L = Some l -> same E l s = false) ->
      ~ in_arguments c m.
Proof.
  intros ND NDF HL. destruct (candidate_body _ _ _ HL) as (n & L & R & Hb & Hkind & Hin & Hy).
  destruct (yields_source _ _ _ _ _ Hy) as (kk & m & x & ctx & Hk & Hsrc & Hv & Hmx & Hkm).
  exists n, L, m. split; [exact Hb|]. split; [eapply wi_kid; eassumption|]. split; [exact Hsrc|].
  intros c Hc Hseen Hig Hva Hno Hkp (a & Ham & Harg).
  assert (NDn : NoDup (flat_map ids (n_kids n))).
  { assert (NDi : NoDup (ids n)).
    { destruct Hin as [Hw|(y & f & fs & Hy' & Hw)].
      - clear - ND Hw. induction Hw as [|n k m Hk _ IH]; [exact ND|]. apply IH. destruct n as [l ks]. cbn [ids] in ND. inversion ND; subst. eapply flat_nodup_kid; eassumption.
      - destruct (NDF _ _ _ Hy') as [_ NDf]. clear - NDf Hw. induction Hw as [|n k m Hk _ IH]; [exact NDf|]. apply IH. destruct n as [l ks]. cbn [ids] in NDf. inversion NDf; subst. eapply flat_nodup_kid; eassumption. }
    destruct n as [l ks]. cbn [ids] in NDi. inversion NDi; subst. exact H2. }
  assert (Hax : within a x) by (eapply within_trans; eassumption).
  assert (Hak : In a (n_kids c)) by (destruct Harg as [[_ Ha]|(callee & args & -> & Ha)]; [exact Ha|right; exact Ha]).
  assert (Hkc : within kk c).
  { destruct Hc as [n|n k2 c Hk2 Hc].
    - exfalso. destruct Hkind as [(i & K)|(y & fs & K)]; [|destruct (NDF _ _ _ K) as [K' _]];
        destruct Hseen as [(z & Hz)|(z & Hz)]; congruence.
    - assert (k2 = kk); [|subst; exact Hc]. eapply flat_nodup_same; [exact NDn|exact Hk2|exact Hk| |].
      + apply (ids_within k2 x); [|apply id_in]. eapply within_trans; [exact Hc|]. eapply wi_kid; eassumption.
      + apply (ids_within kk x); [|apply id_in]. eapply within_trans; eassumption. }
  assert (Hpart : exists callee args, is_macro c /\ In a (n_kids c) \/ n_kids c = callee :: args /\ In a args).
  { destruct Harg as [Ha|(callee & args & Ha)]; [exists a, []; left; exact Ha|exists callee, args; right; exact Ha]. }
  destruct Hpart as (callee & args & Hpart).
  eapply (args_closed E L R kk c callee args a x ctx); try eassumption.
  - eapply flat_nodup_kid; eassumption.
  - intros f Hf. apply (Hno f). eapply local_of_calls; exact Hf.
  - intros s Hs Hcs [Hr|(l & -> & Hl)]; (destruct (Hkp s) as [K1 K2]; [eapply wi_kid; eassumption|exact Hcs|]); [congruence|].
    rewrite (K2 l eq_refl) in Hl. discriminate.
Qed.

End Result.

(** More steps do not change the result. *)
Lemma loop_more E fuel : forall st r, local_loop E fuel st = r -> r <> LOutOfFuel -> forall fuel', fuel <= fuel' -> local_loop E fuel' st = r.
Proof.
  induction fuel as [|fuel IH]; intros st r H Hr fuel' Hf.
  - cbn [local_loop] in H. destruct fuel' as [|fuel']; [exact H|]. cbn [local_loop]. destruct (next_local_function st) as [[f st']|]; [congruence|exact H].
  - destruct fuel' as [|fuel']; [lia|]. cbn [local_loop] in *. destruct (next_local_function st) as [[f st']|]; [|exact H].
    destruct (fold_kids (walk E) (n_kids f) st') as [st''|]; [|exact H]. apply IH; [exact H|exact Hr|lia].
Qed.
Lemma visit_more E fuel root r : visit_file E fuel root = r -> r <> LOutOfFuel -> forall fuel', fuel <= fuel' -> visit_file E fuel' root = r.
Proof. unfold visit_file. destruct (walk E root init_vst); [|auto]. apply loop_more. Qed.
