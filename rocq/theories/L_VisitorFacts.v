From Verif Require Import Base M_Text M_Rewriter M_Span L_Span M_Run M_Visitor S_Visitor S_Walk L_Visitor L_VisitorLive L_VisitorWalk L_VisitorDead L_VisitorLoop L_VisitorTotal.
From Coq Require Import Lia.

(** ** Paths *)
Lemma child_kid E live L R n ctx k c : child E live L R n ctx k c -> In k (n_kids n).
Proof.
  destruct 1; try assumption;
    match goal with H : n_kids _ = _ |- _ => rewrite H end; try (left; reflexivity); apply in_or_app; right; left; reflexivity.
Qed.
Lemma visits_within E live L R n ctx m c : visits E live L R n ctx m c -> within n m.
Proof. induction 1 as [|n ctx k c' m c'' Hc _ IH]; [constructor|]. eapply wi_kid; [eapply child_kid; exact Hc|exact IH]. Qed.

Lemma performs_self c c' : is_call c \/ is_macro c -> performs c c' -> c' = c.
Proof.
  intros K H. destruct H as [c' _|l b r c' K' _|l x b r c' K' _]; [reflexivity| |];
    destruct K as [(h & y & K)|(y & K)]; unfold n_kind in K; cbn [n_lab] in K; congruence.
Qed.
Lemma performs_chain n k r c : (n_kind n = KAwait \/ exists x, n_kind n = KField x) -> n_kids n = k :: r -> performs n c -> performs k c.
Proof.
  intros K Hk H. destruct H as [c' Hc|l b r' c' K' H|l x b r' c' K' H].
  - destruct Hc as [(h & y & Hc)|(y & Hc)]; destruct K as [K|(x & K)]; congruence.
  - cbn [n_kids] in Hk. inversion Hk; subst. exact H.
  - cbn [n_kids] in Hk. inversion Hk; subst. exact H.
Qed.
Lemma call_statement_stmt s c : call_statement s c -> is_stmt s.
Proof. intros (l & e & r & rm & ct & d & -> & K & _). exists rm, ct, d, true. exact K. Qed.
Lemma call_statement_kid s c e r : call_statement s c -> n_kids s = e :: r -> performs e c.
Proof. intros (l & e' & r' & rm & ct & d & -> & K & H) Hk. cbn [n_kids] in Hk. inversion Hk; subst. exact H. Qed.
Lemma call_statement_call s c : call_statement s c -> is_call c \/ is_macro c.
Proof. intros (l & e & r & rm & ct & d & _ & _ & H). induction H; auto. Qed.

(** The context is the statement whose call is being looked for. *)
Definition ctx_for (n : node) (ctx : option node) : Prop :=
  forall s, ctx = Some s -> exists c, call_statement s c /\ performs n c.

Lemma child_ctx E live L R n ctx k c : ctx_for n ctx -> child E live L R n ctx k c -> ctx_for k c.
Proof.
  intros HC H. destruct H; intros s0 Hs0; try discriminate.
  - inversion Hs0; subst s0. exists c. split; [assumption|]. eapply call_statement_kid; eauto.
  - destruct (HC s0 Hs0) as (c & H2 & H3). exists c. split; [exact H2|]. eapply performs_chain; eauto.
Qed.
Lemma visits_ctx E live L R n ctx m c : ctx_for n ctx -> visits E live L R n ctx m c -> ctx_for m c.
Proof. intros HC H. induction H as [|n ctx k c' m c'' Hc _ IH]; [exact HC|]. apply IH. eapply child_ctx; eauto. Qed.

Lemma ctx_stmt_within E live L R n ctx m s : visits E live L R n ctx m (Some s) -> ctx = Some s \/ within n s.
Proof.
  intros H. remember (Some s) as c eqn:Hc. induction H as [n ctx|n ctx k c' m c'' Hch _ IH]; [auto|].
  destruct (IH Hc) as [->|Hw]; [|right; eapply wi_kid; [eapply child_kid; exact Hch|exact Hw]].
  destruct Hch; try discriminate Hc; try discriminate.
  - match goal with H : Some _ = Some _ |- _ => inversion H; subst end. right. constructor.
  - auto.
Qed.

Lemma ctx_none n : ctx_for n None. Proof. intros s H. discriminate. Qed.

(** ** What a candidate is *)
Definition statement_candidate (E : venv) (L : option node) (R : list node) (s : node) : Prop :=
  is_stmt s /\ ~ kept E L s /\
  (((forall c, ~ call_statement s c) /\ control s = false /\ declaration s = false /\ ~ contains_stmt E true L R s) \/
   (exists c, call_statement s c /\ ~ ignored_call E c /\ forall f, ~ calls_local E R c f)).

Lemma yields_statement E L R ks sp : yields E true L R ks Statement sp ->
  exists k s, In k ks /\ within k s /\ n_span s = sp /\ v_skip E sp = false /\ statement_candidate E L R s.
Proof.
  intros (k & m & ctx & Hk & Hv & Hc). remember Statement as kk eqn:HK.
  destruct Hc as [s ctx _ Hs Hnc Hnk Hct Hd Hcs Hsk|s c Hck Hcons Hni Hsk|c ctx x b p sp]; [| |discriminate].
  - exists k, s. split; [exact Hk|]. split; [eapply visits_within; exact Hv|]. split; [reflexivity|]. split; [exact Hsk|].
    split; [exact Hs|]. split; [exact Hnk|]. left. auto.
  - assert (HC : ctx_for c (Some s)) by (eapply visits_ctx; [|exact Hv]; intros s0 H; discriminate).
    destruct (HC s eq_refl) as (c0 & Hcs & Hp).
    assert (Hcm : is_call c \/ is_macro c) by (destruct Hck as [(x & Hx)|Hx]; [left; exists false, x; exact Hx|right; exact Hx]).
    apply performs_self in Hp; [|exact Hcm]. subst c0.
    destruct Hcons as (_ & Hl & Hkp).
    exists k, s. split; [exact Hk|]. split; [|split; [reflexivity|split; [exact Hsk|]]].
    + destruct (ctx_stmt_within _ _ _ _ _ _ _ _ Hv) as [H|H]; [discriminate|exact H].
    + split; [eapply call_statement_stmt; exact Hcs|]. split; [apply Hkp; reflexivity|]. right. exists c. auto.
Qed.

Definition method_candidate (E : venv) (c : node) (sp : span) : Prop :=
  (exists x, n_kind c = KCall false x) /\ ~ ignored_call E c /\ ~ ignored_method E c /\
  exists b p, method_call c b p /\ method_span E (n_span c) (n_span b) = Some sp.

Lemma yields_method E L R ks sp : yields E true L R ks MethodCall sp ->
  exists k c ctx, In k ks /\ visits E true L R k None c ctx /\ v_skip E sp = false /\ method_candidate E c sp /\
    considered E true L R c ctx.
Proof.
  intros (k & m & ctx & Hk & Hv & Hc). remember MethodCall as kk eqn:HK.
  destruct Hc as [| |c ctx x b p sp]; try discriminate.
  exists k, c, ctx. split; [exact Hk|]. split; [exact Hv|]. split; [assumption|]. split; [|assumption].
  split; [eauto|]. split; [assumption|]. split; [assumption|]. eauto.
Qed.

(** ** Where candidates come from *)
Section Origin.
Context (E : venv) (root : node) (H : list body) (HH : walk_history E root H).

Lemma history_nodes : forall b, In b H ->
  (b_fun b = None /\ b_nodes b = [root] /\ b_tests b = []) \/ exists f, b_fun b = Some f /\ b_nodes b = n_kids f /\ In f (done H).
Proof.
  induction HH as [|f T H0 H1 IH _ _ _]; intros b [<-|Hb].
  - left. auto.
  - destruct Hb.
  - right. exists f. split; [reflexivity|]. split; [reflexivity|left; reflexivity].
  - destruct (IH H1 b Hb) as [X|(g & X1 & X2 & X3)]; [left; exact X|right; exists g; split; [exact X1|split; [exact X2|right; exact X3]]].
Qed.

Lemma yields_call_mentions live L R ks f : yields_call E live L R ks f ->
  exists k, In k ks /\ mentions E k f.
Proof.
  intros (k & m & c & Hk & Hv & _ & Hc & _ & callee & args & x & fs & H1 & H2 & H3).
  exists k. split; [exact Hk|]. exists m, callee, args, x, fs. repeat split; auto. eapply visits_within; exact Hv.
Qed.
Lemma mentions_kid n k f : In k (n_kids n) -> mentions E k f -> mentions E n f.
Proof.
  intros Hk (c & callee & args & x & fs & H1 & H2). exists c, callee, args, x, fs. split; [eapply wi_kid; eauto|exact H2].
Qed.
End Origin.

Lemma in_file_kid E root n m : in_file E root n -> within n m -> in_file E root m.
Proof.
  intros [Hw|(x & f & fs & Hx & Hw)] H; [left|right; exists x, f, fs; split; [exact Hx|]]; eapply within_trans; eauto.
Qed.

Lemma found_named E root b tn t : 
  (forall k, In k (b_nodes b) -> in_file E root k) -> finds_test E b tn t -> test_named E root tn t.
Proof.
  intros Hin (_ & n & c & i & Hn & Hv & K & Hi). split; [|split; [eauto|exact Hi]].
  eapply in_file_kid; [apply Hin; exact Hn|]. eapply visits_within; exact Hv.
Qed.

(** Every walked function is a local function; every body's nodes are in the file. *)
Lemma history_walkable E root H : walk_history E root H -> forall f, In f (done H) -> exists x fs, v_walkable E x = f :: fs.
Proof.
  intros HH. induction HH as [|f T H HH IH (b & Hb & Hr) Hnew HT]; intros g Hg; [destruct Hg|].
  destruct Hg as [<-|Hg]; [|auto]. eapply reaches_walkable; exact Hr.
Qed.
Lemma history_file E root H : walk_history E root H -> forall b, In b H -> forall k, In k (b_nodes b) -> in_file E root k.
Proof.
  intros HH b Hb k Hk. destruct (history_nodes E root H HH b Hb) as [(_ & Hn & _)|(f & _ & Hn & Hd)]; rewrite Hn in Hk.
  - destruct Hk as [<-|[]]. left. constructor.
  - destruct (history_walkable _ _ _ HH f Hd) as (x & fs & Hx). right. exists x, f, fs. split; [exact Hx|]. eapply wi_kid; [exact Hk|constructor].
Qed.

Lemma history_reaches E root H : walk_history E root H ->
  forall b f, In b H -> b_fun b = Some f -> forall t, In t (b_tests b) -> test_reaches E root t f.
Proof.
  intros HH. induction HH as [|f T H HH IH Hr Hnew HT]; intros b g [<-|Hb] Hf t Ht; try (destruct Hb; fail); [discriminate| |eauto].
  cbn [fun_body b_fun b_tests] in *. inversion Hf; subst g. apply HT in Ht. destruct Ht as (b & f' & Hb & Hc & Hs).
  destruct Hc as [[Ht Hy]|(tn & Hfd & Hy)].
  - destruct (history_nodes E root H HH b Hb) as [(_ & _ & Hn)|(h & Hh & Hn & _)]; [rewrite Hn in Ht; destruct Ht|].
    apply yields_call_mentions in Hy. destruct Hy as (k & Hk & Hm). rewrite Hn in Hk.
    eapply tr_fun; [eapply IH; eassumption| |exact Hs]. eapply mentions_kid; eauto.
  - apply yields_call_mentions in Hy. destruct Hy as (k & Hk & Hm).
    eapply tr_test; [|eapply mentions_kid; eassumption|exact Hs].
    eapply found_named; [|exact Hfd]. apply (history_file _ _ _ HH). exact Hb.
Qed.

(** Every candidate comes from a body of its test. *)
Lemma candidate_origin E root fuel st k sp t :
  well_formed E root = true ->
  (forall x g fs, v_walkable E x = g :: fs -> well_formed E g = true) ->
  visit_file E fuel root = LDone st -> lists (s_maps st) k sp t ->
  exists n L R, body_of E root t n L /\ yields E true L R (n_kids n) k sp.
Proof.
  intros W WF HV HL. destruct (visit_explained E fuel root st W WF HV) as (H & HH & _ & (X & _ & _)).
  apply X in HL. destruct HL as (b & Hb & [[Ht Hy]|(tn & Hfd & Hy)]).
  - destruct (history_nodes E root H HH b Hb) as [(_ & _ & Hn)|(f & Hf & Hn & _)]; [rewrite Hn in Ht; destruct Ht|].
    rewrite Hn in Hy. exists f, None, (b_done b). split; [|exact Hy]. apply bo_fun. eapply history_reaches; eassumption.
  - exists tn, (last_statement tn), (b_done b). split; [|exact Hy]. apply bo_test.
    eapply found_named; [|exact Hfd]. apply (history_file _ _ _ HH). exact Hb.
Qed.

(** ** Completeness *)
Lemma open_visits E live L R n m : open_path E n m -> forall ctx, exists ctx', visits E live L R n ctx m ctx'.
Proof.
  induction 1 as [n|n k m K Hk _ IH|n k r m (h & x & Kc) Sw Hk _ IH]; intros ctx; [exists ctx; constructor| |].
  2:{ assert (Hin : In k (n_kids n)) by (rewrite Hk; left; reflexivity). destruct (IH None) as (c' & Hv). exists c'. eapply vi_step; [|exact Hv].
      destruct h; [eapply ch_hidden; eauto|eapply ch_callee; eauto]. }
  assert (Hc : exists c, child E live L R n ctx k c).
  { apply in_split in Hk. destruct Hk as (l1 & l2 & Hk). destruct K as [Hs|[K|[[Kc Ki]|[He K]]]].
    - destruct (statement_is_call n) eqn:Hsc.
      + apply statement_is_call_iff in Hsc. destruct Hsc as (c & Hsc). destruct l1 as [|a l1].
        * exists (Some n). eapply ch_call_stmt; eauto.
        * exists None. eapply ch_stmt; [exact Hs|exact Hk|left; discriminate].
      + exists None. eapply ch_stmt; [exact Hs|exact Hk|right; apply statement_is_call_false; exact Hsc].
    - exists None. eapply ch_group; [exact K|rewrite Hk; apply in_or_app; right; left; reflexivity].
    - assert (Hin : In k (n_kids n)) by (rewrite Hk; apply in_or_app; right; left; reflexivity).
      assert (Hncl : ~ closed E live L R n ctx).
      { intros (_ & Hig & Hva). destruct Ki as [Ki|[K1 K2]]; [congruence|]. destruct Hig; auto. }
      exists None. destruct Kc as [(h & x & Kc)|(x & Kc)]; [destruct h; [eapply ch_hidden|eapply ch_open]; eauto|eapply ch_macro; eauto].
    - assert (Hin : In k (n_kids n)) by (rewrite Hk; apply in_or_app; right; left; reflexivity).
      destruct K as [K|[K|K]].
      + exists None. eapply ch_expr; eauto.
      + exists None. eapply ch_expr; eauto.
      + destruct l1 as [|a l1]; [exists ctx; eapply ch_head; eauto|exists None; eapply ch_tail; eauto; discriminate]. }
  destruct Hc as (c & Hc). destruct (IH c) as (c' & Hv). exists c'. eapply vi_step; eauto.
Qed.

Lemma test_visits E R n m : test_path E n m -> forall ctx, exists ctx', visits E false None R n ctx m ctx'.
Proof.
  induction 1 as [n|n k m K Hk _ IH]; intros ctx; [exists ctx; constructor|].
  assert (Hc : exists c, child E false None R n ctx k c).
  { destruct K as [Hs|[(h & x & K)|[(x & K)|K]]].
    - pose proof (open_visits E false None R n k (op_kid E n k k (or_introl Hs) Hk (op_here E k)) ctx) as _.
      apply in_split in Hk. destruct Hk as (l1 & l2 & Hk).
      destruct (statement_is_call n) eqn:Hsc.
      + apply statement_is_call_iff in Hsc. destruct Hsc as (c & Hsc). destruct l1 as [|a l1].
        * exists (Some n). eapply ch_call_stmt; eauto.
        * exists None. eapply ch_stmt; [exact Hs|exact Hk|left; discriminate].
      + exists None. eapply ch_stmt; [exact Hs|exact Hk|right; apply statement_is_call_false; exact Hsc].
    - exists None. destruct h; [eapply ch_hidden; eauto|eapply ch_open; eauto; apply dead_open].
    - exists None. eapply ch_macro; eauto. apply dead_open.
    - apply in_split in Hk. destruct Hk as (l1 & l2 & Hk).
      assert (Hin : In k (n_kids n)) by (rewrite Hk; apply in_or_app; right; left; reflexivity).
      destruct K as [K|[He [K|[K|K]]]].
      + exists None. eapply ch_group; eauto.
      + exists None. eapply ch_expr; eauto.
      + exists None. eapply ch_expr; eauto.
      + destruct l1 as [|a l1]; [exists ctx; eapply ch_head; eauto|exists None; eapply ch_tail; eauto; discriminate]. }
  destruct Hc as (c & Hc). destruct (IH c) as (c' & Hv). exists c'. eapply vi_step; eauto.
Qed.

Lemma file_test_found E root tn t : file_test E root tn t -> finds_test E (file_body root) tn t.
Proof.
  intros (Hp & (i & K) & Hi). split; [reflexivity|]. destruct (test_visits E [] _ _ Hp None) as (c & Hv).
  exists root, c, i. split; [left; reflexivity|auto].
Qed.

(** Walking the statement reaches its call. *)
Lemma head_visits E live L R s e c : performs e c -> head_ok E e = true -> visits E live L R e (Some s) c (Some s).
Proof.
  induction 1 as [c Hc|l b r c K Hp IH|l x b r c K Hp IH]; intros Ho; [constructor| |];
    cbn [head_ok] in Ho; rewrite K in Ho;
    (assert (Hb : head_is_call b = true) by (apply head_is_call_iff; eauto));
    rewrite Hb in Ho; cbn [negb orb] in Ho; apply Bool.andb_true_iff in Ho; destruct Ho as [Ho1 Ho2];
    (eapply vi_step; [eapply ch_head; [|exact Ho1|reflexivity]|apply IH; exact Ho2]); [left; exact K|right; exists x; exact K].
Qed.
Lemma call_not_hidden E s c : well_formed E s = true -> call_statement s c -> (exists x, n_kind c = KCall false x) \/ is_macro c.
Proof.
  intros W (l & e & r & rm & ct & d & -> & K & Hp). cbn [well_formed] in W. rewrite K in W. apply Bool.andb_true_iff in W. destruct W as [Ho _].
  revert Ho. induction Hp as [c Hc|l0 b r0 c K0 Hp IH|l0 x b r0 c K0 Hp IH]; intros Ho.
  - destruct Hc as [(h & x & Hc)|Hc]; [|right; exact Hc]. left. exists x. destruct c as [lc kc]. unfold n_kind in Hc; cbn [n_lab] in Hc.
    cbn [head_ok] in Ho. rewrite Hc in Ho. unfold n_kind; cbn [n_lab]. rewrite Hc. destruct h; [discriminate|reflexivity].
  - apply IH. cbn [head_ok] in Ho. rewrite K0 in Ho.
    assert (Hb : head_is_call b = true) by (apply head_is_call_iff; eauto). rewrite Hb in Ho. cbn [negb orb] in Ho. apply Bool.andb_true_iff in Ho. apply Ho.
  - apply IH. cbn [head_ok] in Ho. rewrite K0 in Ho.
    assert (Hb : head_is_call b = true) by (apply head_is_call_iff; eauto). rewrite Hb in Ho. cbn [negb orb] in Ho. apply Bool.andb_true_iff in Ho. apply Ho.
Qed.
Lemma wf_within E n m : well_formed E n = true -> within n m -> well_formed E m = true.
Proof. intros W Hw. induction Hw as [|n k m Hk _ IH]; [exact W|]. apply IH. destruct n as [l ks]. eapply wf_kid; [exact W|exact Hk]. Qed.

Lemma open_within E n m : open_path E n m -> within n m.
Proof. induction 1 as [| |n k r m Hc Hs Hk _ IH]; [constructor|eapply wi_kid; eauto|]. eapply wi_kid; [rewrite Hk; left; reflexivity|exact IH]. Qed.
Lemma test_within E n m : test_path E n m -> within n m.
Proof. induction 1; [constructor|eapply wi_kid; eauto]. Qed.

Lemma visits_trans E live L R n ctx m c m' c' : visits E live L R n ctx m c -> visits E live L R m c m' c' -> visits E live L R n ctx m' c'.
Proof. induction 1; auto. intros. eapply vi_step; eauto. Qed.

Lemma statement_yields E L R n k s : well_formed E s = true -> In k (n_kids n) -> open_path E k s ->
  v_skip E (n_span s) = false -> statement_candidate E L R s -> yields E true L R (n_kids n) Statement (n_span s).
Proof.
  intros W Hk Ho Hsk (Hs & Hkp & Hcase). destruct (open_visits E true L R k s Ho None) as (c & Hv).
  destruct Hcase as [(Hnc & Hct & Hd & Hcs)|(cc & Hcs & Hni & Hno)].
  - exists k, s, c. split; [exact Hk|]. split; [exact Hv|]. apply cb_leaf; auto.
  - exists k, cc, (Some s). split; [exact Hk|]. split.
    + eapply visits_trans; [exact Hv|].
      pose proof Hcs as (l & e & r & rm & ct & d & -> & K & Hp).
      eapply vi_step; [eapply ch_call_stmt; [reflexivity|exact Hcs]|]. apply head_visits; [exact Hp|].
      cbn [well_formed] in W. rewrite K in W. apply Bool.andb_true_iff in W. apply W.
    + apply cb_call; auto; [eapply call_not_hidden; eassumption|]. split; [reflexivity|]. split; [exact Hno|].
      intros s0 H0. inversion H0; subst. exact Hkp.
Qed.

Lemma no_stmt_below E L R s : is_stmt s -> (forall k m, In k (n_kids s) -> within k m -> ~ is_stmt m) -> ~ contains_stmt E true L R s.
Proof.
  intros _ H (k & c & m & c' & Hc & Hv & Hm). exact (H k m (child_kid _ _ _ _ _ _ _ _ Hc) (visits_within _ _ _ _ _ _ _ _ Hv) Hm).
Qed.

(** ** Arguments of ignored calls *)
Lemma ids_within n m : within n m -> incl (ids m) (ids n).
Proof.
  induction 1 as [n|n k m Hk _ IH]; [intros x Hx; exact Hx|]. intros x Hx. apply IH in Hx. destruct n as [l ks]. cbn [n_kids] in Hk.
  cbn [ids]. right. apply in_flat_map. eauto.
Qed.
Lemma id_in n : In (n_id n) (ids n).
Proof. destruct n as [l ks]. left. reflexivity. Qed.
Lemma nodup_app_parts {A} (a b : list A) : NoDup (a ++ b) -> NoDup a /\ NoDup b /\ forall x, In x a -> ~ In x b.
Proof.
  induction a as [|y a IH]; cbn [app]; intros H.
  - split; [constructor|]. split; [exact H|intros x []].
  - inversion H as [|? ? Hn Hd]; subst. destruct (IH Hd) as (H1 & H2 & H3).
    split; [constructor; [intros Hy; apply Hn, in_or_app; auto|exact H1]|]. split; [exact H2|].
    intros x [<-|Hx]; [intros Hb; apply Hn, in_or_app; auto|auto].
Qed.
Lemma flat_nodup_same ks k1 k2 x : NoDup (flat_map ids ks) -> In k1 ks -> In k2 ks -> In x (ids k1) -> In x (ids k2) -> k1 = k2.
Proof.
  induction ks as [|k r IH]; [intros _ []|]. cbn [flat_map]. intros H. apply nodup_app_parts in H. destruct H as (_ & H2 & H3).
  intros [<-|H1] [<-|H1'] Hx Hx'; auto.
  - exfalso. apply (H3 x Hx). apply in_flat_map. eauto.
  - exfalso. apply (H3 x Hx'). apply in_flat_map. eauto.
Qed.
Lemma flat_nodup_kid ks k : NoDup (flat_map ids ks) -> In k ks -> NoDup (ids k).
Proof.
  induction ks as [|x r IH]; [intros _ []|]. cbn [flat_map]. intros H. apply nodup_app_parts in H. destruct H as (H1 & H2 & _).
  intros [<-|Hk]; auto.
Qed.
Lemma nodup_args callee args : NoDup (flat_map ids (callee :: args)) -> ~ In callee args.
Proof.
  cbn [flat_map]. intros H Hin. apply nodup_app_parts in H. destruct H as (_ & _ & H). apply (H (n_id callee) (id_in _)).
  apply in_flat_map. exists callee. split; [exact Hin|apply id_in].
Qed.

(** A visited node inside [c] is reached through a visit of [c]. *)
Lemma visits_through E live L R n ctx m cm c k :
  NoDup (ids n) -> visits E live L R n ctx m cm -> within n c -> In k (n_kids c) -> within k m ->
  exists cc k' ck, visits E live L R n ctx c cc /\ child E live L R c cc k' ck /\ visits E live L R k' ck m cm /\ k' = k.
Proof.
  intros ND Hv. revert ND. induction Hv as [n ctx|n ctx k1 c1 m cm Hc Hv IH]; intros ND Hwc Hk Hwm.
  - (* m = n is strictly inside itself: impossible *)
    exfalso.
    assert (Hid : forall a b, within a b -> nsize b <= nsize a).
    { intros a b Hab. induction Hab as [|a0 k0 b0 Hk0 _ IH0]; [lia|]. destruct a0 as [l0 ks0]. pose proof (nsize_kid l0 ks0 k0 Hk0). lia. }
    pose proof (Hid _ _ Hwc). pose proof (Hid _ _ Hwm). destruct c as [lc kc]. pose proof (nsize_kid lc kc k Hk). lia.
  - pose proof (child_kid _ _ _ _ _ _ _ _ Hc) as Hk1. destruct n as [l ks]. cbn [n_kids] in Hk1. cbn [ids] in ND. inversion ND as [|? ? Hni NDf]; subst.
    assert (Hm1 : In (n_id m) (ids k1)) by (apply (ids_within _ _ (visits_within _ _ _ _ _ _ _ _ Hv)), id_in).
    remember (Node l ks) as nn eqn:Hnn. destruct Hwc as [nn|nn k2 c Hk2 Hwc]; subst nn.
    + cbn [n_kids] in Hk. assert (k1 = k).
      { eapply flat_nodup_same; [exact NDf|exact Hk1|exact Hk|exact Hm1|]. apply (ids_within _ _ Hwm), id_in. }
      subst k1. exists ctx, k, c1. repeat split; auto. constructor.
    + cbn [n_kids] in Hk2. assert (k1 = k2).
      { eapply flat_nodup_same; [exact NDf|exact Hk1|exact Hk2|exact Hm1|].
        apply (ids_within k2 m); [|apply id_in]. eapply within_trans; [exact Hwc|]. eapply wi_kid; eauto. }
      subst k2. destruct IH as (cc & k' & ck & V1 & V2 & V3 & V4); auto; [eapply flat_nodup_kid; eauto|].
      exists cc, k', ck. split; [eapply vi_step; eauto|auto].
Qed.

(** Nothing in the arguments of a considered ignored call is visited. *)
Lemma args_closed E L R n c callee args a m cm :
  NoDup (ids n) -> within n c -> (exists x, n_kind c = KCall false x) \/ is_macro c ->
  ignored_call E c \/ ignored_method E c -> v_visit_args E = false ->
  (forall f, ~ calls_local E R c f) -> (forall s, within n s -> call_statement s c -> ~ kept E L s) ->
  (is_macro c /\ In a (n_kids c) \/ n_kids c = callee :: args /\ In a args) -> within a m ->
  ~ visits E true L R n None m cm.
Proof.
  intros ND Hwc Hck Hig Hva Hno Hks Ha Hwm Hv.
  assert (Hak : In a (n_kids c)) by (destruct Ha as [[_ Ha]|[-> Ha]]; [exact Ha|right; exact Ha]).
  destruct (visits_through E true L R n None m cm c a ND Hv Hwc Hak Hwm) as (cc & k' & ck & V1 & V2 & _ & ->).
  assert (Hcl : closed E true L R c cc).
  { split; [|split; [exact Hig|exact Hva]]. split; [reflexivity|]. split; [exact Hno|]. intros s ->.
    assert (HC : ctx_for c (Some s)) by (eapply visits_ctx; [|exact V1]; apply ctx_none).
    destruct (HC s eq_refl) as (c0 & Hcs & Hp). apply performs_self in Hp; [subst c0; apply Hks; [|exact Hcs]; destruct (ctx_stmt_within _ _ _ _ _ _ _ _ V1) as [X|X]; [discriminate|exact X]|].
    destruct Hck as [(x & Hx)|Hx]; [left; exists false, x; exact Hx|right; exact Hx]. }
  destruct Hck as [(x & K)|(x & K)].
  - destruct Ha as [[(y & K') _]|[Hk Ha]]; [congruence|].
    assert (Hna : ~ In callee args).
    { apply nodup_args. rewrite <- Hk. destruct c as [l ks]. cbn [n_kids].
      assert (NDc : NoDup (ids (Node l ks))).
      { clear -ND Hwc. induction Hwc as [|n k m Hk _ IH]; [exact ND|]. apply IH. destruct n as [l0 ks0]. cbn [ids] in ND. inversion ND; subst. eapply flat_nodup_kid; eauto. }
      cbn [ids] in NDc. inversion NDc; assumption. }
    inversion V2; subst; try congruence;
      repeat match goal with
      | Hx : is_stmt _ |- _ => destruct Hx as (? & ? & ? & ? & Hx); congruence
      | Hx : call_statement c _ |- _ => apply call_statement_stmt in Hx; destruct Hx as (? & ? & ? & ? & Hx); congruence
      | Hx : _ \/ exists x, n_kind _ = _ |- _ => destruct Hx as [Hx|(? & Hx)]; congruence
      | Hx : ~ closed _ _ _ _ _ _ |- _ => exact (Hx Hcl)
      end.
  - inversion V2; subst; try congruence;
      repeat match goal with
      | Hx : is_stmt _ |- _ => destruct Hx as (? & ? & ? & ? & Hx); congruence
      | Hx : call_statement c _ |- _ => apply call_statement_stmt in Hx; destruct Hx as (? & ? & ? & ? & Hx); congruence
      | Hx : _ \/ exists x, n_kind _ = _ |- _ => destruct Hx as [Hx|(? & Hx)]; congruence
      | Hx : ~ closed _ _ _ _ _ _ |- _ => exact (Hx Hcl)
      end.
Qed.
