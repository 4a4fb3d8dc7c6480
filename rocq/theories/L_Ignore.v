(** The walk with more calls ignored (for C85). *)
From Verif Require Import Base M_Text M_Rewriter M_Span M_Run M_Visitor S_Visitor S_Walk S_Candidates L_Visitor L_VisitorFacts L_Candidates P_Visitor S_Ignore.
From Coq Require Import List Lia.
Local Open Scope list_scope.

Lemma in_trans a b c : within a b -> within b c -> within a c.
Proof. induction 1 as [|n k m I _ IH]; [auto|]. intros H. econstructor; eauto. Qed.
Lemma nodes_within n m : In m (nodes n) -> within n m.
Proof.
  remember (nsize n) as k eqn:E. assert (L : (nsize n <= k)%nat) by lia. clear E. revert n L. induction k as [|k IH]; intros [l ks] L H.
  - exfalso. cbn [nsize] in L. lia.
  - cbn [nodes] in H. destruct H as [<-|H]; [constructor|]. apply in_flat_map in H as (q & I & J). eapply wi_kid; [exact I|]. apply IH; [|exact J]. pose proof (nsize_kid l ks q I). lia.
Qed.
Lemma nodes_kids n m : strictly_within n m <-> In m (flat_map nodes (n_kids n)).
Proof.
  unfold strictly_within. rewrite in_flat_map. split; intros (k & I & W); exists k; (split; [exact I|]); [apply within_nodes, W|apply nodes_within, W].
Qed.
Lemma exists_dec {A} (P : A -> Prop) (l : list A) : (forall x, In x l -> P x \/ ~ P x) -> (exists x, In x l /\ P x) \/ ~ exists x, In x l /\ P x.
Proof.
  induction l as [|x l IH]; intros D; [right; intros (x & [] & _)|]. destruct (D x (or_introl eq_refl)) as [Px|N]; [left; exists x; split; [left; reflexivity|exact Px]|].
  destruct IH as [(y & I & Py)|M]; [intros y I; apply D; right; exact I|left; exists y; split; [right; exact I|exact Py]|].
  right. intros (y & [<-|I] & Py); [exact (N Py)|]. apply M. eauto.
Qed.

(** ** Ignored calls are decidable *)
Lemma root_ignored_dec E : forall k c, (nsize c < k)%nat -> well_formed E c = true -> root_ignored E c \/ ~ root_ignored E c.
Proof.
  induction k as [|k IH]; [lia|]. intros c L W. 
  assert (D : is_call c \/ ~ is_call c) by (unfold is_call; destruct (n_kind c); (left; eauto; fail) || (right; intros (h & x & K); discriminate)).
  destruct D as [D|D].
  - destruct (callee_is_named_field c) as [[x b0]|] eqn:N.
    + destruct (named_field_some E c x b0 D W N) as (b & p & _ & MC & SZ & Wb). rewrite (root_ignored_method E c b _ MC).
      unfold base_ignored. remember (p ++ [x]) as pp eqn:Epp. clear Epp.
      assert (A1 : (exists y, n_kind b = KIdent y /\ path_ignored E y pp) \/ ~ exists y, n_kind b = KIdent y /\ path_ignored E y pp).
      { destruct (n_kind b) as [| | | | |y| | | ] eqn:K; try (right; intros (z & J & _); discriminate).
        all: try (unfold path_ignored; destruct (v_disamb E), (v_ign_fun E (y ++ [46%N] ++ dotted pp)) eqn:F1, (v_ign_met E (dotted pp)) eqn:F2;
             (left; exists y; split; [reflexivity|]; auto; fail) || (right; intros (z & J & Q); injection J as <-; rewrite ?F1, ?F2 in Q; intuition congruence)). }
      assert (A2 : (exists y, n_kind b = KMacro y /\ v_ign_mac E y = true) \/ ~ exists y, n_kind b = KMacro y /\ v_ign_mac E y = true).
      { destruct (n_kind b) as [| | | | |y| | | ] eqn:K; try (right; intros (z & J & _); discriminate).
        all: try (destruct (v_ign_mac E name) eqn:F; [left; eauto|right; intros (z & J & Q); congruence]).
        all: destruct (v_ign_mac E y) eqn:F; [left; eauto|right; intros (z & J & Q); congruence]. }
      assert (A3 : (is_call b /\ root_ignored E b) \/ ~ (is_call b /\ root_ignored E b)).
      { destruct (IH b) as [R|R]; [lia|exact Wb| |right; tauto]. unfold is_call. destruct (n_kind b); (left; split; [eauto|exact R]; fail) || (right; intros ((h & z & J) & _); discriminate). }
      tauto.
    + rewrite root_ignored_plain by (apply named_field_none, N). destruct (ignored_function E (call_name c)); auto.
  - right. intros R. destruct R as [c f _ H _|c b p x [H _]|c b p x [H _]|c b p [H _]]; try (apply D, H). apply D. unfold call_name in H. unfold is_call. destruct (n_kind c); try discriminate. eauto.
Qed.

Lemma is_call_dec c : is_call c \/ ~ is_call c.
Proof. unfold is_call. destruct (n_kind c); (left; eauto; fail) || (right; intros (h & x & K); discriminate). Qed.
Lemma method_call_dec E c : well_formed E c = true -> (exists b p, method_call c b p) \/ forall b p, ~ method_call c b p.
Proof.
  intros W. destruct (is_call_dec c) as [D|D]; [|right; intros b p [H _]; apply D, H].
  destruct (callee_is_named_field c) as [[x b0]|] eqn:N; [|right; apply named_field_none, N].
  destruct (named_field_some E c x b0 D W N) as (b & p & _ & MC & _). eauto.
Qed.
Lemma ignored_method_dec E c : well_formed E c = true -> ignored_method E c \/ ~ ignored_method E c.
Proof.
  intros W. destruct (method_call_dec E c W) as [(b & p & MC)|N]; [|right; intros (b & p & H & _); exact (N _ _ H)].
  destruct (v_ign_met E (dotted p)) eqn:F; [left; exists b, p; auto|right]. intros (b' & p' & H & F'). destruct (method_call_det _ _ _ _ _ MC H); subst. congruence.
Qed.
Lemma ignored_call_dec E c : well_formed E c = true -> ignored_call E c \/ ~ ignored_call E c.
Proof.
  intros W. unfold ignored_call. 
  assert (A : (exists x, n_kind c = KMacro x /\ v_ign_mac E x = true) \/ ~ exists x, n_kind c = KMacro x /\ v_ign_mac E x = true).
  { destruct (n_kind c) eqn:K; try (right; intros (z & J & _); discriminate).
    destruct (v_ign_mac E name) eqn:F; [left; eauto|right; intros (z & J & Q); congruence]. }
  assert (B : is_call c \/ ~ is_call c) by apply is_call_dec.
  assert (C : root_ignored E c \/ ~ root_ignored E c) by (apply (root_ignored_dec E (S (nsize c))); [lia|exact W]).
  assert (D : (exists b p, method_call c b p /\ ~ is_call b /\ v_ign_met E (dotted p) = true) \/ ~ exists b p, method_call c b p /\ ~ is_call b /\ v_ign_met E (dotted p) = true).
  { destruct (method_call_dec E c W) as [(b & p & MC)|N]; [|right; intros (b & p & H & _); exact (N _ _ H)].
    destruct (is_call_dec b) as [Cb|Cb]; [right; intros (b' & p' & H & Q & _); destruct (method_call_det _ _ _ _ _ MC H); subst; auto|].
    destruct (v_ign_met E (dotted p)) eqn:F; [left; exists b, p; auto|right]. intros (b' & p' & H & _ & F'). destruct (method_call_det _ _ _ _ _ MC H); subst. congruence. }
  tauto.
Qed.

Lemma well_formed_fw E E' : v_fw E' = v_fw E -> forall n, well_formed E n = true -> well_formed E' n = true.
Proof.
  intros F.
  assert (H0 : forall e, head_ok E' e = head_ok E e).
  { fix IH 1. intros [l ks]. cbn [head_ok]. rewrite F. destruct (l_kind l); try reflexivity; destruct ks as [|b r]; try reflexivity; rewrite IH; reflexivity. }
  fix IH 1. intros [l ks] W. cbn [well_formed] in *. apply andb_true_iff in W as [W1 W2]. apply andb_true_iff. split.
  - destruct (l_kind l) as [? ? ? [|]| | | | | | | |]; try exact W1. destruct ks; [exact W1|]. rewrite H0. exact W1.
  - clear W1. induction ks as [|k ks IHks]; [reflexivity|]. cbn [forallb] in *. apply andb_true_iff in W2 as [A B]. apply andb_true_iff. split; [apply IH, A|apply IHks, B].
Qed.

Section More.
Context (E E' : venv) (IM : ignores_more E E').

Lemma same_more a b : same E' a b = same E a b.
Proof. unfold same. rewrite (im_framework _ _ IM). reflexivity. Qed.
Lemma no_local_call R c f : ~ calls_local E R c f.
Proof. intros (_ & _ & cl & args & x & fs & _ & _ & W). rewrite (proj1 (im_no_walkable _ _ IM x)) in W. discriminate. Qed.
Lemma no_local_call' R c f : ~ calls_local E' R c f.
Proof. intros (_ & _ & cl & args & x & fs & _ & _ & W). rewrite (proj2 (im_no_walkable _ _ IM x)) in W. discriminate. Qed.
Lemma kept_more L s : kept E' L s <-> kept E L s.
Proof. unfold kept. split; (intros [H|(l & E1 & H)]; [left; exact H|right; exists l; split; [exact E1|]]); [rewrite same_more in H; exact H|rewrite same_more; exact H]. Qed.
Lemma considered_more live L R c ctx : considered E' live L R c ctx <-> considered E live L R c ctx.
Proof.
  unfold considered. split; intros (A & _ & B); (split; [exact A|]); (split; [intros f; apply no_local_call || apply no_local_call'|]); intros s Es K; apply (B s Es); apply kept_more; exact K.
Qed.
Lemma root_ignored_more c : root_ignored E c -> root_ignored E' c.
Proof.
  induction 1 as [c f N H I|c b p x M K I|c b p x M K I|c b p M Cb _ IH].
  - eapply ri_function; eauto. apply (im_functions _ _ IM), I.
  - eapply ri_path; eauto. rewrite (im_disambiguation _ _ IM). destruct (v_disamb E).
    + destruct I as [I|I]; [left; apply (im_functions _ _ IM), I|right; apply (im_methods _ _ IM), I].
    + apply (im_functions _ _ IM), I.
    + apply (im_methods _ _ IM), I.
  - eapply ri_macro; eauto. apply (im_macros _ _ IM), I.
  - eapply ri_chain; eauto.
Qed.
Lemma ignored_method_more c : ignored_method E c -> ignored_method E' c.
Proof. intros (b & p & M & I). exists b, p. split; [exact M|apply (im_methods _ _ IM), I]. Qed.
Lemma ignored_call_more c : ignored_call E c -> ignored_call E' c.
Proof.
  intros [(x & K & I)|[H [I|(b & p & M & N & I)]]].
  - left. exists x. split; [exact K|apply (im_macros _ _ IM), I].
  - right. split; [exact H|]. left. apply root_ignored_more, I.
  - right. split; [exact H|]. right. exists b, p. repeat split; try apply M; try exact N. apply (im_methods _ _ IM), I.
Qed.
Lemma closed_more live L R c ctx : closed E live L R c ctx -> closed E' live L R c ctx.
Proof.
  intros (A & B & C). split; [apply considered_more, A|]. split; [destruct B as [B|B]; [left; apply ignored_call_more, B|right; apply ignored_method_more, B]|].
  rewrite (im_arguments _ _ IM). exact C.
Qed.
Lemma child_more live L R n ctx k ctx' : child E' live L R n ctx k ctx' -> child E live L R n ctx k ctx'.
Proof.
  intros H. destruct H; rewrite ?(im_framework _ _ IM) in *; [eapply ch_call_stmt|eapply ch_stmt|eapply ch_head|eapply ch_tail|eapply ch_expr|eapply ch_group|eapply ch_hidden|eapply ch_open|eapply ch_callee|eapply ch_macro];
    eauto; intros C; match goal with H : ~ closed _ _ _ _ _ _ |- _ => apply H, closed_more, C end.
Qed.
Lemma visits_more live L R n ctx m ctx' : visits E' live L R n ctx m ctx' -> visits E live L R n ctx m ctx'.
Proof. induction 1; [constructor|]. econstructor; [apply child_more; eassumption|assumption]. Qed.

Lemma kept_dec L s : kept E L s \/ ~ kept E L s.
Proof.
  unfold kept. destruct (removable s); [|auto]. destruct L as [l|].
  - destruct (same E l s) eqn:Q; [left; right; eauto|right; intros [H|(l' & H & H')]; [discriminate|injection H as <-; congruence]].
  - right. intros [H|(l & H & _)]; discriminate.
Qed.
Lemma considered_dec live L R c ctx : considered E live L R c ctx \/ ~ considered E live L R c ctx.
Proof.
  unfold considered. destruct live; [|right; intros [H _]; discriminate]. destruct ctx as [s|].
  - destruct (kept_dec L s) as [K|K]; [right; intros (_ & _ & H); exact (H s eq_refl K)|]. left. split; [reflexivity|]. split; [intros f; apply no_local_call|]. intros s' Q. injection Q as <-. exact K.
  - left. split; [reflexivity|]. split; [intros f; apply no_local_call|]. discriminate.
Qed.
(** What one walk looks into and the other does not: the arguments of a call that is newly ignored. *)
Lemma closed_differ live L R c ctx : well_formed E c = true -> is_call c \/ is_macro c ->
  ~ closed E live L R c ctx -> (~ closed E' live L R c ctx) \/ (v_visit_args E = false /\ newly_ignored E E' c).
Proof.
  intros W CM N. assert (W' : well_formed E' c = true) by (revert W; apply well_formed_fw, (im_framework _ _ IM)).
  destruct (v_visit_args E) eqn:A.
  - left. intros (_ & _ & C). rewrite (im_arguments _ _ IM) in C. congruence.
  - destruct (considered_dec live L R c ctx) as [D|D]; [|left; intros (C & _); apply D, considered_more, C].
    assert (NI : ~ (ignored_call E c \/ ignored_method E c)) by (intros I; apply N; split; [exact D|split; [exact I|exact A]]).
    destruct (ignored_call_dec E' c W') as [I|I]; [right; split; [reflexivity|split; [exact CM|split; [left; exact I|exact NI]]]|].
    destruct (ignored_method_dec E' c W') as [J|J]; [right; split; [reflexivity|split; [exact CM|split; [right; exact J|exact NI]]]|].
    left. intros (_ & [B|B] & _); tauto.
Qed.
Lemma child_less live L R n ctx k ctx' : well_formed E n = true -> child E live L R n ctx k ctx' ->
  child E' live L R n ctx k ctx' \/ (v_visit_args E = false /\ newly_ignored E E' n).
Proof.
  intros W H. destruct H; try (left; rewrite <- ?(im_framework _ _ IM) in *; [eapply ch_call_stmt + eapply ch_stmt + eapply ch_head + eapply ch_tail + eapply ch_expr + eapply ch_group + eapply ch_hidden + eapply ch_callee]; eauto; fail).
  - destruct (closed_differ live L R n ctx W) as [C|C]; [left; unfold is_call; eauto|assumption|left; eapply ch_open; eauto|right; exact C].
  - destruct (closed_differ live L R n ctx W) as [C|C]; [right; unfold is_macro; eauto|assumption|left; eapply ch_macro; eauto|right; exact C].
Qed.

(** Below [s] a newly ignored call keeps a statement among its parts. *)
Definition hides (s : node) : Prop := exists c m, strictly_within s c /\ newly_ignored E E' c /\ strictly_within c m /\ is_stmt m.
Lemma is_stmt_dec n : is_stmt n \/ ~ is_stmt n.
Proof. rewrite <- is_stmtb_iff. destruct (is_stmtb n); auto. Qed.
Lemma newly_dec c : well_formed E c = true -> newly_ignored E E' c \/ ~ newly_ignored E E' c.
Proof.
  intros W. assert (W' : well_formed E' c = true) by (revert W; apply well_formed_fw, (im_framework _ _ IM)). unfold newly_ignored.
  assert (M : is_macro c \/ ~ is_macro c) by (unfold is_macro; destruct (n_kind c); (left; eauto; fail) || (right; intros (x & K); discriminate)).
  pose proof (is_call_dec c). pose proof (ignored_call_dec E c W). pose proof (ignored_method_dec E c W). pose proof (ignored_call_dec E' c W'). pose proof (ignored_method_dec E' c W'). tauto.
Qed.
Lemma hides_dec s : well_formed E s = true -> hides s \/ ~ hides s.
Proof.
  intros W. destruct (exists_dec (fun c => newly_ignored E E' c /\ exists m, In m (flat_map nodes (n_kids c)) /\ is_stmt m) (flat_map nodes (n_kids s))) as [(c & I & N & m & J & K)|N].
  - intros c I. apply nodes_kids in I as (k & I & Wi).
    assert (Wc : well_formed E c = true) by (eapply wf_within; [exact W|eapply wi_kid; [exact I|exact Wi]]).
    destruct (newly_dec c Wc) as [X|X]; [|right; tauto]. destruct (exists_dec is_stmt (flat_map nodes (n_kids c)) (fun m _ => is_stmt_dec m)); tauto.
  - left. exists c, m. rewrite !nodes_kids. auto.
  - right. intros (c & m & I & X & J & K). apply N. exists c. rewrite nodes_kids in *. split; [exact I|]. split; [exact X|]. exists m. auto.
Qed.
Lemma visits_less live L R n ctx m ctx' : visits E live L R n ctx m ctx' -> well_formed E n = true -> is_stmt m ->
  visits E' live L R n ctx m ctx' \/ exists c, within n c /\ newly_ignored E E' c /\ strictly_within c m.
Proof.
  intros H W St. induction H as [n ctx|n ctx k ctx' m ctx'' C V IH]; [left; constructor|].
  assert (I : In k (n_kids n)) by (eapply child_kid; exact C).
  assert (Wk : well_formed E k = true) by (eapply wf_within; [exact W|eapply wi_kid; [exact I|constructor]]).
  destruct (child_less live L R n ctx k ctx' W C) as [C'|(_ & N)].
  - destruct (IH Wk St) as [V'|(c & Wi & N & Wm)]; [left; econstructor; eauto|right]. exists c. split; [econstructor; eauto|auto].
  - right. exists n. split; [constructor|]. split; [exact N|]. exists k. split; [exact I|]. eapply visits_within, V.
Qed.
Lemma contains_less live L R s : well_formed E s = true -> is_stmt s -> ~ hides s -> contains_stmt E live L R s -> contains_stmt E' live L R s.
Proof.
  intros W St N (k & c1 & m & c2 & C & V & M). assert (I : In k (n_kids s)) by (eapply child_kid; exact C).
  assert (Wk : well_formed E k = true) by (eapply wf_within; [exact W|eapply wi_kid; [exact I|constructor]]).
  destruct (child_less live L R s None k c1 W C) as [C'|(_ & (CM & _))].
  - destruct (visits_less live L R k c1 m c2 V Wk M) as [V'|(c & Wi & X & Y)]; [exists k, c1, m, c2; auto|]. destruct N. exists c, m. repeat split; auto; try apply X. exists k. auto.
  - exfalso. destruct St as (r & d & e & f & K). destruct CM as [(h & x & Q)|(x & Q)]; congruence.
Qed.
Lemma contains_more live L R s : contains_stmt E' live L R s -> contains_stmt E live L R s.
Proof. intros (k & c1 & m & c2 & C & V & M). exists k, c1, m, c2. split; [apply child_more, C|]. split; [apply visits_more, V|exact M]. Qed.
Lemma method_span_more a b : method_span E' a b = method_span E a b.
Proof. unfold method_span. rewrite (im_contents _ _ IM). reflexivity. Qed.

(** The walk with more calls ignored yields nothing new but statements around newly ignored calls. *)
Lemma yields_more live L R ks k sp : (forall n, In n ks -> well_formed E n = true) -> yields E' live L R ks k sp ->
  yields E live L R ks k sp \/ (k = Statement /\ v_visit_args E = false /\ exists n s, In n ks /\ within n s /\ is_stmt s /\ n_span s = sp /\ hides s).
Proof.
  intros W (n & m & ctx & I & V & C). assert (Wm : well_formed E m = true) by (eapply wf_within; [apply W, I|]; eapply visits_within, V).
  destruct C as [s ctx LV St NC NK CT DC NS SK|s c CK CO NI SK|c ctx x b p sp K CO MC NI NM SP SK].
  - destruct (hides_dec s Wm) as [H|H].
    + destruct (v_visit_args E) eqn:A.
      * left. exists n, s, ctx. split; [exact I|]. split; [apply visits_more, V|]. constructor; auto.
        { rewrite <- kept_more. exact NK. }
        { intros X. apply NS. destruct X as (k0 & c1 & m0 & c2 & Ch & Vi & Mm). 
          assert (G : forall a cx b cy, visits E live L R a cx b cy -> well_formed E a = true -> visits E' live L R a cx b cy).
          { induction 1 as [a cx|a cx k1 cy b cz Ck Vk IH]; intros Wa; [constructor|]. destruct (child_less live L R a cx k1 cy Wa Ck) as [C'|(C' & _)]; [|congruence].
            econstructor; [exact C'|]. apply IH. eapply wf_within; [exact Wa|]. eapply wi_kid; [eapply child_kid; exact Ck|constructor]. }
          destruct (child_less live L R s None k0 c1 Wm Ch) as [C'|(C' & _)]; [|congruence].
          exists k0, c1, m0, c2. split; [exact C'|]. split; [|exact Mm]. apply G; [exact Vi|]. eapply wf_within; [exact Wm|]. eapply wi_kid; [eapply child_kid; exact Ch|constructor]. }
        { rewrite <- (im_skip _ _ IM). exact SK. }
      * right. split; [reflexivity|]. split; [reflexivity|]. exists n, s. split; [exact I|]. split; [eapply visits_within, V|]. auto.
    + left. exists n, s, ctx. split; [exact I|]. split; [apply visits_more, V|]. constructor; auto.
      * rewrite <- kept_more. exact NK.
      * intros X. apply NS. apply contains_less; auto.
      * rewrite <- (im_skip _ _ IM). exact SK.
  - left. exists n, c, (Some s). split; [exact I|]. split; [apply visits_more, V|]. constructor; auto.
    + apply considered_more, CO.
    + intros X. apply NI, ignored_call_more, X.
    + rewrite <- (im_skip _ _ IM). exact SK.
  - left. exists n, c, ctx. split; [exact I|]. split; [apply visits_more, V|]. econstructor; eauto.
    + apply considered_more, CO.
    + intros X. apply NI, ignored_call_more, X.
    + intros X. apply NM, ignored_method_more, X.
    + rewrite <- method_span_more. exact SP.
    + rewrite <- (im_skip _ _ IM). exact SK.
Qed.
(** Tests are found through every call. *)
Lemma test_visits R n ctx m ctx' : well_formed E n = true -> visits E false None R n ctx m ctx' <-> visits E' false None R n ctx m ctx'.
Proof.
  intros W. split; [|apply visits_more]. intros H. induction H as [n ctx|n ctx k ctx' m ctx'' C V IH]; [constructor|].
  assert (C' : child E' false None R n ctx k ctx').
  { destruct C; try (rewrite <- ?(im_framework _ _ IM) in *; (eapply ch_call_stmt + eapply ch_stmt + eapply ch_head + eapply ch_tail + eapply ch_expr + eapply ch_group + eapply ch_hidden + eapply ch_callee); eauto; fail);
      [eapply ch_open|eapply ch_macro]; eauto; intros ((F & _) & _); discriminate. }
  econstructor; [exact C'|]. apply IH. eapply wf_within; [exact W|]. eapply wi_kid; [eapply child_kid; exact C|constructor].
Qed.

Context (root : node) (st st' : vst) (PA : parsed E root) (RS : result E root st) (RS' : result E' root st').
Lemma parsed_more : parsed E' root.
Proof. split; [eapply well_formed_fw; [apply (im_framework _ _ IM)|apply PA]|]. intros x f fs H. rewrite (proj2 (im_no_walkable _ _ IM x)) in H. discriminate. Qed.
End More.

(** Without walkable functions only the file itself is walked. *)
Lemma only_file E root st : (forall x, v_walkable E x = []) -> parsed E root -> result E root st ->
  (forall k sp t, candidate st k sp t <-> exists tn, a_test_in E [] [root] tn t /\ yields E true (last_statement tn) [] (n_kids tn) k sp) /\
  (forall t, In t (s_tset st) <-> exists tn, a_test_in E [] [root] tn t).
Proof.
  intros NW PA RS. destruct (C33_exact E root st PA RS) as (H & HH & _ & X & Y).
  assert (O : H = [file_body root]).
  { destruct HH as [|f T H HH (b & Ib & [(t & [(It & Yi)|(tn & _ & Yi)])|(_ & Yi)]) _ _]; [reflexivity| | |];
      destruct Yi as (? & ? & ? & _ & _ & _ & (_ & _ & cl & args & x & fs & _ & _ & Wk)); rewrite NW in Wk; discriminate. }
  subst H. split.
  - intros k sp t. rewrite X. split.
    + intros (b & [<-|[]] & [(It & _)|(tn & (_ & F) & Yi)]); [destruct It|]. exists tn. auto.
    + intros (tn & F & Yi). exists (file_body root). split; [left; reflexivity|]. right. exists tn. split; [split; [reflexivity|exact F]|exact Yi].
  - intros t. rewrite Y. split.
    + intros (b & tn & [<-|[]] & (_ & F)). eauto.
    + intros (tn & F). exists (file_body root), tn. split; [left; reflexivity|]. split; [reflexivity|exact F].
Qed.

Section File.
Context (E E' : venv) (IM : ignores_more E E') (TS : forall t, v_ign_test E t = true -> v_ign_test E' t = true).
Context (root : node) (st st' : vst) (PA : parsed E root) (RS : result E root st) (RS' : result E' root st').

Lemma test_less tn t : a_test_in E' [] [root] tn t -> a_test_in E [] [root] tn t.
Proof.
  intros (n & ctx & b & [<-|[]] & V & K & I). exists root, ctx, b. split; [left; reflexivity|]. split; [apply (visits_more E E' IM), V|]. split; [exact K|].
  destruct (v_ign_test E t) eqn:Q; [|reflexivity]. apply TS in Q. congruence.
Qed.
Lemma test_inside tn t : a_test_in E [] [root] tn t -> within root tn.
Proof. intros (n & ctx & b & [<-|[]] & V & _). eapply visits_within, V. Qed.

Lemma file_more k sp t : candidate st' k sp t ->
  candidate st k sp t \/ (k = Statement /\ v_visit_args E = false /\ around_newly_ignored E E' root sp).
Proof.
  intros H. apply (only_file E' root st' (fun x => proj2 (im_no_walkable _ _ IM x)) (parsed_more E E' IM root PA) RS') in H. destruct H as (tn & F & Y).
  apply test_less in F. pose proof (test_inside tn t F) as Wi.
  destruct (yields_more E E' IM true (last_statement tn) [] (n_kids tn) k sp) as [Z|(-> & A & n & s & I & Ws & St & Sp & c & m & Hc & N & Hm & Sm)].
  - intros n I. eapply wf_within; [apply PA|]. eapply in_trans; [exact Wi|]. eapply wi_kid; [exact I|constructor].
  - exact Y.
  - left. apply (only_file E root st (fun x => proj1 (im_no_walkable _ _ IM x)) PA RS). exists tn. auto.
  - right. split; [reflexivity|]. split; [exact A|]. exists s, c, m. split; [|repeat (split; [assumption|]); assumption]. eapply in_trans; [exact Wi|]. eapply wi_kid; eauto.
Qed.
Lemma file_tests_more t : In t (s_tset st') -> In t (s_tset st).
Proof.
  intros H. apply (only_file E' root st' (fun x => proj2 (im_no_walkable _ _ IM x)) (parsed_more E E' IM root PA) RS') in H. destruct H as (tn & F).
  apply (only_file E root st (fun x => proj1 (im_no_walkable _ _ IM x)) PA RS). exists tn. apply test_less, F.
Qed.
End File.
