From Verif Require Import Base M_Text M_Rewriter M_Span L_Span M_Run M_Visitor S_Visitor.
From Coq Require Import Lia.

(** ** Induction over syntax trees *)
Section NodeInd.
Context (P : node -> Prop) (H : forall l ks, Forall P ks -> P (Node l ks)).
Fixpoint node_ind' (n : node) : P n :=
  match n with
  | Node l ks => H l ks ((fix go (ks : list node) : Forall P ks :=
      match ks with
      | [] => Forall_nil P
      | k :: r => Forall_cons k (node_ind' k) (go r)
      end) ks)
  end.
End NodeInd.

Fixpoint nsize (n : node) : nat :=
  match n with Node _ ks => S ((fix go ks := match ks with [] => 0 | k :: r => nsize k + go r end) ks) end.
Lemma nsize_kid l ks k : In k ks -> nsize k < nsize (Node l ks).
Proof.
  intros H. cbn [nsize].
  induction ks as [|x r IH]; [destruct H|]. destruct H as [->|H]; [lia|]. specialize (IH H). lia.
Qed.

(** ** [same] is an equivalence *)
Definition blank : span := Span [] (LC 0 0) (LC 0 0).
Fixpoint erase (n : node) : node :=
  match n with Node l ks => Node (Label 0 (l_kind l) (l_text l) blank) (map erase ks) end.

Lemma otext_eqb_eq a b : otext_eqb a b = true <-> a = b.
Proof.
  destruct a, b; cbn; try (split; congruence). rewrite text_eqb_eq. split; congruence.
Qed.
Lemma nkind_eqb_eq a b : nkind_eqb a b = true <-> a = b.
Proof.
  destruct a, b; cbn; rewrite ?Bool.andb_true_iff, ?Bool.eqb_true_iff, ?otext_eqb_eq, ?text_eqb_eq, ?PeanoNat.Nat.eqb_eq;
    (split; [intros H|intros H; inversion H]); try discriminate; intuition congruence.
Qed.

Lemma shape_eqb_erase a : forall b, shape_eqb a b = true <-> erase a = erase b.
Proof.
  induction a as [l ks IH] using node_ind'; intros [l' ks'].
  cbn [shape_eqb erase]. rewrite !Bool.andb_true_iff, nkind_eqb_eq, text_eqb_eq.
  assert (Hk : (fix go (xs ys : list node) : bool :=
       match xs, ys with
       | [], [] => true
       | x :: xs', y :: ys' => shape_eqb x y && go xs' ys'
       | _, _ => false
       end) ks ks' = true <-> map erase ks = map erase ks').
  { revert ks'. induction IH as [|k r Hk _ IHr]; intros [|k' r']; cbn [map]; try (split; congruence).
    rewrite Bool.andb_true_iff, Hk, IHr. split; [intros [-> ->]; reflexivity|intros H; inversion H; auto]. }
  rewrite Hk. split; [intros [[-> ->] ->]; reflexivity|intros H; inversion H; auto].
Qed.

Lemma same_refl E a : same E a a = true.
Proof. unfold same. destruct fw_structural; [apply shape_eqb_erase; reflexivity|apply PeanoNat.Nat.eqb_refl]. Qed.
Lemma same_sym E a b : same E a b = same E b a.
Proof.
  unfold same. destruct fw_structural; [|apply PeanoNat.Nat.eqb_sym].
  apply Bool.eq_iff_eq_true. rewrite !shape_eqb_erase. split; congruence.
Qed.
Lemma same_trans E a b c : same E a b = true -> same E b c = true -> same E a c = true.
Proof.
  unfold same. destruct fw_structural; rewrite ?shape_eqb_erase, ?PeanoNat.Nat.eqb_eq; congruence.
Qed.

(** ** Sets and maps *)
Lemma set_add_in x t l : In x (set_add t l) <-> x = t \/ In x l.
Proof.
  induction l as [|y r IH]; cbn [set_add]; [cbn; intuition congruence|].
  destruct (text_compare t y) eqn:C.
  - apply text_compare_eq in C. subst. cbn. intuition congruence.
  - cbn. intuition congruence.
  - cbn [In]. rewrite IH. intuition congruence.
Qed.
Lemma set_adds_in x ts : forall l, In x (set_adds ts l) <-> In x ts \/ In x l.
Proof.
  unfold set_adds. induction ts as [|t r IH]; intros l; cbn [fold_left]; [cbn; tauto|].
  rewrite IH, set_add_in. cbn. intuition congruence.
Qed.

Lemma iset_add_in x t l : In x (iset_add t l) <-> x = t \/ In x l.
Proof.
  unfold iset_add. destruct (mem_text t l) eqn:C.
  - apply mem_text_In in C. split; [auto|intros [->|H]; assumption].
  - rewrite in_app_iff. cbn. intuition congruence.
Qed.
Lemma iset_adds_in x ts : forall l, In x (iset_adds ts l) <-> In x ts \/ In x l.
Proof.
  unfold iset_adds. induction ts as [|t r IH]; intros l; cbn [fold_left]; [cbn; tauto|].
  rewrite IH, iset_add_in. cbn. intuition congruence.
Qed.
Lemma iset_adds_nodup ts : forall l, NoDup l -> NoDup (iset_adds ts l).
Proof.
  unfold iset_adds. induction ts as [|t r IH]; intros l H; cbn [fold_left]; [exact H|]. apply IH.
  unfold iset_add. destruct (mem_text t l) eqn:C; [exact H|].
  assert (Hn : ~ In t l) by (intros Hin; apply mem_text_In in Hin; congruence).
  clear C. induction H as [|x l Hx Hl IHl]; cbn [app]; [repeat constructor; intros []|].
  constructor; [rewrite in_app_iff; intros [Hi|[Hi|[]]]; [exact (Hx Hi)|subst; apply Hn; left; reflexivity]|].
  apply IHl. intros Hi. apply Hn. right. exact Hi.
Qed.

Definition mlists (m : list (span * list text)) (sp : span) (t : text) : Prop :=
  exists ts, In (sp, ts) m /\ In t ts.
Lemma map_add_lists s ts m sp t :
  mlists (map_add s ts m) sp t <-> mlists m sp t \/ (sp = s /\ In t ts).
Proof.
  unfold mlists. induction m as [|[s' ts'] r IH]; cbn [map_add].
  - split.
    + intros (u & [H|[]] & Ht). inversion H; subst. rewrite iset_adds_in in Ht. cbn in Ht. tauto.
    + intros [(u & [] & _)|[-> Ht]]. eexists. split; [left; reflexivity|]. apply iset_adds_in. auto.
  - destruct (span_compare s s') eqn:C.
    + apply span_compare_eq in C. subst s'. split.
      * intros (u & [H|H] & Ht).
        { inversion H; subst. rewrite iset_adds_in in Ht. destruct Ht as [Ht|Ht]; [auto|].
          left. exists ts'. split; [left; reflexivity|exact Ht]. }
        { left. exists u. split; [right; exact H|exact Ht]. }
      * intros [(u & [H|H] & Ht)|[-> Ht]].
        { inversion H; subst. eexists. split; [left; reflexivity|]. apply iset_adds_in. auto. }
        { exists u. split; [right; exact H|exact Ht]. }
        { eexists. split; [left; reflexivity|]. apply iset_adds_in. auto. }
    + split.
      * intros (u & [H|H] & Ht).
        { inversion H; subst. rewrite iset_adds_in in Ht. cbn in Ht. right. tauto. }
        { left. exists u. auto. }
      * intros [(u & H & Ht)|[-> Ht]].
        { exists u. split; [right; exact H|exact Ht]. }
        { eexists. split; [left; reflexivity|]. apply iset_adds_in. auto. }
    + split.
      * intros (u & [H|H] & Ht).
        { left. exists u. split; [left; exact H|exact Ht]. }
        { destruct (proj1 IH) as [(v & Hv & Hv')|Hv]; [exists u; auto| |auto].
          left. exists v. split; [right; exact Hv|exact Hv']. }
      * intros [(u & [H|H] & Ht)|Hr].
        { exists u. split; [left; exact H|exact Ht]. }
        { destruct (proj2 IH) as (v & Hv & Hv'); [left; exists u; auto|].
          exists v. split; [right; exact Hv|exact Hv']. }
        { destruct (proj2 IH) as (v & Hv & Hv'); [right; exact Hr|].
          exists v. split; [right; exact Hv|exact Hv']. }
Qed.

Lemma lists_mlists m k sp t :
  lists m k sp t <-> mlists (match k with Statement => stm_statement m | MethodCall => stm_method m end) sp t.
Proof. reflexivity. Qed.

Lemma register_span_some E sp k st : s_tests st <> [] ->
  exists st', register_span E sp k st = Some st'.
Proof.
  intros H. unfold register_span. destruct (s_tests st) eqn:Ht; [congruence|]. cbn.
  destruct (v_skip E sp); eauto.
Qed.

(** [register_span] only changes the maps, and adds exactly the span unless it is skipped. *)
Lemma register_span_spec E sp k st st' :
  register_span E sp k st = Some st' ->
  (exists m, st' = set_maps m st) /\
  forall k' sp' t, lists (s_maps st') k' sp' t <->
    lists (s_maps st) k' sp' t \/ (k' = k /\ sp' = sp /\ v_skip E sp = false /\ In t (s_tests st)).
Proof.
  unfold register_span. destruct (is_nil (s_tests st)); [discriminate|]. cbn [obind guard negb].
  destruct (v_skip E sp) eqn:Hs.
  - intros H; inversion H; subst st'. split; [exists (s_maps st); destruct st; reflexivity|].
    intros. intuition congruence.
  - intros H; inversion H; subst st'; clear H. split; [eexists; reflexivity|].
    intros k' sp' t. rewrite !lists_mlists.
    destruct k, k'; cbn [set_maps s_maps stm_statement stm_method]; rewrite ?map_add_lists; intuition congruence.
Qed.

(** ** Field paths and call information *)
Lemma wf_kid E l ks k : well_formed E (Node l ks) = true -> In k ks -> well_formed E k = true.
Proof.
  cbn [well_formed]. rewrite Bool.andb_true_iff, forallb_forall. intros [_ H]; auto.
Qed.
Lemma wf_kids E l ks : well_formed E (Node l ks) = true -> forallb (well_formed E) ks = true.
Proof. cbn [well_formed]. rewrite Bool.andb_true_iff. tauto. Qed.

Lemma field_path_exists E e : well_formed E e = true -> exists b p, field_path e b p.
Proof.
  induction e as [l ks IH] using node_ind'. intros W.
  destruct (l_kind l) as [| |[x|]| | | | | |] eqn:K;
    try (exists (Node l ks), []; apply fp_base; intros y; unfold n_kind; cbn [n_lab]; rewrite K; discriminate).
  destruct ks as [|b r]; [cbn in W; rewrite K in W; discriminate|].
  inversion IH as [|? ? Hb _]; subst.
  destruct Hb as (base & p & Hp); [eapply wf_kid; [exact W|left; reflexivity]|].
  exists base, (p ++ [x]). apply fp_field; auto.
Qed.

Lemma field_path_det e b p : field_path e b p -> forall b' p', field_path e b' p' -> b = b' /\ p = p'.
Proof.
  induction 1 as [e Hn|l x b r base p K Hp IH]; intros b' p' H'.
  - inversion H' as [|l x b r base p K Hp]; subst; [auto|]. exfalso. apply (Hn x). exact K.
  - inversion H' as [e Hn|l' x' b0 r0 base0 p0 K' Hp']; subst.
    + exfalso. apply (Hn x). exact K.
    + destruct (IH _ _ Hp'). split; congruence.
Qed.

Lemma field_path_base e b p : field_path e b p -> forall x, n_kind b <> KField (Some x).
Proof. induction 1; auto. Qed.

Lemma field_path_size e b p : field_path e b p -> nsize b <= nsize e.
Proof.
  induction 1 as [|l x b r base p K Hp IH]; [lia|].
  pose proof (nsize_kid l (b :: r) b (or_introl eq_refl)). lia.
Qed.

Lemma field_path_wf E e b p : field_path e b p -> well_formed E e = true -> well_formed E b = true.
Proof. induction 1 as [|l x b r base p K Hp IH]; [auto|]. intros W. apply IH. eapply wf_kid; [exact W|left; reflexivity]. Qed.

Lemma method_call_det c b p b' p' : method_call c b p -> method_call c b' p' -> b = b' /\ p = p'.
Proof.
  intros (_ & e & a & Hk & Hf & _) (_ & e' & a' & Hk' & Hf' & _).
  assert (e = e') by congruence. subst e'. eapply field_path_det; eauto.
Qed.

Lemma ci_path E im rc csp e b p : field_path e b p -> forall q,
  call_info_inner E im rc csp q e = call_info_inner E im rc csp (p ++ q) b.
Proof.
  induction 1 as [e Hn|l x b r base p K Hp IH]; intros q; [reflexivity|].
  cbn [call_info_inner]. rewrite K, IH, <- app_assoc. reflexivity.
Qed.

Lemma ci_outer E rc csp q b : (forall x, n_kind b <> KField (Some x)) ->
  call_info_inner E false rc csp q b = method_info E csp (n_span b) q rc.
Proof.
  destruct b as [l ks]. intros H. cbn [call_info_inner]. unfold n_kind in H; cbn [n_lab] in H.
  destruct (l_kind l) as [| |[x|]| | | | | |]; try reflexivity. exfalso. apply (H x). reflexivity.
Qed.

Lemma join_dots_dotted p : join_dots p = dotted p.
Proof.
  induction p as [|x p IH]; [reflexivity|]. destruct p as [|y p]; [cbn; rewrite app_nil_r; reflexivity|].
  change (join_dots (x :: y :: p)) with (x ++ DOT1 ++ join_dots (y :: p)). rewrite IH. unfold dotted. cbn [separated map concat]. reflexivity.
Qed.
Definition path_ignored (E : venv) (x : text) (p : list text) : Prop :=
  match v_disamb E with
  | DNone => v_ign_fun E (x ++ [46%N] ++ dotted p) = true \/ v_ign_met E (dotted p) = true
  | DFunction => v_ign_fun E (x ++ [46%N] ++ dotted p) = true
  | DMethod => v_ign_met E (dotted p) = true
  end.

Definition base_ignored (E : venv) (b : node) (p : list text) : Prop :=
  (exists x, n_kind b = KIdent x /\ path_ignored E x p) \/
  (exists x, n_kind b = KMacro x /\ v_ign_mac E x = true) \/
  (is_call b /\ root_ignored E b).

Lemma root_ignored_method E c b p : method_call c b p -> (root_ignored E c <-> base_ignored E b p).
Proof.
  intros Hm. split.
  - intros H. destruct H as [c f Hno _ _|c b' p' x Hm' K HI|c b' p' x Hm' K HI|c b' p' Hm' K HI].
    + exfalso. eapply Hno; eauto.
    + destruct (method_call_det _ _ _ _ _ Hm Hm'); subst. left. exists x. auto.
    + destruct (method_call_det _ _ _ _ _ Hm Hm'); subst. right. left. exists x. auto.
    + destruct (method_call_det _ _ _ _ _ Hm Hm'); subst. right. right. auto.
  - intros [(x & K & H)|[(x & K & H)|[K H]]].
    + eapply ri_path; eauto.
    + eapply ri_macro; eauto.
    + eapply ri_chain; eauto.
Qed.

Lemma root_ignored_plain E c : (forall b p, ~ method_call c b p) ->
  (root_ignored E c <-> ignored_function E (call_name c) = true).
Proof.
  intros Hno. unfold ignored_function. split.
  - intros H. destruct H as [c f _ Hf Hi|c b p x Hm|c b p x Hm|c b p Hm]; try (exfalso; eapply Hno; eassumption).
    rewrite Hf. exact Hi.
  - destruct (call_name c) eqn:Hc; [|discriminate]. intros Hi. eapply ri_function; eauto.
Qed.

Lemma named_field_some E c x b0 : is_call c -> well_formed E c = true -> callee_is_named_field c = Some (x, b0) ->
  exists b p, field_path b0 b p /\ method_call c b (p ++ [x]) /\ nsize b < nsize c /\ well_formed E b = true.
Proof.
  destruct c as [l ks]. unfold callee_is_named_field. cbn [n_kids]. intros HC W.
  destruct ks as [|[lc [|b1 rc]] args]; try discriminate.
  destruct (l_kind lc) as [| |[y|]| | | | | |] eqn:K; try discriminate. intros H; inversion H; subst y b1; clear H.
  assert (Wc : well_formed E (Node lc (b0 :: rc)) = true) by (eapply wf_kid; [exact W|left; reflexivity]).
  assert (Wb : well_formed E b0 = true) by (eapply wf_kid; [exact Wc|left; reflexivity]).
  destruct (field_path_exists E b0 Wb) as (b & p & Hp). exists b, p.
  split; [exact Hp|]. split; [|split].
  - split; [exact HC|]. exists (Node lc (b0 :: rc)), args. split; [reflexivity|]. split; [apply fp_field; auto|].
    intros H. apply app_eq_nil in H. destruct H; discriminate.
  - pose proof (field_path_size _ _ _ Hp).
    pose proof (nsize_kid lc (b0 :: rc) b0 (or_introl eq_refl)).
    pose proof (nsize_kid l (Node lc (b0 :: rc) :: args) _ (or_introl eq_refl)). lia.
  - eapply field_path_wf; eauto.
Qed.

Lemma named_field_none c : callee_is_named_field c = None -> forall b p, ~ method_call c b p.
Proof.
  destruct c as [l ks]. unfold callee_is_named_field. cbn [n_kids].
  intros H b p (_ & e & a & Hk & Hf & Hp). cbn [n_kids] in Hk. subst ks.
  destruct Hf as [e _|lc x b' r base p K Hf]; [congruence|]. rewrite K in H. discriminate.
Qed.

Lemma call_branch E rc csp q l ks : (exists h x, l_kind l = KCall h x) ->
  call_info_inner E true rc csp q (Node l ks) =
  match callee_is_named_field (Node l ks) with
  | Some (x, b) => call_info_inner E true true (l_span l) [x] b
  | None => Some (CI (l_span l) false (ignored_function E (call_name (Node l ks))) true)
  end.
Proof.
  intros (h & x & K). cbn [call_info_inner]. unfold callee_is_named_field, call_name, n_kind. cbn [n_kids n_lab].
  rewrite K. destruct ks as [|[lc [|b r]] a]; try reflexivity.
  destruct (l_kind lc) as [| |[y|]| | | | | |]; reflexivity.
Qed.

Lemma ci_inner E : forall k b, nsize b < k -> well_formed E b = true -> (forall x, n_kind b <> KField (Some x)) ->
  forall rc csp q ci, call_info_inner E true rc csp q b = Some ci ->
    (ci_method ci = false /\ ci_ignored ci = true <-> base_ignored E b q) /\
    (ci_nested ci = true <-> rc = true \/ is_call b).
Proof.
  induction k as [|k IH]; [lia|]. intros [l ks] Hs W Hn rc csp q ci.
  destruct (l_kind l) as [r0 c0 d0 e0| |o|h nm|nm|nm|nm bi| |] eqn:K.
  - cbn [call_info_inner]. rewrite K. unfold method_info. destruct method_span; [|discriminate]. cbn [obind].
    intros H; inversion H; subst ci; clear H. cbn [ci_method ci_ignored ci_nested]. unfold base_ignored, is_call, n_kind. cbn [n_lab]. rewrite K.
    split; split; try tauto; try (intros [? ?]; discriminate).
    + intros [(x & H & _)|[(x & H & _)|[(h & x & H) _]]]; discriminate.
    + intros [H|(h & x & H)]; [exact H|discriminate].
  - cbn [call_info_inner]. rewrite K. unfold method_info. destruct method_span; [|discriminate]. cbn [obind].
    intros H; inversion H; subst ci; clear H. cbn [ci_method ci_ignored ci_nested]. unfold base_ignored, is_call, n_kind. cbn [n_lab]. rewrite K.
    split; split; try tauto; try (intros [? ?]; discriminate).
    + intros [(x & H & _)|[(x & H & _)|[(h & x & H) _]]]; discriminate.
    + intros [H|(h & x & H)]; [exact H|discriminate].
  - destruct o as [y|]; [exfalso; apply (Hn y); exact K|].
    cbn [call_info_inner]. rewrite K. unfold method_info. destruct method_span; [|discriminate]. cbn [obind].
    intros H; inversion H; subst ci; clear H. cbn [ci_method ci_ignored ci_nested]. unfold base_ignored, is_call, n_kind. cbn [n_lab]. rewrite K.
    split; split; try tauto; try (intros [? ?]; discriminate).
    + intros [(x & H & _)|[(x & H & _)|[(h & x & H) _]]]; discriminate.
    + intros [H|(h & x & H)]; [exact H|discriminate].
  - assert (Hcall : is_call (Node l ks)) by (exists h, nm; exact K).
    rewrite call_branch by eauto.
    assert (Hbase : forall q', base_ignored E (Node l ks) q' <-> root_ignored E (Node l ks)).
    { intros q'. unfold base_ignored, n_kind. cbn [n_lab]. rewrite K. split.
      - intros [(x & H & _)|[(x & H & _)|[_ H]]]; [discriminate|discriminate|exact H].
      - tauto. }
    rewrite Hbase.
    destruct (callee_is_named_field (Node l ks)) as [[x b0]|] eqn:Hc.
    + destruct (named_field_some E _ _ _ Hcall W Hc) as (b & p & Hp & Hm & Hlt & Wb).
      rewrite (ci_path _ _ _ _ _ _ _ Hp). intros H.
      apply (IH b) in H; [|lia|exact Wb|exact (field_path_base _ _ _ Hp)].
      destruct H as [H1 H2]. rewrite (root_ignored_method _ _ _ _ Hm). split; [exact H1|]. tauto.
    + intros H; inversion H; subst ci; clear H. cbn [ci_method ci_ignored ci_nested].
      rewrite (root_ignored_plain _ _ (named_field_none _ Hc)). tauto.
  - cbn [call_info_inner]. rewrite K. intros H; inversion H; subst ci; clear H. cbn [ci_method ci_ignored ci_nested].
    unfold base_ignored, is_call, n_kind. cbn [n_lab]. rewrite K. split; split.
    + intros [_ H]. right. left. eauto.
    + intros [(x & H & _)|[(x & H & Hi)|[(h & x & H) _]]]; [discriminate| |discriminate]. inversion H; subst. auto.
    + tauto.
    + intros [H|(h & x & H)]; [exact H|discriminate].
  - cbn [call_info_inner]. rewrite K. intros H; inversion H; subst ci; clear H. cbn [ci_method ci_ignored ci_nested].
    unfold base_ignored, is_call, n_kind. cbn [n_lab]. rewrite K. split; split.
    + intros [_ H]. left. exists nm. split; [reflexivity|]. unfold path_ignored. rewrite ?join_dots_dotted in H. destruct (v_disamb E); try exact H.
      apply Bool.orb_true_iff. exact H.
    + intros [(x & H & Hi)|[(x & H & _)|[(h & x & H) _]]]; [|discriminate|discriminate]. inversion H; subst.
      split; [reflexivity|]. unfold path_ignored in Hi. rewrite ?join_dots_dotted. destruct (v_disamb E); try exact Hi.
      apply Bool.orb_true_iff. exact Hi.
    + tauto.
    + intros [H|(h & x & H)]; [exact H|discriminate].
  - cbn [call_info_inner]. rewrite K. unfold method_info. destruct method_span; [|discriminate]. cbn [obind].
    intros H; inversion H; subst ci; clear H. cbn [ci_method ci_ignored ci_nested]. unfold base_ignored, is_call, n_kind. cbn [n_lab]. rewrite K.
    split; split; try tauto; try (intros [? ?]; discriminate).
    + intros [(x & H & _)|[(x & H & _)|[(h & x & H) _]]]; discriminate.
    + intros [H|(h & x & H)]; [exact H|discriminate].
  - cbn [call_info_inner]. rewrite K. unfold method_info. destruct method_span; [|discriminate]. cbn [obind].
    intros H; inversion H; subst ci; clear H. cbn [ci_method ci_ignored ci_nested]. unfold base_ignored, is_call, n_kind. cbn [n_lab]. rewrite K.
    split; split; try tauto; try (intros [? ?]; discriminate).
    + intros [(x & H & _)|[(x & H & _)|[(h & x & H) _]]]; discriminate.
    + intros [H|(h & x & H)]; [exact H|discriminate].
  - cbn [call_info_inner]. rewrite K. unfold method_info. destruct method_span; [|discriminate]. cbn [obind].
    intros H; inversion H; subst ci; clear H. cbn [ci_method ci_ignored ci_nested]. unfold base_ignored, is_call, n_kind. cbn [n_lab]. rewrite K.
    split; split; try tauto; try (intros [? ?]; discriminate).
    + intros [(x & H & _)|[(x & H & _)|[(h & x & H) _]]]; discriminate.
    + intros [H|(h & x & H)]; [exact H|discriminate].
Qed.

(** ** Calls of local functions *)
Lemma walk_target_some E R c n a f : is_call c -> walk_target E R c = Some (n, a, f) -> calls_local E R c f.
Proof.
  intros Hc. unfold walk_target. destruct (n_kids c) as [|callee args] eqn:Hk; [discriminate|].
  destruct (expr_name E callee) as [x|] eqn:Hx; [|discriminate].
  destruct (v_walkable E x) as [|g fs] eqn:Hw; [discriminate|].
  destruct (existsb (same E g) R) eqn:He; [discriminate|]. intros H; inversion H; subst; clear H.
  split; [exact Hc|]. split.
  - intros r Hr. destruct (same E f r) eqn:Hs; [|reflexivity]. exfalso.
    enough (existsb (same E f) R = true) by congruence. apply existsb_exists. eauto.
  - exists callee, args, n, fs. auto.
Qed.
Lemma walk_target_none E R c : walk_target E R c = None -> forall f, ~ calls_local E R c f.
Proof.
  unfold walk_target. intros H f (_ & Hr & callee & args & x & fs & Hk & Hx & Hw).
  rewrite Hk, Hx, Hw in H. destruct (existsb (same E f) R) eqn:He; [|discriminate].
  apply existsb_exists in He. destruct He as (r & Hin & Hs). rewrite (Hr r Hin) in Hs. discriminate.
Qed.
Lemma calls_local_det E R c f g : calls_local E R c f -> calls_local E R c g -> f = g.
Proof.
  intros (_ & _ & callee & args & x & fs & Hk & Hx & Hw) (_ & _ & callee' & args' & x' & fs' & Hk' & Hx' & Hw').
  congruence.
Qed.

Definition keys (l : list (node * list text)) : list node := map fst l.
Definition pnames (l : list (node * list text)) (g : node) (t : text) : Prop := exists ts, In (g, ts) l /\ In t ts.
Fixpoint distinct (E : venv) (l : list node) : Prop :=
  match l with
  | [] => True
  | g :: r => (forall h, In h r -> same E g h = false) /\ distinct E r
  end.

Section Pend.
Context (E : venv).
Lemma pend_keys_mono f T l g : In g (keys l) -> In g (keys (pend_add E f T l)).
Proof.
  induction l as [|[h us] r IH]; [intros []|]. cbn [pend_add]. destruct (same E f h); cbn; intuition.
Qed.
Lemma pend_keys_new f T l g : In g (keys (pend_add E f T l)) -> In g (keys l) \/ g = f.
Proof.
  induction l as [|[h us] r IH]; cbn [pend_add]; [cbn; intuition|]. destruct (same E f h); cbn; intuition.
Qed.
Lemma pend_keys_all f T l : exists g, In g (keys (pend_add E f T l)) /\ same E f g = true.
Proof.
  induction l as [|[h us] r (g & Hg & Hs)]; cbn [pend_add].
  - exists f. split; [left; reflexivity|apply same_refl].
  - destruct (same E f h) eqn:Hs'; [exists h; split; [left; reflexivity|exact Hs']|].
    exists g. split; [right; exact Hg|exact Hs].
Qed.
Lemma pend_mono f T l g t : pnames l g t -> pnames (pend_add E f T l) g t.
Proof.
  induction l as [|[h us] r IH]; intros (ts & H & Ht); [destruct H|].
  cbn [pend_add]. destruct (same E f h); destruct H as [H|H].
  - inversion H; subst. eexists. split; [left; reflexivity|]. apply set_adds_in. auto.
  - exists ts. split; [right; exact H|exact Ht].
  - exists ts. split; [left; exact H|exact Ht].
  - destruct IH as (ts' & H' & Ht'); [exists ts; auto|]. exists ts'. split; [right; exact H'|exact Ht'].
Qed.
Lemma pend_new f T l g t : pnames (pend_add E f T l) g t -> pnames l g t \/ (In t T /\ same E f g = true).
Proof.
  induction l as [|[h us] r IH]; cbn [pend_add].
  - intros (ts & [H|[]] & Ht). inversion H; subst. apply set_adds_in in Ht. destruct Ht as [Ht|[]].
    right. split; [exact Ht|apply same_refl].
  - destruct (same E f h) eqn:Hs; intros (ts & [H|H] & Ht).
    + inversion H; subst. apply set_adds_in in Ht. destruct Ht as [Ht|Ht]; [auto|].
      left. exists us. split; [left; reflexivity|exact Ht].
    + left. exists ts. split; [right; exact H|exact Ht].
    + left. exists ts. split; [left; exact H|exact Ht].
    + destruct IH as [(ts' & H' & Ht')|H']; [exists ts; auto| |auto].
      left. exists ts'. split; [right; exact H'|exact Ht'].
Qed.
Lemma pend_all f T l t : In t T -> exists g, same E f g = true /\ pnames (pend_add E f T l) g t.
Proof.
  intros Ht. induction l as [|[h us] r (g & Hs & ts & Hin & Hts)]; cbn [pend_add].
  - exists f. split; [apply same_refl|]. eexists. split; [left; reflexivity|]. apply set_adds_in. auto.
  - destruct (same E f h) eqn:Hs'.
    + exists h. split; [exact Hs'|]. eexists. split; [left; reflexivity|]. apply set_adds_in. auto.
    + exists g. split; [exact Hs|]. exists ts. split; [right; exact Hin|exact Hts].
Qed.
Lemma pend_distinct f T l : distinct E (keys l) -> distinct E (keys (pend_add E f T l)).
Proof.
  induction l as [|[h us] r IH]; cbn [pend_add keys map fst distinct]; [cbn; intuition|].
  intros [H1 H2]. destruct (same E f h) eqn:Hs; cbn [keys map fst distinct]; [auto|].
  split; [|apply IH; exact H2].
  intros g Hg. apply pend_keys_new in Hg. destruct Hg as [Hg| ->]; [auto|]. rewrite same_sym. exact Hs.
Qed.
End Pend.

(** ** What a stretch of walking does, as sets *)
Record quad := Quad {
  q_c : node -> option node -> kind -> span -> text -> Prop;
  q_k : node -> option node -> node -> Prop;
  q_p : node -> option node -> node -> text -> Prop;
  q_t : node -> option node -> text -> Prop
}.

Record holds (E : venv) (Q : quad) (V : node -> option node -> Prop) (st st' : vst) : Prop := Holds {
  h_tests : s_tests st' = s_tests st;
  h_last : s_last st' = s_last st;
  h_before : s_before st' = s_before st;
  h_ret : s_ret st' = s_ret st;
  h_tset : forall t, In t (s_tset st') <-> In t (s_tset st) \/ exists m c, V m c /\ q_t Q m c t;
  h_lists : forall k sp t, lists (s_maps st') k sp t <->
      lists (s_maps st) k sp t \/ exists m c, V m c /\ q_c Q m c k sp t;
  h_keys_mono : forall g, In g (keys (s_pend st)) -> In g (keys (s_pend st'));
  h_keys_new : forall g, In g (keys (s_pend st')) ->
      In g (keys (s_pend st)) \/ exists m c, V m c /\ q_k Q m c g;
  h_keys_all : forall m c f, V m c -> q_k Q m c f ->
      exists g, In g (keys (s_pend st')) /\ same E f g = true;
  h_p_mono : forall g t, pnames (s_pend st) g t -> pnames (s_pend st') g t;
  h_p_new : forall g t, pnames (s_pend st') g t ->
      pnames (s_pend st) g t \/ exists m c f, V m c /\ q_p Q m c f t /\ same E f g = true;
  h_p_all : forall m c f t, V m c -> q_p Q m c f t ->
      exists g, same E f g = true /\ pnames (s_pend st') g t;
  h_distinct : distinct E (keys (s_pend st)) -> distinct E (keys (s_pend st'))
}.

Lemma holds_trans E Q V1 V2 st st1 st2 : holds E Q V1 st st1 -> holds E Q V2 st1 st2 ->
  holds E Q (fun m c => V1 m c \/ V2 m c) st st2.
Proof.
  intros A B. destruct A, B. constructor; try congruence.
  - intros t. rewrite h_tset1, h_tset0. split.
    + intros [[?|(m & c & ? & ?)]|(m & c & ? & ?)]; [auto|right; exists m, c; auto|right; exists m, c; auto].
    + intros [?|(m & c & [?|?] & ?)]; [auto|left; right; exists m, c; auto|right; exists m, c; auto].
  - intros k sp t. rewrite h_lists1, h_lists0. split.
    + intros [[?|(m & c & ? & ?)]|(m & c & ? & ?)]; [auto|right; exists m, c; auto|right; exists m, c; auto].
    + intros [?|(m & c & [?|?] & ?)]; [auto|left; right; exists m, c; auto|right; exists m, c; auto].
  - auto.
  - intros g Hg. apply h_keys_new1 in Hg. destruct Hg as [Hg|(m & c & ? & ?)]; [|right; exists m, c; auto].
    apply h_keys_new0 in Hg. destruct Hg as [Hg|(m & c & ? & ?)]; [auto|right; exists m, c; auto].
  - intros m c f [HV|HV] Hq; [|eauto]. destruct (h_keys_all0 _ _ _ HV Hq) as (g & Hg & Hs). exists g; auto.
  - auto.
  - intros g t Hg. apply h_p_new1 in Hg. destruct Hg as [Hg|(m & c & f & H)]; [|right; exists m, c, f; tauto].
    apply h_p_new0 in Hg. destruct Hg as [Hg|(m & c & f & H)]; [auto|right; exists m, c, f; tauto].
  - intros m c f t [HV|HV] Hq; [|eauto]. destruct (h_p_all0 _ _ _ _ HV Hq) as (g & Hs & Hg). exists g; auto.
  - auto.
Qed.

Lemma holds_iff E Q V1 V2 st st' : (forall m c, V1 m c <-> V2 m c) -> holds E Q V1 st st' -> holds E Q V2 st st'.
Proof.
  intros I A. destruct A. constructor; try assumption.
  - intros t. rewrite h_tset0. split; (intros [H|(m & c & HV & Hq)]; [auto|right; exists m, c]); split; auto; apply I; auto.
  - intros k sp t. rewrite h_lists0. split; (intros [H|(m & c & HV & Hq)]; [auto|right; exists m, c]); split; auto; apply I; auto.
  - intros g Hg. apply h_keys_new0 in Hg. destruct Hg as [H|(m & c & HV & Hq)]; [auto|right; exists m, c]; split; auto; apply I; auto.
  - intros m c f HV. apply h_keys_all0. apply I. exact HV.
  - intros g t Hg. apply h_p_new0 in Hg. destruct Hg as [H|(m & c & f & HV & Hq)]; [auto|right; exists m, c, f]; split; auto; apply I; auto.
  - intros m c f t HV. apply h_p_all0. apply I. exact HV.
Qed.

Definition silent (Q : quad) (V : node -> option node -> Prop) : Prop :=
  forall m c, V m c -> (forall k sp t, ~ q_c Q m c k sp t) /\ (forall f, ~ q_k Q m c f) /\
    (forall f t, ~ q_p Q m c f t) /\ (forall t, ~ q_t Q m c t).

(** Nothing observable changed. *)
Definition quiet_step (st st' : vst) : Prop :=
  s_tests st' = s_tests st /\ s_last st' = s_last st /\ s_before st' = s_before st /\ s_ret st' = s_ret st /\
  s_tset st' = s_tset st /\ s_maps st' = s_maps st /\ s_pend st' = s_pend st.

Lemma holds_silent E Q V st st' : silent Q V -> quiet_step st st' -> holds E Q V st st'.
Proof.
  intros S (H1 & H2 & H3 & H4 & H5 & H6 & H7).
  constructor; try assumption; rewrite ?H5, ?H6, ?H7; auto.
  - intros t. split; [auto|]. intros [H|(m & c & HV & Hq)]; [auto|]. exfalso. apply (S m c HV) in Hq. exact Hq.
  - intros k sp t. split; [auto|]. intros [H|(m & c & HV & Hq)]; [auto|]. exfalso. apply (S m c HV) in Hq. exact Hq.
  - intros m c f HV Hq. exfalso. apply (S m c HV) in Hq. exact Hq.
  - intros m c f t HV Hq. exfalso. apply (S m c HV) in Hq. exact Hq.
Qed.

Lemma quiet_refl st : quiet_step st st.
Proof. repeat split. Qed.

(** ** Registering *)
Lemma kept_iff E L s : kept E L s <-> removable s = false \/ match L with Some l => same E l s | None => false end = true.
Proof.
  unfold kept. split.
  - intros [H|(l & -> & H)]; auto.
  - intros [H|H]; [auto|]. destruct L as [l|]; [|discriminate]. right. eauto.
Qed.
Lemma is_last_set E st x s : is_last E (set_call x st) s = is_last E st s.
Proof. reflexivity. Qed.

Lemma lists_set_call x st k sp t : lists (s_maps (set_call x st)) k sp t <-> lists (s_maps st) k sp t.
Proof. reflexivity. Qed.

Definition ctx_ok (E : venv) (L : option node) (ctx : option node) : Prop :=
  forall s, ctx = Some s -> ~ kept E L s.

Lemma ctx_ok_iff E st ctx :
  match ctx with None => true | Some s => removable s && negb (is_last E st s) end = true <-> ctx_ok E (s_last st) ctx.
Proof.
  unfold ctx_ok. destruct ctx as [s|]; [|split; [intros _ s H; discriminate|reflexivity]].
  rewrite Bool.andb_true_iff, Bool.negb_true_iff. split.
  - intros [H1 H2] s' Hs. inversion Hs; subst s'. rewrite kept_iff. unfold is_last in H2.
    intros [H|H]; congruence.
  - intros H. specialize (H s eq_refl). rewrite kept_iff in H. unfold is_last.
    destruct (removable s); [|exfalso; auto]. split; [reflexivity|].
    destruct (s_last st) as [l|]; [|reflexivity]. destruct (same E l s); [exfalso; auto|reflexivity].
Qed.

Lemma is_nil_iff {A} (l : list A) : is_nil l = true <-> l = [].
Proof. destruct l; cbn; split; congruence. Qed.

(** [visit_maybe_macro_call!] *)
Lemma vmm_spec E sp ic im imet st st' w :
  visit_maybe_macro_call E sp ic im imet st = Some (st', w) ->
  (exists m, st' = set_maps m (set_call None st)) /\
  (w = false <-> s_tests st <> [] /\ ctx_ok E (s_last st) (s_call st) /\ (ic = true \/ imet = true) /\ v_visit_args E = false) /\
  (forall k sp' t, lists (s_maps st') k sp' t <-> lists (s_maps st) k sp' t \/
     (In t (s_tests st) /\ ctx_ok E (s_last st) (s_call st) /\ ic = false /\ v_skip E sp' = false /\
      ((k = Statement /\ exists s, s_call st = Some s /\ sp' = n_span s) \/
       (k = MethodCall /\ im = true /\ imet = false /\ sp' = sp)))).
Proof.
  unfold visit_maybe_macro_call.
  change (s_tests (set_call None st)) with (s_tests st).
  destruct (negb (is_nil (s_tests st)) && match s_call st with None => true | Some s => removable s && negb (is_last E (set_call None st) s) end) eqn:Hok.
  - apply Bool.andb_true_iff in Hok. destruct Hok as [Hn Hc].
    apply Bool.negb_true_iff in Hn.
    assert (Hne : s_tests st <> []) by (intros H; rewrite H in Hn; discriminate).
    assert (Hctx : ctx_ok E (s_last st) (s_call st)).
    { apply ctx_ok_iff. destruct (s_call st); [|reflexivity]. rewrite is_last_set in Hc. exact Hc. }
    destruct (match s_call st with Some s => if negb ic then register_span E (n_span s) Statement (set_call None st) else Some (set_call None st)
              | None => Some (set_call None st) end) as [st1|] eqn:H1; [|discriminate]. cbn [obind].
    destruct (if negb ic && im && negb imet then register_span E sp MethodCall st1 else Some st1) as [st2|] eqn:H2; [|discriminate]. cbn [obind].
    intros H; inversion H; subst st' w; clear H.
    assert (A1 : (exists m, st1 = set_maps m (set_call None st)) /\
      forall k' sp' t, lists (s_maps st1) k' sp' t <-> lists (s_maps st) k' sp' t \/
        (k' = Statement /\ (exists s, s_call st = Some s /\ sp' = n_span s) /\ ic = false /\ v_skip E sp' = false /\ In t (s_tests st))).
    { destruct (s_call st) as [s|] eqn:Hs.
      - destruct ic; cbn [negb] in H1.
        + inversion H1; subst st1. split; [exists (s_maps st); reflexivity|]. intros. rewrite lists_set_call. intuition congruence.
        + apply register_span_spec in H1. destruct H1 as [Hm Hl]. split; [exact Hm|].
          intros k' sp' t. rewrite Hl, lists_set_call. cbn [set_call s_tests]. split.
          * intros [?|(-> & -> & ? & ?)]; [auto|]. right. repeat split; auto. exists s. auto.
          * intros [?|(-> & (s' & Hs' & ->) & _ & ? & ?)]; [auto|]. inversion Hs'; subst s'. auto.
      - inversion H1; subst st1. split; [exists (s_maps st); reflexivity|].
        intros. rewrite lists_set_call. split; [auto|]. intros [?|(_ & (s & ? & _) & _)]; [auto|discriminate]. }
    destruct A1 as [(m1 & ->) A1].
    assert (A2 : (exists m, st2 = set_maps m (set_call None st)) /\
      forall k' sp' t, lists (s_maps st2) k' sp' t <-> lists (s_maps (set_maps m1 (set_call None st))) k' sp' t \/
        (k' = MethodCall /\ sp' = sp /\ ic = false /\ im = true /\ imet = false /\ v_skip E sp' = false /\ In t (s_tests st))).
    { destruct (negb ic && im && negb imet) eqn:Hb.
      - rewrite !Bool.andb_true_iff, !Bool.negb_true_iff in Hb. destruct Hb as [[-> ->] ->].
        apply register_span_spec in H2. destruct H2 as [(m2 & ->) Hl]. split; [exists m2; reflexivity|].
        intros k' sp' t. rewrite Hl. cbn [set_maps set_call s_tests]. split.
        + intros [?|(-> & -> & ? & ?)]; [auto|]. right. repeat split; auto.
        + intros [?|(-> & -> & _ & _ & _ & ? & ?)]; auto.
      - inversion H2; subst st2. split; [exists m1; reflexivity|].
        intros. split; [auto|]. intros [?|(_ & _ & -> & -> & -> & _)]; [auto|discriminate]. }
    destruct A2 as [(m2 & ->) A2].
    split; [exists m2; reflexivity|]. split.
    + rewrite Bool.orb_false_iff, Bool.andb_false_iff, !Bool.negb_false_iff. tauto.
    + intros k sp' t. rewrite A2, A1. split.
      * intros [[?|(-> & Hs & -> & ? & ?)]|(-> & -> & -> & -> & -> & ? & ?)]; [auto| |].
        { right. repeat split; auto. }
        { right. repeat split; auto. }
      * intros [?|(Ht & _ & -> & Hsk & [(-> & Hs)|(-> & -> & -> & ->)])]; [auto| |].
        { left. right. repeat split; auto. }
        { right. repeat split; auto. }
  - intros H; inversion H; subst st' w; clear H.
    assert (Hbad : s_tests st = [] \/ ~ ctx_ok E (s_last st) (s_call st)).
    { apply Bool.andb_false_iff in Hok. destruct Hok as [Hok|Hok].
      - left. apply is_nil_iff. apply Bool.negb_false_iff. exact Hok.
      - right. rewrite <- ctx_ok_iff. destruct (s_call st); [|discriminate]. rewrite is_last_set in Hok. congruence. }
    split; [exists (s_maps st); reflexivity|]. split.
    + split; [discriminate|]. intros (H1 & H2 & _). destruct Hbad; contradiction.
    + intros k sp' t. rewrite lists_set_call. split; [auto|].
      intros [?|(Ht & Hc & _)]; [auto|]. destruct Hbad as [Hb|Hb]; [rewrite Hb in Ht; destruct Ht|contradiction].
Qed.

(** ** Visiting a call *)
Definition callnode (m : node) : Prop := exists x, n_kind m = KCall false x.
Lemma callnode_is_call m : callnode m -> is_call m.
Proof. intros (x & H). exists false, x. exact H. Qed.

Definition liveb (st : vst) : bool := negb (is_nil (s_tests st)).
Lemma liveb_iff st : liveb st = true <-> s_tests st <> [].
Proof. unfold liveb. destruct (s_tests st); cbn; split; congruence. Qed.

Lemma contributes_call E live L R c ctx k sp : callnode c ->
  (contributes E live L R c ctx k sp <->
   considered E live L R c ctx /\ ~ ignored_call E c /\ v_skip E sp = false /\
   ((k = Statement /\ exists s, ctx = Some s /\ sp = n_span s) \/
    (k = MethodCall /\ ~ ignored_method E c /\ exists b p, method_call c b p /\ method_span E (n_span c) (n_span b) = Some sp))).
Proof.
  intros (x & K). split.
  - intros H. destruct H as [s ctx _ (r0 & c0 & d0 & e0 & K')|s c Hk Hc Hi Hs|c ctx y b p sp K' Hc Hm Hi Him Hsp Hs].
    + congruence.
    + repeat split; try apply Hc; auto. left. split; [reflexivity|]. eauto.
    + repeat split; try apply Hc; auto. right. repeat split; auto. exists b, p. auto.
  - intros (Hc & Hi & Hs & [(-> & s & -> & ->)|(-> & Him & b & p & Hm & Hsp)]).
    + apply cb_call; auto. left. eauto.
    + eapply cb_method; eauto.
Qed.

Lemma contributes_macro E live L R c ctx k sp : is_macro c ->
  (contributes E live L R c ctx k sp <->
   considered E live L R c ctx /\ ~ ignored_call E c /\ v_skip E sp = false /\
   k = Statement /\ exists s, ctx = Some s /\ sp = n_span s).
Proof.
  intros (x & K). split.
  - intros H. destruct H as [s ctx _ (r0 & c0 & d0 & e0 & K')|s c Hk Hc Hi Hs|c ctx y b p sp K' Hc Hm Hi Him Hsp Hs].
    + congruence.
    + repeat split; try apply Hc; auto. eauto.
    + congruence.
  - intros (Hc & Hi & Hs & -> & s & -> & ->). apply cb_call; auto. right. exists x. exact K.
Qed.

Definition frame (st st' : vst) : Prop :=
  s_call st' = None /\ s_leaves st' = s_leaves st /\ s_tests st' = s_tests st /\ s_last st' = s_last st /\
  s_before st' = s_before st /\ s_ret st' = s_ret st /\ s_tset st' = s_tset st.

Lemma frame_maps m st : frame st (set_maps m (set_call None st)).
Proof. repeat split. Qed.

Lemma visit_call_spec E c st st' w :
  callnode c -> well_formed E c = true -> visit_call E c st = Some (st', w) ->
  let live := liveb st in let L := s_last st in let R := s_ret st in let ctx := s_call st in
  frame st st' /\
  (w = false <-> closed E live L R c ctx) /\
  (forall k sp t, lists (s_maps st') k sp t <->
     lists (s_maps st) k sp t \/ (In t (s_tests st) /\ contributes E live L R c ctx k sp)) /\
  ((exists f, calls_local E R c f /\ s_pend st' = pend_add E f (s_tests st) (s_pend st)) \/
   ((forall f, ~ calls_local E R c f) /\ s_pend st' = s_pend st)).
Proof.
  intros Hcn W H. cbn zeta. unfold visit_call in H.
  destruct (walk_target E (s_ret st) c) as [[[nm amb] f]|] eqn:Ht.
  - apply (walk_target_some _ _ _ _ _ _ (callnode_is_call _ Hcn)) in Ht.
    inversion H; subst st' w; clear H.
    split; [destruct amb; repeat split|]. split; [|split].
    + split; [discriminate|]. intros ((_ & Hno & _) & _). exfalso. exact (Hno f Ht).
    + intros k sp t. split.
      * intros H. left. destruct amb; exact H.
      * intros [H|[_ H]]; [destruct amb; exact H|]. apply contributes_call in H; [|exact Hcn].
        destruct H as ((_ & Hno & _) & _). exfalso. exact (Hno f Ht).
    + left. exists f. split; [exact Ht|]. destruct amb; reflexivity.
  - pose proof (walk_target_none _ _ _ Ht) as Hno.
    assert (Hcons : considered E (liveb st) (s_last st) (s_ret st) c (s_call st) <->
              s_tests st <> [] /\ ctx_ok E (s_last st) (s_call st)).
    { unfold considered. rewrite liveb_iff. unfold ctx_ok. tauto. }
    destruct (callee_is_named_field c) as [[x b0]|] eqn:Hf.
    + destruct (named_field_some E _ _ _ (callnode_is_call _ Hcn) W Hf) as (b & p & Hp & Hm & Hlt & Wb).
      rewrite (ci_path _ _ _ _ _ _ _ Hp) in H.
      destruct (call_info_inner E true false (n_span c) (p ++ [x]) b) as [inner|] eqn:Hin; [|discriminate]. cbn [obind] in H.
      rewrite (ci_path _ _ _ _ _ _ _ Hp), (ci_outer _ _ _ _ _ (field_path_base _ _ _ Hp)) in H.
      unfold method_info in H. rewrite join_dots_dotted in H. destruct (method_span E (n_span c) (n_span b)) as [sp0|] eqn:Hsp; [|discriminate]. cbn [obind] in H.
      cbn [ci_method guard ci_span ci_ignored] in H.
      destruct (ci_inner E _ b (PeanoNat.Nat.lt_succ_diag_r _) Wb (field_path_base _ _ _ Hp) _ _ _ _ Hin) as [Hroot Hnest].
      set (imet := v_ign_met E (dotted (p ++ [x]))) in *.
      set (ic := (negb (ci_method inner) && ci_ignored inner) || (negb (ci_nested inner) && imet)) in *.
      assert (Him : ignored_method E c <-> imet = true).
      { unfold ignored_method. split.
        - intros (b' & p' & Hm' & Hi). destruct (method_call_det _ _ _ _ _ Hm Hm'); subst. exact Hi.
        - intros Hi. exists b, (p ++ [x]). auto. }
      assert (Hic : ignored_call E c <-> ic = true).
      { unfold ic. rewrite Bool.orb_true_iff, !Bool.andb_true_iff, !Bool.negb_true_iff, Hroot.
        rewrite <- (root_ignored_method _ _ _ _ Hm). split.
        - intros [(y & K & _)|[_ [Hr|(b' & p' & Hm' & Hnc & Hi)]]].
          + exfalso. destruct Hcn as (z & K'). congruence.
          + auto.
          + destruct (method_call_det _ _ _ _ _ Hm Hm'); subst. right. split; [|exact Hi].
            destruct (ci_nested inner); [|reflexivity]. exfalso. destruct (proj1 Hnest eq_refl); [discriminate|contradiction].
        - intros [Hr|[Hn Hi]]; right; (split; [apply callnode_is_call; exact Hcn|]); [auto|].
          right. exists b, (p ++ [x]). split; [exact Hm|]. split; [|exact Hi].
          intros Hc. destruct Hnest as [_ Hnest]. rewrite Hnest in Hn; [discriminate|auto]. }
      apply vmm_spec in H. destruct H as [(m & ->) [Hw Hl]].
      split; [apply frame_maps|]. split; [|split; [|right; split; [exact Hno|reflexivity]]].
      * rewrite Hw. unfold closed. rewrite Hcons, Hic, Him. tauto.
      * intros k sp t. rewrite Hl, (contributes_call _ _ _ _ _ _ _ _ Hcn), Hcons, Hic, Him. split.
        { intros [?|(Hin' & Hok & Hf' & Hsk & Hcase)]; [auto|]. right. split; [exact Hin'|].
          split; [split; [intros Hnil; rewrite Hnil in Hin'; destruct Hin'|exact Hok]|].
          split; [congruence|]. split; [exact Hsk|].
          destruct Hcase as [Hcase|(-> & _ & Hi & ->)]; [left; exact Hcase|].
          right. split; [reflexivity|]. split; [congruence|]. exists b, (p ++ [x]). auto. }
        { intros [?|(Hin' & [_ Hok] & Hf' & Hsk & Hcase)]; [auto|]. right. split; [exact Hin'|].
          split; [exact Hok|]. split; [destruct ic; [exfalso; auto|reflexivity]|]. split; [exact Hsk|].
          destruct Hcase as [Hcase|(-> & Hi & b' & p' & Hm' & Hsp')]; [left; exact Hcase|].
          destruct (method_call_det _ _ _ _ _ Hm Hm'); subst b' p'.
          right. repeat split; [destruct imet; [exfalso; auto|reflexivity]|congruence]. }
    + pose proof (named_field_none _ Hf) as Hnm.
      assert (Him : ~ ignored_method E c).
      { intros (b & p & Hm & _). eapply Hnm; eauto. }
      assert (Hic : ignored_call E c <-> ignored_function E (call_name c) = true).
      { rewrite <- (root_ignored_plain _ _ Hnm). split.
        - intros [(y & K & _)|[_ [Hr|(b' & p' & Hm' & _)]]]; [exfalso; destruct Hcn; congruence|exact Hr|].
          exfalso. eapply Hnm; eauto.
        - intros Hr. right. split; [apply callnode_is_call; exact Hcn|auto]. }
      apply vmm_spec in H. destruct H as [(m & ->) [Hw Hl]].
      split; [apply frame_maps|]. split; [|split; [|right; split; [exact Hno|reflexivity]]].
      * rewrite Hw. unfold closed. rewrite Hcons, Hic. intuition congruence.
      * intros k sp t. rewrite Hl, (contributes_call _ _ _ _ _ _ _ _ Hcn), Hcons, Hic. split.
        { intros [?|(Hin' & Hok & Hf' & Hsk & Hcase)]; [auto|]. right. split; [exact Hin'|].
          split; [split; [intros Hnil; rewrite Hnil in Hin'; destruct Hin'|exact Hok]|].
          split; [congruence|]. split; [exact Hsk|].
          destruct Hcase as [Hcase|(_ & Hx & _)]; [left; exact Hcase|discriminate]. }
        { intros [?|(Hin' & [_ Hok] & Hf' & Hsk & Hcase)]; [auto|]. right. split; [exact Hin'|].
          split; [exact Hok|]. split; [destruct (ignored_function E (call_name c)); [exfalso; auto|reflexivity]|]. split; [exact Hsk|].
          destruct Hcase as [Hcase|(-> & Hi & b' & p' & Hm' & Hsp')]; [left; exact Hcase|].
          exfalso. eapply Hnm; eauto. }
Qed.

Lemma visit_macro_spec E c x sp st st' w :
  n_kind c = KMacro x -> visit_macro_call E x sp st = Some (st', w) ->
  let live := liveb st in let L := s_last st in let R := s_ret st in let ctx := s_call st in
  frame st st' /\
  (w = false <-> closed E live L R c ctx) /\
  (forall k sp t, lists (s_maps st') k sp t <->
     lists (s_maps st) k sp t \/ (In t (s_tests st) /\ contributes E live L R c ctx k sp)) /\
  s_pend st' = s_pend st.
Proof.
  intros K H. cbn zeta. unfold visit_macro_call in H.
  assert (Hmac : is_macro c) by (exists x; exact K).
  assert (Hno : forall f, ~ calls_local E (s_ret st) c f).
  { intros f ((h & y & K') & _). congruence. }
  assert (Hnm : ~ ignored_method E c).
  { intros (b & p & ((h & y & K') & _) & _). congruence. }
  assert (Hcons : considered E (liveb st) (s_last st) (s_ret st) c (s_call st) <->
            s_tests st <> [] /\ ctx_ok E (s_last st) (s_call st)).
  { unfold considered. rewrite liveb_iff. unfold ctx_ok. tauto. }
  assert (Hic : ignored_call E c <-> v_ign_mac E x = true).
  { split.
    - intros [(y & K' & Hi)|[(h & y & K') _]]; congruence.
    - intros Hi. left. eauto. }
  apply vmm_spec in H. destruct H as [(m & ->) [Hw Hl]].
  split; [apply frame_maps|]. split; [|split; [|reflexivity]].
  - rewrite Hw. unfold closed. rewrite Hcons, Hic. intuition congruence.
  - intros k sp0 t. rewrite Hl, (contributes_macro _ _ _ _ _ _ _ _ Hmac), Hcons, Hic. split.
    + intros [?|(Hin' & Hok & Hf' & Hsk & Hcase)]; [auto|]. right. split; [exact Hin'|].
      split; [split; [intros Hnil; rewrite Hnil in Hin'; destruct Hin'|exact Hok]|].
      split; [congruence|]. split; [exact Hsk|].
      destruct Hcase as [Hcase|(_ & Hx & _)]; [exact Hcase|discriminate].
    + intros [?|(Hin' & [_ Hok] & Hf' & Hsk & Hcase)]; [auto|]. right. split; [exact Hin'|].
      split; [exact Hok|]. split; [destruct (v_ign_mac E x); [exfalso; auto|reflexivity]|]. split; [exact Hsk|].
      left. exact Hcase.
Qed.
