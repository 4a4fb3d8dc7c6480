(** Property theorems C70: which files are read. *)
From Verif Require Import Base M_Visitor P_Visitor P_Config M_Text M_Span M_Run M_Output M_Directives M_Visitor S_Directives M_Config M_Parsing P_Parsing L_Output M_Find S_Find.
Local Open Scope list_scope.

(** ** Names *)
Lemma starts_iff p t : starts_with_text p t = true <-> exists r, t = p ++ r.
Proof.
  unfold starts_with_text. destruct (strip_prefix p t) as [r|] eqn:X; split; intros H; try reflexivity; try discriminate.
  - exists r. apply strip_prefix_spec in X. exact X.
  - destruct H as (r & H). apply strip_prefix_spec in H. congruence.
Qed.
Lemma ends_iff s t : ends_with_text s t = true <-> exists r, t = r ++ s.
Proof.
  unfold ends_with_text. rewrite starts_iff. split; intros (r & H).
  - exists (rev r). rewrite <- (rev_involutive t), H, rev_app_distr, rev_involutive. reflexivity.
  - exists (rev r). rewrite H, rev_app_distr. reflexivity.
Qed.
Lemma path_text_snoc p n : exists pre, path_text (p ++ [n]) = pre ++ SLASH :: n.
Proof.
  unfold path_text. induction p as [|c p (pre & IH)]; [exists []; reflexivity|]. cbn [app].
  assert (Q : exists d r, p ++ [n] = d :: r) by (destruct p as [|d r]; cbn; eauto). destruct Q as (d & r & Q).
  rewrite Q in *. change (join_path (c :: d :: r)) with (c ++ SLASH :: join_path (d :: r)). destruct pre as [|x pre].
  - apply (f_equal (@tl char)) in IH. cbn [app tl] in IH. exists (SLASH :: c). cbn [app]. rewrite IH. reflexivity.
  - apply (f_equal (@tl char)) in IH. cbn [app tl] in IH. exists (SLASH :: c ++ SLASH :: pre). cbn [app]. rewrite IH, <- app_assoc. reflexivity.
Qed.
Lemma ends_in_path s p n : ~ In SLASH s -> (ends_with_text s (path_text (p ++ [n])) = true <-> exists r, n = r ++ s).
Proof.
  intros Hs. rewrite ends_iff. destruct (path_text_snoc p n) as (pre & ->). split; intros (r & H).
  - revert r H. induction pre as [|x pre IH]; intros r H; cbn [app] in H.
    + destruct r as [|y r]; cbn in H; [exfalso; apply Hs; rewrite <- H; left; reflexivity|]. injection H as _ H. eauto.
    + destruct r as [|y r]; cbn in H; [exfalso; apply Hs; rewrite <- H; right; apply in_or_app; right; left; reflexivity|]. injection H as _ H. eauto.
  - exists (pre ++ SLASH :: r). rewrite H, <- app_assoc. reflexivity.
Qed.
Lemma split_last_dot_spec n : forall b a, split_last_dot n = Some (b, a) <-> n = b ++ 46%N :: a /\ ~ In 46%N a.
Proof.
  induction n as [|c n IH]; intros b a; cbn [split_last_dot].
  - split; [discriminate|]. intros [H _]. destruct b; discriminate.
  - assert (NO : split_last_dot n = None -> ~ In 46%N n).
    { clear. induction n as [|x l IH]; intros Hn Hi; [destruct Hi|]. cbn [split_last_dot] in Hn. destruct (split_last_dot l) as [[? ?]|]; [discriminate|].
      destruct (x =? 46)%N eqn:Q; [discriminate|]. destruct Hi as [Hi|Hi]; [subst x; discriminate Q|exact (IH eq_refl Hi)]. }
    destruct (split_last_dot n) as [[b' a']|] eqn:X.
    + destruct (proj1 (IH b' a') eq_refl) as [H1 H2]. split.
      * intros H. injection H as <- <-. cbn [app]. rewrite H1. auto.
      * intros [H H3]. destruct b as [|y b]; cbn [app] in H; inversion H as [[Hc Hn]].
        -- exfalso. apply H3. rewrite <- Hn, H1. apply in_or_app. right. left. reflexivity.
        -- assert (Q : Some (b', a') = Some (b, a)) by (apply IH; auto). inversion Q. reflexivity.
    + destruct (c =? 46)%N eqn:C.
      * apply N.eqb_eq in C. subst c. split.
        -- intros H. injection H as <- <-. split; [reflexivity|apply NO; reflexivity].
        -- intros [H H3]. destruct b as [|y b]; cbn [app] in H; inversion H as [[Hn]]; [reflexivity|]. subst n. exfalso. apply (NO eq_refl). apply in_or_app. right. left. reflexivity.
      * split; [discriminate|]. intros [H _]. destruct b as [|y b]; cbn [app] in H; inversion H as [[Hc Hn]]; [subst c; discriminate C|]. subst n. exfalso. apply (NO eq_refl). apply in_or_app. right. left. reflexivity.
Qed.
Lemma has_extension_spec x n : ~ In 46%N x -> (has_extension x n = true <-> exists r, r <> [] /\ n = r ++ s2t "." ++ x).
Proof.
  intros Hx. unfold has_extension, extension. split.
  - destruct (split_last_dot n) as [[[|c b] a]|] eqn:X; try discriminate. intros H. apply text_eqb_eq in H. subst a. apply split_last_dot_spec in X. destruct X as [-> _].
    exists (c :: b). split; [discriminate|reflexivity].
  - intros (r & Hr & H). assert (X : split_last_dot n = Some (r, x)) by (apply split_last_dot_spec; split; assumption). rewrite X. destruct r; [contradiction|]. apply text_eqb_refl.
Qed.

(** ** The filters *)
Lemma with_ext_spec x n : ~ In 46%N (s2t x) -> (has_extension (s2t x) n = true <-> with_extension x n).
Proof. intros H. exact (has_extension_spec (s2t x) n H). Qed.
Ltac notin := let H := fresh in intros H; vm_compute in H; repeat (destruct H as [H|H]; [discriminate H|]); exact H.
Lemma keep_file b p n : fd_keep (finder_of b) (p ++ [n]) n EFile = true <-> test_file_name b n /\ ~ left_out b n.
Proof.
  destruct b; cbn [finder_of fd_keep find_rust find_go find_php find_foundry find_hardhat find_vitest find_anchor_mocha find_anchor_vitest ts_keep e_is_file e_is_dir negb orb test_file_name left_out].
  - rewrite Bool.andb_true_iff, Bool.negb_true_iff, text_eqb_neq, with_ext_spec by notin. tauto.
  - unfold ends_in. rewrite ends_in_path by notin. tauto.
  - unfold ends_in. rewrite ends_in_path by notin. split; [|tauto]. intros (r & ->). split; [eauto|]. intros H. apply (f_equal (@rev char)) in H. rewrite rev_app_distr in H. discriminate.
  - unfold ends_in. rewrite ends_in_path by notin. tauto.
  - rewrite Bool.andb_true_r, Bool.orb_true_iff, !with_ext_spec by notin. tauto.
  - rewrite Bool.andb_true_iff, Bool.orb_true_iff, !with_ext_spec by notin. unfold vitest_predicate. rewrite Bool.negb_true_iff, <- Bool.not_true_iff_false, ends_iff. unfold ends_in. tauto.
  - rewrite Bool.andb_true_r, Bool.orb_true_iff, !with_ext_spec by notin. tauto.
  - rewrite Bool.andb_true_iff, Bool.orb_true_iff, !with_ext_spec by notin. unfold vitest_predicate. rewrite Bool.negb_true_iff, <- Bool.not_true_iff_false, ends_iff. unfold ends_in. tauto.
Qed.
Lemma keep_dir b p n l : fd_keep (finder_of b) (p ++ [n]) n (EDir l) = true <-> ~ left_out b n.
Proof.
  destruct b; cbn [finder_of fd_keep find_rust find_go find_php find_foundry find_hardhat find_vitest find_anchor_mocha find_anchor_vitest ts_keep e_is_file e_is_dir negb orb left_out]; try tauto.
  - rewrite Bool.andb_true_r, Bool.negb_true_iff. apply text_eqb_neq.
  - rewrite Bool.negb_true_iff. apply text_eqb_neq.
Qed.

(** ** The walk *)
Section Ind.
Context (P : entry -> Prop) (HF : P EFile) (HN : P (EDir None)) (HL : P ELinkDir) (HO : P EOther)
  (HD : forall ks, Forall (fun k => P (snd k)) ks -> P (EDir (Some ks))).
Fixpoint entry_ind' (e : entry) : P e :=
  match e with
  | EFile => HF | ELinkDir => HL | EOther => HO
  | EDir None => HN
  | EDir (Some ks) => HD ks ((fix go (ks : list (text * entry)) : Forall (fun k => P (snd k)) ks :=
      match ks with [] => Forall_nil _ | k :: r => Forall_cons k (entry_ind' (snd k)) (go r) end) ks)
  end.
End Ind.

Section Walk.
Context (ignored : path -> bool) (keep : path -> text -> entry -> bool).
Inductive steps : path -> entry -> list text -> entry -> Prop :=
| st_here p e : steps p e [] e
| st_in p ks n x ns k : In (n, x) ks -> ignored (p ++ [n]) = false -> keep (p ++ [n]) n x = true -> steps (p ++ [n]) x ns k ->
    steps p (EDir (Some ks)) (n :: ns) k.
Lemma below_spec e : forall p o, In o (below_entry ignored keep p e) <->
  exists ns k, steps p e ns k /\ (o = Some (p ++ ns) \/ (o = None /\ k = EDir None)).
Proof.
  assert (B : forall e p o, (forall ks, e <> EDir (Some ks)) -> (In o (below_entry ignored keep p e) <-> o = Some p \/ (o = None /\ e = EDir None)) ->
    (In o (below_entry ignored keep p e) <-> exists ns k, steps p e ns k /\ (o = Some (p ++ ns) \/ (o = None /\ k = EDir None)))).
  { clear e. intros e p o He ->. split.
    - intros H. exists [], e. split; [constructor|]. rewrite app_nil_r. exact H.
    - intros (ns & k & Hs & H). inversion Hs; subst; [rewrite app_nil_r in H; exact H|]. exfalso. eapply He. reflexivity. }
  induction e as [| | | |ks IH] using entry_ind'; intros p o.
  - apply B; [discriminate|]. cbn. intuition (try discriminate; eauto).
  - apply B; [discriminate|]. cbn. intuition (try discriminate; eauto).
  - apply B; [discriminate|]. cbn. intuition (try discriminate; eauto).
  - apply B; [discriminate|]. cbn. intuition (try discriminate; eauto).
  - cbn [below_entry].
    set (go := fix go (ks : list (text * entry)) : list (option path) := _).
    assert (G : forall l, (forall x, In x l -> In x ks) -> (In o (go l) <-> exists n x, In (n, x) l /\ ignored (p ++ [n]) = false /\ keep (p ++ [n]) n x = true /\ In o (below_entry ignored keep (p ++ [n]) x))).
    { induction l as [|[n x] l IHl]; intros Hsub; cbn [go]; [split; [intros []|intros (n & x & [] & _)]|]. fold go. rewrite in_app_iff, IHl by (intros y Hy; apply Hsub; right; exact Hy). split.
      - intros [H|(m & y & H1 & H2)]; [|exists m, y; split; [right; exact H1|exact H2]]. destruct (ignored (p ++ [n])) eqn:I; [destruct H|]. destruct (keep (p ++ [n]) n x) eqn:K; [|destruct H].
        exists n, x. split; [left; reflexivity|auto].
      - intros (m & y & [H1|H1] & H2 & H3 & H4); [|right; exists m, y; auto]. injection H1 as <- <-. left. rewrite H2, H3. exact H4. }
    cbn [In]. rewrite (G ks) by auto. rewrite Forall_forall in IH. split.
    + intros [<-|(n & x & H1 & H2 & H3 & H4)].
      * exists [], (EDir (Some ks)). split; [constructor|]. left. rewrite app_nil_r. reflexivity.
      * apply (IH (n, x) H1) in H4. destruct H4 as (ns & k & H4 & H5). exists (n :: ns), k. split; [econstructor; eassumption|]. rewrite <- app_assoc in H5. exact H5.
    + intros (ns & k & Hs & H). inversion Hs as [|p0 ks0 n x ns' k0 H1 H2 H3 H4]; subst.
      * rewrite app_nil_r in H. destruct H as [->|[_ H]]; [left; reflexivity|discriminate].
      * right. exists n, x. split; [exact H1|]. split; [exact H2|]. split; [exact H3|]. apply (IH (n, x) H1). exists ns', k. split; [exact H4|]. rewrite <- app_assoc. exact H.
Qed.
Lemma steps_holds p e ns k : steps p e ns k -> holds e ns k.
Proof. intros H. induction H; econstructor; eassumption. Qed.
End Walk.
Lemma holds_app e a b k : holds e (a ++ b) k <-> exists x, holds e a x /\ holds x b k.
Proof.
  revert e. induction a as [|n a IH]; intros e; cbn [app].
  - split; [intros H; exists e; split; [constructor|exact H]|intros (x & Hx & H); inversion Hx; subst; exact H].
  - split.
    + intros H. inversion H as [|ks n0 x ns k0 H1 H2]; subst. apply IH in H2. destruct H2 as (y & Hy & H2). exists y. split; [econstructor; eassumption|exact H2].
    + intros (x & Hx & H). inversion Hx as [|ks n0 y ns k0 H1 H2]; subst. econstructor; [exact H1|]. apply IH. eauto.
Qed.
Lemma entry_at_holds e : distinct_names e -> forall p k, entry_at e p = Some k <-> holds e p k.
Proof.
  intros HD p. revert e HD. induction p as [|n p IH]; intros e HD k; cbn [entry_at].
  - split; [intros H; injection H as <-; constructor|intros H; inversion H; reflexivity].
  - destruct e as [|[ks|]| |]; try (split; [discriminate|intros H; inversion H]).
    assert (HK : NoDup (map fst ks)) by (apply (HD [] ks); constructor).
    assert (C : forall x, child_entry n ks = Some x <-> In (n, x) ks).
    { clear - HK. induction ks as [|[m y] ks IHk]; intros x; cbn [child_entry]; [split; [discriminate|intros []]|]. cbn [map fst] in HK. inversion HK as [|a b Hn Hd]; subst.
      destruct (text_eqb m n) eqn:Q.
      - apply text_eqb_eq in Q. subst m. split; [intros H; injection H as <-; left; reflexivity|]. intros [H|H]; [injection H as <-; reflexivity|].
        exfalso. apply Hn. apply in_map_iff. exists (n, x). auto.
      - apply text_eqb_neq in Q. rewrite IHk by exact Hd. split; [intros H; right; exact H|]. intros [H|H]; [injection H as H; congruence|exact H]. }
    split.
    + destruct (child_entry n ks) as [x|] eqn:X; [|discriminate]. intros H. pose proof (proj1 (C x) eq_refl) as Xi. econstructor; [exact Xi|]. apply IH; [|exact H].
      intros ns ks' Hx. apply (HD (n :: ns)). econstructor; eassumption.
    + intros H. inversion H as [|ks0 n0 x ns k0 H1 H2]; subst. pose proof H1 as H1'. apply C in H1. rewrite H1. apply IH; [|exact H2].
      intros ns ks' Hx. apply (HD (n :: ns)). econstructor; eassumption.
Qed.
Lemma at_full_holds root tree : distinct_names tree -> forall p k, at_full root tree (root ++ p) = Some k <-> holds tree p k.
Proof. intros HD p k. unfold at_full. rewrite (proj2 (strip_components_spec root (root ++ p) p) eq_refl). apply entry_at_holds. exact HD. Qed.

Section Backend.
Context (ignored : path -> bool) (b : backend).
Notation keep := (fd_keep (finder_of b)).
Lemma open_way_cons start n ns : open_way ignored b start (n :: ns) <-> (ignored (start ++ [n]) = false /\ ~ left_out b n) /\ open_way ignored b (start ++ [n]) ns.
Proof.
  split.
  - intros H. split; [apply (H [] n ns); reflexivity|]. intros pre m post ->. rewrite <- app_assoc. apply (H (n :: pre) m post). reflexivity.
  - intros [H1 H2] pre m post Q. destruct pre as [|x pre]; cbn in Q; inversion Q; subst; [exact H1|]. specialize (H2 pre m post eq_refl). rewrite <- app_assoc in H2. exact H2.
Qed.
Lemma snoc_cons {A} (n : A) ns pre m : n :: ns = pre ++ [m] -> (pre = [] /\ m = n /\ ns = []) \/ exists pre', pre = n :: pre' /\ ns = pre' ++ [m].
Proof. intros H. destruct pre as [|x pre]; cbn in H; inversion H; subst; [left; auto|right; eauto]. Qed.
Lemma steps_file p e ns : steps ignored keep p e ns EFile <->
  holds e ns EFile /\ open_way ignored b p ns /\ forall pre n, ns = pre ++ [n] -> test_file_name b n.
Proof.
  revert p e. induction ns as [|n ns IH]; intros p e.
  - split.
    + intros H. inversion H; subst. split; [constructor|]. split; [intros [|] ? ? Q; discriminate|intros [|] ? Q; discriminate].
    + intros (H & _). inversion H; subst. constructor.
  - split.
    + intros H. inversion H as [|p0 ks n0 x ns' k0 H1 H2 H3 H4]; subst. apply IH in H4. destruct H4 as (H5 & H6 & H7). split; [econstructor; eassumption|].
      assert (D : x = EFile /\ ns = [] \/ exists l, x = EDir (Some l) /\ ns <> []) by (inversion H5; subst; [left; auto|right; eexists; split; [reflexivity|discriminate]]).
      split.
      * apply open_way_cons. split; [|exact H6]. split; [exact H2|]. destruct D as [[-> _]|(l & -> & _)]; [apply keep_file in H3; tauto|apply keep_dir in H3; exact H3].
      * intros pre m Q. apply snoc_cons in Q. destruct Q as [(_ & -> & Q)|(pre' & _ & Q)]; [|exact (H7 pre' m Q)].
        destruct D as [[-> _]|(l & _ & Hn)]; [apply keep_file in H3; tauto|contradiction].
    + intros (H & Ho & Hl). inversion H as [|ks n0 x ns' k0 H1 H2]; subst. apply open_way_cons in Ho. destruct Ho as [[H3 H4] H5]. econstructor; [exact H1|exact H3| |].
      * inversion H2; subst; [apply keep_file; split; [apply (Hl [] n); reflexivity|exact H4]|apply keep_dir; exact H4].
      * apply IH. split; [exact H2|]. split; [exact H5|]. intros pre m ->. apply (Hl (n :: pre) m). reflexivity.
Qed.
Lemma steps_unreadable p e ns : steps ignored keep p e ns (EDir None) <-> holds e ns (EDir None) /\ open_way ignored b p ns.
Proof.
  revert p e. induction ns as [|n ns IH]; intros p e.
  - split.
    + intros H. inversion H; subst. split; [constructor|]. intros [|] ? ? Q; discriminate.
    + intros (H & _). inversion H; subst. constructor.
  - split.
    + intros H. inversion H as [|p0 ks n0 x ns' k0 H1 H2 H3 H4]; subst. apply IH in H4. destruct H4 as (H5 & H6). split; [econstructor; eassumption|].
      apply open_way_cons. split; [|exact H6]. split; [exact H2|]. assert (D : exists l, x = EDir l) by (inversion H5; subst; eauto). destruct D as (l & ->). apply keep_dir in H3. exact H3.
    + intros (H & Ho). inversion H as [|ks n0 x ns' k0 H1 H2]; subst. apply open_way_cons in Ho. destruct Ho as [[H3 H4] H5]. econstructor; [exact H1|exact H3| |apply IH; auto].
      assert (D : exists l, x = EDir l) by (inversion H2; subst; eauto). destruct D as (l & ->). apply keep_dir. exact H4.
Qed.
Lemma subdir_start : fd_subdir (finder_of b) = start_dir b.
Proof. destruct b; reflexivity. Qed.
End Backend.

(** ** C70 *)
(** Given a directory, a back end reads the files at or below the place where it looks for tests, that have the names of test files, and that are not
    behind an ignored or left out directory - and no others. *)
Theorem C70_found : forall ignored b root tree d f, distinct_names tree -> (exists l, holds tree d (EDir l)) ->
  (In (root ++ f) (files_in (fs_is_dir root tree) (fs_is_file root tree) (walk_dir ignored root tree (finder_of b)) (root ++ d)) <->
   test_file ignored b root tree d f).
Proof.
  intros ignored b root tree d f HD (l & Hd). unfold files_in.
  assert (D : fs_is_dir root tree (root ++ d) = true) by (unfold fs_is_dir; rewrite (proj2 (at_full_holds root tree HD d _) Hd); reflexivity). rewrite D.
  unfold walk_dir. rewrite subdir_start, <- app_assoc. rewrite in_flat_map. unfold test_file. split.
  - intros (o & Ho & H). destruct o as [q|]; [|destruct H]. destruct (fs_is_file root tree q) eqn:F; [|destruct H]. destruct H as [->|[]].
    unfold fs_is_file in F. destruct (at_full root tree (root ++ f)) as [k|] eqn:A; [|discriminate]. destruct k; try discriminate. apply at_full_holds in A; [|exact HD].
    destruct (at_full root tree (root ++ d ++ start_dir b)) as [e|] eqn:Ae; [|destruct Ho as [Ho|[]]; discriminate]. apply at_full_holds in Ae; [|exact HD].
    apply below_spec in Ho. destruct Ho as (ns & k & Hs & [Ho|[Ho _]]); [|discriminate]. injection Ho as Ho. rewrite <- !app_assoc in Ho. apply app_inv_head in Ho. exists ns. split; [exact Ho|]. split; [exact A|].
    assert (k = EFile).
    { pose proof (steps_holds _ _ _ _ _ _ Hs) as Hh. rewrite Ho, app_assoc in A. apply holds_app in A. destruct A as (x & A1 & A2).
      apply entry_at_holds in A1, Ae; try exact HD. rewrite Ae in A1. injection A1 as <-.
      assert (HDe : distinct_names e) by (intros ns' ks' Hx; apply entry_at_holds in Ae; [|exact HD]; apply (HD ((d ++ start_dir b) ++ ns')); apply holds_app; eauto).
      apply entry_at_holds in A2, Hh; try exact HDe. congruence. }
    subst k. apply steps_file in Hs. tauto.
  - intros (ns & -> & A & Hw & Hn). exists (Some (root ++ d ++ start_dir b ++ ns)). split.
    + pose proof A as A0. rewrite app_assoc in A0. apply holds_app in A0. destruct A0 as (e & A1 & A2).
      rewrite (proj2 (at_full_holds root tree HD (d ++ start_dir b) e) A1). apply below_spec. exists ns, EFile. split; [|left; rewrite <- !app_assoc; reflexivity]. apply steps_file. auto.
    + unfold fs_is_file. rewrite (proj2 (at_full_holds root tree HD _ EFile) A). left. reflexivity.
Qed.
Print Assumptions C70_found.

(** The search fails iff the place where it starts does not exist, or a directory it comes to cannot be read. *)
Theorem C70_fails : forall ignored b root tree d, distinct_names tree ->
  (In None (walk_dir ignored root tree (finder_of b) (root ++ d)) <->
   (forall k, ~ holds tree (d ++ start_dir b) k) \/
   exists ns, holds tree (d ++ start_dir b ++ ns) (EDir None) /\ open_way ignored b (root ++ d ++ start_dir b) ns).
Proof.
  intros ignored b root tree d HD. unfold walk_dir. rewrite subdir_start, <- app_assoc. destruct (at_full root tree (root ++ d ++ start_dir b)) as [e|] eqn:A.
  - apply at_full_holds in A; [|exact HD]. rewrite below_spec. split.
    + intros (ns & k & Hs & [H|[_ ->]]); [discriminate|]. right. exists ns. apply steps_unreadable in Hs. destruct Hs as [H1 H2]. split; [|exact H2]. rewrite app_assoc. apply holds_app. eauto.
    + intros [H|(ns & H1 & H2)]; [destruct (H e A)|]. exists ns, (EDir None). split; [|auto]. apply steps_unreadable. split; [|exact H2]. rewrite app_assoc in H1. apply holds_app in H1.
      destruct H1 as (x & H1 & H3). apply entry_at_holds in H1, A; try exact HD. congruence.
  - split; [|intros _; left; reflexivity]. intros _. left. intros k Hk. apply (at_full_holds root tree HD) in Hk. congruence.
Qed.
Print Assumptions C70_fails.

(** No file is found twice. *)
Definition somes (l : list (option path)) : list path := flat_map (fun o => match o with Some p => [p] | None => [] end) l.
Lemma somes_in l q : In q (somes l) <-> In (Some q) l.
Proof. unfold somes. rewrite in_flat_map. split; [intros (o & Ho & H); destruct o; [destruct H as [->|[]]; exact Ho|destruct H]|intros H; exists (Some q); split; [exact H|left; reflexivity]]. Qed.
Lemma somes_app a b : somes (a ++ b) = somes a ++ somes b.
Proof. unfold somes. apply flat_map_app. Qed.
Lemma nodup_join {A} (a b : list A) : NoDup a -> NoDup b -> (forall x, In x a -> ~ In x b) -> NoDup (a ++ b).
Proof.
  intros Ha Hb H. induction Ha as [|x a Hx Ha IH]; cbn [app]; [exact Hb|]. constructor.
  - intros Hin. apply in_app_iff in Hin. destruct Hin as [Hin|Hin]; [contradiction|]. apply (H x (or_introl eq_refl) Hin).
  - apply IH. intros y Hy. apply H. right. exact Hy.
Qed.
Lemma below_once ignored keep e : distinct_names e -> forall p, NoDup (somes (below_entry ignored keep p e)).
Proof.
  induction e as [| | | |ks IH] using entry_ind'; intros HD p; try (cbn; repeat constructor; intros []).
  rewrite Forall_forall in IH. cbn [below_entry]. set (go := fix go (ks : list (text * entry)) : list (option path) := _).
  assert (HK : NoDup (map fst ks)) by (apply (HD [] ks); constructor).
  assert (G : forall l, NoDup (map fst l) -> (forall x, In x l -> In x ks) ->
    NoDup (somes (go l)) /\ forall q, In q (somes (go l)) -> exists n x r, In (n, x) l /\ q = p ++ n :: r).
  { induction l as [|[n x] l IHl]; intros Hl Hs; cbn [go]; [split; [constructor|intros q []]|]. fold go. cbn [map fst] in Hl. inversion Hl as [|a c Hn Hl']; subst.
    destruct (IHl Hl') as [G1 G2]; [intros y Hy; apply Hs; right; exact Hy|].
    assert (X : NoDup (somes (if ignored (p ++ [n]) || negb (keep (p ++ [n]) n x) then [] else below_entry ignored keep (p ++ [n]) x)) /\
      forall q, In q (somes (if ignored (p ++ [n]) || negb (keep (p ++ [n]) n x) then [] else below_entry ignored keep (p ++ [n]) x)) -> exists r, q = p ++ n :: r).
    { destruct (ignored (p ++ [n]) || negb (keep (p ++ [n]) n x)); [split; [constructor|intros q []]|]. split.
      - apply (IH (n, x)); [apply Hs; left; reflexivity|]. intros ns' ks' Hx. apply (HD (n :: ns')). econstructor; [apply Hs; left; reflexivity|exact Hx].
      - intros q Hq. apply somes_in, below_spec in Hq. destruct Hq as (ns & k & _ & [Q|[Q _]]); [|discriminate]. injection Q as ->. exists ns. rewrite <- app_assoc. reflexivity. }
    destruct X as [X1 X2]. rewrite somes_app. split.
    - apply nodup_join; [exact X1|exact G1|]. intros q Hq Hq'. destruct (X2 q Hq) as (r & ->). destruct (G2 _ Hq') as (m & y & r' & Hm & Q). apply app_inv_head in Q. injection Q as -> _.
      apply Hn. apply in_map_iff. exists (m, y). auto.
    - intros q Hq. apply in_app_iff in Hq. destruct Hq as [Hq|Hq]; [destruct (X2 q Hq) as (r & ->); exists n, x, r; split; [left; reflexivity|reflexivity]|].
      destruct (G2 q Hq) as (m & y & r & H1 & H2). exists m, y, r. split; [right; exact H1|exact H2]. }
  destruct (G ks HK (fun _ H => H)) as [G1 G2]. change (Some p :: go ks) with ([Some p] ++ go ks). rewrite somes_app. apply nodup_join; [repeat constructor; intros []|exact G1|].
  intros q [<-|[]] Hq. destruct (G2 p Hq) as (n & x & r & _ & Q). apply (f_equal (@length text)) in Q. rewrite app_length in Q. cbn in Q. lia.
Qed.
Theorem C70_each_once : forall ignored b root tree d, distinct_names tree ->
  NoDup (files_in (fs_is_dir root tree) (fs_is_file root tree) (walk_dir ignored root tree (finder_of b)) (root ++ d)).
Proof.
  intros ignored b root tree d HD. unfold files_in. destruct (fs_is_dir root tree (root ++ d)).
  - assert (N : NoDup (somes (walk_dir ignored root tree (finder_of b) (root ++ d)))).
    { unfold walk_dir. rewrite <- app_assoc. destruct (at_full root tree (root ++ d ++ fd_subdir (finder_of b))) as [e|] eqn:A; [|constructor]. apply below_once.
      apply at_full_holds in A; [|exact HD]. intros ns ks Hx. apply (HD ((d ++ fd_subdir (finder_of b)) ++ ns)). apply holds_app. eauto. }
    revert N. generalize (walk_dir ignored root tree (finder_of b) (root ++ d)). induction l as [|[q|] l IH]; intros N; [constructor| |exact (IH N)].
    change (somes (Some q :: l)) with (q :: somes l) in N. inversion N as [|a c Hn Hl]; subst. cbn [flat_map]. destruct (fs_is_file root tree q); [|exact (IH Hl)].
    cbn [app]. constructor; [|exact (IH Hl)]. intros Hq. apply Hn. apply somes_in. apply in_flat_map in Hq. destruct Hq as (o & Ho & H). destruct o as [q'|]; [|destruct H].
    destruct (fs_is_file root tree q'); [|destruct H]. destruct H as [->|[]]. exact Ho.
  - destruct (fs_is_file root tree (root ++ d)); repeat constructor; intros [].
Qed.
Print Assumptions C70_each_once.

(** A run without source files named: a file is listed iff it is a test file that does not contain a directive to skip it, and that can be parsed. *)
Section Listed.
Context (alphanumeric : char -> bool) (fw : M_Visitor.framework) (own : builtin) (parse_file : path -> text -> option pfile) (denied : warning -> bool)
  (root : path) (read : path -> option text) (ignored : path -> bool) (tree : entry) (b : backend).
Notation parse := (parse alphanumeric fw own parse_file denied root read (fs_is_dir root tree) (fs_is_file root tree) (walk_dir ignored root tree (finder_of b))).
Lemma file_not_dir p : fs_is_file root tree p = true -> fs_is_dir root tree p = false.
Proof. unfold fs_is_file, fs_is_dir. destruct (at_full root tree p) as [[| | |]|]; try discriminate; reflexivity. Qed.
(** Source files named: a file is read because it is named, whatever its name and place, or because a directory it is
    found from is named. *)
Definition found_from (given : list path) (p : path) : Prop :=
  exists s, In s given /\ ((s = p /\ holds tree p EFile) \/ (exists l, holds tree s (EDir l)) /\ test_file ignored b root tree s p).
Notation visited := (visited root (fs_is_dir root tree) (fs_is_file root tree) (walk_dir ignored root tree (finder_of b))).
Notation files_in := (files_in (fs_is_dir root tree) (fs_is_file root tree) (walk_dir ignored root tree (finder_of b))).
(** Paths are canonical when they get here: no links. *)
Definition canonical (given : list path) : Prop := forall s, In s given -> exists k, holds tree s k /\ k <> ELinkDir.
Lemma files_in_named : distinct_names tree -> forall s k, holds tree s k -> k <> ELinkDir -> forall p, In (root ++ p) (files_in (root ++ s)) <->
  (s = p /\ holds tree p EFile) \/ (exists l, holds tree s (EDir l)) /\ test_file ignored b root tree s p.
Proof.
  intros HD s k Hk Nk p. pose proof (proj2 (at_full_holds root tree HD s k) Hk) as A.
  assert (U : forall k', holds tree s k' -> k' = k) by (intros k' H; apply (at_full_holds root tree HD) in H; congruence).
  destruct k as [|l| |]; [| |congruence|].
  - unfold P_Parsing.files_in, fs_is_dir, fs_is_file. rewrite A. cbn [e_is_dir e_is_file]. split.
    + intros [E|[]]. apply app_inv_head in E. subst. left. auto.
    + intros [[-> _]|[(l & Hl) _]]; [left; reflexivity|]. apply U in Hl. discriminate.
  - etransitivity; [apply C70_found; [exact HD|eauto]|]. split; [intros T; right; eauto|]. intros [[-> Hf]|[_ T]]; [|exact T]. apply U in Hf. discriminate.
  - unfold P_Parsing.files_in, fs_is_dir, fs_is_file. rewrite A. cbn [e_is_dir e_is_file]. split; [intros []|].
    intros [[-> Hf]|[(l & Hl) _]]; [apply U in Hf|apply U in Hl]; discriminate.
Qed.
Theorem C70_listed_named : distinct_names tree -> forall given, given <> [] -> canonical given ->
  forall cfg ws n m, parse cfg (map (app root) given) = (ws, Ok (n, m)) ->
  forall p, (exists x, In (p, x) m) <->
    found_from given p /\ exists contents f, read (root ++ p) = Some contents /\ ~ marked alphanumeric contents /\ parse_file p contents = Some f.
Proof.
  intros HD given Ne Cn cfg ws n m H p.
  assert (V : In (root ++ p) (visited (map (app root) given)) <-> found_from given p).
  { assert (Z : visited (map (app root) given) = flat_map files_in (map (app root) given)) by (destruct given; [congruence|reflexivity]).
    rewrite Z, in_flat_map. unfold found_from. split.
    - intros (r & Hr & Hp). apply in_map_iff in Hr. destruct Hr as (s & <- & Hs). destruct (Cn s Hs) as (k & Hk & Nk). exists s. split; [exact Hs|]. apply (files_in_named HD s k Hk Nk p). exact Hp.
    - intros (s & Hs & Hp). destruct (Cn s Hs) as (k & Hk & Nk). exists (root ++ s). split; [apply in_map; exact Hs|]. apply (files_in_named HD s k Hk Nk p). exact Hp. }
  rewrite <- V. split.
  - intros (x & Hx). destruct (C39_each_file_alone _ _ _ _ _ _ _ _ _ _ _ _ _ _ _ file_not_dir H) as [_ Q]. apply Q in Hx. destruct Hx as [Hv Hx]. split; [exact Hv|].
    destruct (C39_files_listed _ _ _ _ _ _ _ _ _ _ _ _ _ _ _ H p Hv) as (contents & Hr & Hiff).
    assert (Hex : exists x, In (p, x) m) by (exists x; apply Q; auto). apply Hiff in Hex. destruct Hex as (Hm & f & Hf). exists contents, f. auto.
  - intros (Hv & contents & f & Hr & Hm & Hf). destruct (C39_files_listed _ _ _ _ _ _ _ _ _ _ _ _ _ _ _ H p Hv) as (contents' & Hr' & Hiff). rewrite Hr in Hr'. injection Hr' as <-.
    apply Hiff. eauto.
Qed.
Lemma parse_default cfg : parse cfg [] = parse cfg [root ++ []].
Proof. rewrite app_nil_r. reflexivity. Qed.
(** No source files named: the test files below the root. *)
Theorem C70_listed : distinct_names tree -> (exists l, tree = EDir l) -> forall cfg ws n m, parse cfg [] = (ws, Ok (n, m)) ->
  forall p, (exists x, In (p, x) m) <->
    test_file ignored b root tree [] p /\ exists contents f, read (root ++ p) = Some contents /\ ~ marked alphanumeric contents /\ parse_file p contents = Some f.
Proof.
  intros HD (l & El) cfg ws n m H p. rewrite parse_default in H. change [root ++ []] with (map (app root) [[]]) in H.
  etransitivity; [apply (C70_listed_named HD [[]] ltac:(discriminate)) with (2 := H)|].
  - intros s [<-|[]]. exists tree. split; [constructor|]. rewrite El. discriminate.
  - unfold found_from. split.
    + intros [(s & [<-|[]] & [[<- Hf]|[_ T]]) R]; [|split; assumption]. inversion Hf as [e Q|]; subst. discriminate.
    + intros [T R]. split; [|exact R]. exists []. split; [left; reflexivity|]. right. split; [|exact T]. exists l. rewrite El. constructor.
Qed.
(** When looking for test files makes a run fail: a directory cannot be read, or the back end's directory of tests is not there. *)
Theorem C70_fails_named : distinct_names tree -> forall given, given <> [] -> canonical given -> forall s, In s given -> (exists l, holds tree s (EDir l)) ->
  (forall k, ~ holds tree (s ++ start_dir b) k) \/
  (exists ns, holds tree (s ++ start_dir b ++ ns) (EDir None) /\ open_way ignored b (root ++ s ++ start_dir b) ns) ->
  forall cfg ws n m, parse cfg (map (app root) given) <> (ws, Ok (n, m)).
Proof.
  intros HD given Ne Cn s Hs (l & Hl) Hbad cfg ws n m H.
  destruct (proj1 (C39_succeeds_iff alphanumeric fw own parse_file denied root read _ _ (walk_dir ignored root tree (finder_of b)) cfg (map (app root) given) file_not_dir)) as (_ & W & _); [eauto|].
  apply (C70_fails ignored b root tree s HD) in Hbad. revert Hbad. apply W.
  - destruct given as [|g0 given]; [congruence|]. apply in_map. exact Hs.
  - unfold fs_is_dir. rewrite (proj2 (at_full_holds root tree HD s _) Hl). reflexivity.
Qed.
End Listed.
Print Assumptions C70_listed_named.
Print Assumptions C70_listed.
Print Assumptions C70_fails_named.

(** ** A tree *)
Definition z_tree : entry := EDir (Some
  [(s2t "test", EDir (Some
      [(s2t "a.t.sol", EFile); (s2t "b.sol", EFile); (s2t "build", EDir (Some [(s2t "c.t.sol", EFile)]));
       (s2t "sub", EDir (Some [(s2t "d.t.sol", EFile); (s2t "e_test.go", EFile); (s2t "f.test-d.ts", EFile); (s2t ".rs", EFile)])); (s2t "link", ELinkDir)]));
   (s2t "target", EDir (Some [(s2t "g.rs", EFile); (s2t "h_test.go", EFile)]));
   (s2t "vendor", EDir (Some [(s2t "ITest.php", EFile); (s2t "i.rs", EFile)]));
   (s2t "JTest.php", EFile); (s2t "k.rs", EFile); (s2t "l.ts", EFile)]).
Definition z_ignored (p : path) : bool := match rev p with n :: _ => text_eqb n (s2t "build") | [] => false end.
Definition z_files (b : backend) (d : path) :=
  files_in (fs_is_dir y_root z_tree) (fs_is_file y_root z_tree) (walk_dir z_ignored y_root z_tree (finder_of b)) (y_root ++ d).
Example z_foundry : z_files BFoundry [] = [[s2t "r"; s2t "test"; s2t "a.t.sol"]; [s2t "r"; s2t "test"; s2t "sub"; s2t "d.t.sol"]].
Proof. vm_compute. reflexivity. Qed.
Example z_rust : z_files BRust [] = [[s2t "r"; s2t "vendor"; s2t "i.rs"]; [s2t "r"; s2t "k.rs"]].
Proof. vm_compute. reflexivity. Qed.
Example z_go : z_files BGo [] = [[s2t "r"; s2t "test"; s2t "sub"; s2t "e_test.go"]; [s2t "r"; s2t "target"; s2t "h_test.go"]].
Proof. vm_compute. reflexivity. Qed.
Example z_php : z_files BPhp [] = [[s2t "r"; s2t "JTest.php"]].
Proof. vm_compute. reflexivity. Qed.
Example z_hardhat : z_files BHardhat [] = [[s2t "r"; s2t "test"; s2t "sub"; s2t "f.test-d.ts"]].
Proof. vm_compute. reflexivity. Qed.
Example z_vitest : z_files BVitest [] = [[s2t "r"; s2t "l.ts"]].
Proof. vm_compute. reflexivity. Qed.
Lemma z_distinct : distinct_names z_tree.
Proof.
  intros ns ks H. unfold z_tree in H.
  repeat match goal with
  | H : holds (EDir (Some _)) _ _ |- _ => inversion H; clear H; subst
  | H : holds EFile _ _ |- _ => inversion H; clear H; subst
  | H : holds ELinkDir _ _ |- _ => inversion H; clear H; subst
  | H : In _ [] |- _ => destruct H
  | H : In _ (_ :: _) |- _ => destruct H as [H|H]; [inversion H; clear H; subst|]
  end; try (vm_compute; repeat constructor; vm_compute; intuition discriminate).
Qed.
Example C70_found_nonvacuous : test_file z_ignored BFoundry y_root z_tree [] [s2t "test"; s2t "sub"; s2t "d.t.sol"].
Proof. apply C70_found; [exact z_distinct|eexists; constructor|]. vm_compute. auto. Qed.

(** What is not so: naming the directory that holds the tests. A back end that looks in [test] looks there below each
    directory it is given, so naming that directory itself fails, or reads other files. *)
Definition w_tree : entry := EDir (Some [(s2t "test", EDir (Some [(s2t "a.t.sol", EFile)]))]).
Definition w_read (p : path) : option text := if path_eqb p [s2t "r"; s2t "test"; s2t "a.t.sol"] then Some P_Visitor.g_ct else None.
Definition w_parse (sf : list path) := parse ascii_alphanumeric fw_go go_builtin y_parser (fun _ => false) y_root w_read
  (fs_is_dir y_root w_tree) (fs_is_file y_root w_tree) (walk_dir (fun _ => false) y_root w_tree (finder_of BFoundry)) y_cfg sf.
Theorem C70_directory_refuted : exists fw own parser root read tree cfg dir file ws n m,
  let run := parse ascii_alphanumeric fw own parser (fun _ => false) root read
               (fs_is_dir root tree) (fs_is_file root tree) (walk_dir (fun _ => false) root tree (finder_of BFoundry)) cfg in
  distinct_names tree /\ (exists l, holds tree [dir] (EDir (Some l)) /\ In (file, EFile) l) /\
  run [] = (ws, Ok (n, m)) /\ (exists x, In ([dir; file], x) m) /\
  (forall ws' n' m', run [root ++ [dir]] <> (ws', Ok (n', m'))).
Proof.
  exists fw_go, go_builtin, y_parser, y_root, w_read, w_tree, y_cfg, (s2t "test"), (s2t "a.t.sol"), [], 1%nat, [([s2t "test"; s2t "a.t.sol"], s_maps P_Visitor.g_st)].
  intros run. split; [|split; [|split; [|split]]].
  - intros ns ks H. unfold w_tree in H.
    repeat match goal with
    | H : holds (EDir (Some _)) _ _ |- _ => inversion H; clear H; subst
    | H : holds EFile _ _ |- _ => inversion H; clear H; subst
    | H : In _ [] |- _ => destruct H
    | H : In _ (_ :: _) |- _ => destruct H as [H|H]; [inversion H; clear H; subst|]
    end; repeat constructor; intros [].
  - eexists. split; [eapply ho_in; [left; reflexivity|constructor]|left; reflexivity].
  - vm_compute. reflexivity.
  - eexists. left. reflexivity.
  - intros ws' n' m'. vm_compute. discriminate.
Qed.
Print Assumptions C70_directory_refuted.
