(** A decision procedure for [placed], for examples. *)
From Verif Require Import Base M_Text S_Text L_Text M_Rewriter M_Span L_Span M_Run L_Run S_Placed S_Layout L_Layout.

Fixpoint parts_of (t : geo) : list geo := match t with Geo _ _ l => t :: flat_map parts_of l end.
Lemma part_parts : forall t u, part t u -> In u (parts_of t).
Proof.
  intros t u H. induction H as [[s b l]|[s b l] k u I P IH]; [left; reflexivity|]. cbn [parts_of]. right. apply in_flat_map. exists k. split; [exact I|exact IH].
Qed.
Definition leb_lc (a b : line_column) : bool := match lc_compare a b with Gt => false | _ => true end.
Definition ltb_lc (a b : line_column) : bool := match lc_compare a b with Lt => true | _ => false end.
Definition eqb_lc (a b : line_column) : bool := match lc_compare a b with Eq => true | _ => false end.
Lemma ltb_lc_lt a b : ltb_lc a b = true -> lc_lt a b.
Proof. unfold ltb_lc. destruct (lc_compare a b) eqn:E; try discriminate. intros _. apply lc_compare_lt. exact E. Qed.
Lemma eqb_lc_eq a b : eqb_lc a b = true -> a = b.
Proof. unfold eqb_lc. destruct (lc_compare a b) eqn:E; try discriminate. intros _. apply lc_compare_eq. exact E. Qed.
Lemma leb_lc_le a b : leb_lc a b = true -> lc_le a b.
Proof.
  unfold leb_lc. destruct (lc_compare a b) eqn:E; try discriminate; intros _; [left; apply lc_compare_eq; exact E|right; apply lc_compare_lt; exact E].
Qed.
Definition piece_b (p : path) (contents : text) (t : geo) : bool :=
  path_eqb (sp_path (g_span t)) p &&
  match char_offset contents (sp_start (g_span t)), char_offset contents (sp_end (g_span t)) with
  | Some i, Some j => (i <=? j)%nat && (j <=? length contents)%nat && eqb_lc (pos (firstn i contents)) (sp_start (g_span t)) && eqb_lc (pos (firstn j contents)) (sp_end (g_span t))
      && (negb (g_stmt t) || (i <? j)%nat)
  | _, _ => false
  end.
Definition kid_b (t k : geo) : bool := leb_lc (sp_start (g_span t)) (sp_start (g_span k)) && leb_lc (sp_end (g_span k)) (sp_end (g_span t)).
Definition busy (t : geo) : bool := existsb g_stmt (parts_of t).
Definition apart_two (k k' : geo) : bool :=
  negb (busy k) || negb (busy k') || leb_lc (sp_end (g_span k)) (sp_start (g_span k')) || leb_lc (sp_end (g_span k')) (sp_start (g_span k)).
Fixpoint apart_b (l : list geo) : bool := match l with [] => true | k :: r => forallb (apart_two k) r && apart_b r end.
Definition first_b (s : geo) : bool :=
  negb (g_stmt s) || forallb (fun k => forallb (fun s' => negb (g_stmt s') || ltb_lc (sp_start (g_span s)) (sp_start (g_span s'))) (parts_of k)) (g_kids s).
Definition laid (p : path) (contents : text) (roots : list geo) : bool :=
  apart_b roots && forallb (fun t => piece_b p contents t && forallb (kid_b t) (g_kids t) && apart_b (g_kids t) && first_b t) (flat_map parts_of roots).
Lemma apart_spec l : apart_b l = true -> apart l.
Proof.
  intros H l1. revert l H. induction l1 as [|x l1 IH]; intros l H k l2 k' l3 s s' E P S P' S'; subst l; cbn [app apart_b] in H; apply andb_true_iff in H as [H1 H2].
  - rewrite forallb_forall in H1. specialize (H1 k' (in_elt k' l2 l3)).
    assert (B : busy k = true) by (apply existsb_exists; exists s; split; [apply part_parts; exact P|exact S]).
    assert (B' : busy k' = true) by (apply existsb_exists; exists s'; split; [apply part_parts; exact P'|exact S']).
    unfold apart_two in H1. rewrite B, B' in H1. cbn [negb orb] in H1. apply orb_true_iff in H1 as [H1|H1]; [left|right]; apply leb_lc_le; exact H1.
  - exact (IH _ H2 k l2 k' l3 s s' eq_refl P S P' S').
Qed.
Lemma laid_spec p contents roots : laid p contents roots = true -> placed p contents roots.
Proof.
  unfold laid. intros H. apply andb_true_iff in H as [HA H]. rewrite forallb_forall in H.
  assert (K : forall t, part_among roots t -> piece_b p contents t = true /\ forallb (kid_b t) (g_kids t) = true /\ apart_b (g_kids t) = true /\ first_b t = true).
  { intros t (r & I & P). assert (J : In t (flat_map parts_of roots)) by (apply in_flat_map; exists r; split; [exact I|apply part_parts; exact P]).
    specialize (H t J). apply andb_true_iff in H as [H H4]. apply andb_true_iff in H as [H H3]. apply andb_true_iff in H as [H1 H2]. repeat split; assumption. }
  constructor.
  - intros t P. destruct (K t P) as (B & _). unfold piece_b in B. apply andb_true_iff in B as [B1 B]. split; [apply path_eqb_eq; exact B1|].
    destruct (char_offset contents (sp_start (g_span t))) as [i|]; [|discriminate]. destruct (char_offset contents (sp_end (g_span t))) as [j|]; [|discriminate].
    apply andb_true_iff in B as [B B5]. apply andb_true_iff in B as [B B4]. apply andb_true_iff in B as [B B3]. apply andb_true_iff in B as [B2 BL].
    apply Nat.leb_le in B2, BL. apply eqb_lc_eq in B3, B4.
    assert (EQ : firstn j contents = firstn i contents ++ firstn (j - i) (skipn i contents)).
    { rewrite <- (firstn_skipn i contents) at 1. rewrite firstn_app. rewrite firstn_length. replace (Nat.min i (length contents)) with i by lia.
      f_equal. rewrite firstn_firstn. f_equal. lia. }
    exists (firstn i contents), (firstn (j - i) (skipn i contents)), (skipn j contents). split; [split; [|split]|].
    + rewrite app_assoc, <- EQ. symmetry. apply firstn_skipn.
    + exact B3.
    + rewrite <- EQ. exact B4.
    + intros S Z. rewrite S in B5. cbn [negb orb] in B5. apply Nat.ltb_lt in B5. apply (f_equal (@length _)) in Z. rewrite firstn_length, skipn_length in Z. cbn [length] in Z. lia.
  - intros t k P I. destruct (K t P) as (_ & B & _). rewrite forallb_forall in B. specialize (B k I). unfold kid_b in B. apply andb_true_iff in B as [B1 B2].
    split; apply leb_lc_le; assumption.
  - apply apart_spec. exact HA.
  - intros t P. destruct (K t P) as (_ & _ & B & _). apply apart_spec. exact B.
  - intros s k s' P S I Q S'. destruct (K s P) as (_ & _ & _ & B). unfold first_b in B. rewrite S in B. cbn [negb orb] in B.
    rewrite forallb_forall in B. specialize (B k I). rewrite forallb_forall in B. specialize (B s' (part_parts _ _ Q)). rewrite S' in B. apply ltb_lc_lt. exact B.
Qed.
