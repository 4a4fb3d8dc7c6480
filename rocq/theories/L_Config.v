(** Matching is decidable: an executable matcher, equivalent to [matches]. *)
From Verif Require Import Base M_Text M_Span M_Run M_Output M_Visitor M_Config.

Definition nilb (t : text) : bool := match t with [] => true | _ => false end.
Lemma nilb_spec t : nilb t = true <-> t = [].
Proof. destruct t; cbn; split; congruence. Qed.

(** Some way of cutting [b] in two. *)
Definition cuts (f : text -> text -> bool) (from : nat) (b : text) : bool :=
  existsb (fun k => f (firstn k b) (skipn k b)) (List.seq from (S (length b) - from)).
Lemma cuts_spec f from b : cuts f from b = true <-> exists b1 b2, b = b1 ++ b2 /\ (from <= length b1)%nat /\ f b1 b2 = true.
Proof.
  unfold cuts. rewrite existsb_exists. split.
  - intros [k [I H]]. apply in_seq in I. exists (firstn k b), (skipn k b). rewrite firstn_skipn. split; [reflexivity|].
    rewrite firstn_length. split; [lia|exact H].
  - intros [b1 [b2 [-> [L H]]]]. exists (length b1). rewrite app_length, in_seq. split; [lia|].
    rewrite firstn_app, firstn_all, Nat.sub_diag, skipn_app, skipn_all, Nat.sub_diag. cbn. rewrite app_nil_r. exact H.
Qed.

Fixpoint mb (r : re) (a b z : text) {struct r} : bool :=
  match r with
  | RLit c => match b with [x] => N.eqb x c | _ => false end
  | RDot => match b with [x] => negb (N.eqb x NL) | _ => false end
  | RNot c => match b with [x] => negb (N.eqb x c) | _ => false end
  | RBol => nilb a && nilb b
  | REol => nilb b && nilb z
  | RSeq l =>
    (fix sq (l : list re) (a b : text) : bool :=
       match l with
       | [] => nilb b
       | r :: l' => cuts (fun b1 b2 => mb r a b1 (b2 ++ z) && sq l' (a ++ b1) b2) 0 b
       end) l a b
  | RStar r =>
    (fix st (n : nat) (a b : text) : bool :=
       nilb b || match n with
                 | O => false
                 | S n' => cuts (fun b1 b2 => mb r a b1 (b2 ++ z) && st n' (a ++ b1) b2) 1 b
                 end) (length b) a b
  | RPlus r =>
    cuts (fun b1 b2 => mb r a b1 (b2 ++ z) &&
      (fix st (n : nat) (a b : text) : bool :=
       nilb b || match n with
                 | O => false
                 | S n' => cuts (fun b1 b2 => mb r a b1 (b2 ++ z) && st n' (a ++ b1) b2) 1 b
                 end) (length b2) (a ++ b1) b2) 0 b
  end.

Section Star.
Context (r : re) (z : text) (IH : forall a b z, mb r a b z = true <-> matches r a b z).
Fixpoint st (n : nat) (a b : text) : bool :=
  nilb b || match n with
            | O => false
            | S n' => cuts (fun b1 b2 => mb r a b1 (b2 ++ z) && st n' (a ++ b1) b2) 1 b
            end.
Lemma st_sound n : forall a b, st n a b = true -> matches (RStar r) a b z.
Proof.
  induction n as [|n IHn]; intros a b H; cbn [st] in H; apply Bool.orb_true_iff in H as [H|H]; try discriminate;
    try (apply nilb_spec in H; subst; constructor).
  apply cuts_spec in H as [b1 [b2 [-> [_ H]]]]. apply Bool.andb_true_iff in H as [H1 H2]. constructor; [apply IH, H1|apply IHn, H2].
Qed.
Lemma st_complete n : forall a b, (length b <= n)%nat -> matches (RStar r) a b z -> st n a b = true.
Proof.
  assert (G : forall q a b z', matches q a b z' -> q = RStar r -> z' = z -> forall n, (length b <= n)%nat -> st n a b = true).
  { intros q a b z' M. induction M as [| | | | | | | |r' a b1 b2 z0 M1 _ M2 IH2|]; intros Q Z m L; try discriminate; subst z0.
    - destruct m; reflexivity.
    - injection Q as ->. destruct b1 as [|c b1].
      + rewrite app_nil_r in IH2. cbn [app] in *. apply IH2; auto.
      + destruct m as [|m]; [cbn in L; lia|]. cbn [st]. apply Bool.orb_true_iff. right. apply cuts_spec.
        exists (c :: b1), b2. split; [reflexivity|]. split; [cbn; lia|]. apply Bool.andb_true_iff. split; [apply IH, M1|].
        apply IH2; auto. cbn in L. rewrite app_length in L. lia. }
  intros a b L M. eapply G; eauto.
Qed.
End Star.

Lemma mb_spec r : forall a b z, mb r a b z = true <-> matches r a b z.
Proof.
  revert r. fix IH 1. intros r a b z. destruct r as [c| |c| | |l|r|r].
  - cbn. split; [|intros H; inversion H; subst; apply N.eqb_refl].
    destruct b as [|x [|y b]]; try discriminate. intros H. apply N.eqb_eq in H. subst. constructor.
  - cbn. split.
    + destruct b as [|x [|y b]]; try discriminate. destruct (N.eqb_spec x NL); [discriminate|]. intros _. constructor. assumption.
    + intros H. inversion H; subst. destruct (N.eqb_spec c NL); [contradiction|reflexivity].
  - cbn. split.
    + destruct b as [|x [|y b]]; try discriminate. destruct (N.eqb_spec x c); [discriminate|]. intros _. constructor. assumption.
    + intros H. inversion H; subst. destruct (N.eqb_spec d c); [contradiction|reflexivity].
  - cbn. rewrite Bool.andb_true_iff, !nilb_spec. split; [intros [-> ->]; constructor|]. intros H. inversion H; auto.
  - cbn. rewrite Bool.andb_true_iff, !nilb_spec. split; [intros [-> ->]; constructor|]. intros H. inversion H; auto.
  - cbn [mb]. revert a b. induction l as [|r l IHl]; intros a b.
    + rewrite nilb_spec. split; [intros ->; constructor|]. intros H. inversion H; reflexivity.
    + rewrite cuts_spec. split.
      * intros [b1 [b2 [-> [_ H]]]]. apply Bool.andb_true_iff in H as [H1 H2]. constructor; [apply IH, H1|apply IHl, H2].
      * intros H. inversion H; subst. exists b1, b2. split; [reflexivity|]. split; [lia|]. apply Bool.andb_true_iff.
        split; [apply IH; assumption|apply IHl; assumption].
  - change (mb (RStar r) a b z) with (st r z (length b) a b). split; [apply st_sound; exact (IH r)|apply st_complete; [exact (IH r)|lia]].
  - change (mb (RPlus r) a b z) with (cuts (fun b1 b2 => mb r a b1 (b2 ++ z) && st r z (length b2) (a ++ b1) b2) 0 b).
    rewrite cuts_spec. split.
    + intros [b1 [b2 [-> [_ H]]]]. apply Bool.andb_true_iff in H as [H1 H2]. constructor; [apply IH, H1|eapply st_sound; [exact (IH r)|exact H2]].
    + intros H. inversion H; subst. exists b1, b2. split; [reflexivity|]. split; [lia|]. apply Bool.andb_true_iff.
      split; [apply IH; assumption|apply st_complete; [exact (IH r)|lia|assumption]].
Qed.

(** [Regex::is_match], executable. *)
Definition is_match_b (r : re) (t : text) : bool :=
  cuts (fun a bz => cuts (fun b z => mb r a b z) 0 bz) 0 t.
Lemma is_match_b_spec r t : is_match_b r t = true <-> is_match r t.
Proof.
  unfold is_match_b, is_match. rewrite cuts_spec. split.
  - intros [a [bz [-> [_ H]]]]. apply cuts_spec in H as [b [z [-> [_ H]]]]. apply mb_spec in H. exists a, b, z. auto.
  - intros [a [b [z [-> H]]]]. exists a, (b ++ z). split; [reflexivity|]. split; [lia|]. apply cuts_spec. exists b, z. split; [reflexivity|].
    split; [lia|apply mb_spec, H].
Qed.
Definition any_match_b (rs : list re) (name : text) : bool := existsb (fun r => is_match_b r name) rs.
Lemma any_match_b_spec rs name : any_match_b rs name = true <-> any_match rs name.
Proof.
  unfold any_match_b, any_match. rewrite existsb_exists. split; intros [r [I H]]; exists r; (split; [exact I|]); apply is_match_b_spec, H.
Qed.
