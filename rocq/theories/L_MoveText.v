(** Lemmas for C87: a line put into a file. *)
From Verif Require Import Base M_Text S_Text L_Text M_Rewriter M_Span L_Span M_Run M_Output M_Visitor S_Visitor S_Walk M_Parsing M_Directives S_Directives L_Directives L_Positions P_Directives S_Placed S_Move.
From Coq Require Import List Lia PeanoNat.
Local Open Scope list_scope.

Definition whole (a : text) : Prop := a = [] \/ exists a0, a = a0 ++ [NL].
Lemma whole_tail u x : whole (u ++ x) -> x <> [] -> exists x0, x = x0 ++ [NL].
Proof.
  intros [W|[a0 W]] N; [apply app_eq_nil in W as [_ ->]; congruence|]. destruct (exists_last N) as (x0 & c & ->).
  rewrite app_assoc in W. apply app_inj_tail in W as [_ ->]. eauto.
Qed.
Lemma lines_whole : forall k a b, (length a < k)%nat -> whole a -> lines (a ++ b) = lines a ++ lines b /\ length (lines a) = count_nl a.
Proof.
  induction k as [|k IH]; intros a b L W; [lia|]. destruct (first_nl a) as [N|(l & r & -> & N)].
  - destruct W as [->|[a0 ->]]; [split; reflexivity|]. exfalso. apply N, in_or_app. right. left. reflexivity.
  - rewrite app_length in L. cbn [length] in L.
    assert (W' : whole r). { destruct r as [|c r]; [left; reflexivity|]. right. apply (whole_tail (l ++ [NL])); [rewrite <- app_assoc; exact W|discriminate]. }
    rewrite <- app_assoc. cbn [app]. rewrite !lines_nl by exact N. destruct (IH r b ltac:(lia) W') as [-> E]. split; [reflexivity|].
    cbn [length]. rewrite E, count_nl_app, (count_nl_0 _ N). cbn. reflexivity.
Qed.
Lemma advance_down t : forall k c, advance (LC (S k) c) t = LC (S (line (advance (LC k c) t))) (column (advance (LC k c) t)).
Proof. induction t as [|x t IH]; intros k c; [reflexivity|]. cbn [advance line column]. destruct (N.eqb x NL); apply IH. Qed.
Lemma advance_line t : forall p, (line p <= line (advance p t))%nat.
Proof. induction t as [|x t IH]; intros p; [reflexivity|]. cbn [advance]. specialize (IH (if N.eqb x NL then LC (S (line p)) 0 else LC (line p) (S (column p)))). destruct (N.eqb x NL); cbn [line] in IH; lia. Qed.
Lemma pos_count t : line (pos t) = S (count_nl t). Proof. rewrite pos_lines. reflexivity. Qed.
Lemma pos_whole a : whole a -> pos a = LC (S (count_nl a)) 0.
Proof.
  intros [->|[a0 ->]]; [reflexivity|]. unfold pos. rewrite advance_app. cbn [advance]. change (N.eqb NL NL) with true. cbn iota.
  change (advance (LC 1 0) a0) with (pos a0). rewrite pos_count, count_nl_app. cbn. f_equal. lia.
Qed.
Lemma ws_split ws rest ws' rest' : ws ++ rest = ws' ++ rest' -> blank ws -> blank ws' ->
  (rest = [] \/ exists x r, rest = x :: r /\ is_whitespace x = false) -> (rest' = [] \/ exists x r, rest' = x :: r /\ is_whitespace x = false) -> ws = ws'.
Proof.
  revert ws'. induction ws as [|c ws IH]; intros [|c' ws'] Q B B' R R'; cbn in Q.
  - reflexivity.
  - inversion B'; subst. destruct R as [R|(x & r & R & X)]; [discriminate|]. injection R as <- _. congruence.
  - inversion B; subst. destruct R' as [R'|(x & r & R' & X)]; [discriminate|]. injection R' as <- _. congruence.
  - injection Q as <- Q. inversion B; inversion B'; subst. f_equal. eapply IH; eassumption.
Qed.
Lemma first_index_app {A} (f : A -> bool) x y : first_index f (x ++ y) = match first_index f x with Some k => Some k | None => option_map (fun k => length x + k)%nat (first_index f y) end.
Proof.
  induction x as [|c x IH]; cbn [app first_index length]; [destruct (first_index f y); reflexivity|]. destruct (f c); [reflexivity|]. rewrite IH.
  destruct (first_index f x); [reflexivity|]. destruct (first_index f y); reflexivity.
Qed.
Lemma first_index_lt {A} (f : A -> bool) x k : first_index f x = Some k -> (k < length x)%nat.
Proof. intros H. pose proof (first_index_spec f x) as Q. rewrite H in Q. destruct Q as [(y & Q & _) _]. apply nth_error_Some. congruence. Qed.
Lemma offset_bound t k : code_offset t k -> (k <= count_nl t)%nat.
Proof.
  intros [(l & L & _)|[-> _]]; [|lia]. destruct L as (u & eol & v & -> & _ & Q & _). injection Q as ->. rewrite count_nl_app. lia.
Qed.

Section Put.
Variables (a b l : text) (n : nat).
Hypothesis W : whole a.
Hypothesis NL_l : ~ In NL l.
Hypothesis Hn : n = S (count_nl a).
Notation contents := (a ++ b). Notation contents' := (a ++ l ++ NL :: b).

Lemma lower_before u x : a = u ++ x -> x <> [] -> (line (pos u) < n)%nat /\ lower n (pos u) = pos u.
Proof.
  intros Q N. destruct (whole_tail u x) as [x0 ->]; [rewrite <- Q; exact W|exact N|].
  assert (L : (line (pos u) < n)%nat) by (rewrite pos_count, Hn, Q, !count_nl_app; cbn; lia). split; [exact L|].
  unfold lower. destruct (Nat.leb_spec n (line (pos u))); [lia|reflexivity].
Qed.
Lemma lower_after y : (n <= line (pos (a ++ y)))%nat /\ lower n (pos (a ++ y)) = pos (a ++ l ++ NL :: y).
Proof.
  assert (Q : pos (a ++ y) = advance (LC n 0) y) by (unfold pos; rewrite advance_app; change (advance (LC 1 0) a) with (pos a); rewrite pos_whole, Hn by exact W; reflexivity).
  assert (Q' : pos (a ++ l ++ NL :: y) = advance (LC (S n) 0) y).
  { unfold pos. rewrite advance_app. change (advance (LC 1 0) a) with (pos a). rewrite pos_whole, <- Hn by exact W. rewrite advance_app, advance_no_nl by exact NL_l. reflexivity. }
  pose proof (advance_line y (LC n 0)) as L. cbn [line] in L. rewrite Q, Q', advance_down. split; [exact L|]. unfold lower.
  destruct (Nat.leb_spec n (line (advance (LC n 0) y))); [reflexivity|lia].
Qed.

(** How what stands between two places changes. *)
Inductive shifted (before mid after : text) : text -> text -> text -> Prop :=
| sh_above x : a = before ++ mid ++ x -> x <> [] -> after = x ++ b -> shifted before mid after before mid (x ++ l ++ NL :: b)
| sh_below y : before = a ++ y -> shifted before mid after (a ++ l ++ NL :: y) mid after
| sh_around m1 m2 : a = before ++ m1 -> m1 <> [] -> mid = m1 ++ m2 -> shifted before mid after before (m1 ++ l ++ NL :: m2) after.
Lemma between_put p q before mid after : S_Text.between contents p q before mid after ->
  exists before' mid' after', S_Text.between contents' (lower n p) (lower n q) before' mid' after' /\ shifted before mid after before' mid' after'.
Proof.
  intros (Q & <- & <-). destruct (app_eq_app a b before (mid ++ after) Q) as (z & [[Qa Qb]|[Qa Qb]]).
  - destruct z as [|z0 z].
    + rewrite app_nil_r in Qa. subst before. cbn [app] in Qb. exists (a ++ l ++ NL :: []), mid, after.
      split; [|apply sh_below; rewrite app_nil_r; reflexivity]. destruct (lower_after []) as [_ L1]. rewrite app_nil_r in L1. destruct (lower_after mid) as [_ L2].
      rewrite L1, L2, <- Qb. unfold S_Text.between. rewrite <- !app_assoc. cbn [app]. rewrite <- ?app_assoc. cbn [app]. auto.
    + set (m := z0 :: z) in *. assert (N : m <> []) by discriminate. clearbody m. clear z0 z.
      destruct (lower_before before m Qa N) as [_ L1]. rewrite L1. destruct (app_eq_app mid after m b Qb) as (y & [[Qm Qr]|[Qm Qr]]).
      * exists before, (m ++ l ++ NL :: y), after. split; [|eapply sh_around; eauto].
        assert (E1 : before ++ mid = a ++ y) by (rewrite Qa, Qm, <- app_assoc; reflexivity). rewrite E1, (proj2 (lower_after y)).
        split; [rewrite Qr, Qa, <- !app_assoc; cbn [app]; rewrite <- ?app_assoc; reflexivity|]. split; [reflexivity|]. rewrite Qa, <- !app_assoc. reflexivity.
      * destruct y as [|y0 y].
        -- rewrite app_nil_r in Qm. cbn [app] in Qr. subst m after. exists before, (mid ++ l ++ NL :: []), b.
           split; [|eapply sh_around; [exact Qa|exact N|rewrite app_nil_r; reflexivity]].
           pose proof (proj2 (lower_after [])) as L2. rewrite app_nil_r in L2. rewrite <- Qa, L2.
           split; [rewrite Qa, <- !app_assoc; cbn [app]; rewrite <- ?app_assoc; reflexivity|]. split; [reflexivity|]. rewrite Qa, <- !app_assoc. reflexivity.
        -- exists before, mid, ((y0 :: y) ++ l ++ NL :: b). subst m. split; [|apply sh_above; [exact Qa|discriminate|exact Qr]].
           destruct (lower_before (before ++ mid) (y0 :: y)) as [_ L2]; [rewrite <- app_assoc; exact Qa|discriminate|]. rewrite L2.
           split; [rewrite Qa, <- !app_assoc; reflexivity|]. split; reflexivity.
  - subst before. exists (a ++ l ++ NL :: z), mid, after. split; [|apply sh_below; reflexivity].
    rewrite <- (app_assoc a z mid), (proj2 (lower_after z)), (proj2 (lower_after (z ++ mid))).
    split; [rewrite Qb, <- !app_assoc; cbn [app]; rewrite <- ?app_assoc; reflexivity|]. split; [reflexivity|]. rewrite <- !app_assoc. reflexivity.
Qed.

Definition lowered (k : nat) : nat := if Nat.leb n k then S k else k.
Lemma lower_line p : line (lower n p) = lowered (line p).
Proof. unfold lower, lowered. destruct (Nat.leb n (line p)); reflexivity. Qed.

(** The first line with code moves along. *)
Lemma code_put p q before mid after before' mid' after' k : no_code (chomp (l ++ [NL])) ->
  S_Text.between contents p q before mid after -> shifted before mid after before' mid' after' -> code_offset mid k ->
  exists k', code_offset mid' k' /\ line (lower n p) + k' = lowered (line p + k).
Proof.
  intros NC' (Q & <- & Q2) Sh C. rewrite lower_line. destruct Sh as [x Qa N _|y Qb|m1 m2 Qa N Qm].
  - exists k. split; [exact C|]. pose proof (offset_bound _ _ C) as K. destruct (lower_before (before ++ mid) x) as [L _]; [rewrite <- app_assoc; exact Qa|exact N|].
    rewrite pos_count in *. rewrite count_nl_app in L. unfold lowered. destruct (Nat.leb_spec n (S (count_nl before))), (Nat.leb_spec n (S (count_nl before) + k)); lia.
  - exists k. split; [exact C|]. subst before. destruct (lower_after y) as [L _]. unfold lowered.
    destruct (Nat.leb_spec n (line (pos (a ++ y)))), (Nat.leb_spec n (line (pos (a ++ y)) + k)); lia.
  - assert (W1 : whole m1). { right. apply (whole_tail before); [rewrite <- Qa; exact W|exact N]. }
    destruct (lower_before before m1 Qa N) as [L _].
    assert (Hl : n = line (pos before) + length (lines m1)).
    { rewrite (proj2 (lines_whole (S (length m1)) m1 [] ltac:(lia) W1)), pos_count, Hn, Qa, count_nl_app. lia. }
    assert (G : (0 < length (lines m1))%nat) by lia.
    subst mid. apply code_offset_spec in C. rewrite (proj1 (lines_whole (S (length m1)) m1 m2 ltac:(lia) W1)), first_index_app in C.
    assert (Q' : lines (m1 ++ l ++ NL :: m2) = lines m1 ++ chomp (l ++ [NL]) :: lines m2) by (rewrite (proj1 (lines_whole (S (length m1)) m1 _ ltac:(lia) W1)), lines_nl by exact NL_l; reflexivity).
    assert (P : negb (is_line_comment_or_whitespace (chomp (l ++ [NL]))) = false) by (apply no_code_spec in NC'; rewrite NC'; reflexivity).
    assert (R : first_index (fun l => negb (is_line_comment_or_whitespace l)) (lines (m1 ++ l ++ NL :: m2)) =
      match first_index (fun l => negb (is_line_comment_or_whitespace l)) (lines m1) with Some k => Some k
      | None => option_map (fun k => length (lines m1) + S k)%nat (first_index (fun l => negb (is_line_comment_or_whitespace l)) (lines m2)) end).
    { rewrite Q', first_index_app. cbn [first_index]. rewrite P. destruct (first_index _ (lines m1)); [reflexivity|]. destruct (first_index _ (lines m2)); reflexivity. }
    destruct (first_index _ (lines m1)) as [k1|] eqn:F1.
    + subst k1. exists k. split; [apply code_offset_spec; rewrite R; reflexivity|]. apply first_index_lt in F1. unfold lowered.
      destruct (Nat.leb_spec n (line (pos before))), (Nat.leb_spec n (line (pos before) + k)); lia.
    + destruct (first_index _ (lines m2)) as [k2|]; cbn [option_map] in *.
      * exists (length (lines m1) + S k2). split; [apply code_offset_spec; rewrite R; reflexivity|]. unfold lowered.
        destruct (Nat.leb_spec n (line (pos before))), (Nat.leb_spec n (line (pos before) + k)); lia.
      * exists 0. split; [apply code_offset_spec; rewrite R; reflexivity|]. unfold lowered.
        destruct (Nat.leb_spec n (line (pos before))), (Nat.leb_spec n (line (pos before) + k)); lia.
Qed.

(** The lines. *)
Lemma line_put m x : line_at contents' m x <->
  (m < n /\ line_at contents m x) \/ (m = n /\ x = chomp (l ++ [NL])) \/ (n < m /\ line_at contents (m - 1) x).
Proof.
  destruct (lines_whole (S (length a)) a b ltac:(lia) W) as [Q1 Ql]. destruct (lines_whole (S (length a)) a (l ++ NL :: b) ltac:(lia) W) as [Q2 _].
  rewrite lines_nl in Q2 by exact NL_l.
  assert (Z : forall t x, ~ line_at t 0 x) by (intros t y H; destruct (line_at_pos _ _ _ H); lia).
  destruct m as [|m]. { split; [intros H; destruct (Z _ _ H)|]. intros [[_ H]|[[H _]|[_ H]]]; [destruct (Z _ _ H)|lia|destruct (Z _ _ H)]. }
  rewrite <- lines_spec, Q2. destruct (Nat.lt_trichotomy (S m) n) as [H|[H|H]].
  - rewrite nth_error_app1 by lia. rewrite <- lines_spec, Q1, nth_error_app1 by lia. intuition lia.
  - rewrite nth_error_app2 by lia. replace (m - length (lines a)) with 0 by lia. cbn. intuition (try lia; try congruence).
  - rewrite nth_error_app2 by lia. destruct m as [|m]; [lia|]. replace (S m - length (lines a)) with (S (m - length (lines a))) by lia. cbn [nth_error].
    replace (S (S m) - 1) with (S m) by lia. rewrite <- (lines_spec (a ++ b) m), Q1, nth_error_app2 by lia. intuition lia.
Qed.
End Put.
