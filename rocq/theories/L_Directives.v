(** Lemmas on lines and directives. *)
From Verif Require Import Base M_Text S_Text L_Text M_Span M_Run M_Output M_Directives S_Directives.

(** ** Lines *)
Lemma split_incl_nl l : forall cur r, ~ In NL l -> split_incl cur (l ++ NL :: r) = (rev cur ++ l ++ [NL]) :: split_incl [] r.
Proof.
  induction l as [|c l IH]; intros cur r N; cbn [app split_incl].
  - rewrite N.eqb_refl. reflexivity.
  - destruct (N.eqb_spec c NL) as [->|D]; [destruct N; left; reflexivity|].
    rewrite IH; [|intros I; apply N; right; exact I]. cbn [rev]. rewrite <- app_assoc. reflexivity.
Qed.
Lemma split_incl_last l : forall cur, ~ In NL l -> split_incl cur l = match rev cur ++ l with [] => [] | x => [x] end.
Proof.
  induction l as [|c l IH]; intros cur N; cbn [split_incl].
  - rewrite app_nil_r. destruct cur as [|c cur]; [reflexivity|]. destruct (rev (c :: cur)) eqn:E; [|reflexivity].
    apply (f_equal (@length _)) in E. rewrite rev_length in E. discriminate.
  - destruct (N.eqb_spec c NL) as [->|D]; [destruct N; left; reflexivity|].
    rewrite IH; [|intros I; apply N; right; exact I]. cbn [rev]. rewrite <- app_assoc. reflexivity.
Qed.
Lemma chomp_nl l : (forall b, l <> b ++ [CR]) -> chomp (l ++ [NL]) = l.
Proof.
  intros H. unfold chomp. rewrite rev_app_distr. cbn [rev app]. rewrite N.eqb_refl.
  destruct (rev l) as [|d r] eqn:E.
  - apply (f_equal (@rev _)) in E. rewrite rev_involutive in E. subst. reflexivity.
  - assert (L : l = rev r ++ [d]) by (rewrite <- (rev_involutive l), E; reflexivity).
    destruct (N.eqb_spec d CR) as [->|D]; [destruct (H (rev r)); exact L|].
    cbn [rev]. symmetry. exact L.
Qed.
Lemma chomp_crnl l : chomp (l ++ [CR; NL]) = l.
Proof. unfold chomp. rewrite rev_app_distr. cbn [rev app]. rewrite !N.eqb_refl. apply rev_involutive. Qed.
Lemma chomp_id l : ~ In NL l -> chomp l = l.
Proof.
  intros H. unfold chomp. destruct (rev l) as [|c r] eqn:E.
  - apply (f_equal (@rev _)) in E. rewrite rev_involutive in E. subst. reflexivity.
  - destruct (N.eqb_spec c NL) as [->|D]; [|reflexivity]. destruct H. apply in_rev. rewrite E. left. reflexivity.
Qed.
Lemma lines_nl l r : ~ In NL l -> lines (l ++ NL :: r) = chomp (l ++ [NL]) :: lines r.
Proof. intros N. unfold lines. rewrite split_incl_nl by exact N. reflexivity. Qed.
Lemma lines_last l : ~ In NL l -> l <> [] -> lines l = [l].
Proof.
  intros N E. unfold lines. rewrite split_incl_last by exact N. cbn [rev app]. destruct l as [|c l]; [congruence|].
  cbn [map]. rewrite chomp_id by exact N. reflexivity.
Qed.
Lemma first_nl (t : text) : (~ In NL t) \/ exists l r, t = l ++ NL :: r /\ ~ In NL l.
Proof.
  induction t as [|c t IH]; [left; intros []|]. destruct (N.eq_dec c NL) as [->|D].
  - right. exists [], t. split; [reflexivity|intros []].
  - destruct IH as [N|[l [r [-> N]]]].
    + left. intros [->|I]; [congruence|contradiction].
    + right. exists (c :: l), r. split; [reflexivity|]. intros [->|I]; [congruence|contradiction].
Qed.
Lemma cr_end (l : text) : (forall b, l <> b ++ [CR]) \/ exists b, l = b ++ [CR].
Proof.
  destruct (rev l) as [|d r] eqn:E.
  - apply (f_equal (@rev _)) in E. rewrite rev_involutive in E. subst. left. intros b H. destruct b; discriminate.
  - assert (L : l = rev r ++ [d]) by (rewrite <- (rev_involutive l), E; reflexivity).
    destruct (N.eq_dec d CR) as [->|D]; [right; eauto|]. left. intros b H. rewrite L in H. apply app_inj_tail in H as [_ H]. congruence.
Qed.
Lemma count_nl_app a b : count_nl (a ++ b) = (count_nl a + count_nl b)%nat.
Proof. induction a as [|c a IH]; simpl; [reflexivity|]. destruct (N.eqb c NL); rewrite IH; reflexivity. Qed.
Lemma count_nl_0 t : ~ In NL t -> count_nl t = 0%nat.
Proof.
  induction t as [|c t IH]; intros N; [reflexivity|]. simpl. destruct (N.eqb_spec c NL) as [->|D]; [destruct N; left; reflexivity|].
  apply IH. intros I. apply N. right. exact I.
Qed.
Lemma count_nl_line l : ~ In NL l -> count_nl (l ++ [NL]) = 1%nat.
Proof. intros N. rewrite count_nl_app, count_nl_0 by exact N. reflexivity. Qed.

Lemma line_at_shift (l r : text) n x : ~ In NL l -> (line_at (l ++ NL :: r) (S (S n)) x <-> line_at r (S n) x).
Proof.
  intros N. split.
  - intros [before [eol [after [E [B [C [M K]]]]]]].
    assert (P : exists b', before = (l ++ [NL]) ++ b').
    { destruct B as [->|[b ->]]; [discriminate|].
      clear K C. revert b E. induction l as [|c l IH]; intros b E.
      - destruct b as [|d b]; cbn in E; [exists []; reflexivity|]. injection E as E1 E2. subst d. exists (b ++ [NL]). reflexivity.
      - destruct b as [|d b]; cbn in E; injection E as E1 E2; [subst c; destruct N; left; reflexivity|]. subst d.
        destruct (IH (fun I => N (or_intror I)) b E2) as [b' Hb]. exists b'. cbn. rewrite Hb. reflexivity. }
    destruct P as [b' ->]. exists b', eol, after.
    rewrite <- !app_assoc in E. cbn [app] in E. apply app_inv_head in E. injection E as E. split; [exact E|].
    rewrite count_nl_app, count_nl_line in C by exact N. split; [|split; [lia|auto]].
    destruct B as [B|[b B]]; [destruct l; discriminate|].
    destruct (rev b') as [|d q] eqn:R.
    + apply (f_equal (@rev _)) in R. rewrite rev_involutive in R. left. exact R.
    + assert (Q : b' = rev q ++ [d]) by (rewrite <- (rev_involutive b'), R; reflexivity). right. exists (rev q).
      subst b'. rewrite app_assoc in B. apply app_inj_tail in B as [_ ->]. reflexivity.
  - intros [before [eol [after [E [B [C [M K]]]]]]]. exists ((l ++ [NL]) ++ before), eol, after. subst r.
    rewrite <- !app_assoc. split; [reflexivity|]. split.
    + right. destruct B as [->|[b ->]]; [exists l; rewrite app_nil_r; reflexivity|exists (l ++ [NL] ++ b); rewrite <- !app_assoc; reflexivity].
    + rewrite app_assoc, count_nl_app, count_nl_line by exact N. split; [lia|auto].
Qed.

Lemma line_at_first (t x : text) : line_at t 1 x <->
  exists eol after, t = x ++ eol ++ after /\ ~ In NL x /\
    ((eol = [NL] /\ forall b, x <> b ++ [CR]) \/ eol = [CR; NL] \/ (eol = [] /\ after = [] /\ x <> [])).
Proof.
  split.
  - intros [before [eol [after [E [B [C [M K]]]]]]]. destruct B as [->|[b ->]]; [eauto 6|].
    rewrite count_nl_app in C. cbn in C. lia.
  - intros [eol [after [E [M K]]]]. exists [], eol, after. repeat split; auto.
Qed.

Lemma nl_split_unique (l r x y : text) : ~ In NL l -> ~ In NL x -> l ++ NL :: r = x ++ NL :: y -> l = x /\ r = y.
Proof.
  revert x. induction l as [|c l IH]; intros x Nl Nx E; destruct x as [|d x]; cbn in E; [injection E as E; auto|injection E as E1 E2..].
  - subst d. destruct Nx. left. reflexivity.
  - subst c. destruct Nl. left. reflexivity.
  - subst d. destruct (IH x) as [-> ->]; auto; [intros I; apply Nl; right; exact I|intros I; apply Nx; right; exact I].
Qed.

Theorem lines_spec : forall t k l, nth_error (lines t) k = Some l <-> line_at t (S k) l.
Proof.
  intros t. remember (length t) as n eqn:L. revert t L. induction n as [n IH] using lt_wf_ind. intros t L k x.
  destruct (first_nl t) as [N|[l [r [E N]]]].
  - destruct t as [|c t].
    + split; [intros H; destruct k; discriminate|]. intros [before [eol [after [E [B [C [M K]]]]]]].
      destruct before; [|discriminate]. destruct x; [|discriminate]. destruct eol; [|discriminate]. destruct K as [[K _]|[K|[_ [_ K]]]]; congruence.
    + rewrite lines_last by (auto; discriminate). split.
      * intros H. destruct k; [|destruct k; discriminate]. injection H as <-. apply line_at_first. exists [], []. rewrite !app_nil_r.
        split; [reflexivity|]. split; [exact N|]. right. right. repeat split. discriminate.
      * intros [before [eol [after [E [B [C [M K]]]]]]].
        assert (NB : ~ In NL before) by (intros I; apply N; rewrite E; apply in_app_iff; auto).
        rewrite count_nl_0 in C by exact NB. injection C as ->.
        destruct B as [->|[b ->]]; [|destruct NB; apply in_app_iff; right; left; reflexivity].
        destruct K as [[-> K]|[->|[-> [-> K]]]].
        -- destruct N. rewrite E. cbn. apply in_app_iff. right. left. reflexivity.
        -- destruct N. rewrite E. cbn. apply in_app_iff. right. right. left. reflexivity.
        -- rewrite E. cbn. rewrite app_nil_r. reflexivity.
  - subst t. rewrite lines_nl by exact N. destruct k as [|k]; cbn [nth_error].
    + rewrite line_at_first. destruct (cr_end l) as [K|[b K]].
      * rewrite chomp_nl by exact K. split.
        -- intros H. injection H as <-. exists [NL], r. auto.
        -- intros [eol [after [E [M [[-> Q]|[->|[-> [-> Q]]]]]]]].
           ++ cbn in E. destruct (nl_split_unique _ _ _ _ N M E) as [-> _]. reflexivity.
           ++ assert (E' : l ++ NL :: r = (x ++ [CR]) ++ NL :: after) by (rewrite E, <- app_assoc; reflexivity).
              apply nl_split_unique in E' as [E' _]; [destruct (K x E')|exact N|].
              intros I. apply in_app_iff in I as [I|[I|[]]]; [contradiction|discriminate].
           ++ cbn in E. rewrite app_nil_r in E. subst x. destruct M. apply in_app_iff. right. left. reflexivity.
      * subst l. rewrite <- app_assoc. cbn [app]. rewrite chomp_crnl.
        assert (Nb : ~ In NL b) by (intros I; apply N; apply in_app_iff; auto). split.
        -- intros H. injection H as <-. exists [CR; NL], r. rewrite <- app_assoc. auto.
        -- intros [eol [after [E [M [[-> Q]|[->|[-> [-> Q]]]]]]]].
           ++ cbn in E. apply nl_split_unique in E as [E _]; auto. destruct (Q b). congruence.
           ++ assert (E' : (b ++ [CR]) ++ NL :: r = (x ++ [CR]) ++ NL :: after) by (rewrite E, <- app_assoc; reflexivity).
              apply nl_split_unique in E' as [E' _]; [apply app_inj_tail in E' as [-> _]; reflexivity|exact N|].
              intros I. apply in_app_iff in I as [I|[I|[]]]; [contradiction|discriminate].
           ++ cbn in E. rewrite app_nil_r in E. subst x. destruct M. apply in_app_iff. right. left. reflexivity.
    + rewrite line_at_shift by exact N. apply (IH (length r)); [|reflexivity]. rewrite app_length in L. cbn in L. lia.
Qed.

Lemma line_at_pos t n l : line_at t n l -> exists k, n = S k.
Proof. intros [b [e [a [_ [_ [-> _]]]]]]. eauto. Qed.
Lemma line_at_unique t n l l' : line_at t n l -> line_at t n l' -> l = l'.
Proof. intros H H'. destruct (line_at_pos _ _ _ H) as [k ->]. apply lines_spec in H, H'. congruence. Qed.
Lemma line_at_before t n l m : line_at t n l -> (0 < m <= n)%nat -> exists l', line_at t m l'.
Proof.
  intros H [M1 M2]. destruct (line_at_pos _ _ _ H) as [k ->]. apply lines_spec in H.
  destruct m as [|m]; [lia|]. destruct (nth_error (lines t) m) as [l'|] eqn:E; [exists l'; apply lines_spec, E|].
  apply nth_error_None in E. assert (nth_error (lines t) k <> None) by congruence. apply nth_error_Some in H0. lia.
Qed.

(** ** White space *)
Lemma trim_start_blank a t : blank a -> trim_start (a ++ t) = trim_start t.
Proof. induction 1 as [|c a H _ IH]; [reflexivity|]. cbn. rewrite H. exact IH. Qed.
Lemma trim_start_nows c t : is_whitespace c = false -> trim_start (c :: t) = c :: t.
Proof. intros H. cbn. rewrite H. reflexivity. Qed.
Lemma trim_start_split t : exists a, blank a /\ t = a ++ trim_start t /\
  match trim_start t with [] => True | c :: _ => is_whitespace c = false end.
Proof.
  induction t as [|c t IH]; [exists []; repeat constructor|]. cbn. destruct (is_whitespace c) eqn:E.
  - destruct IH as [a [B [Q K]]]. exists (c :: a). split; [constructor; assumption|]. split; [cbn; congruence|exact K].
  - exists []. split; [constructor|]. split; [reflexivity|exact E].
Qed.
Lemma blank_rev a : blank a -> blank (rev a).
Proof. intros H. unfold blank. apply Forall_forall. intros c I. apply in_rev in I. unfold blank in H. rewrite Forall_forall in H. apply H, I. Qed.
Lemma trim_end_split t : exists a, blank a /\ t = trim_end t ++ a.
Proof.
  unfold trim_end. destruct (trim_start_split (rev t)) as [a [B [Q _]]]. exists (rev a). split; [apply blank_rev, B|].
  rewrite <- rev_app_distr, <- Q. symmetry. apply rev_involutive.
Qed.
Lemma trim_end_blank t a : blank a -> trim_end (t ++ a) = trim_end t.
Proof. intros B. unfold trim_end. rewrite rev_app_distr, trim_start_blank by (apply blank_rev, B). reflexivity. Qed.
Lemma leading_ws_spec t : leading_ws t = (length t - length (trim_start t))%nat /\ (length (trim_start t) <= length t)%nat.
Proof.
  induction t as [|c t [IH1 IH2]]; [split; reflexivity|]. cbn [leading_ws trim_start]. destruct (is_whitespace c); cbn [length]; lia.
Qed.

(** ** Directives *)
Lemma strip_prefix_app p r : strip_prefix p (p ++ r) = Some r.
Proof. apply strip_prefix_spec. reflexivity. Qed.

Lemma directive_text_spec l w : directive_text l = Some w <-> (exists c what, comment_with l what /\ blank c /\ what = c ++ w) /\
   match w with [] => True | x :: _ => is_whitespace x = false end.
Proof.
  unfold directive_text. split.
  - destruct (trim_start_split l) as [a [Ba [Ea _]]].
    destruct (strip_prefix (s2t "//") (trim_start l)) as [r1|] eqn:E1; [|discriminate]. apply strip_prefix_spec in E1.
    destruct (trim_start_split r1) as [b [Bb [Eb _]]].
    destruct (strip_prefix (s2t "necessist:") (trim_start r1)) as [r2|] eqn:E2; [|discriminate]. apply strip_prefix_spec in E2.
    destruct (trim_start_split r2) as [c [Bc [Ec K]]]. intros H. injection H as <-. split; [|exact K].
    exists c, r2. split; [|auto]. exists a, b. split; [exact Ba|]. split; [exact Bb|]. rewrite Ea, E1, Eb, E2. reflexivity.
  - intros [[c [what [[a [b [Ba [Bb ->]]]] [Bc ->]]]] K].
    rewrite trim_start_blank by exact Ba. change (s2t "//" ++ b ++ s2t "necessist:" ++ c ++ w) with (47%N :: (s2t "/" ++ b ++ s2t "necessist:" ++ c ++ w)).
    rewrite trim_start_nows by reflexivity. change (47%N :: (s2t "/" ++ b ++ s2t "necessist:" ++ c ++ w)) with (s2t "//" ++ (b ++ s2t "necessist:" ++ c ++ w)).
    rewrite strip_prefix_app, trim_start_blank by exact Bb.
    change (s2t "necessist:" ++ c ++ w) with (110%N :: (s2t "ecessist:" ++ c ++ w)).
    rewrite trim_start_nows by reflexivity. change (110%N :: (s2t "ecessist:" ++ c ++ w)) with (s2t "necessist:" ++ (c ++ w)).
    rewrite strip_prefix_app, trim_start_blank by exact Bc. destruct w as [|x w]; [reflexivity|]. rewrite trim_start_nows by exact K. reflexivity.
Qed.
Lemma directive_text_some l : (exists w, directive_text l = Some w) <-> exists what, comment_with l what.
Proof.
  split.
  - intros [w H]. apply directive_text_spec in H as [[c [what [H _]]] _]. eauto.
  - intros [what H]. destruct (trim_start_split what) as [c [B [E K]]]. exists (trim_start what). apply directive_text_spec. split; [|exact K]. eauto 6.
Qed.

Lemma ws_word c d x w y w' : blank c -> blank d -> is_whitespace x = false -> is_whitespace y = false -> c ++ x :: w = d ++ y :: w' -> x :: w = y :: w'.
Proof.
  intros Bc Bd X Y E. apply (f_equal trim_start) in E. rewrite !trim_start_blank in E by assumption.
  rewrite !trim_start_nows in E by assumption. exact E.
Qed.

Section A.
Context (alphanumeric : char -> bool).
Lemma has_word_boundary_spec t : has_word_boundary alphanumeric t = true <->
  match t with [] => True | x :: _ => alphanumeric x = false /\ x <> 95%N /\ x <> 45%N end.
Proof.
  destruct t as [|x t]; cbn; [tauto|]. destruct (N.eqb_spec x 45), (N.eqb_spec x 95), (alphanumeric x); cbn; intuition congruence.
Qed.
Lemma directive_is_spec x word l : is_whitespace x = false ->
  (directive_is alphanumeric (x :: word) l = true <-> exists what, comment_with l what /\ says alphanumeric (x :: word) what).
Proof.
  intros X. unfold directive_is. split.
  - destruct (directive_text l) as [w|] eqn:E; [|discriminate]. apply directive_text_spec in E as [[c [what [H [B ->]]]] K].
    destruct (strip_prefix (x :: word) w) as [tail|] eqn:E2; [|discriminate]. apply strip_prefix_spec in E2. subst w.
    intros W. apply has_word_boundary_spec in W. exists (c ++ (x :: word) ++ tail). split; [exact H|]. exists c, tail. auto.
  - intros [what [H [c [tail [B [-> T]]]]]].
    assert (E : directive_text l = Some ((x :: word) ++ tail)) by (apply directive_text_spec; split; [eauto 6|exact X]).
    rewrite E, strip_prefix_app. apply has_word_boundary_spec, T.
Qed.
Lemma is_skip_spec l : is_skip_directive alphanumeric l = true <-> skip_comment alphanumeric l.
Proof. apply directive_is_spec. reflexivity. Qed.
Lemma is_skip_file_spec l : is_skip_file_directive alphanumeric l = true <-> skip_file_comment alphanumeric l.
Proof. apply directive_is_spec. reflexivity. Qed.
Lemma skip_not_file l : skip_comment alphanumeric l -> ~ skip_file_comment alphanumeric l.
Proof.
  intros H1 H2. apply is_skip_spec in H1. apply is_skip_file_spec in H2.
  unfold is_skip_directive, is_skip_file_directive, directive_is in *.
  destruct (directive_text l) as [w|]; [|discriminate].
  destruct (strip_prefix (s2t "skip-file") w) as [r|] eqn:E; [|discriminate]. apply strip_prefix_spec in E. subst w.
  change (s2t "skip-file" ++ r) with (s2t "skip" ++ (s2t "-file" ++ r)) in H1. rewrite strip_prefix_app in H1. discriminate.
Qed.
End A.

Lemma no_code_spec l : is_line_comment_or_whitespace l = true <-> no_code l.
Proof.
  unfold is_line_comment_or_whitespace, no_code, starts_with_text.
  destruct (trim_start_split l) as [a [B [E K]]]. split.
  - destruct (trim_start l) as [|c r] eqn:T; intros H; [left; rewrite E, app_nil_r; exact B|].
    destruct (strip_prefix (s2t "//") (c :: r)) as [r'|] eqn:P; [|discriminate]. apply strip_prefix_spec in P. right. exists a, r'. split; [exact B|congruence].
  - intros [H|[a' [r [B' E']]]].
    + assert (T : trim_start l = []) by (rewrite <- (app_nil_r l), trim_start_blank by exact H; reflexivity). rewrite T. reflexivity.
    + rewrite E', trim_start_blank by exact B'. change (s2t "//" ++ r) with (47%N :: s2t "/" ++ r). rewrite trim_start_nows by reflexivity.
      cbn [app]. change (47%N :: s2t "/" ++ r) with (s2t "//" ++ r). rewrite strip_prefix_app. reflexivity.
Qed.
Lemma header_spec l : is_file_header_line l = true <-> header l.
Proof.
  unfold is_file_header_line, header. rewrite Bool.orb_true_iff, no_code_spec, text_eqb_eq.
  split; (intros [H|H]; [left; exact H|right]).
  - unfold trim in H. destruct (trim_start_split l) as [a [B [E K]]]. destruct (trim_end_split (trim_start l)) as [b [B' E']].
    exists a, b. split; [exact B|]. split; [exact B'|]. rewrite E, E', H. reflexivity.
  - destruct H as [a [b [B [B' ->]]]]. unfold trim. rewrite trim_start_blank by exact B.
    change (s2t "<?php" ++ b) with (60%N :: s2t "?php" ++ b). rewrite trim_start_nows by reflexivity.
    change (60%N :: s2t "?php" ++ b) with (s2t "<?php" ++ b). rewrite trim_end_blank by exact B'. reflexivity.
Qed.

Lemma first_index_spec {A} (f : A -> bool) l : 
  match first_index f l with
  | Some k => (exists x, nth_error l k = Some x /\ f x = true) /\ forall j x, (j < k)%nat -> nth_error l j = Some x -> f x = false
  | None => forall x, In x l -> f x = false
  end.
Proof.
  induction l as [|x l IH]; cbn; [intros x []|]. destruct (f x) eqn:E.
  - split; [exists x; auto|]. intros j y H. lia.
  - destruct (first_index f l) as [k|]; cbn.
    + destruct IH as [[y [N Y]] K]. split; [eauto|]. intros [|j] z J H; cbn in H; [congruence|]. apply (K j z); [lia|exact H].
    + intros y [<-|I]; [exact E|apply IH, I].
Qed.

Lemma code_offset_spec t k : code_offset t k <->
  match first_index (fun l => negb (is_line_comment_or_whitespace l)) (lines t) with Some k' => k' = k | None => k = 0%nat end.
Proof.
  pose proof (first_index_spec (fun l => negb (is_line_comment_or_whitespace l)) (lines t)) as S.
  destruct (first_index _ (lines t)) as [k'|].
  - destruct S as [[x [N X]] K]. assert (NC : ~ no_code x) by (rewrite <- no_code_spec; destruct (is_line_comment_or_whitespace x); [discriminate|congruence]).
    assert (Below : forall j l', (j < S k')%nat -> line_at t j l' -> no_code l').
    { intros j l' J H. destruct (line_at_pos _ _ _ H) as [j' ->]. apply lines_spec in H. specialize (K j' l' ltac:(lia) H).
      apply no_code_spec. destruct (is_line_comment_or_whitespace l'); [reflexivity|discriminate]. }
    split.
    + intros [[l [L [C B]]]|[-> B]].
      * destruct (Nat.lt_trichotomy k' k) as [H|[H|H]]; [|exact H|].
        -- destruct NC. apply (B (S k') x); [lia|apply lines_spec, N].
        -- destruct C. apply (Below (S k) l); [lia|exact L].
      * destruct NC. apply (B (S k') x). apply lines_spec, N.
    + intros <-. left. exists x. split; [apply lines_spec, N|]. split; [exact NC|exact Below].
  - assert (All : forall j l, line_at t j l -> no_code l).
    { intros j l H. destruct (line_at_pos _ _ _ H) as [j' ->]. apply lines_spec in H. apply nth_error_In in H. specialize (S l H).
      apply no_code_spec. destruct (is_line_comment_or_whitespace l); [reflexivity|discriminate]. }
    split.
    + intros [[l [L [C B]]]|[-> B]]; [destruct C; apply (All _ _ L)|reflexivity].
    + intros ->. right. split; [reflexivity|exact All].
Qed.
