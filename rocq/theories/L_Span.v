(** Proofs about [M_Span] and [M_Rewriter]. *)
From Verif Require Import Base M_Text S_Text L_Text M_Rewriter M_Span S_Span.
From Coq Require Import DecimalN DecimalPos.
Local Open Scope N_scope.

(** ** Decimal numbers *)

Definition is_digit (c : char) : Prop := 48 <= c <= 57.

Lemma uint_text_digits d : Forall is_digit (uint_text d).
Proof. induction d; cbn [uint_text]; constructor; unfold is_digit; try lia; assumption. Qed.

Lemma print_usize_digits n : Forall is_digit (print_usize n).
Proof. apply uint_text_digits. Qed.

Lemma digits_value_acc d : forall acc : positive,
  digits_value (Npos acc) (uint_text d) = Some (Npos (Pos.of_uint_acc d acc)).
Proof.
  induction d as [|d IH|d IH|d IH|d IH|d IH|d IH|d IH|d IH|d IH|d IH]; intros acc; [reflexivity|..];
    cbn [uint_text digits_value Pos.of_uint_acc];
    match goal with |- context [digit ?c] => change (digit c) with (Some (c - 48)) end; cbv beta iota;
    match goal with |- digits_value ?x _ = Some (Npos (Pos.of_uint_acc _ ?y)) =>
      replace x with (Npos y) by lia end; apply IH.
Qed.

Lemma digits_value_uint d : digits_value 0 (uint_text d) = Some (N.of_uint d).
Proof.
  unfold N.of_uint.
  induction d as [|d IH|d IH|d IH|d IH|d IH|d IH|d IH|d IH|d IH|d IH];
    cbn [uint_text digits_value Pos.of_uint]; [reflexivity|..];
    match goal with |- context [digit ?c] => change (digit c) with (Some (c - 48)) end; cbv beta iota.
  - exact IH.
  - apply (digits_value_acc d 1).
  - apply (digits_value_acc d 2).
  - apply (digits_value_acc d 3).
  - apply (digits_value_acc d 4).
  - apply (digits_value_acc d 5).
  - apply (digits_value_acc d 6).
  - apply (digits_value_acc d 7).
  - apply (digits_value_acc d 8).
  - apply (digits_value_acc d 9).
Qed.

Lemma print_usize_value n : digits_value 0 (print_usize n) = Some (N.of_nat n).
Proof. unfold print_usize. rewrite digits_value_uint, DecimalN.Unsigned.of_to. reflexivity. Qed.

Lemma print_usize_inj n m : print_usize n = print_usize m -> n = m.
Proof.
  intros H. pose proof (print_usize_value n) as Hn. rewrite H, print_usize_value in Hn.
  injection Hn as Hn. lia.
Qed.

Lemma print_usize_nonnil n : print_usize n <> [].
Proof.
  unfold print_usize. intros H.
  assert (E : N.to_uint (N.of_nat n) = Decimal.Nil).
  { destruct (N.to_uint (N.of_nat n)); cbn in H; congruence. }
  destruct (N.of_nat n) as [|p] eqn:En; [discriminate E|].
  cbn in E. exact (DecimalPos.Unsigned.to_uint_nonnil p E).
Qed.

Lemma digits_no d t : Forall is_digit t -> ~ is_digit d -> ~ In d t.
Proof. intros H Hd Hi. rewrite Forall_forall in H. apply Hd, H, Hi. Qed.

Lemma colon_nd : ~ is_digit COLON. Proof. unfold is_digit; lia. Qed.
Lemma dash_nd : ~ is_digit DASH. Proof. unfold is_digit; lia. Qed.
Lemma nl_nd : ~ is_digit NL. Proof. unfold is_digit, NL; lia. Qed.
Lemma plus_nd : ~ is_digit PLUS. Proof. unfold is_digit, PLUS; lia. Qed.

Lemma print_no_colon n : ~ In COLON (print_usize n).
Proof. apply digits_no; [apply print_usize_digits | apply colon_nd]. Qed.
Lemma print_no_dash n : ~ In DASH (print_usize n).
Proof. apply digits_no; [apply print_usize_digits | apply dash_nd]. Qed.
Lemma print_no_nl n : ~ In NL (print_usize n).
Proof. apply digits_no; [apply print_usize_digits | apply nl_nd]. Qed.

Lemma parse_print n : N.of_nat n < usize_bound -> parse_usize (print_usize n) = Some (N.of_nat n).
Proof.
  intros H. unfold parse_usize.
  assert (B : match print_usize n with c :: r => if c =? PLUS then r else print_usize n
                                  | [] => print_usize n end = print_usize n).
  { pose proof (print_usize_digits n) as D. destruct (print_usize n) as [|c r]; [reflexivity|].
    inversion D as [|? ? Dc _]; subst. destruct (N.eqb_spec c PLUS) as [->|_]; [|reflexivity].
    exfalso; exact (plus_nd Dc). }
  rewrite B. destruct (print_usize n) as [|c r] eqn:E; [exfalso; exact (print_usize_nonnil n E)|].
  rewrite <- E, print_usize_value.
  destruct (N.ltb_spec (N.of_nat n) usize_bound); [reflexivity|lia].
Qed.

(** ** Splitting *)

Lemma split_at_app d a b : ~ In d a -> split_at d (a ++ d :: b) = Some (a, b).
Proof.
  induction a as [|x a IH]; intros H; cbn [app split_at].
  - now rewrite N.eqb_refl.
  - destruct (N.eqb_spec x d) as [->|_]; [exfalso; apply H; left; reflexivity|].
    rewrite IH; [reflexivity|]. intros Hi; apply H; right; exact Hi.
Qed.

Lemma split_at_sound d t a b : split_at d t = Some (a, b) -> t = a ++ d :: b /\ ~ In d a.
Proof.
  revert a; induction t as [|x t IH]; intros a H; cbn [split_at] in H; [discriminate|].
  destruct (N.eqb_spec x d) as [->|Hx].
  - injection H as <- <-. cbn; tauto.
  - destruct (split_at d t) as [[a' b']|]; [|discriminate]. injection H as <- <-.
    destruct (IH a' eq_refl) as [-> Hn]. cbn; intuition congruence.
Qed.

Lemma split_right (d : char) (a b a' b' : text) :
  ~ In d b -> ~ In d b' -> a ++ d :: b = a' ++ d :: b' -> a = a' /\ b = b'.
Proof.
  revert a'; induction a as [|x a IH]; intros a' Hb Hb' H.
  - destruct a' as [|y a']; cbn in H; [injection H as ->; auto|].
    injection H as -> ->. exfalso; apply Hb, in_or_app; right; left; reflexivity.
  - destruct a' as [|y a']; cbn in H.
    + injection H as -> <-. exfalso; apply Hb', in_or_app; right; left; reflexivity.
    + injection H as -> H. apply IH in H as [-> ->]; auto.
Qed.

(** ** Paths *)

Lemma split_all_app d c cur r : ~ In d c ->
  split_all d cur (c ++ d :: r) = (rev cur ++ c) :: split_all d [] r.
Proof.
  revert cur; induction c as [|x c IH]; intros cur H; cbn [app split_all].
  - rewrite N.eqb_refl, app_nil_r. reflexivity.
  - destruct (N.eqb_spec x d) as [->|_]; [exfalso; apply H; left; reflexivity|].
    rewrite IH by (intros Hi; apply H; right; exact Hi). cbn [rev]. now rewrite <- app_assoc.
Qed.

Lemma split_all_last d c cur : ~ In d c -> split_all d cur c = [rev cur ++ c].
Proof.
  revert cur; induction c as [|x c IH]; intros cur H; cbn [split_all].
  - now rewrite app_nil_r.
  - destruct (N.eqb_spec x d) as [->|_]; [exfalso; apply H; left; reflexivity|].
    rewrite IH by (intros Hi; apply H; right; exact Hi). cbn [rev]. now rewrite <- app_assoc.
Qed.

Lemma split_join p : p <> [] -> Forall wf_component p -> split_all SLASH [] (join_path p) = p.
Proof.
  induction p as [|c p IH]; intros Hn H; [congruence|].
  inversion H as [|? ? (Hc1 & Hc2 & Hc3) Hp]; subst.
  destruct p as [|d p]; cbn [join_path].
  - rewrite split_all_last by exact Hc3. reflexivity.
  - rewrite split_all_app by exact Hc3. cbn [rev app]. f_equal. apply IH; [discriminate|exact Hp].
Qed.

Lemma filter_all {A} (f : A -> bool) l : (forall x, In x l -> f x = true) -> filter f l = l.
Proof.
  induction l as [|x l IH]; intros H; cbn; [reflexivity|].
  rewrite H by (left; reflexivity). rewrite IH; [reflexivity|]. intros y Hy; apply H; right; exact Hy.
Qed.

Lemma components_join p : wf_path p -> path_components (join_path p) = p.
Proof.
  intros [Hn Hp]. unfold path_components. rewrite split_join by assumption.
  apply filter_all. intros c Hc. rewrite Forall_forall in Hp. destruct (Hp c Hc) as (A & B & _).
  change (s2t ".") with DOT in B. apply text_eqb_neq in A. apply text_eqb_neq in B. rewrite A, B. reflexivity.
Qed.

Lemma join_path_inj p q : wf_path p -> wf_path q -> join_path p = join_path q -> p = q.
Proof. intros Hp Hq H. rewrite <- (components_join p Hp), H. apply components_join, Hq. Qed.

Lemma join_path_in p x : In x (join_path p) -> x = SLASH \/ exists c, In c p /\ In x c.
Proof.
  induction p as [|c p IH]; [cbn; tauto|]. intros H.
  destruct p as [|d p]; cbn [join_path] in H.
  - right; exists c; cbn; auto.
  - apply in_app_or in H as [H|[H|H]].
    + right; exists c; cbn; auto.
    + left; auto.
    + destruct (IH H) as [E|(c' & A & B)]; [left; exact E|]. right; exists c'; cbn in *; tauto.
Qed.

Lemma split_all_in d cur t c x :
  In c (split_all d cur t) -> In x c -> In x cur \/ In x t.
Proof.
  revert cur; induction t as [|y t IH]; intros cur Hc Hx; cbn [split_all] in Hc.
  - destruct Hc as [<-|[]]. left; apply in_rev; exact Hx.
  - destruct (y =? d).
    + destruct Hc as [<-|Hc]; [left; apply in_rev; exact Hx|].
      destruct (IH [] Hc Hx) as [[]|H]. right; right; exact H.
    + destruct (IH (y :: cur) Hc Hx) as [[->|H]|H]; cbn; auto.
Qed.

Lemma components_in t c x : In c (path_components t) -> In x c -> In x t.
Proof.
  unfold path_components; intros Hc Hx. apply filter_In in Hc as [Hc _].
  destruct (split_all_in _ _ _ _ _ Hc Hx) as [[]|H]; exact H.
Qed.

Lemma join_path_head p : wf_path p ->
  match join_path p with c :: _ => c =? SLASH | [] => false end = false.
Proof.
  intros [Hn Hp]. destruct p as [|c p]; [congruence|].
  inversion Hp as [|? ? (A & _ & B) _]; subst.
  destruct c as [|x c]; [congruence|].
  assert (E : x =? SLASH = false).
  { apply N.eqb_neq; intros ->; apply B; left; reflexivity. }
  destruct p as [|d p]; cbn; exact E.
Qed.

(** ** Display *)

Lemma display_inj s1 s2 :
  wf_span s1 -> wf_span s2 -> display_span s1 = display_span s2 -> s1 = s2.
Proof.
  intros W1 W2 H. unfold display_span, to_string_with_path in H.
  destruct s1 as [p1 [sl1 sc1] [el1 ec1]], s2 as [p2 [sl2 sc2] [el2 ec2]].
  cbn [sp_path sp_start sp_end line column] in *.
  assert (R : forall (p a b c d : text),
            p ++ COLON :: a ++ COLON :: b ++ DASH :: c ++ COLON :: d
            = (((p ++ COLON :: a) ++ COLON :: b) ++ DASH :: c) ++ COLON :: d).
  { intros. repeat (rewrite <- app_assoc; cbn [app]). reflexivity. }
  rewrite !R in H.
  apply split_right in H as [H Hec]; try apply print_no_colon.
  apply split_right in H as [H Hel]; try apply print_no_dash.
  apply split_right in H as [H Hsc]; try apply print_no_colon.
  apply split_right in H as [H Hsl]; try apply print_no_colon.
  apply print_usize_inj in Hec. apply print_usize_inj in Hel.
  apply print_usize_inj in Hsc. apply print_usize_inj in Hsl.
  unfold wf_span in *; cbn in W1, W2. apply join_path_inj in H; [|assumption|assumption].
  subst. f_equal; f_equal; lia.
Qed.

Lemma existsb_nl t : ~ In NL t -> existsb (fun c => c =? NL) t = false.
Proof.
  intros H. destruct (existsb (fun c => c =? NL) t) eqn:E; [|reflexivity].
  apply existsb_exists in E as (x & Hx & Ex). apply N.eqb_eq in Ex; subst. contradiction.
Qed.

Lemma parse_display ex s :
  wf_span s -> usize_span s -> ex (sp_path s) = true -> ~ In COLON (join_path (sp_path s)) ->
  parse_span ex (display_span s) = Ok s.
Proof.
  intros W (U1 & U2 & U3 & U4) Hex Hc.
  destruct s as [p [sl sc] [el ec]]; cbn [sp_path sp_start sp_end line column] in *.
  unfold parse_span, display_span, to_string_with_path; cbn [sp_path sp_start sp_end line column].
  rewrite split_at_app by exact Hc.
  rewrite split_at_app by apply print_no_colon.
  rewrite split_at_app by apply print_no_dash.
  rewrite split_at_app by apply print_no_colon.
  rewrite existsb_nl by apply print_no_nl.
  rewrite !parse_print by (unfold usize_bound; lia).
  rewrite join_path_head by exact W. rewrite components_join by exact W. rewrite Hex.
  destruct (N.eqb_spec (N.of_nat (sc + 1)) 0); [lia|].
  destruct (N.eqb_spec (N.of_nat (ec + 1)) 0); [lia|]. cbn [orb].
  do 2 f_equal; f_equal; lia.
Qed.

Lemma parse_display_colon ex s r :
  wf_span s -> In COLON (join_path (sp_path s)) ->
  parse_span ex (display_span s) = Ok r -> sp_path r <> sp_path s.
Proof.
  intros W Hc H. unfold parse_span in H.
  destruct (split_at COLON (display_span s)) as [[pt r1]|] eqn:E1; [|discriminate].
  destruct (split_at COLON r1) as [[slt r2]|]; [|discriminate].
  destruct (split_at DASH r2) as [[sct r3]|]; [|discriminate].
  destruct (split_at COLON r3) as [[elt ect]|]; [|discriminate].
  destruct (existsb (fun c => c =? NL) ect); [discriminate|].
  destruct (parse_usize slt) as [n1|]; [|discriminate].
  destruct (parse_usize sct) as [n2|]; [|discriminate].
  destruct (parse_usize elt) as [n3|]; [|discriminate].
  destruct (parse_usize ect) as [n4|]; [|discriminate].
  destruct (match pt with [] => false | c :: _ => c =? SLASH end); [discriminate|].
  cbv zeta in H. destruct (ex (path_components pt)); [|discriminate].
  destruct ((n2 =? 0) || (n4 =? 0)); [discriminate|].
  injection H as <-. cbn [sp_path].
  apply split_at_sound in E1 as [_ Hn].
  intros E. apply join_path_in in Hc as [Hc|(c & A & B)]; [discriminate Hc|].
  rewrite <- E in A. apply Hn. eapply components_in; eassumption.
Qed.

Lemma parse_display_iff ex s :
  wf_span s -> usize_span s -> ex (sp_path s) = true ->
  (parse_span ex (display_span s) = Ok s <-> ~ In COLON (join_path (sp_path s))).
Proof.
  intros W U E; split.
  - intros H Hc. exact (parse_display_colon _ _ _ W Hc H eq_refl).
  - apply parse_display; assumption.
Qed.

(** ** Source text and removal *)

Lemma between_char_offsets c a b before mid after :
  between c a b before mid after ->
  char_offset c a = Some (length before) /\ char_offset c b = Some (length (before ++ mid)).
Proof.
  intros (-> & <- & <-). split.
  - apply char_offset_complete.
  - rewrite app_assoc. apply char_offset_complete.
Qed.

Lemma between_byte_offsets c a b before mid after :
  between c a b before mid after ->
  byte_offset c a = Some (blen before) /\ byte_offset c b = Some (blen (before ++ mid)).
Proof.
  intros H. unfold byte_offset.
  destruct (between_char_offsets _ _ _ _ _ _ H) as [-> ->]. destruct H as (-> & _ & _).
  cbn [option_map]. split; f_equal; f_equal.
  - rewrite firstn_app, firstn_all, Nat.sub_diag; cbn; apply app_nil_r.
  - rewrite app_assoc, firstn_app, firstn_all, Nat.sub_diag; cbn; apply app_nil_r.
Qed.

Lemma scalars_app a b : scalars (a ++ b) <-> scalars a /\ scalars b.
Proof. apply Forall_app. Qed.

Lemma source_text_complete c s before mid after :
  scalars c -> between c (sp_start s) (sp_end s) before mid after ->
  source_text c s = Ok mid.
Proof.
  intros Hs H. unfold source_text.
  destruct (between_byte_offsets _ _ _ _ _ _ H) as [-> ->].
  destruct H as (-> & _ & _). rewrite !blen_app.
  destruct (Nat.leb_spec (blen before) (blen before + blen mid)); [|lia].
  destruct (Nat.leb_spec (blen before + blen mid) (blen before + (blen mid + blen after))); [|lia].
  cbn [andb]. replace (blen before + blen mid - blen before)%nat with (blen mid) by lia.
  rewrite slice_enc. rewrite dec_enc; [reflexivity|].
  apply scalars_app in Hs as [_ Hs]. apply scalars_app in Hs as [Hs _]. exact Hs.
Qed.

Lemma blen_firstn_le c o1 o2 : (o2 <= length c)%nat ->
  (blen (firstn o1 c) <= blen (firstn o2 c))%nat -> (o1 <= o2)%nat \/ (length c <= o2)%nat.
Proof.
  intros Ho H. destruct (Nat.le_gt_cases o1 o2) as [L|L]; [left; exact L|].
  destruct (Nat.le_gt_cases (length c) o2) as [L2|L2]; [right; exact L2|]. exfalso.
  assert (E : firstn o1 c = firstn o2 c ++ firstn (o1 - o2) (skipn o2 c)).
  { rewrite <- (firstn_skipn o2 c) at 1. rewrite firstn_app, firstn_length.
    replace (Nat.min o2 (length c)) with o2 by lia. f_equal.
    rewrite firstn_all2; [reflexivity|]. rewrite firstn_length; lia. }
  rewrite E, blen_app in H.
  destruct (skipn o2 c) as [|x r] eqn:Es.
  { pose proof (skipn_length o2 c) as L3. rewrite Es in L3; cbn in L3; lia. }
  destruct (o1 - o2)%nat as [|k] eqn:Ek; [lia|]. cbn [firstn] in H. rewrite blen_cons in H.
  pose proof (len_utf8_pos x). lia.
Qed.

Lemma slices c o1 o2 : (o1 <= o2)%nat -> (o2 <= length c)%nat ->
  c = firstn o1 c ++ slice c o1 o2 ++ skipn o2 c /\
  firstn o1 c ++ slice c o1 o2 = firstn o2 c.
Proof.
  intros H1 H2.
  assert (E : firstn o1 c ++ slice c o1 o2 = firstn o2 c).
  { unfold slice. rewrite <- (firstn_skipn o1 c) at 3. rewrite firstn_app, firstn_length.
    replace (Nat.min o1 (length c)) with o1 by lia.
    rewrite (firstn_all2 (n:=o2) (firstn o1 c)); [reflexivity|]. rewrite firstn_length; lia. }
  split; [|exact E]. rewrite app_assoc, E. symmetry; apply firstn_skipn.
Qed.

Lemma offsets_between c a b o1 o2 :
  char_offset c a = Some o1 -> char_offset c b = Some o2 -> (o1 <= o2)%nat ->
  between c a b (firstn o1 c) (slice c o1 o2) (skipn o2 c).
Proof.
  intros H1 H2 L. apply char_offset_sound in H1 as [L1 P1]. apply char_offset_sound in H2 as [L2 P2].
  destruct (slices c o1 o2 L L2) as [E1 E2].
  split; [exact E1|]. split; [exact P1|]. rewrite E2. exact P2.
Qed.

Lemma source_text_sound c s t :
  scalars c -> source_text c s = Ok t ->
  exists before after, between c (sp_start s) (sp_end s) before t after.
Proof.
  intros Hs H. pose proof H as H0. unfold source_text, byte_offset in H.
  destruct (char_offset c (sp_start s)) as [o1|] eqn:E1; [|discriminate].
  destruct (char_offset c (sp_end s)) as [o2|] eqn:E2; [|discriminate].
  cbn [option_map] in H.
  destruct (Nat.leb_spec (blen (firstn o1 c)) (blen (firstn o2 c))) as [L|L]; [|discriminate].
  destruct (char_offset_sound _ _ _ E1) as [L1 P1]. destruct (char_offset_sound _ _ _ E2) as [L2 P2].
  assert (Lo : (o1 <= o2)%nat).
  { destruct (blen_firstn_le c o1 o2 L2 L) as [K|K]; [exact K|lia]. }
  pose proof (offsets_between _ _ _ _ _ E1 E2 Lo) as B.
  exists (firstn o1 c), (skipn o2 c).
  rewrite (source_text_complete c s _ _ _ Hs B) in H0. injection H0 as <-. exact B.
Qed.

Lemma source_text_iff c s t :
  scalars c ->
  (source_text c s = Ok t <->
   exists before after, between c (sp_start s) (sp_end s) before t after).
Proof.
  intros Hs; split; [apply source_text_sound; exact Hs|].
  intros (b & a & H). eapply source_text_complete; eassumption.
Qed.

Lemma source_text_no_err c s e : scalars c -> source_text c s <> Err e.
Proof.
  intros Hs H. pose proof H as H0. unfold source_text, byte_offset in H.
  destruct (char_offset c (sp_start s)) as [o1|] eqn:E1; [|discriminate].
  destruct (char_offset c (sp_end s)) as [o2|] eqn:E2; [|discriminate].
  cbn [option_map] in H.
  destruct (Nat.leb_spec (blen (firstn o1 c)) (blen (firstn o2 c))) as [L|L]; [|discriminate].
  destruct (char_offset_sound _ _ _ E1) as [L1 P1]. destruct (char_offset_sound _ _ _ E2) as [L2 P2].
  assert (Lo : (o1 <= o2)%nat).
  { destruct (blen_firstn_le c o1 o2 L2 L) as [K|K]; [exact K|lia]. }
  pose proof (offsets_between _ _ _ _ _ E1 E2 Lo) as B.
  rewrite (source_text_complete c s _ _ _ Hs B) in H0. discriminate.
Qed.

Lemma slice_0 c o : slice c 0 o = firstn o c.
Proof. unfold slice. cbn [skipn]. now rewrite Nat.sub_0_r. Qed.

Lemma remove_text_iff c s removed new :
  remove_text c s = Some (removed, new) <->
  exists before after, between c (sp_start s) (sp_end s) before removed after /\
                       new = before ++ after.
Proof.
  unfold remove_text, rw_rewrite, rw_new, rw_contents; cbn [rw_original rw_out rw_at].
  split.
  - destruct (char_offset c (sp_start s)) as [o1|] eqn:E1; [|discriminate].
    destruct (char_offset c (sp_end s)) as [o2|] eqn:E2; [|discriminate].
    destruct (Nat.leb_spec 0 o1) as [L0|L0]; [|lia].
    destruct (Nat.leb_spec o1 o2) as [L|L]; [|discriminate]. cbn [andb rw_original rw_out rw_at].
    intros H; injection H as <- <-.
    exists (firstn o1 c), (skipn o2 c). split; [apply offsets_between; assumption|].
    cbn [app]. rewrite !map_id, slice_0, app_nil_r. reflexivity.
  - intros (before & after & B & ->).
    destruct (between_char_offsets _ _ _ _ _ _ B) as [-> ->].
    rewrite app_length.
    destruct (Nat.leb_spec (length before) (length before + length removed)); [|lia].
    cbn [Nat.leb andb rw_original rw_out rw_at]. destruct B as (-> & _ & _).
    f_equal. f_equal.
    + unfold slice. replace (length before + length removed - length before)%nat with (length removed) by lia.
      rewrite skipn_app, skipn_all, Nat.sub_diag; cbn [skipn app].
      rewrite firstn_app, firstn_all, Nat.sub_diag; cbn; apply app_nil_r.
    + cbn [app]. rewrite !map_id, slice_0, app_nil_r. f_equal.
      * rewrite firstn_app, firstn_all, Nat.sub_diag; cbn; apply app_nil_r.
      * rewrite app_assoc, <- app_length, skipn_app, skipn_all, Nat.sub_diag. reflexivity.
Qed.

(** ** Trimming *)

Lemma skip_ws_spec p t : exists ws rest,
  t = ws ++ rest /\ Forall (fun c => is_whitespace c = true) ws /\
  (rest = [] \/ exists c r, rest = c :: r /\ is_whitespace c = false) /\
  skip_ws p t = advance p ws.
Proof.
  revert p; induction t as [|c t IH]; intros p.
  - exists [], []. cbn; auto.
  - cbn [skip_ws]. destruct (is_whitespace c) eqn:E.
    + destruct (IH (if c =? NL then LC (line p + 1) 0 else LC (line p) (column p + 1)))
        as (ws & rest & -> & F & R & A).
      exists (c :: ws), rest. repeat split; auto.
      rewrite A. cbn [advance]. rewrite !Nat.add_1_r. reflexivity.
    + exists [], (c :: t). cbn. repeat split; auto. right; eauto.
Qed.

Lemma span_trim_start_spec c s before mid after :
  scalars c -> between c (sp_start s) (sp_end s) before mid after ->
  exists s' ws rest,
    span_trim_start c s = Ok s' /\ sp_path s' = sp_path s /\ sp_end s' = sp_end s /\
    mid = ws ++ rest /\ Forall (fun c => is_whitespace c = true) ws /\
    (rest = [] \/ exists x r, rest = x :: r /\ is_whitespace x = false) /\
    between c (sp_start s') (sp_end s') (before ++ ws) rest after /\
    source_text c s' = Ok rest.
Proof.
  intros Hs B. unfold span_trim_start.
  rewrite (source_text_complete _ _ _ _ _ Hs B).
  destruct (skip_ws_spec (sp_start s) mid) as (ws & rest & -> & F & R & A).
  assert (B' : between c (skip_ws (sp_start s) (ws ++ rest)) (sp_end s) (before ++ ws) rest after).
  { destruct B as (E & P1 & P2). split.
    - rewrite E. now rewrite <- !app_assoc.
    - split.
      + rewrite A. unfold pos in *. rewrite advance_app, P1. reflexivity.
      + now rewrite <- app_assoc. }
  exists (with_start s (skip_ws (sp_start s) (ws ++ rest))), ws, rest.
  unfold with_start; cbn [sp_path sp_start sp_end].
  repeat split; auto; try apply B'. eapply source_text_complete; [exact Hs|exact B'].
Qed.

(** ** Order *)

Lemma text_compare_eq a b : text_compare a b = Eq <-> a = b.
Proof.
  revert b; induction a as [|x a IH]; intros [|y b]; cbn; split; intros H; try congruence.
  - destruct (N.compare_spec x y) as [->|?|?]; try discriminate. apply IH in H; congruence.
  - injection H as -> ->. rewrite N.compare_refl. apply IH; reflexivity.
Qed.

Lemma text_compare_antisym a b : text_compare b a = CompOpp (text_compare a b).
Proof.
  revert b; induction a as [|x a IH]; intros [|y b]; cbn; try reflexivity.
  rewrite (N.compare_antisym x y). destruct (N.compare x y); cbn; auto.
Qed.

Lemma text_compare_trans a b c :
  text_compare a b = Lt -> text_compare b c = Lt -> text_compare a c = Lt.
Proof.
  revert b c; induction a as [|x a IH]; intros [|y b] [|z c]; cbn; try congruence.
  destruct (N.compare_spec x y) as [->|L1|L1]; try congruence;
  destruct (N.compare_spec y z) as [->|L2|L2]; try congruence.
  - apply IH.
  - intros _ _. destruct (N.compare_spec x z); try lia; reflexivity.
  - intros _ _. destruct (N.compare_spec x z); try lia; reflexivity.
Qed.

Lemma path_compare_eq a b : path_compare a b = Eq <-> a = b.
Proof.
  revert b; induction a as [|x a IH]; intros [|y b]; cbn; split; intros H; try congruence.
  - destruct (text_compare x y) eqn:E; try discriminate. apply text_compare_eq in E.
    apply IH in H; congruence.
  - injection H as -> ->.
    assert (E : text_compare y y = Eq) by (apply text_compare_eq; reflexivity). rewrite E.
    apply IH; reflexivity.
Qed.

Lemma path_compare_antisym a b : path_compare b a = CompOpp (path_compare a b).
Proof.
  revert b; induction a as [|x a IH]; intros [|y b]; cbn; try reflexivity.
  rewrite (text_compare_antisym x y). destruct (text_compare x y); cbn; auto.
Qed.

Lemma path_compare_trans a b c :
  path_compare a b = Lt -> path_compare b c = Lt -> path_compare a c = Lt.
Proof.
  revert b c; induction a as [|x a IH]; intros [|y b] [|z c]; cbn; try congruence.
  destruct (text_compare x y) eqn:E1; try congruence;
  destruct (text_compare y z) eqn:E2; try congruence; intros H1 H2.
  - apply text_compare_eq in E1; apply text_compare_eq in E2; subst.
    assert (E : text_compare z z = Eq) by (apply text_compare_eq; reflexivity). rewrite E. eauto.
  - apply text_compare_eq in E1; subst. now rewrite E2.
  - apply text_compare_eq in E2; subst. now rewrite E1.
  - now rewrite (text_compare_trans _ _ _ E1 E2).
Qed.

Lemma lc_compare_eq a b : lc_compare a b = Eq <-> a = b.
Proof.
  pose proof (lc_compare_spec a b) as H. split.
  - intros E; rewrite E in H; exact H.
  - intros ->. destruct b as [l c]; unfold lc_compare; cbn; now rewrite !Nat.compare_refl.
Qed.

Lemma lc_compare_antisym a b : lc_compare b a = CompOpp (lc_compare a b).
Proof.
  destruct a as [la ca], b as [lb cb]; unfold lc_compare; cbn.
  rewrite (Nat.compare_antisym la lb). destruct (Nat.compare la lb); cbn; auto.
  apply Nat.compare_antisym.
Qed.

Lemma lc_compare_lt a b : lc_compare a b = Lt <-> lc_lt a b.
Proof.
  pose proof (lc_compare_spec a b) as H. split.
  - intros E; rewrite E in H; exact H.
  - intros L. destruct (lc_compare a b); [subst; unfold lc_lt in *; lia|reflexivity|].
    unfold lc_lt in *; lia.
Qed.

Lemma lc_lt_trans a b c : lc_lt a b -> lc_lt b c -> lc_lt a c.
Proof. unfold lc_lt; lia. Qed.

Lemma lc_compare_trans a b c : lc_compare a b = Lt -> lc_compare b c = Lt -> lc_compare a c = Lt.
Proof. rewrite !lc_compare_lt. apply lc_lt_trans. Qed.

Lemma span_compare_eq a b : span_compare a b = Eq <-> a = b.
Proof.
  destruct a as [pa sa ea], b as [pb sb eb]; unfold span_compare; cbn [sp_path sp_start sp_end].
  split.
  - destruct (path_compare pa pb) eqn:E1; try discriminate.
    destruct (lc_compare sa sb) eqn:E2; try discriminate.
    intros E3. apply path_compare_eq in E1. apply lc_compare_eq in E2. apply lc_compare_eq in E3.
    congruence.
  - intros H; injection H as -> -> ->.
    assert (E1 : path_compare pb pb = Eq) by (apply path_compare_eq; reflexivity).
    assert (E2 : lc_compare sb sb = Eq) by (apply lc_compare_eq; reflexivity).
    rewrite E1, E2. apply lc_compare_eq; reflexivity.
Qed.

Lemma span_compare_antisym a b : span_compare b a = CompOpp (span_compare a b).
Proof.
  destruct a as [pa sa ea], b as [pb sb eb]; unfold span_compare; cbn [sp_path sp_start sp_end].
  rewrite (path_compare_antisym pa pb). destruct (path_compare pa pb); cbn; auto.
  rewrite (lc_compare_antisym sa sb). destruct (lc_compare sa sb); cbn; auto.
  apply lc_compare_antisym.
Qed.

Lemma span_compare_trans a b c :
  span_compare a b = Lt -> span_compare b c = Lt -> span_compare a c = Lt.
Proof.
  destruct a as [pa sa ea], b as [pb sb eb], c as [pc sc ec].
  unfold span_compare; cbn [sp_path sp_start sp_end].
  destruct (path_compare pa pb) eqn:E1; try congruence;
  destruct (path_compare pb pc) eqn:E2; try congruence; intros H1 H2.
  - apply path_compare_eq in E1; apply path_compare_eq in E2; subst.
    assert (E : path_compare pc pc = Eq) by (apply path_compare_eq; reflexivity). rewrite E.
    destruct (lc_compare sa sb) eqn:F1; try congruence;
    destruct (lc_compare sb sc) eqn:F2; try congruence.
    + apply lc_compare_eq in F1; apply lc_compare_eq in F2; subst.
      assert (E' : lc_compare sc sc = Eq) by (apply lc_compare_eq; reflexivity). rewrite E'.
      eapply lc_compare_trans; eassumption.
    + apply lc_compare_eq in F1; subst. now rewrite F2.
    + apply lc_compare_eq in F2; subst. now rewrite F1.
    + now rewrite (lc_compare_trans _ _ _ F1 F2).
  - apply path_compare_eq in E1; subst. now rewrite E2.
  - apply path_compare_eq in E2; subst. now rewrite E1.
  - now rewrite (path_compare_trans _ _ _ E1 E2).
Qed.
