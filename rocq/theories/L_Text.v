(** Proofs about [M_Text]. *)
From Verif Require Import Base M_Text S_Text.
From Coq Require Import ZArith ZifyBool ZifyNat ZifyN.
Local Open Scope N_scope.
Local Ltac Zify.zify_post_hook ::= Z.div_mod_to_equations.

(** ** UTF-8 *)

Lemma dec_enc_char c bs : is_scalar c = true ->
  dec (enc_char c ++ bs) = option_map (cons c) (dec bs).
Proof.
  intros H. unfold enc_char.
  destruct (c <? 128) eqn:E1.
  { cbn [app dec]. rewrite E1. reflexivity. }
  destruct (c <? 2048) eqn:E2.
  { cbn [app dec].
    replace (192 + c / 64 <? 128) with false by lia.
    replace ((192 <=? 192 + c / 64) && (192 + c / 64 <? 224)) with true by lia.
    replace ((192 + c / 64 - 192) * 64 + (128 + c mod 64 - 128)) with c by lia.
    unfold is_cont.
    replace ((128 <=? 128 + c mod 64) && (128 + c mod 64 <? 192) && (128 <=? c)) with true by lia.
    reflexivity. }
  destruct (c <? 65536) eqn:E3.
  { cbn [app dec].
    replace (224 + c / 4096 <? 128) with false by lia.
    replace ((192 <=? 224 + c / 4096) && (224 + c / 4096 <? 224)) with false by lia.
    replace ((224 <=? 224 + c / 4096) && (224 + c / 4096 <? 240)) with true by lia.
    replace ((224 + c / 4096 - 224) * 4096 + (128 + (c / 64) mod 64 - 128) * 64
             + (128 + c mod 64 - 128)) with c by lia.
    rewrite H. unfold is_cont.
    replace ((128 <=? 128 + (c / 64) mod 64) && (128 + (c / 64) mod 64 <? 192)
             && ((128 <=? 128 + c mod 64) && (128 + c mod 64 <? 192))
             && (2048 <=? c) && true) with true by lia.
    reflexivity. }
  cbn [app dec].
  assert (Hc : c < 1114112) by (unfold is_scalar in H; lia).
  replace (240 + c / 262144 <? 128) with false by lia.
  replace ((192 <=? 240 + c / 262144) && (240 + c / 262144 <? 224)) with false by lia.
  replace ((224 <=? 240 + c / 262144) && (240 + c / 262144 <? 240)) with false by lia.
  replace ((240 <=? 240 + c / 262144) && (240 + c / 262144 <? 248)) with true by lia.
  replace ((240 + c / 262144 - 240) * 262144 + (128 + (c / 4096) mod 64 - 128) * 4096
           + (128 + (c / 64) mod 64 - 128) * 64 + (128 + c mod 64 - 128)) with c by lia.
  rewrite H. unfold is_cont.
  replace ((128 <=? 128 + (c / 4096) mod 64) && (128 + (c / 4096) mod 64 <? 192)
           && ((128 <=? 128 + (c / 64) mod 64) && (128 + (c / 64) mod 64 <? 192))
           && ((128 <=? 128 + c mod 64) && (128 + c mod 64 <? 192))
           && (65536 <=? c) && true) with true by lia.
  reflexivity.
Qed.

Lemma dec_enc t : scalars t -> dec (enc t) = Some t.
Proof.
  induction 1 as [|c t Hc _ IH]; [reflexivity|].
  change (enc (c :: t)) with (enc_char c ++ enc t).
  rewrite dec_enc_char by exact Hc. rewrite IH. reflexivity.
Qed.

Lemma enc_app a b : enc (a ++ b) = enc a ++ enc b.
Proof. apply flat_map_app. Qed.

Lemma blen_app a b : blen (a ++ b) = (blen a + blen b)%nat.
Proof. unfold blen; rewrite enc_app, app_length; reflexivity. Qed.

Lemma enc_char_len c : (1 <= length (enc_char c))%nat.
Proof.
  unfold enc_char; destruct (c <? 128); [cbn; lia|]; destruct (c <? 2048); [cbn; lia|];
  destruct (c <? 65536); cbn; lia.
Qed.

Lemma blen_cons c t : blen (c :: t) = (len_utf8 c + blen t)%nat.
Proof. unfold blen, len_utf8; cbn [enc flat_map]; rewrite app_length; reflexivity. Qed.

Lemma len_utf8_pos c : (1 <= len_utf8 c)%nat.
Proof. apply enc_char_len. Qed.

(** Slicing bytes at the offsets of a decomposition slices characters. *)
Lemma slice_enc (a m b : text) :
  firstn (blen m) (skipn (blen a) (enc (a ++ m ++ b))) = enc m.
Proof.
  rewrite !enc_app. unfold blen.
  rewrite skipn_app, skipn_all, Nat.sub_diag; cbn [skipn app].
  rewrite firstn_app, firstn_all, Nat.sub_diag; cbn [firstn]. apply app_nil_r.
Qed.

(** ** Positions *)

Lemma advance_app p a b : advance p (a ++ b) = advance (advance p a) b.
Proof.
  revert p; induction a as [|c a IH]; intros p; [reflexivity|]. cbn [app advance]. apply IH.
Qed.

Lemma advance_line_mono p t : (line p <= line (advance p t))%nat.
Proof.
  revert p; induction t as [|c t IH]; intros p; cbn [advance]; [lia|].
  destruct (c =? NL).
  - specialize (IH (LC (S (line p)) 0)). cbn in IH. lia.
  - specialize (IH (LC (line p) (S (column p)))). cbn in IH. lia.
Qed.

Lemma advance_same_line l c0 q c :
  advance (LC l c0) q = LC l c -> c = (c0 + length q)%nat /\ ~ In NL q.
Proof.
  revert c0; induction q as [|x q IH]; intros c0 H; cbn [advance] in H.
  - injection H as H; subst; cbn; split; [lia|tauto].
  - destruct (N.eqb_spec x NL) as [Hx|Hx]; cbn [line column] in H.
    + pose proof (advance_line_mono (LC (S l) 0) q) as Hm. rewrite H in Hm. cbn in Hm. lia.
    + apply IH in H as [H1 H2]. cbn [length]. split; [lia|]. cbn; intuition congruence.
Qed.

Lemma advance_no_nl l c0 q : ~ In NL q -> advance (LC l c0) q = LC l (c0 + length q).
Proof.
  revert c0; induction q as [|x q IH]; intros c0 H; cbn [advance length].
  - now rewrite Nat.add_0_r.
  - destruct (N.eqb_spec x NL) as [Hx|Hx]; [exfalso; apply H; left; auto|].
    cbn [line column]. rewrite IH by (intros Hi; apply H; right; exact Hi). f_equal; lia.
Qed.

Lemma first_line_no_nl q r : ~ In NL q -> (length q <= length (first_line (q ++ r)))%nat.
Proof.
  induction q as [|x q IH]; intros H; cbn [app first_line length]; [lia|].
  destruct (N.eqb_spec x NL) as [Hx|Hx]; [exfalso; apply H; left; auto|].
  cbn [length]. apply le_n_S, IH. intros Hi; apply H; right; exact Hi.
Qed.

Lemma first_line_prefix c r : (c <= length (first_line r))%nat -> ~ In NL (firstn c r).
Proof.
  revert c; induction r as [|x r IH]; intros c H.
  - rewrite firstn_nil; tauto.
  - cbn [first_line] in H. destruct (N.eqb_spec x NL) as [Hx|Hx].
    + cbn in H. replace c with 0%nat by lia. cbn; tauto.
    + destruct c as [|c]; [cbn; tauto|]. cbn [length] in H. cbn [firstn In].
      intros [Hi|Hi]; [congruence|]. apply (IH c); [lia|exact Hi].
Qed.

Lemma first_line_length r : (length (first_line r) <= length r)%nat.
Proof.
  induction r as [|x r IH]; cbn [first_line length]; [lia|].
  destruct (x =? NL); cbn [length]; lia.
Qed.

Lemma drop_lines_forward l c0 q r n c :
  advance (LC l c0) q = LC (l + S n) c ->
  exists r', drop_lines (S n) (q ++ r) = Some r' /\
             (c <= length (first_line r'))%nat /\
             (length r' <= length (q ++ r))%nat /\
             (length (q ++ r) - length r' + c = length q)%nat.
Proof.
  revert l c0 n; induction q as [|x q IH]; intros l c0 n H; cbn [advance] in H.
  { injection H as H1 H2. lia. }
  destruct (N.eqb_spec x NL) as [Hx|Hx]; cbn [line column] in H.
  - subst x. cbn [drop_lines app after_nl].
    replace (NL =? NL) with true by reflexivity.
    destruct n as [|n].
    + replace (l + 1)%nat with (S l) in H by lia.
      apply advance_same_line in H as [H1 H2].
      exists (q ++ r). cbn [drop_lines length]. repeat split.
      * subst c; cbn [Nat.add]; apply first_line_no_nl; exact H2.
      * lia.
      * rewrite app_length; subst c; lia.
    + replace (l + S (S n))%nat with (S l + S n)%nat in H by lia.
      destruct (IH _ _ _ H) as (r' & E & A & B & C).
      exists r'. rewrite E. cbn [length]. repeat split; lia.
  - destruct (IH _ _ _ H) as (r' & E & A & B & C).
    exists r'. cbn [app drop_lines after_nl].
    destruct (N.eqb_spec x NL) as [Hy|_]; [congruence|].
    cbn [drop_lines] in E. rewrite E. cbn [length]. repeat split; lia.
Qed.

Lemma after_nl_split t r : after_nl t = Some r ->
  exists q, t = q ++ NL :: r /\ ~ In NL q.
Proof.
  induction t as [|x t IH]; cbn [after_nl]; [discriminate|].
  destruct (N.eqb_spec x NL) as [Hx|Hx]; intros H.
  - injection H as <-. exists []. subst x; cbn; tauto.
  - destruct (IH H) as (q & Hq & Hn). exists (x :: q). subst t. cbn; intuition congruence.
Qed.

Lemma drop_lines_split n : forall t r, drop_lines n t = Some r ->
  exists q, t = q ++ r /\ forall l, advance (LC l 0) q = LC (l + n) 0.
Proof.
  induction n as [|n IH]; intros t r H; cbn [drop_lines] in H.
  - injection H as <-. exists []. cbn. split; [reflexivity|]. intros; now rewrite Nat.add_0_r.
  - destruct (after_nl t) as [t'|] eqn:E; [|discriminate].
    apply after_nl_split in E as (q1 & E1 & N1).
    destruct (IH _ _ H) as (q2 & E2 & A2).
    exists (q1 ++ NL :: q2). split.
    { subst t t'. now rewrite <- app_assoc. }
    intros l. rewrite advance_app, advance_no_nl by exact N1. cbn [advance].
    replace (NL =? NL) with true by reflexivity. cbn [line].
    rewrite A2. f_equal; lia.
Qed.

Lemma char_offset_sound t p o :
  char_offset t p = Some o -> (o <= length t)%nat /\ pos (firstn o t) = p.
Proof.
  destruct p as [l c]. unfold char_offset; cbn [line column].
  destruct l as [|n]; [discriminate|].
  destruct (drop_lines n t) as [r|] eqn:E; [|discriminate].
  destruct (Nat.leb_spec c (length (first_line r))) as [Hc|Hc]; [|discriminate].
  intros H; injection H as <-.
  apply drop_lines_split in E as (q & E & A). subst t.
  pose proof (first_line_length r) as HF.
  rewrite app_length.
  replace (length q + length r - length r + c)%nat with (length q + c)%nat by lia.
  split; [lia|].
  rewrite firstn_app_2. unfold pos. rewrite advance_app, A.
  rewrite advance_no_nl by (apply first_line_prefix; exact Hc).
  rewrite firstn_length. f_equal; lia.
Qed.

Lemma char_offset_complete q r : char_offset (q ++ r) (pos q) = Some (length q).
Proof.
  unfold pos. destruct (advance (LC 1 0) q) as [l c] eqn:E.
  pose proof (advance_line_mono (LC 1 0) q) as Hm. rewrite E in Hm; cbn in Hm.
  unfold char_offset; cbn [line column].
  destruct l as [|n]; [lia|].
  destruct n as [|n].
  - apply advance_same_line in E as [E1 E2]. cbn [drop_lines].
    destruct (Nat.leb_spec c (length (first_line (q ++ r)))) as [Hc|Hc].
    + f_equal; lia.
    + pose proof (first_line_no_nl q r E2). lia.
  - change (S (S n)) with (1 + S n)%nat in E.
    destruct (drop_lines_forward _ _ _ r _ _ E) as (r' & D & A & B & C).
    rewrite D. destruct (Nat.leb_spec c (length (first_line r'))) as [Hc|Hc]; [|lia].
    f_equal; lia.
Qed.

Lemma char_offset_iff t p o :
  char_offset t p = Some o <-> (o <= length t)%nat /\ pos (firstn o t) = p.
Proof.
  split; [apply char_offset_sound|].
  intros [H <-]. rewrite <- (firstn_skipn o t) at 1.
  rewrite char_offset_complete, firstn_length. f_equal; lia.
Qed.

(** Positions are strictly monotone along a file. *)
Lemma advance_lt p t : t <> [] -> lc_lt p (advance p t).
Proof.
  revert p; induction t as [|c t IH]; intros p H; [congruence|]. cbn [advance].
  set (p' := if c =? NL then _ else _).
  assert (Hp : lc_lt p p').
  { subst p'; unfold lc_lt; destruct (c =? NL); cbn; lia. }
  destruct t as [|d t]; [exact Hp|].
  assert (H2 : lc_lt p' (advance p' (d :: t))) by (apply IH; discriminate).
  unfold lc_lt in *; lia.
Qed.

Lemma pos_prefix_inj a b c d : a ++ b = c ++ d -> pos a = pos c -> a = c.
Proof.
  intros E H.
  pose proof (char_offset_complete a b) as H1. pose proof (char_offset_complete c d) as H2.
  rewrite H, E, H2 in H1. injection H1 as H1.
  assert (F : firstn (length a) (a ++ b) = firstn (length a) (c ++ d)) by now rewrite E.
  rewrite <- H1 in F at 2.
  now rewrite !firstn_app, !firstn_all, !Nat.sub_diag, !firstn_O, !app_nil_r in F.
Qed.

Lemma lc_compare_spec a b :
  match lc_compare a b with
  | Eq => a = b
  | Lt => lc_lt a b
  | Gt => lc_lt b a
  end.
Proof.
  destruct a as [la ca], b as [lb cb]; unfold lc_compare, lc_lt; cbn.
  destruct (Nat.compare_spec la lb); [|lia|lia].
  destruct (Nat.compare_spec ca cb); subst; [reflexivity|lia|lia].
Qed.
