(** Proofs about [M_Positions]. *)
From Verif Require Import Base M_Text S_Text L_Text M_Positions.
Local Open Scope nat_scope.

Lemma existsb_nl_iff t : existsb (fun x => N.eqb x NL) t = true <-> In NL t.
Proof.
  rewrite existsb_exists; split.
  - intros (x & Hx & E). apply N.eqb_eq in E; subst; exact Hx.
  - intros H; exists NL; split; [exact H|reflexivity].
Qed.

Lemma last_line_split t : exists p, t = p ++ last_line t /\ ~ In NL (last_line t) /\
  (forall l c, advance (LC l c) p = LC (l + count_nl t) (if existsb (fun x => N.eqb x NL) t then 0 else c)).
Proof.
  induction t as [|x t (p & E & N & A)].
  - exists []. split; [reflexivity|]. split; [cbn; tauto|]. intros; cbn; f_equal; lia.
  - cbn [last_line].
    destruct (existsb (fun y => N.eqb y NL) (x :: t)) eqn:Ex.
    + exists (x :: p). split; [cbn; now rewrite <- E|]. split; [exact N|].
      intros l c. cbn [advance count_nl].
      cbn [existsb] in Ex.
      destruct (N.eqb x NL) eqn:Ex1; cbn [line column].
      * rewrite A. destruct (existsb (fun x => N.eqb x NL) t); f_equal; lia.
      * rewrite A. cbn [orb] in Ex. rewrite Ex. reflexivity.
    + exists []. split; [reflexivity|]. split.
      * rewrite <- existsb_nl_iff. congruence.
      * intros l c. cbn [advance]. f_equal.
        assert (H0 : count_nl (x :: t) = 0); [|lia].
        assert (G : forall u : text, existsb (fun y => N.eqb y NL) u = false -> count_nl u = 0).
        { induction u as [|y u IH]; cbn; [reflexivity|]. destruct (N.eqb y NL); cbn; [discriminate|exact IH]. }
        apply G, Ex.
Qed.

Lemma pos_lines t : pos t = LC (S (count_nl t)) (length (last_line t)).
Proof.
  destruct (last_line_split t) as (p & E & N & A). unfold pos. rewrite E at 1.
  rewrite advance_app, A, advance_no_nl by exact N.
  destruct (existsb (fun x => N.eqb x NL) t) eqn:Ex; f_equal; lia.
Qed.

Lemma skip_bytes_app a b : skip_bytes (blen a) (a ++ b) = Some b.
Proof.
  induction a as [|c a IH].
  - cbn. destruct b; reflexivity.
  - rewrite blen_cons. pose proof (len_utf8_pos c) as L. cbn [app skip_bytes].
    destruct (len_utf8 c + blen a) as [|k] eqn:E; [lia|]. rewrite <- E.
    destruct (Nat.ltb_spec (len_utf8 c + blen a) (len_utf8 c)); [lia|].
    replace (len_utf8 c + blen a - len_utf8 c) with (blen a) by lia. exact IH.
Qed.

Lemma char_indices_shift o t : char_indices o t = map (fun ic => (o + fst ic, snd ic)) (char_indices 0 t).
Proof.
  assert (G : forall t o k, char_indices (o + k) t = map (fun ic => (o + fst ic, snd ic)) (char_indices k t)).
  { induction t0 as [|c t0 IH]; intros o0 k; cbn [char_indices map fst snd]; [reflexivity|].
    f_equal. rewrite <- Nat.add_assoc. apply IH. }
  specialize (G t o 0). now rewrite Nat.add_0_r in G.
Qed.

Lemma position_char_indices a x b o :
  position (fun oc => Nat.eqb (o + blen a) (fst oc)) (char_indices o (a ++ x :: b)) = Some (length a).
Proof.
  revert o; induction a as [|c a IH]; intros o; cbn [app char_indices position fst length].
  - change (blen []) with 0. rewrite Nat.add_0_r, Nat.eqb_refl. reflexivity.
  - rewrite blen_cons. pose proof (len_utf8_pos c) as L.
    destruct (Nat.eqb_spec (o + (len_utf8 c + blen a)) o); [lia|].
    rewrite Nat.add_assoc, IH. reflexivity.
Qed.

(** Tree-sitter points on character boundaries are converted exactly. *)
Lemma point_to_line_column_ok before after :
  after <> [] ->
  point_to_line_column (before ++ after) (count_nl before) (blen (last_line before)) = Ok (pos before).
Proof.
  intros Ha. unfold point_to_line_column.
  destruct (last_line_split before) as (p & E & N & A).
  assert (P : pos p = LC (count_nl before + 1) 0).
  { unfold pos. rewrite A. destruct (existsb (fun x => N.eqb x NL) before); f_equal; lia. }
  assert (E2 : before ++ after = p ++ last_line before ++ after) by (rewrite app_assoc, <- E; reflexivity).
  rewrite <- P. unfold byte_offset. rewrite E2.
  rewrite char_offset_complete. cbn [option_map].
  rewrite firstn_app, firstn_all, Nat.sub_diag, firstn_O, app_nil_r.
  rewrite skip_bytes_app.
  destruct after as [|x r]; [congruence|].
  pose proof (position_char_indices (last_line before) x r 0) as Q. cbn [Nat.add] in Q.
  rewrite Q. rewrite pos_lines. f_equal. f_equal. lia.
Qed.

(** ... and at the very end of the file the conversion panics. *)
Lemma position_none {A} (f : A -> bool) l : (forall x, In x l -> f x = false) -> position f l = None.
Proof.
  induction l as [|x l IH]; intros H; cbn; [reflexivity|].
  rewrite H by (left; reflexivity). rewrite IH; [reflexivity|]. intros y Hy; apply H; right; exact Hy.
Qed.

Lemma char_indices_lt t o i c : In (i, c) (char_indices o t) -> o <= i < o + blen t.
Proof.
  revert o; induction t as [|x t IH]; intros o H; cbn [char_indices] in H; [destruct H|].
  rewrite blen_cons. pose proof (len_utf8_pos x).
  destruct H as [H|H]; [injection H as <- _; lia|]. apply IH in H; lia.
Qed.

Lemma point_to_line_column_eof file :
  point_to_line_column file (count_nl file) (blen (last_line file)) = Panic.
Proof.
  unfold point_to_line_column.
  destruct (last_line_split file) as (p & E & N & A).
  assert (P : pos p = LC (count_nl file + 1) 0).
  { unfold pos. rewrite A. destruct (existsb (fun x => N.eqb x NL) file); f_equal; lia. }
  assert (B : byte_offset file (pos p) = Some (blen p)).
  { unfold byte_offset. rewrite E. rewrite char_offset_complete. cbn [option_map].
    rewrite firstn_app, firstn_all, Nat.sub_diag, firstn_O, app_nil_r. reflexivity. }
  assert (K : skip_bytes (blen p) file = Some (last_line file)).
  { rewrite E at 1. apply skip_bytes_app. }
  rewrite <- P, B, K.
  rewrite position_none; [reflexivity|].
  intros [i c] Hi. apply char_indices_lt in Hi. cbn [fst]. apply Nat.eqb_neq. lia.
Qed.

(** ** Foundry *)

Lemma line_starts_shift o t :
  flat_map (fun ic => if N.eqb (snd ic) NL then [fst ic + 1] else []) (char_indices o t)
  = map (fun s => o + s) (line_starts t).
Proof.
  unfold line_starts. rewrite char_indices_shift.
  induction (char_indices 0 t) as [|[i c] l IH]; [reflexivity|].
  cbn [map flat_map fst snd]. rewrite IH, map_app. f_equal.
  destruct (N.eqb c NL); cbn; [f_equal; lia|reflexivity].
Qed.

Lemma line_starts_cons c t :
  line_starts (c :: t) =
  (if N.eqb c NL then [1] else []) ++ map (fun s => len_utf8 c + s) (line_starts t).
Proof.
  unfold line_starts at 1. cbn [char_indices flat_map fst snd Nat.add].
  rewrite line_starts_shift. reflexivity.
Qed.

Lemma partition_point_map (k loc : nat) l :
  partition_point (fun s => s <=? k + loc) (map (fun s => k + s) l)
  = partition_point (fun s => s <=? loc) l.
Proof.
  induction l as [|x l IH]; cbn [map partition_point]; [reflexivity|].
  rewrite IH.
  destruct (Nat.leb_spec (k + x) (k + loc)); destruct (Nat.leb_spec x loc); lia.
Qed.

Lemma line_starts_pos t : Forall (fun s => 1 <= s) (line_starts t).
Proof.
  induction t as [|c t IH]; [constructor|]. rewrite line_starts_cons.
  apply Forall_app; split.
  - destruct (N.eqb c NL); repeat constructor.
  - rewrite Forall_map. eapply Forall_impl; [|exact IH]. cbn; intros; lia.
Qed.

Lemma partition_point_zero l : Forall (fun s => 1 <= s) l -> partition_point (fun s => s <=? 0) l = 0.
Proof.
  destruct 1 as [|x l H _]; [reflexivity|]. cbn [partition_point].
  destruct (Nat.leb_spec x 0); [lia|reflexivity].
Qed.

Lemma partition_point_lines before after :
  partition_point (fun s => s <=? blen before) (line_starts (before ++ after)) = count_nl before /\
  (match count_nl before with
   | O => blen before
   | S k => blen before - nth k (line_starts (before ++ after)) 0
   end = blen (last_line before)).
Proof.
  induction before as [|c b [IH1 IH2]].
  - cbn [app]. change (blen []) with 0. cbn [count_nl last_line].
    rewrite partition_point_zero by apply line_starts_pos. split; reflexivity.
  - cbn [app]. rewrite line_starts_cons, blen_cons.
    cbn [count_nl last_line existsb].
    assert (Hn : len_utf8 NL = 1) by reflexivity.
    assert (Gc : forall u : text, count_nl u = 0 -> existsb (fun y => N.eqb y NL) u = false).
    { induction u as [|y u IHu]; cbn; [reflexivity|]. destruct (N.eqb y NL); cbn; [discriminate|exact IHu]. }
    assert (Gn : forall (u : text) n, count_nl u = S n -> existsb (fun y => N.eqb y NL) u = true).
    { induction u as [|y u IHu]; cbn; [discriminate|]. intros n.
      destruct (N.eqb y NL); cbn; [reflexivity|eauto]. }
    assert (Gl : forall u : text, existsb (fun y => N.eqb y NL) u = false -> last_line u = u).
    { intros [|y u]; [reflexivity|]. intros Hu. cbn [last_line]. now rewrite Hu. }
    destruct (N.eqb_spec c NL) as [->|Hc].
    + cbn [app partition_point orb]. rewrite Hn.
      destruct (Nat.leb_spec 1 (1 + blen b)) as [_|?]; [|lia].
      rewrite (partition_point_map 1). rewrite IH1. split; [reflexivity|].
      destruct (count_nl b) as [|k] eqn:Ek.
      * cbn [nth]. rewrite (Gl b) by (apply Gc; exact Ek). lia.
      * cbn [nth]. rewrite <- IH2.
        destruct (Nat.lt_ge_cases k (length (line_starts (b ++ after)))) as [L|L].
        -- rewrite nth_indep with (d' := 1 + 0) by (rewrite map_length; exact L).
           rewrite (map_nth (fun s => 1 + s)). lia.
        -- exfalso. assert (P : partition_point (fun s => s <=? blen b) (line_starts (b ++ after))
                        <= length (line_starts (b ++ after))).
           { generalize (line_starts (b ++ after)). induction l as [|z l IHl]; cbn; [lia|].
             destruct (z <=? blen b); lia. }
           rewrite IH1 in P. lia.
    + cbn [app orb]. rewrite partition_point_map, IH1. split; [reflexivity|].
      destruct (count_nl b) as [|k] eqn:Ek.
      * rewrite Gc by exact Ek. rewrite blen_cons. reflexivity.
      * rewrite (Gn _ _ Ek). rewrite <- IH2.
        destruct (Nat.lt_ge_cases k (length (line_starts (b ++ after)))) as [L|L].
        -- rewrite nth_indep with (d' := len_utf8 c + 0) by (rewrite map_length; exact L).
           rewrite (map_nth (fun s => len_utf8 c + s)). lia.
        -- exfalso. assert (P : partition_point (fun s => s <=? blen b) (line_starts (b ++ after))
                        <= length (line_starts (b ++ after))).
           { generalize (line_starts (b ++ after)). induction l as [|z l IHl]; cbn; [lia|].
             destruct (z <=? blen b); lia. }
           rewrite IH1 in P. lia.
Qed.

Lemma offset_to_line_column_eq before after :
  offset_to_line_column (before ++ after) (blen before)
  = LC (S (count_nl before)) (blen (last_line before)).
Proof.
  unfold offset_to_line_column. destruct (partition_point_lines before after) as [H1 H2].
  cbv zeta. rewrite H1, H2. f_equal. lia.
Qed.

Lemma blen_ascii t : blen t = length t <-> Forall (fun c => (c < 128)%N) t.
Proof.
  assert (L : forall t, length t <= blen t).
  { induction t0 as [|c t0 IH]; [cbn; lia|]. rewrite blen_cons. cbn [length].
    pose proof (len_utf8_pos c). lia. }
  induction t as [|c t IH]; [split; [constructor|reflexivity]|].
  rewrite blen_cons. cbn [length]. pose proof (len_utf8_pos c) as P. specialize (L t). split.
  - intros H. constructor.
    + unfold len_utf8, enc_char in *. destruct (N.ltb_spec c 128); [assumption|].
      destruct (c <? 2048)%N; [cbn in H; lia|]. destruct (c <? 65536)%N; cbn in H; lia.
    + apply IH. lia.
  - intros H. inversion H as [|? ? Hc Ht]; subst. apply IH in Ht. rewrite Ht.
    unfold len_utf8, enc_char. destruct (N.ltb_spec c 128); [reflexivity|lia].
Qed.

Lemma offset_to_line_column_iff before after :
  offset_to_line_column (before ++ after) (blen before) = pos before <->
  Forall (fun c => (c < 128)%N) (last_line before).
Proof.
  rewrite offset_to_line_column_eq, pos_lines, <- blen_ascii. split.
  - intros H; injection H; auto.
  - intros ->; reflexivity.
Qed.

(** ** Semicolons *)

Lemma enc_char_ascii c : (c < 128)%N -> enc_char c = [c].
Proof. intros H; unfold enc_char. destruct (N.ltb_spec c 128); [reflexivity|lia]. Qed.

Lemma enc_char_first c : exists b bs, enc_char c = b :: bs /\ ((b < 128)%N -> b = c /\ bs = [] /\ (c < 128)%N).
Proof.
  unfold enc_char. destruct (N.ltb_spec c 128) as [L|L]; [eexists _, _; split; [reflexivity|auto]|].
  destruct (c <? 2048)%N; [eexists _, _; split; [reflexivity|intros; exfalso; lia]|].
  destruct (c <? 65536)%N; eexists _, _; (split; [reflexivity|intros; exfalso; lia]).
Qed.

Lemma is_ascii_ws_lt b : is_ascii_ws b = true -> (b < 128)%N.
Proof. unfold is_ascii_ws; rewrite !orb_true_iff, !N.eqb_eq; lia. Qed.

Lemma count_ws_split t : exists ws r, t = ws ++ r /\ Forall (fun c => is_ascii_ws c = true) ws /\
  enc ws = ws /\ count_ws (enc t) = length ws /\ skipn (length ws) (enc t) = enc r /\
  match enc r with b :: _ => is_ascii_ws b = false | [] => True end.
Proof.
  induction t as [|c t (ws & r & E & F & Ew & Cw & Sk & Hd)].
  - exists [], []. cbn. repeat split; auto.
  - change (enc (c :: t)) with (enc_char c ++ enc t).
    destruct (enc_char_first c) as (b & bs & Eb & Hb).
    destruct (is_ascii_ws b) eqn:W.
    + destruct (Hb (is_ascii_ws_lt _ W)) as (-> & -> & Hc).
      exists (c :: ws), r. rewrite enc_char_ascii by exact Hc.
      cbn [app count_ws skipn length]. rewrite W, Cw, Sk, E.
      repeat split; auto. change (enc (c :: ws)) with (enc_char c ++ enc ws).
      rewrite enc_char_ascii by exact Hc. now rewrite Ew.
    + exists [], (c :: t). change (enc (c :: t)) with (enc_char c ++ enc t). rewrite Eb.
      cbn [app count_ws length skipn]. rewrite W. cbn. repeat split; auto.
Qed.

Lemma end_with_semicolon_spec before after :
  (exists ws after', after = ws ++ 59%N :: after' /\ Forall (fun c => is_ascii_ws c = true) ws /\
     end_with_semicolon (before ++ after) (blen before) = blen (before ++ ws ++ [59%N])) \/
  ((forall ws after', Forall (fun c => is_ascii_ws c = true) ws -> after <> ws ++ 59%N :: after') /\
     end_with_semicolon (before ++ after) (blen before) = blen before).
Proof.
  assert (K : skipn (blen before) (enc (before ++ after)) = enc after).
  { rewrite enc_app. unfold blen. rewrite skipn_app, skipn_all, Nat.sub_diag. reflexivity. }
  unfold end_with_semicolon. rewrite K. cbv zeta.
  destruct (count_ws_split after) as (ws & r & E & F & Ew & Cw & Sk & Hd).
  rewrite Cw, Sk.
  destruct r as [|c r].
  - right. cbn. split; [|reflexivity]. intros ws' a' F' E'.
    rewrite app_nil_r in E. subst after.
    rewrite Forall_forall in F. specialize (F 59%N). rewrite E' in F.
    assert (is_ascii_ws 59 = true) by (apply F, in_or_app; right; left; reflexivity). discriminate.
  - destruct (enc_char_first c) as (b & bs & Eb & Hb).
    change (enc (c :: r)) with (enc_char c ++ enc r) in *. rewrite Eb in *. cbn [app] in *.
    destruct (N.eqb_spec b 59) as [->|Hn].
    + left. destruct (Hb eq_refl) as (<- & _ & _).
      exists ws, r. repeat split; auto.
      unfold blen. rewrite !enc_app, !app_length, Ew. cbn. lia.
    + right. split; [|reflexivity]. intros ws' a' F' E'.
      assert (G : forall (w1 w2 : text) c1 r1 c2 r2,
                Forall (fun c => is_ascii_ws c = true) w1 -> Forall (fun c => is_ascii_ws c = true) w2 ->
                is_ascii_ws c1 = false -> is_ascii_ws c2 = false ->
                w1 ++ c1 :: r1 = w2 ++ c2 :: r2 -> c1 = c2).
      { induction w1 as [|x w1 IH]; intros [|y w2] c1 r1 c2 r2 F1 F2 N1 N2 H; cbn in H.
        - congruence.
        - injection H as -> _. inversion F2; congruence.
        - injection H as -> _. inversion F1; congruence.
        - injection H as -> H. inversion F1; inversion F2; subst. eauto. }
      rewrite E in E'.
      assert (Wc : is_ascii_ws c = false).
      { destruct (is_ascii_ws c) eqn:Wc; [|reflexivity].
        pose proof (enc_char_ascii c (is_ascii_ws_lt _ Wc)) as E2. rewrite E2 in Eb.
        injection Eb as -> _. congruence. }
      assert (W59 : is_ascii_ws 59 = false) by reflexivity.
      pose proof (G _ _ _ _ _ _ F F' Wc W59 E') as ->. cbn in Eb. injection Eb as <- _. congruence.
Qed.
