(** C60: Anchor.toml while the Anchor back end is at work. *)
From Verif Require Import Base M_Text M_Span M_Run M_Output M_Exec M_Go S_Go L_Go M_Select M_Ts M_Anchor.
Local Open Scope N_scope.

Section P.
Context (word : char -> bool).
Context (word_s : word 115 = true).      (* "s" is a word character *)

(** ** Specification *)
(** The test script [s] consists of [prefix], which ends in a space, the name [file] of a file, which ends in ".ts" and contains
    no space, and [suffix], which does not continue the word. *)
Definition parts (s prefix file suffix : text) : Prop :=
  s = prefix ++ file ++ suffix /\
  (exists p, prefix = p ++ s2t " " /\ ~ In NL p) /\
  (exists x, file = x ++ s2t ".ts" /\ ~ In 32 x) /\
  match suffix with c :: _ => word c = false | [] => True end /\ ~ In NL suffix.
(** [w] occurs in [t] as a word of its own. *)
Definition word_in (w t : text) : Prop :=
  exists a b, t = a ++ w ++ b /\ match rev a with c :: _ => word c = false | [] => True end /\
    match b with c :: _ => word c = false | [] => True end.

(** ** The regular expression *)
Definition at_end (_ : option char) (rest : text) (cap : option text) : option (option text) :=
  match rest with [] => Some cap | _ => None end.
Lemma dot_spec t : Forall (fun c => dot c = true) t <-> ~ In NL t.
Proof.
  rewrite Forall_forall. unfold dot. split; [intros H I; apply H in I; discriminate|]. intros H c I.
  destruct (N.eqb_spec c NL) as [->|]; [contradiction|reflexivity].
Qed.
Lemma space_spec t : Forall (fun c => not_space c = true) t <-> ~ In 32 t.
Proof.
  rewrite Forall_forall. unfold not_space. split; [intros H I; apply H in I; discriminate|]. intros H c I.
  destruct (N.eqb_spec c 32) as [->|]; [contradiction|reflexivity].
Qed.
Definition bound (t : text) : Prop := match t with c :: _ => word c = false | [] => True end.
Lemma bound_spec t : is_word word (hd_char t) = false <-> bound t.
Proof. destruct t as [|c t]; cbn; intuition. Qed.

Definition tail_re (g : rx -> rx) : rx := lit (s2t ".ts") (XSeq XBound (g (XStar dot))).
Definition cap_of (g : bool) (cap : option text) (x : text) : option text := if g then Some x else cap.
Definition gr (g : bool) : rx -> rx := if g then XCap else plainly.
Lemma mt_tail (g : bool) prev mid cap cap' : mt word (tail_re (gr g)) prev mid [] cap cap' <->
  exists sfx, mid = s2t ".ts" ++ sfx /\ bound sfx /\ ~ In NL sfx /\ cap' = cap_of g cap sfx.
Proof.
  unfold tail_re. rewrite mt_lit.
  assert (L : last_char prev (s2t ".ts") = Some 115) by reflexivity. rewrite L.
  assert (Q : forall m2, mt word (gr g (XStar dot)) (Some 115) m2 [] cap cap' <-> ~ In NL m2 /\ cap' = cap_of g cap m2).
  { intros m2. destruct g; cbn [gr cap_of]; unfold plainly.
    - split.
      + intros H. inversion H as [| | | | | | | |r0 p0 m0 r1 c1 c2 M| ]; subst. inversion M; subst. split; [apply dot_spec; assumption|reflexivity].
      + intros [N ->]. econstructor. constructor. apply dot_spec, N.
    - split.
      + intros H. inversion H; subst. split; [apply dot_spec; assumption|reflexivity].
      + intros [N ->]. constructor. apply dot_spec, N. }
  split.
  - intros [mid' [-> H]]. apply mt_seq_inv in H as [m1 [m2 [c2 [-> [A B]]]]]. inversion A; subst. exists m2. split; [reflexivity|].
    rewrite app_nil_r in *. cbn [last_char List.fold_left] in B. apply Q in B as [N ->]. split; [|auto]. apply bound_spec.
    match goal with X : is_word _ _ <> _ |- _ => cbn [is_word] in X; rewrite word_s in X end. destruct (is_word word (hd_char m2)); congruence.
  - intros [sfx [-> [B [N ->]]]]. exists sfx. split; [reflexivity|]. change sfx with ([] ++ sfx) at 1. econstructor.
    + constructor. cbn [is_word]. rewrite word_s, app_nil_r. apply bound_spec in B. rewrite B. discriminate.
    + cbn [last_char List.fold_left]. apply Q. auto.
Qed.
Lemma m_tail_some (g : bool) prev t cap c : m word (tail_re (gr g)) prev t cap at_end = Some c ->
  exists sfx, t = s2t ".ts" ++ sfx /\ bound sfx /\ ~ In NL sfx /\ c = cap_of g cap sfx.
Proof.
  intros H. apply m_sound in H as [mid [rest [cap' [-> [M K]]]]]. destruct rest; [|discriminate]. injection K as ->. rewrite app_nil_r. apply mt_tail in M. exact M.
Qed.
Lemma m_tail_none (g : bool) prev t cap sfx : t = s2t ".ts" ++ sfx -> bound sfx -> ~ In NL sfx -> m word (tail_re (gr g)) prev t cap at_end <> None.
Proof.
  intros -> B N. rewrite <- (app_nil_r (s2t ".ts" ++ sfx)). eapply m_complete; [apply mt_tail; eauto|discriminate].
Qed.

(** What follows the prefix. *)
Definition filed (t x sfx : text) : Prop := t = x ++ s2t ".ts" ++ sfx /\ ~ In 32 x /\ bound sfx /\ ~ In NL sfx.
Definition file_re (g : bool) : rx := XSeq (XStar not_space) (tail_re (gr g)).
Lemma m_file_some g prev t cap c : m word (file_re g) prev t cap at_end = Some c ->
  exists x sfx, filed t x sfx /\ c = cap_of g cap sfx /\ forall x' sfx', filed t x' sfx' -> (length x' <= length x)%nat.
Proof.
  intros H. unfold file_re in H.
  change (m word (XStar not_space) prev t cap (fun p r c0 => m word (tail_re (gr g)) p r c0 at_end) = Some c) in H.
  apply star_longest in H as [x [rest [-> [F [K L]]]]]. apply m_tail_some in K as [sfx [-> [B [N ->]]]]. exists x, sfx.
  split; [split; [reflexivity|]; split; [apply space_spec, F|auto]|]. split; [reflexivity|].
  intros x' sfx' [E [NS [B' N']]]. destruct (Nat.le_gt_cases (length x') (length x)) as [LE|GT]; [exact LE|]. exfalso.
  apply (m_tail_none g (last_char prev x') (s2t ".ts" ++ sfx') cap sfx' eq_refl B' N'). apply (L x'); [exact E|apply space_spec, NS|exact GT].
Qed.
Lemma m_file_none g prev t cap x sfx : filed t x sfx -> m word (file_re g) prev t cap at_end <> None.
Proof.
  intros [-> [NS [B N]]]. unfold file_re.
  change (m word (XStar not_space) prev (x ++ s2t ".ts" ++ sfx) cap (fun p r c0 => m word (tail_re (gr g)) p r c0 at_end) <> None).
  eapply m_complete; [constructor; apply space_spec, NS|]. exact (m_tail_none g _ _ cap sfx eq_refl B N).
Qed.

(** The whole expression; [F] is the capture made by the first group. *)
Definition run_re (g : bool) (F : text -> option text) (s : text) : option (option text) :=
  m word (XStar dot) None s None (fun p r c => m word (XChar 32) p r c (fun p r _ => m word (file_re g) p r (F r) at_end)).
Lemma parts_filed s p x sfx : parts s p (x ++ s2t ".ts") sfx <-> exists p0 t, p = p0 ++ [32] /\ ~ In NL p0 /\ s = p ++ t /\ filed t x sfx.
Proof.
  unfold parts, filed. split.
  - intros [-> [[p0 [-> N0]] [[x' [E NS]] [B N]]]]. apply app_inv_tail in E. subst x'. exists p0, ((x ++ s2t ".ts") ++ sfx). rewrite <- !app_assoc. auto 8.
  - intros [p0 [t [-> [N0 [-> [-> [NS [B N]]]]]]]]. split; [rewrite <- !app_assoc; reflexivity|]. split; [exists p0; auto|]. split; [exists x; auto|auto].
Qed.
Lemma run_some g F s c : run_re g F s = Some c -> exists p x sfx t, parts s p (x ++ s2t ".ts") sfx /\ s = p ++ t /\ c = cap_of g (F t) sfx /\
  (forall p' f' sfx', parts s p' f' sfx' -> (length p' <= length p)%nat /\ (p' = p -> (length f' <= length (x ++ s2t ".ts"))%nat)).
Proof.
  intros H. unfold run_re in H. apply star_longest in H as [p0 [rest [-> [F0 [K L]]]]]. cbn [m] in K. destruct rest as [|d rest]; [discriminate|].
  destruct (N.eqb_spec d 32) as [->|]; [|discriminate]. apply m_file_some in K as [x [sfx [Fi [-> Mx]]]].
  exists (p0 ++ [32]), x, sfx, rest. split; [apply parts_filed; exists p0, rest; split; [reflexivity|]; split; [apply dot_spec, F0|]; split; [rewrite <- app_assoc; reflexivity|exact Fi]|].
  split; [rewrite <- app_assoc; reflexivity|]. split; [reflexivity|]. intros p' f' sfx' P. pose proof P as P0. destruct P as [_ [_ [[x' [-> _]] _]]].
  apply parts_filed in P0 as [p0' [t' [-> [N0 [E Fi']]]]]. split.
  - destruct (Nat.le_gt_cases (length (p0' ++ [32])) (length (p0 ++ [32]))) as [LE|GT]; [exact LE|]. exfalso.
    rewrite !app_length in GT. cbn [length] in GT. assert (GT' : (length p0 < length p0')%nat) by lia. rewrite <- app_assoc in E. cbn [app] in E.
    assert (Z := L p0' (32 :: t') E (proj2 (dot_spec p0') N0) GT'). cbn [m] in Z. change (32 =? 32) with true in Z. cbv iota in Z.
    exact (m_file_none g _ _ _ _ _ Fi' Z).
  - intros Q. rewrite Q in E. rewrite <- app_assoc in E. apply app_inv_head in E. injection E as <-. rewrite !app_length. specialize (Mx x' sfx' Fi'). lia.
Qed.
Lemma run_none g F s p f sfx : parts s p f sfx -> run_re g F s <> None.
Proof.
  intros P. pose proof P as P0. destruct P as [_ [_ [[x [-> _]] _]]]. apply parts_filed in P0 as [p0 [t [-> [N0 [-> Fi]]]]]. unfold run_re. rewrite <- app_assoc.
  eapply m_complete; [constructor; apply dot_spec, N0|]. cbn [m app]. change (32 =? 32) with true. cbv iota. exact (m_file_none g _ _ _ _ _ Fi).
Qed.
Lemma run1 s : captures_all word (test_re XCap plainly) s =
  match run_re false (fun r => Some (firstn (length s - length r) s)) s with Some (Some x) => Some x | _ => None end.
Proof. reflexivity. Qed.
Lemma run2 s : captures_all word (test_re plainly XCap) s = match run_re true (fun _ => None) s with Some (Some x) => Some x | _ => None end.
Proof. reflexivity. Qed.

(** The parts found: the last word of the kind. *)
Definition last_parts (s p f sfx : text) : Prop := parts s p f sfx /\
  forall p' f' sfx', parts s p' f' sfx' -> (length p' <= length p)%nat /\ (p' = p -> (length f' <= length f)%nat).
Lemma last_parts_unique s p f x p' f' x' : last_parts s p f x -> last_parts s p' f' x' -> p = p' /\ f = f' /\ x = x'.
Proof.
  intros [P L] [P' L']. destruct (L _ _ _ P') as [A B]. destruct (L' _ _ _ P) as [A' B'].
  assert (E : s = p ++ f ++ x) by apply P. assert (E' : s = p' ++ f' ++ x') by apply P'.
  assert (Q : p = p').
  { assert (Z : firstn (length p) s = firstn (length p') s) by (f_equal; lia). rewrite E in Z at 1. rewrite E' in Z. rewrite !firstn_app, !firstn_all, !Nat.sub_diag, !firstn_O, !app_nil_r in Z. exact Z. }
  subst p'. specialize (B eq_refl). specialize (B' eq_refl). split; [reflexivity|]. rewrite E in E'. apply app_inv_head in E'.
  assert (Q : f = f').
  { assert (Z : firstn (length f) (f ++ x) = firstn (length f') (f' ++ x')) by (rewrite E'; f_equal; lia). rewrite !firstn_app, !firstn_all, !Nat.sub_diag, !firstn_O, !app_nil_r in Z. exact Z. }
  subst f'. apply app_inv_head in E'. auto.
Qed.
Lemma has_word_spec w : forall t prev, has_word word w prev t = true <->
  exists a b, t = a ++ w ++ b /\ is_word word (last_char prev a) = false /\ bound b.
Proof.
  assert (H : forall prev t, negb (is_word word prev) && match strip_prefix w t with Some r => negb (is_word word (hd_char r)) | None => false end = true <->
            is_word word prev = false /\ exists b, t = w ++ b /\ bound b).
  { intros prev t. rewrite andb_true_iff, negb_true_iff. destruct (strip_prefix w t) as [r|] eqn:E.
    - apply strip_prefix_spec in E. rewrite negb_true_iff, bound_spec. split.
      + intros [A B]. split; [exact A|]. eauto.
      + intros [A [b [E' B]]]. split; [exact A|]. rewrite E in E'. apply app_inv_head in E'. subst. exact B.
    - split; [intros [_ Q]; discriminate|]. intros [_ [b [E' _]]]. apply strip_prefix_spec in E'. congruence. }
  induction t as [|c t IH]; intros prev; cbn [has_word]; rewrite orb_true_iff, H.
  - split.
    + intros [[A [b [E B]]]|Q]; [|discriminate]. exists [], b. auto.
    + intros [a [b [E [A B]]]]. destruct a; [|discriminate]. left. eauto.
  - rewrite IH. split.
    + intros [[A [b [E B]]]|[a [b [-> [A B]]]]]; [exists [], b; auto|exists (c :: a), b; auto].
    + intros [a [b [E [A B]]]]. destruct a as [|c' a]; [left; eauto|]. injection E as <- ->. right. eauto.
Qed.
Lemma last_char_rev a : is_word word (last_char None a) = match rev a with c :: _ => word c | [] => false end.
Proof.
  destruct a as [|c a] using rev_ind; [reflexivity|]. rewrite last_char_snoc, rev_app_distr. reflexivity.
Qed.
Lemma has_word_in w t : has_word word w None t = true <-> word_in w t.
Proof.
  rewrite has_word_spec. unfold word_in, bound. split; intros [a [b [E [A B]]]]; exists a, b; (split; [exact E|]; split; [|exact B]).
  - rewrite last_char_rev in A. destruct (rev a); [exact I|exact A].
  - rewrite last_char_rev. destruct (rev a); [reflexivity|exact A].
Qed.

(** C60: the test script is taken apart at the last word that ends in ".ts"; the runner is Mocha if what precedes contains the
    word "mocha", and otherwise Vitest if it contains the word "vitest". *)
Theorem C60_parse : forall s,
  match parse_test_value word (Some s) with
  | Ok (r, prefix, suffix) =>
      (exists file, last_parts s prefix file suffix) /\
      (r = Mocha <-> word_in (s2t "mocha") prefix \/ word_in (s2t "ts-mocha") prefix) /\ (r = Vitest -> word_in (s2t "vitest") prefix)
  | Err Unparsable => ~ exists prefix file suffix, parts s prefix file suffix
  | Err e => e = UnknownRunner /\ exists prefix file suffix, last_parts s prefix file suffix /\
      ~ word_in (s2t "mocha") prefix /\ ~ word_in (s2t "ts-mocha") prefix /\ ~ word_in (s2t "vitest") prefix
  | Panic => False
  end.
Proof.
  intros s. unfold parse_test_value. rewrite run1, run2.
  destruct (run_re false _ s) as [c1|] eqn:R1.
  - destruct (run_re true _ s) as [c2|] eqn:R2.
    + apply run_some in R1 as [p [x [sfx [t [P [E [-> L]]]]]]]. apply run_some in R2 as [p2 [x2 [sfx2 [t2 [P2 [E2 [-> L2]]]]]]]. cbn [cap_of].
      destruct (last_parts_unique s p (x ++ s2t ".ts") sfx p2 (x2 ++ s2t ".ts") sfx2 (conj P L) (conj P2 L2)) as [<- [_ <-]].
      replace (firstn (length s - length t) s) with p.
      2:{ rewrite E, app_length. replace (length p + length t - length t)%nat with (length p + 0)%nat by lia. rewrite firstn_app_2, firstn_O, app_nil_r. reflexivity. }
      destruct (has_word word (s2t "mocha") None p || has_word word (s2t "ts-mocha") None p) eqn:M.
      * split; [exists (x ++ s2t ".ts"); split; assumption|]. apply orb_true_iff in M. rewrite !has_word_in in M. split; [tauto|discriminate].
      * apply orb_false_iff in M as [M1 M2]. assert (N1 : ~ word_in (s2t "mocha") p) by (rewrite <- has_word_in, M1; discriminate).
        assert (N2 : ~ word_in (s2t "ts-mocha") p) by (rewrite <- has_word_in, M2; discriminate).
        destruct (has_word word (s2t "vitest") None p) eqn:V.
        -- split; [exists (x ++ s2t ".ts"); split; assumption|]. split; [split; [discriminate|tauto]|]. intros _. apply has_word_in, V.
        -- split; [reflexivity|]. exists p, (x ++ s2t ".ts"), sfx. split; [split; assumption|]. split; [exact N1|]. split; [exact N2|]. rewrite <- has_word_in, V. discriminate.
    + intros; exfalso. apply run_some in R1 as [p [x [sfx [t [P _]]]]]. exact (run_none true _ s _ _ _ P R2).
  - intros [p [f [sfx P]]]. exact (run_none false _ s _ _ _ P R1).
Qed.

(** ** Anchor.toml *)
Context {D : Type} (parse_toml : text -> option D) (render : D -> text) (test_script : D -> option (option text)) (set_test_script : D -> text -> D).
Notation asteps := (asteps render set_test_script).
Notation anchor_new := (anchor_new word parse_toml test_script).
Notation patched := (patched render set_test_script).

Lemma patch_shape an source ck a w : 
  let r := patch_anchor_toml render set_test_script an source ck a w in
  aw_runs (fst r) = aw_runs w /\
  match snd r with
  | Ok backup => backup = aw_toml w /\ aw_toml (fst r) = patched an source ck
  | _ => aw_toml (fst r) = aw_toml w
  end.
Proof. unfold patch_anchor_toml. destruct (at_backup a); [destruct (at_write a)|]; cbn; auto. Qed.
Lemma check_shape an source a w :
  let r := check render set_test_script an source a w in
  aw_toml (fst r) = aw_toml w /\ (aw_runs (fst r) = aw_runs w \/ aw_runs (fst r) = patched an source true :: aw_runs w).
Proof.
  unfold check. pose proof (patch_shape an source true a w) as H. destruct (patch_anchor_toml _ _ _ _ _ _ _) as [w1 [backup|e|]]; cbn [fst snd] in H; destruct H as [R H].
  - destruct H as [-> T]. unfold run_command. destruct (at_start a); cbn; [rewrite R, T; auto|auto].
  - cbn. auto.
  - cbn. auto.
Qed.
(** One call of the back end: Anchor.toml is as before, and the commands started found patched versions for this source file. *)
Definition op_source (op : aop) : path := match op with ADryRun s _ _ _ _ => s | ABuild s _ => s | AExec s _ _ _ => s end.
Lemma astep_shape an op w :
  aw_toml (astep render set_test_script an op w) = aw_toml w /\
  exists new, aw_runs (astep render set_test_script an op w) = new ++ aw_runs w /\ forall t, In t new -> exists ck, t = patched an (op_source op) ck.
Proof.
  destruct op as [source install a1 a2 extract|source a|source a1 a2 inner]; unfold astep, op_source.
  - unfold dry_run. destruct install; [|cbn; split; [reflexivity|exists []; split; [reflexivity|intros t []]]].
    pose proof (check_shape an source a1 w) as H. destruct (check _ _ _ _ _ _) as [w1 r1]. cbn [fst] in H. destruct H as [T R].
    destruct r1 as [u|e|]; [|cbn [fst]..].
    + pose proof (patch_shape an source false a2 w1) as H. destruct (patch_anchor_toml _ _ _ _ _ _ _) as [w2 [backup|e|]]; cbn [fst snd] in H; destruct H as [R2 H]; cbn [fst].
      * destruct H as [-> T2]. unfold run_command. split; [exact T|].
        destruct R as [R|R]; destruct (at_start a2); cbn [drop_backup aw_runs]; rewrite R2, R, ?T2.
        -- exists [patched an source false]. split; [reflexivity|]. intros t [<-|[]]. eauto.
        -- exists []. split; [reflexivity|]. intros t [].
        -- exists [patched an source false; patched an source true]. split; [reflexivity|]. intros t [<-|[<-|[]]]; eauto.
        -- exists [patched an source true]. split; [reflexivity|]. intros t [<-|[]]. eauto.
      * split; [congruence|]. rewrite R2. destruct R as [->| ->]; [exists []|exists [patched an source true]]; (split; [reflexivity|]); [intros t []|intros t [<-|[]]; eauto].
      * split; [congruence|]. rewrite R2. destruct R as [->| ->]; [exists []|exists [patched an source true]]; (split; [reflexivity|]); [intros t []|intros t [<-|[]]; eauto].
    + split; [exact T|]. destruct R as [->| ->]; [exists []|exists [patched an source true]]; (split; [reflexivity|]); [intros t []|intros t [<-|[]]; eauto].
    + split; [exact T|]. destruct R as [->| ->]; [exists []|exists [patched an source true]]; (split; [reflexivity|]); [intros t []|intros t [<-|[]]; eauto].
  - unfold build_source_file. pose proof (check_shape an source a w) as H. destruct (check _ _ _ _ _ _) as [w1 r1]. cbn [fst] in *. destruct H as [T R].
    split; [exact T|]. destruct R as [->| ->]; [exists []|exists [patched an source true]]; (split; [reflexivity|]); [intros t []|intros t [<-|[]]; eauto].
  - unfold exec. pose proof (check_shape an source a1 w) as H. destruct (check _ _ _ _ _ _) as [w1 r1]. cbn [fst] in H. destruct H as [T R].
    assert (Q : exists new, aw_runs w1 = new ++ aw_runs w /\ forall t, In t new -> exists ck, t = patched an source ck).
    { destruct R as [->| ->]; [exists []|exists [patched an source true]]; (split; [reflexivity|]); [intros t []|intros t [<-|[]]; eauto]. }
    destruct r1 as [u|e|]; [|cbn; auto..].
    pose proof (patch_shape an source false a2 w1) as H. destruct (patch_anchor_toml _ _ _ _ _ _ _) as [w2 [backup|e|]]; cbn [fst snd] in H; destruct H as [R2 H].
    + destruct H as [-> T2]. destruct inner as [[u'|]|e|]; cbn [perform drop_backup aw_toml aw_runs].
      * unfold perform, run_command. split; [exact T|]. destruct (at_start a2); cbn [drop_backup aw_runs]; rewrite R2, ?T2; [|exact Q].
        destruct Q as [new [-> Q]]. exists (patched an source false :: new). split; [reflexivity|]. intros t [<-|I]; eauto.
      * split; [exact T|]. rewrite R2. exact Q.
      * split; [exact T|]. rewrite R2. exact Q.
      * split; [exact T|]. rewrite R2. exact Q.
    + split; [congruence|]. rewrite R2. exact Q.
    + split; [congruence|]. rewrite R2. exact Q.
Qed.

(** C60: whatever the core has the back end do, however often, and whatever fails: Anchor.toml is the same as before. *)
Theorem C60_restored : forall an ops w, aw_toml (asteps an ops w) = aw_toml w.
Proof.
  intros an ops. induction ops as [|op ops IH]; intros w; [reflexivity|]. cbn [M_Anchor.asteps]. rewrite IH. apply astep_shape.
Qed.

(** C60: whenever "anchor test" is started, Anchor.toml's test script is the original one with the file in it replaced with the
    source file in question and arguments for the runner added; provided toml_edit writes a document so that it can be read. *)
Definition edits : Prop := forall d s, exists d', parse_toml (render (set_test_script d s)) = Some d' /\ test_script d' = Some (Some s).
Definition spelled (p : path) : text := concat (map (fun x => s2t "/" ++ x) p).
(** What is added to the command: nothing, or that no test is to run, or Vitest's options. *)
Definition added (r : runner) (ck : bool) : text :=
  match r, ck with Mocha, true => s2t " --dry-run" | Mocha, false => s2t "" | Vitest, _ => s2t " --bail=1 --reporter=json" end.
Lemma absolute_spelled p : p <> [] -> absolute p = spelled p.
Proof.
  unfold absolute, spelled. induction p as [|x p IH]; intros H; [destruct (H eq_refl)|]. destruct p as [|y p]; [cbn; rewrite app_nil_r; reflexivity|].
  cbn [map concat]. change (concat (map (fun x => s2t "/" ++ x) (y :: p))) with (concat (map (fun x => s2t "/" ++ x) (y :: p))) in IH. cbn [join_path]. cbn [map concat] in IH.
  rewrite <- IH by discriminate. cbn. reflexivity.
Qed.
Lemma extra_added r ck : extra_args r ck = added r ck.
Proof. destruct r, ck; reflexivity. Qed.
Theorem C60_scripts : edits -> forall contents an ops w,
  anchor_new (Some contents) = Ok an ->
  exists d original prefix file suffix new,
    parse_toml contents = Some d /\ test_script d = Some (Some original) /\ last_parts original prefix file suffix /\
    aw_runs (asteps an ops w) = new ++ aw_runs w /\
    forall t, In t new -> exists d' op ck,
      parse_toml t = Some d' /\ In op ops /\
      (op_source op <> [] -> test_script d' = Some (Some (prefix ++ spelled (op_source op) ++ suffix ++ added (an_runner an) ck))).
Proof.
  intros Ed contents an ops w H. unfold M_Anchor.anchor_new in H. destruct (parse_toml contents) as [d|] eqn:Pd; [|discriminate].
  destruct (test_script d) as [[s|]|] eqn:Ps; [|discriminate|discriminate]. pose proof (C60_parse s) as C.
  destruct (parse_test_value word (Some s)) as [[[r prefix] suffix]|e|] eqn:Q; [|discriminate|discriminate]. injection H as <-. destruct C as [[file L] _].
  assert (G : exists new, aw_runs (asteps (Anchor d r prefix suffix) ops w) = new ++ aw_runs w /\
    forall t, In t new -> exists op ck, In op ops /\ t = patched (Anchor d r prefix suffix) (op_source op) ck).
  { revert w. induction ops as [|op ops IH]; intros w; [exists []; split; [reflexivity|intros t []]|]. cbn [M_Anchor.asteps].
    destruct (IH (astep render set_test_script (Anchor d r prefix suffix) op w)) as [n1 [E1 H1]].
    destruct (astep_shape (Anchor d r prefix suffix) op w) as [_ [n2 [E2 H2]]]. exists (n1 ++ n2). split; [rewrite E1, E2; apply app_assoc|].
    intros t I. apply in_app_or in I as [I|I].
    - destruct (H1 t I) as [op' [ck [J ->]]]. exists op', ck. split; [right; exact J|reflexivity].
    - destruct (H2 t I) as [ck ->]. exists op, ck. split; [left; reflexivity|reflexivity]. }
  destruct G as [new [E G]]. exists d, s, prefix, file, suffix, new. split; [reflexivity|]. split; [exact Ps|]. split; [exact L|]. split; [exact E|].
  intros t I. destruct (G t I) as [op [ck [J ->]]]. unfold M_Anchor.patched. cbn [an_document an_prefix an_suffix an_runner].
  match goal with |- context [render (set_test_script d ?x)] => destruct (Ed d x) as [d' [P T]] end. exists d', op, ck. split; [exact P|]. split; [exact J|]. intros Hne.
  rewrite <- (absolute_spelled _ Hne), <- extra_added. exact T.
Qed.

(** C60: a test runs only after a check of its source file has succeeded, with the same Anchor.toml to start from; with Mocha,
    the check executes no test (its script ends in "--dry-run"). *)
Theorem C60_checked : forall an source a1 a2 inner w w' backup,
  exec render set_test_script an source a1 a2 inner w = (w', Ok (Some backup)) ->
  aw_runs w' = patched an source true :: aw_runs w /\ at_success a1 = true /\ aw_toml w' = patched an source false /\ backup = aw_toml w /\ exists u, inner = Ok (Some u).
Proof.
  intros an source a1 a2 inner w w' backup H. unfold exec, check in H.
  pose proof (patch_shape an source true a1 w) as P1. destruct (patch_anchor_toml _ _ _ _ _ _ _) as [w1 [b1|e|]]; cbn [fst snd] in P1; [|discriminate H|discriminate H].
  destruct P1 as [R1 [-> T1]]. destruct (at_start a1 && at_success a1) eqn:S0; [|discriminate H]. apply andb_true_iff in S0 as [S1 S2].
  unfold run_command in H. rewrite S1 in H. cbn [drop_backup aw_runs] in H.
  match type of H with context [patch_anchor_toml _ _ _ _ _ _ ?x] => pose proof (patch_shape an source false a2 x) as P2; destruct (patch_anchor_toml render set_test_script an source false a2 x) as [w2 [b2|e|]] end;
    cbn [fst snd] in P2; [|discriminate H|discriminate H]. destruct P2 as [R2 [-> T2]]. destruct inner as [[u|]|e|]; try discriminate H. injection H as <- <-.
  split; [rewrite R2; cbn [aw_runs]; rewrite T1, R1; reflexivity|]. split; [exact S2|]. split; [exact T2|]. split; [reflexivity|eauto].
Qed.
(** The dry run is a success exactly if everything on the way was: the dependencies are installed, the source checks, its tests pass and their
    messages can be read from the output; then the command was run twice, once to check and once to test, and Anchor.toml is what it was. *)
Definition smooth (a : attempt) : Prop := at_backup a = true /\ at_write a = None /\ at_start a = true /\ at_success a = true.
Theorem C60_dry_run : forall an source install a1 a2 extract w w',
  dry_run render set_test_script an source install a1 a2 extract w = (w', Ok tt) <->
  install = true /\ smooth a1 /\ smooth a2 /\ extract = true /\
  aw_toml w' = aw_toml w /\ aw_runs w' = patched an source false :: patched an source true :: aw_runs w.
Proof.
  intros an source install a1 a2 extract w w'. unfold smooth, dry_run, check, patch_anchor_toml, run_command. destruct w' as [t r]. cbn [aw_toml aw_runs].
  destruct install; [|split; [discriminate|intros [H _]; discriminate]].
  destruct (at_backup a1); [|split; [discriminate|intros (_ & [H _] & _); discriminate]]. destruct (at_write a1); [split; [discriminate|intros (_ & (_ & H & _) & _); discriminate]|].
  destruct (at_start a1); [|split; [discriminate|intros (_ & (_ & _ & H & _) & _); discriminate]]. destruct (at_success a1); [|split; [discriminate|intros (_ & (_ & _ & _ & H) & _); discriminate]].
  cbn [drop_backup aw_toml aw_runs andb].
  destruct (at_backup a2); [|split; [discriminate|intros (_ & _ & [H _] & _); discriminate]]. destruct (at_write a2); [split; [discriminate|intros (_ & _ & (_ & H & _) & _); discriminate]|].
  destruct (at_start a2); [|split; [discriminate|intros (_ & _ & (_ & _ & H & _) & _); discriminate]]. destruct (at_success a2); [|split; [discriminate|intros (_ & _ & (_ & _ & _ & H) & _); discriminate]].
  cbn [drop_backup aw_toml aw_runs andb]. destruct extract; [|split; [discriminate|intros (_ & _ & _ & H & _); discriminate]].
  split; [intros H; injection H as <- <-; auto 10|]. intros (_ & _ & _ & _ & -> & ->). reflexivity.
Qed.
Theorem C60_mocha_check : forall an source, an_runner an = Mocha ->
  patched an source true = render (set_test_script (an_document an) (an_prefix an ++ absolute source ++ an_suffix an ++ s2t " --dry-run")) /\
  patched an source false = render (set_test_script (an_document an) (an_prefix an ++ absolute source ++ an_suffix an)).
Proof. intros an source E. unfold M_Anchor.patched, extra_args. rewrite E, app_nil_r. split; reflexivity. Qed.
(** C60, the part that is false: with Vitest the check is the test.  The script is the same, so the tests run before it is known
    that there is something to run; and if they fail the answer is the one for source that does not build. *)
Theorem C60_vitest_check_refuted : forall an source a1 a2 inner w, an_runner an = Vitest ->
  at_backup a1 = true -> at_write a1 = None -> at_start a1 = true -> at_success a1 = false ->
  let r := exec render set_test_script an source a1 a2 inner w in
  aw_runs (fst r) = patched an source false :: aw_runs w /\ snd r = Ok None.
Proof.
  intros an source a1 a2 inner w V B W0 S1 S2. cbv zeta. unfold exec, check, patch_anchor_toml. rewrite B, W0. unfold run_command. rewrite S1, S2. cbn.
  split; [|reflexivity]. f_equal. unfold M_Anchor.patched, extra_args. rewrite V. reflexivity.
Qed.
End P.
Print Assumptions C60_parse.
Print Assumptions C60_restored.
Print Assumptions C60_scripts.
Print Assumptions C60_checked.
Print Assumptions C60_dry_run.
Print Assumptions C60_mocha_check.
Print Assumptions C60_vitest_check_refuted.

(** Concrete cases: a toy document, consisting of its script only. *)
Definition ex_word (c : char) : bool := ((97 <=? c) && (c <=? 122)) || (c =? 95).
Definition ex_script : text := s2t "yarn run ts-mocha -p ./tsconfig.json -t 1000000 tests/a.ts --exit".
Definition ex_anchor : anchor := Anchor ex_script Mocha (s2t "yarn run ts-mocha -p ./tsconfig.json -t 1000000 ") (s2t " --exit").
Definition ex_attempt : attempt := Attempt true None true true (s2t "garbage").
Example C60_nonvacuous :
  @edits text (fun t => Some t) (fun d => d) (fun d => Some (Some d)) (fun _ s => s) /\
  M_Anchor.anchor_new ex_word (fun t => Some t) (fun d => Some (Some d)) (Some ex_script) = Ok ex_anchor /\
  M_Anchor.asteps (fun d => d) (fun _ s => s) ex_anchor
    [ADryRun [s2t "r"; s2t "tests"; s2t "b.ts"] true ex_attempt ex_attempt true] (AW ex_script []) =
    AW ex_script [s2t "yarn run ts-mocha -p ./tsconfig.json -t 1000000 /r/tests/b.ts --exit";
                  s2t "yarn run ts-mocha -p ./tsconfig.json -t 1000000 /r/tests/b.ts --exit --dry-run"].
Proof. split; [intros d s; exists s; auto|]. split; vm_compute; reflexivity. Qed.
