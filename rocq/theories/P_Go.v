(** Theorems about the Go back end's instrumentation of a file: C52. *)
From Verif Require Import Base M_Text S_Text L_Text M_Rewriter M_Span S_Span M_Run M_Instr S_Instr L_Instr M_Directives S_Directives L_Directives P_Directives M_Go S_Go L_Go.
Local Open Scope N_scope.

Section P.
Context (word : char -> bool) (word_i : word 105 = true).

Lemma captures_spec r t :
  match captures word r t with
  | Some cap => exists a mid b, t = a ++ mid ++ b /\ mt word r (last_char None a) mid b None cap /\
      m word r (last_char None a) (mid ++ b) None (fun _ _ cap => Some cap) = Some cap /\
      forall a' mid' b' cap', t = a' ++ mid' ++ b' -> mt word r (last_char None a') mid' b' None cap' -> (length a <= length a')%nat
  | None => forall a' mid' b' cap', t = a' ++ mid' ++ b' -> ~ mt word r (last_char None a') mid' b' None cap'
  end.
Proof. apply (search_spec word r t None). Qed.

Lemma named_iff t a n : named word t a n <-> exists mid b, t = a ++ mid ++ b /\ mt word IMPORT_NAMED_OS_RE (last_char None a) mid b None (Some n).
Proof.
  split.
  - intros [g [b [-> [W [N G]]]]]. exists (s2t "import " ++ n ++ g ++ PATH), b. split; [rewrite <- !app_assoc; reflexivity|].
    apply mt_named; [exact word_i|]. split; [exact W|]. exists n, g. auto.
  - intros [mid [b [-> M]]]. apply mt_named in M; [|exact word_i]. destruct M as [W [n' [g [-> [N [G E]]]]]]. injection E as ->.
    exists g, b. split; [rewrite <- !app_assoc; reflexivity|]. auto.
Qed.
Lemma unnamed_iff t a : unnamed word t a <-> exists mid b, t = a ++ mid ++ b /\ mt word IMPORT_UNNAMED_OS_RE (last_char None a) mid b None None.
Proof.
  split.
  - intros [b [-> W]]. exists (s2t "import " ++ PATH), b. split; [rewrite <- !app_assoc; reflexivity|].
    apply mt_unnamed; [exact word_i|]. auto.
  - intros [mid [b [-> M]]]. apply mt_unnamed in M; [|exact word_i]. destruct M as [W [-> _]].
    exists b. split; [rewrite <- !app_assoc; reflexivity|]. auto.
Qed.
Lemma paren_named_iff t a n : (exists x, paren_named word t a x n) <->
  exists mid b, t = a ++ mid ++ b /\ mt word PARENTHESIZED_IMPORT_NAMED_OS_RE (last_char None a) mid b None (Some n).
Proof.
  split.
  - intros [x [g [y [b [-> [W [O [Oy [N G]]]]]]]]]. exists (s2t "import (" ++ x ++ n ++ g ++ PATH ++ y ++ [41]), b. split; [rewrite <- !app_assoc; reflexivity|].
    apply mt_paren_named; [exact word_i|]. split; [exact W|]. exists x, n, g, y. auto 6.
  - intros [mid [b [-> M]]]. apply mt_paren_named in M; [|exact word_i]. destruct M as [W [x [n' [g [y [-> [O [Oy [N [G E]]]]]]]]]]. injection E as ->.
    exists x, g, y, b. split; [rewrite <- !app_assoc; reflexivity|]. auto 6.
Qed.
Lemma paren_unnamed_iff t a : paren_unnamed word t a <->
  exists mid b, t = a ++ mid ++ b /\ mt word PARENTHESIZED_IMPORT_UNNAMED_OS_RE (last_char None a) mid b None None.
Proof.
  split.
  - intros [x [y [b [-> [W [O Oy]]]]]]. exists (s2t "import (" ++ x ++ PATH ++ y ++ [41]), b. split; [rewrite <- !app_assoc; reflexivity|].
    apply mt_paren_unnamed; [exact word_i|]. split; [exact W|]. exists x, y. auto 6.
  - intros [mid [b [-> M]]]. apply mt_paren_unnamed in M; [|exact word_i]. destruct M as [W [x [y [-> [O [Oy _]]]]]].
    exists x, y, b. split; [rewrite <- !app_assoc; reflexivity|]. auto 6.
Qed.

(** What each search finds, in terms of the text. *)
Lemma cap_named t : match captures word IMPORT_NAMED_OS_RE t with
  | Some cap => exists a n, cap = Some n /\ first (fun a => exists n, named word t a n) a /\ named word t a n
  | None => forall a n, ~ named word t a n
  end.
Proof.
  pose proof (captures_spec IMPORT_NAMED_OS_RE t) as C. destruct (captures word IMPORT_NAMED_OS_RE t) as [cap|].
  - destruct C as [a [mid [b [E [M [_ F]]]]]].
    assert (exists n, cap = Some n) as [n ->]. { pose proof M as M'. apply mt_named in M' as [_ [n [g [_ [_ [_ ->]]]]]]; [eauto|exact word_i]. }
    assert (N : named word t a n) by (apply named_iff; eauto). exists a, n. split; [reflexivity|]. split; [|exact N]. split; [eauto|].
    intros a' [n' N']. apply named_iff in N' as [mid' [b' [E' M']]]. eauto.
  - intros a n N. apply named_iff in N as [mid [b [E M]]]. exact (C _ _ _ _ E M).
Qed.
Lemma cap_unnamed t : match captures word IMPORT_UNNAMED_OS_RE t with
  | Some _ => exists a, unnamed word t a
  | None => forall a, ~ unnamed word t a
  end.
Proof.
  pose proof (captures_spec IMPORT_UNNAMED_OS_RE t) as C. destruct (captures word IMPORT_UNNAMED_OS_RE t) as [cap|].
  - destruct C as [a [mid [b [E [M _]]]]]. exists a. apply unnamed_iff. exists mid, b. split; [exact E|].
    pose proof M as M'. apply mt_unnamed in M' as [_ [_ ->]]; [exact M|exact word_i].
  - intros a N. apply unnamed_iff in N as [mid [b [E M]]]. exact (C _ _ _ _ E M).
Qed.
Lemma cap_paren_unnamed t : match captures word PARENTHESIZED_IMPORT_UNNAMED_OS_RE t with
  | Some _ => exists a, paren_unnamed word t a
  | None => forall a, ~ paren_unnamed word t a
  end.
Proof.
  pose proof (captures_spec PARENTHESIZED_IMPORT_UNNAMED_OS_RE t) as C. destruct (captures word PARENTHESIZED_IMPORT_UNNAMED_OS_RE t) as [cap|].
  - destruct C as [a [mid [b [E [M _]]]]]. exists a. apply paren_unnamed_iff. exists mid, b. split; [exact E|].
    pose proof M as M'. apply mt_paren_unnamed in M' as [_ [x [y [_ [_ [_ ->]]]]]]; [exact M|exact word_i].
  - intros a N. apply paren_unnamed_iff in N as [mid [b [E M]]]. exact (C _ _ _ _ E M).
Qed.

(** The text found as a name in parentheses is as short as a name can be. *)
Definition shortest (n : text) : Prop := n = s2t "." \/ exists c r, n = c :: r /\ letter c /\ Forall digit r.

Lemma k_lit {R} t r : forall prev rest cap (k : option char -> text -> option text -> option R) x,
  m word (lit t r) prev rest cap k = Some x -> exists rest', rest = t ++ rest' /\ m word r (last_char prev t) rest' cap k = Some x.
Proof.
  induction t as [|c t IH]; intros prev rest cap k x H; [exists rest; split; [reflexivity|exact H]|].
  change (match rest with d :: rest' => if d =? c then m word (lit t r) (Some d) rest' cap k else None | [] => None end = Some x) in H.
  destruct rest as [|d rest]; [discriminate|]. destruct (N.eqb_spec d c) as [->|]; [|discriminate].
  apply IH in H as [rest' [-> H]]. exists rest'. split; [reflexivity|exact H].
Qed.

Lemma paren_shortest prev t cap : m word PARENTHESIZED_IMPORT_NAMED_OS_RE prev t None (fun _ _ cap => Some cap) = Some cap ->
  exists n, cap = Some n /\ shortest n.
Proof.
  unfold PARENTHESIZED_IMPORT_NAMED_OS_RE, import_os_re, PREFIX. intros H.
  change (m word XBound prev t None (fun prev rest cap => m word (lit (s2t "import ") (XSeq (XChar 40) (XSeq (XStar not_close) (NAME (lit OS SUFFIX))))) prev rest cap (fun _ _ cap => Some cap)) = Some cap) in H.
  apply (m_sound word XBound) in H as [m0 [r0 [c0 [_ [_ H]]]]]. cbn beta in H. apply k_lit in H as [r1 [_ H]].
  change (m word (XChar 40) (last_char (last_char prev m0) (s2t "import ")) r1 c0 (fun prev rest cap => m word (XSeq (XStar not_close) (NAME (lit OS SUFFIX))) prev rest cap (fun _ _ cap => Some cap)) = Some cap) in H.
  apply (m_sound word (XChar 40)) in H as [m1 [r2 [c1 [_ [_ H]]]]]. cbn beta in H.
  set (p2 := last_char (last_char (last_char prev m0) (s2t "import ")) m1) in H. clearbody p2.
  change (m word (XStar not_close) p2 r2 c1 (fun prev rest cap => m word (NAME (lit OS SUFFIX)) prev rest cap (fun _ _ cap => Some cap)) = Some cap) in H.
  apply star_longest in H as [x [r3 [-> [Fx [K L]]]]]. cbn beta in K, L.
  apply m_sound in K as [mid [b [cap' [-> [M E]]]]]. cbn beta in E. injection E as E. subst cap'.
  apply mt_name in M as [n [g [mid' [-> [N [G M]]]]]]. apply mt_lit in M as [mid'' [-> M]]. apply mt_suffix in M as [y [-> [Oy ->]]].
  exists n. split; [reflexivity|]. destruct N as [N|[c [r [-> [C F]]]]]; [left; exact N|]. right. exists c, r. split; [reflexivity|]. split; [exact C|].
  apply Forall_forall. intros d I. rewrite Forall_forall in F. destruct (F d I) as [D|D]; [|exact D]. exfalso.
  apply in_split in I as [u [v ->]].
  assert (NC : forall e, letter e \/ digit e -> not_close e = true).
  { intros e He. unfold not_close. destruct (N.eqb_spec e 41) as [->|]; [|reflexivity]. unfold letter, digit in He. lia. }
  set (mid := (d :: v) ++ g ++ PATH ++ y ++ [41]).
  assert (Q : m word (NAME (lit OS SUFFIX)) (last_char p2 (x ++ c :: u)) (mid ++ b) c1 (fun _ _ cap => Some cap) <> None).
  { refine (m_complete word (NAME (lit OS SUFFIX)) _ mid b c1 (Some (d :: v)) _ _ _); [|discriminate].
    apply mt_name. exists (d :: v), g, (PATH ++ y ++ [41]). split; [reflexivity|]. split.
    { right. exists d, v. split; [reflexivity|]. split; [exact D|]. apply Forall_forall. intros e I. apply F. apply in_or_app. right. right. exact I. }
    split; [exact G|]. apply mt_lit. exists (y ++ [41]). split; [reflexivity|]. apply mt_suffix. eauto. }
  apply Q. apply L.
  - unfold mid. rewrite <- !app_assoc. cbn [app]. rewrite <- !app_assoc. cbn [app]. rewrite <- ?app_assoc. reflexivity.
  - apply Forall_app. split; [exact Fx|]. constructor; [apply NC; left; exact C|]. apply Forall_forall. intros e I. apply NC, F. apply in_or_app. left. exact I.
  - rewrite app_length. cbn. lia.
Qed.
Lemma cap_paren_named t : match captures word PARENTHESIZED_IMPORT_NAMED_OS_RE t with
  | Some cap => exists a x n, cap = Some n /\ paren_named word t a x n /\ shortest n
  | None => forall a x n, ~ paren_named word t a x n
  end.
Proof.
  pose proof (captures_spec PARENTHESIZED_IMPORT_NAMED_OS_RE t) as C. destruct (captures word PARENTHESIZED_IMPORT_NAMED_OS_RE t) as [cap|].
  - destruct C as [a [mid [b [E [M [K F]]]]]]. apply paren_shortest in K as [n [-> Sh]].
    assert (N : exists x, paren_named word t a x n) by (apply paren_named_iff; eauto). destruct N as [x N]. exists a, x, n. auto.
  - intros a x n N. assert (N' : exists x, paren_named word t a x n) by eauto. apply paren_named_iff in N' as [mid [b [E M]]]. exact (C _ _ _ _ E M).
Qed.

(** The name of an import at a given place is unique. *)
Lemma name_unique n g b n' g' b' : import_name n -> import_name n' -> gap g -> gap g' ->
  n ++ g ++ PATH ++ b = n' ++ g' ++ PATH ++ b' -> n = n'.
Proof.
  intros N N' G G' E.
  assert (H : forall g b, gap g -> exists c r, g ++ PATH ++ b = c :: r /\ ~ (letter c \/ digit c)).
  { intros g0 b0 [->| ->]; cbn; eexists _, _; (split; [reflexivity|]); unfold letter, digit; lia. }
  destruct (H g b G) as [x [r [Er Nx]]], (H g' b' G') as [x' [r' [Er' Nx']]]. rewrite Er, Er' in E. clear Er Er' H G G'.
  destruct N as [->|[c [u [-> [C F]]]]], N' as [->|[c' [u' [-> [C' F']]]]].
  - reflexivity.
  - cbn in E. injection E as <- _. unfold letter in C'. lia.
  - cbn in E. injection E as -> _. unfold letter in C. lia.
  - cbn in E. injection E as <- E. f_equal. clear C C'. revert u' F' E. induction F as [|d u D F IH]; intros u' F' E; destruct F' as [|d' u' D' F']; cbn in E.
    + reflexivity.
    + injection E as -> _. contradiction.
    + injection E as <- _. contradiction.
    + injection E as <- E. f_equal. apply IH; assumption.
Qed.
Lemma named_unique t a n a' n' : first (fun a => exists n, named word t a n) a -> first (fun a => exists n, named word t a n) a' ->
  named word t a n -> named word t a' n' -> n = n'.
Proof.
  intros [P1 F1] [P2 F2] N N'. pose proof (F1 a' P2). pose proof (F2 a P1). assert (L : length a = length a') by lia.
  destruct N as [g [b [E [W [I G]]]]], N' as [g' [b' [E' [W' [I' G']]]]]. rewrite E in E'.
  assert (Sk : forall u v : text, skipn (length u) (u ++ v) = v) by (intros u v; rewrite skipn_app, skipn_all, Nat.sub_diag; reflexivity).
  apply (f_equal (skipn (length a))) in E'. rewrite Sk, L, Sk in E'. apply app_inv_head in E'. exact (name_unique n g b n' g' b' I I' G G' E').
Qed.
End P.

(** C52: whether a file imports [os] is decided correctly for the four ways of writing the import. *)
Theorem C52_import_detected : forall word t, word 105 = true ->
  ((exists n, imports_os word t = Some n) <-> imports word t).
Proof.
  intros word t Wi. unfold imports_os, imports.
  pose proof (cap_named word Wi t) as C1. destruct (captures word IMPORT_NAMED_OS_RE t) as [cap|].
  { destruct C1 as [a [n [-> [_ N]]]]. split; intros _; [left|]; eauto. }
  pose proof (cap_unnamed word Wi t) as C2. destruct (captures word IMPORT_UNNAMED_OS_RE t) as [cap|].
  { split; intros _; [right; left|]; eauto. }
  pose proof (cap_paren_named word Wi t) as C3. destruct (captures word PARENTHESIZED_IMPORT_NAMED_OS_RE t) as [cap|].
  { destruct C3 as [a [x [n [-> [N _]]]]]. split; intros _; [right; right; left|]; eauto. }
  pose proof (cap_paren_unnamed word Wi t) as C4. destruct (captures word PARENTHESIZED_IMPORT_UNNAMED_OS_RE t) as [cap|].
  { split; intros _; [right; right; right|]; eauto. }
  split; [intros [n H]; discriminate|]. intros [[a [n H]]|[[a H]|[[a [x [n H]]]|[a H]]]]; exfalso; [eapply C1|eapply C2|eapply C3|eapply C4]; eauto.
Qed.
Print Assumptions C52_import_detected.

(** C52: the name of the first unparenthesized import is the one used. *)
Theorem C52_import_name : forall word t, word 105 = true ->
  (forall a n, first (fun a => exists n, named word t a n) a -> named word t a n -> imports_os word t = Some n) /\
  ((forall a n, ~ named word t a n) -> (exists a, unnamed word t a) -> imports_os word t = Some (s2t "os")) /\
  ((forall a n, ~ named word t a n) -> (forall a x n, ~ paren_named word t a x n) -> (exists a, paren_unnamed word t a) ->
     imports_os word t = Some (s2t "os")).
Proof.
  intros word t Wi. unfold imports_os. split; [|split].
  - intros a n F N. pose proof (cap_named word Wi t) as C1. destruct (captures word IMPORT_NAMED_OS_RE t) as [cap|].
    + destruct C1 as [a' [n' [-> [F' N']]]]. f_equal. exact (named_unique word t a' n' a n F' F N' N).
    + destruct (C1 a n N).
  - intros H1 [a H2]. pose proof (cap_named word Wi t) as C1. destruct (captures word IMPORT_NAMED_OS_RE t) as [cap|].
    + destruct C1 as [a' [n' [-> [F' N']]]]. destruct (H1 _ _ N').
    + pose proof (cap_unnamed word Wi t) as C2. destruct (captures word IMPORT_UNNAMED_OS_RE t); [reflexivity|]. destruct (C2 a H2).
  - intros H1 H2 [a H3]. pose proof (cap_named word Wi t) as C1. destruct (captures word IMPORT_NAMED_OS_RE t) as [cap|].
    + destruct C1 as [a' [n' [-> [F' N']]]]. destruct (H1 _ _ N').
    + destruct (captures word IMPORT_UNNAMED_OS_RE t); [reflexivity|].
      pose proof (cap_paren_named word Wi t) as C3. destruct (captures word PARENTHESIZED_IMPORT_NAMED_OS_RE t) as [cap|].
      * destruct C3 as [a' [x [n [_ [N _]]]]]. destruct (H2 _ _ _ N).
      * pose proof (cap_paren_unnamed word Wi t) as C4. destruct (captures word PARENTHESIZED_IMPORT_UNNAMED_OS_RE t); [reflexivity|]. destruct (C4 a H3).
Qed.
Print Assumptions C52_import_name.

(** C52, the part that is false: if [os] is imported in parentheses under a name (and nowhere else), the name used in the
    guards is a dot, or one letter and perhaps digits: a name with more than one letter is never used as it is written.
    The greedy text before the name swallows all of it that it can. *)
Theorem C52_parenthesized_name_refuted : forall word t a x n, word 105 = true ->
  (forall a n, ~ named word t a n) -> (forall a, ~ unnamed word t a) -> paren_named word t a x n ->
  exists n', imports_os word t = Some n' /\ (n' = s2t "." \/ exists c r, n' = c :: r /\ letter c /\ Forall digit r) /\
    ((exists c d, letter c /\ letter d /\ exists u v w, n = u ++ [c] ++ v ++ [d] ++ w) -> n' <> n).
Proof.
  intros word t a x n Wi H1 H2 H3. unfold imports_os.
  pose proof (cap_named word Wi t) as C1. destruct (captures word IMPORT_NAMED_OS_RE t) as [cap|].
  { destruct C1 as [a' [n' [-> [F' N']]]]. destruct (H1 _ _ N'). }
  pose proof (cap_unnamed word Wi t) as C2. destruct (captures word IMPORT_UNNAMED_OS_RE t) as [cap|].
  { destruct C2 as [a' N']. destruct (H2 _ N'). }
  pose proof (cap_paren_named word Wi t) as C3. destruct (captures word PARENTHESIZED_IMPORT_NAMED_OS_RE t) as [cap|]; [|destruct (C3 _ _ _ H3)].
  destruct C3 as [a' [x' [n' [-> [_ Sh]]]]]. exists n'. split; [reflexivity|]. split; [exact Sh|].
  intros [c [d [C [D [u [v [w E]]]]]]] ->. destruct Sh as [Sh|[c' [r [Sh [C' F]]]]]; rewrite E in Sh.
  - apply (f_equal (@length _)) in Sh. rewrite !app_length in Sh. cbn in Sh. lia.
  - assert (I : In d r). { destruct u as [|e u]; cbn in Sh; injection Sh as _ <-; repeat (rewrite in_app_iff; cbn); tauto. }
    rewrite Forall_forall in F. specialize (F d I). unfold letter, digit in *. lia.
Qed.
Print Assumptions C52_parenthesized_name_refuted.

(** C52: what is inserted, and where: nothing if there is nothing to instrument or if [os] is imported; otherwise the import,
    at the beginning of the line after the first one that starts with [package ]. *)
Definition package_at (t : text) (k : nat) (l : text) : Prop :=
  line_at t k l /\ (exists r, l = s2t "package " ++ r) /\
  forall j l', (j < k)%nat -> line_at t j l' -> ~ exists r, l' = s2t "package " ++ r.

Lemma starts_spec p l : starts_with_text p l = true <-> exists r, l = p ++ r.
Proof.
  unfold starts_with_text. destruct (strip_prefix p l) as [r|] eqn:E.
  - apply strip_prefix_spec in E. split; [eauto|reflexivity].
  - split; [discriminate|]. intros [r H]. apply strip_prefix_spec in H. congruence.
Qed.
Lemma package_line_spec t : match package_line t with
  | Some k => exists l, package_at t k l
  | None => forall k l, line_at t k l -> ~ exists r, l = s2t "package " ++ r
  end.
Proof.
  unfold package_line. pose proof (first_index_spec (starts_with_text (s2t "package ")) (lines t)) as F.
  destruct (first_index _ (lines t)) as [k|]; cbn [option_map].
  - destruct F as [[l [N L]] B]. exists l. split; [apply lines_spec, N|]. split; [apply starts_spec, L|].
    intros j l' J H. destruct (line_at_pos _ _ _ H) as [i ->]. apply lines_spec in H. rewrite <- starts_spec. rewrite (B i l'); [discriminate|lia|exact H].
  - intros k l H. destruct (line_at_pos _ _ _ H) as [i ->]. apply lines_spec in H. rewrite <- starts_spec. rewrite (F l); [discriminate|]. eapply nth_error_In, H.
Qed.
Lemma package_at_unique t k l k' l' : package_at t k l -> package_at t k' l' -> k = k'.
Proof.
  intros [L [R B]] [L' [R' B']]. destruct (Nat.lt_trichotomy k k') as [H|[H|H]]; [|exact H|].
  - destruct (B' k l H L R).
  - destruct (B k' l' H L' R').
Qed.

Theorem C52_what_is_inserted : forall word t n, word 105 = true -> (0 < n)%nat ->
  (imports word t -> exists name, imports_os word t = Some name /\ instrument_go word None t n = Ok (None, Some name)) /\
  (~ imports word t -> forall k l, package_at t k l ->
     instrument_go word None t n = Ok (Some (LC (k + 1) 0, s2t "import " ++ PATH ++ [NL]), Some (s2t "os"))) /\
  (~ imports word t -> (forall k l, line_at t k l -> ~ exists r, l = s2t "package " ++ r) ->
     instrument_go word None t n = Err NoPackageLine).
Proof.
  intros word t n Wi Hn. pose proof (C52_import_detected word t Wi) as D. unfold instrument_go.
  destruct (Nat.eqb_spec n 0) as [->|_]; [lia|]. split; [|split].
  - intros I. apply D in I as [name I]. exists name. rewrite I. auto.
  - intros I k l P. destruct (imports_os word t) as [name|]; [destruct I; apply D; eauto|].
    pose proof (package_line_spec t) as S1. destruct (package_line t) as [k'|].
    + destruct S1 as [l' P']. rewrite (package_at_unique _ _ _ _ _ P P'). reflexivity.
    + destruct P as [L [R _]]. destruct (S1 _ _ L R).
  - intros I P. destruct (imports_os word t) as [name|]; [destruct I; apply D; eauto|].
    pose proof (package_line_spec t) as S1. destruct (package_line t) as [k'|]; [|reflexivity].
    destruct S1 as [l' [L [R _]]]. destruct (P _ _ L R).
Qed.
Print Assumptions C52_what_is_inserted.

(** Nothing is inserted if nothing is to be instrumented, or a second time. *)
Theorem C52_inserted_once : forall word t n name, instrument_go word None t 0 = Ok (None, None) /\
  instrument_go word (Some name) t n = Ok (None, Some name).
Proof. intros. split; reflexivity. Qed.
Print Assumptions C52_inserted_once.

(** C52: the resulting file.  It is the file with its guards (C05 says what those do), plus the one line, directly after
    the package line [l] (which, as something follows it, has a terminator [eol]). *)
Theorem C52_file : forall word h t spans before l eol after, word 105 = true -> layout t spans -> spans <> [] -> ~ imports word t ->
  t = before ++ l ++ eol ++ after -> (before = [] \/ exists b, before = b ++ [NL]) ->
  (eol = [NL] /\ (forall b, l <> b ++ [CR]) \/ eol = [CR; NL]) ->
  package_at t (S (count_nl before)) l -> ~ In NL l ->
  (forall s, In s spans -> lc_le (LC (S (S (count_nl before))) 0) (sp_start s)) ->
  exists rest, instrument_text h (LGo (s2t "os.")) None t spans = Some ((before ++ l ++ eol) ++ rest) /\
    instrument_go_file word h t spans = Ok (Some ((before ++ l ++ eol) ++ (s2t "import " ++ PATH ++ [NL]) ++ rest)).
Proof.
  intros word h t spans before l eol after Wi L Ne I E B El P Nl After.
  destruct (C52_what_is_inserted word t (length spans) Wi) as [_ [W _]]; [destruct spans; [congruence|cbn; lia]|].
  unfold instrument_go_file. rewrite (W I _ _ P). cbn [bind]. change (os_prefix (s2t "os")) with (s2t "os.").
  assert (Pos : pos (before ++ l ++ eol) = LC (S (S (count_nl before))) 0).
  { assert (Ee : exists e, eol = e ++ [NL] /\ ~ In NL e).
    { destruct El as [[-> _]| ->]; [exists []|exists [CR]]; (split; [reflexivity|]); [intros []|intros [X|[]]; discriminate]. }
    destruct Ee as [e [-> Nn]]. replace (before ++ l ++ e ++ [NL]) with (((before ++ l ++ e) ++ [NL]) ++ []) by (rewrite app_nil_r, <- !app_assoc; reflexivity).
    rewrite (pos_line (fun _ => false) ((before ++ l ++ e) ++ [NL]) []); [|right; exists (before ++ l ++ e); reflexivity|intros []]. f_equal. rewrite !count_nl_app, (count_nl_0 l), (count_nl_0 e) by assumption. cbn. lia. }
  set (p := LC (S (count_nl before) + 1) 0).
  assert (Ep : p = pos (before ++ l ++ eol)) by (unfold p; rewrite Pos; f_equal; lia).
  assert (Ec : char_offset t p = Some (length (before ++ l ++ eol))).
  { rewrite Ep, E. replace (before ++ l ++ eol ++ after) with ((before ++ l ++ eol) ++ after) by (rewrite <- !app_assoc; reflexivity). apply char_offset_complete. }
  assert (X : valid_key t p /\ forall s, In s spans -> lc_le p (sp_start s)).
  { split; [exists (length (before ++ l ++ eol)); exact Ec|]. intros s Hs. rewrite Ep, Pos. apply After, Hs. }
  unfold instrument_text.
  rewrite (instrument_weave (fun c => c) None _ _ _ _ L Logic.I).
  rewrite (instrument_weave (fun c => c) (Some (p, _)) _ _ _ _ L X).
  unfold ofs. rewrite Ec. set (f := ins_spans _ _ _ _). set (b := before ++ l ++ eol).
  assert (Et : t = b ++ after) by (unfold b; rewrite E, <- !app_assoc; reflexivity).
  exists (weave (fun c => c) f (length b) after). split.
  - f_equal. rewrite Et at 1. rewrite weave_app; [rewrite map_id_text; reflexivity|]. intros k Hk. unfold f, ins_spans.
    destruct (layout_spec _ _ L) as (L1 & L2 & _ & _).
    assert (Out : forall s, In s spans -> (length b <= ofs t (sp_start s))%nat).
    { intros s Hs. destruct X as [_ X]. rewrite Forall_forall in L1. destruct (proj1 (L1 s Hs)) as [o Ho]. unfold ofs. rewrite Ho.
      destruct (X s Hs) as [Q|Q]; [rewrite <- Q in Ho; rewrite Ec in Ho; injection Ho as <-; unfold b; lia|].
      apply (char_offset_lt _ _ _ _ _ Ec Ho) in Q. fold b in Q. lia. }
    assert (Z : forall s, In s spans -> at_ofs t (sp_start s) k = false /\ at_ofs t (sp_end s) k = false).
    { intros s Hs. specialize (Out s Hs). specialize (L2 s Hs). rewrite Forall_forall in L1. destruct (L1 s Hs) as [[o Ho] [o' Ho']].
      unfold ofs in Out, L2. rewrite Ho in Out. rewrite Ho, Ho' in L2. unfold at_ofs. rewrite Ho, Ho'.
      split; apply Nat.eqb_neq; lia. }
    revert Z. generalize spans. intros ss. induction ss as [|s ss IH]; intros Z; [reflexivity|]. cbn [flat_map].
    destruct (Z s (or_introl eq_refl)) as [-> ->]. cbn. apply IH. intros s' Hs'. apply Z. right. exact Hs'.
  - do 2 f_equal. rewrite map_id_text. assert (F1 : firstn (length b) t = b) by (rewrite Et, firstn_app, firstn_all, Nat.sub_diag, firstn_O; apply app_nil_r).
    assert (F2 : skipn (length b) t = after) by (rewrite Et, skipn_app, skipn_all, Nat.sub_diag; reflexivity).
    fold b. rewrite F1, F2. reflexivity.
Qed.
Print Assumptions C52_file.

(** If the file imports [os] under a name, nothing but the guards is added, and they use the name found. *)
Theorem C52_file_with_import : forall word h t spans name, word 105 = true -> spans <> [] -> imports_os word t = Some name ->
  instrument_go_file word h t spans = Ok (instrument_text h (LGo (if text_eqb name (s2t ".") then [] else name ++ s2t ".")) None t spans).
Proof.
  intros word h t spans name Wi Ne I. unfold instrument_go_file, instrument_go. destruct spans as [|s r]; [congruence|]. cbn [length Nat.eqb]. rewrite I. reflexivity.
Qed.
Print Assumptions C52_file_with_import.

(** ** Examples *)
Definition NLs : text := [NL].
Definition ascii_word (c : char) : bool := ident_char c.
Example ascii_word_i : ascii_word 105 = true. Proof. reflexivity. Qed.

(** A parenthesized import named [myos]: the guards will say [s.Getenv]. *)
Definition g_paren : text := s2t "package p" ++ NLs ++ s2t "import (" ++ NLs ++ s2t "myos " ++ PATH ++ NLs ++ s2t ")" ++ NLs.
Example C52_paren_example :
  (forall a n, ~ named ascii_word g_paren a n) /\ (forall a, ~ unnamed ascii_word g_paren a) /\
  (exists a x, paren_named ascii_word g_paren a x (s2t "myos")) /\ imports_os ascii_word g_paren = Some (s2t "s").
Proof.
  split; [|split; [|split]].
  - pose proof (cap_named ascii_word eq_refl g_paren) as C. set (c := captures ascii_word IMPORT_NAMED_OS_RE g_paren) in C. vm_compute in c. subst c. exact C.
  - pose proof (cap_unnamed ascii_word eq_refl g_paren) as C. set (c := captures ascii_word IMPORT_UNNAMED_OS_RE g_paren) in C. vm_compute in c. subst c. exact C.
  - exists (s2t "package p" ++ NLs), NLs, [32], NLs, NLs. split; [reflexivity|]. split.
    { intros b c E. change (s2t "package p" ++ NLs) with (s2t "package p" ++ [NL]) in E. apply app_inj_tail in E as [_ <-]. reflexivity. }
    split; [intros [X|[]]; discriminate|]. split; [intros [X|[]]; discriminate|]. split; [|right; reflexivity].
    right. exists 109, (s2t "yos"). split; [reflexivity|]. split; [unfold letter; lia|]. change (s2t "yos") with [121; 111; 115]. repeat (apply Forall_cons; [left; unfold letter; lia|]). apply Forall_nil.
  - vm_compute. reflexivity.
Qed.

(** The text of a comment is taken for an import: nothing is inserted, although the file imports nothing. *)
Definition g_comment : text := s2t "// needs: import " ++ PATH ++ NLs ++ s2t "package p" ++ NLs ++ s2t "f()" ++ NLs.
Example C52_comment_example : instrument_go ascii_word None g_comment 1 = Ok (None, Some (s2t "os")).
Proof. vm_compute. reflexivity. Qed.

(** A file without the import and with one statement, instrumented. *)
Definition g_file : text := s2t "// c" ++ NLs ++ s2t "package p" ++ NLs ++ s2t "f()" ++ NLs.
Definition g_span : span := Span [s2t "a.go"] (LC 3 0) (LC 3 3).
Example C52_file_example : layout g_file [g_span] /\ ~ imports ascii_word g_file /\ package_at g_file 2 (s2t "package p") /\
  lc_le (LC 3 0) (sp_start g_span) /\
  instrument_go_file ascii_word (fun _ => s2t "H") g_file [g_span] =
    Ok (Some (s2t "// c" ++ NLs ++ s2t "package p" ++ NLs ++ s2t "import " ++ PATH ++ NLs ++ s2t "if os.Getenv(" ++ DQ ++ s2t "NECESSIST_REMOVAL" ++ DQ ++
      s2t ") != " ++ DQ ++ span_id (fun _ => s2t "H") g_span ++ DQ ++ s2t " { f() }" ++ NLs)).
Proof.
  split; [|split; [|split; [|split]]].
  - split; [|split].
    + intros s [<-|[]]. exists (s2t "// c" ++ NLs ++ s2t "package p" ++ NLs), (s2t "f()"), NLs. split; [split; [reflexivity|split; reflexivity]|discriminate].
    + intros l1 a l2 b l3 E. destruct l1 as [|x [|y l1]]; destruct l2; discriminate.
    + intros l1 a l2 b l3 E. destruct l1 as [|x [|y l1]]; destruct l2; discriminate.
  - intros I. apply (C52_import_detected ascii_word g_file eq_refl) in I as [n I].
    set (o := imports_os ascii_word g_file) in I. vm_compute in o. subst o. discriminate.
  - split; [|split].
    + exists (s2t "// c" ++ NLs), [NL], (s2t "f()" ++ NLs). split; [reflexivity|]. split; [right; eexists; reflexivity|]. split; [reflexivity|].
      split; [intros X; cbn in X; decompose [or] X; try discriminate; assumption|]. left. split; [reflexivity|].
      intros b E. change (s2t "package p") with (s2t "package " ++ [112]) in E. apply app_inj_tail in E as [_ E]. discriminate.
    + exists (s2t "p"). reflexivity.
    + intros j l' J H. destruct (line_at_pos _ _ _ H) as [i ->]. assert (i = 0%nat) as -> by lia.
      apply lines_spec in H. vm_compute in H. injection H as <-. intros [r R]. discriminate.
  - left. reflexivity.
  - vm_compute. reflexivity.
Qed.
