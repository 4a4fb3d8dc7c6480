(** Source directives: C28. *)
From Verif Require Import Base M_Text S_Text L_Text M_Span S_Span L_Span M_Run M_Output M_Directives S_Directives L_Directives.
From Coq Require Import Sorted.

Section P.
Context (alphanumeric : char -> bool).
Notation collect := (collect alphanumeric).
Notation collect_from := (collect_from alphanumeric).
Notation skip_comment := (skip_comment alphanumeric).
Notation skip_file_comment := (skip_file_comment alphanumeric).
Notation unknown_comment := (unknown_comment alphanumeric).

(** ** What is gathered *)
Definition head_ok (header : bool) (ls : list text) (k : nat) : Prop :=
  header = true /\ forall j l, (j < k)%nat -> nth_error ls j = Some l -> S_Directives.header l.

(** Line [k] of [ls] is warned about; [ls] is what remains from line [n] on. *)
Definition warned (header : bool) (n : nat) (ls : list text) (x : dwarn) : Prop :=
  exists k l, nth_error ls k = Some l /\ dw_span x = directive_span (n + k) l /\
    ((skip_file_comment l /\ ~ head_ok header ls k /\ dw_warning x = WSkipFileMispositioned /\ dw_text x = s2t "skip-file") \/
     (unknown_comment l /\ dw_warning x = WDirectiveUnrecognized /\ directive_text l = Some (dw_text x))).

Lemma head_ok_cons header l ls k : head_ok header (l :: ls) (S k) <-> head_ok (header && is_file_header_line l) ls k.
Proof.
  unfold head_ok. rewrite Bool.andb_true_iff, header_spec. split.
  - intros [H K]. split; [split; [exact H|apply (K 0%nat); [lia|reflexivity]]|]. intros j l' J N. apply (K (S j)); [lia|exact N].
  - intros [[H K] Q]. split; [exact H|]. intros [|j] l' J N; [injection N as <-; exact K|]. apply (Q j); [lia|exact N].
Qed.
Lemma head_ok_0 header ls : head_ok header ls 0 <-> header = true.
Proof. unfold head_ok. split; [tauto|]. intros H. split; [exact H|]. intros j l J. lia. Qed.

Lemma warned_cons header n l ls x : warned header n (l :: ls) x <->
  (dw_span x = directive_span n l /\
    ((skip_file_comment l /\ header = false /\ dw_warning x = WSkipFileMispositioned /\ dw_text x = s2t "skip-file") \/
     (unknown_comment l /\ dw_warning x = WDirectiveUnrecognized /\ directive_text l = Some (dw_text x)))) \/
  warned (header && is_file_header_line l) (S n) ls x.
Proof.
  unfold warned. split.
  - intros [[|k] [l' [N [E D]]]].
    + left. injection N as <-. rewrite Nat.add_0_r in E. split; [exact E|]. rewrite head_ok_0 in D. destruct header; intuition congruence.
    + right. exists k, l'. rewrite Nat.add_succ_r in E. split; [exact N|]. split; [exact E|]. rewrite head_ok_cons in D. exact D.
  - intros [[E D]|[k [l' [N [E D]]]]].
    + exists 0%nat, l. rewrite Nat.add_0_r, head_ok_0. split; [reflexivity|]. split; [exact E|]. destruct D as [[D1 [D2 D3]]|D]; [left|right; exact D].
      split; [exact D1|]. split; [congruence|exact D3].
    + exists (S k), l'. rewrite Nat.add_succ_r, head_ok_cons. auto.
Qed.

Lemma not_skip l : is_skip_directive alphanumeric l = false -> ~ skip_comment l.
Proof. intros H K. apply is_skip_spec in K. congruence. Qed.
Lemma not_skip_file l : is_skip_file_directive alphanumeric l = false -> ~ skip_file_comment l.
Proof. intros H K. apply is_skip_file_spec in K. congruence. Qed.

Definition by_line (x y : dwarn) : Prop := (line (fst (dw_span x)) < line (fst (dw_span y)))%nat.

Lemma warned_line header n ls x : warned header n ls x -> (n <= line (fst (dw_span x)))%nat.
Proof. intros [k [l [_ [E _]]]]. rewrite E. cbn. lia. Qed.

(** With nothing denied. *)
Lemma collect_none ls : forall n header d ws, exists news d',
  collect_from (fun _ => false) n ls header d ws = (ws ++ news, Ok d') /\
  (forall m, In m (d_skip_lines d') <-> In m (d_skip_lines d) \/ exists k l, nth_error ls k = Some l /\ skip_comment l /\ m = S (n + k)) /\
  (d_skip_file d' = true <-> d_skip_file d = true \/ exists k l, nth_error ls k = Some l /\ skip_file_comment l /\ head_ok header ls k) /\
  (forall x, In x news <-> warned header n ls x) /\
  StronglySorted by_line news.
Proof.
  induction ls as [|l ls IH]; intros n header d ws.
  { exists [], d. cbn. rewrite app_nil_r. split; [reflexivity|].
    split; [intros m; split; [auto|intros [H|[[|k] [l [H _]]]]; [exact H|discriminate|discriminate]]|].
    split; [split; [auto|intros [H|[[|k] [l [H _]]]]; [exact H|discriminate|discriminate]]|].
    split; [|constructor]. intros x. split; [intros []|intros [[|k] [l [H _]]]; discriminate]. }
  cbn [M_Directives.collect_from]. set (h' := header && is_file_header_line l).
  assert (Lines : forall (d0 : directives) P, (forall m, P m <-> In m (d_skip_lines d0) \/ exists k l, nth_error ls k = Some l /\ skip_comment l /\ m = S (S n + k)) ->
    (~ skip_comment l -> forall m, P m <-> In m (d_skip_lines d0) \/ exists k l', nth_error (l :: ls) k = Some l' /\ skip_comment l' /\ m = S (n + k))).
  { intros d0 P H NS m. rewrite H. split; (intros [K|[k [l' [N [Sk E]]]]]; [left; exact K|]).
    - right. exists (S k), l'. split; [exact N|]. split; [exact Sk|lia].
    - destruct k as [|k]; [injection N as <-; contradiction|]. right. exists k, l'. split; [exact N|]. split; [exact Sk|lia]. }
  assert (File : forall (b : Prop) (Q : Prop), (Q <-> b \/ exists k l, nth_error ls k = Some l /\ skip_file_comment l /\ head_ok h' ls k) ->
    (~ (skip_file_comment l /\ header = true) -> (Q <-> b \/ exists k l', nth_error (l :: ls) k = Some l' /\ skip_file_comment l' /\ head_ok header (l :: ls) k))).
  { intros b Q H NS. rewrite H. split; (intros [K|[k [l' [N [Sk E]]]]]; [left; exact K|]).
    - right. exists (S k), l'. rewrite head_ok_cons. auto.
    - destruct k as [|k]; [injection N as <-; rewrite head_ok_0 in E; tauto|]. right. exists k, l'. rewrite head_ok_cons in E. auto. }
  destruct (is_skip_file_directive alphanumeric l) eqn:F.
  - apply is_skip_file_spec in F.
    assert (NS : ~ skip_comment l) by (intros Sk; exact (skip_not_file _ l Sk F)).
    assert (NU : ~ unknown_comment l) by (intros [_ [_ U]]; contradiction).
    destruct header.
    + destruct (IH (S n) h' (Directives true (d_skip_lines d)) ws) as [news [d' [E [H1 [H2 [H3 H4]]]]]].
      exists news, d'. split; [exact E|]. split; [exact (Lines (Directives true (d_skip_lines d)) _ H1 NS)|].
      split; [split; [intros _; right; exists 0%nat, l; rewrite head_ok_0; auto|intros _; apply H2; left; reflexivity]|].
      split; [|exact H4]. intros x. rewrite H3, warned_cons. fold h'. intuition congruence.
    + destruct (IH (S n) h' d (ws ++ [DWarn WSkipFileMispositioned (directive_span n l) (s2t "skip-file")])) as [news [d' [E [H1 [H2 [H3 H4]]]]]].
      exists (DWarn WSkipFileMispositioned (directive_span n l) (s2t "skip-file") :: news), d'.
      split; [rewrite E, <- app_assoc; reflexivity|]. split; [exact (Lines d _ H1 NS)|].
      split; [apply File; [exact H2|intros [_ K]; discriminate]|]. split.
      * intros x. rewrite warned_cons. fold h'. cbn [In]. rewrite H3. split; (intros [K|K]; [left|right; exact K]).
        -- subst x. cbn. split; [reflexivity|]. left. auto.
        -- destruct K as [K1 [[K2 [K3 [K4 K5]]]|[K2 _]]]; [|contradiction]. destruct x. cbn in *. congruence.
      * constructor; [exact H4|]. apply Forall_forall. intros x I. apply H3, warned_line in I. unfold by_line. cbn. lia.
  - assert (NF : ~ skip_file_comment l) by (apply not_skip_file, F).
    destruct (is_skip_directive alphanumeric l) eqn:Sk.
    + apply is_skip_spec in Sk. assert (NU : ~ unknown_comment l) by (intros [_ [U _]]; contradiction).
      destruct (IH (S n) h' (Directives (d_skip_file d) (d_skip_lines d ++ [S n])) ws) as [news [d' [E [H1 [H2 [H3 H4]]]]]].
      exists news, d'. split; [exact E|]. split.
      * intros m. rewrite H1. cbn [d_skip_lines]. rewrite in_app_iff. split.
        -- intros [[K|[K|[]]]|[k [l' [N [S' E']]]]]; [left; exact K|right; exists 0%nat, l; split; [reflexivity|split; [exact Sk|lia]]|].
           right. exists (S k), l'. split; [exact N|]. split; [exact S'|lia].
        -- intros [K|[[|k] [l' [N [S' E']]]]]; [left; left; exact K|left; right; left; lia|].
           right. exists k, l'. split; [exact N|]. split; [exact S'|lia].
      * split; [apply File; [exact H2|tauto]|]. split; [|exact H4]. intros x. rewrite H3, warned_cons. fold h'. intuition congruence.
    + assert (NS : ~ skip_comment l) by (apply not_skip, Sk).
      destruct (directive_text l) as [what|] eqn:T.
      * assert (U : unknown_comment l) by (split; [apply directive_text_some; eauto|auto]).
        destruct (IH (S n) h' d (ws ++ [DWarn WDirectiveUnrecognized (directive_span n l) what])) as [news [d' [E [H1 [H2 [H3 H4]]]]]].
        exists (DWarn WDirectiveUnrecognized (directive_span n l) what :: news), d'.
        split; [rewrite E, <- app_assoc; reflexivity|]. split; [exact (Lines d _ H1 NS)|].
        split; [apply File; [exact H2|tauto]|]. split.
        -- intros x. rewrite warned_cons. fold h'. cbn [In]. rewrite H3. split; (intros [K|K]; [left|right; exact K]).
           ++ subst x. cbn. split; [reflexivity|]. right. auto.
           ++ destruct K as [K1 [[K2 _]|[K2 [K3 K4]]]]; [contradiction|]. destruct x. cbn in *. congruence.
        -- constructor; [exact H4|]. apply Forall_forall. intros x I. apply H3, warned_line in I. unfold by_line. cbn. lia.
      * destruct (IH (S n) h' d ws) as [news [d' [E [H1 [H2 [H3 H4]]]]]].
        exists news, d'. split; [exact E|]. split; [exact (Lines d _ H1 NS)|]. split; [apply File; [exact H2|tauto]|]. split; [|exact H4].
        intros x. rewrite H3, warned_cons. fold h'.
        assert (NU : ~ unknown_comment l). { intros [U _]. apply directive_text_some in U as [w U]. congruence. } tauto.
Qed.

(** With some warnings denied: the same, up to the first denied one. *)
Lemma collect_denied denied ls : forall n header d ws,
  exists news d', collect_from (fun _ => false) n ls header d ws = (ws ++ news, Ok d') /\
   ((collect_from denied n ls header d ws = (ws ++ news, Ok d') /\ Forall (fun x => denied (dw_warning x) = false) news) \/
    (exists a x b, news = a ++ x :: b /\ Forall (fun x => denied (dw_warning x) = false) a /\ denied (dw_warning x) = true /\
       collect_from denied n ls header d ws = (ws ++ a ++ [x], Err (dw_warning x)))).
Proof.
  induction ls as [|l ls IH]; intros n header d ws.
  { exists [], d. cbn. rewrite app_nil_r. split; [reflexivity|]. left. split; [reflexivity|constructor]. }
  cbn [M_Directives.collect_from]. set (h' := header && is_file_header_line l).
  assert (W : forall w what, let ws' := ws ++ [DWarn w (directive_span n l) what] in
     exists news d', collect_from (fun _ => false) (S n) ls h' d ws' = (ws ++ news, Ok d') /\
      (((if denied w then (ws', Err w) else collect_from denied (S n) ls h' d ws') = (ws ++ news, Ok d') /\ Forall (fun x => denied (dw_warning x) = false) news) \/
       (exists a x b, news = a ++ x :: b /\ Forall (fun x => denied (dw_warning x) = false) a /\ denied (dw_warning x) = true /\
         (if denied w then (ws', Err w) else collect_from denied (S n) ls h' d ws') = (ws ++ a ++ [x], Err (dw_warning x))))).
  { intros w what ws'. destruct (IH (S n) h' d ws') as [news [d' [E C]]].
    exists (DWarn w (directive_span n l) what :: news), d'. split; [rewrite E; unfold ws'; rewrite <- app_assoc; reflexivity|].
    destruct (denied w) eqn:D.
    - right. exists [], (DWarn w (directive_span n l) what), news. repeat split; [constructor|exact D].
    - destruct C as [[C1 C2]|[a [x [b [-> [C2 [C3 C4]]]]]]].
      + left. split; [rewrite C1; unfold ws'; rewrite <- app_assoc; reflexivity|constructor; [exact D|exact C2]].
      + right. exists (DWarn w (directive_span n l) what :: a), x, b. split; [reflexivity|]. split; [constructor; [exact D|exact C2]|].
        split; [exact C3|]. rewrite C4. unfold ws'. rewrite <- app_assoc. reflexivity. }
  destruct (is_skip_file_directive alphanumeric l).
  - destruct header; [apply IH|apply W].
  - destruct (is_skip_directive alphanumeric l); [apply IH|]. destruct (directive_text l); [apply W|apply IH].
Qed.

(** ** Positions *)
Lemma pos_line before a : (before = [] \/ exists b, before = b ++ [NL]) -> ~ In NL a -> pos (before ++ a) = LC (S (count_nl before)) (length a).
Proof.
  assert (G : forall t p, line (advance p t) = (line p + count_nl t)%nat).
  { induction t as [|c t IH]; intros p; cbn [advance count_nl]; [lia|]. rewrite IH. destruct (N.eqb c NL); cbn [line]; lia. }
  intros B N. unfold pos. rewrite advance_app. destruct B as [->|[b ->]].
  - cbn. rewrite advance_no_nl by exact N. reflexivity.
  - rewrite advance_app. cbn [advance]. change (N.eqb NL NL) with true. cbn iota. rewrite advance_no_nl by exact N.
    rewrite (G b (LC 1 0)). cbn [line]. rewrite count_nl_app. cbn. f_equal. lia.
Qed.

(** ** C28 *)

(** A candidate is skipped iff the line directly above the first line of the candidate with code on it is a
    comment [// necessist: skip].  (Candidates are pieces of the file.) *)
Theorem C28_skip_iff : forall denied contents ws d s before mid after,
  scalars contents -> collect denied contents = (ws, Ok d) -> between contents (sp_start s) (sp_end s) before mid after ->
  exists b, skip d contents s = Some b /\
    (b = true <-> exists k l, code_offset mid k /\ line_at contents (line (sp_start s) + k - 1) l /\ skip_comment l).
Proof.
  intros denied contents ws d s before mid after Sc C B.
  destruct (collect_denied denied (lines contents) 1 true (Directives false []) []) as [news [d' [E Q]]].
  unfold M_Directives.collect in C. rewrite C in Q.
  assert (d' = d) as ->. { destruct Q as [[Q _]|[a [x [b [_ [_ [_ Q]]]]]]]; congruence. }
  destruct (collect_none (lines contents) 1 true (Directives false []) []) as [news' [d'' [E' [H [_ _]]]]].
  rewrite E in E'. injection E' as _ <-.
  assert (M : forall m, In m (d_skip_lines d) <-> exists l, line_at contents (m - 1) l /\ skip_comment l /\ (2 <= m)%nat).
  { intros m. rewrite H. cbn [d_skip_lines In]. split.
    - intros [[]|[k [l [N [Sk ->]]]]]. exists l. split; [|split; [exact Sk|lia]]. replace (S (1 + k) - 1)%nat with (S k) by lia. apply lines_spec, N.
    - intros [l [L [Sk G]]]. right. destruct m as [|[|m]]; [lia|lia|]. exists m, l. split; [apply lines_spec; replace (S m) with (S (S m) - 1)%nat by lia; exact L|].
      split; [exact Sk|lia]. }
  assert (T : source_text contents s = Ok mid) by (eapply source_text_iff; eauto).
  unfold skip. destruct (d_skip_lines d) as [|m0 ms] eqn:DL.
  - exists false. split; [reflexivity|]. split; [discriminate|]. intros [k [l [_ [L Sk]]]].
    destruct (line_at_pos _ _ _ L) as [j J].
    exfalso. apply (proj2 (M (line (sp_start s) + k)%nat)). exists l. split; [exact L|]. split; [exact Sk|lia].
  - unfold span_code_start_line. rewrite T.
    set (k := match first_index _ (lines mid) with Some k => k | None => 0%nat end).
    assert (K : forall k', code_offset mid k' <-> k' = k).
    { intros k'. rewrite code_offset_spec. unfold k. destruct (first_index _ (lines mid)); intuition congruence. }
    exists (existsb (Nat.eqb (line (sp_start s) + k)) (m0 :: ms)). split; [reflexivity|].
    rewrite <- DL in *. rewrite existsb_exists. split.
    + intros [m [I Em]]. apply Nat.eqb_eq in Em. subst m. apply M in I as [l [L [Sk _]]]. exists k, l. split; [apply K; reflexivity|auto].
    + intros [k' [l [C' [L Sk]]]]. apply K in C'. subst k'. exists (line (sp_start s) + k)%nat. split; [|apply Nat.eqb_refl].
      apply M. exists l. split; [exact L|]. split; [exact Sk|]. destruct (line_at_pos _ _ _ L). lia.
Qed.

(** The README's wording: for a candidate that begins with code, the line above the one it begins on decides. *)
Theorem C28_next_line : forall denied contents ws d s before mid after first,
  scalars contents -> collect denied contents = (ws, Ok d) -> between contents (sp_start s) (sp_end s) before mid after ->
  line_at mid 1 first -> ~ no_code first ->
  (skip d contents s = Some true <-> exists l, line_at contents (line (sp_start s) - 1) l /\ skip_comment l).
Proof.
  intros denied contents ws d s before mid after first Sc C B L N.
  destruct (C28_skip_iff denied contents ws d s before mid after Sc C B) as [b [E H]]. rewrite E.
  assert (K : forall k, code_offset mid k <-> k = 0%nat).
  { intros k. split; [|intros ->; left; exists first; split; [exact L|split; [exact N|intros j l' J H'; destruct (line_at_pos _ _ _ H'); lia]]].
    intros [[l [L' [N' Bel]]]|[-> _]]; [|reflexivity]. destruct k as [|k]; [reflexivity|]. destruct N. apply (Bel 1%nat); [lia|exact L]. }
  split.
  - intros Q. injection Q as ->. destruct (proj1 H eq_refl) as [k [l [Ck [Lk Sk]]]].
    apply K in Ck. subst k. rewrite Nat.add_0_r in Lk. eauto.
  - intros [l [Lk Sk]]. f_equal. apply H. exists 0%nat, l. rewrite Nat.add_0_r. split; [apply K; reflexivity|auto].
Qed.

(** The whole file is skipped iff it has a comment [// necessist: skip-file] that only header lines precede. *)
Theorem C28_skip_file_iff : forall denied contents ws d, collect denied contents = (ws, Ok d) ->
  (d_skip_file d = true <->
   exists n l, line_at contents n l /\ skip_file_comment l /\ forall m l', (m < n)%nat -> line_at contents m l' -> S_Directives.header l').
Proof.
  intros denied contents ws d C.
  destruct (collect_denied denied (lines contents) 1 true (Directives false []) []) as [news [d' [E Q]]].
  unfold M_Directives.collect in C. rewrite C in Q.
  assert (d' = d) as ->. { destruct Q as [[Q _]|[a [x [b [_ [_ [_ Q]]]]]]]; congruence. }
  destruct (collect_none (lines contents) 1 true (Directives false []) []) as [news' [d'' [E' [_ [H _]]]]].
  rewrite E in E'. injection E' as _ <-. rewrite H. cbn [d_skip_file]. split.
  - intros [K|[k [l [N [Sk [_ G]]]]]]; [discriminate|]. exists (S k), l. split; [apply lines_spec, N|]. split; [exact Sk|].
    intros m l' M L. destruct (line_at_pos _ _ _ L) as [j ->]. apply lines_spec in L. apply (G j l'); [lia|exact L].
  - intros [n [l [L [Sk G]]]]. right. destruct (line_at_pos _ _ _ L) as [k ->]. exists k, l. split; [apply lines_spec, L|]. split; [exact Sk|].
    split; [reflexivity|]. intros j l' J N. apply (G (S j) l'); [lia|apply lines_spec, N].
Qed.

(** What is warned about: misplaced [skip-file] comments and comments [// necessist:] that say neither, each once, in
    the order of the file, with the position of the comment in the file. *)
Definition complaint (contents : text) (w : warning) (start stop : line_column) : Prop :=
  exists n l a mid b, line_at contents n l /\ l = a ++ mid ++ b /\ blank a /\ blank b /\
    start = LC n (length a) /\ stop = LC n (length a + length mid) /\
    (exists before after, between contents start stop before mid after) /\
    (w = WSkipFileMispositioned /\ skip_file_comment l /\ ~ (forall m l', (m < n)%nat -> line_at contents m l' -> S_Directives.header l') \/
     w = WDirectiveUnrecognized /\ unknown_comment l).

Lemma line_head_tail x r : is_whitespace x = false -> exists a mid b, 
  True /\ x :: r = a ++ mid ++ b /\ a = [] /\ blank b /\ mid = trim_end (x :: r).
Proof. intros X. destruct (trim_end_split (x :: r)) as [b [B E]]. exists [], (trim_end (x :: r)), b. auto. Qed.

Lemma complaint_of contents x : warned true 1 (lines contents) x -> complaint contents (dw_warning x) (fst (dw_span x)) (snd (dw_span x)).
Proof.
  intros [k [l [N [E D]]]]. apply lines_spec in N.
  destruct (trim_start_split l) as [a [Ba [Ea _]]]. destruct (trim_end_split (trim_start l)) as [b [Bb Eb]].
  assert (La : leading_ws l = length a).
  { destruct (leading_ws_spec l) as [Q _]. rewrite Q. rewrite Ea at 1. rewrite app_length. lia. }
  exists (S k), l, a, (trim l), b. split; [exact N|].
  assert (El : l = a ++ trim l ++ b) by (unfold trim; rewrite <- Eb; exact Ea).
  split; [exact El|]. split; [exact Ba|]. split; [exact Bb|].
  rewrite E. unfold directive_span. cbn [fst snd]. rewrite La. split; [reflexivity|]. split; [reflexivity|]. split.
  - pose proof N as N'. destruct N' as [before [eol [after [Ec [B [Cn [M K]]]]]]].
    exists (before ++ a), (b ++ eol ++ after). unfold between.
    assert (Na : ~ In NL a) by (intros I; apply M; rewrite El; apply in_app_iff; auto).
    assert (Nm : ~ In NL (a ++ trim l)) by (intros I; apply M; rewrite El, app_assoc; apply in_app_iff; auto).
    split; [rewrite Ec; rewrite El at 1; rewrite <- !app_assoc; reflexivity|].
    injection Cn as Cn. split; [rewrite pos_line by auto; f_equal; lia|]. rewrite <- app_assoc, pos_line by auto. rewrite app_length. f_equal. lia.
  - destruct D as [[D1 [D2 [D3 D4]]]|[D1 [D2 D3]]].
    + left. split; [exact D3|]. split; [exact D1|]. intros G. apply D2. split; [reflexivity|].
      intros j l' J N'. apply (G (S j) l'); [lia|apply lines_spec, N'].
    + right. auto.
Qed.

Theorem C28_warnings : forall contents ws r, collect (fun _ => false) contents = (ws, r) ->
  (exists d, r = Ok d) /\
  StronglySorted (fun x y => (line (fst (dw_span x)) < line (fst (dw_span y)))%nat) ws /\
  (forall x, In x ws -> complaint contents (dw_warning x) (fst (dw_span x)) (snd (dw_span x))) /\
  (forall n l, line_at contents n l ->
     unknown_comment l \/ (skip_file_comment l /\ ~ forall m l', (m < n)%nat -> line_at contents m l' -> S_Directives.header l') ->
     exists x, In x ws /\ line (fst (dw_span x)) = n).
Proof.
  intros contents ws r C. destruct (collect_none (lines contents) 1 true (Directives false []) []) as [news [d [E [_ [_ [H Sk]]]]]].
  unfold M_Directives.collect in C. rewrite E in C. injection C as <- <-. cbn [app]. split; [eauto|]. split; [exact Sk|]. split.
  - intros x I. apply complaint_of, H, I.
  - intros n l L D. destruct (line_at_pos _ _ _ L) as [k ->]. apply lines_spec in L. destruct D as [U|[F G]].
    + pose proof U as [U' _]. apply directive_text_some in U' as [what T].
      exists (DWarn WDirectiveUnrecognized (directive_span (1 + k) l) what). split; [|reflexivity].
      apply H. exists k, l. split; [exact L|]. split; [reflexivity|]. right. auto.
    + exists (DWarn WSkipFileMispositioned (directive_span (1 + k) l) (s2t "skip-file")). split; [|reflexivity].
      apply H. exists k, l. split; [exact L|]. split; [reflexivity|]. left. split; [exact F|]. split; [|auto].
      intros [_ K]. apply G. intros m l' M L'. destruct (line_at_pos _ _ _ L') as [j ->]. apply lines_spec in L'. apply (K j l'); [lia|exact L'].
Qed.

(** Denying warnings changes nothing but that the first denied one ends the reading of directives with an error. *)
Theorem C28_denied : forall denied contents ws0 r0, collect (fun _ => false) contents = (ws0, r0) ->
  (Forall (fun x => denied (dw_warning x) = false) ws0 -> collect denied contents = (ws0, r0)) /\
  (forall a x b, ws0 = a ++ x :: b -> Forall (fun x => denied (dw_warning x) = false) a -> denied (dw_warning x) = true ->
     collect denied contents = (a ++ [x], Err (dw_warning x))).
Proof.
  intros denied contents ws0 r0 C. unfold M_Directives.collect in *.
  destruct (collect_denied denied (lines contents) 1 true (Directives false []) []) as [news [d' [E Q]]].
  rewrite E in C. injection C as <- <-. cbn [app] in *. split.
  - intros F. destruct Q as [[Q _]|[a [x [b [-> [_ [D _]]]]]]]; [exact Q|].
    rewrite Forall_forall in F. rewrite F in D by (apply in_app_iff; right; left; reflexivity). discriminate.
  - intros a x b -> F D. destruct Q as [[_ Q]|[a' [x' [b' [E' [F' [D' Q]]]]]]].
    + rewrite Forall_forall in Q. rewrite Q in D by (apply in_app_iff; right; left; reflexivity). discriminate.
    + assert (a = a' /\ x = x') as [-> ->]; [|exact Q].
      clear E Q. revert a' E' F'. induction F as [|y a Y F IH]; intros a' E' F'.
      * destruct a' as [|z a']; cbn in E'; injection E' as E1 E2; [auto|]. inversion F'; subst. congruence.
      * destruct a' as [|z a']; cbn in E'; injection E' as E1 E2; [subst; congruence|]. inversion F'; subst.
        destruct (IH a' E2) as [-> ->]; auto.
Qed.
End P.
Print Assumptions C28_skip_iff.
Print Assumptions C28_next_line.
Print Assumptions C28_skip_file_iff.
Print Assumptions C28_warnings.
Print Assumptions C28_denied.

(** ** The hypotheses are met *)
Definition ex_src : text := s2t "// header" ++ [NL] ++ s2t "fn f() {" ++ [NL] ++ s2t "  //necessist:skip, because" ++ [CR; NL] ++ s2t "  a();" ++ [NL]
  ++ s2t "  b(); // necessist: skip" ++ [NL] ++ s2t "  c();" ++ [NL] ++ s2t "  // necessist: skipp" ++ [NL] ++ s2t "// necessist: skip-file" ++ [NL] ++ s2t "}".
Definition ex_a : span := Span [s2t "f"] (LC 4 2) (LC 4 6).
Definition ex_c : span := Span [s2t "f"] (LC 6 2) (LC 6 6).
Example ex_collect : exists d, collect ascii_alnum (fun _ => false) ex_src =
   ([DWarn WDirectiveUnrecognized (LC 7 2, LC 7 21) (s2t "skipp"); DWarn WSkipFileMispositioned (LC 8 0, LC 8 23) (s2t "skip-file")], Ok d) /\
   d_skip_file d = false /\ skip d ex_src ex_a = Some true /\ skip d ex_src ex_c = Some false /\
   source_text ex_src ex_a = Ok (s2t "a();") /\ source_text ex_src ex_c = Ok (s2t "c();").
Proof. eexists. repeat split; vm_compute; reflexivity. Qed.
Example ex_between : between ex_src (LC 4 2) (LC 4 6)
  (s2t "// header" ++ [NL] ++ s2t "fn f() {" ++ [NL] ++ s2t "  //necessist:skip, because" ++ [CR; NL] ++ s2t "  ") (s2t "a();")
  ([NL] ++ s2t "  b(); // necessist: skip" ++ [NL] ++ s2t "  c();" ++ [NL] ++ s2t "  // necessist: skipp" ++ [NL] ++ s2t "// necessist: skip-file" ++ [NL] ++ s2t "}").
Proof. repeat split; vm_compute; reflexivity. Qed.
Example ex_skip_file : exists d, collect ascii_alnum (fun _ => false) (s2t "<?php" ++ [NL; NL] ++ s2t "// necessist: skip-file" ++ [NL] ++ s2t "not php") = ([], Ok d) /\ d_skip_file d = true.
Proof. eexists. split; vm_compute; reflexivity. Qed.
Example ex_comment_above_span : forall d, d_skip_lines d = [3%nat] ->
  skip d (s2t "x" ++ [NL] ++ s2t "// necessist: skip" ++ [NL] ++ s2t " y();") (Span [s2t "f"] (LC 2 0) (LC 3 5)) = Some true.
Proof. intros d H. unfold skip. rewrite H. vm_compute. reflexivity. Qed.
