(** The configuration: C26, C27. *)
From Verif Require Import Base M_Text M_Span M_Run M_Output M_Visitor M_Config.

(** ** Specification *)

(** [name] is obtained from pattern [p] by replacing each star with a string without newlines. *)
Inductive glob : text -> text -> Prop :=
| g_nil : glob [] []
| g_char c p n : c <> 42%N (* the star *) -> glob p n -> glob (c :: p) (c :: n)
| g_star x p n : ~ In NL x -> glob p n -> glob (s2t "*" ++ p) (x ++ n).

(** The same, preceded by any number of nonempty segments that end in a dot: "x.y.z" for pattern "z". *)
Definition method_glob (p name : text) : Prop :=
  exists segs last, name = concat (map (fun s => s ++ s2t ".") segs) ++ last /\
    (forall s, In s segs -> s <> [] /\ ~ In 46%N (* the dot *) s) /\ glob p last.

Section P.
Context (alphanumeric : char -> bool).
Context (alnum_literal : forall c, alphanumeric c = true -> is_meta c = false).

Definition allowed (c : char) : Prop := alphanumeric c = true \/ c = 95%N (* _ *) \/ c = 46%N (* . *) \/ c = 42%N (* the star *).

(** ** What the regular expressions look like *)
Definition ast1 (c : char) : re := if N.eqb c STAR then RStar RDot else RLit c.
Definition ast (p : text) : list re := map ast1 p.

Lemma escape_ok p : (exists s, escape alphanumeric p = Ok s) <-> Forall allowed p.
Proof.
  induction p as [|c p IH]; simpl; [split; [constructor|eauto]|].
  assert (B : forall (k : text -> text), (exists s, bind (escape alphanumeric p) (fun s => Ok (E := config_error) (k s)) = Ok s) <-> Forall allowed p).
  { intros k. rewrite <- IH. destruct (escape alphanumeric p); simpl; split; intros [s H]; try discriminate; eauto. }
  unfold allowed. rewrite Forall_cons_iff. fold allowed.
  destruct (alphanumeric c) eqn:A; simpl; [rewrite B; tauto|].
  destruct (N.eqb_spec c UNDERSCORE); [rewrite B; tauto|].
  destruct (N.eqb_spec c DOT); [rewrite B; tauto|].
  destruct (N.eqb_spec c STAR); [rewrite B; tauto|].
  split; [intros [s H]; discriminate|]. intros [[H|[H|[H|H]]] _]; congruence.
Qed.

Lemma escape_no_panic p : escape alphanumeric p <> Panic.
Proof.
  induction p as [|c p IH]; simpl; [discriminate|].
  destruct (_ || _); [destruct (escape alphanumeric p); simpl; congruence|].
  destruct (N.eqb c DOT); [destruct (escape alphanumeric p); simpl; congruence|].
  destruct (N.eqb c STAR); [destruct (escape alphanumeric p); simpl; congruence|discriminate].
Qed.

Lemma literal_not c : is_meta c = false -> (c =? RPAREN)%N = false /\ (c =? BACKSLASH)%N = false /\ (c =? DOT)%N = false /\
  (c =? CARET)%N = false /\ (c =? DOLLAR)%N = false /\ (c =? LPAREN)%N = false /\ (c =? LBRACK)%N = false /\ (c =? STAR)%N = false /\ (c =? PLUS)%N = false.
Proof.
  intros H.
  assert (N : forall d, is_meta d = true -> (c =? d)%N = false) by (intros d D; destruct (N.eqb_spec c d); [subst; congruence|reflexivity]).
  repeat split; apply N; reflexivity.
Qed.

(** What follows an atom of an escaped pattern is not a repetition. *)
Lemma escape_head p s : escape alphanumeric p = Ok s ->
  exists c rest, s ++ [DOLLAR] = c :: rest /\ (c =? STAR)%N = false /\ (c =? PLUS)%N = false.
Proof.
  destruct p as [|c p]; simpl; [intros H; injection H as <-; exists DOLLAR, []; auto|].
  destruct (alphanumeric c || (c =? UNDERSCORE)%N) eqn:A.
  - destruct (escape alphanumeric p) as [s'| |]; simpl; try discriminate. intros H. injection H as <-.
    exists c, (s' ++ [DOLLAR]). split; [reflexivity|].
    assert (M : is_meta c = false).
    { apply orb_prop in A as [A|A]; [apply alnum_literal, A|]. apply N.eqb_eq in A. subst c. reflexivity. }
    apply literal_not in M. tauto.
  - destruct (N.eqb c DOT); [destruct (escape alphanumeric p) as [s'| |]; simpl; try discriminate; intros H; injection H as <-; eexists _, _; repeat split|].
    destruct (N.eqb c STAR); [destruct (escape alphanumeric p) as [s'| |]; simpl; try discriminate; intros H; injection H as <-; eexists _, _; repeat split|discriminate].
Qed.

Lemma step_atom n acc c rest a rest' : (c =? RPAREN)%N = false -> (c =? LPAREN)%N = false -> atom c rest = Some (a, rest') ->
  parse_re (S n) acc (c :: rest) = parse_re n (acc ++ [fst (suffix a rest')]) (snd (suffix a rest')).
Proof. intros H1 H2 H3. cbn [parse_re]. rewrite H1, H2, H3. reflexivity. Qed.
Lemma step_group n acc rest l rest' : parse_re n [] rest = Some (l, RPAREN :: rest') ->
  parse_re (S n) acc (LPAREN :: rest) = parse_re n (acc ++ [fst (suffix (RSeq l) rest')]) (snd (suffix (RSeq l) rest')).
Proof. intros H. cbn [parse_re]. rewrite H. reflexivity. Qed.
Lemma step_close n acc rest : parse_re (S n) acc (RPAREN :: rest) = Some (acc, RPAREN :: rest).
Proof. reflexivity. Qed.
Lemma suffix_none a c rest : (c =? STAR)%N = false -> (c =? PLUS)%N = false -> suffix a (c :: rest) = (a, c :: rest).
Proof. intros H1 H2. unfold suffix. rewrite H1, H2. reflexivity. Qed.
Lemma suffix_none' a t c rest : t = c :: rest -> (c =? STAR)%N = false -> (c =? PLUS)%N = false -> suffix a t = (a, t).
Proof. intros ->. apply suffix_none. Qed.
Lemma suffix_star a rest : suffix a (STAR :: rest) = (RStar a, rest). Proof. reflexivity. Qed.
Lemma suffix_plus a rest : suffix a (PLUS :: rest) = (RPlus a, rest). Proof. reflexivity. Qed.

Lemma parse_escape p : forall s acc fuel, escape alphanumeric p = Ok s -> (length s + 1 < fuel)%nat ->
  parse_re fuel acc (s ++ [DOLLAR]) = Some (acc ++ ast p ++ [REol], []).
Proof.
  induction p as [|c p IH]; intros s acc fuel E F.
  - injection E as <-. destruct fuel as [|[|fuel]]; simpl in F; try lia. reflexivity.
  - simpl in E.
    destruct (alphanumeric c || (c =? UNDERSCORE)%N) eqn:A.
    + destruct (escape alphanumeric p) as [s'| |] eqn:E'; simpl in E; try discriminate. injection E as <-.
      assert (M : is_meta c = false).
      { apply orb_prop in A as [A|A]; [apply alnum_literal, A|]. apply N.eqb_eq in A. subst c. reflexivity. }
      destruct (literal_not c M) as [H1 [H2 [H3 [H4 [H5 [H6 [H7 [H8 H9]]]]]]]].
      destruct (escape_head p s' E') as [d [rest [Hd [D1 D2]]]].
      destruct fuel as [|fuel]; simpl in F; [lia|]. cbn [app].
      rewrite (step_atom _ _ c (s' ++ [DOLLAR]) (RLit c) (s' ++ [DOLLAR])); [|exact H1|exact H6|unfold atom; rewrite H2, H3, H4, H5, H7, M; reflexivity].
      rewrite (suffix_none' _ _ d rest Hd D1 D2). cbn [fst snd]. rewrite IH; [|reflexivity|lia].
      unfold ast. cbn [map]. unfold ast1 at 2. rewrite H8. rewrite <- app_assoc. reflexivity.
    + destruct (N.eqb_spec c DOT) as [->|ND].
      * destruct (escape alphanumeric p) as [s'| |] eqn:E'; simpl in E; try discriminate. injection E as <-.
        destruct (escape_head p s' E') as [d [rest [Hd [D1 D2]]]].
        destruct fuel as [|fuel]; simpl in F; [lia|]. cbn [app].
        rewrite (step_atom _ _ BACKSLASH (DOT :: s' ++ [DOLLAR]) (RLit DOT) (s' ++ [DOLLAR])) by reflexivity.
        rewrite (suffix_none' _ _ d rest Hd D1 D2). cbn [fst snd]. rewrite IH; [|reflexivity|lia]. rewrite <- app_assoc. reflexivity.
      * destruct (N.eqb_spec c STAR) as [->|NS]; [|discriminate].
        destruct (escape alphanumeric p) as [s'| |] eqn:E'; simpl in E; try discriminate. injection E as <-.
        destruct fuel as [|fuel]; simpl in F; [lia|]. cbn [app].
        rewrite (step_atom _ _ DOT (STAR :: s' ++ [DOLLAR]) RDot (STAR :: s' ++ [DOLLAR])) by reflexivity.
        rewrite suffix_star. cbn [fst snd]. rewrite IH; [|reflexivity|lia]. rewrite <- app_assoc. reflexivity.
Qed.

Definition segment : re := RSeq [RPlus (RNot DOT); RLit DOT].

Lemma compile_pattern_ast p m s : escape alphanumeric p = Ok s ->
  compile_pattern alphanumeric p m = Ok (RSeq (RBol :: (if m then [RStar segment] else []) ++ ast p ++ [REol])).
Proof.
  intros E. unfold compile_pattern. rewrite E. cbn [bind]. unfold regex_new.
  destruct (escape_head p s E) as [d [rest [Hd [D1 D2]]]].
  destruct m.
  - match goal with |- context [parse_re ?n _ _] => set (F := n) end.
    assert (L : (length s + 20 < F)%nat) by (unfold F; rewrite !app_length; cbn -[Nat.mul]; lia).
    clearbody F.
    change (s2t "^" ++ s2t "([^.]+\.)*" ++ s ++ s2t "$") with
      (CARET :: LPAREN :: LBRACK :: CARET :: DOT :: RBRACK :: PLUS :: BACKSLASH :: DOT :: RPAREN :: STAR :: (s ++ [DOLLAR])).
    do 6 (destruct F as [|F]; [lia|]).
    erewrite step_atom by reflexivity.
    rewrite suffix_none by reflexivity. cbn [fst snd].
    erewrite step_group.
    2:{ erewrite step_atom by reflexivity. rewrite suffix_plus. cbn [fst snd].
        erewrite step_atom by reflexivity. rewrite suffix_none by reflexivity. cbn [fst snd]. rewrite step_close. reflexivity. }
    rewrite suffix_star. cbn [fst snd].
    rewrite (parse_escape p s _ _ E) by lia. reflexivity.
  - match goal with |- context [parse_re ?n _ _] => set (F := n) end.
    assert (L : (length s + 2 < F)%nat) by (unfold F; rewrite !app_length; cbn -[Nat.mul]; lia).
    clearbody F. change (s2t "^" ++ [] ++ s ++ s2t "$") with (CARET :: (s ++ [DOLLAR])).
    destruct F as [|F]; [lia|].
    erewrite step_atom by reflexivity.
    rewrite (suffix_none' _ _ d rest Hd D1 D2). cbn [fst snd]. rewrite (parse_escape p s _ F E) by lia. reflexivity.
Qed.

(** ** What they match *)
Lemma seq_cons r l a b z : matches (RSeq (r :: l)) a b z <->
  exists b1 b2, b = b1 ++ b2 /\ matches r a b1 (b2 ++ z) /\ matches (RSeq l) (a ++ b1) b2 z.
Proof.
  split.
  - intros H. inversion H; subst. eauto 6.
  - intros [b1 [b2 [-> [H1 H2]]]]. constructor; assumption.
Qed.

Lemma star_ind' r (P : text -> Prop) : P [] ->
  (forall a b1 b2 z, matches r a b1 z -> P b2 -> P (b1 ++ b2)) ->
  forall a b z, matches (RStar r) a b z -> P b.
Proof.
  intros H0 H1 a b z M. remember (RStar r) as q eqn:Q. induction M; try discriminate; injection Q as ->; [exact H0|].
  eapply H1; [exact M1|]. apply IHM2. reflexivity.
Qed.

Lemma star_dot a b z : matches (RStar RDot) a b z <-> ~ In NL b.
Proof.
  split.
  - apply (star_ind' _ (fun b => ~ In _ b)); [simpl; tauto|]. intros a' b1 b2 z' H N I. inversion H; subst.
    destruct I as [I|I]; [congruence|contradiction].
  - revert a. induction b as [|c b IH]; intros a N; [constructor|].
    change (c :: b) with ([c] ++ b). constructor; [constructor; intros ->; apply N; left; reflexivity|].
    apply IH. intros I. apply N. right. exact I.
Qed.

Lemma star_not_dot a b z : matches (RStar (RNot DOT)) a b z <-> ~ In DOT b.
Proof.
  split.
  - apply (star_ind' _ (fun b => ~ In _ b)); [simpl; tauto|]. intros a' b1 b2 z' H N I. inversion H; subst.
    destruct I as [I|I]; [congruence|contradiction].
  - revert a. induction b as [|c b IH]; intros a N; [constructor|].
    change (c :: b) with ([c] ++ b). constructor; [constructor; intros ->; apply N; left; reflexivity|].
    apply IH. intros I. apply N. right. exact I.
Qed.

Lemma segment_spec a b z : matches segment a b z <-> exists s, b = s ++ s2t "." /\ s <> [] /\ ~ In DOT s.
Proof.
  unfold segment. rewrite seq_cons. split.
  - intros [b1 [b2 [-> [H1 H2]]]]. apply seq_cons in H2 as [b3 [b4 [-> [H3 H4]]]].
    inversion H3; subst. inversion H4; subst. exists b1. split; [reflexivity|].
    inversion H1 as [| | | | | | | | |r a0 c1 c2 z0 Q1 Q2]; subst. inversion Q1; subst. split; [discriminate|].
    apply star_not_dot in Q2. intros [I|I]; [congruence|contradiction].
  - intros [s [-> [N D]]]. exists s, (s2t "."). split; [reflexivity|]. split.
    + destruct s as [|c s]; [congruence|]. change (c :: s) with ([c] ++ s). constructor.
      * constructor. intros ->. apply D. left. reflexivity.
      * apply star_not_dot. intros I. apply D. right. exact I.
    + apply seq_cons. exists (s2t "."), []. split; [reflexivity|]. split; constructor.
Qed.

Lemma star_segment a b z : matches (RStar segment) a b z <->
  exists segs, b = concat (map (fun s => s ++ s2t ".") segs) /\ forall s, In s segs -> s <> [] /\ ~ In DOT s.
Proof.
  split.
  - apply (star_ind' _ (fun b => exists segs, b = concat (map (fun s => s ++ s2t ".") segs) /\ forall s, In s segs -> s <> [] /\ ~ In DOT s)); [exists []; split; [reflexivity|intros s []]|].
    intros a' b1 b2 z' H [segs [-> S]]. apply segment_spec in H as [s [-> H]]. exists (s :: segs). split; [reflexivity|].
    intros s' [<-|I]; [exact H|apply S, I].
  - intros [segs [-> S]]. revert a. induction segs as [|s segs IH]; intros a; cbn [map concat]; [constructor|].
    constructor.
    + apply segment_spec. exists s. split; [reflexivity|apply S; left; reflexivity].
    + apply IH. intros s' I. apply S. right. exact I.
Qed.

Lemma ast_spec p : forall a b z, matches (RSeq (ast p ++ [REol])) a b z <-> z = [] /\ glob p b.
Proof.
  induction p as [|c p IH]; intros a b z; cbn [ast map app].
  - rewrite seq_cons. split.
    + intros [b1 [b2 [-> [H1 H2]]]]. inversion H1; subst. inversion H2; subst. simpl in *. destruct z; [|discriminate]. split; [reflexivity|constructor].
    + intros [-> H]. inversion H; subst. exists [], []. split; [reflexivity|]. split; constructor.
  - rewrite seq_cons. unfold ast1. fold (ast p). destruct (N.eqb_spec c STAR) as [->|N].
    + split.
      * intros [b1 [b2 [-> [H1 H2]]]]. apply star_dot in H1. apply IH in H2 as [-> H2]. split; [reflexivity|]. constructor; assumption.
      * intros [-> H]. inversion H; subst; [congruence|]. exists x, n. split; [reflexivity|]. split; [apply star_dot; assumption|].
        apply IH. auto.
    + split.
      * intros [b1 [b2 [-> [H1 H2]]]]. inversion H1; subst. apply IH in H2 as [-> H2]. split; [reflexivity|]. constructor; assumption.
      * intros [-> H]. inversion H; subst; [|congruence]. exists [c], n. split; [reflexivity|]. split; [constructor|apply IH; auto].
Qed.

Lemma bol_spec l t : is_match (RSeq (RBol :: l)) t <-> exists b z, t = b ++ z /\ matches (RSeq l) [] b z.
Proof.
  unfold is_match. split.
  - intros [a [b [z [-> H]]]]. apply seq_cons in H as [b1 [b2 [-> [H1 H2]]]]. inversion H1; subst. exists b2, z. auto.
  - intros [b [z [-> H]]]. exists [], b, z. split; [reflexivity|]. apply seq_cons. exists [], b. split; [reflexivity|]. split; [constructor|exact H].
Qed.

(** ** C26 *)

(** A pattern is accepted iff it consists of letters, numbers, '.', '_' and '*'. *)
Theorem C26_accepted_iff : forall p m, (exists r, compile_pattern alphanumeric p m = Ok r) <-> Forall allowed p.
Proof.
  intros p m. rewrite <- escape_ok. split.
  - unfold compile_pattern. intros [r H]. destruct (escape alphanumeric p); try discriminate. eauto.
  - intros [s E]. rewrite (compile_pattern_ast p m s E). eauto.
Qed.

(** Otherwise it is refused, naming the first offending character. *)
Theorem C26_refusal : forall p m, ~ Forall allowed p ->
  exists before c after, p = before ++ c :: after /\ Forall allowed before /\ ~ allowed c /\
    compile_pattern alphanumeric p m = Err (BadPattern c).
Proof.
  intros p m N. unfold compile_pattern.
  assert (H : exists before c after, p = before ++ c :: after /\ Forall allowed before /\ ~ allowed c /\ escape alphanumeric p = Err (BadPattern c)).
  { induction p as [|c p IH]; [destruct N; constructor|]. simpl.
    assert (D : allowed c \/ (~ allowed c /\ (alphanumeric c || (c =? UNDERSCORE)%N) = false /\ (c =? DOT)%N = false /\ (c =? STAR)%N = false)).
    { unfold allowed. destruct (alphanumeric c); [auto|]. destruct (N.eqb_spec c UNDERSCORE); [auto|].
      destruct (N.eqb_spec c DOT); [auto|]. destruct (N.eqb_spec c STAR); [auto|]. right. intuition congruence. }
    destruct D as [A|[A [-> [-> ->]]]].
    - destruct IH as [b [d [a [-> [F [Nd E]]]]]]; [intros F; apply N; constructor; assumption|].
      exists (c :: b), d, a. split; [reflexivity|]. split; [constructor; assumption|]. split; [exact Nd|]. rewrite E. simpl.
      unfold allowed in A. destruct (alphanumeric c); simpl; [reflexivity|].
      destruct (N.eqb_spec c UNDERSCORE); [reflexivity|]. destruct (N.eqb_spec c DOT); [reflexivity|].
      destruct (N.eqb_spec c STAR); [reflexivity|]. intuition congruence.
    - exists [], c, p. split; [reflexivity|]. split; [constructor|]. split; [exact A|reflexivity]. }
  destruct H as [b [c [a [Q [F [Nc E]]]]]]. exists b, c, a. rewrite E. auto.
Qed.

(** An accepted pattern for functions or macros matches exactly the names it stands for. *)
Theorem C26_pattern : forall p r name, compile_pattern alphanumeric p false = Ok r -> (is_match r name <-> glob p name).
Proof.
  intros p r name H. assert (E : exists s, escape alphanumeric p = Ok s) by (unfold compile_pattern in H; destruct (escape alphanumeric p); try discriminate; eauto).
  destruct E as [s E]. rewrite (compile_pattern_ast p false s E) in H. injection H as <-. cbn [app].
  rewrite bol_spec. split.
  - intros [b [z [-> M]]]. apply ast_spec in M as [-> G]. rewrite app_nil_r. exact G.
  - intros G. exists name, []. split; [symmetry; apply app_nil_r|]. apply ast_spec. auto.
Qed.

(** For methods, also when preceded by dotted segments. *)
Theorem C26_method_pattern : forall p r name, compile_pattern alphanumeric p true = Ok r -> (is_match r name <-> method_glob p name).
Proof.
  intros p r name H. assert (E : exists s, escape alphanumeric p = Ok s) by (unfold compile_pattern in H; destruct (escape alphanumeric p); try discriminate; eauto).
  destruct E as [s E]. rewrite (compile_pattern_ast p true s E) in H. injection H as <-. cbn [app].
  rewrite bol_spec. split.
  - intros [b [z [-> M]]]. apply seq_cons in M as [b1 [b2 [-> [M1 M2]]]]. apply star_segment in M1 as [segs [-> S]].
    apply ast_spec in M2 as [-> G]. exists segs, b2. rewrite app_nil_r. auto.
  - intros [segs [last [-> [S G]]]]. eexists _, []. split; [symmetry; apply app_nil_r|].
    apply seq_cons. eexists _, _. split; [reflexivity|]. split; [apply star_segment; eauto|]. apply ast_spec. auto.
Qed.

Lemma compile_patterns_spec ps m rs : compile_patterns alphanumeric ps m = Ok rs ->
  Forall2 (fun p r => compile_pattern alphanumeric p m = Ok r) ps rs.
Proof.
  revert rs. induction ps as [|p ps IH]; intros rs H; simpl in H; [injection H as <-; constructor|].
  destruct (compile_pattern alphanumeric p m) as [r| |] eqn:E; try discriminate. simpl in H.
  destruct (compile_patterns alphanumeric ps m) as [rs'| |]; try discriminate. injection H as <-.
  constructor; [exact E|]. apply IH. reflexivity.
Qed.

Lemma any_match_spec ps m rs (G : text -> text -> Prop) name :
  compile_patterns alphanumeric ps m = Ok rs ->
  (forall p r, compile_pattern alphanumeric p m = Ok r -> (is_match r name <-> G p name)) ->
  (any_match rs name <-> exists p, In p ps /\ G p name).
Proof.
  intros H K. apply compile_patterns_spec in H. unfold any_match. induction H as [|p r ps rs E F IH].
  - split; intros [x [[] _]].
  - split.
    + intros [x [[<-|I] M]]; [exists p; split; [left; reflexivity|apply (K p r E), M]|].
      destruct (proj1 IH) as [p' [I' G']]; [eauto|]. exists p'. split; [right; exact I'|exact G'].
    + intros [x [[<-|I] M]]; [exists r; split; [left; reflexivity|apply (K _ r E), M]|].
      destruct (proj2 IH) as [r' [I' G']]; [eauto|]. exists r'. split; [right; exact I'|exact G'].
Qed.

(** What a compiled configuration ignores and walks. *)
Theorem C26_compiled : forall t c name, compile alphanumeric t = Ok c ->
  (is_ignored_function c name <-> exists p, In p (t_functions t) /\ glob p name) /\
  (is_ignored_macro c name <-> exists p, In p (t_macros t) /\ glob p name) /\
  (is_ignored_method c name <-> exists p, In p (t_methods t) /\ method_glob p name) /\
  (is_walkable_function c name <-> exists p, In p (t_walkable t) /\ glob p name) /\
  (is_ignored_test c name <-> In name (t_tests t)).
Proof.
  intros t c name H. unfold compile in H.
  destruct (compile_patterns alphanumeric (t_functions t) false) as [fs| |] eqn:E1; try discriminate.
  destruct (compile_patterns alphanumeric (t_macros t) false) as [ms| |] eqn:E2; try discriminate.
  destruct (compile_patterns alphanumeric (t_methods t) true) as [me| |] eqn:E3; try discriminate.
  destruct (compile_patterns alphanumeric (t_walkable t) false) as [ws| |] eqn:E4; try discriminate.
  injection H as <-.
  split; [exact (any_match_spec _ _ _ _ name E1 (fun p r => C26_pattern p r name))|].
  split; [exact (any_match_spec _ _ _ _ name E2 (fun p r => C26_pattern p r name))|].
  split; [exact (any_match_spec _ _ _ _ name E3 (fun p r => C26_method_pattern p r name))|].
  split; [exact (any_match_spec _ _ _ _ name E4 (fun p r => C26_pattern p r name))|]. reflexivity.
Qed.

(** ** C27 *)

(** Merging fails iff the two set the same option differently; otherwise the lists are put together. *)
Theorem C27_merge : forall a b,
  (merge a b = None <->
     (exists x y, t_disambiguation a = Some x /\ t_disambiguation b = Some y /\ x <> y) \/
     (exists x y, t_visit_args a = Some x /\ t_visit_args b = Some y /\ x <> y)) /\
  forall m, merge a b = Some m ->
    t_functions m = t_functions a ++ t_functions b /\ t_macros m = t_macros a ++ t_macros b /\
    t_methods m = t_methods a ++ t_methods b /\ t_tests m = t_tests a ++ t_tests b /\ t_walkable m = t_walkable a ++ t_walkable b /\
    (t_disambiguation b <> None \/ t_disambiguation a = None -> t_disambiguation m = match t_disambiguation b with Some d => Some d | None => t_disambiguation a end) /\
    (t_visit_args b <> None \/ t_visit_args a = None -> t_visit_args m = match t_visit_args b with Some d => Some d | None => t_visit_args a end).
Proof.
  intros a b. unfold merge. split.
  - destruct (t_disambiguation a) as [x|], (t_disambiguation b) as [y|]; cbv beta iota zeta.
    + destruct (disamb_eqb x y) eqn:E; cbn [negb].
      * assert (x = y) by (destruct x, y; try discriminate; reflexivity). subst y.
        destruct (t_visit_args a) as [u|], (t_visit_args b) as [v|]; cbv beta iota zeta.
        -- destruct (Bool.eqb u v) eqn:E2; cbn [negb].
           ++ apply Bool.eqb_prop in E2. subst v. split; [discriminate|]. intros [[p [q [A [B C]]]]|[p [q [A [B C]]]]]; congruence.
           ++ split; [|reflexivity]. intros _. right. exists u, v. split; [reflexivity|]. split; [reflexivity|]. intros ->. rewrite Bool.eqb_reflx in E2. discriminate.
        -- split; [discriminate|]. intros [[p [q [A [B C]]]]|[p [q [A [B C]]]]]; congruence.
        -- split; [discriminate|]. intros [[p [q [A [B C]]]]|[p [q [A [B C]]]]]; congruence.
        -- split; [discriminate|]. intros [[p [q [A [B C]]]]|[p [q [A [B C]]]]]; congruence.
      * split; [|reflexivity]. intros _. left. exists x, y. split; [reflexivity|]. split; [reflexivity|]. intros ->. destruct y; discriminate.
    + destruct (t_visit_args a) as [u|], (t_visit_args b) as [v|]; cbv beta iota zeta;
        try (split; [discriminate|]; intros [[p [q [A [B C]]]]|[p [q [A [B C]]]]]; congruence).
      destruct (Bool.eqb u v) eqn:E2; cbn [negb].
      * apply Bool.eqb_prop in E2. subst v. split; [discriminate|]. intros [[p [q [A [B C]]]]|[p [q [A [B C]]]]]; congruence.
      * split; [|reflexivity]. intros _. right. exists u, v. split; [reflexivity|]. split; [reflexivity|]. intros ->. rewrite Bool.eqb_reflx in E2. discriminate.
    + destruct (t_visit_args a) as [u|], (t_visit_args b) as [v|]; cbv beta iota zeta;
        try (split; [discriminate|]; intros [[p [q [A [B C]]]]|[p [q [A [B C]]]]]; congruence).
      destruct (Bool.eqb u v) eqn:E2; cbn [negb].
      * apply Bool.eqb_prop in E2. subst v. split; [discriminate|]. intros [[p [q [A [B C]]]]|[p [q [A [B C]]]]]; congruence.
      * split; [|reflexivity]. intros _. right. exists u, v. split; [reflexivity|]. split; [reflexivity|]. intros ->. rewrite Bool.eqb_reflx in E2. discriminate.
    + destruct (t_visit_args a) as [u|], (t_visit_args b) as [v|]; cbv beta iota zeta;
        try (split; [discriminate|]; intros [[p [q [A [B C]]]]|[p [q [A [B C]]]]]; congruence).
      destruct (Bool.eqb u v) eqn:E2; cbn [negb].
      * apply Bool.eqb_prop in E2. subst v. split; [discriminate|]. intros [[p [q [A [B C]]]]|[p [q [A [B C]]]]]; congruence.
      * split; [|reflexivity]. intros _. right. exists u, v. split; [reflexivity|]. split; [reflexivity|]. intros ->. rewrite Bool.eqb_reflx in E2. discriminate.
  - intros m. repeat match goal with |- (if ?b then _ else _) = _ -> _ => destruct b; [discriminate|] end.
    intros H. injection H as <-. simpl. repeat split; auto.
    + intros [H|H]; destruct (t_disambiguation b); congruence.
    + intros [H|H]; destruct (t_visit_args b); congruence.
Qed.

(** The configuration in effect: a name is ignored iff one of the framework's own patterns or of the user's
    matches it; tests, walkable functions and the two options are the user's.  Combining never panics. *)
Theorem C27_effective : forall denied b t,
  compile_config alphanumeric denied b t <> Panic /\
  forall c name, compile_config alphanumeric denied b t = Ok c ->
  let own l p := match l with Some ps => In p ps | None => False end in
  (is_ignored_function c name <-> exists p, (own (b_functions b) p \/ In p (t_functions t)) /\ glob p name) /\
  (is_ignored_macro c name <-> exists p, (own (b_macros b) p \/ In p (t_macros t)) /\ glob p name) /\
  (is_ignored_method c name <-> exists p, (own (b_methods b) p \/ In p (t_methods t)) /\ method_glob p name) /\
  (is_walkable_function c name <-> exists p, In p (t_walkable t) /\ glob p name) /\
  (is_ignored_test c name <-> In name (t_tests t)) /\
  (c_disambiguation c = match t_disambiguation t with Some d => d | None => DNone end) /\
  (c_visit_args c = match t_visit_args t with Some v => v | None => false end).
Proof.
  intros denied b t. unfold compile_config. destruct (existsb denied (check_config b t)); [split; [discriminate|intros c name H; discriminate]|].
  set (m0 := Toml _ _ _ None [] None []).
  assert (E : merge m0 t = Some (Toml (or_nil (b_functions b) ++ t_functions t) (or_nil (b_macros b) ++ t_macros t)
     (or_nil (b_methods b) ++ t_methods t) (t_disambiguation t) (t_tests t) (t_visit_args t) (t_walkable t))) by reflexivity.
  rewrite E. set (m := Toml (_ ++ _) _ _ _ _ _ _). split.
  - unfold compile.
    assert (NP : forall ps k, compile_patterns alphanumeric ps k <> Panic).
    { induction ps as [|p ps IH]; intros k; simpl; [discriminate|].
      unfold compile_pattern. pose proof (escape_no_panic p) as X. destruct (escape alphanumeric p); simpl; try congruence.
      destruct (regex_new _); simpl; [|discriminate]. specialize (IH k). destruct (compile_patterns alphanumeric ps k); simpl; congruence. }
    destruct (compile_patterns alphanumeric (t_functions m) false) eqn:X1; [|discriminate|destruct (NP _ _ X1)].
    destruct (compile_patterns alphanumeric (t_macros m) false) eqn:X2; [|discriminate|destruct (NP _ _ X2)].
    destruct (compile_patterns alphanumeric (t_methods m) true) eqn:X3; [|discriminate|destruct (NP _ _ X3)].
    destruct (compile_patterns alphanumeric (t_walkable m) false) eqn:X4; [|discriminate|destruct (NP _ _ X4)].
    discriminate.
  - intros c name H. cbv zeta. destruct (C26_compiled m c name H) as [H1 [H2 [H3 [H4 H5]]]].
    assert (O : forall (l : option (list text)) us (G : text -> Prop),
       (exists p, In p (or_nil l ++ us) /\ G p) <-> (exists p, (match l with Some ps => In p ps | None => False end \/ In p us) /\ G p)).
    { intros l us G. split; intros [p [I X]]; exists p; (split; [|exact X]); [apply in_app_iff in I|apply in_app_iff]; destruct l; simpl in *; tauto. }
    split; [rewrite H1; apply O|]. split; [rewrite H2; apply O|]. split; [rewrite H3; apply O|]. split; [exact H4|]. split; [exact H5|].
    unfold compile in H.
    destruct (compile_patterns alphanumeric (t_functions m) false); try discriminate.
    destruct (compile_patterns alphanumeric (t_macros m) false); try discriminate.
    destruct (compile_patterns alphanumeric (t_methods m) true); try discriminate.
    destruct (compile_patterns alphanumeric (t_walkable m) false); try discriminate.
    injection H as <-. split; reflexivity.
Qed.

(** A warning is issued for each kind of pattern the user gives and the framework has no notion of, and for no other. *)
Theorem C27_unsupported_warned : forall b t,
  (In WIgnoredFunctionsUnsupported (check_config b t) <-> b_functions b = None /\ t_functions t <> []) /\
  (In WIgnoredMacrosUnsupported (check_config b t) <-> b_macros b = None /\ t_macros t <> []) /\
  (In WIgnoredMethodsUnsupported (check_config b t) <-> b_methods b = None /\ t_methods t <> []).
Proof.
  intros b t. unfold check_config, unsupported.
  destruct (b_functions b), (b_macros b), (b_methods b), (t_functions t), (t_macros t), (t_methods t); simpl;
    repeat split; try tauto; try discriminate; try (intros [? ?]; congruence); try intuition discriminate.
Qed.
End P.
Print Assumptions C26_accepted_iff.
Print Assumptions C26_refusal.
Print Assumptions C26_pattern.
Print Assumptions C26_method_pattern.
Print Assumptions C26_compiled.
Print Assumptions C27_merge.
Print Assumptions C27_effective.
Print Assumptions C27_unsupported_warned.

(** ** What is not so *)

(** README 557: "A [*] matches any string".  Not one that contains a newline. *)
Theorem C26_star_any_string_refuted : forall alphanumeric, (forall c, alphanumeric c = true -> is_meta c = false) ->
  exists r, compile_pattern alphanumeric (s2t "*") false = Ok r /\ (exists name, ~ is_match r name) /\
    forall name, is_match r name <-> ~ In NL name.
Proof.
  intros al L. destruct (C26_accepted_iff al L (s2t "*") false) as [_ A].
  destruct A as [r R]; [constructor; [right; right; right; reflexivity|constructor]|].
  exists r. split; [exact R|].
  assert (H : forall name, is_match r name <-> ~ In NL name).
  { intros name. rewrite (C26_pattern al L _ r name R). split.
    - intros G. inversion G as [|c p n N _|x p n N G']; subst; [destruct N; reflexivity|]. inversion G'; subst. rewrite app_nil_r. exact N.
    - intros N. replace name with (name ++ []) by apply app_nil_r. constructor; [exact N|constructor]. }
  split; [exists [NL]; rewrite H; intros N; apply N; left; reflexivity|exact H].
Qed.

(** An option set on the left and not on the right is lost. *)
Theorem C27_merge_keeps_refuted : exists a b m, t_visit_args a = Some true /\ t_visit_args b = None /\ merge a b = Some m /\ t_visit_args m = None.
Proof. exists (Toml [] [] [] None [] (Some true) []), toml_default. eexists. repeat split; reflexivity. Qed.
Print Assumptions C26_star_any_string_refuted.
Print Assumptions C27_merge_keeps_refuted.

(** ** The hypotheses are met, and the examples of the README (564-567) *)
Definition ascii_alphanumeric (c : char) : bool :=
  ((48 <=? c) && (c <=? 57) || (65 <=? c) && (c <=? 90) || (97 <=? c) && (c <=? 122))%N.
Lemma ascii_literal c : ascii_alphanumeric c = true -> is_meta c = false.
Proof.
  intros H. destruct (is_meta c) eqn:M; [|reflexivity]. apply existsb_exists in M as [d [I E]]. apply N.eqb_eq in E. subst d.
  assert (F : Forall (fun c => ascii_alphanumeric c = false) meta) by (repeat constructor).
  rewrite Forall_forall in F. rewrite (F c I) in H. discriminate.
Qed.
Example ex_accepts p : Forall (fun c => ascii_alphanumeric c || (c =? UNDERSCORE)%N || (c =? DOT)%N || (c =? STAR)%N = true) p ->
  exists r, compile_pattern ascii_alphanumeric p false = Ok r /\ forall name, is_match r name <-> glob p name.
Proof.
  intros F. destruct (C26_accepted_iff _ ascii_literal p false) as [_ A]. destruct A as [r R].
  - eapply Forall_impl; [|exact F]. intros c H. unfold allowed.
    rewrite !Bool.orb_true_iff, !N.eqb_eq in H. tauto.
  - exists r. split; [exact R|]. intros name. exact (C26_pattern _ ascii_literal p r name R).
Qed.
Ltac glob_no := let H := fresh in intros H; repeat match goal with X : glob _ _ |- _ => inversion X; clear X; subst end; try discriminate; try congruence.
Ltac lit := constructor; [discriminate|].
Example ex_literal : glob (s2t "assert.Equal") (s2t "assert.Equal"). Proof. repeat lit. constructor. Qed.
Example ex_star_tail : glob (s2t "assert*") (s2t "assert_eq").
Proof. do 6 lit. apply (g_star (s2t "_eq") [] []); [intros [X|[X|[X|[]]]]; discriminate|constructor]. Qed.
Example ex_star_tail_empty : glob (s2t "assert*") (s2t "assert").
Proof. do 6 lit. apply (g_star [] [] []); [intros []|constructor]. Qed.
Example ex_star_head : glob (s2t "*.Equal") (s2t "assert.Equal").
Proof. apply (g_star (s2t "assert") (s2t ".Equal") (s2t ".Equal")); [cbn; intuition discriminate|]. repeat lit. constructor. Qed.
Example ex_dot_literal : ~ glob (s2t "assert.*") (s2t "assert_eq"). Proof. glob_no. Qed.
Example ex_dot_needed : ~ glob (s2t "assert.*") (s2t "assert"). Proof. glob_no. Qed.
Example ex_method : method_glob (s2t "unwrap") (s2t "x.y.unwrap").
Proof.
  exists [s2t "x"; s2t "y"], (s2t "unwrap"). split; [reflexivity|]. split; [|repeat lit; constructor].
  intros s [<-|[<-|[]]]; (split; [discriminate|intros [X|[]]; discriminate]).
Qed.
Example ex_refused : compile_pattern ascii_alphanumeric (s2t "a-b") false = Err (BadPattern 45%N). Proof. reflexivity. Qed.
Example ex_effective_nonvacuous : exists c, compile_config ascii_alphanumeric (fun _ => false) go_builtin
   (Toml [s2t "foo*"] [] [] (Some DMethod) [s2t "TestX"] None []) = Ok c.
Proof. eexists. vm_compute. reflexivity. Qed.
Example ex_unsupported : check_config go_builtin (Toml [] [s2t "m"] [] None [] None []) = [WIgnoredMacrosUnsupported]. Proof. reflexivity. Qed.
