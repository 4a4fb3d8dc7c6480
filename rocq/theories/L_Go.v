From Verif Require Import Base M_Text M_Rewriter M_Span M_Run M_Instr M_Directives M_Go S_Go.
Local Open Scope N_scope.

Section L.
Context (word : char -> bool).

Definition last_char (prev : option char) (t : text) : option char := List.fold_left (fun _ c => Some c) t prev.
Lemma last_char_app prev a b : last_char prev (a ++ b) = last_char (last_char prev a) b.
Proof. apply fold_left_app. Qed.
Lemma last_char_snoc prev a c : last_char prev (a ++ [c]) = Some c.
Proof. rewrite last_char_app. reflexivity. Qed.

(** What an expression matches: [mid], after [prev] and before [rest]; the capture before and after. *)
Inductive mt : rx -> option char -> text -> text -> option text -> option text -> Prop :=
| mt_char c prev rest cap : mt (XChar c) prev [c] rest cap cap
| mt_class (f : char -> bool) c prev rest cap : f c = true -> mt (XClass f) prev [c] rest cap cap
| mt_star (f : char -> bool) mid prev rest cap : Forall (fun c => f c = true) mid -> mt (XStar f) prev mid rest cap cap
| mt_opt1 c prev rest cap : mt (XOpt c) prev [c] rest cap cap
| mt_opt0 c prev rest cap : mt (XOpt c) prev [] rest cap cap
| mt_alt1 a b prev mid rest cap cap' : mt a prev mid rest cap cap' -> mt (XAlt a b) prev mid rest cap cap'
| mt_alt2 a b prev mid rest cap cap' : mt b prev mid rest cap cap' -> mt (XAlt a b) prev mid rest cap cap'
| mt_seq a b prev m1 m2 rest c1 c2 c3 : mt a prev m1 (m2 ++ rest) c1 c2 -> mt b (last_char prev m1) m2 rest c2 c3 ->
    mt (XSeq a b) prev (m1 ++ m2) rest c1 c3
| mt_cap r prev mid rest c1 c2 : mt r prev mid rest c1 c2 -> mt (XCap r) prev mid rest c1 (Some mid)
| mt_bound prev rest cap : is_word word prev <> is_word word (hd_char rest) -> mt XBound prev [] rest cap cap.

Lemma m_sound {R} (r : rx) : forall prev t cap (k : option char -> text -> option text -> option R) x,
  m word r prev t cap k = Some x ->
  exists mid rest cap', t = mid ++ rest /\ mt r prev mid rest cap cap' /\ k (last_char prev mid) rest cap' = Some x.
Proof.
  induction r as [c|f|f|c|a IHa b IHb|a IHa b IHb|r IH|]; intros prev t cap k x H; cbn [m] in H.
  - destruct t as [|d t]; [discriminate|]. destruct (N.eqb_spec d c) as [->|]; [|discriminate].
    exists [c], t, cap. split; [reflexivity|]. split; [constructor|exact H].
  - destruct t as [|d t]; [discriminate|]. destruct (f d) eqn:F; [|discriminate].
    exists [d], t, cap. split; [reflexivity|]. split; [constructor; exact F|exact H].
  - revert prev H. induction t as [|d t IH]; intros prev H.
    + exists [], [], cap. split; [reflexivity|]. split; [constructor; constructor|exact H].
    + assert (Z : k prev (d :: t) cap = Some x ->
        exists mid rest cap', d :: t = mid ++ rest /\ mt (XStar f) prev mid rest cap cap' /\ k (last_char prev mid) rest cap' = Some x).
      { intros Hk. exists [], (d :: t), cap. split; [reflexivity|]. split; [constructor; constructor|exact Hk]. }
      destruct (f d) eqn:F; [|exact (Z H)].
      match type of H with match ?s with _ => _ end = _ => destruct s as [y|] eqn:E end; [|exact (Z H)].
      injection H as ->. apply IH in E as [mid [rest [cap' [-> [M K]]]]]. exists (d :: mid), rest, cap'.
      split; [reflexivity|]. split; [|exact K]. inversion M; subst. constructor. constructor; assumption.
  - assert (Z : k prev t cap = Some x ->
      exists mid rest cap', t = mid ++ rest /\ mt (XOpt c) prev mid rest cap cap' /\ k (last_char prev mid) rest cap' = Some x).
    { intros Hk. exists [], t, cap. split; [reflexivity|]. split; [apply mt_opt0|exact Hk]. }
    destruct t as [|d t]; [exact (Z H)|]. destruct (N.eqb_spec d c) as [->|]; [|exact (Z H)].
    destruct (k (Some c) t cap) as [y|] eqn:E; [|exact (Z H)]. injection H as ->.
    exists [c], t, cap. split; [reflexivity|]. split; [apply mt_opt1|exact E].
  - destruct (m word a prev t cap k) as [y|] eqn:E.
    + injection H as ->. apply IHa in E as [mid [rest [cap' [-> [M K]]]]]. exists mid, rest, cap'. split; [reflexivity|]. split; [apply mt_alt1, M|exact K].
    + apply IHb in H as [mid [rest [cap' [-> [M K]]]]]. exists mid, rest, cap'. split; [reflexivity|]. split; [apply mt_alt2, M|exact K].
  - apply IHa in H as [m1 [r1 [c1 [-> [M1 K1]]]]]. cbn beta in K1. apply IHb in K1 as [m2 [r2 [c2 [-> [M2 K2]]]]].
    exists (m1 ++ m2), r2, c2. split; [apply app_assoc|]. split; [econstructor; eassumption|]. rewrite last_char_app. exact K2.
  - apply IH in H as [mid [rest [cap' [-> [M K]]]]]. exists mid, rest, (Some mid). split; [reflexivity|]. split; [econstructor; exact M|].
    rewrite app_length in K. replace (length mid + length rest - length rest)%nat with (length mid + 0)%nat in K by lia.
    rewrite firstn_app_2, firstn_O, app_nil_r in K. exact K.
  - destruct (Bool.eqb_spec (is_word word prev) (is_word word (hd_char t))) as [E|D]; [discriminate|].
    exists [], t, cap. split; [reflexivity|]. split; [constructor; exact D|exact H].
Qed.

Lemma m_complete {R} (r : rx) : forall prev mid rest cap cap' (k : option char -> text -> option text -> option R),
  mt r prev mid rest cap cap' -> (k (last_char prev mid) rest cap' <> None) ->
  m word r prev (mid ++ rest) cap k <> None.
Proof.
  induction r as [c|f|f|c|a IHa b IHb|a IHa b IHb|r IH|]; intros prev mid rest cap cap' k M K; inversion M; subst; cbn [m app].
  - rewrite N.eqb_refl. exact K.
  - rewrite H0. exact K.
  - clear M. rename H0 into H. revert prev K. induction H as [|d mid F _ IH]; intros prev K; cbn [app].
    + destruct rest as [|d rest]; [exact K|]. destruct (f d); [|exact K].
      match goal with |- match ?s with _ => _ end <> _ => destruct s end; [discriminate|exact K].
    + rewrite F. specialize (IH (Some d) K). match goal with |- match ?s with _ => _ end <> _ => destruct s eqn:E end; [discriminate|].
      exfalso. apply IH. reflexivity.
  - rewrite N.eqb_refl. match goal with |- match ?s with _ => _ end <> _ => destruct s eqn:E end; [discriminate|]. exfalso. exact (K E).
  - match goal with |- match ?s with _ => _ end <> _ => destruct s end; [discriminate|exact K].
  - match goal with X : mt a _ _ _ _ _ |- _ => pose proof (IHa _ _ _ _ _ _ X K) as Q end. destruct (m word a prev (mid ++ rest) cap k); [discriminate|congruence].
  - destruct (m word a prev (mid ++ rest) cap k); [discriminate|]. match goal with X : mt b _ _ _ _ _ |- _ => exact (IHb _ _ _ _ _ _ X K) end.
  - rewrite <- app_assoc. eapply IHa; [eassumption|]. cbn beta. eapply IHb; [eassumption|]. rewrite <- last_char_app. exact K.
  - eapply IH; [eassumption|]. cbn beta. rewrite app_length. replace (length mid + length rest - length rest)%nat with (length mid + 0)%nat by lia.
    rewrite firstn_app_2, firstn_O, app_nil_r. exact K.
  - destruct (Bool.eqb_spec (is_word word prev) (is_word word (hd_char rest))) as [E|D]; [contradiction|exact K].
Qed.

(** The repetition takes as much as it can. *)
Lemma star_longest {R} (f : char -> bool) : forall t prev cap (k : option char -> text -> option text -> option R) x,
  m word (XStar f) prev t cap k = Some x ->
  exists mid rest, t = mid ++ rest /\ Forall (fun c => f c = true) mid /\ k (last_char prev mid) rest cap = Some x /\
    forall mid' rest', t = mid' ++ rest' -> Forall (fun c => f c = true) mid' -> (length mid < length mid')%nat ->
      k (last_char prev mid') rest' cap = None.
Proof.
  induction t as [|d t IH]; intros prev cap k x H.
  - exists [], []. split; [reflexivity|]. split; [constructor|]. split; [exact H|]. intros mid' rest' E _ L. destruct mid'; [cbn in L; lia|discriminate].
  - cbn [m] in H. destruct (f d) eqn:F.
    + match type of H with match ?s with _ => _ end = _ => destruct s as [y|] eqn:E end.
      * injection H as ->. apply (IH (Some d) cap k) in E as [mid [rest [-> [A [K B]]]]]. exists (d :: mid), rest.
        split; [reflexivity|]. split; [constructor; assumption|]. split; [exact K|]. intros mid' rest' E' A' L.
        destruct mid' as [|e mid']; [cbn in L; lia|]. injection E' as <- E'. inversion A'; subst. apply (B mid' rest'); [exact E'|assumption|cbn in L; lia].
      * exists [], (d :: t). split; [reflexivity|]. split; [constructor|]. split; [exact H|]. intros mid' rest' E' A' L.
        destruct mid' as [|e mid']; [cbn in L; lia|]. injection E' as <- E'. inversion A'; subst.
        destruct (k (last_char prev (d :: mid')) rest' cap) eqn:Q; [|reflexivity]. exfalso.
        refine (m_complete (XStar f) (Some d) mid' rest' cap cap k _ _ E); [constructor; assumption|]. change (last_char (Some d) mid') with (last_char prev (d :: mid')). rewrite Q. discriminate.
    + exists [], (d :: t). split; [reflexivity|]. split; [constructor|]. split; [exact H|]. intros mid' rest' E' A' L.
      destruct mid' as [|e mid']; [cbn in L; lia|]. injection E' as <- E'. inversion A'; congruence.
Qed.

(** The search finds the leftmost match. *)
Lemma search_spec r : forall t prev,
  match search word r prev t with
  | Some cap => exists a mid b, t = a ++ mid ++ b /\ mt r (last_char prev a) mid b None cap /\
      m word r (last_char prev a) (mid ++ b) None (fun _ _ cap => Some cap) = Some cap /\
      forall a' mid' b' cap', t = a' ++ mid' ++ b' -> mt r (last_char prev a') mid' b' None cap' -> (length a <= length a')%nat
  | None => forall a' mid' b' cap', t = a' ++ mid' ++ b' -> ~ mt r (last_char prev a') mid' b' None cap'
  end.
Proof.
  induction t as [|c t IH]; intros prev; cbn [search].
  - destruct (m word r prev [] None _) as [cap|] eqn:E.
    + pose proof E as E0. apply m_sound in E as [mid [rest [cap' [E [M K]]]]]. injection K as ->. exists [], mid, rest. split; [exact E|]. split; [exact M|].
      split; [rewrite <- E; exact E0|]. intros; cbn; lia.
    + intros a' mid' b' cap' E' M'. destruct a'; [|discriminate]. destruct mid'; [|discriminate]. destruct b'; [|discriminate].
      refine (m_complete r _ [] [] None cap' (fun _ _ cap => Some cap) M' _ E). discriminate.
  - destruct (m word r prev (c :: t) None _) as [cap|] eqn:E.
    + pose proof E as E0. apply m_sound in E as [mid [rest [cap' [E [M K]]]]]. injection K as ->. exists [], mid, rest. split; [exact E|]. split; [exact M|].
      split; [rewrite <- E; exact E0|]. intros; cbn; lia.
    + assert (Z : forall mid' b' cap', c :: t = mid' ++ b' -> ~ mt r prev mid' b' None cap').
      { intros mid' b' cap' E' M'. rewrite E' in E. refine (m_complete r _ mid' b' None cap' (fun _ _ cap => Some cap) M' _ E). discriminate. }
      specialize (IH (Some c)). destruct (search word r (Some c) t) as [cap|].
      * destruct IH as [a [mid [b [-> [M [K B]]]]]]. exists (c :: a), mid, b. split; [reflexivity|]. split; [exact M|]. split; [exact K|].
        intros a' mid' b' cap' E' M'. destruct a' as [|c' a']; [destruct (Z mid' b' cap' E' M')|]. injection E' as <- E'. cbn. apply le_n_S. exact (B _ _ _ _ E' M').
      * intros a' mid' b' cap' E' M'. destruct a' as [|c' a']; [exact (Z mid' b' cap' E' M')|]. injection E' as <- E'. exact (IH _ _ _ _ E' M').
Qed.

(** ** The four expressions *)
Lemma mt_lit t r : forall prev mid rest cap cap', mt (lit t r) prev mid rest cap cap' <->
  exists mid', mid = t ++ mid' /\ mt r (last_char prev t) mid' rest cap cap'.
Proof.
  induction t as [|c t IH]; intros prev mid rest cap cap'; cbn [lit].
  - split; [intros H; exists mid; auto|]. intros [mid' [-> H]]. exact H.
  - split.
    + intros H. inversion H as [| | | | | | |? ? ? ? ? ? ? ? ? M1 M2| |]; subst. inversion M1; subst. apply IH in M2 as [mid' [-> M]]. exists mid'. split; [reflexivity|exact M].
    + intros [mid' [-> M]]. change ((c :: t) ++ mid') with ([c] ++ (t ++ mid')). eapply mt_seq; [constructor|]. apply IH. exists mid'. split; [reflexivity|exact M].
Qed.
Lemma mt_nothing prev mid rest cap cap' : mt nothing prev mid rest cap cap' <-> mid = [] /\ cap' = cap.
Proof.
  split; [|intros [-> ->]; constructor; constructor]. intros H. inversion H as [| |? ? ? ? ? F| | | | | | |]; subst. destruct F; [auto|discriminate].
Qed.
Lemma ident_start_spec c : ident_start c = true <-> letter c.
Proof. unfold ident_start, letter. rewrite !orb_true_iff, !andb_true_iff, !N.leb_le, N.eqb_eq. tauto. Qed.
Lemma ident_char_spec c : ident_char c = true <-> letter c \/ digit c.
Proof. unfold ident_char, digit. rewrite orb_true_iff, andb_true_iff, !N.leb_le, ident_start_spec. tauto. Qed.
Lemma not_close_spec t : Forall (fun c => not_close c = true) t <-> open_text t.
Proof.
  unfold open_text. rewrite Forall_forall. unfold not_close. split.
  - intros H I. specialize (H 41 I). discriminate.
  - intros H c I. destruct (N.eqb_spec c 41) as [->|]; [contradiction|reflexivity].
Qed.
Lemma mt_name r prev mid rest cap cap' : mt (NAME r) prev mid rest cap cap' <->
  exists n g mid', mid = n ++ g ++ mid' /\ import_name n /\ gap g /\ mt r (last_char prev (n ++ g)) mid' rest (Some n) cap'.
Proof.
  unfold NAME. split.
  - intros H. inversion H as [| | | | | | |? ? ? ? ? ? ? ? ? M1 M2| |]; subst. inversion M1 as [| | | | | | | |? ? ? ? ? ? Mn|]; subst.
    inversion M2 as [| | | | | | |? ? ? ? ? ? ? ? ? G1 G2| |]; subst.
    assert (In : import_name m1).
    { inversion Mn as [| | | | |? ? ? ? ? ? ? A|? ? ? ? ? ? ? A| | |]; subst; inversion A; subst; [left; reflexivity|right].
      match goal with X : mt (XClass _) _ _ _ _ _ |- _ => inversion X; subst end.
      match goal with X : mt (XStar _) _ _ _ _ _ |- _ => inversion X; subst end.
      eexists _, _. split; [reflexivity|]. split; [apply ident_start_spec; assumption|].
      eapply Forall_impl; [|eassumption]. intros d. apply ident_char_spec. }
    inversion G1; subst; match goal with |- exists _ _ _, m1 ++ ?gg ++ ?mm = _ /\ _ => exists m1, gg, mm end; rewrite last_char_app;
      (split; [reflexivity|]); (split; [exact In|]); (split; [|exact G2]); [right|left]; reflexivity.
  - intros [n [g [mid' [-> [In [G M]]]]]]. rewrite last_char_app in M. eapply mt_seq; [|eapply mt_seq; [|exact M]].
    + eapply mt_cap. destruct In as [->|[c [t [-> [C F]]]]]; [apply mt_alt1; constructor|apply mt_alt2].
      change (c :: t) with ([c] ++ t). eapply mt_seq; constructor; [apply ident_start_spec, C|]. eapply Forall_impl; [|exact F]. intros d. apply ident_char_spec.
    + destruct G as [->| ->]; [apply mt_opt0|apply mt_opt1].
Unshelve. all: exact None.
Qed.
Lemma mt_prefix r prev mid rest cap cap' : mt (PREFIX r) prev mid rest cap cap' <->
  exists x mid', mid = [40] ++ x ++ mid' /\ open_text x /\ mt r (last_char prev ([40] ++ x)) mid' rest cap cap'.
Proof.
  unfold PREFIX. split.
  - intros H. inversion H as [| | | | | | |? ? ? ? ? ? ? ? ? M1 M2| |]; subst. inversion M1; subst. inversion M2 as [| | | | | | |? ? ? ? ? ? ? ? ? G1 G2| |]; subst.
    inversion G1; subst. match goal with X : Forall _ ?x |- _ => exists x end. eexists. split; [reflexivity|]. split; [apply not_close_spec; assumption|exact G2].
  - intros [x [mid' [-> [O M]]]]. eapply mt_seq; [constructor|]. eapply mt_seq; [constructor; apply not_close_spec, O|exact M].
Qed.
Lemma mt_suffix prev mid rest cap cap' : mt SUFFIX prev mid rest cap cap' <-> exists y, mid = y ++ [41] /\ open_text y /\ cap' = cap.
Proof.
  unfold SUFFIX. split.
  - intros H. inversion H as [| | | | | | |? ? ? ? ? ? ? ? ? M1 M2| |]; subst. inversion M1; subst. inversion M2; subst.
    eexists. split; [reflexivity|]. split; [apply not_close_spec; assumption|reflexivity].
  - intros [y [-> [O ->]]]. eapply mt_seq; constructor. apply not_close_spec, O.
Qed.

Context (word_i : word 105 = true).     (* the letter i is a word character *)

Lemma is_word_last a : is_word word (last_char None a) = false <-> word_end word a.
Proof.
  unfold word_end. destruct a as [|c a] using rev_ind.
  - split; [|reflexivity]. intros _ b c E. destruct b; discriminate.
  - rewrite last_char_snoc. cbn. split.
    + intros H b d E. apply app_inj_tail in E as [_ <-]. exact H.
    + intros H. exact (H a c eq_refl).
Qed.
Lemma mt_seq_inv a b prev mid rest c1 c3 : mt (XSeq a b) prev mid rest c1 c3 ->
  exists m1 m2 c2, mid = m1 ++ m2 /\ mt a prev m1 (m2 ++ rest) c1 c2 /\ mt b (last_char prev m1) m2 rest c2 c3.
Proof. intros H. inversion H; subst. eauto 8. Qed.
Lemma mt_import (a : text) prefix name suffix mid rest cap cap' : mt (import_os_re prefix name suffix) (last_char None a) mid rest cap cap' <->
  word_end word a /\ exists mid', mid = s2t "import " ++ mid' /\
    mt (prefix (name (lit OS suffix))) (last_char (last_char None a) (s2t "import ")) mid' rest cap cap'.
Proof.
  unfold import_os_re. split.
  - intros H. apply mt_seq_inv in H as [m1 [m2 [c2 [-> [M1 M2]]]]]. inversion M1; subst. apply mt_lit in M2 as [mid' [-> M]].
    split; [|exists mid'; split; [reflexivity|exact M]]. apply is_word_last.
    match goal with X : _ <> _ |- _ => cbn in X; rewrite word_i in X; destruct (is_word word (last_char None a)); congruence end.
  - intros [W [mid' [-> M]]]. apply is_word_last in W. change (s2t "import " ++ mid') with ([] ++ (s2t "import " ++ mid')). eapply mt_seq.
    + constructor. rewrite W. cbn. rewrite word_i. discriminate.
    + apply mt_lit. exists mid'. split; [reflexivity|exact M].
Qed.

Lemma mt_named a mid rest cap cap' : mt IMPORT_NAMED_OS_RE (last_char None a) mid rest cap cap' <->
  word_end word a /\ exists n g, mid = s2t "import " ++ n ++ g ++ PATH /\ import_name n /\ gap g /\ cap' = Some n.
Proof.
  unfold IMPORT_NAMED_OS_RE. rewrite mt_import. unfold none. split; (intros [W H]; split; [exact W|]).
  - destruct H as [mid' [-> M]]. apply mt_name in M as [n [g [m2 [-> [In [G M]]]]]]. apply mt_lit in M as [m3 [-> M]]. apply mt_nothing in M as [-> ->].
    rewrite app_nil_r. exists n, g. auto.
  - destruct H as [n [g [-> [In [G ->]]]]]. eexists. split; [reflexivity|]. apply mt_name. exists n, g, PATH. split; [reflexivity|]. split; [exact In|]. split; [exact G|].
    apply mt_lit. exists []. split; [rewrite app_nil_r; reflexivity|]. apply mt_nothing. auto.
Qed.
Lemma mt_unnamed a mid rest cap cap' : mt IMPORT_UNNAMED_OS_RE (last_char None a) mid rest cap cap' <->
  word_end word a /\ mid = s2t "import " ++ PATH /\ cap' = cap.
Proof.
  unfold IMPORT_UNNAMED_OS_RE. rewrite mt_import. unfold none. split; (intros [W H]; split; [exact W|]).
  - destruct H as [mid' [-> M]]. apply mt_lit in M as [m3 [-> M]]. apply mt_nothing in M as [-> ->]. rewrite app_nil_r. auto.
  - destruct H as [-> ->]. eexists. split; [reflexivity|]. apply mt_lit. exists []. split; [rewrite app_nil_r; reflexivity|]. apply mt_nothing. auto.
Qed.
Lemma mt_paren_named a mid rest cap cap' : mt PARENTHESIZED_IMPORT_NAMED_OS_RE (last_char None a) mid rest cap cap' <->
  word_end word a /\ exists x n g y, mid = s2t "import (" ++ x ++ n ++ g ++ PATH ++ y ++ [41] /\ open_text x /\ open_text y /\
    import_name n /\ gap g /\ cap' = Some n.
Proof.
  unfold PARENTHESIZED_IMPORT_NAMED_OS_RE. rewrite mt_import. split; (intros [W H]; split; [exact W|]).
  - destruct H as [mid' [-> M]]. apply mt_prefix in M as [x [m1 [-> [O M]]]]. apply mt_name in M as [n [g [m2 [-> [In [G M]]]]]].
    apply mt_lit in M as [m3 [-> M]]. apply mt_suffix in M as [y [-> [Oy ->]]]. exists x, n, g, y. split; [reflexivity|]. auto.
  - destruct H as [x [n [g [y [-> [O [Oy [In [G ->]]]]]]]]]. exists ([40] ++ x ++ n ++ g ++ PATH ++ y ++ [41]). split; [reflexivity|].
    apply mt_prefix. exists x, (n ++ g ++ PATH ++ y ++ [41]). split; [reflexivity|]. split; [exact O|]. apply mt_name. exists n, g, (PATH ++ y ++ [41]). split; [reflexivity|].
    split; [exact In|]. split; [exact G|]. apply mt_lit. exists (y ++ [41]). split; [reflexivity|]. apply mt_suffix. exists y. auto.
Qed.
Lemma mt_paren_unnamed a mid rest cap cap' : mt PARENTHESIZED_IMPORT_UNNAMED_OS_RE (last_char None a) mid rest cap cap' <->
  word_end word a /\ exists x y, mid = s2t "import (" ++ x ++ PATH ++ y ++ [41] /\ open_text x /\ open_text y /\ cap' = cap.
Proof.
  unfold PARENTHESIZED_IMPORT_UNNAMED_OS_RE. rewrite mt_import. unfold none. split; (intros [W H]; split; [exact W|]).
  - destruct H as [mid' [-> M]]. apply mt_prefix in M as [x [m1 [-> [O M]]]]. 
    apply mt_lit in M as [m3 [-> M]]. apply mt_suffix in M as [y [-> [Oy ->]]]. exists x, y. split; [reflexivity|]. auto.
  - destruct H as [x [y [-> [O [Oy ->]]]]]. exists ([40] ++ x ++ PATH ++ y ++ [41]). split; [reflexivity|].
    apply mt_prefix. exists x, (PATH ++ y ++ [41]). split; [reflexivity|]. split; [exact O|]. 
    apply mt_lit. exists (y ++ [41]). split; [reflexivity|]. apply mt_suffix. exists y. auto.
Qed.
End L.
