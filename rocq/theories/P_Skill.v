(** The skill: C43, C44. *)
From Verif Require Import Base M_Text M_Span M_Run M_Skill.

(** ** Specification *)
Section Spec.
Context {V : Type} (yaml : text -> option header) (semver : text -> option V) (vcmp : V -> V -> comparison)
        (vshow : V -> text) (pshow : path -> text) (builtin : text) (bv : V).

(** [contents] is a skill named necessist-audit of version [v]: its first line is "---", the lines up to the
    next "---" are YAML with that name and that version. *)
Definition skill_of_version (contents : text) (v : V) : Prop :=
  exists hs rest h t,
    lines contents = s2t "---" :: hs ++ s2t "---" :: rest /\ ~ In (s2t "---") hs /\
    yaml (concat (map (fun l => l ++ [NL]) hs)) = Some h /\
    h_name h = Some (s2t "necessist-audit") /\ h_version h = Some t /\ semver t = Some v.

(** The four ways a file can stand, and the fifth: it is something else. *)
Inductive standing := Missing | Outdated (v : V) | UpToDate | Ahead (v : V) | Foreign.
Definition stands (file : option text) (s : standing) : Prop :=
  match s with
  | Missing => file = None
  | Outdated v => exists c, file = Some c /\ skill_of_version c v /\ vcmp bv v = Gt
  | UpToDate => exists c v, file = Some c /\ skill_of_version c v /\ vcmp bv v = Eq
  | Ahead v => exists c, file = Some c /\ skill_of_version c v /\ vcmp bv v = Lt
  | Foreign => exists c, file = Some c /\ forall v, ~ skill_of_version c v
  end.

(** The system calls work for [p]. *)
Definition works (y : sys) (p : path) : Prop :=
  y_stat y p = true /\ y_read y p = true /\ y_mkdir y p = true /\ y_write y p = None.

(** ** The header *)
Lemma take_header_spec l : (exists rest, l = take_header l ++ DASHES :: rest) \/ (l = take_header l).
Proof.
  induction l as [|x l IH]; simpl; [right; reflexivity|]. destruct (text_eqb x DASHES) eqn:E.
  - apply text_eqb_eq in E. subst x. left. exists l. reflexivity.
  - destruct IH as [[r H]|H]; [left; exists r; simpl; congruence|right; congruence].
Qed.
Lemma take_header_not l : ~ In DASHES (take_header l).
Proof.
  induction l as [|x l IH]; simpl; [tauto|]. destruct (text_eqb x DASHES) eqn:E; [simpl; tauto|].
  apply text_eqb_neq in E. simpl. intros [X|X]; [congruence|contradiction].
Qed.
Lemma take_header_app hs rest : ~ In DASHES hs -> take_header (hs ++ DASHES :: rest) = hs.
Proof.
  induction hs as [|x hs IH]; intros N; simpl; [reflexivity|].
  destruct (text_eqb x DASHES) eqn:E; [apply text_eqb_eq in E; subst x; destruct N; left; reflexivity|].
  f_equal. apply IH. intros I. apply N. right. exact I.
Qed.

Lemma skill_header_spec contents h :
  skill_header yaml contents = Ok h <->
  exists hs rest, lines contents = DASHES :: hs ++ DASHES :: rest /\ ~ In DASHES hs /\
    yaml (concat (map (fun l => l ++ [NL]) hs)) = Some h.
Proof.
  unfold skill_header. destruct (lines contents) as [|first rest].
  - split; [discriminate|]. intros [hs [r [E _]]]. discriminate.
  - destruct (text_eqb first DASHES) eqn:E.
    + apply text_eqb_eq in E. subst first. split.
      * destruct (take_header_spec rest) as [[r Er]|Er].
        -- assert (X : nth_error rest (length (take_header rest)) = Some DASHES).
           { rewrite Er at 1. rewrite nth_error_app2, Nat.sub_diag by lia. reflexivity. }
           rewrite X, text_eqb_refl. destruct (yaml _) as [h'|] eqn:Y; [|discriminate].
           intros H. injection H as ->. exists (take_header rest), r.
           split; [rewrite <- Er; reflexivity|]. split; [apply take_header_not|exact Y].
        -- assert (X : nth_error rest (length (take_header rest)) = None).
           { apply nth_error_None. rewrite <- Er. lia. }
           rewrite X. discriminate.
      * intros [hs [r [Q [N Y]]]]. injection Q as ->. rewrite (take_header_app hs r N).
        rewrite nth_error_app2, Nat.sub_diag by lia. simpl nth_error. cbv iota beta. rewrite text_eqb_refl, Y. reflexivity.
    + split; [discriminate|]. intros [hs [r [Q _]]]. injection Q as -> _. rewrite text_eqb_refl in E. discriminate.
Qed.

Lemma skill_header_no_panic contents : skill_header yaml contents <> Panic.
Proof.
  unfold skill_header. destruct (lines contents); [discriminate|]. destruct (text_eqb _ _); [|discriminate].
  destruct (nth_error _ _); [|discriminate]. destruct (text_eqb _ _); [|discriminate]. destruct (yaml _); discriminate.
Qed.

(** What [check_impl] finds out about a file's contents. *)
Definition recognized (contents : text) : option V :=
  match skill_header yaml contents with
  | Ok h => match h_name h with
            | Some n => if text_eqb n SKILL_NAME then match h_version h with Some t => semver t | None => None end else None
            | None => None
            end
  | _ => None
  end.

Lemma recognized_spec contents v : recognized contents = Some v <-> skill_of_version contents v.
Proof.
  unfold recognized, skill_of_version. split.
  - destruct (skill_header yaml contents) as [h| |] eqn:H; try discriminate.
    destruct (h_name h) as [n|] eqn:N; [|discriminate]. destruct (text_eqb n SKILL_NAME) eqn:E; [|discriminate].
    apply text_eqb_eq in E. subst n. destruct (h_version h) as [t|] eqn:T; [|discriminate]. intros S.
    apply skill_header_spec in H as [hs [rest [L [NI Y]]]]. exists hs, rest, h, t. auto 10.
  - intros [hs [rest [h [t [L [NI [Y [N [T S]]]]]]]]].
    assert (H : skill_header yaml contents = Ok h) by (apply skill_header_spec; exists hs, rest; auto).
    rewrite H, N, T. change (s2t "necessist-audit") with SKILL_NAME. rewrite text_eqb_refl. exact S.
Qed.

Lemma stands_total file : exists s, stands file s.
Proof.
  destruct file as [c|]; [|exists Missing; reflexivity].
  destruct (recognized c) as [v|] eqn:R.
  - apply recognized_spec in R. destruct (vcmp bv v) eqn:C.
    + exists UpToDate, c, v. auto.
    + exists (Ahead v), c. auto.
    + exists (Outdated v), c. auto.
  - exists Foreign, c. split; [reflexivity|]. intros v H. apply recognized_spec in H. congruence.
Qed.

Lemma skill_version_fun c v v' : skill_of_version c v -> skill_of_version c v' -> v = v'.
Proof. intros A B. apply recognized_spec in A. apply recognized_spec in B. congruence. Qed.

Lemma stands_fun file s s' : stands file s -> stands file s' -> s = s'.
Proof.
  assert (F := skill_version_fun).
  destruct s, s'; simpl; intros A B; try reflexivity;
    repeat match goal with
           | H : ex _ |- _ => destruct H
           | H : _ /\ _ |- _ => destruct H
           end; subst; try congruence;
    try (match goal with H : Some ?c = Some ?d |- _ => injection H as <- end);
    try (match goal with H : skill_of_version ?c ?v, H' : skill_of_version ?c ?v' |- _ => pose proof (F _ _ _ H H'); congruence end);
    try (match goal with H : skill_of_version _ ?v, H' : forall v, ~ _ |- _ => destruct (H' v H) end).
Qed.

(** [check_impl] in the terms of the specification. *)
Lemma check_impl_cases y f m p w :
  let r := check_impl yaml semver vcmp vshow pshow builtin bv y f m p w in
  (fst (fst r) = f \/
   (w = true /\ fst (fst r) = fst (write y f p builtin) /\ 
     ((m = Check /\ stands (f (y_real y p)) Missing) \/ exists v, stands (f (y_real y p)) (Outdated v)))) /\
  snd r <> Panic /\
  (forall st, snd r = Ok st ->
     match st with
     | Nonexistent => stands (f (y_real y p)) Missing /\ fst (fst r) = f /\ (m = Check -> w = false)
     | Old => (exists v, stands (f (y_real y p)) (Outdated v)) /\ w = false /\ fst (fst r) = f
     | Current => (stands (f (y_real y p)) UpToDate /\ fst (fst r) = f) \/
                  (((m = Check /\ stands (f (y_real y p)) Missing) \/ exists v, stands (f (y_real y p)) (Outdated v)) /\ w = true /\
                   fst (fst r) = set_file f (y_real y p) (Some builtin))
     | Newer => (exists v, stands (f (y_real y p)) (Ahead v)) /\ fst (fst r) = f
     end) /\
  (works y p -> (forall c, f (y_real y p) = Some c -> exists v, skill_of_version c v) -> exists st, snd r = Ok st) /\
  (stands (f (y_real y p)) Foreign -> fst (fst r) = f /\ exists e, snd r = Err e).
Proof.
  destruct (stands_total (f (y_real y p))) as [s S].
  assert (NF : forall s', stands (f (y_real y p)) s' -> s' = s) by (intros s' S'; exact (stands_fun _ _ _ S' S)).
  unfold check_impl. destruct (y_stat y p) eqn:ST; cbn [negb].
  2:{ cbn -[stands]. split; [left; reflexivity|]. split; [discriminate|]. split; [intros st X; discriminate|].
      split; [intros [W _]; congruence|]. intros _. split; [reflexivity|eauto]. }
  destruct (f (y_real y p)) as [c|] eqn:F.
  - destruct (y_read y p) eqn:RD; cbn [negb].
    2:{ cbn -[stands]. split; [left; reflexivity|]. split; [discriminate|]. split; [intros st X; discriminate|].
        split; [intros [_ [W _]]; congruence|]. intros _. split; [reflexivity|eauto]. }
    destruct (recognized c) as [v|] eqn:R.
    + pose proof R as R0. unfold recognized in R0.
      destruct (skill_header yaml c) as [h| |]; try discriminate. destruct (h_name h) as [n|]; [|discriminate].
      destruct (text_eqb n SKILL_NAME); [|discriminate]. cbn [negb]. unfold skill_version.
      destruct (h_version h) as [t|]; [|discriminate]. rewrite R0. apply recognized_spec in R.
      destruct (vcmp bv v) eqn:C.
      * assert (U : stands (Some c) UpToDate) by (exists c, v; auto).
        cbn -[stands]. split; [left; reflexivity|]. split; [discriminate|]. split; [intros st X; injection X as <-; left; auto|].
        split; [intros _ _; eexists; reflexivity|]. intros X. pose proof (NF _ X). pose proof (NF _ U). congruence.
      * assert (U : stands (Some c) (Ahead v)) by (exists c; auto).
        cbn -[stands]. split; [left; reflexivity|]. split; [discriminate|]. split; [intros st X; injection X as <-; eauto|].
        split; [intros _ _; eexists; reflexivity|]. intros X. pose proof (NF _ X). pose proof (NF _ U). congruence.
      * assert (U : stands (Some c) (Outdated v)) by (exists c; auto).
        unfold maybe_update_skill, write. destruct w.
        -- destruct (y_write y p) as [junk|] eqn:WR; cbn -[stands].
           ++ split; [right; split; [reflexivity|]; split; [reflexivity|]; right; exists v; exact U|]. split; [discriminate|]. split; [intros st X; discriminate|].
              split; [intros [_ [_ [_ W]]]; congruence|]. intros X. pose proof (NF _ X). pose proof (NF _ U). congruence.
           ++ split; [right; split; [reflexivity|]; split; [reflexivity|]; right; exists v; exact U|]. split; [discriminate|].
              split; [intros st X; injection X as <-; right; split; [right; exists v; exact U|]; auto|].
              split; [intros _ _; eexists; reflexivity|]. intros X. pose proof (NF _ X). pose proof (NF _ U). congruence.
        -- cbn -[stands]. split; [left; reflexivity|]. split; [discriminate|].
           split; [intros st X; injection X as <-; split; [exists v; exact U|]; auto|].
           split; [intros _ _; eexists; reflexivity|]. intros X. pose proof (NF _ X). pose proof (NF _ U). congruence.
    + assert (U : exists e, (match skill_header yaml c with
           | Err e => (f, [] : list text, Err e) | Panic => (f, [], Panic)
           | Ok h => match h_name h with
             | None => (f, [], Err NoName)
             | Some n => if negb (text_eqb n SKILL_NAME) then (f, [], Err WrongName) else
               match skill_version semver h with
               | Err e => (f, [], Err e) | Panic => (f, [], Panic)
               | Ok v => match vcmp bv v with
                 | Lt => (f, [(s2t "skill at `" ++ pshow p ++ s2t "` ") ++ s2t "is a newer version (" ++ vshow v ++ s2t "); consider updating the `necessist` binary"], Ok Newer)
                 | Eq => (f, [(s2t "skill at `" ++ pshow p ++ s2t "` ") ++ s2t "is the current version"], Ok Current)
                 | Gt => match maybe_update_skill builtin y f p w with
                   | (f', Ok (st, updated)) =>
                     (f', [(s2t "skill at `" ++ pshow p ++ s2t "` ") ++ (if updated then s2t "was" else s2t "is") ++ s2t " an old version (" ++ vshow v ++ s2t "); "
                       ++ (if updated then s2t "updated" else s2t "pass `--write` to update to the current version")], Ok st)
                   | (f', Err e) => (f', [], Err e)
                   | (f', Panic) => (f', [], Panic)
                   end
                 end
               end
             end
           end : files * list text * res skill_error status) = (f, [], Err e)).
      { unfold recognized in R. destruct (skill_header yaml c) as [h|e|] eqn:H; [|eauto|destruct (skill_header_no_panic c H)].
        destruct (h_name h) as [n|]; [|eauto]. destruct (text_eqb n SKILL_NAME); cbn [negb]; [|eauto].
        unfold skill_version. destruct (h_version h) as [t|]; [|eauto]. rewrite R. eauto. }
      destruct U as [e ->]. cbn -[stands]. split; [left; reflexivity|]. split; [discriminate|]. split; [intros st X; discriminate|].
      split; [|intros _; split; [reflexivity|eauto]]. intros _ X. destruct (X c eq_refl) as [v Y]. apply recognized_spec in Y. congruence.
  - assert (U : stands None Missing) by reflexivity.
    destruct m.
    + unfold maybe_write_skill, write. destruct w.
      * destruct (y_mkdir y p) eqn:MK; cbn [negb].
        2:{ cbn -[stands]. split; [left; reflexivity|]. split; [discriminate|]. split; [intros st X; discriminate|].
            split; [intros [_ [_ [W _]]]; congruence|]. intros X. pose proof (NF _ X). pose proof (NF _ U). congruence. }
        destruct (y_write y p) as [junk|] eqn:WR; cbn -[stands].
        -- split; [right; auto|]. split; [discriminate|]. split; [intros st X; discriminate|].
           split; [intros [_ [_ [_ W]]]; congruence|]. intros X. pose proof (NF _ X). pose proof (NF _ U). congruence.
        -- split; [right; auto|]. split; [discriminate|]. split; [intros st X; injection X as <-; right; auto|].
           split; [intros _ _; eexists; reflexivity|]. intros X. pose proof (NF _ X). pose proof (NF _ U). congruence.
      * cbn -[stands]. split; [left; reflexivity|]. split; [discriminate|]. split; [intros st X; injection X as <-; auto|].
        split; [intros _ _; eexists; reflexivity|]. intros X. pose proof (NF _ X). pose proof (NF _ U). congruence.
    + cbn -[stands]. split; [left; reflexivity|]. split; [discriminate|].
      split; [intros st X; injection X as <-; split; [exact U|]; split; [reflexivity|discriminate]|].
      split; [intros _ _; eexists; reflexivity|]. intros X. pose proof (NF _ X). pose proof (NF _ U). congruence.
Qed.

(** ** C43 *)

(** What should be reported, and what the file should hold afterwards. *)
Definition report (w : bool) (s : standing) : option status :=
  match s with
  | Missing => Some (if w then Current else Nonexistent)
  | Outdated _ => Some (if w then Current else Old)
  | UpToDate => Some Current
  | Ahead _ => Some Newer
  | Foreign => None
  end.
Definition outcome_file (w : bool) (s : standing) (old : option text) : option text :=
  match s with
  | Missing | Outdated _ => if w then Some builtin else old
  | UpToDate | Ahead _ | Foreign => old
  end.

Notation run_check y f m p w := (check_impl yaml semver vcmp vshow pshow builtin bv y f m p w).

Lemma set_file_same f p t : set_file f p t p = t.
Proof. unfold set_file, path_eqb. destruct (list_eq_dec (list_eq_dec N.eq_dec) p p); congruence. Qed.
Lemma set_file_other f p t q : q <> p -> set_file f p t q = f q.
Proof. unfold set_file, path_eqb. destruct (list_eq_dec (list_eq_dec N.eq_dec) p q); congruence. Qed.

(** When the system calls work: the report and the effect are those specified, for every file. *)
Theorem C43_check : forall y f p w s, works y p -> stands (f (y_real y p)) s ->
  let r := run_check y f Check p w in
  (forall q, fst (fst r) q = if path_eqb (y_real y p) q then outcome_file w s (f (y_real y p)) else f q) /\
  match report w s with
  | Some st => snd r = Ok st
  | None => exists e, snd r = Err e
  end.
Proof.
  intros y f p w s W S. cbv zeta.
  destruct (check_impl_cases y f Check p w) as [_ [_ [H [T Fo]]]]. cbv zeta in *.
  assert (Same : forall g : files, g = f -> forall q, g q = (if path_eqb (y_real y p) q then f (y_real y p) else f q)).
  { intros g -> q. unfold path_eqb. destruct (list_eq_dec (list_eq_dec N.eq_dec) _ _) as [<-|]; reflexivity. }
  assert (Set_ : forall g : files, g = set_file f (y_real y p) (Some builtin) ->
    forall q, g q = (if path_eqb (y_real y p) q then Some builtin else f q)) by (intros g -> q; reflexivity).
  assert (NF : forall s', stands (f (y_real y p)) s' -> s' = s) by (intros s' S'; exact (stands_fun _ _ _ S' S)).
  assert (K : s <> Foreign -> exists st, snd (run_check y f Check p w) = Ok st).
  { intros N. apply T; [exact W|]. intros c E. destruct (recognized c) as [v|] eqn:R; [exists v; apply recognized_spec, R|].
    exfalso. apply N. symmetry. apply NF. exists c. split; [exact E|]. intros v X. apply recognized_spec in X. congruence. }
  destruct s as [|v| |v|]; cbn [outcome_file report]; try (destruct (K ltac:(discriminate)) as [st E]; specialize (H st E)).
  - destruct st.
    + destruct H as [_ [E' X]]. specialize (X eq_refl). subst w. split; [apply Same, E'|exact E].
    + destruct H as [[v X] _]. apply NF in X. discriminate.
    + destruct H as [[X _]|[_ [-> E']]]; [apply NF in X; discriminate|]. split; [apply Set_, E'|exact E].
    + destruct H as [[v X] _]. apply NF in X. discriminate.
  - destruct st.
    + destruct H as [X _]. apply NF in X. discriminate.
    + destruct H as [_ [-> E']]. split; [apply Same, E'|exact E].
    + destruct H as [[X _]|[_ [-> E']]]; [apply NF in X; discriminate|]. split; [apply Set_, E'|exact E].
    + destruct H as [[v' X] _]. apply NF in X. discriminate.
  - destruct st.
    + destruct H as [X _]. apply NF in X. discriminate.
    + destruct H as [[v X] _]. apply NF in X. discriminate.
    + destruct H as [[_ E']|[[[_ X]|[v X]] _]]; [split; [apply Same, E'|exact E]| |]; apply NF in X; discriminate.
    + destruct H as [[v X] _]. apply NF in X. discriminate.
  - destruct st.
    + destruct H as [X _]. apply NF in X. discriminate.
    + destruct H as [[v' X] _]. apply NF in X. discriminate.
    + destruct H as [[X _]|[[[_ X]|[v' X]] _]]; apply NF in X; discriminate.
    + destruct H as [_ E']. split; [apply Same, E'|exact E].
  - destruct (Fo S) as [E' X]. split; [apply Same, E'|exact X].
Qed.

(** Whatever the system calls do: nothing changes without --write; at most the named file changes, and only if it was missing
    or outdated; a reported status is the true one. *)
Theorem C43_safe : forall y f p w s, stands (f (y_real y p)) s ->
  let r := run_check y f Check p w in
  (w = false -> fst (fst r) = f) /\
  (forall q, q <> y_real y p -> fst (fst r) q = f q) /\
  (fst (fst r) (y_real y p) <> f (y_real y p) -> s = Missing \/ exists v, s = Outdated v) /\
  (forall st, snd r = Ok st -> report w s = Some st /\ fst (fst r) (y_real y p) = outcome_file w s (f (y_real y p))) /\
  snd r <> Panic.
Proof.
  intros y f p w s S. cbv zeta.
  destruct (check_impl_cases y f Check p w) as [A [P [H [T Fo]]]]. cbv zeta in *.
  assert (NF : forall s', stands (f (y_real y p)) s' -> s' = s) by (intros s' S'; exact (stands_fun _ _ _ S' S)).
  split; [intros ->; destruct A as [A|[X _]]; [exact A|discriminate]|].
  split; [|split; [|split; [|exact P]]].
  - intros q N. destruct A as [->|[_ [-> _]]]; [reflexivity|]. unfold write.
    destruct (y_write y p); simpl; apply set_file_other; exact N.
  - intros N. destruct A as [A|[_ [_ [[_ X]|[v X]]]]]; [rewrite A in N; congruence| |]; apply NF in X; subst s; eauto.
  - intros st E. specialize (H st E). destruct st.
    + destruct H as [X [E' Y]]. apply NF in X. subst s. specialize (Y eq_refl). subst w. rewrite E'. split; reflexivity.
    + destruct H as [[v X] [-> E']]. apply NF in X. subst s. rewrite E'. split; reflexivity.
    + destruct H as [[X E']|[X [-> E']]].
      * apply NF in X. subst s. rewrite E'. split; reflexivity.
      * rewrite E', set_file_same. destruct X as [[_ X]|[v X]]; apply NF in X; subst s; split; reflexivity.
    + destruct H as [[v X] E']. apply NF in X. subst s. rewrite E'. split; reflexivity.
Qed.

(** Provided the built-in skill is a skill of the built-in version, what --write leaves behind is accepted afterwards, and left alone. *)
Theorem C43_write_then_check : forall y y' f p w,
  skill_of_version builtin bv -> vcmp bv bv = Eq -> works y p -> works y' p -> y_real y' p = y_real y p ->
  forall st, snd (run_check y f Check p true) = Ok st ->
  let f' := fst (fst (run_check y f Check p true)) in
  snd (run_check y' f' Check p w) = Ok st /\ exit_success st = true /\ forall q, fst (fst (run_check y' f' Check p w)) q = f' q.
Proof.
  intros y y' f p w B R W W' Y st E. cbv zeta.
  destruct (stands_total (f (y_real y p))) as [s S].
  destruct (C43_check y f p true s W S) as [F1 R1].
  set (f' := fst (fst (run_check y f Check p true))) in *.
  assert (FP : f' (y_real y p) = outcome_file true s (f (y_real y p))).
  { rewrite F1. unfold path_eqb. destruct (list_eq_dec (list_eq_dec N.eq_dec) _ _); congruence. }
  assert (G : forall s', report true s = Some st -> stands (f' (y_real y' p)) s' -> report w s' = Some st -> outcome_file w s' (f' (y_real y' p)) = f' (y_real y' p) ->
     exit_success st = true ->
     snd (run_check y' f' Check p w) = Ok st /\ exit_success st = true /\ forall q, fst (fst (run_check y' f' Check p w)) q = f' q).
  { intros s' _ S' R' O X. destruct (C43_check y' f' p w s' W' S') as [F2 R2]. rewrite R' in R2.
    split; [exact R2|]. split; [exact X|]. intros q. rewrite F2, O. unfold path_eqb. destruct (list_eq_dec (list_eq_dec N.eq_dec) _ q) as [<-|]; reflexivity. }
  rewrite Y in G.
  assert (UB : stands (Some builtin) UpToDate) by (exists builtin, bv; auto).
  destruct s as [|v| |v|]; cbn [report outcome_file] in R1, FP.
  - rewrite R1 in E. injection E as <-. apply (G UpToDate); try reflexivity. rewrite FP. exact UB.
  - rewrite R1 in E. injection E as <-. apply (G UpToDate); try reflexivity. rewrite FP. exact UB.
  - rewrite R1 in E. injection E as <-. apply (G UpToDate); try reflexivity. rewrite FP. exact S.
  - rewrite R1 in E. injection E as <-. apply (G (Ahead v)); try reflexivity. rewrite FP. exact S.
  - destruct R1 as [e X]. congruence.
Qed.

(** One line is printed for an answer, none for an error. *)
Theorem C43_one_line : forall y f m p w, let r := run_check y f m p w in
  length (snd (fst r)) = match snd r with Ok _ => 1 | _ => 0 end.
Proof.
  intros y f m p w. cbv zeta. unfold check_impl, maybe_write_skill, maybe_update_skill, write.
  repeat match goal with
         | |- context [if negb ?b then _ else _] => destruct b; cbn [negb]; try reflexivity
         | |- context [match ?x with _ => _ end] => destruct x; try reflexivity
         end.
Qed.

(** What the line says. *)
Definition phrase (m : mode) (w : bool) (s : standing) : option text :=
  match s, w with
  | Missing, _ => Some (match m, w with Find, _ => s2t "does not exist" | Check, true => s2t "did not exist; written"
                        | Check, false => s2t "does not exist; pass `--write` to write the current version" end)
  | Outdated v, true => Some (s2t "was an old version (" ++ vshow v ++ s2t "); updated")
  | Outdated v, false => Some (s2t "is an old version (" ++ vshow v ++ s2t "); pass `--write` to update to the current version")
  | UpToDate, _ => Some (s2t "is the current version")
  | Ahead v, _ => Some (s2t "is a newer version (" ++ vshow v ++ s2t "); consider updating the `necessist` binary")
  | Foreign, _ => None
  end.
Theorem C43_message : forall y f m p w s, works y p -> stands (f (y_real y p)) s ->
  snd (fst (run_check y f m p w)) = match phrase m w s with Some t => [s2t "skill at `" ++ pshow p ++ s2t "` " ++ t] | None => [] end.
Proof.
  intros y f m p w s W S1. pose proof (check_impl_cases y f m p w) as (_ & _ & _ & _ & R). pose proof (C43_one_line y f m p w) as L. cbv zeta in *.
  destruct s as [|v| |v|].
  5: { destruct (R S1) as [_ [e R']]. rewrite R' in L. cbn [phrase]. destruct (snd (fst (run_check y f m p w))); [reflexivity|discriminate]. }
  all: clear R L; destruct W as (W1 & W2 & W3 & W4); unfold check_impl; rewrite W1; cbn [negb stands] in *.
  - rewrite S1. unfold maybe_write_skill, write. rewrite W3, W4. cbn [negb]. destruct m, w; cbn [snd fst phrase]; rewrite <- ?app_assoc; reflexivity.
  - destruct S1 as (c & F & R & C). rewrite F, W2. cbn [negb]. apply recognized_spec in R. unfold recognized in R.
    destruct (skill_header yaml c) as [h| |]; try discriminate. destruct (h_name h) as [n|]; [|discriminate]. destruct (text_eqb n SKILL_NAME); [|discriminate]. cbn [negb].
    unfold skill_version. destruct (h_version h) as [t|]; [|discriminate]. rewrite R, C. unfold maybe_update_skill, write. rewrite W4.
    destruct w; cbn [snd fst phrase]; rewrite <- ?app_assoc; reflexivity.
  - destruct S1 as (c & v & F & R & C). rewrite F, W2. cbn [negb]. apply recognized_spec in R. unfold recognized in R.
    destruct (skill_header yaml c) as [h| |]; try discriminate. destruct (h_name h) as [n|]; [|discriminate]. destruct (text_eqb n SKILL_NAME); [|discriminate]. cbn [negb].
    unfold skill_version. destruct (h_version h) as [t|]; [|discriminate]. rewrite R, C. destruct w; cbn [snd fst phrase]; rewrite <- ?app_assoc; reflexivity.
  - destruct S1 as (c & F & R & C). rewrite F, W2. cbn [negb]. apply recognized_spec in R. unfold recognized in R.
    destruct (skill_header yaml c) as [h| |]; try discriminate. destruct (h_name h) as [n|]; [|discriminate]. destruct (text_eqb n SKILL_NAME); [|discriminate]. cbn [negb].
    unfold skill_version. destruct (h_version h) as [t|]; [|discriminate]. rewrite R, C. destruct w; cbn [snd fst phrase]; rewrite <- ?app_assoc; reflexivity.
Qed.

(** --check-skill warns, on standard error, about a place where --find-skill does not look; otherwise it is the check above. There is no
    warning if the home directory is not known. *)
Definition well_known (h p : path) : Prop :=
  exists d, In d [s2t ".claude"; s2t ".codex"] /\ p = h ++ [d; s2t "skills"; s2t "necessist-audit"; s2t "SKILL.md"].
Theorem C43_warning : forall y f home p w,
  let c := M_Skill.check yaml semver vcmp vshow pshow builtin bv y f home p w in
  (fst (fst (fst c)), snd (fst (fst c)), snd c) = run_check y f Check p w /\
  ((exists h, home = Some h /\ ~ well_known h p) ->
   snd (fst c) = [s2t "Warning: `" ++ pshow p ++ s2t "` is not a path that `--find-skill` checks"]) /\
  (home = None \/ (exists h, home = Some h /\ well_known h p) -> snd (fst c) = []).
Proof.
  intros y f home p w. cbv zeta. unfold M_Skill.check. destruct (run_check y f Check p w) as [[f' out] r] eqn:R. cbn [fst snd].
  assert (X : forall h, existsb (path_eqb p) (well_known_paths h) = true <-> well_known h p).
  { intros h. rewrite existsb_exists. split.
    - intros (q & Hq & He). unfold path_eqb in He. destruct (list_eq_dec (list_eq_dec N.eq_dec) p q) as [->|]; [|discriminate].
      destruct Hq as [<-|[<-|[]]]; eexists; (split; [|reflexivity]); cbn [In]; auto.
    - intros (d & Hd & ->). eexists. split; [|unfold path_eqb; destruct (list_eq_dec (list_eq_dec N.eq_dec) _ _) as [_|N]; [reflexivity|destruct (N eq_refl)]].
      destruct Hd as [<-|[<-|[]]]; unfold well_known_paths; [left|right; left]; reflexivity. }
  split; [reflexivity|]. split.
  - intros (h & -> & N). destruct (existsb (path_eqb p) (well_known_paths h)) eqn:W; [destruct (N (proj1 (X h) W))|reflexivity].
  - intros [->|(h & -> & W)]; [reflexivity|]. apply X in W. rewrite W. reflexivity.
Qed.

(** ** C44 *)
Notation run_find y f home w := (M_Skill.find yaml semver vcmp vshow pshow builtin bv y f home w).
Notation loop y f st ps w := (find_loop yaml semver vcmp vshow pshow builtin bv y f st ps w).

(** The skill at this place is installed and needs no update. *)
Definition fine (file : option text) : Prop := stands file UpToDate \/ exists v, stands file (Ahead v).

Lemma check_find_change y f p w : 
  fst (fst (run_check y f Find p w)) = f \/
  (w = true /\ (exists v, stands (f (y_real y p)) (Outdated v)) /\ exists t, fst (fst (run_check y f Find p w)) = set_file f (y_real y p) t).
Proof.
  destruct (check_impl_cases y f Find p w) as [[A|[A [B [[C _]|C]]]] _]; cbv zeta in *; [left; exact A|discriminate|].
  right. split; [exact A|]. split; [exact C|]. rewrite B. unfold write. destruct (y_write y p); simpl; eauto.
Qed.

(** The loop's effects. *)
Lemma loop_change y w : forall ps f st q,
  fst (fst (loop y f st ps w)) q = f q \/ (w = true /\ f q <> None /\ exists p, In p ps /\ q = y_real y p).
Proof.
  induction ps as [|p ps IH]; intros f st q; simpl; [left; reflexivity|].
  assert (C := check_find_change y f p w).
  assert (D : fst (fst (run_check y f Find p w)) q = f q \/ (w = true /\ f q <> None /\ q = y_real y p)).
  { destruct C as [->|[-> [[v [c [F _]]] [t ->]]]]; [left; reflexivity|].
    destruct (list_eq_dec (list_eq_dec N.eq_dec) q (y_real y p)) as [->|N]; [right|left; apply set_file_other, N].
    rewrite F. split; [reflexivity|]. split; [discriminate|reflexivity]. }
  destruct (run_check y f Find p w) as [[f1 out] [st1|e|]]; simpl in *.
  - specialize (IH f1 (if exit_success st then st1 else st) q). destruct (loop y f1 _ ps w) as [[f2 out'] r]. simpl in *.
    destruct IH as [->|[-> [N [p' [I ->]]]]].
    + destruct D as [->|[A [B ->]]]; [left; reflexivity|right; eauto 8].
    + destruct D as [E|[A [B E]]]; right; split; try reflexivity.
      * rewrite <- E. split; [exact N|eauto].
      * split; [exact B|]. exists p'. auto.
  - destruct D as [->|[A [B ->]]]; [left; reflexivity|right; eauto 8].
  - destruct D as [->|[A [B ->]]]; [left; reflexivity|right; eauto 8].
Qed.

Lemma known_paths h p : In p (well_known_paths h) <-> well_known h p.
Proof.
  unfold well_known. cbn [well_known_paths In]. split.
  - intros [<-|[<-|[]]]; [exists (s2t ".claude")|exists (s2t ".codex")]; (split; [cbn [In]; auto|reflexivity]).
  - intros (d & [<-|[<-|[]]] & ->); auto.
Qed.
(** Finding changes only files at the well-known places, only with --write, and never creates one. *)
Theorem C44_no_creation : forall y f home w q,
  let f' := fst (fst (run_find y f home w)) in
  (w = false -> f' q = f q) /\
  (f q = None -> f' q = None) /\
  (f' q <> f q -> exists h p, home = Some h /\ well_known h p /\ q = y_real y p).
Proof.
  intros y f home w q. cbv zeta. destruct home as [h|]; simpl M_Skill.find; [|repeat split; auto; intros X; destruct (X eq_refl)].
  unfold find_impl. destruct (loop_change y w (well_known_paths h) f Current q) as [E|[E [N [p [I Q]]]]].
  - rewrite E. split; [reflexivity|]. split; [auto|]. intros X. destruct (X eq_refl).
  - split; [congruence|]. split; [congruence|]. intros _. exists h, p. rewrite <- known_paths. auto.
Qed.

(** A check that gives an answer leaves its place settled: the status says whether it is fine, and no later check changes it. *)
Definition settled (w : bool) (file : option text) : Prop := fine file \/ file = None \/ w = false.

Lemma check_settles y f p w st : skill_of_version builtin bv -> vcmp bv bv = Eq ->
  snd (run_check y f Find p w) = Ok st ->
  let f' := fst (fst (run_check y f Find p w)) in
  settled w (f' (y_real y p)) /\ (exit_success st = true <-> fine (f' (y_real y p))).
Proof.
  intros B R E. cbv zeta.
  destruct (check_impl_cases y f Find p w) as [_ [_ [H _]]]. cbv zeta in H. specialize (H st E).
  assert (NFine : forall file s, stands file s -> s <> UpToDate -> (forall v, s <> Ahead v) -> ~ fine file).
  { intros file s S N1 N2 [X|[v X]]; pose proof (stands_fun _ _ _ X S); subst s; [congruence|exact (N2 v eq_refl)]. }
  destruct st.
  - destruct H as [X [-> _]]. split; [right; left; exact X|]. split; [discriminate|]. intros Y.
    destruct (NFine _ _ X ltac:(discriminate) ltac:(discriminate) Y).
  - destruct H as [[v X] [-> ->]]. split; [right; right; reflexivity|]. split; [discriminate|]. intros Y.
    destruct (NFine _ _ X ltac:(discriminate) ltac:(discriminate) Y).
  - assert (Fi : fine (fst (fst (run_check y f Find p w)) (y_real y p))).
    { destruct H as [[X ->]|[_ [_ ->]]]; [left; exact X|]. rewrite set_file_same. left. exists builtin, bv. auto. }
    split; [left; exact Fi|]. split; auto.
  - destruct H as [[v X] ->]. assert (Fi : fine (f (y_real y p))) by (right; eauto). split; [left; exact Fi|]. split; auto.
Qed.

Lemma settled_stays y f p w q : settled w (f q) -> fst (fst (run_check y f Find p w)) q = f q.
Proof.
  intros S. destruct (check_find_change y f p w) as [->|[-> [[v O] [t ->]]]]; [reflexivity|].
  destruct (list_eq_dec (list_eq_dec N.eq_dec) q (y_real y p)) as [->|N]; [exfalso|apply set_file_other, N].
  destruct S as [[X|[v' X]]|[X|X]]; try discriminate.
  - pose proof (stands_fun _ _ _ X O). discriminate.
  - pose proof (stands_fun _ _ _ X O). discriminate.
  - destruct O as [c [E _]]. congruence.
Qed.

Lemma loop_settled y w : forall ps f st q, settled w (f q) -> fst (fst (loop y f st ps w)) q = f q.
Proof.
  induction ps as [|p ps IH]; intros f st q S; simpl; [reflexivity|].
  pose proof (settled_stays y f p w q S) as E.
  destruct (run_check y f Find p w) as [[f1 out] [st1|e|]]; simpl in *; try exact E.
  rewrite <- E in S. specialize (IH f1 (if exit_success st then st1 else st) q S).
  destruct (loop y f1 _ ps w) as [[f2 out'] r]. simpl in *. congruence.
Qed.

Lemma loop_status y w : skill_of_version builtin bv -> vcmp bv bv = Eq -> forall ps f st st',
  snd (loop y f st ps w) = Ok st' ->
  (exit_success st' = true <-> exit_success st = true /\ forall p, In p ps -> fine (fst (fst (loop y f st ps w)) (y_real y p))).
Proof.
  intros B R. induction ps as [|p ps IH]; intros f st st' E; simpl in *.
  - injection E as <-. split; [intros X; split; [exact X|tauto]|tauto].
  - pose proof (check_settles y f p w) as C.
    destruct (run_check y f Find p w) as [[f1 out] [st1|e|]]; simpl in *; try discriminate.
    destruct (C st1 B R eq_refl) as [S1 F1].
    pose proof (loop_settled y w ps f1 (if exit_success st then st1 else st) _ S1) as K.
    specialize (IH f1 (if exit_success st then st1 else st) st').
    destruct (loop y f1 (if exit_success st then st1 else st) ps w) as [[f2 out'] r]. simpl in *. specialize (IH E).
    rewrite IH. destruct (exit_success st) eqn:X.
    + split.
      * intros [H1 H2]. split; [reflexivity|]. intros p' [<-|I]; [rewrite K; apply F1, H1|apply H2, I].
      * intros [_ H]. split; [apply F1; rewrite <- K; apply H; left; reflexivity|]. intros p' I. apply H. right. exact I.
    + rewrite X. split; intros [H _]; discriminate.
Qed.

(** The exit status: success iff, when it is done, every well-known place holds a current or newer skill. *)
Theorem C44_exit_status : forall y f h w st, skill_of_version builtin bv -> vcmp bv bv = Eq ->
  snd (run_find y f (Some h) w) = Ok st ->
  (exit_success st = true <->
   forall p, well_known h p -> fine (fst (fst (run_find y f (Some h) w)) (y_real y p))).
Proof.
  intros y f h w st B R E. simpl M_Skill.find in *. unfold find_impl in *.
  rewrite (loop_status y w B R _ _ _ _ E). split; [intros [_ K] p Hp; apply K, known_paths, Hp|]. intros H. split; [reflexivity|]. intros p Hp. apply H, known_paths, Hp.
Qed.

(** With --write, and if the calls work and nothing there is foreign, every outdated skill gets updated. *)
Theorem C44_updates : forall y f h, (forall p, well_known h p -> works y p) ->
  (forall p c, well_known h p -> f (y_real y p) = Some c -> exists v, skill_of_version c v) ->
  skill_of_version builtin bv -> vcmp bv bv = Eq ->
  (exists st, snd (run_find y f (Some h) true) = Ok st) /\
  forall p, well_known h p -> f (y_real y p) <> None ->
    fine (fst (fst (run_find y f (Some h) true)) (y_real y p)).
Proof.
  intros y f h W NFo B R. setoid_rewrite <- known_paths in W. setoid_rewrite <- known_paths in NFo. setoid_rewrite <- known_paths. simpl M_Skill.find. unfold find_impl. generalize (well_known_paths h) W NFo. clear W NFo. intros ps.
  generalize Current. revert f. induction ps as [|p ps IH]; intros f st W NFo; [split; [eexists; reflexivity|intros p []]|].
  simpl. pose proof (check_impl_cases y f Find p true) as C. pose proof (check_settles y f p true) as Se. cbv zeta in *.
  destruct C as [_ [_ [C [T _]]]]. destruct (T (W p (or_introl eq_refl)) (fun c => NFo p c (or_introl eq_refl))) as [st1 E1].
  specialize (C st1 E1). specialize (Se st1 B R E1). pose proof (check_find_change y f p true) as Ch.
  destruct (run_check y f Find p true) as [[f1 out] r1]. simpl in *. subst r1.
  assert (FP : f (y_real y p) <> None -> fine (f1 (y_real y p))).
  { intros N. apply Se. destruct st1; try reflexivity; [destruct C as [X _]; contradiction|destruct C as [_ [X _]]; discriminate]. }
  assert (FQ : forall q, f1 q = f q \/ (q = y_real y p /\ f q <> None /\ f1 q = Some builtin)).
  { intros q. destruct Ch as [->|[_ [[v [c0 O]] [t ->]]]]; [left; reflexivity|].
    destruct (list_eq_dec (list_eq_dec N.eq_dec) q (y_real y p)) as [->|N]; [right|left; apply set_file_other, N].
    split; [reflexivity|]. split; [destruct O; congruence|]. 
    assert (O' : stands (f (y_real y p)) (Outdated v)) by (exists c0; exact O).
    destruct st1.
    - destruct C as [C1 C2]. destruct O; congruence.
    - destruct C as [_ [C2 _]]. discriminate.
    - destruct C as [[X _]|[_ [_ C2]]]; [pose proof (stands_fun _ UpToDate _ X O'); discriminate|]. rewrite C2. apply set_file_same.
    - destruct C as [[v' X] _]. pose proof (stands_fun _ (Ahead v') _ X O'). discriminate. }
  destruct (IH f1 (if exit_success st then st1 else st)) as [[st2 E2] H2].
  { intros p' I. apply W. right. exact I. }
  { intros p' c I E. destruct (FQ (y_real y p')) as [Q|[_ [_ Q]]]; rewrite Q in E.
    - exact (NFo p' c (or_intror I) E).
    - injection E as <-. exists bv. exact B. }
  pose proof (loop_settled y true ps f1 (if exit_success st then st1 else st) _ (proj1 Se)) as K.
  destruct (loop y f1 (if exit_success st then st1 else st) ps true) as [[f2 out'] r2]. simpl in *. subst r2.
  split; [eauto|]. intros p' [<-|I] N; [rewrite K; exact (FP N)|]. apply H2; [exact I|].
  destruct (FQ (y_real y p')) as [->|[_ [_ ->]]]; [exact N|discriminate].
Qed.

(** --find-skill prints one line for each well-known place, first that of Claude, then that of Codex, saying how the file there stands; it stops at a
    file that is not a necessist-audit skill. *)
Definition place_line (w : bool) (p : path) (s : standing) : list text :=
  match phrase Find w s with Some t => [s2t "skill at `" ++ pshow p ++ s2t "` " ++ t] | None => [] end.
Theorem C44_lines : forall y f h w s1 s2,
  let place d := h ++ [s2t d; s2t "skills"; s2t "necessist-audit"; s2t "SKILL.md"] in
  let claude := place ".claude"%string in let codex := place ".codex"%string in
  works y claude -> works y codex -> y_real y claude <> y_real y codex ->
  stands (f (y_real y claude)) s1 -> stands (f (y_real y codex)) s2 ->
  snd (fst (run_find y f (Some h) w)) = place_line w claude s1 ++ match s1 with Foreign => [] | _ => place_line w codex s2 end.
Proof.
  intros y f h w s1 s2 place claude codex W1 W2 NE S1 S2. unfold M_Skill.find, find_impl. cbn [well_known_paths find_loop]. fold claude codex.
  change (h ++ [s2t ".claude"; s2t "skills"; s2t "necessist-audit"; s2t "SKILL.md"]) with claude. change (h ++ [s2t ".codex"; s2t "skills"; s2t "necessist-audit"; s2t "SKILL.md"]) with codex.
  pose proof (C43_message y f Find claude w s1 W1 S1) as M1. pose proof (check_impl_cases y f Find claude w) as (_ & NP & OK & T & FO). cbv zeta in *. pose proof (check_find_change y f claude w) as Ch.
  fold (place_line w claude s1) in M1. destruct (run_check y f Find claude w) as [[f1 out] r1]. cbn [fst snd] in *. subst out.
  assert (S2' : stands (f1 (y_real y codex)) s2).
  { destruct Ch as [->|[_ [_ [t ->]]]]; [exact S2|]. rewrite set_file_other by congruence. exact S2. }
  destruct (r1) as [st|e|]; [| |congruence].
  - assert (NF : s1 <> Foreign) by (intros ->; destruct (FO S1) as [_ [e X]]; discriminate).
    pose proof (C43_message y f1 Find codex w s2 W2 S2') as M2. fold (place_line w codex s2) in M2. destruct (run_check y f1 Find codex w) as [[f2 out2] r2]. cbn [fst snd] in M2. subst out2.
    destruct r2; cbn [fst snd]; rewrite ?app_nil_r; destruct s1; try reflexivity; congruence.
  - destruct s1; cbn [fst snd]; rewrite ?app_nil_r; try reflexivity; exfalso.
    all: destruct (T W1) as [st X]; [|discriminate]; intros c F; cbn [stands] in S1; rewrite F in S1.
    + discriminate.
    + destruct S1 as (c' & X & R & _). injection X as <-. eauto.
    + destruct S1 as (c' & v & X & R & _). injection X as <-. eauto.
    + destruct S1 as (c' & X & R & _). injection X as <-. eauto.
Qed.

End Spec.
Print Assumptions C43_check.
Print Assumptions C43_safe.
Print Assumptions C43_write_then_check.
Print Assumptions C43_one_line.
Print Assumptions C43_message.
Print Assumptions C43_warning.
Print Assumptions C44_no_creation.
Print Assumptions C44_exit_status.
Print Assumptions C44_updates.
Print Assumptions C44_lines.

(** ** Examples: versions are numbers, a header's last line is the version *)
Definition ex_yaml (t : text) : option header :=
  match lines t with
  | [n; v] => Some (Header (Some n) (Some v))
  | _ => None
  end.
Definition ex_semver (t : text) : option nat := match t with [c] => Some (N.to_nat c - 48) | _ => None end.
Definition ex_skill (v : string) : text := s2t "---" ++ NL :: s2t "necessist-audit" ++ NL :: s2t v ++ NL :: s2t "---" ++ NL :: s2t "body".
Definition ex_sys : sys := Sys (fun p => p) (fun _ => true) (fun _ => true) (fun _ => true) (fun _ => None).
Definition ex_home : path := [s2t "h"].
Definition claude := nth 0 (well_known_paths ex_home) [].
Definition codex := nth 1 (well_known_paths ex_home) [].
Definition ex_files (a b : option text) : files := fun q => if path_eqb claude q then a else if path_eqb codex q then b else None.
Notation ex_check f p w := (check_impl ex_yaml ex_semver Nat.compare (fun _ => []) (fun _ => []) (ex_skill "5") 5 ex_sys f Check p w).
Notation ex_find f w := (M_Skill.find ex_yaml ex_semver Nat.compare (fun _ => []) (fun _ => []) (ex_skill "5") 5 ex_sys f (Some ex_home) w).

Example C43_nonvacuous :
  skill_of_version ex_yaml ex_semver (ex_skill "5") 5 /\ works ex_sys claude /\
  snd (ex_check (ex_files (Some (ex_skill "4")) None) claude false) = Ok Old /\
  snd (ex_check (ex_files (Some (ex_skill "4")) None) claude true) = Ok Current /\
  fst (fst (ex_check (ex_files (Some (ex_skill "4")) None) claude true)) claude = Some (ex_skill "5") /\
  snd (ex_check (ex_files (Some (ex_skill "9")) None) claude true) = Ok Newer /\
  fst (fst (ex_check (ex_files (Some (ex_skill "9")) None) claude true)) claude = Some (ex_skill "9") /\
  snd (ex_check (ex_files (Some (s2t "mine")) None) claude true) = Err NoLeading /\
  snd (ex_check (ex_files None None) claude false) = Ok Nonexistent.
Proof.
  split; [|split; [repeat split|]].
  - exists [s2t "necessist-audit"; s2t "5"], [s2t "body"], (Header (Some (s2t "necessist-audit")) (Some (s2t "5"))), (s2t "5").
    repeat split; try (vm_compute; reflexivity). intros [H|[H|[]]]; discriminate.
  - repeat split; vm_compute; reflexivity.
Qed.

Example C43_warning_nonvacuous : well_known ex_home claude /\ ~ well_known ex_home [s2t "h"; s2t "SKILL.md"].
Proof.
  split; [exists (s2t ".claude"); split; [left; reflexivity|reflexivity]|]. intros (d & _ & H). apply (f_equal (@length text)) in H. discriminate.
Qed.

(** The skill being installed, and current, in one of the well-known directories is not enough for success. *)
Theorem C44_one_directory_suffices_refuted : exists f st,
  stands ex_yaml ex_semver Nat.compare 5 (f claude) UpToDate /\ snd (ex_find f true) = Ok st /\ exit_success st = false.
Proof.
  exists (ex_files (Some (ex_skill "5")) None), Nonexistent. split; [|split; vm_compute; reflexivity].
  exists (ex_skill "5"), 5. split; [reflexivity|]. split; [apply C43_nonvacuous|reflexivity].
Qed.
Print Assumptions C44_one_directory_suffices_refuted.

(** A foreign file at the first place keeps an outdated skill at the second from being updated. *)
Theorem C44_all_outdated_updated_refuted : exists f e,
  (exists v, stands ex_yaml ex_semver Nat.compare 5 (f codex) (Outdated v)) /\
  snd (ex_find f true) = Err e /\ fst (fst (ex_find f true)) codex = f codex.
Proof.
  exists (ex_files (Some (s2t "mine")) (Some (ex_skill "4"))), NoLeading. split; [|split; vm_compute; reflexivity].
  exists 4, (ex_skill "4"). split; [reflexivity|]. split; [|reflexivity].
  exists [s2t "necessist-audit"; s2t "4"], [s2t "body"], (Header (Some (s2t "necessist-audit")) (Some (s2t "4"))), (s2t "4").
  repeat split; try (vm_compute; reflexivity). intros [H|[H|[]]]; discriminate.
Qed.
Print Assumptions C44_all_outdated_updated_refuted.

Example C44_nonvacuous :
  snd (ex_find (ex_files (Some (ex_skill "4")) (Some (ex_skill "9"))) true) = Ok Newer /\
  fst (fst (ex_find (ex_files (Some (ex_skill "4")) (Some (ex_skill "9"))) true)) claude = Some (ex_skill "5") /\
  snd (ex_find (ex_files None (Some (ex_skill "4"))) true) = Ok Nonexistent /\
  fst (fst (ex_find (ex_files None (Some (ex_skill "4"))) true)) claude = None /\
  fst (fst (ex_find (ex_files None (Some (ex_skill "4"))) true)) codex = Some (ex_skill "5") /\
  length (snd (fst (ex_find (ex_files (Some (ex_skill "4")) (Some (ex_skill "9"))) true))) = 2 /\
  y_real ex_sys claude <> y_real ex_sys codex.
Proof. repeat split; try (vm_compute; discriminate); vm_compute; reflexivity. Qed.
