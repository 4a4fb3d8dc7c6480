(** One invocation per root: C45. *)
From Verif Require Import Base M_Run M_Lock.

Lemma upd_same {A} (f : nat -> A) k v : upd f k v k = v.
Proof. unfold upd. rewrite Nat.eqb_refl. reflexivity. Qed.
Lemma upd_other {A} (f : nat -> A) k v x : x <> k -> upd f k v x = f x.
Proof. unfold upd. intros N. destruct (Nat.eqb_spec k x); congruence. Qed.

Section L.
Context (root_of : pid -> inode) (blocking : pid -> bool).
Notation step := (step root_of blocking).
Notation exec := (exec root_of blocking).

Definition inv (s : lsys) : Prop := forall r p, table s r = Some p <-> ps s p = Running /\ root_of p = r.

Lemma step_inv s e s' : inv s -> step s e s' -> inv s'.
Proof.
  intros I H. inversion H as [? p A F|? p q A B F|? p q A B F|? p f A|? p A]; subst; simpl; intros r x; simpl.
  - destruct (Nat.eq_dec x p) as [->|N].
    + rewrite upd_same. destruct (Nat.eq_dec r (root_of p)) as [->|M].
      * rewrite upd_same. tauto.
      * rewrite upd_other by exact M. split; [intros T; apply I in T as [X _]; destruct A; congruence|intros [_ X]; congruence].
    + rewrite (upd_other (ps s)) by exact N. destruct (Nat.eq_dec r (root_of p)) as [->|M].
      * rewrite upd_same. split; [congruence|]. intros X. apply I in X. congruence.
      * rewrite upd_other by exact M. apply I.
  - destruct (Nat.eq_dec x p) as [->|N]; [rewrite upd_same|rewrite upd_other by exact N; apply I].
    split; [intros T; apply I in T as [X _]; congruence|intros [X _]; discriminate].
  - destruct (Nat.eq_dec x p) as [->|N]; [rewrite upd_same|rewrite upd_other by exact N; apply I].
    split; [intros T; apply I in T as [X _]; congruence|intros [X _]; discriminate].
  - apply I.
  - assert (D : table s (root_of p) = Some p \/ table s (root_of p) <> Some p) by (destruct (table s (root_of p)) as [q|]; [destruct (Nat.eq_dec q p); [left|right]; congruence|right; discriminate]).
    destruct D as [D|D].
    + rewrite D, Nat.eqb_refl. destruct (Nat.eq_dec x p) as [->|N].
      * rewrite (upd_same (ps s)). split; [|intros [X _]; discriminate].
        destruct (Nat.eq_dec r (root_of p)) as [->|M]; [rewrite upd_same; discriminate|].
        rewrite upd_other by exact M. intros T. apply I in T as [_ X]. congruence.
      * rewrite (upd_other (ps s)) by exact N. destruct (Nat.eq_dec r (root_of p)) as [->|M].
        -- rewrite upd_same. split; [discriminate|]. intros X. apply I in X. congruence.
        -- rewrite upd_other by exact M. apply I.
    + assert (E : forall r0, (match table s (root_of p) with
                             | Some q => if Nat.eqb q p then upd (table s) (root_of p) None else table s
                             | None => table s end) r0 = table s r0).
      { intros r0. destruct (table s (root_of p)) as [q|]; [destruct (Nat.eqb_spec q p); [congruence|reflexivity]|reflexivity]. }
      rewrite E.
      destruct (Nat.eq_dec x p) as [->|N]; [rewrite upd_same|rewrite upd_other by exact N; apply I].
      split; [|intros [X _]; discriminate]. intros T. apply I in T as T'. destruct T' as [X <-]. congruence.
Qed.

Lemma inv_init : inv linit.
Proof. intros r p. split; [discriminate|]. intros [X _]. discriminate. Qed.

Lemma exec_inv s tr s' : exec s tr s' -> inv s -> inv s'.
Proof. induction 1; intros; eauto using step_inv. Qed.

(** At no moment have two live invocations on the same root passed the lock. *)
Theorem C45_exclusive : forall tr s p q, exec linit tr s ->
  ps s p = Running -> ps s q = Running -> root_of p = root_of q -> p = q.
Proof.
  intros tr s p q H P Q R. pose proof (exec_inv _ _ _ H inv_init) as I.
  assert (A : table s (root_of q) = Some p) by (apply I; auto).
  assert (B : table s (root_of q) = Some q) by (apply I; auto). congruence.
Qed.

(** [p] was running when it touched something; from then on it is running or gone. *)
Lemma exec_started s tr s' : exec s tr s' -> forall p f, In (p, f) tr -> ps s' p = Running \/ ps s' p = Gone.
Proof.
  assert (K : forall s e s', step s e s' -> forall p, ps s p = Running \/ ps s p = Gone -> ps s' p = Running \/ ps s' p = Gone).
  { intros s0 e s0' H p D. inversion H as [? x A F|? x q A B F|? x q A B F|? x f A|? x A]; subst; simpl; try exact D;
      (destruct (Nat.eq_dec p x) as [->|N]; [rewrite upd_same|rewrite upd_other by exact N; exact D]); auto.
    destruct D; congruence. }
  induction 1 as [s|s tr s1 s2 E IH H|s tr s1 e s2 E IH H]; intros p f I; [destruct I| |].
  - exact (K _ _ _ H p (IH p f I)).
  - apply in_app_iff in I as [I|[I|[]]]; [exact (K _ _ _ H p (IH p f I))|]. subst e.
    inversion H; subst. auto.
Qed.

Lemma exec_split s tr s' : exec s tr s' -> forall l r, tr = l ++ r -> exists m, exec s l m /\ exec m r s'.
Proof.
  induction 1 as [s|s tr s1 s2 E IH H|s tr s1 e s2 E IH H]; intros l r Q.
  - symmetry in Q. apply app_eq_nil in Q as [-> ->]. exists s. split; constructor.
  - destruct (IH l r Q) as [m [A B]]. exists m. split; [exact A|]. eapply e_silent; eauto.
  - destruct r as [|x r] using rev_ind.
    + rewrite app_nil_r in Q. subst l. exists s2. split; [eapply e_touch; eauto|constructor].
    + clear IHr. rewrite app_assoc in Q. apply app_inj_tail in Q as [Q ->]. destruct (IH l r Q) as [m [A B]].
      exists m. split; [exact A|]. eapply e_touch; eauto.
Qed.

Lemma gone_forever s tr s' : exec s tr s' -> forall p, ps s p = Gone -> ps s' p = Gone /\ forall f, ~ In (p, f) tr.
Proof.
  assert (K : forall s e s', step s e s' -> forall p, ps s p = Gone -> ps s' p = Gone /\ forall f, e <> Some (p, f)).
  { intros s0 e s0' H p D. inversion H as [? x A F|? x q A B F|? x q A B F|? x f A|? x A]; subst; simpl;
      (split; [|try (intros ? ?; discriminate); intros f0 X; injection X as -> ->; congruence]); try exact D;
      (destruct (Nat.eq_dec p x) as [->|N]; [|rewrite upd_other by exact N; exact D]); try congruence.
    destruct A; congruence. }
  induction 1 as [s|s tr s1 s2 E IH H|s tr s1 e s2 E IH H]; intros p D; [split; [exact D|simpl; tauto]| |].
  - destruct (IH p D) as [A B]. destruct (K _ _ _ H p A). auto.
  - destruct (IH p D) as [A B]. destruct (K _ _ _ H p A) as [C F]. split; [exact C|].
    intros f I. apply in_app_iff in I as [I|[->|[]]]; [exact (B f I)|exact (F f eq_refl)].
Qed.

(** The work of two invocations on the same root is never interleaved: once another has touched something, the first
    never touches anything again. *)
Theorem C45_no_interleaving : forall tr s before p f mid q g after, exec linit tr s ->
  tr = before ++ (p, f) :: mid ++ (q, g) :: after -> root_of p = root_of q -> p <> q ->
  forall h, ~ In (p, h) after.
Proof.
  intros tr s before p f mid q g after H Q R N h I.
  replace (before ++ (p, f) :: mid ++ (q, g) :: after) with ((before ++ (p, f) :: mid ++ [(q, g)]) ++ after) in Q
    by (rewrite <- app_assoc; simpl; rewrite <- app_assoc; reflexivity).
  destruct (exec_split _ _ _ H _ _ Q) as [m [A B]].
  replace (before ++ (p, f) :: mid ++ [(q, g)]) with ((before ++ (p, f) :: mid) ++ [(q, g)]) in A
    by (rewrite <- app_assoc; reflexivity).
  destruct (exec_split _ _ _ A _ _ eq_refl) as [m1 [A1 A2]].
  assert (X : exists m', exec linit (before ++ (p, f) :: mid) m' /\ ps m' q = Running /\ exec m' [(q, g)] m).
  { clear -A1 A2. remember [(q, g)] as t eqn:T. induction A2 as [s|s tr s1 s2 E IH H|s tr s1 e s2 E IH H]; [discriminate| |].
    - destruct (IH A1 T) as [m' [X [Y Z]]]. exists m'. split; [exact X|]. split; [exact Y|]. eapply e_silent; eauto.
    - destruct tr as [|? []]; [|discriminate|discriminate]. injection T as ->.
      exists s1. inversion H; subst. split; [|split; [assumption|]].
      + clear -A1 E. remember [] as t eqn:T. revert A1. induction E as [s|s tr s1 s2 E IH H|s tr s1 e s2 E IH H]; intros A1; [exact A1| |destruct tr; discriminate].
        eapply e_silent; [apply IH; auto|exact H].
      + apply (e_touch root_of blocking _ [] s2); [constructor|exact H]. }
  destruct X as [m' [X [RQ Z]]].
  destruct (exec_started _ _ _ X p f) as [RP|GP]; [apply in_app_iff; right; left; reflexivity| |].
  - apply N. exact (C45_exclusive _ _ _ _ X RP RQ R).
  - destruct (gone_forever _ _ _ Z p GP) as [GM _]. destruct (gone_forever _ _ _ B p GM) as [_ NI]. exact (NI h I).
Qed.

(** The lock is never left behind: if no invocation on [p]'s root is past the lock, [p] gets it at once. *)
Theorem C45_not_left_behind : forall tr s p, exec linit tr s -> ps s p = Idle ->
  (forall q, root_of q = root_of p -> ps s q <> Running) -> exists s', step s None s' /\ ps s' p = Running.
Proof.
  intros tr s p H A F. pose proof (exec_inv _ _ _ H inv_init) as I.
  assert (T : table s (root_of p) = None).
  { destruct (table s (root_of p)) as [q|] eqn:T; [|reflexivity]. apply I in T as [X Y]. destruct (F q Y X). }
  eexists. split; [apply (s_acquire root_of blocking s p); auto|]. apply upd_same.
Qed.

(** And as long as one is, [p] cannot get past it. *)
Theorem C45_held : forall tr s p q e s', exec linit tr s -> ps s q = Running -> root_of p = root_of q -> p <> q ->
  step s e s' -> ps s' q = Running -> ps s' p <> Running.
Proof.
  intros tr s p q e s' H Q R N St Q' P'.
  apply N. destruct e as [e|].
  - exact (C45_exclusive _ _ _ _ (e_touch _ _ _ _ _ _ _ H St) P' Q' R).
  - exact (C45_exclusive _ _ _ _ (e_silent _ _ _ _ _ _ H St) P' Q' R).
Qed.
End L.
Print Assumptions C45_exclusive.
Print Assumptions C45_no_interleaving.
Print Assumptions C45_not_left_behind.
Print Assumptions C45_held.

(** Two invocations take turns on one root. *)
Ltac touch_last l e := eapply (e_touch _ _ _ l _ e); [|eapply s_touch].
Example C45_nonvacuous : exists s, exec (fun _ => 7) (fun _ => false) linit [(1, []); (2, [])] s /\ ps s 2 = Running /\ ps s 1 = Gone.
Proof.
  eexists. split; [|split].
  - touch_last [(1, [] : path)] (2, [] : path).
    + eapply e_silent; [|eapply (s_acquire _ _ _ 2)].
      * eapply e_silent; [|eapply (s_end _ _ _ 1)].
        -- touch_last (@nil (pid * path)) (1, [] : path).
           ++ eapply e_silent; [apply e_nil|eapply (s_acquire _ _ _ 1)]; [left; reflexivity|reflexivity].
           ++ reflexivity.
        -- discriminate.
      * left. reflexivity.
      * reflexivity.
    + reflexivity.
  - reflexivity.
  - reflexivity.
Qed.

(** The lock protects the root directory, not the files: invocations whose roots are nested are not kept apart, and their
    work on a common file can be interleaved. *)
Theorem C45_nested_roots_refuted : exists root_of (f : path) s,
  exec root_of (fun _ => false) linit [(1, f); (2, f); (1, f)] s /\ ps s 1 = Running /\ ps s 2 = Running.
Proof.
  set (f := [s2t "w"; s2t "sub"; s2t "t.rs"]). exists (fun p => p), f. eexists. split; [|split].
  - touch_last [(1, f); (2, f)] (1, f).
    + touch_last [(1, f)] (2, f).
      * eapply e_silent; [|eapply (s_acquire _ _ _ 2)].
        -- touch_last (@nil (pid * path)) (1, f).
           ++ eapply e_silent; [apply e_nil|eapply (s_acquire _ _ _ 1)]; [left; reflexivity|reflexivity].
           ++ reflexivity.
        -- left. reflexivity.
        -- reflexivity.
      * reflexivity.
    + reflexivity.
  - reflexivity.
  - reflexivity.
Qed.
Print Assumptions C45_nested_roots_refuted.
