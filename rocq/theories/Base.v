(** Common vocabulary of the model: results, panics, characters, texts.

    Nothing here models a particular function of /repo.  [res] renders
    [anyhow::Result] with a third constructor for panics (an unwinding panic is
    an observable way for a Rust function to end). *)
From Coq Require Export Ascii String.
From Coq Require Export Arith NArith Lia Bool List.
Export ListNotations.
Open Scope list_scope.

(** Rust [Result<A>] plus panics.  Error payloads are only texts for humans in
    necessist; each model says which error it means through a constructor of
    its own error type [E]. *)
Inductive res (E A : Type) : Type :=
| Ok (a : A)
| Err (e : E)
| Panic.
Arguments Ok {E A} a.
Arguments Err {E A} e.
Arguments Panic {E A}.

Definition bind {E A B} (r : res E A) (f : A -> res E B) : res E B :=
  match r with
  | Ok a => f a
  | Err e => Err e
  | Panic => Panic
  end.

(** A Rust [char] is a Unicode scalar value; a Rust [&str] is a list of them. *)
Definition char := N.
Definition text := list char.

Definition of_ascii (a : ascii) : char := N_of_ascii a.
Fixpoint s2t (s : string) : text :=
  match s with
  | EmptyString => []
  | String a s' => of_ascii a :: s2t s'
  end.

Definition text_eqb (a b : text) : bool :=
  if list_eq_dec N.eq_dec a b then true else false.

Lemma text_eqb_eq a b : text_eqb a b = true <-> a = b.
Proof. unfold text_eqb; destruct (list_eq_dec N.eq_dec a b); split; congruence. Qed.

Lemma text_eqb_neq a b : text_eqb a b = false <-> a <> b.
Proof. unfold text_eqb; destruct (list_eq_dec N.eq_dec a b); split; congruence. Qed.

Lemma text_eqb_refl a : text_eqb a a = true.
Proof. apply text_eqb_eq; reflexivity. Qed.

Definition NL : char := 10%N.
Definition CR : char := 13%N.

(** Membership test on texts. *)
Definition mem_text (x : text) (l : list text) : bool := existsb (text_eqb x) l.

Lemma mem_text_In x l : mem_text x l = true <-> In x l.
Proof.
  unfold mem_text; rewrite existsb_exists; split.
  - intros [y [Hy He]]; apply text_eqb_eq in He; subst; exact Hy.
  - intros H; exists x; split; [exact H | apply text_eqb_refl].
Qed.

Definition strip_prefix (p t : text) : option text :=
  if text_eqb (firstn (length p) t) p then Some (skipn (length p) t) else None.

Lemma strip_prefix_spec p t r : strip_prefix p t = Some r <-> t = p ++ r.
Proof.
  unfold strip_prefix; destruct (text_eqb (firstn (length p) t) p) eqn:E; split; intros H.
  - injection H as <-. apply text_eqb_eq in E.
    rewrite <- (firstn_skipn (length p) t) at 1. now rewrite E.
  - subst t. f_equal. rewrite skipn_app, skipn_all, Nat.sub_diag; reflexivity.
  - discriminate.
  - subst t. apply text_eqb_neq in E. exfalso; apply E.
    rewrite firstn_app, firstn_all, Nat.sub_diag; simpl; apply app_nil_r.
Qed.

(** Specification only: [xs] with [sep] between them. *)
Definition separated (sep : text) (xs : list text) : text :=
  match xs with [] => [] | x :: r => x ++ concat (map (fun y => sep ++ y) r) end.
