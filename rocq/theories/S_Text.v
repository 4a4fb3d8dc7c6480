(** Specification of positions, independent of the model's offset arithmetic:
    read the text from the left and count. *)
From Verif Require Import Base M_Text.

(** Position reached after reading [t], starting from [p]. *)
Fixpoint advance (p : line_column) (t : text) : line_column :=
  match t with
  | [] => p
  | c :: r => advance (if N.eqb c NL then LC (S (line p)) 0 else LC (line p) (S (column p))) r
  end.

(** Position of the end of [t] in a file beginning with [t]: line 1, column 0 is the
    start of the file. *)
Definition pos (t : text) : line_column := advance (LC 1 0) t.

(** [mid] is what lies between positions [a] and [b] of [file]. *)
Definition between (file : text) (a b : line_column) (before mid after : text) : Prop :=
  file = before ++ mid ++ after /\ pos before = a /\ pos (before ++ mid) = b.

(** Legal Rust strings: every character is a Unicode scalar value. *)
Definition scalars (t : text) : Prop := Forall (fun c => is_scalar c = true) t.

(** Order of positions. *)
Definition lc_lt (a b : line_column) : Prop :=
  (line a < line b)%nat \/ (line a = line b /\ (column a < column b)%nat).
Definition lc_le (a b : line_column) : Prop := a = b \/ lc_lt a b.

(** The characters after the last line break. *)
Fixpoint last_line (t : text) : text :=
  match t with
  | [] => []
  | c :: r => if existsb (fun x => N.eqb x NL) (c :: r) then last_line r else c :: r
  end.

(** Number of line breaks. *)
Fixpoint count_nl (t : text) : nat :=
  match t with
  | [] => 0
  | c :: r => if N.eqb c NL then S (count_nl r) else count_nl r
  end.
