(** Conversion of parser positions to [LineColumn]:
    backends/src/tree_sitter_utils.rs (Go, PHP) and backends/src/foundry/mod.rs. *)
From Verif Require Import Base M_Text.
Local Open Scope nat_scope.

(** [str::char_indices] started at byte offset [o]. *)
Fixpoint char_indices (o : nat) (t : text) : list (nat * char) :=
  match t with
  | [] => []
  | c :: r => (o, c) :: char_indices (o + len_utf8 c) r
  end.

(** [Iterator::position]. *)
Fixpoint position {A} (f : A -> bool) (l : list A) : option nat :=
  match l with
  | [] => None
  | x :: r => if f x then Some 0 else option_map S (position f r)
  end.

(** [&contents[o..]] for a byte offset [o] on a character boundary; [None] is the
    slice panic. *)
Fixpoint skip_bytes (o : nat) (t : text) : option text :=
  match o, t with
  | O, _ => Some t
  | _, [] => None
  | _, c :: r => if o <? len_utf8 c then None else skip_bytes (o - len_utf8 c) r
  end.

(** backends/src/tree_sitter_utils.rs:25-48 [impl ToLineColumn for Point]:
    [row] is 0-based, [bcol] counts bytes.  The failing [unwrap] is [Panic]. *)
Definition point_to_line_column (contents : text) (row bcol : nat) : res Empty_set line_column :=
  match byte_offset contents (LC (row + 1) 0) with
  | None => Panic
  | Some line_offset =>
    match skip_bytes line_offset contents with
    | None => Panic
    | Some suffix =>
      match position (fun oc => Nat.eqb bcol (fst oc)) (char_indices 0 suffix) with
      | Some c => Ok (LC (row + 1) c)
      | None => Panic
      end
    end
  end.

(** backends/src/foundry/mod.rs:556-562: the vector [line_starts] (byte offsets). *)
Definition line_starts (contents : text) : list nat :=
  flat_map (fun ic => if N.eqb (snd ic) NL then [fst ic + 1] else []) (char_indices 0 contents).

(** [slice::partition_point]: length of the longest prefix satisfying the predicate
    (the predicate is monotone on [line_starts]). *)
Fixpoint partition_point (f : nat -> bool) (l : list nat) : nat :=
  match l with
  | [] => 0
  | x :: r => if f x then S (partition_point f r) else 0
  end.

(** backends/src/foundry/mod.rs:555-573 [offset_to_line_column]. *)
Definition offset_to_line_column (contents : text) (loc : nat) : line_column :=
  let ls := line_starts contents in
  let line_no := partition_point (fun s => s <=? loc) ls in
  let col_no := match line_no with O => loc | S k => loc - nth k ls 0 end in
  LC (line_no + 1) col_no.

(** [u8::is_ascii_whitespace]: space, tab, LF, FF, CR. *)
Definition is_ascii_ws (b : N) : bool :=
  (N.eqb b 32 || N.eqb b 9 || N.eqb b 10 || N.eqb b 12 || N.eqb b 13)%N.

(** Leading ASCII whitespace bytes (the [while] loop at backends/src/foundry/mod.rs:510-513). *)
Fixpoint count_ws (bs : list N) : nat :=
  match bs with
  | [] => 0
  | b :: r => if is_ascii_ws b then S (count_ws r) else 0
  end.

(** backends/src/foundry/mod.rs:505-524 [loc_with_optional_semicolon]: new end offset.
    (Only [Loc::File]; the other locations are returned unchanged.) *)
Definition end_with_semicolon (contents : text) (e : nat) : nat :=
  let bs := skipn e (enc contents) in
  let w := count_ws bs in
  match skipn w bs with
  | b :: _ => if N.eqb b 59 then e + w + 1 else e
  | [] => e
  end.
