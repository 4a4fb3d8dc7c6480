(** Model of backends/src/directives.rs: comments of the form [// necessist: ...]. *)
From Verif Require Import Base M_Text M_Span M_Run M_Output.
Local Open Scope N_scope.

Section Directives.
Context (alphanumeric : char -> bool).   (* [char::is_alphanumeric], from Unicode's tables *)

Definition starts_with_text (p t : text) : bool := match strip_prefix p t with Some _ => true | None => false end.

(** backends/src/directives.rs:110-114 [directive_text]. *)
Definition directive_text (line : text) : option text :=
  match strip_prefix (s2t "//") (trim_start line) with
  | None => None
  | Some rest =>
    match strip_prefix (s2t "necessist:") (trim_start rest) with
    | None => None
    | Some rest => Some (trim_start rest)
    end
  end.

(** backends/src/directives.rs:116-120 [has_word_boundary]. *)
Definition has_word_boundary (rest : text) : bool :=
  match rest with
  | [] => true
  | c :: _ => negb (c =? DASH) && negb (alphanumeric c) && negb (c =? 95)
  end.

Definition directive_is (word : text) (line : text) : bool :=
  match directive_text line with
  | None => false
  | Some rest => match strip_prefix word rest with Some r => has_word_boundary r | None => false end
  end.
(** backends/src/directives.rs:98-102 [is_skip_file_directive]. *)
Definition is_skip_file_directive (line : text) : bool := directive_is (s2t "skip-file") line.
(** backends/src/directives.rs:104-108 [is_skip_directive]. *)
Definition is_skip_directive (line : text) : bool := directive_is (s2t "skip") line.

(** backends/src/directives.rs:128-131 [is_line_comment_or_whitespace]. *)
Definition is_line_comment_or_whitespace (line : text) : bool :=
  let rest := trim_start line in
  match rest with [] => true | _ => starts_with_text (s2t "//") rest end.

(** backends/src/directives.rs:124-126 [is_file_header_line]. *)
Definition is_file_header_line (line : text) : bool :=
  is_line_comment_or_whitespace line || text_eqb (trim line) (s2t "<?php").

(** backends/src/directives.rs:11-15 [Directives]; [skip_lines] is a set, only asked for membership. *)
Record directives := Directives { d_skip_file : bool; d_skip_lines : list nat }.

(** The leading white space of a line: [line.chars().take_while(..).count()]. *)
Fixpoint leading_ws (t : text) : nat :=
  match t with
  | [] => 0
  | c :: r => if is_whitespace c then S (leading_ws r) else 0
  end.

(** backends/src/directives.rs:83-96 [directive_span]; only the positions, the file is the one at hand. *)
Definition directive_span (n : nat) (line : text) : line_column * line_column :=
  let column := leading_ws line in
  (LC n column, LC n (column + length (trim line))).

(** A call of [source_warn] (27-37, 41-48): the warning, where, and the directive complained about. *)
Record dwarn := DWarn { dw_warning : warning; dw_span : line_column * line_column; dw_text : text }.

(** backends/src/directives.rs:18-58 [collect].  [denied w]: warning [w] is an error.  The state is the warnings
    issued so far, whether all lines so far are header lines, and what has been gathered. *)
Fixpoint collect_from (denied : warning -> bool) (n : nat) (ls : list text) (header : bool) (d : directives) (ws : list dwarn)
  : list dwarn * res warning directives :=
  match ls with
  | [] => (ws, Ok d)
  | l :: rest =>
    let header' := header && is_file_header_line l in                                     (* 51-53 *)
    let warned (w : warning) (what : text) :=
      let ws' := ws ++ [DWarn w (directive_span n l) what] in
      if denied w then (ws', Err w) else collect_from denied (S n) rest header' d ws' in
    if is_skip_file_directive l then
      if header then collect_from denied (S n) rest header' (Directives true (d_skip_lines d)) ws
      else warned WSkipFileMispositioned (s2t "skip-file")
    else if is_skip_directive l then
      collect_from denied (S n) rest header' (Directives (d_skip_file d) (d_skip_lines d ++ [S n])) ws
    else match directive_text l with
         | Some what => warned WDirectiveUnrecognized what
         | None => collect_from denied (S n) rest header' d ws
         end
  end.
Definition collect (denied : warning -> bool) (contents : text) : list dwarn * res warning directives :=
  collect_from denied 1 (lines contents) true (Directives false []) [].

(** Index of the first element that satisfies [f]: [Iterator::position]. *)
Fixpoint first_index {A} (f : A -> bool) (l : list A) : option nat :=
  match l with
  | [] => None
  | x :: r => if f x then Some O else option_map S (first_index f r)
  end.

(** backends/src/directives.rs:72-81 [span_code_start_line]; [None]: [source_text] panics. *)
Definition span_code_start_line (contents : text) (s : span) : option nat :=
  match source_text contents s with
  | Panic => None
  | Err _ => Some (line (sp_start s))
  | Ok t => Some (line (sp_start s) +
                  match first_index (fun l => negb (is_line_comment_or_whitespace l)) (lines t) with
                  | Some k => k | None => O end)%nat
  end.

(** backends/src/directives.rs:61-65 [Directives::skip]. *)
Definition skip (d : directives) (contents : text) (s : span) : option bool :=
  match d_skip_lines d with
  | [] => Some false
  | _ => match span_code_start_line contents s with
         | None => None
         | Some n => Some (existsb (Nat.eqb n) (d_skip_lines d))
         end
  end.
End Directives.
