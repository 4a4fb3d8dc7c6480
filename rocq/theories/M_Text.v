(** Text model: lines, columns, byte offsets, UTF-8.

    Models the positions used by necessist: [proc_macro2::LineColumn] (line is
    1-based, column is 0-based and counts characters) and the offset calculator
    of the external [rewriter] crate (core/src/lib.rs:31-33,
    core/src/source_file.rs:29, 86-89).  The crate is not in /repo: its contract
    is written out here and is part of the trusted base. *)
From Verif Require Import Base.
Local Open Scope N_scope.

(** [proc_macro2::LineColumn] (re-exported at core/src/lib.rs:5).  Its derived
    [Ord] compares line first, then column. *)
Record line_column := LC { line : nat; column : nat }.

Definition lc_compare (a b : line_column) : comparison :=
  match Nat.compare (line a) (line b) with
  | Eq => Nat.compare (column a) (column b)
  | c => c
  end.

(** [char::len_utf8] and the UTF-8 encoding of one scalar value (Rust standard
    library; used implicitly by [as_bytes] at core/src/span.rs:165). *)
Definition enc_char (c : char) : list N :=
  if c <? 128 then [c]
  else if c <? 2048 then [192 + c / 64; 128 + c mod 64]
  else if c <? 65536 then [224 + c / 4096; 128 + (c / 64) mod 64; 128 + c mod 64]
  else [240 + c / 262144; 128 + (c / 4096) mod 64; 128 + (c / 64) mod 64; 128 + c mod 64].

Definition len_utf8 (c : char) : nat := length (enc_char c).

(** [str::as_bytes]. *)
Definition enc (t : text) : list N := flat_map enc_char t.
Definition blen (t : text) : nat := length (enc t).

(** A Unicode scalar value, i.e. a legal Rust [char]. *)
Definition is_scalar (c : char) : bool :=
  (c <? 55296) || ((57343 <? c) && (c <? 1114112)).

Definition is_cont (b : N) : bool := (128 <=? b) && (b <? 192).

(** [std::str::from_utf8] (used at core/src/span.rs:166): strict UTF-8, i.e. no
    overlong forms, no surrogates, nothing above U+10FFFF. *)
Fixpoint dec (bs : list N) : option text :=
  match bs with
  | [] => Some []
  | b0 :: r0 =>
    if b0 <? 128 then option_map (cons b0) (dec r0)
    else match r0 with
    | [] => None
    | b1 :: r1 =>
      if (192 <=? b0) && (b0 <? 224) then
        let c := (b0 - 192) * 64 + (b1 - 128) in
        if is_cont b1 && (128 <=? c) then option_map (cons c) (dec r1) else None
      else match r1 with
      | [] => None
      | b2 :: r2 =>
        if (224 <=? b0) && (b0 <? 240) then
          let c := (b0 - 224) * 4096 + (b1 - 128) * 64 + (b2 - 128) in
          if is_cont b1 && is_cont b2 && (2048 <=? c) && is_scalar c
          then option_map (cons c) (dec r2) else None
        else match r2 with
        | [] => None
        | b3 :: r3 =>
          if (240 <=? b0) && (b0 <? 248) then
            let c := (b0 - 240) * 262144 + (b1 - 128) * 4096 + (b2 - 128) * 64 + (b3 - 128) in
            if is_cont b1 && is_cont b2 && is_cont b3 && (65536 <=? c) && is_scalar c
            then option_map (cons c) (dec r3) else None
          else None
        end
      end
    end
  end.

(** Text after the first line break, if there is one. *)
Fixpoint after_nl (t : text) : option text :=
  match t with
  | [] => None
  | c :: r => if c =? NL then Some r else after_nl r
  end.

(** Text from the start of line [n] (0-based). *)
Fixpoint drop_lines (n : nat) (t : text) : option text :=
  match n with
  | O => Some t
  | S n' => match after_nl t with Some r => drop_lines n' r | None => None end
  end.

(** Characters of the first line, without its line break. *)
Fixpoint first_line (t : text) : text :=
  match t with
  | [] => []
  | c :: r => if c =? NL then [] else c :: first_line r
  end.

(** [OffsetCalculator] contract: the character offset of a position.  [None]
    where the position does not exist (line 0, a line past the last, a column
    past the end of its line); what the crate does there is not modelled. *)
Definition char_offset (t : text) (p : line_column) : option nat :=
  match line p with
  | O => None
  | S n =>
    match drop_lines n t with
    | None => None
    | Some r =>
      if Nat.leb (column p) (length (first_line r))
      then Some (length t - length r + column p)%nat
      else None
    end
  end.

(** [OffsetCalculator::offsets_from_span] for one end point: a byte offset, as used at
    core/src/span.rs:159-165 and backends/src/tree_sitter_utils.rs:30-37. *)
Definition byte_offset (t : text) (p : line_column) : option nat :=
  option_map (fun o => blen (firstn o t)) (char_offset t p).

(** [char::is_whitespace]: the Unicode White_Space property (Rust standard library). *)
Definition is_whitespace (c : char) : bool :=
  ((9 <=? c) && (c <=? 13)) || (c =? 32) || (c =? 133) || (c =? 160) || (c =? 5760)
  || ((8192 <=? c) && (c <=? 8202)) || (c =? 8232) || (c =? 8233) || (c =? 8239)
  || (c =? 8287) || (c =? 12288).

Definition ascii_alnum (c : char) : bool :=
  ((48 <=? c) && (c <=? 57)) || ((65 <=? c) && (c <=? 90)) || ((97 <=? c) && (c <=? 122)).

(** [str::trim_start]. *)
Fixpoint trim_start (t : text) : text :=
  match t with
  | [] => []
  | c :: r => if is_whitespace c then trim_start r else t
  end.

(** [str::trim_end]. *)
Definition trim_end (t : text) : text := rev (trim_start (rev t)).

(** [str::trim]. *)
Definition trim (t : text) : text := trim_end (trim_start t).

(** [str::split_inclusive('\n')]: pieces ending in a line break, last piece
    possibly without; no piece for an empty rest.  [cur] is the current piece,
    reversed. *)
Fixpoint split_incl (cur : text) (t : text) : list text :=
  match t with
  | [] => match cur with [] => [] | _ => [rev cur] end
  | c :: r => if c =? NL then rev (c :: cur) :: split_incl [] r else split_incl (c :: cur) r
  end.

(** Removal of one line terminator: ["\n"] or ["\r\n"] (Rust [str::lines]; a ["\r"] not
    followed by ["\n"] stays). *)
Definition chomp (l : text) : text :=
  match rev l with
  | c :: r => if c =? NL then
                match r with
                | d :: r' => if d =? CR then rev r' else rev r
                | [] => []
                end
              else l
  | [] => []
  end.

(** [str::lines]. *)
Definition lines (t : text) : list text := map chomp (split_incl [] t).
