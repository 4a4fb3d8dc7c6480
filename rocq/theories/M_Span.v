(** Model of core/src/span.rs. *)
From Verif Require Import Base M_Text M_Rewriter.
From Coq Require Import DecimalN.
Local Open Scope N_scope.

(** core/src/span.rs:8-13 [Span].  The source file is identified by its path
    relative to the project root (core/src/source_file.rs:74-77), as the list of its
    components; file contents are passed separately (they are cached per
    path and immutable for the life of the process, source_file.rs:55-71). *)
Record span := Span {
  sp_path : list text;
  sp_start : line_column;
  sp_end : line_column
}.

Notation SLASH := 47%N (only parsing).
Notation COLON := 58%N (only parsing).
Notation DASH := 45%N (only parsing).
Definition PLUS : char := 43.

(** Rust path display: components joined by ["/"]
    (source_file.rs:108-112, [to_string_lossy] of a UTF-8 path). *)
Fixpoint join_path (p : list text) : text :=
  match p with
  | [] => []
  | [c] => c
  | c :: r => c ++ SLASH :: join_path r
  end.

(** Decimal digits, as printed by [format!("{}", n)] for [usize]. *)
Fixpoint uint_text (d : Decimal.uint) : text :=
  match d with
  | Decimal.Nil => []
  | Decimal.D0 r => 48 :: uint_text r
  | Decimal.D1 r => 49 :: uint_text r
  | Decimal.D2 r => 50 :: uint_text r
  | Decimal.D3 r => 51 :: uint_text r
  | Decimal.D4 r => 52 :: uint_text r
  | Decimal.D5 r => 53 :: uint_text r
  | Decimal.D6 r => 54 :: uint_text r
  | Decimal.D7 r => 55 :: uint_text r
  | Decimal.D8 r => 56 :: uint_text r
  | Decimal.D9 r => 57 :: uint_text r
  end.
Definition print_usize (n : nat) : text := uint_text (N.to_uint (N.of_nat n)).

(** core/src/span.rs:107-116 [to_string_with_path]. *)
Definition to_string_with_path (path : text) (s : span) : text :=
  path ++ COLON :: print_usize (line (sp_start s))
       ++ COLON :: print_usize (column (sp_start s) + 1)
       ++ DASH :: print_usize (line (sp_end s))
       ++ COLON :: print_usize (column (sp_end s) + 1).

(** core/src/span.rs:15-24 [Display]. *)
Definition display_span (s : span) : text := to_string_with_path (join_path (sp_path s)) s.

(** core/src/span.rs:52-58 [id]: first 16 hex digits of the SHA-256 of the printed
    form.  The hash is a parameter [hash16]. *)
Definition span_id (hash16 : text -> text) (s : span) : text := hash16 (display_span s).

(** First occurrence of [d]: text before and after it.  Renders the parts
    [([^d]* )d] of [SPAN_RE] (core/src/span.rs:45-48): the class excludes the
    delimiter, so the match is unique. *)
Fixpoint split_at (d : char) (t : text) : option (text * text) :=
  match t with
  | [] => None
  | c :: r => if c =? d then Some ([], r)
              else match split_at d r with
                   | Some (a, b) => Some (c :: a, b)
                   | None => None
                   end
  end.

Definition digit (c : char) : option N :=
  if (48 <=? c) && (c <=? 57) then Some (c - 48) else None.

Fixpoint digits_value (acc : N) (t : text) : option N :=
  match t with
  | [] => Some acc
  | c :: r => match digit c with
              | Some d => digits_value (10 * acc + d) r
              | None => None
              end
  end.

Definition usize_bound : N := 2 ^ 64.

(** [str::parse::<usize>] on a 64-bit target (core/src/span.rs:74-77): an optional [+], at least one
    digit, digits only, no overflow. *)
Definition parse_usize (t : text) : option N :=
  let body := match t with c :: r => if c =? PLUS then r else t | [] => t end in
  match body with
  | [] => None
  | _ => match digits_value 0 body with
         | Some n => if n <? usize_bound then Some n else None
         | None => None
         end
  end.

Fixpoint split_all (d : char) (cur t : text) : list text :=
  match t with
  | [] => [rev cur]
  | c :: r => if c =? d then rev cur :: split_all d [] r else split_all d (c :: cur) r
  end.

Definition DOT : text := [46].

(** [Path::components] of a relative path: empty and ["."] components vanish. *)
Definition path_components (t : text) : list text :=
  filter (fun c => negb (text_eqb c []) && negb (text_eqb c DOT)) (split_all SLASH [] t).

Inductive span_error := UnexpectedFormat | BadNumber | CannotRead.

(** core/src/span.rs:60-90 [parse].  [file_exists] says whether
    [SourceFile::new] can read the file (source_file.rs:59).  An absolute path
    makes [root.join] leave the root, and [SourceFile::new] asserts
    (source_file.rs:53): [Panic].  A column of 0 underflows: [Panic] (debug
    build; a release build wraps). *)
Definition parse_span (file_exists : list text -> bool) (s : text) : res span_error span :=
  match split_at COLON s with
  | None => Err UnexpectedFormat
  | Some (path, r1) =>
  match split_at COLON r1 with
  | None => Err UnexpectedFormat
  | Some (sl, r2) =>
  match split_at DASH r2 with
  | None => Err UnexpectedFormat
  | Some (sc, r3) =>
  match split_at COLON r3 with
  | None => Err UnexpectedFormat
  | Some (el, ec) =>
  if existsb (fun c => c =? NL) ec then Err UnexpectedFormat else
  match parse_usize sl, parse_usize sc, parse_usize el, parse_usize ec with
  | Some sl, Some sc, Some el, Some ec =>
    if (match path with c :: _ => c =? SLASH | [] => false end) then Panic
    else
      let comps := path_components path in
      if file_exists comps then
        if (sc =? 0) || (ec =? 0) then Panic
        else Ok (Span comps (LC (N.to_nat sl) (N.to_nat (sc - 1)))
                            (LC (N.to_nat el) (N.to_nat (ec - 1))))
      else Err CannotRead
  | _, _, _, _ => Err BadNumber
  end
  end end end end.

Inductive text_error := NotUtf8.

(** core/src/span.rs:152-169 [source_text]: byte offsets of both ends, slice of the
    bytes, [from_utf8].  A start after the end, or an offset past the end, is a
    slice panic; a position that does not exist is outside the [rewriter]
    contract and is also rendered as [Panic]. *)
Definition source_text (contents : text) (s : span) : res text_error text :=
  match byte_offset contents (sp_start s), byte_offset contents (sp_end s) with
  | Some a, Some b =>
    if (a <=? b)%nat && (b <=? blen contents)%nat then
      match dec (firstn (b - a) (skipn a (enc contents))) with
      | Some t => Ok t
      | None => Err NotUtf8
      end
    else Panic
  | _, _ => Panic
  end.

(** core/src/span.rs:171-189 [remove], the pure part: the new file contents and the
    removed text. The backup is modelled in [M_Run]. *)
Definition remove_text (contents : text) (s : span) : option (text * text) :=
  match rw_rewrite (fun c => c) (rw_new contents) (sp_start s) (sp_end s) [] with
  | Some (removed, r) => Some (removed, rw_contents (fun c => c) r)
  | None => None
  end.

(** core/src/span.rs:142-149 [with_start]. *)
Definition with_start (s : span) (p : line_column) : span := Span (sp_path s) p (sp_end s).

(** core/src/span.rs:125-137, the loop of [trim_start]. *)
Fixpoint skip_ws (p : line_column) (t : text) : line_column :=
  match t with
  | [] => p
  | c :: r =>
    if is_whitespace c then
      skip_ws (if c =? NL then LC (line p + 1) 0 else LC (line p) (column p + 1)) r
    else p
  end.

(** core/src/span.rs:118-140 [trim_start]. *)
Definition span_trim_start (contents : text) (s : span) : res text_error span :=
  match source_text contents s with
  | Ok t => Ok (with_start s (skip_ws (sp_start s) t))
  | Err _ => Ok s
  | Panic => Panic
  end.

(** [Ord for Path]: lexicographic on components, each component compared as a byte
    string (Rust standard library; used at core/src/source_file.rs:120-124).  UTF-8 byte order is
    code point order, so components are compared by code points. *)
Fixpoint text_compare (a b : text) : comparison :=
  match a, b with
  | [], [] => Eq
  | [], _ :: _ => Lt
  | _ :: _, [] => Gt
  | x :: a', y :: b' => match N.compare x y with Eq => text_compare a' b' | c => c end
  end.

Fixpoint path_compare (a b : list text) : comparison :=
  match a, b with
  | [], [] => Eq
  | [], _ :: _ => Lt
  | _ :: _, [] => Gt
  | x :: a', y :: b' => match text_compare x y with Eq => path_compare a' b' | c => c end
  end.

(** core/src/span.rs:8 derived [Ord]: source file, start, end. *)
Definition span_compare (a b : span) : comparison :=
  match path_compare (sp_path a) (sp_path b) with
  | Eq => match lc_compare (sp_start a) (sp_start b) with
          | Eq => lc_compare (sp_end a) (sp_end b)
          | c => c
          end
  | c => c
  end.
