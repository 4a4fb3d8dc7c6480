(** Model of core/src/config.rs (reading, merging and compiling the configuration) and of
    backends/src/parsing.rs:500-556 ([check_config!], [compile_config]).

    The regular expressions are built as strings, as the code does, and then given the meaning the
    [regex] crate's documentation gives to the constructs that occur in them: [parse_re] reads the subset of the
    syntax consisting of literals, escapes, [.], negated one-character classes, groups, [*], [+], [^] and [$]. *)
From Verif Require Import Base M_Text M_Span M_Run M_Output M_Visitor.
From Verif Require M_Options.
Local Open Scope N_scope.

Notation DOT := 46%N (only parsing).
Notation STAR := 42%N (only parsing).
Definition PLUS : char := 43.
Definition BACKSLASH : char := 92.
Definition CARET : char := 94.
Notation DOLLAR := 36%N (only parsing).
Definition LPAREN : char := 40.
Definition RPAREN : char := 41.
Definition LBRACK : char := 91.
Definition RBRACK : char := 93.
Notation UNDERSCORE := 95%N (only parsing).

(** ** The regular expressions that occur (crate [regex]) *)

(** Characters that are not literals when they stand for themselves ([regex_syntax::is_meta_character]). *)
Definition meta : list char := s2t "\.+*?()|[]{}^$#&-~".
Definition is_meta (c : char) : bool := existsb (N.eqb c) meta.

Inductive re :=
| RLit (c : char)
| RDot                       (* any character but the newline *)
| RNot (c : char)            (* [^c]: any character but [c] *)
| RBol | REol                (* ^ and $ without the multi-line flag: start and end of the text *)
| RSeq (l : list re)
| RStar (r : re)
| RPlus (r : re).

(** A repetition operator after an atom, if there is one. *)
Definition suffix (a : re) (rest : text) : re * text :=
  match rest with
  | c :: rest' => if c =? STAR then (RStar a, rest') else if c =? PLUS then (RPlus a, rest') else (a, rest)
  | [] => (a, rest)
  end.

(** Atoms other than groups: the atom and what follows it. *)
Definition atom (c : char) (rest : text) : option (re * text) :=
  if c =? BACKSLASH then
    match rest with
    | d :: rest' => if is_meta d then Some (RLit d, rest') else None
    | [] => None
    end
  else if c =? DOT then Some (RDot, rest)
  else if c =? CARET then Some (RBol, rest)
  else if c =? DOLLAR then Some (REol, rest)
  else if c =? LBRACK then
    match rest with
    | a :: d :: b :: rest' => if (a =? CARET) && (b =? RBRACK) && negb (d =? RBRACK) && negb (d =? BACKSLASH) && negb (d =? LBRACK)
                              then Some (RNot d, rest') else None
    | _ => None
    end
  else if is_meta c then None
  else Some (RLit c, rest).

(** A sequence, up to the end or an unmatched closing parenthesis. *)
Fixpoint parse_re (fuel : nat) (acc : list re) (t : text) : option (list re * text) :=
  match fuel with
  | O => None
  | S n =>
    match t with
    | [] => Some (acc, [])
    | c :: rest =>
      if c =? RPAREN then Some (acc, t)
      else
        match (if c =? LPAREN
               then match parse_re n [] rest with
                    | Some (l, d :: rest') => if d =? RPAREN then Some (RSeq l, rest') else None
                    | _ => None
                    end
               else atom c rest) with
        | Some (a, rest') => parse_re n (acc ++ [fst (suffix a rest')]) (snd (suffix a rest'))
        | None => None
        end
    end
  end.
Definition regex_new (t : text) : option re :=
  match parse_re (2 * length t + 2) [] t with
  | Some (l, []) => Some (RSeq l)
  | _ => None
  end.

(** [matches r a b c]: in the text [a ++ b ++ c], [r] matches the part [b]. *)
Inductive matches : re -> text -> text -> text -> Prop :=
| m_lit c a z : matches (RLit c) a [c] z
| m_dot c a z : c <> NL -> matches RDot a [c] z
| m_not c d a z : d <> c -> matches (RNot c) a [d] z
| m_bol z : matches RBol [] [] z
| m_eol a : matches REol a [] []
| m_nil a z : matches (RSeq []) a [] z
| m_cons r l a b1 b2 z : matches r a b1 (b2 ++ z) -> matches (RSeq l) (a ++ b1) b2 z -> matches (RSeq (r :: l)) a (b1 ++ b2) z
| m_star0 r a z : matches (RStar r) a [] z
| m_star1 r a b1 b2 z : matches r a b1 (b2 ++ z) -> matches (RStar r) (a ++ b1) b2 z -> matches (RStar r) a (b1 ++ b2) z
| m_plus r a b1 b2 z : matches r a b1 (b2 ++ z) -> matches (RStar r) (a ++ b1) b2 z -> matches (RPlus r) a (b1 ++ b2) z.

(** [Regex::is_match]: some part of the text matches. *)
Definition is_match (r : re) (t : text) : Prop := exists a b z, t = a ++ b ++ z /\ matches r a b z.

(** ** Patterns *)
Section Config.
Context (alphanumeric : char -> bool).   (* [char::is_alphanumeric], from Unicode's tables *)

Inductive config_error := BadPattern (c : char) | BadRegex | ConfigConflict | UnsupportedDenied.

(** core/src/config.rs:185-204 [escape]. *)
Fixpoint escape (p : text) : res config_error text :=
  match p with
  | [] => Ok []
  | c :: r =>
    if alphanumeric c || (c =? UNDERSCORE) then bind (escape r) (fun s => Ok (c :: s))
    else if c =? DOT then bind (escape r) (fun s => Ok (BACKSLASH :: DOT :: s))
    else if c =? STAR then bind (escape r) (fun s => Ok (DOT :: STAR :: s))
    else Err (BadPattern c)
  end.

(** core/src/config.rs:178-183 [compile_pattern]. *)
Definition compile_pattern (p : text) (methods : bool) : res config_error re :=
  bind (escape p) (fun escaped =>
    match regex_new (s2t "^" ++ (if methods then s2t "([^.]+\.)*" else []) ++ escaped ++ s2t "$") with
    | Some r => Ok r
    | None => Err BadRegex
    end).

(** core/src/config.rs:168-176 [compile_patterns]. *)
Fixpoint compile_patterns (ps : list text) (methods : bool) : res config_error (list re) :=
  match ps with
  | [] => Ok []
  | p :: rest => bind (compile_pattern p methods) (fun r => bind (compile_patterns rest methods) (fun rs => Ok (r :: rs)))
  end.

(** core/src/config.rs:56-74 [Toml], without the unknown keys, whose presence is an error (87-94). *)
Record toml := Toml {
  t_functions : list text;
  t_macros : list text;
  t_methods : list text;
  t_disambiguation : option disambiguation;
  t_tests : list text;
  t_visit_args : option bool;
  t_walkable : list text
}.
Definition toml_default : toml := Toml [] [] [] None [] None [].

Definition disamb_eqb (a b : disambiguation) : bool :=
  match a, b with DNone, DNone | DFunction, DFunction | DMethod, DMethod => true | _, _ => false end.

(** core/src/config.rs:98-137 [merge]; [None] leaves [self] as it was. *)
Definition merge (self other : toml) : option toml :=
  let clash := fun A (eqb : A -> A -> bool) (a b : option A) =>
    match a, b with Some x, Some y => negb (eqb x y) | _, _ => false end in
  if clash _ disamb_eqb (t_disambiguation self) (t_disambiguation other) then None
  else if clash _ Bool.eqb (t_visit_args self) (t_visit_args other) then None
  else Some (Toml (t_functions self ++ t_functions other) (t_macros self ++ t_macros other) (t_methods self ++ t_methods other)
                  (t_disambiguation other) (t_tests self ++ t_tests other) (t_visit_args other) (t_walkable self ++ t_walkable other)).

(** core/src/config.rs:15-23 [Compiled]. *)
Record compiled := Compiled {
  c_functions : list re;
  c_macros : list re;
  c_methods : list re;
  c_disambiguation : disambiguation;
  c_tests : list text;
  c_visit_args : bool;
  c_walkable : list re
}.

(** core/src/config.rs:139-166 [compile]. *)
Definition compile (t : toml) : res config_error compiled :=
  bind (compile_patterns (t_functions t) false) (fun fs =>
  bind (compile_patterns (t_macros t) false) (fun ms =>
  bind (compile_patterns (t_methods t) true) (fun me =>
  bind (compile_patterns (t_walkable t) false) (fun ws =>
  Ok (Compiled fs ms me (match t_disambiguation t with Some d => d | None => DNone end) (t_tests t)
               (match t_visit_args t with Some b => b | None => false end) ws))))).

(** core/src/config.rs:25-54: the questions asked of a [Compiled]. *)
Definition any_match (rs : list re) (name : text) : Prop := exists r, In r rs /\ is_match r name.
Definition is_ignored_function (c : compiled) := any_match (c_functions c).
Definition is_ignored_macro (c : compiled) := any_match (c_macros c).
Definition is_ignored_method (c : compiled) := any_match (c_methods c).
Definition is_walkable_function (c : compiled) := any_match (c_walkable c).
Definition is_ignored_test (c : compiled) (name : text) : Prop := In name (c_tests c).

(** backends/src/parsing.rs:96-98: a back end's own patterns; [None] is not supported. *)
Record builtin := Builtin { b_functions : option (list text); b_macros : option (list text); b_methods : option (list text) }.

(** backends/src/parsing.rs:500-519 [check_config!], thrice: the warnings issued, in order. *)
Definition unsupported {A} (b : option (list text)) (used : list A) : bool :=
  match b, used with None, _ :: _ => true | _, _ => false end.
Definition check_config (b : builtin) (t : toml) : list warning :=
  (if unsupported (b_functions b) (t_functions t) then [WIgnoredFunctionsUnsupported] else []) ++
  (if unsupported (b_macros b) (t_macros t) then [WIgnoredMacrosUnsupported] else []) ++
  (if unsupported (b_methods b) (t_methods t) then [WIgnoredMethodsUnsupported] else []).

Definition or_nil (b : option (list text)) : list text := match b with Some l => l | None => [] end.

(** backends/src/parsing.rs:521-556 [compile_config]; [denied w]: warning [w] is an error. *)
Definition compile_config (denied : warning -> bool) (b : builtin) (t : toml) : res config_error compiled :=
  if existsb denied (check_config b t) then Err UnsupportedDenied else
  match merge (Toml (or_nil (b_functions b)) (or_nil (b_macros b)) (or_nil (b_methods b)) None [] None []) t with
  | None => Panic      (* 552: unwrap *)
  | Some m => compile m
  end.
End Config.

(** The back ends' own patterns: backends/src/go/mod.rs:229-237. *)
Definition go_builtin : builtin := Builtin
  (Some (map s2t ["assert.*"; "panic"; "require.*"]%string)) None
  (Some (map s2t ["Close"; "Error"; "Errorf"; "Fail"; "FailNow"; "Fatal"; "Fatalf"; "Helper"; "Log"; "Logf";
                  "Parallel"; "Skip"; "Skipf"; "SkipNow"]%string)).
(** backends/src/ts/inner/mod.rs:267-272; Anchor, Hardhat and Vitest share it. *)
Definition ts_builtin : builtin := Builtin
  (Some (map s2t ["assert"; "assert.*"; "console.*"; "expect"]%string)) None
  (Some (map s2t ["toNumber"; "toString"]%string)).
(** backends/src/foundry/mod.rs:150-171. *)
Definition foundry_builtin : builtin := Builtin
  (Some (map s2t ["assert*"; "console.log*"; "console2.log*"; "vm.expect*"; "vm.getLabel"; "vm.label";
                  "vm.startSnapshotGas"; "vm.stopSnapshotGas"]%string)) None (Some []).
(** backends/src/php/mod.rs:258-269. *)
Definition php_builtin : builtin := Builtin
  (Some (map s2t ["var_dump"; "print_r"; "var_export"]%string)) None
  (Some (map s2t ["assert*"; "expect*"; "fail"; "markTestIncomplete"; "markTestSkipped"]%string)).
(** backends/src/rust/mod.rs:343-409. *)
Definition rust_builtin : builtin := Builtin (Some [])
  (Some (map s2t ["assert"; "assert_eq"; "assert_matches"; "assert_ne"; "dbg"; "debug"; "eprint"; "eprintln"; "error"; "info";
                  "panic"; "print"; "println"; "trace"; "unimplemented"; "unreachable"; "warn"]%string))
  (Some (map s2t ["as_bytes"; "as_encoded_bytes"; "as_mut"; "as_mut_os_str"; "as_mut_os_string"; "as_mut_slice"; "as_mut_str";
                  "as_os_str"; "as_path"; "as_ref"; "as_slice"; "as_str"; "borrow"; "borrow_mut"; "clone"; "cloned"; "copied";
                  "deref"; "deref_mut"; "expect"; "expect_err"; "into_boxed_bytes"; "into_boxed_os_str"; "into_boxed_path";
                  "into_boxed_slice"; "into_boxed_str"; "into_bytes"; "into_encoded_bytes"; "into_os_string"; "into_owned";
                  "into_path_buf"; "into_string"; "into_vec"; "iter"; "iter_mut"; "success"; "to_os_string"; "to_owned";
                  "to_path_buf"; "to_string"; "to_vec"; "unwrap"; "unwrap_err"]%string)).
(** The back end behind each framework: backends/src/lib.rs:85-105, anchor/mod.rs, hardhat/mod.rs and vitest/mod.rs (each wraps [ts]). *)
Definition builtin_of (f : M_Options.framework) : builtin :=
  match f with
  | M_Options.Anchor | M_Options.Hardhat | M_Options.Vitest => ts_builtin
  | M_Options.Foundry => foundry_builtin
  | M_Options.Go => go_builtin
  | M_Options.Php => php_builtin
  | M_Options.Rust => rust_builtin
  end.
