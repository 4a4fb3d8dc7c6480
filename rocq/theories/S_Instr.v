(** Specification vocabulary for instrumentation: what an instrumented file means. *)
From Verif Require Import Base M_Text S_Text M_Span M_Instr.

(** Conditions on environment variables, and how the host languages write "if ... {".  In Solidity the values compared are the bytes
    that the hexadecimal digits of both sides stand for. *)
Inductive operand := Env (name : text) | Lit (t : text).
Inductive cond := Differ (a b : operand) | Same (a b : operand).
Definition value (vars : text -> text) (x : operand) : text := match x with Env n => vars n | Lit t => t end.
Definition holds (vars : text -> text) (c : cond) : Prop :=
  match c with Differ a b => value vars a <> value vars b | Same a b => value vars a = value vars b end.
Local Open Scope string_scope.
Definition quoted (t : text) : text := ([34%N] ++ t ++ [34%N])%list.
Definition apostrophes (t : text) : text := ([39%N] ++ t ++ [39%N])%list.
Definition write_operand (l : lang) (x : operand) : text :=
  match l, x with
  | LRust, Env n => s2t "std::env::var(" ++ quoted n ++ s2t ").unwrap()"
  | LGo os, Env n => os ++ s2t "Getenv(" ++ quoted n ++ s2t ")"
  | LTypeScript, Env n => s2t "process.env." ++ n
  | LPhp, Env n => s2t "getenv(" ++ apostrophes n ++ s2t ")"
  | LFoundry, Env n => s2t "bytes8(vm.envBytes(" ++ quoted n ++ s2t "))"
  | LPhp, Lit t => apostrophes t
  | LFoundry, Lit t => s2t "bytes8(hex" ++ quoted t ++ s2t ")"
  | _, Lit t => quoted t
  end%list.
Definition write_cond (l : lang) (c : cond) : text :=
  match c with
  | Differ a b => write_operand l a ++ (match l with LPhp => s2t " !== " | _ => s2t " != " end) ++ write_operand l b
  | Same a b => write_operand l a ++ (match l with LPhp => s2t " === " | _ => s2t " == " end) ++ write_operand l b
  end%list.
Definition opening (l : lang) (c : cond) : text :=
  match l with
  | LRust | LGo _ => s2t "if " ++ write_cond l c ++ s2t " { "
  | LTypeScript | LPhp | LFoundry => s2t "if (" ++ write_cond l c ++ s2t ") { "
  end%list.
(** "The removal under way is not that of [id]." *)
Definition not_removing (id : text) : cond := Differ (Env (s2t "NECESSIST_REMOVAL")) (Lit id).
Local Close Scope string_scope.

(** A reading of an instrumented file: source characters, guard openings
    ("execute the following unless the environment names [id]"), guard ends, and
    inserted text without effect on the test (Go's import). *)
Inductive sym :=
| Ch (c : char)
| Guard (id : text)
| End
| Extra (t : text).

(** How a reading is written down in host language [l]. *)
Definition render1 (l : lang) (x : sym) : text :=
  match x with
  | Ch c => [c]
  | Guard id => opening l (not_removing id)
  | End => s2t " }"%string
  | Extra t => t
  end.
Definition render (l : lang) (xs : list sym) : text := flat_map (render1 l) xs.

(** Meaning of a reading when the environment variable holds [env]: the source
    characters that are executed.  A stack of open guards, [true] for a guard that
    switches its contents off; [None] if guards and ends do not match. *)
Fixpoint eval (env : text) (stack : list bool) (xs : list sym) : option text :=
  match xs with
  | [] => match stack with [] => Some [] | _ => None end
  | Ch c :: r => match eval env stack r with
                 | Some t => Some (if existsb (fun b => b) stack then t else c :: t)
                 | None => None
                 end
  | Guard id :: r => eval env (text_eqb id env :: stack) r
  | End :: r => match stack with
                | [] => None
                | _ :: st => eval env st r
                end
  | Extra _ :: r => eval env stack r
  end.

(** The source characters of a reading. *)
Fixpoint chars_of (xs : list sym) : text :=
  match xs with
  | [] => []
  | Ch c :: r => c :: chars_of r
  | _ :: r => chars_of r
  end.

(** Layout of the statement candidates of one file: each denotes a nonempty piece
    of the file, they come in strictly ascending order of their start (the
    order of the [BTreeMap], core/src/framework/mod.rs:58), and two of them are
    disjoint or nested. *)
Definition layout (file : text) (spans : list span) : Prop :=
  (forall s, In s spans -> exists before mid after,
      between file (sp_start s) (sp_end s) before mid after /\ mid <> []) /\
  (forall l1 a l2 b l3, spans = l1 ++ a :: l2 ++ b :: l3 -> lc_lt (sp_start a) (sp_start b)) /\
  (forall l1 a l2 b l3, spans = l1 ++ a :: l2 ++ b :: l3 ->
      lc_le (sp_end a) (sp_start b) \/ lc_le (sp_end b) (sp_end a)).

(** Text inserted by the back end itself goes to an existing position no later than
    every candidate. *)
Definition extra_before (file : text) (extra : option (line_column * text)) (spans : list span) : Prop :=
  match extra with
  | None => True
  | Some (p, _) =>
    (exists before after, file = before ++ after /\ pos before = p) /\
    forall s, In s spans -> lc_le p (sp_start s)
  end.
