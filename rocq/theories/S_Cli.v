(** Vocabulary for C73: what a command line may look like and what it means. *)
From Verif Require Import Base M_Text M_Span M_Run M_Output M_Options.
From Coq Require Import List.
Local Open Scope N_scope.
Local Open Scope list_scope.

(** One thing a user asks for: a flag, an option with its value (after an equals sign or as a word of its own), a test
    file or directory. *)
Inductive item := IFlag (name : text) | ISet (name value : text) (equals : bool) | IFile (f : text).

Definition words_of (i : item) : list text :=
  match i with
  | IFlag n => [s2t "--" ++ n]
  | ISet n v true => [s2t "--" ++ n ++ s2t "=" ++ v]
  | ISet n v false => [s2t "--" ++ n; v]
  | IFile f => [f]
  end.
(** The command line: the items, then perhaps [--] and the arguments for the test commands. *)
Definition line_of (items : list item) (args : option (list text)) : list text :=
  flat_map words_of items ++ match args with Some a => s2t "--" :: a | None => [] end.

Definition flag_names : list text :=
  map s2t ["default-config"; "dump"; "dump-candidate-counts"; "dump-candidates"; "find-skill"; "no-lines-or-columns";
           "no-local-functions"; "no-sqlite"; "quiet"; "reset"; "resume"; "verbose"; "write"]%string.
Definition value_names : list text := map s2t ["allow"; "check-skill"; "deny"; "framework"; "root"; "timeout"]%string.

(** A word that could not be mistaken for an option. *)
Definition plain (t : text) : Prop := forall c r, t <> s2t "-" ++ c :: r.
Definition item_ok (i : item) : Prop :=
  match i with
  | IFlag n => In n flag_names
  | ISet n v equals => In n value_names /\ (equals = false -> plain v)
  | IFile f => plain f /\ f <> []
  end.

(** What was said. *)
Definition said (items : list item) (flag : string) : Prop := In (IFlag (s2t flag)) items.
Fixpoint values (name : text) (items : list item) : list text :=
  match items with
  | ISet n v _ :: r => if text_eqb n name then v :: values name r else values name r
  | _ :: r => values name r
  | [] => []
  end.
Fixpoint flags_in (items : list item) : list text :=
  match items with IFlag n :: r => n :: flags_in r | _ :: r => flags_in r | [] => [] end.
Fixpoint files_in (items : list item) : list text :=
  match items with IFile f :: r => f :: files_in r | _ :: r => files_in r | [] => [] end.

(** The meaning of an option that may be given once: not given, or given as [v], which reads as [a]. *)
Inductive given {A} (reads : text -> A -> Prop) : list text -> option A -> Prop :=
| not_given : given reads [] None
| given_once v a : reads v a -> given reads [v] (Some a).

(** How values read. A path is absolute if it begins with a slash; its components are the pieces between slashes but for
    empty ones and dots. *)
Inductive named : list text -> list text -> Prop :=
| nm_nil : named [] []
| nm_skip x l l' : x = [] \/ x = s2t "." -> named l l' -> named (x :: l) l'
| nm_keep x l l' : x <> [] -> x <> s2t "." -> named l l' -> named (x :: l) (x :: l').
Definition reads_path (v : text) (p : upath) : Prop :=
  v <> [] /\ (u_absolute p = true <-> exists r, v = s2t "/" ++ r) /\
  exists pieces, v = separated (s2t "/") pieces /\ (forall x c, In x pieces -> In c x -> s2t "/" <> [c]) /\ named pieces (u_components p).
(** Digits, and the number they write. *)
Inductive decimal : text -> N -> Prop :=
| dec_none : decimal [] 0
| dec_digit t n d : d < 10 -> decimal t n -> decimal (t ++ [48 + d]) (10 * n + d).
Definition reads_warning (v : text) (w : warning) : Prop := v = warning_name w.
Definition reads_seconds (v : text) (n : N) : Prop :=
  n < 2 ^ 64 /\ exists t, t <> [] /\ (v = t \/ v = s2t "+" ++ t) /\ decimal t n.
Definition reads_framework (v : text) (f : option framework) : Prop :=
  match f with Some f => v = framework_name f | None => v = s2t "auto" end.

Record means (items : list item) (args : option (list text)) (o : options) (sel : option framework) : Prop := Means {
  mn_once : NoDup (flags_in items);
  mn_allow : Forall2 reads_warning (values (s2t "allow") items) (op_allow o);
  mn_check_skill : given (reads_path) (values (s2t "check-skill") items) (op_check_skill o);
  mn_default_config : op_default_config o = true <-> said items "default-config";
  mn_deny : Forall2 reads_warning (values (s2t "deny") items) (op_deny o);
  mn_dump : op_dump o = true <-> said items "dump";
  mn_counts : op_dump_candidate_counts o = true <-> said items "dump-candidate-counts";
  mn_candidates : op_dump_candidates o = true <-> said items "dump-candidates";
  mn_find_skill : op_find_skill o = true <-> said items "find-skill";
  mn_no_lines : op_no_lines_or_columns o = true <-> said items "no-lines-or-columns";
  mn_no_local : op_no_local_functions o = true <-> said items "no-local-functions";
  mn_no_sqlite : op_no_sqlite o = true <-> said items "no-sqlite";
  mn_quiet : op_quiet o = true <-> said items "quiet";
  mn_reset : op_reset o = true <-> said items "reset";
  mn_resume : op_resume o = true <-> said items "resume";
  mn_root : given (reads_path) (values (s2t "root") items) (op_root o);
  mn_timeout : given reads_seconds (values (s2t "timeout") items) (op_timeout o);
  mn_verbose : op_verbose o = true <-> said items "verbose";
  mn_write : op_write o = true <-> said items "write";
  mn_files : Forall2 (reads_path) (files_in items) (op_source_files o);
  mn_args : op_args o = match args with Some a => a | None => [] end;
  mn_framework : exists f, given reads_framework (values (s2t "framework") items) f /\ sel = match f with Some (Some x) => Some x | _ => None end
}.

(** A word that asks for the help or the version instead: spelt out, or first in a cluster of short options. *)
Definition asks_info (w : text) : Prop :=
  w = s2t "--help" \/ w = s2t "--version" \/ exists r, w = s2t "-h" ++ r \/ w = s2t "-V" ++ r.
