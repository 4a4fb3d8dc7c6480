(** Model of the command line: core/src/cli.rs ([Opts], its conversion), core/src/framework/union.rs and auto.rs (the
    values of [--framework]), core/src/warn.rs 13-35 (the values of [--allow] and [--deny]), necessist/src/main.rs 16-24.
    What the [clap] crate does with these declarations is modelled by its documented contract (clap 4.6): long options
    written [--name], [--name value] or [--name=value], no abbreviations, everything but [Append] options at most once, a
    separate value may not look like an option, [--] ends the options, [-h], [--help], [-V], [--version] print and exit.
    Simplified: arguments are Unicode; the texts of usage errors and of the help are not modelled. *)
From Verif Require Import Base M_Text M_Span M_Run M_Output M_Options.
Local Open Scope N_scope.

(** ** Values from a list of names *)

(** A [clap::ValueEnum] without hidden values or aliases: [value_variants], each with the name of its
    [to_possible_value]. *)
Definition variants (A : Type) := list (A * text).

(** The [ValueEnum::from_str] that clap provides, without regard for [ignore_case], which is false throughout: the first
    variant of that name. *)
Fixpoint from_str {A : Type} (l : variants A) (input : text) : option A :=
  match l with
  | [] => None
  | (a, name) :: r => if text_eqb name input then Some a else from_str r input
  end.

(** [Vec<String>::sort]: by code points. *)
Fixpoint name_insert (x : text) (l : list text) : list text :=
  match l with
  | [] => [x]
  | y :: r => match text_compare y x with Gt => x :: l | _ => y :: name_insert x r end
  end.
Definition name_sort (l : list text) : list text := fold_right name_insert [] l.

Section Union.
Context {L R : Type} (ls : variants L) (rs : variants R).

(** core/src/framework/union.rs:25-29 [Union] is [L + R]; 136-144 [from_str]. *)
Definition union_from_str (input : text) : option (L + R) :=
  match from_str ls input with
  | Some l => Some (inl l)
  | None => option_map inr (from_str rs input)
  end.


(** core/src/framework/union.rs:107-127 [value_variants], with 129-134 [to_possible_value] of each: every element carries
    the name by which [from_str] found it, which is that of its [to_possible_value] (each side looks a name up among its
    own variants). *)
Definition union_variants : variants (L + R) :=
  flat_map (fun name => match union_from_str name with Some v => [(v, name)] | None => [] end)
    (name_sort (map snd ls ++ map snd rs)).
End Union.

(** core/src/framework/auto.rs:10-14 [Singleton]. *)
Definition singleton_variants : variants unit := [(tt, s2t "auto")].
(** backends/src/lib.rs:58-68 [Identifier]: the derived names. *)
Definition framework_debug (f : framework) : text := s2t
  match f with
  | Anchor => "Anchor" | Foundry => "Foundry" | Go => "Go" | Hardhat => "Hardhat" | Php => "Php"
  | Rust => "Rust" | Vitest => "Vitest"
  end%string.
Definition identifier_variants : variants framework := map (fun f => (f, kebab (framework_debug f))) all_frameworks.
(** core/src/framework/auto.rs:69-92 [ValueEnum for Auto]. *)
Definition auto_variants : variants (unit + framework) := union_variants singleton_variants identifier_variants.
(** core/src/warn.rs:13-35. *)
Definition all_warnings : list warning :=
  [WAll; WDatabaseDoesNotExist; WDirectiveUnrecognized; WDryRunFailed; WFilesChanged; WIgnoredFunctionsUnsupported;
   WIgnoredMacrosUnsupported; WIgnoredMethodsUnsupported; WInstrumentationNonbuildable; WItMessageNotFound;
   WLocalFunctionAmbiguous; WModulePathUnknown; WOptionDeprecated; WOutputInvalid; WParsingFailed; WRunTestFailed;
   WSkipFileMispositioned].
Definition warning_variants : variants warning := map (fun w => (w, kebab (warning_debug w))) all_warnings.

(** ** Options *)

(** core/src/cli.rs:9-91 [Opts], the options proper. *)
Inductive opt :=
| OAllow | OCheckSkill | ODefaultConfig | ODeny | ODump | ODumpCandidateCounts | ODumpCandidates | OFindSkill | OFramework
| ONoLinesOrColumns | ONoLocalFunctions | ONoSqlite | OQuiet | OReset | OResume | ORoot | OTimeout | OVerbose | OWrite.
Definition all_opts : list opt :=
  [OAllow; OCheckSkill; ODefaultConfig; ODeny; ODump; ODumpCandidateCounts; ODumpCandidates; OFindSkill; OFramework;
   ONoLinesOrColumns; ONoLocalFunctions; ONoSqlite; OQuiet; OReset; OResume; ORoot; OTimeout; OVerbose; OWrite].
Definition opt_eq_dec (a b : opt) : {a = b} + {a <> b}.
Proof. decide equality. Defined.
Definition opt_eqb (a b : opt) : bool := if opt_eq_dec a b then true else false.
(** The names of the fields (cli.rs:17-78); [#[clap(long)]] makes the option's name of them. *)
Definition opt_field (o : opt) : text := s2t
  match o with
  | OAllow => "allow" | OCheckSkill => "check_skill" | ODefaultConfig => "default_config" | ODeny => "deny" | ODump => "dump"
  | ODumpCandidateCounts => "dump_candidate_counts" | ODumpCandidates => "dump_candidates" | OFindSkill => "find_skill"
  | OFramework => "framework" | ONoLinesOrColumns => "no_lines_or_columns" | ONoLocalFunctions => "no_local_functions"
  | ONoSqlite => "no_sqlite" | OQuiet => "quiet" | OReset => "reset" | OResume => "resume" | ORoot => "root"
  | OTimeout => "timeout" | OVerbose => "verbose" | OWrite => "write"
  end%string.
Definition opt_name (o : opt) : text := snake_kebab (opt_field o).
Definition long_opts : variants opt := map (fun o => (o, opt_name o)) all_opts.

(** The types of the fields (cli.rs:17-78): [bool] takes no value. *)
Definition takes_value (o : opt) : bool :=
  match o with OAllow | OCheckSkill | ODeny | OFramework | ORoot | OTimeout => true | _ => false end.

(** A path as the standard library splits it: repeated separators and [.] do not matter. *)
Notation SLASH := 47%N (only parsing).
Definition upath_of (t : text) : upath :=
  UPath (match t with c :: _ => c =? SLASH | [] => false end)
    (filter (fun c => negb (text_eqb c []) && negb (text_eqb c (s2t "."))) (split_all SLASH [] t)).

(** [clap::ArgMatches]. *)
Record matches := Matches {
  m_flags : opt -> bool;
  m_allow : list warning;
  m_deny : list warning;
  m_check_skill : option upath;
  m_framework : option (unit + framework);
  m_root : option upath;
  m_timeout : option N;
  m_files : list upath;
  m_args : list text
}.
Definition no_matches : matches := Matches (fun _ => false) [] [] None None None None [] [].

(** One more occurrence of a flag ([ArgAction::SetTrue]): at most one. *)
Definition react_flag (o : opt) (m : matches) : option matches :=
  if m_flags m o then None
  else Some (Matches (fun x => opt_eqb o x || m_flags m x) (m_allow m) (m_deny m) (m_check_skill m) (m_framework m) (m_root m) (m_timeout m) (m_files m) (m_args m)).
(** clap's path values are not empty. *)
Definition path_value (v : text) : option upath := match v with [] => None | _ => Some (upath_of v) end.
Definition once {A} (old new : option A) : option A := match old with Some _ => None | None => new end.
(** One more occurrence of an option with a value: [ArgAction::Append] for the vectors (cli.rs:11-17, 32-38),
    [ArgAction::Set] for the [Option]s. *)
Definition react_value (o : opt) (v : text) (m : matches) : option matches :=
  match o with
  | OAllow => option_map (fun w => Matches (m_flags m) (m_allow m ++ [w]) (m_deny m) (m_check_skill m) (m_framework m) (m_root m) (m_timeout m) (m_files m) (m_args m)) (from_str warning_variants v)
  | ODeny => option_map (fun w => Matches (m_flags m) (m_allow m) (m_deny m ++ [w]) (m_check_skill m) (m_framework m) (m_root m) (m_timeout m) (m_files m) (m_args m)) (from_str warning_variants v)
  | OCheckSkill => option_map (fun p => Matches (m_flags m) (m_allow m) (m_deny m) (Some p) (m_framework m) (m_root m) (m_timeout m) (m_files m) (m_args m)) (once (m_check_skill m) (path_value v))
  | OFramework => option_map (fun f => Matches (m_flags m) (m_allow m) (m_deny m) (m_check_skill m) (Some f) (m_root m) (m_timeout m) (m_files m) (m_args m)) (once (m_framework m) (from_str auto_variants v))
  | ORoot => option_map (fun p => Matches (m_flags m) (m_allow m) (m_deny m) (m_check_skill m) (m_framework m) (Some p) (m_timeout m) (m_files m) (m_args m)) (once (m_root m) (path_value v))
  | OTimeout => option_map (fun n => Matches (m_flags m) (m_allow m) (m_deny m) (m_check_skill m) (m_framework m) (m_root m) (Some n) (m_files m) (m_args m)) (once (m_timeout m) (parse_usize v))
  | _ => None
  end.
(** One more positional argument (cli.rs:79-84). *)
Definition react_file (v : text) (m : matches) : option matches :=
  option_map (fun p => Matches (m_flags m) (m_allow m) (m_deny m) (m_check_skill m) (m_framework m) (m_root m) (m_timeout m) (m_files m ++ [p]) (m_args m)) (path_value v).

Inductive parsed := PMatches (m : matches) | PInfo | PUsage.

Definition EQUALS : char := 61.
(** [str::split_once('=')]. *)
Fixpoint split_equals (t : text) : text * option text :=
  match t with
  | [] => ([], None)
  | c :: r => if c =? EQUALS then ([], Some r) else let '(a, b) := split_equals r in (c :: a, b)
  end.
(** A word that is not a value: a dash and something. *)
Definition dashed (t : text) : bool := match t with c :: _ :: _ => c =? DASH | _ => false end.

(** The words of a command line, from left to right. *)
Fixpoint read_words (words : list text) (m : matches) : parsed :=
  match words with
  | [] => PMatches m
  | w :: rest =>
    if text_eqb w [DASH; DASH]
    then PMatches (Matches (m_flags m) (m_allow m) (m_deny m) (m_check_skill m) (m_framework m) (m_root m) (m_timeout m) (m_files m) rest)  (* cli.rs:85-90, [last = true] *)
    else
      match strip_prefix [DASH; DASH] w with
      | Some body =>
        let '(name, value) := split_equals body in
        match from_str long_opts name with
        | None =>
          if text_eqb name (s2t "help") || text_eqb name (s2t "version")
          then match value with None => PInfo | Some _ => PUsage end
          else PUsage
        | Some o =>
          if takes_value o then
            match value with
            | Some v => match react_value o v m with Some m' => read_words rest m' | None => PUsage end
            | None =>
              match rest with
              | [] => PUsage
              | v :: rest' =>
                if dashed v then PUsage
                else match react_value o v m with Some m' => read_words rest' m' | None => PUsage end
              end
            end
          else
            match value with
            | Some _ => PUsage
            | None => match react_flag o m with Some m' => read_words rest m' | None => PUsage end
            end
        end
      | None =>
        if dashed w
        then match w with _ :: c :: _ => if (c =? 104) || (c =? 86) then PInfo else PUsage | _ => PUsage end
        else match react_file w m with Some m' => read_words rest m' | None => PUsage end
      end
  end.

(** core/src/cli.rs:93-147 [From<Opts> for (Necessist, Auto)], with the [Opts] that clap's derive makes of the matches. *)
Definition options_of (m : matches) : options * option framework :=
  (Options (m_allow m) (m_check_skill m) (m_flags m ODefaultConfig) (m_deny m) (m_flags m ODump) (m_flags m ODumpCandidateCounts)
     (m_flags m ODumpCandidates) (m_flags m OFindSkill) (m_flags m ONoLinesOrColumns) (m_flags m ONoLocalFunctions)
     (m_flags m ONoSqlite) (m_flags m OQuiet) (m_flags m OReset) (m_flags m OResume) (m_root m) (m_timeout m)
     (m_flags m OVerbose) (m_flags m OWrite) (m_files m) (m_args m),
   match m_framework m with                 (* 120 [unwrap_or_default], auto.rs:19-23; [None] is [auto] in [M_Options] *)
   | None | Some (inl _) => None
   | Some (inr f) => Some f
   end).

Inductive cli := Run (o : options) (sel : option framework) | Info | Usage.
(** necessist/src/main.rs:16-22: the words after the program's name.  [Info] exits with 0, [Usage] with 2. *)
Definition command_line (words : list text) : cli :=
  match read_words words no_matches with
  | PMatches m => let '(o, sel) := options_of m in Run o sel
  | PInfo => Info
  | PUsage => Usage
  end.
