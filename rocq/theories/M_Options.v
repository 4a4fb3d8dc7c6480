(** Model of how the command line is checked and turned into work to do:
    core/src/core.rs [process_options] 435-504, [canonicalize_source_files] 559-581, [backend_for_framework] 548-557,
    core/src/framework/auto.rs 28-67, backends/src/lib.rs [Identifier] 58-83 and the back ends' [applicable]. *)
From Verif Require Import Base M_Text M_Span M_Run M_Output.
Local Open Scope N_scope.

(** A path as a user writes it: absolute or relative, and its components (which may include
    ".." and symbolic links). *)
Record upath := UPath { u_absolute : bool; u_components : path }.

(** core/src/core.rs:89-112 [Necessist]; the numeric [timeout] and [args] included for completeness. *)
Record options := Options {
  op_allow : list warning;
  op_check_skill : option upath;
  op_default_config : bool;
  op_deny : list warning;
  op_dump : bool;
  op_dump_candidate_counts : bool;
  op_dump_candidates : bool;
  op_find_skill : bool;
  op_no_lines_or_columns : bool;
  op_no_local_functions : bool;
  op_no_sqlite : bool;
  op_quiet : bool;
  op_reset : bool;
  op_resume : bool;
  op_root : option upath;
  op_timeout : option N;
  op_verbose : bool;
  op_write : bool;
  op_source_files : list upath;
  op_args : list text
}.

(** The fields that [incompatible!] is applied to, named as in the source. *)
Inductive field :=
| check_skill | default_config | dump_ | dump_candidates_ | dump_candidate_counts_ | find_skill
| no_sqlite | quiet | reset | resume | verbose.

(** [stringify!($x)]. *)
Definition field_name (f : field) : text := s2t
  match f with
  | check_skill => "check_skill" | default_config => "default_config" | dump_ => "dump"
  | dump_candidates_ => "dump_candidates" | dump_candidate_counts_ => "dump_candidate_counts"
  | find_skill => "find_skill" | no_sqlite => "no_sqlite" | quiet => "quiet" | reset => "reset"
  | resume => "resume" | verbose => "verbose"
  end%string.

(** [heck::ToKebabCase] on a lower-case identifier: underscores become dashes. *)
Definition snake_kebab (t : text) : text := map (fun c => if c =? 95 then DASH else c) t.

(** core/src/core.rs:435-449 [IsSet]. *)
Definition is_set (o : options) (f : field) : bool :=
  match f with
  | check_skill => match op_check_skill o with Some _ => true | None => false end
  | default_config => op_default_config o
  | dump_ => op_dump o
  | dump_candidates_ => op_dump_candidates o
  | dump_candidate_counts_ => op_dump_candidate_counts o
  | find_skill => op_find_skill o
  | no_sqlite => op_no_sqlite o
  | quiet => op_quiet o
  | reset => op_reset o
  | resume => op_resume o
  | verbose => op_verbose o
  end.

(** core/src/core.rs:453-463, the inner repetition: the first option against each of the others. *)
Fixpoint ensure_each (o : options) (x : field) (ys : list field) : res text unit :=
  match ys with
  | [] => Ok tt
  | y :: ys' =>
    if is_set o x && is_set o y
    then Err (s2t "--" ++ snake_kebab (field_name x) ++ s2t " and --" ++ snake_kebab (field_name y) ++ s2t " are incompatible")
    else ensure_each o x ys'
  end.
(** core/src/core.rs:451-467 [incompatible!]. *)
Fixpoint incompatible (o : options) (xs : list field) : res text unit :=
  match xs with
  | [] => Ok tt
  | x :: ys => bind (ensure_each o x ys) (fun _ => incompatible o ys)
  end.

(** core/src/core.rs:469-504 [process_options]. *)
Definition process_options (o : options) : res text unit :=
  bind (incompatible o [check_skill; default_config; dump_; dump_candidates_; dump_candidate_counts_; find_skill; reset; resume])
    (fun _ =>
  bind (incompatible o [dump_; no_sqlite; reset; resume]) (fun _ =>
  bind (incompatible o [check_skill; dump_; dump_candidates_; dump_candidate_counts_; find_skill; quiet]) (fun _ =>
  bind (incompatible o [quiet; verbose]) (fun _ =>
  if op_write o && negb (is_set o check_skill) && negb (op_find_skill o)
  then Err (s2t "--write can be used only with --check-skill <PATH> or --find-skill")
  else Ok tt)))).

(** ** Source files *)

Inductive file_error := NotCanonicalizable (p : upath) | NotInRoot (q : path).

(** core/src/core.rs:565-569: [PathBuf::join] of a relative path, or the path itself. *)
Definition resolve (root : path) (p : upath) : path :=
  if u_absolute p then u_components p else root ++ u_components p.

(** [Path::starts_with]: by components. *)
Definition starts_with (p root : path) : bool :=
  match strip_components root p with Some _ => true | None => false end.

(** core/src/core.rs:559-581 [canonicalize_source_files]; [canon] is [dunce::canonicalize], which fails if there is
    no such file, and otherwise returns the absolute path free of links. *)
Fixpoint canonicalize_source_files (canon : path -> option path) (root : path) (ps : list upath)
  : res file_error (list path) :=
  match ps with
  | [] => Ok []
  | p :: rest =>
    match canon (resolve root p) with
    | None => Err (NotCanonicalizable p)
    | Some q =>
      if starts_with q root
      then bind (canonicalize_source_files canon root rest) (fun qs => Ok (q :: qs))
      else Err (NotInRoot q)
    end
  end.

(** ** Frameworks *)

(** backends/src/lib.rs:58-68 [Identifier]; [EnumIter] yields them in this order. *)
Inductive framework := Anchor | Foundry | Go | Hardhat | Php | Rust | Vitest.
Definition all_frameworks : list framework := [Anchor; Foundry; Go; Hardhat; Php; Rust; Vitest].

(** backends/src/lib.rs:124-128 [Display]. *)
Definition framework_name (f : framework) : text := s2t
  match f with
  | Anchor => "anchor" | Foundry => "foundry" | Go => "go" | Hardhat => "hardhat" | Php => "php"
  | Rust => "rust" | Vitest => "vitest"
  end%string.

(** [root.join(name).try_exists_wc()]: [None] if it cannot be determined. *)
Definition exists_oracle := text -> option bool.

(** [Identifier::applicable] (backends/src/lib.rs:71-83): anchor/mod.rs:36-38, foundry/mod.rs:30-32, go/mod.rs:95-97,
    hardhat/mod.rs:17-19, php/mod.rs:113-117, rust/mod.rs:47-49, vitest/mod.rs:17-19.  [None] is an error. *)
Definition applicable (ex : exists_oracle) (f : framework) : option bool :=
  match f with
  | Anchor => ex (s2t "Anchor.toml")
  | Foundry => ex (s2t "foundry.toml")
  | Go => ex (s2t "go.mod")
  | Hardhat => ex (s2t "hardhat.config.ts")
  | Php => match ex (s2t "php.xml") with
           | None => None
           | Some xml => match ex (s2t "php.xml.dist") with
                         | None => None
                         | Some xml_dist => Some (xml || xml_dist)
                         end
           end
  | Rust => ex (s2t "Cargo.toml")
  | Vitest => ex (s2t "vitest.config.ts")
  end.

Inductive framework_error :=
| ExistsFailed                       (* applicable(..)? failed *)
| MultipleApplicable (names : text)  (* auto.rs:46-55 *)
| NoneApplicable.                    (* core.rs:556 *)

(** core/src/framework/auto.rs:34-44: [collect::<Result<Vec<_>>>] then [flatten]. *)
Fixpoint applicable_frameworks (ex : exists_oracle) (fs : list framework) : option (list framework) :=
  match fs with
  | [] => Some []
  | f :: rest =>
    match applicable ex f with
    | None => None
    | Some b => match applicable_frameworks ex rest with
                | None => None
                | Some l => Some (if b then f :: l else l)
                end
    end
  end.

(** [join(", ")]. *)
Fixpoint join_comma (l : list text) : text :=
  match l with
  | [] => []
  | [x] => x
  | x :: rest => x ++ s2t ", " ++ join_comma rest
  end.

(** core/src/framework/auto.rs:28-67 [Auto::to_implementation] through core.rs:548-557 [backend_for_framework].
    [None] is [--framework auto], the default.  Only Anchor's construction can fail after this point
    (backends/src/lib.rs:88-117); that is left to the parse oracle. *)
Definition choose_framework (ex : exists_oracle) (sel : option framework) : res framework_error framework :=
  match sel with
  | Some f => Ok f
  | None =>
    match applicable_frameworks ex all_frameworks with
    | None => Err ExistsFailed
    | Some fs =>
      if Nat.leb (length fs) 1
      then match fs with f :: _ => Ok f | [] => Err NoneApplicable end
      else Err (MultipleApplicable (join_comma (map framework_name fs)))
    end
  end.
