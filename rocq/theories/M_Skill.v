(** Model of core/src/skill.rs: --check-skill and --find-skill. *)
From Verif Require Import Base M_Text M_Span M_Run.
Local Open Scope N_scope.

(** core/src/skill.rs:56-61 [Status]. *)
Inductive status := Nonexistent | Old | Current | Newer.

(** core/src/skill.rs:64-72 [exit_code]: [true] is [ExitCode::SUCCESS]. *)
Definition exit_success (s : status) : bool :=
  match s with Nonexistent | Old => false | Current | Newer => true end.

(** core/src/skill.rs:28-31 [Mode]. *)
Inductive mode := Check | Find.

Inductive skill_error :=
| NoHome | StatFailed | ReadFailed | MkdirFailed | WriteFailed
| NoLeading | NoTrailing | BadYaml | NoName | WrongName | NoVersion | BadVersion.

(** The header of a skill file, as far as it is looked at: [name], a string, and [metadata.version], a string
    (core/src/skill.rs:204-218). *)
Record header := Header { h_name : option text; h_version : option text }.

(** Files by their real location; [None] is no file. *)
Definition files := path -> option text.
Definition set_file (f : files) (p : path) (t : option text) : files := fun q => if path_eqb p q then t else f q.

(** The file system under the program: [y_real] follows links; the rest says which calls succeed. *)
Record sys := Sys {
  y_real : path -> path;
  y_stat : path -> bool;               (* try_exists does not fail *)
  y_read : path -> bool;               (* read_to_string does not fail *)
  y_mkdir : path -> bool;              (* the path has a parent, and create_dir_all succeeds for it *)
  y_write : path -> option (option text)  (* None: written.  Some x: failed, leaving [x] behind *)
}.

Definition DASHES : text := s2t "---".
Definition SKILL_NAME : text := s2t "necessist-audit".

(** core/src/skill.rs:194 [take_while]. *)
Fixpoint take_header (l : list text) : list text :=
  match l with
  | [] => []
  | x :: r => if text_eqb x DASHES then [] else x :: take_header r
  end.

Section Skill.
Context {V : Type}.
Context (yaml : text -> option header)      (* [yaml_serde::from_str::<Mapping>] and the lookups *)
        (semver : text -> option V)          (* [Version::from_str] *)
        (vcmp : V -> V -> comparison)        (* [Version::cmp] *)
        (vshow : V -> text)                  (* [Version]'s [Display] *)
        (pshow : path -> text)               (* [path.display()] *)
        (builtin : text)                     (* [SKILL], line 17 *)
        (builtin_version : V).               (* [SKILL_VERSION], lines 19-23 *)

(** core/src/skill.rs:188-202 [skill_header]. *)
Definition skill_header (contents : text) : res skill_error header :=
  match lines contents with
  | first :: rest =>
    if text_eqb first DASHES then
      let header_lines := take_header rest in
      match nth_error rest (length header_lines) with
      | Some l =>
        if text_eqb l DASHES then
          match yaml (concat (map (fun x => x ++ [NL]) header_lines)) with
          | Some h => Ok h
          | None => Err BadYaml
          end
        else Err NoTrailing
      | None => Err NoTrailing
      end
    else Err NoLeading
  | [] => Err NoLeading
  end.

(** core/src/skill.rs:208-218 [skill_version]. *)
Definition skill_version (h : header) : res skill_error V :=
  match h_version h with
  | None => Err NoVersion
  | Some t => match semver t with Some v => Ok v | None => Err BadVersion end
  end.

(** A write: what the files are afterwards, and whether it succeeded. *)
Definition write (y : sys) (f : files) (p : path) (t : text) : files * bool :=
  match y_write y p with
  | None => (set_file f (y_real y p) (Some t), true)
  | Some junk => (set_file f (y_real y p) junk, false)
  end.

(** core/src/skill.rs:178-186 [maybe_write_skill]. *)
Definition maybe_write_skill (y : sys) (f : files) (p : path) (w : bool) : files * res skill_error (status * bool) :=
  if w then
    if negb (y_mkdir y p) then (f, Err MkdirFailed) else
    let '(f', ok) := write y f p builtin in
    (f', if ok then Ok (Current, true) else Err WriteFailed)
  else (f, Ok (Nonexistent, false)).

(** core/src/skill.rs:222-228 [maybe_update_skill]. *)
Definition maybe_update_skill (y : sys) (f : files) (p : path) (w : bool) : files * res skill_error (status * bool) :=
  if w then
    let '(f', ok) := write y f p builtin in
    (f', if ok then Ok (Current, true) else Err WriteFailed)
  else (f, Ok (Old, false)).

(** core/src/skill.rs:122-173 [check_impl]: the files afterwards, the lines printed, the result. *)
Definition check_impl (y : sys) (f : files) (m : mode) (p : path) (w : bool)
  : files * list text * res skill_error status :=
  let at_p := s2t "skill at `" ++ pshow p ++ s2t "` " in
  if negb (y_stat y p) then (f, [], Err StatFailed) else
  match f (y_real y p) with
  | None =>                                                            (* 125-138 *)
    match m with
    | Find => (f, [at_p ++ s2t "does not exist"], Ok Nonexistent)
    | Check =>
      match maybe_write_skill y f p w with
      | (f', Ok (st, written)) =>
        (f', [at_p ++ (if written then s2t "did not exist; written"
                       else s2t "does not exist; pass `--write` to write the current version")], Ok st)
      | (f', Err e) => (f', [], Err e)
      | (f', Panic) => (f', [], Panic)
      end
    end
  | Some contents =>
    if negb (y_read y p) then (f, [], Err ReadFailed) else
    match skill_header contents with
    | Err e => (f, [], Err e)
    | Panic => (f, [], Panic)
    | Ok h =>
      match h_name h with
      | None => (f, [], Err NoName)
      | Some n =>
        if negb (text_eqb n SKILL_NAME) then (f, [], Err WrongName) else
        match skill_version h with
        | Err e => (f, [], Err e)
        | Panic => (f, [], Panic)
        | Ok v =>
          match vcmp builtin_version v with                            (* 150-172 *)
          | Lt => (f, [at_p ++ s2t "is a newer version (" ++ vshow v ++ s2t "); consider updating the `necessist` binary"], Ok Newer)
          | Eq => (f, [at_p ++ s2t "is the current version"], Ok Current)
          | Gt =>
            match maybe_update_skill y f p w with
            | (f', Ok (st, updated)) =>
              (f', [at_p ++ (if updated then s2t "was" else s2t "is") ++ s2t " an old version (" ++ vshow v ++ s2t "); "
                     ++ (if updated then s2t "updated" else s2t "pass `--write` to update to the current version")], Ok st)
            | (f', Err e) => (f', [], Err e)
            | (f', Panic) => (f', [], Panic)
            end
          end
        end
      end
    end
  end.

(** core/src/skill.rs:113-120 [well_known_paths]. *)
Definition well_known_paths (home : path) : list path :=
  [home ++ [s2t ".claude"; s2t "skills"; s2t "necessist-audit"; s2t "SKILL.md"];
   home ++ [s2t ".codex"; s2t "skills"; s2t "necessist-audit"; s2t "SKILL.md"]].

(** core/src/skill.rs:100-111 [find_impl]: the loop. *)
Fixpoint find_loop (y : sys) (f : files) (st : status) (ps : list path) (w : bool) : files * list text * res skill_error status :=
  match ps with
  | [] => (f, [], Ok st)
  | p :: rest =>
    match check_impl y f Find p w with
    | (f', out, Ok st') =>
      let '(f'', out', r) := find_loop y f' (if exit_success st then st' else st) rest w in
      (f'', out ++ out', r)
    | (f', out, Err e) => (f', out, Err e)
    | (f', out, Panic) => (f', out, Panic)
    end
  end.
Definition find_impl (y : sys) (f : files) (home : path) (w : bool) := find_loop y f Current (well_known_paths home) w.

(** core/src/skill.rs:95-98 [find]. *)
Definition find (y : sys) (f : files) (home : option path) (w : bool) : files * list text * res skill_error status :=
  match home with
  | None => (f, [], Err NoHome)
  | Some h => find_impl y f h w
  end.

(** core/src/skill.rs:74-93 [check], [warn_if_not_well_known]; the second component is what goes to stderr. *)
Definition check (y : sys) (f : files) (home : option path) (p : path) (w : bool)
  : files * list text * list text * res skill_error status :=
  let warning := match home with
                 | None => []
                 | Some h => if existsb (path_eqb p) (well_known_paths h) then []
                             else [s2t "Warning: `" ++ pshow p ++ s2t "` is not a path that `--find-skill` checks"]
                 end in
  let '(f', out, r) := check_impl y f Check p w in (f', out, warning, r).

End Skill.
