(** Model of core/src/sqlite.rs and of the two SQL files next to it.

    The database engine is reduced to what these statements do to the file [necessist.db]: whether the
    file is there, whether it has a table [removal], and the table's rows.  Each statement may
    fail for reasons of the engine's own; the oracle [sql] says which do. *)
From Verif Require Import Base M_Text M_Rewriter M_Span M_Run M_Output.
Local Open Scope N_scope.

(** core/src/sqlite.rs:42-49 [Removal]: a row. *)
Record row := Row { r_span : text; r_text : text; r_outcome : text; r_url : text }.

(** [None]: no file.  [Some None]: a file without the table.  [Some (Some rows)]: the table. *)
Definition db_file := option (option (list row)).

(** Which statements of the engine succeed. *)
Record sql := Sql { q_exists : bool;    (* try_exists does not fail *)
                    q_open : bool; q_drop : bool; q_create : bool; q_load : bool; q_insert : bool }.

Inductive db_error := DbExists | DbMissing | WarningDenied | EngineFailed | RowUnreadable.

(** core/src/outcome.rs:12 [EnumIter]: in declaration order. *)
Definition all_outcomes : list outcome := [Skipped; Nonbuildable; Failed; TimedOut; Passed].
(** core/src/outcome.rs:32-39 [FromStr]. *)
Definition parse_outcome (t : text) : option outcome := find (fun x => text_eqb (outcome_name x) t) all_outcomes.

(** core/src/create_table_removal.sql: the CHECK constraint. *)
Definition check_outcome (t : text) : bool :=
  existsb (text_eqb t) [s2t "skipped"; s2t "nonbuildable"; s2t "failed"; s2t "timed-out"; s2t "passed"].

(** core/src/sqlite.rs:52-67 [into_internal_removal]. *)
Definition into_internal (file_exists : path -> bool) (r : row) : res db_error removal :=
  match parse_span file_exists (r_span r) with
  | Ok s => match parse_outcome (r_outcome r) with
            | Some x => Ok (Removal s (r_text r) x)
            | None => Err RowUnreadable
            end
  | Err _ => Err RowUnreadable
  | Panic => Panic
  end.

(** [.map(..).collect::<Result<Vec<_>>>()] (core/src/sqlite.rs:131-134). *)
Fixpoint into_internals (file_exists : path -> bool) (rs : list row) : res db_error (list removal) :=
  match rs with
  | [] => Ok []
  | r :: rest => bind (into_internal file_exists r) (fun x =>
                 bind (into_internals file_exists rest) (fun xs => Ok (x :: xs)))
  end.

(** core/src/sqlite.rs:70-153 [init], up to the search for the git remote: the states the file goes through
    (the first is the initial one), and the result.  [denied]: the warning
    [database-does-not-exist] is denied.  Rows are loaded in the order of the list; the engine
    may choose another, and core.rs:957 sorts them. *)
Definition init (q : sql) (file_exists : path -> bool) (denied : bool) (dump reset resume : bool) (db : db_file)
  : list db_file * res db_error (list removal) :=
  if negb (q_exists q) then ([db], Err EngineFailed) else
  let exists_ := match db with None => false | Some _ => true end in
  let go (_ : unit) :=
    (* 113-114: opening creates the file if there is none *)
    if negb (q_open q) then ([db], Err EngineFailed) else
    let db1 := match db with None => Some None | d => d end in
    (* 116-121: DROP TABLE removal, an error if there is no such table *)
    let dropped := if reset && exists_
                   then match db1 with
                        | Some (Some _) => if q_drop q then Some [db; Some None] else None
                        | _ => None
                        end
                   else Some [db1] in
    match dropped with
    | None => ([db], Err EngineFailed)
    | Some states =>
      if reset || negb exists_
      then (* 123-128: CREATE TABLE removal *)
        if q_create q then ((if exists_ then states else db :: states) ++ [Some (Some [])], Ok [])
        else ((if exists_ then states else db :: states), Err EngineFailed)
      else (* 129-135 *)
        match db1 with
        | Some (Some rows) => if q_load q then ([db], into_internals file_exists rows) else ([db], Err EngineFailed)
        | _ => ([db], Err EngineFailed)
        end
    end in
  match exists_, dump, reset, resume with
  | true, false, false, false => ([db], Err DbExists)                        (* 89-92 *)
  | false, true, _, _ => ([db], Err DbMissing)                               (* 93-96 *)
  | false, _, true, _ => if denied then ([db], Err WarningDenied) else go tt (* 97-102 *)
  | false, _, _, true => if denied then ([db], Err WarningDenied) else go tt (* 103-108 *)
  | _, _, _, _ => go tt
  end.

(** core/src/sqlite.rs:28-32 [Remote]; the working directory of the repository is the components of an
    absolute path, or none for a bare repository. *)
Record remote := Remote { rt_url : text; rt_oid : text; rt_workdir : option path }.

Definition AT : char := 64.

(** [str::strip_suffix]. *)
Definition strip_suffix (s t : text) : option text :=
  match strip_prefix (rev s) (rev t) with Some r => Some (rev r) | None => None end.

(** core/src/sqlite.rs:181-184 [SSH_RE], [^[^@]*@([^:]* ):(.* )$]: the classes exclude the delimiters, so the
    match is unique; [.] does not match a line break. *)
Definition ssh_captures (t : text) : option (text * text) :=
  match split_at AT t with
  | None => None
  | Some (_, rest) =>
    match split_at COLON rest with
    | None => None
    | Some (host, p) => if existsb (fun c => c =? NL) p then None else Some (host, p)
    end
  end.

(** core/src/sqlite.rs:186-212 [url_from_span]; [root] is the components of the root's path. *)
Definition url_from_span (root : path) (r : remote) (s : span) : res unit text :=
  let base := match strip_suffix (s2t ".git") (rt_url r) with Some b => b | None => rt_url r end in
  let base := match ssh_captures base with
              | Some (host, p) => s2t "https://" ++ host ++ SLASH :: p
              | None => base
              end in
  match match rt_workdir r with Some d => strip_components d (root ++ sp_path s) | None => None end with
  | None => Panic                                                            (* 201: unwrap *)
  | Some p => Ok (base ++ s2t "/blob/" ++ rt_oid r ++ SLASH :: join_path p ++ s2t "#L" ++ print_usize (line (sp_start s))
                    ++ s2t "-L" ++ print_usize (line (sp_end s)))
  end.

(** core/src/sqlite.rs:155-179 [insert]: the row stored for a removal. *)
Definition store (root : path) (rt : option remote) (r : removal) : res unit row :=
  match rt with
  | None => Ok (Row (display_span (rm_span r)) (rm_text r) (outcome_name (rm_outcome r)) [])
  | Some rt => match url_from_span root rt (rm_span r) with
               | Ok u => Ok (Row (display_span (rm_span r)) (rm_text r) (outcome_name (rm_outcome r)) u)
               | Err e => Err e
               | Panic => Panic
               end
  end.

(** INSERT with the constraints of create_table_removal.sql: primary key [span], CHECK on [outcome]. *)
Definition insert_row (q : sql) (db : db_file) (r : row) : db_file * res db_error unit :=
  match db with
  | Some (Some rows) =>
    if existsb (fun x => text_eqb (r_span x) (r_span r)) rows || negb (check_outcome (r_outcome r)) || negb (q_insert q)
    then (db, Err EngineFailed) else (Some (Some (rows ++ [r])), Ok tt)
  | _ => (db, Err EngineFailed)
  end.

(** The database part of one process: open it with the flags, then insert removals one by one, stopping at the first
    failure or whenever the process is stopped; the state left behind. *)
Fixpoint insert_all (root : path) (rt : option remote) (q : nat -> sql) (n : nat) (db : db_file) (rs : list removal) : db_file :=
  match rs with
  | [] => db
  | r :: rest =>
    match store root rt r with
    | Ok x => match insert_row (q n) db x with
              | (db', Ok _) => insert_all root rt q (S n) db' rest
              | (db', _) => db'
              end
    | _ => db
    end
  end.

(** What a process does to the database: [stop] says after how many changes of state in [init] it is stopped, if it is
    stopped there. *)
Record process := Process { p_sql : nat -> sql; p_exists : path -> bool; p_denied : bool;
  p_dump : bool; p_reset : bool; p_resume : bool; p_remote : option remote; p_stop : option nat; p_emits : list removal }.
Definition session (root : path) (p : process) (db : db_file) : db_file :=
  let '(states, r) := init (p_sql p 0%nat) (p_exists p) (p_denied p) (p_dump p) (p_reset p) (p_resume p) db in
  match p_stop p with
  | Some n => nth n states (last states db)
  | None => match r with
            | Ok _ => if p_dump p then last states db
                      else insert_all root (p_remote p) (p_sql p) 1 (last states db) (p_emits p)
            | _ => last states db
            end
  end.
