(** What it means that two invocations differ only in where the project is (for C88). *)
From Verif Require Import Base M_Text M_Span M_Run S_Run M_Output S_Output M_Options P_Options M_Find M_Project M_Main P_Main.

(** Corresponding paths: below the one root and, in the same way, below the other; or below neither. *)
Definition corresponds (root root' p p' : path) : Prop := exists r, p = root ++ r /\ p' = root' ++ r.
Definition elsewhere (root root' p p' : path) : Prop := ~ within root p /\ ~ within root' p'.

(** The same options, except that the root may be given in another way, and the source files as well. *)
Definition options_at (root : option upath) (files : list upath) (o : options) : options :=
  Options (op_allow o) (op_check_skill o) (op_default_config o) (op_deny o) (op_dump o) (op_dump_candidate_counts o) (op_dump_candidates o)
    (op_find_skill o) (op_no_lines_or_columns o) (op_no_local_functions o) (op_no_sqlite o) (op_quiet o) (op_reset o) (op_resume o)
    root (op_timeout o) (op_verbose o) (op_write o) files (op_args o).

(** The same surroundings, except for what has to do with the place of the project. *)
Definition setting_at (v : env) (find_root : option upath -> option path) (lock : path -> bool) (canon : path -> option path)
  (parse : framework -> M_Config.toml -> list path -> (path -> text) -> res unit (nat * list (path * span_test_maps))) (g : setting) : setting :=
  Setting v (g_home g) (g_sys g) (g_skill_path g) find_root lock (g_config_stat g) (g_config_read g) (g_config_write g) (g_toml g)
    (g_exists g) (g_construct g) canon parse (g_sql g) (g_file_exists g) (g_handler g) (g_oracle g) (g_url g).

(** The source files named mean corresponding files. *)
Definition same_files (root root' : path) (us us' : list upath) : Prop :=
  Forall2 (fun u u' => exists p p', means root u p /\ means root' u' p' /\ corresponds root root' p p') us us'.

(** Links in the one directory lead to where those in the other do: to a corresponding place, outside the root, or nowhere. *)
Definition same_links (root root' : path) (canon canon' : path -> option path) : Prop :=
  forall p p', corresponds root root' p p' ->
    match canon p, canon' p' with
    | Some q, Some q' => corresponds root root' q q' \/ elsewhere root root' q q'
    | None, None => True
    | _, _ => False
    end.

(** Anchor's test runner is one of the two that the back end knows. *)
Definition known_runner (anchor : finder) : Prop := anchor = find_anchor_mocha \/ anchor = find_anchor_vitest.

(** The two environments show things in the same way: in color or not, and each file of the project under the same name
    (see [file_name]). *)
Definition same_display (v v' : env) : Prop := e_terminal v = e_terminal v' /\ forall p t, file_name v p t <-> file_name v' p t.
