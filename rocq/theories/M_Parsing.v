(** Model of [ParseAdapter::parse] (backends/src/parsing.rs:370-498): which files are read, and how the
    candidates of one file and of several files come together.  It composes the models of the configuration
    ([M_Config]), of the directives ([M_Directives]) and of the walk over a file ([M_Visitor]). *)
From Verif Require Import Base M_Text M_Rewriter M_Span M_Run M_Output M_Visitor M_Config L_Config M_Directives.

(** What a back end makes of a source file ([parse_source_file], [storage_from_file], [local_functions]:
    parsing.rs:395-424): the tree, and the local functions by name ([BTreeMap<String, Vec<LocalFunction>>]). *)
Record pfile := PFile { pf_root : node; pf_locals : list (text * list node) }.

(** Warnings issued while parsing. *)
Inductive pwarn :=
| PWConfig (w : warning)
| PWDirective (p : path) (x : dwarn)
| PWParsingFailed (p : path)
| PWAmbiguous (p : path) (names : list text).
Definition pw_warning (x : pwarn) : warning :=
  match x with
  | PWConfig w => w
  | PWDirective _ d => dw_warning d
  | PWParsingFailed _ => WParsingFailed
  | PWAmbiguous _ _ => WLocalFunctionAmbiguous
  end.

Inductive perror :=
| PEConfig (e : config_error)       (* a pattern is not legal *)
| PEDenied (w : warning)            (* a warning that is an error *)
| PERead (p : path)                 (* a source file cannot be read *)
| PEWalk (p : path).                (* a directory cannot be walked *)

(** [core/src/framework/mod.rs:34] [SourceFileSpanTestMap]: a [BTreeMap], hence sorted; [SourceFile]s compare
    by their path below the root (core/src/source_file.rs:120-124). *)
Definition files_map := list (path * span_test_maps).

(** [entry(source_file).or_default()] with an update of the entry. *)
Fixpoint upsert (p : path) (f : span_test_maps -> span_test_maps) (m : files_map) : files_map :=
  match m with
  | [] => [(p, f (STM [] []))]
  | (q, x) :: r =>
    match path_compare p q with
    | Lt => (p, f (STM [] [])) :: m
    | Eq => (q, f x) :: r
    | Gt => (q, x) :: upsert p f r
    end
  end.

(** parsing.rs:489-497: one of the two loops of [extend]. *)
Definition merge_map (incoming into : list (span * list text)) : list (span * list text) :=
  fold_left (fun m e => map_add (fst e) (snd e) m) incoming into.

(** backends/src/parsing.rs:484-498 [extend]. *)
Definition extend (m : files_map) (p : path) (incoming : span_test_maps) : files_map :=
  upsert p (fun x => STM (merge_map (stm_statement incoming) (stm_statement x)) (merge_map (stm_method incoming) (stm_method x))) m.

Section Parsing.
Context (alphanumeric : char -> bool).                   (* [char::is_alphanumeric] *)
Context (fw : M_Visitor.framework) (own : builtin).      (* the back end *)
Context (parse_file : path -> text -> option pfile).     (* its parser; given the path below the root *)
Context (denied : warning -> bool).                      (* [--deny] *)
Context (root : path) (read : path -> option text) (is_dir is_file : path -> bool)
        (walk_dir : path -> list (option path)).         (* the file system; absolute paths; [None] is a failed entry *)

Definition lookup_local (l : list (text * list node)) (name : text) : list node :=
  match find (fun e => text_eqb (fst e) name) l with Some (_, fs) => fs | None => [] end.

(** parsing.rs:420-443: the visitor's surroundings. *)
Definition file_env (c : compiled) (d : directives) (contents : text) (f : pfile) : venv :=
  VEnv fw (any_match_b (c_functions c)) (any_match_b (c_macros c)) (any_match_b (c_methods c))
    (fun t => mem_text t (c_tests c)) (c_visit_args c) (c_disambiguation c)
    (fun name => if any_match_b (c_walkable c) name then lookup_local (pf_locals f) name else [])   (* 420-424 *)
    (fun sp => match skip d contents sp with Some b => b | None => false end)
      (* directives.rs:61-65; the spans the parsers produce lie in the file, where [skip] is never [None] *)
    contents.

(** At most this many local functions can be walked (see C35). *)
Definition enough (f : pfile) : nat := length (concat (map snd (pf_locals f))).

(** What a file contributes: the names of its tests and its candidates, or nothing. *)
Definition contribution := option (list text * span_test_maps).

(** parsing.rs:390-446, the part of [visit_source_file] that depends on the file alone; the warnings in order.
    The back ends' own errors and warnings during the walk (Rust's unknown module paths, for instance) are left out. *)
Definition visit_one (c : compiled) (p : path) (contents : text) : list pwarn * res perror contribution :=
  let '(dws, rd) := collect alphanumeric denied contents in
  let ws := map (PWDirective p) dws in
  match rd with
  | Panic => (ws, Panic)
  | Err w => (ws, Err (PEDenied w))
  | Ok d =>
    if d_skip_file d then (ws, Ok None)
    else match parse_file p contents with
         | None =>                                                                        (* 398-413 *)
           (ws ++ [PWParsingFailed p], if denied WParsingFailed then Err (PEDenied WParsingFailed) else Ok None)
         | Some f =>
           match visit_file (file_env c d contents f) (enough f) (pf_root f) with
           | LDone st =>                                                                  (* generic_visitor.rs:154-171 *)
             match s_warn st with
             | [] => (ws, Ok (Some (s_tset st, s_maps st)))
             | names => (ws ++ [PWAmbiguous p names],
                         if denied WLocalFunctionAmbiguous then Err (PEDenied WLocalFunctionAmbiguous) else Ok (Some (s_tset st, s_maps st)))
             end
           | _ => (ws, Panic)
           end
         end
  end.

Record pstate := PState { ps_tests : nat; ps_map : files_map; ps_warned : list pwarn }.

(** parsing.rs:381-452 [visit_source_file], given the absolute path. *)
Definition visit_source_file (c : compiled) (full : path) (st : pstate) : pstate * res perror unit :=
  match strip_components root full with
  | None => (st, Panic)                                                                   (* 383 *)
  | Some p =>
    match read full with
    | None => (st, Err (PERead p))                                                        (* 385-386 *)
    | Some contents =>
      let '(ws, r) := visit_one c p contents in
      let st := PState (ps_tests st) (ps_map st) (ps_warned st ++ ws) in
      match r with
      | Panic => (st, Panic)
      | Err e => (st, Err e)
      | Ok None => (st, Ok tt)
      | Ok (Some (tests, maps)) =>
        (PState (ps_tests st + length tests) (extend (ps_map st) p maps) (ps_warned st), Ok tt)   (* 448-449 *)
      end
    end
  end.

(** parsing.rs:466-473: the entries of a directory. *)
Fixpoint visit_entries (c : compiled) (dir : path) (es : list (option path)) (st : pstate) : pstate * res perror unit :=
  match es with
  | [] => (st, Ok tt)
  | None :: _ => (st, Err (PEWalk dir))
  | Some p :: r =>
    if is_file p then
      match visit_source_file c p st with
      | (st, Ok _) => visit_entries c dir r st
      | (st, x) => (st, x)
      end
    else visit_entries c dir r st
  end.

(** parsing.rs:463-479. *)
Fixpoint visit_paths (c : compiled) (ps : list path) (st : pstate) : pstate * res perror unit :=
  match ps with
  | [] => (st, Ok tt)
  | p :: r =>
    let '(st, x) := if is_dir p then visit_entries c p (walk_dir p) st
                    else if is_file p then visit_source_file c p st
                    else (st, Ok tt) in
    match x with Ok _ => visit_paths c r st | _ => (st, x) end
  end.

(** parsing.rs:370-482 [parse]. *)
Definition parse (config : toml) (source_files : list path) : list pwarn * res perror (nat * files_map) :=
  let cws := map PWConfig (check_config own config) in
  match compile_config alphanumeric denied own config with
  | Panic => (cws, Panic)
  | Err UnsupportedDenied => (cws, Err (PEDenied (hd WAll (filter denied (check_config own config)))))
      (* simplification: also the warnings after the denied one are listed *)
  | Err e => (cws, Err (PEConfig e))
  | Ok c =>
    let '(st, x) := visit_paths c (match source_files with [] => [root] | _ => source_files end)
                                (PState 0 [] cws) in
    match x with
    | Ok _ => (ps_warned st, Ok (ps_tests st, ps_map st))
    | Err e => (ps_warned st, Err e)
    | Panic => (ps_warned st, Panic)
    end
  end.
End Parsing.
