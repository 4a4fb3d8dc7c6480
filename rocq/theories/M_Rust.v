(** Model of how the Rust back end names tests: backends/src/rust/storage.rs, backends/src/rust/mod.rs:60-138, 209-219,
    703-802, backends/src/rust/visitor.rs:116-172. *)
From Verif Require Import Base M_Text M_Rewriter M_Span M_Run M_Output.

(** ** Module paths: rust/storage.rs *)

(** [Path::file_stem] of a normal file name: what precedes the last dot, unless that is empty or there is no dot. *)
Definition DOT : char := 46%N.
Fixpoint after_dot (rev_name : text) : option text :=       (* the reversed name without its last extension *)
  match rev_name with
  | [] => None
  | c :: r => if N.eqb c DOT then Some r else after_dot r
  end.
Definition file_stem (name : text) : text :=
  match after_dot (rev name) with
  | Some (c :: r) => rev (c :: r)
  | _ => name
  end.

Definition ROOT_STEMS : list text := [s2t "lib"; s2t "main"; s2t "mod"].

(** storage.rs:151-167 [fs_module_path].  A path is its list of components; the empty path has no parent. *)
Definition fs_module_path (p : path) : path :=
  match rev p with
  | [] => []
  | file :: rev_parent =>
    let stem := file_stem file in
    rev rev_parent ++ (if mem_text stem ROOT_STEMS then [] else [stem])
  end.

(** storage.rs:69-90: the path of the source file relative to the directory its crate's modules are in. *)
Definition PREFIXES : list (path * bool) := [([s2t "src"; s2t "bin"], true); ([s2t "src"], false); ([s2t "tests"], true)].
Fixpoint relative_path (prefixes : list (path * bool)) (manifest_dir source : path) : option path :=
  match prefixes with
  | [] => None
  | (dir, includes_crate_name) :: rest =>
    match strip_components (manifest_dir ++ dir) source with
    | Some suffix =>
      if includes_crate_name then match suffix with [] => None | _ :: r => Some r end else Some suffix
    | None => relative_path rest manifest_dir source
    end
  end.

(** A package: the directory of its manifest, and what is used of its targets: kinds, name, source path. *)
Inductive target_kind := TLib | TBin | TTest | TOtherKind.
Record target := Target { t_kinds : list target_kind; t_name : text; t_src : path }.
Record package := Package { p_dir : path; p_targets : list target }.

Definition starts_with_path (p dir : path) : bool := match strip_components dir p with Some _ => true | None => false end.

(** storage.rs:109-128: the package whose manifest directory is nearest to the source file. *)
Fixpoint nearest (near : option package) (packages : list package) (source : path) : option package :=
  match packages with
  | [] => near
  | curr :: rest =>
    if negb (starts_with_path source (p_dir curr)) then nearest near rest source
    else match near with
         | Some prev => if (length (p_dir prev) <? length (p_dir curr))%nat then nearest (Some curr) rest source else nearest near rest source
         | None => nearest (Some curr) rest source
         end
  end.

Inductive path_error := NoPackage | NoRelativePath.
(** storage.rs:50-95 [cached_source_file_fs_module_path], on a cache miss; [packages] is the workspace's metadata. *)
Definition module_path (packages : list package) (source : path) : res path_error path :=
  match nearest None packages source with
  | None => Err NoPackage
  | Some p =>
    match relative_path PREFIXES (p_dir p) source with
    | None => Err NoRelativePath
    | Some rel => Ok (fs_module_path rel)
    end
  end.

(** ** The cache: rust/try_insert.rs [or_try_insert_with], as used in storage.rs and mod.rs: a failure is not remembered. *)
Section Cache.
Context {K V E : Type} (K_eqb : K -> K -> bool).
Fixpoint lookup (k : K) (m : list (K * V)) : option V :=
  match m with [] => None | (k', v) :: m' => if K_eqb k k' then Some v else lookup k m' end.
Definition or_try_insert (m : list (K * V)) (k : K) (compute : res E V) : list (K * V) * res E V :=
  match lookup k m with
  | Some v => (m, Ok v)
  | None => match compute with Ok v => ((k, v) :: m, Ok v) | Err e => (m, Err e) | Panic => (m, Panic) end
  end.
End Cache.

(** ** Tests: rust/visitor.rs:116-172 *)
(** What the traversal looks at: modules, functions with whether they are tests (visitor.rs:245-271) and the items in their
    bodies, and other constructs that contain items. *)
Inductive item :=
| IMod (name : text) (items : list item)
| IFn (test : bool) (name : text) (items : list item)
| IOther (items : list item).

Definition COLONS : text := s2t "::".
(** [join("::")] *)
Fixpoint join_colons (p : list text) : text :=
  match p with [] => [] | [x] => x | x :: r => x ++ COLONS ++ join_colons r end.

Section Tests.
Context (fs : res path_error path).        (* the file's module path *)
Context (listed : text -> bool).           (* the names that [cargo test -- --list] prints *)
Context (ignored : text -> bool).          (* the configured [ignored_tests]: visit_test says not to walk *)

(** storage.rs:28-47 [test_path]. *)
Definition test_path (mods : path) (name : text) : res path_error path :=
  match fs with Ok p => Ok (p ++ mods ++ [name]) | Err e => Err e | Panic => Panic end.

(** State: the tests found, in order, and the names of the tests whose module path is unknown. *)
Definition tstate := (list path * list text)%type.

Definition fold_items (w : item -> tstate -> option tstate) : list item -> tstate -> option tstate :=
  fix go (l : list item) (st : tstate) : option tstate :=
    match l with [] => Some st | i :: r => match w i st with Some st' => go r st' | None => None end end.

(** visitor.rs:116-172 with [Test::new] (mod.rs:70-118). [mods] is [Storage::module_path], [in_test] whether [test_ident] is
    set. [None]: the assertion at visitor.rs:134 fails. *)
Fixpoint visit_item (mods : path) (in_test : bool) (i : item) (st : tstate) {struct i} : option tstate :=
  match i with
  | IMod name items => fold_items (visit_item (if in_test then mods else mods ++ [name]) in_test) items st
  | IOther items => fold_items (visit_item mods in_test) items st
  | IFn false _ _ => Some st
  | IFn true name items =>
    if in_test then None
    else
      match test_path mods name with
      | Ok p =>
        if listed (join_colons p) then
          let st := (fst st ++ [p], snd st) in
          if ignored (join_colons p) then Some st else fold_items (visit_item mods true) items st
        else Some st
      | _ => Some (fst st, snd st ++ [name])
      end
  end.
Definition find_tests (file : list item) : option tstate := fold_items (visit_item [] false) file ([], []).
End Tests.

(** ** Identifiers of tests: rust/mod.rs:123-138, 212-219 *)
(** [TEST_PATH_ID_MAP] and [TEST_PATHS].  Nothing in the code ever inserts into the map. *)
Record id_state := IdState { id_map : list (path * nat); id_paths : list path }.
Definition init_ids : id_state := IdState [] [].
Definition reserve_test_path_id (st : id_state) (p : path) : id_state * nat :=
  match lookup path_eqb p (id_map st) with
  | Some i => (st, i)
  | None => (IdState (id_map st) (id_paths st ++ [p]), length (id_paths st))
  end.
(** [Test::name]; [None]: index out of bounds. *)
Definition id_name (st : id_state) (i : nat) : option text := option_map join_colons (nth_error (id_paths st) i).
Fixpoint reserve_all (st : id_state) (ps : list path) : id_state * list nat :=
  match ps with
  | [] => (st, [])
  | p :: r => let '(st, i) := reserve_test_path_id st p in let '(st, is) := reserve_all st r in (st, i :: is)
  end.

(** ** Flags: rust/mod.rs:703-802 *)
(** mod.rs:784-802 [source_file_test]. *)
Definition is_test_target (source : path) (t : target) : bool :=
  match t_kinds t with [TTest] => path_eqb (t_src t) source | _ => false end.
Definition source_file_test (p : package) (source : path) : option text :=
  match filter (is_test_target source) (p_targets p) with [t] => Some (t_name t) | _ => None end.

(** mod.rs:729-744. *)
Fixpoint unit_flags (bin lib : bool) (kinds : list target_kind) : list text :=
  match kinds with
  | [] => []
  | k :: r =>
    match k with
    | TBin => if bin then unit_flags bin lib r else s2t "--bins" :: unit_flags true lib r
    | TLib => if lib then unit_flags bin lib r else s2t "--lib" :: unit_flags bin true r
    | _ => unit_flags bin lib r
    end
  end.
Definition manifest_path (p : package) : text := SLASH :: join_path (p_dir p ++ [s2t "Cargo.toml"]).
(** mod.rs:703-749 [cached_source_file_flags], on a cache miss. *)
Definition source_file_flags (p : package) (source : path) : list text :=
  [s2t "--manifest-path"; manifest_path p] ++
  match source_file_test p source with
  | Some name => [s2t "--test"; name]
  | None => unit_flags false false (flat_map t_kinds (p_targets p))
  end.
