(** Model of the front ends of the languages: the parsed file that each makes of its parser's syntax tree, which is what
    [ParseAdapter] (parsing.rs:370-482, [M_Parsing]) works on.  The parsers (tree-sitter, syn, swc, solang) are parameters. *)
From Verif Require Import Base M_Text M_Rewriter M_Span M_Run M_Options M_Visitor M_Parsing.
From Verif Require M_Tree M_Syn M_Swc M_Foundry.

(** The local functions by name: the functions of each name, in the order of the file (go/visitor.rs:47-73, rust/visitor.rs:18-45,
    ts/inner/visitor.rs:10-31, foundry/visitor/mod.rs:38-59: all collect [BTreeMap<String, Vec<..>>]).  A name that occurs several times has several
    entries here, all the same. *)
Definition by_name {A} (name : A -> text) (view : A -> node) (l : list A) : list (text * list node) :=
  map (fun f => (name f, map view (filter (fun h => text_eqb (name h) (name f)) l))) l.

(** go/mod.rs: [ParseLow] for [Go]: [parse_source_file], [local_functions], [visit_file]; likewise below. *)
Definition go_pfile (root : M_Tree.tree) : pfile :=
  PFile (M_Tree.go_file root) (by_name M_Tree.tf_name (M_Tree.body_node M_Tree.go_class) (M_Tree.go_locals root)).
(** php/mod.rs:307-316: no local functions. *)
Definition php_pfile (root : M_Tree.tree) : pfile := PFile (M_Tree.php_file root) [].
(** rust/visitor.rs:18-60. *)
Definition rs_pfile (fs : option (list text)) (listed : text -> bool) (root : M_Syn.syn) : pfile :=
  PFile (M_Syn.rs_file fs listed root) (by_name fst (fun f => M_Syn.rs_body fs listed (snd f)) (M_Syn.local_funs root)).
(** ts/inner/visitor.rs:10-45. *)
Definition js_pfile (root : M_Swc.swc) : pfile := PFile (M_Swc.js_file root) (by_name fst (fun f => M_Swc.jr (snd f)) (M_Swc.js_funs root)).
(** foundry/visitor/mod.rs:38-73. *)
Definition sol_named (f : M_Foundry.sfun) : text := match M_Foundry.f_name f with Some n => n | None => [] end.
Definition sol_pfile (items : list M_Foundry.sitem) : pfile :=
  PFile (M_Foundry.file_node items)
    (by_name sol_named M_Foundry.local_node
       (filter (fun f => match M_Foundry.f_name f with Some _ => negb (M_Foundry.f_pure f) | None => false end) (M_Foundry.functions items))).

(** The parsers; for Rust, also the module path of a file and the tests that Cargo lists for it (see [M_Syn]). *)
Record parsers := Parsers {
  ps_go : path -> text -> option M_Tree.tree;
  ps_php : path -> text -> option M_Tree.tree;
  ps_rust : path -> text -> option M_Syn.syn;
  ps_module : path -> option (list text);
  ps_listed : path -> text -> bool;
  ps_ts : path -> text -> option M_Swc.swc;
  ps_sol : path -> text -> option (list M_Foundry.sitem)
}.
(** backends/src/lib.rs:85-120 [to_implementation]. *)
Definition parser_of (ps : parsers) (f : M_Options.framework) (p : path) (contents : text) : option pfile :=
  match f with
  | Go => option_map go_pfile (ps_go ps p contents)
  | Php => option_map php_pfile (ps_php ps p contents)
  | Rust => option_map (rs_pfile (ps_module ps p) (ps_listed ps p)) (ps_rust ps p contents)
  | Anchor | Hardhat | Vitest => option_map js_pfile (ps_ts ps p contents)
  | Foundry => option_map sol_pfile (ps_sol ps p contents)
  end.
