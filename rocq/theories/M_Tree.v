(** Model of the Go and PHP back ends' view of a file: tree-sitter syntax trees
    (backends/src/go/mod.rs, go/visitor.rs, php/mod.rs, php/visitor.rs), as a translation to
    the trees that [M_Visitor] walks.

    The parsers (tree-sitter-go, tree-sitter-php) are not modelled: a file is given by its
    syntax tree. *)
From Verif Require Import Base M_Text M_Rewriter M_Span M_Run M_Visitor M_Directives.

(** A tree-sitter node: identity, [kind], [is_named], [is_extra] (comments), whether the
    queries [(_statement)] and [(_expression)] match it (tree-sitter-go's supertypes), its
    range as a span (tree_sitter_utils.rs:8-24, [ToInternalSpan]) and its text
    ([utf8_text]). *)
Record tinfo := TI {
  t_id : nat; t_kind : text; t_named : bool; t_extra : bool; t_stmt : bool; t_expr : bool;
  t_span : span; t_text : text
}.
(** The children, each with the name of its field, if any. *)
Inductive tree := Tree (a : tinfo) (kids : list (option text * tree)).
Definition t_info (t : tree) : tinfo := match t with Tree a _ => a end.
Definition t_kids (t : tree) : list (option text * tree) := match t with Tree _ ks => ks end.
Definition kind_of (t : tree) : text := t_kind (t_info t).

Fixpoint find_index {A} (p : A -> bool) (l : list A) : option nat :=
  match l with
  | [] => None
  | x :: r => if p x then Some O else match find_index p r with Some i => Some (S i) | None => None end
  end.
Definition has_field (field : text) (fk : option text * tree) : bool :=
  match fst fk with Some f => text_eqb f field | None => false end.
(** [Node::child_by_field_id]: the first child with that field. *)
Definition child_index (field : text) (t : tree) : option nat := find_index (has_field field) (t_kids t).
Definition child (field : text) (t : tree) : option tree :=
  match find (has_field field) (t_kids t) with Some fk => Some (snd fk) | None => None end.
(** [.utf8_text(..).ok()] of that child. *)
Definition child_text (field : text) (t : tree) : option text :=
  match child field t with Some c => Some (t_text (t_info c)) | None => None end.

(** What the visitor learns about a node; the numbers are indices of children.
    [CMethod name base]: a PHP method call, whose callee is a "virtual field"
    (php/mod.rs:489-515, 428-436). *)
Inductive tclass :=
| CStmt (control decl : bool) (expr : option nat)
| CCall (name : option text) (callee : nat)
| CMethod (name : option text) (base : nat)
| CField (name : option text) (base : nat)
| CIdent (name : text)
| COther.

(** The [i]th element and the others. *)
Fixpoint take_out {A} (i : nat) (l : list A) {struct l} : option (A * list A) :=
  match l, i with
  | [], _ => None
  | x :: r, O => Some (x, r)
  | x :: r, S i => match take_out i r with Some (y, r') => Some (y, x :: r') | None => None end
  end.

Definition tnode (i : nat) (k : nkind) (sp : span) (ks : list node) : node := Node (Label i k [] sp) ks.

(** A node as the visitor sees it. [cls] classifies it, given its parent. The child that
    [M_Visitor] expects first (the expression of an expression statement, the callee of a
    call, the base of a field) is put first: in Go and PHP it is, but for comments. *)
Section Translate.
Context (cls : option tinfo -> tree -> tclass).
Fixpoint ts_node (p : option tinfo) (t : tree) {struct t} : node :=
  match t with
  | Tree a ks =>
    let ns := map (fun fk => ts_node (Some a) (snd fk)) ks in
    let i := (2 * t_id a)%nat in
    match cls p t with
    | CStmt control decl (Some j) =>
      match take_out j ns with
      | Some (e, r) => tnode i (KStmt true control decl true) (t_span a) (e :: r)
      | None => tnode i KExpr (t_span a) ns
      end
    | CStmt control decl None => tnode i (KStmt true control decl false) (t_span a) ns
    | CCall name j =>
      match take_out j ns with
      | Some (c, r) => tnode i (KCall false name) (t_span a) (c :: r)
      | None => tnode i KExpr (t_span a) ns
      end
    | CMethod name j =>
      match take_out j ns with
      | Some (b, r) => tnode i (KCall false None) (t_span a) (tnode (S i) (KField name) (t_span a) [b] :: r)
      | None => tnode i KExpr (t_span a) ns
      end
    | CField name j =>
      match take_out j ns with
      | Some (b, r) => tnode i (KField name) (t_span a) (b :: r)
      | None => tnode i KExpr (t_span a) ns
      end
    | CIdent x => tnode i (KIdent x) (t_span a) ns
    | COther => tnode i KExpr (t_span a) ns
    end
  end.

(** A function with a name and a body. *)
Record tfun := TF { tf_decl : tree; tf_name : text; tf_body : tree }.

(** A test: the statements of its body ([test_statements]), then whatever else the body
    contains (braces, terminators, comments: nothing to be visited). [stmts] and [rest]
    give those, with their parents. *)
Definition test_node (stmts rest : tree -> list (option tinfo * tree)) (f : tfun) : node :=
  let b := t_info (tf_body f) in
  tnode (2 * t_id (t_info (tf_decl f))) (KTest (tf_name f) 0) (t_span (t_info (tf_decl f)))
    [tnode (2 * t_id b) KGroup (t_span b) (map (fun pt => ts_node (fst pt) (snd pt)) (stmts (tf_body f)));
     tnode (S (2 * t_id b)) KGroup (t_span b) (map (fun pt => ts_node (fst pt) (snd pt)) (rest (tf_body f)))].

(** The body of a function as it is walked on its own (go/visitor.rs:119-125). *)
Definition body_node (f : tfun) : node :=
  let b := t_info (tf_body f) in
  tnode (2 * t_id b) KGroup (t_span b) (map (fun fk => ts_node (Some b) (snd fk)) (t_kids (tf_body f))).
End Translate.

(** The nodes of a tree, a node before its children. *)
Fixpoint subtrees (t : tree) : list tree :=
  match t with Tree a ks => t :: flat_map (fun fk => subtrees (snd fk)) ks end.

(** The matches of a query [(K name: (N) @name body: (B) @body)] (go/visitor.rs:20-25,
    php/mod.rs:94-100). *)
Definition match_fun (K N B : text) (t : tree) : list tfun :=
  match child (s2t "name") t, child (s2t "body") t with
  | Some n, Some b =>
    if text_eqb (kind_of t) K && text_eqb (kind_of n) N && text_eqb (kind_of b) B
    then [TF t (t_text (t_info n)) b] else []
  | _, _ => []
  end.
Definition query_funs (K N B : text) (root : tree) : list tfun := flat_map (match_fun K N B) (subtrees root).

(** A node's children with their parent. *)
Definition kids_in (t : tree) : list (option tinfo * tree) := map (fun fk => (Some (t_info t), snd fk)) (t_kids t).

(** ** Go *)
Definition go_control_kinds : list text :=
  [s2t "break_statement"; s2t "continue_statement"; s2t "defer_statement"; s2t "return_statement"].
Definition go_declaration_kinds : list text :=
  [s2t "const_declaration"; s2t "short_var_declaration"; s2t "type_declaration"; s2t "var_declaration"].

(** go/visitor.rs:255-276 [visit_current_node] (a statement, else a call), go/mod.rs:320-341
    [statement_is_expression], 343-356 [statement_is_control], 358-367
    [statement_is_declaration], 377-436 fields and calls, 186-224 names. A call, or a
    selector, without its "function", "operand" or "field" child does not occur in trees
    that tree-sitter-go produces; the code would panic on it. *)
Definition go_class (_ : option tinfo) (t : tree) : tclass :=
  let a := t_info t in
  if t_stmt a then
    CStmt (mem_text (t_kind a) go_control_kinds) (mem_text (t_kind a) go_declaration_kinds)
      (if text_eqb (t_kind a) (s2t "expression_statement") then find_index (fun fk => t_expr (t_info (snd fk))) (t_kids t) else None)
  else if text_eqb (t_kind a) (s2t "call_expression") then
    match child_index (s2t "function") t with
    | Some j => CCall (child_text (s2t "function") t) j
    | None => COther
    end
  else if text_eqb (t_kind a) (s2t "selector_expression") then
    match child_index (s2t "operand") t with
    | Some j => CField (child_text (s2t "field") t) j
    | None => COther
    end
  else if text_eqb (t_kind a) (s2t "identifier") then CIdent (t_text a)
  else COther.

(** go/visitor.rs:20-36: function declarations with a body. *)
Definition go_funs (root : tree) : list tfun := query_funs (s2t "function_declaration") (s2t "identifier") (s2t "block") root.
Definition go_test_name (n : text) : bool := starts_with_text (s2t "Test") n.
(** go/visitor.rs:105-117, 127-158: the tests. *)
Definition go_tests (root : tree) : list tfun :=
  filter (fun f => go_test_name (tf_name f) && negb (text_eqb (tf_name f) (s2t "TestMain"))) (go_funs root).
(** go/visitor.rs:47-73 [collect_local_functions]. *)
Definition go_locals (root : tree) : list tfun := filter (fun f => negb (go_test_name (tf_name f))) (go_funs root).

(** go/mod.rs:28-36, 288-311 [test_statements]: the statements of the block's statement list;
    and the other nodes of the block. *)
Definition go_list (t : tree) : bool := text_eqb (kind_of t) (s2t "statement_list").
Definition go_stmts (b : tree) : list (option tinfo * tree) :=
  flat_map (fun fk => if go_list (snd fk) then filter (fun pt => t_stmt (t_info (snd pt))) (kids_in (snd fk)) else []) (t_kids b).
Definition go_rest (b : tree) : list (option tinfo * tree) :=
  flat_map (fun fk => if go_list (snd fk) then filter (fun pt => negb (t_stmt (t_info (snd pt)))) (kids_in (snd fk)) else [(Some (t_info b), snd fk)]) (t_kids b).

Definition go_test_node (f : tfun) : node := test_node go_class go_stmts go_rest f.
(** go/visitor.rs:75-86 [visit], 105-117 [visit_tree]: only tests are walked. *)
Definition go_file (root : tree) : node := tnode (2 * t_id (t_info root)) KGroup (t_span (t_info root)) (map go_test_node (go_tests root)).
(** The visitor's environment: as given, with the file's functions that the configuration
    allows to be walked (parsing.rs:420-424). *)
Definition go_env (E : venv) (root : tree) (walkable : text -> bool) : venv :=
  VEnv fw_go (v_ign_fun E) (v_ign_mac E) (v_ign_met E) (v_ign_test E) (v_visit_args E) (v_disamb E)
    (fun name => if walkable name then map (body_node go_class) (filter (fun f => text_eqb (tf_name f) name) (go_locals root)) else [])
    (v_skip E) (v_contents E).

(** ** PHP *)
Definition php_call_kinds : list text :=
  [s2t "member_call_expression"; s2t "nullsafe_member_call_expression"; s2t "scoped_call_expression"].
Definition php_field_kinds : list text :=
  [s2t "member_access_expression"; s2t "nullsafe_member_access_expression"; s2t "scoped_property_access_expression"].
Definition php_control_kinds : list text := [s2t "return_statement"; s2t "break_statement"; s2t "continue_statement"].
Definition php_declaration_kinds : list text :=
  [s2t "function_definition"; s2t "class_declaration"; s2t "function_static_declaration"; s2t "global_declaration"].

(** [named_child(0)]. *)
Definition first_named (t : tree) : option nat := find_index (fun fk => t_named (t_info (snd fk))) (t_kids t).
Definition first_named_kind (t : tree) : option text :=
  match find (fun fk => t_named (t_info (snd fk))) (t_kids t) with Some fk => Some (kind_of (snd fk)) | None => None end.
(** php/visitor.rs:146-155: a statement is a named child of a compound statement that is not
    a comment. *)
Definition php_statement (p : option tinfo) (t : tree) : bool :=
  t_named (t_info t) && negb (t_extra (t_info t)) &&
  match p with Some q => text_eqb (t_kind q) (s2t "compound_statement") | None => false end.
(** php/mod.rs:471-480: the field that holds the base. *)
Definition php_base_field (k : text) : text :=
  if mem_text k [s2t "scoped_call_expression"; s2t "scoped_property_access_expression"] then s2t "scope" else s2t "object".
(** php/visitor.rs:142-166 [visit_current_node]; php/mod.rs:351-367 [statement_is_expression],
    369-391 [statement_is_control], 393-404 [statement_is_declaration], 413-515 fields, calls
    and callees, 193-252 names. Calls and accesses without a function, object or scope do not
    occur in trees that tree-sitter-php produces; the code would panic on them. *)
Definition php_class (p : option tinfo) (t : tree) : tclass :=
  let k := kind_of t in
  if php_statement p t then
    let isx := text_eqb k (s2t "expression_statement") in
    CStmt (mem_text k php_control_kinds ||
           isx && match first_named_kind t with Some x => text_eqb x (s2t "throw_expression") | None => false end)
      (mem_text k php_declaration_kinds)
      (if isx then first_named t else None)
  else if text_eqb k (s2t "function_call_expression") then
    match child_index (s2t "function") t with
    | Some j => CCall (child_text (s2t "function") t) j
    | None => COther
    end
  else if mem_text k php_call_kinds then
    match child_index (php_base_field k) t with
    | Some j => CMethod (child_text (s2t "name") t) j
    | None => COther
    end
  else if mem_text k php_field_kinds then
    match child_index (php_base_field k) t with
    | Some j => CField (child_text (s2t "name") t) j
    | None => COther
    end
  else if mem_text k [s2t "name"; s2t "qualified_name"] then CIdent (t_text (t_info t))
  else COther.

(** php/mod.rs:94-100, php/visitor.rs:39-77: the tests. *)
Definition php_tests (root : tree) : list tfun :=
  filter (fun f => starts_with_text (s2t "test") (tf_name f))
    (query_funs (s2t "method_declaration") (s2t "name") (s2t "compound_statement") root).
(** php/mod.rs:324-342 [test_statements]. *)
Definition php_stmts (b : tree) : list (option tinfo * tree) := filter (fun pt => php_statement (fst pt) (snd pt)) (kids_in b).
Definition php_rest (b : tree) : list (option tinfo * tree) := filter (fun pt => negb (php_statement (fst pt) (snd pt))) (kids_in b).
Definition php_test_node (f : tfun) : node := test_node php_class php_stmts php_rest f.
(** php/visitor.rs:11-20, 39-51. *)
Definition php_file (root : tree) : node := tnode (2 * t_id (t_info root)) KGroup (t_span (t_info root)) (map php_test_node (php_tests root)).
(** php/mod.rs:307-316: no local functions. *)
Definition php_env (E : venv) : venv :=
  VEnv fw_php (v_ign_fun E) (v_ign_mac E) (v_ign_met E) (v_ign_test E) (v_visit_args E) (v_disamb E)
    (fun _ => []) (v_skip E) (v_contents E).
