(** Model of the Rust back end's view of syn's syntax trees: backends/src/rust/mod.rs:62-626,
    rust/visitor.rs, and the generated [expression_with_block] (backends/build/syn.rs:29-130,
    backends/assets/syn_expr.rs). It produces the labelled trees of [M_Visitor].

    syn's parser is external: its result is the tree. A tree that syn cannot produce (a call
    without a callee, say) is translated like any other expression. *)
From Verif Require Import Base M_Text M_Span M_Run M_Visitor M_Rust.

(** Where a node is, and the tokens that belong to it and not to its parts. *)
Record xinfo := XI { x_id : nat; x_span : span; x_text : text }.

(** The variants of [syn::Expr] (backends/assets/syn_expr.rs:82-216) other than those below. *)
Inductive ekind :=
| EArray | EAssign | EAsync | EBinary | EBlock | EBreak | ECast | EClosure | EConst | EContinue | EForLoop | EGroup | EIf
| EIndex | EInfer | ELet | ELit | ELoop | EMatch | EParen | ERange | ERawAddr | EReference | ERepeat | EReturn | EStruct
| ETry | ETryBlock | ETuple | EUnary | EUnsafe | EVerbatim | EWhile | EYield.

(** The parts of a node are the children that syn's default visitor goes to, in its order.
    - [XLocal], [XItemStmt], [XExprStmt semi], [XMacroStmt path]: the variants of [syn::Stmt];
      an expression statement's expression comes first; [semi]: it has a semicolon;
    - [XAwait], [XField member]: [base.await], [base.member]; the base comes first; [member]
      is [None] for a tuple's component;
    - [XCall]: the function, then the arguments;
    - [XMethod m]: the receiver, then the arguments;
    - [XMacro path]: a macro call;
    - [XPath qself ident shown]: a path; [ident] is [get_ident()] and [shown] the path's tokens
      put together;
    - [XExpr k]: any other expression;
    - [XFn attrs name]: a function outside of [impl] and [trait]; [attrs] are the paths of its attributes, each
      segment with whether it has arguments. Its parts are what precedes the body, and the body;
    - [XImplFn name]: a function in an [impl]; its parts are likewise;
    - [XMod name]: a module;
    - [XPart]: anything else (files, blocks, signatures, patterns, other items). *)
Inductive xkind :=
| XLocal | XItemStmt | XExprStmt (semi : bool) | XMacroStmt (path : text)
| XAwait | XField (member : option text) | XCall | XMethod (m : text) | XMacro (path : text)
| XPath (qself : bool) (ident : option text) (shown : text)
| XExpr (k : ekind)
| XFn (attrs : list (list (text * bool))) (name : text)
| XImplFn (name : text)
| XMod (name : text)
| XPart.
Inductive syn := Syn (a : xinfo) (k : xkind) (parts : list syn).
Definition x_info (t : syn) : xinfo := match t with Syn a _ _ => a end.
Definition x_kind (t : syn) : xkind := match t with Syn _ k _ => k end.
Definition x_parts (t : syn) : list syn := match t with Syn _ _ l => l end.
(** All tokens of a node. *)
Fixpoint tokens (t : syn) : text := match t with Syn a _ l => x_text a ++ flat_map tokens l end.

(** backends/build/syn.rs:29-75 and the structs of backends/assets/syn_expr.rs that have a field of type
    [Block]: [expression_with_block]. A [match] has none. *)
Definition expression_with_block (e : syn) : bool :=
  match x_kind e with
  | XExpr k =>
    match k with
    | EAsync | EBlock | EConst | EForLoop | EIf | ELoop | ETryBlock | EUnsafe | EWhile => true
    | _ => false
    end
  | _ => false
  end.
(** rust/mod.rs:470-479 [statement_is_removable], for an expression statement. *)
Definition stmt_removable (semi : bool) (e : syn) : bool := semi || expression_with_block e.
(** rust/mod.rs:493-510 [statement_is_control]. *)
Definition stmt_control (e : syn) : bool :=
  match x_kind e with XExpr EBreak | XExpr EContinue | XExpr EReturn => true | _ => false end.
(** rust/visitor.rs:245-271 [is_test]. *)
Definition attr_is_test (p : list (text * bool)) : bool :=
  match p with
  | [(x, false)] => text_eqb x (s2t "test")
  | [(x, false); (y, false)] => text_eqb x (s2t "tokio") && text_eqb y (s2t "test")
  | _ => false
  end.
Definition is_test (attrs : list (list (text * bool))) : bool := existsb attr_is_test attrs.
(** rust/mod.rs:253-273 [Call::name] of a function call. *)
Definition call_shown (f : syn) : option text := match x_kind f with XPath _ _ s => Some s | _ => None end.

Section Translate.
(** The source file's module path (rust/storage.rs:50-95; [None] if it cannot be determined), and the
    tests that Cargo lists (rust/mod.rs:751-802). Errors of Cargo are not modelled. *)
Context (fs : option (list text)) (listed : text -> bool).

(** rust/mod.rs:66-118 [Test::new] with rust/storage.rs:29-47 [test_path]. *)
Definition test_name (mods : list text) (name : text) : option text :=
  match fs with
  | Some p => let t := join_colons (p ++ mods ++ [name]) in if listed t then Some t else None
  | None => None
  end.

(** The visitor's state (rust/visitor.rs:91-95, storage.rs:15): the modules entered, and whether it is in a test. *)
Record ctx := Cx { cx_mods : list text; cx_test : bool }.
(** rust/visitor.rs:116-131 [visit_item_mod] and 133-172 [visit_item_fn]. *)
Definition enter (c : ctx) (k : xkind) : ctx :=
  match k with
  | XMod n => if cx_test c then c else Cx (cx_mods c ++ [n]) false
  | XFn _ _ => Cx (cx_mods c) true
  | _ => c
  end.

(** The node as [ParseLow] describes it: rust/mod.rs:140-167 [Expression], 456-626; and as rust/visitor.rs walks it: a
    function that is not a test, or a test that is not listed, is not entered (133-172); of macros the arguments are not seen.
    [callee]: the node is the function of a call (587-605). A test inside of a test is an assertion failure in the code
    (visitor.rs:135); here it is one only if it is listed and not ignored. *)
Fixpoint tr (c : ctx) (callee : bool) (t : syn) : node :=
  match t with
  | Syn a k ks =>
    let i := (2 * x_id a)%nat in
    let all := map (tr (enter c k) false) ks in
    let mk kd l := Node (Label i kd (x_text a) (x_span a)) l in
    let whole kd l := Node (Label i kd (tokens t) (x_span a)) l in
    let virtual kd l := Node (Label (S i) kd [] (x_span a)) l in
    match k with
    | XLocal | XItemStmt => mk (KStmt true false true false) all
    | XExprStmt semi =>
      match ks with e :: _ => mk (KStmt (stmt_removable semi e) (stmt_control e) false true) all | [] => mk KGroup [] end
    | XMacroStmt p => whole (KStmt true false false true) [virtual (KMacro p) []]
    | XAwait => match ks with _ :: _ => mk KAwait all | [] => mk KExpr [] end
    | XField m => match ks with _ :: _ => mk (KField m) all | [] => mk KExpr [] end
    | XCall =>
      match ks with
      | f :: args => mk (KCall false (call_shown f)) (tr (enter c k) true f :: map (tr (enter c k) false) args)
      | [] => mk KExpr []
      end
    | XMethod m =>
      match ks with
      | r :: args => mk (KCall false (Some m)) (virtual (KField (Some m)) [tr (enter c k) false r] :: map (tr (enter c k) false) args)
      | [] => mk KExpr []
      end
    | XMacro p => whole (KMacro p) []
    | XPath q x _ =>
      mk (if callee && negb q then match x with Some y => KIdent y | None => KExpr end else KExpr) all
    | XExpr _ => mk KExpr all
    | XFn attrs name =>
      if is_test attrs then
        match test_name (cx_mods c) name with
        | Some n => mk (KTest n 1) all
        | None => whole KGroup []
        end
      else whole KGroup []
    | XImplFn _ | XMod _ | XPart => mk KGroup all
    end
  end.

(** rust/visitor.rs:18-45 [collect_local_functions]: the names and bodies of the functions that are not tests, functions in
    functions excepted. *)
Definition fun_of (name : text) (parts : list syn) : list (text * syn) :=
  match parts with _ :: b :: _ => [(name, b)] | _ => [] end.
Fixpoint local_funs (t : syn) : list (text * syn) :=
  match t with
  | Syn _ k ks =>
    match k with
    | XFn attrs name => if is_test attrs then [] else fun_of name ks
    | XImplFn name => fun_of name ks
    | _ => flat_map local_funs ks
    end
  end.

(** rust/visitor.rs:57-60 and 111-113: the file, and local functions with no module entered. *)
Definition top : ctx := Cx [] false.
Definition rs_file (root : syn) : node := tr top false root.
Definition rs_body (b : syn) : node := tr top false b.
Definition rs_env (E : venv) (root : syn) (walkable : text -> bool) : venv :=
  VEnv fw_rust (v_ign_fun E) (v_ign_mac E) (v_ign_met E) (v_ign_test E) (v_visit_args E) (v_disamb E)
    (fun name => if walkable name then map (fun f => rs_body (snd f)) (filter (fun f => text_eqb (fst f) name) (local_funs root)) else [])
    (v_skip E) (v_contents E).
End Translate.
