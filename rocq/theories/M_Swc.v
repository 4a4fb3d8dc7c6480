(** Model of the TypeScript back end's view of swc's syntax trees: backends/src/ts/inner/mod.rs:175-525 and ts/inner/visitor.rs
    (used by Mocha, Vitest, Hardhat and Anchor). It produces the labelled trees of [M_Visitor].

    swc's parser is external: its result is the tree. A tree that it cannot produce (a call without a callee, say) is
    translated like any other expression. Types, which have neither statements nor calls, are left out. *)
From Verif Require Import Base M_Text M_Span M_Run M_Visitor.

Record jinfo := JI { j_id : nat; j_span : span }.
(** The variants of swc's [Stmt]. *)
Inductive skind :=
| SBlock | SEmpty | SDebugger | SWith | SReturn | SLabeled | SBreak | SContinue | SIf | SSwitch | SThrow | STry | SWhile
| SDoWhile | SFor | SForIn | SForOf | SDecl | SExpr.
(** The parts of a node are the children that swc's default visitor goes to, in its order.
    - [JStmt s]: a statement; that of an expression statement is the expression;
    - [JAwait]: [await arg]; [JMember prop]: [obj.prop]; the object comes first; [prop] is [None] for [obj[..]] and [obj.#p];
    - [JCall]: the callee ([JExpr] for [super] and [import]), then the arguments;
    - [JIdent x]; [JStr v]: a string literal, [v] is [None] if it is not Unicode;
    - [JFun block]: an arrow function or function expression; the body is the last part; [block]: it is a block;
    - [JExpr]: any other expression;
    - [JFunction name]: a function declaration;
    - [JPart]: anything else (modules, block bodies, patterns, classes, properties). *)
Inductive jkind :=
| JStmt (s : skind) | JAwait | JMember (prop : option text) | JCall | JIdent (x : text) | JStr (v : option text) | JFun (block : bool)
| JExpr | JFunction (name : text) | JPart.
Inductive swc := Swc (a : jinfo) (k : jkind) (parts : list swc).
Definition j_info (t : swc) : jinfo := match t with Swc a _ _ => a end.
Definition j_kind (t : swc) : jkind := match t with Swc _ k _ => k end.
Definition j_parts (t : swc) : list swc := match t with Swc _ _ l => l end.

(** ts/inner/mod.rs:371-381 [statement_is_control] and 383-389 [statement_is_declaration]. *)
Definition s_control (s : skind) : bool := match s with SBreak | SContinue | SReturn | SThrow => true | _ => false end.
Definition s_declaration (s : skind) : bool := match s with SDecl => true | _ => false end.
(** ts/inner/mod.rs:497-530 [is_it_call_expr]: the message. *)
Definition it_call (e : swc) : option text :=
  match j_kind e, j_parts e with
  | JCall, [f; s; g] =>
    match j_kind f, j_kind s, j_kind g, j_parts g with
    | JIdent x, JStr (Some m), JFun true, _ :: _ => if text_eqb x (s2t "it") then Some m else None
    | _, _, _, _ => None
    end
  | _, _ => None
  end.
(** ts/inner/mod.rs:251-261 [Call::name]. *)
Definition j_name (f : swc) : option text := match j_kind f with JIdent x => Some x | _ => None end.

(** The children of the test [it(s, g)], whose call has become [n]: what precedes the body of [g], and the body (mod.rs:340-351
    [test_statements]). That the call and the function are no longer nodes of their own makes no difference: they are not visited
    (visitor.rs:107-111), only their children are. *)
Definition test_kids (i : nat) (sp : span) (n : node) : list node :=
  match n_kids n with
  | [f; s; g] =>
    match rev (n_kids g) with
    | b :: pre => [Node (Label (S i) KGroup [] sp) (f :: s :: rev pre); b]
    | [] => []
    end
  | _ => []
  end.

(** ts/inner/visitor.rs:71-134 and the classification of mod.rs:353-495. *)
Fixpoint jr (t : swc) : node :=
  match t with
  | Swc a k ks =>
    let i := (2 * j_id a)%nat in
    let all := map jr ks in
    let mk kd l := Node (Label i kd [] (j_span a)) l in
    match k with
    | JStmt SExpr =>
      match ks with
      | e :: _ =>
        match it_call e, all with
        | Some m, n :: _ => mk (KTest m 1) (test_kids i (j_span a) n)
        | _, _ => mk (KStmt true (s_control SExpr) (s_declaration SExpr) true) all
        end
      | [] => mk KGroup []
      end
    | JStmt s => mk (KStmt true (s_control s) (s_declaration s) false) all
    | JAwait => match ks with _ :: _ => mk KAwait all | [] => mk KExpr [] end
    | JMember p => match ks with _ :: _ => mk (KField p) all | [] => mk KExpr [] end
    | JCall => match ks with f :: _ => mk (KCall (match it_call t with Some _ => true | None => false end) (j_name f)) all | [] => mk KExpr [] end
    | JIdent x => mk (KIdent x) all
    | JStr _ | JFun _ | JExpr => mk KExpr all
    | JFunction _ | JPart => mk KGroup all
    end
  end.

(** ts/inner/visitor.rs:10-31 [collect_local_functions]: function declarations, those in function declarations excepted. *)
Fixpoint js_funs (t : swc) : list (text * swc) :=
  match t with Swc _ k ks => match k with JFunction n => [(n, t)] | _ => flat_map js_funs ks end end.

(** ts/inner/visitor.rs:34-45 and 66-68: the module, and the children of functions. *)
Definition js_file (root : swc) : node := jr root.
Definition js_env (E : venv) (root : swc) (walkable : text -> bool) : venv :=
  VEnv fw_ts (v_ign_fun E) (v_ign_mac E) (v_ign_met E) (v_ign_test E) (v_visit_args E) (v_disamb E)
    (fun name => if walkable name then map (fun f => jr (snd f)) (filter (fun f => text_eqb (fst f) name) (js_funs root)) else [])
    (v_skip E) (v_contents E).
