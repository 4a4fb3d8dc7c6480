(** Model of the Foundry back end's view of a Solidity file: backends/src/foundry/mod.rs
    (names, classification) and backends/src/foundry/visitor/mod.rs (which functions are
    tests and local functions, statements after "prefix cheatcodes"), as a translation to
    the trees that [M_Visitor] walks.

    The parser (solang) is not modelled: a file is given by its syntax tree. The tree
    keeps what the back end looks at. *)
From Verif Require Import Base M_Text M_Rewriter M_Span M_Run M_Visitor M_Directives.

(** [solang_parser::pt::Expression].  [id] stands for the expression's identity, which
    solang's [==] tells by its locations. *)
Inductive sexpr :=
| EVar (id : nat) (sp : span) (name : text)                       (* Variable *)
| EMember (id : nat) (sp : span) (base : sexpr) (name : text)     (* MemberAccess *)
| ECall (id : nat) (sp : span) (callee : sexpr) (args : list sexpr)   (* FunctionCall *)
| ECallBlock (id : nat) (sp : span) (callee : sexpr) (opts : list sexpr)  (* FunctionCallBlock: f{value: 1} *)
| EAssignList (id : nat) (sp : span) (named : list bool) (rhs : sexpr)
    (* Assign to a List; for each parameter, whether it has a name, as in (uint x, ) = .. *)
| EOther (id : nat) (sp : span) (kids : list sexpr).              (* all others *)

(** [solang_parser::pt::Statement]: [SBlock] is [Statement::Block]. *)
Inductive skind := SKExpr | SKVarDef | SKBreak | SKContinue | SKEmit | SKReturn | SKRevert | SKRevertNamed | SKOther.
Inductive sstmt :=
| SBlock (id : nat) (sp : span) (l : list sstmt)
| SStmt (k : skind) (id : nat) (sp : span) (parts : list spart)
with spart :=
| PExpr (e : sexpr)
| PStmt (s : sstmt).

(** [FunctionDefinition]: name, whether an attribute is [pure], the expressions in the
    attributes (arguments of modifiers), the body. *)
Record sfun := SFun { f_id : nat; f_span : span; f_name : option text; f_pure : bool; f_attrs : list sexpr; f_body : option sstmt }.
(** The parts of a source unit, contracts opened: functions, and expressions that occur
    elsewhere (initial values of state variables, ...). *)
Inductive sitem := IFun (f : sfun) | IInit (e : sexpr).

Definition VM : text := s2t "vm".
Definition PRANK : text := s2t "prank".
Definition EXPECT : text := s2t "expect".
Definition TEST : text := s2t "test".

(** foundry/visitor/mod.rs:218-230 [is_prefix_cheatcode]. *)
Definition is_prefix_cheatcode (s : sstmt) : bool :=
  match s with
  | SStmt SKExpr _ _ [PExpr (ECall _ _ (EMember _ _ (EVar _ _ variable) method) _)] =>
    text_eqb variable VM && (text_eqb method PRANK || starts_with_text EXPECT method)
  | _ => false
  end.

Definition expr_id (e : sexpr) : nat :=
  match e with EVar i _ _ | EMember i _ _ _ | ECall i _ _ _ | ECallBlock i _ _ _ | EAssignList i _ _ _ | EOther i _ _ => i end.
Definition expr_span (e : sexpr) : span :=
  match e with EVar _ s _ | EMember _ s _ _ | ECall _ s _ _ | ECallBlock _ s _ _ | EAssignList _ s _ _ | EOther _ s _ => s end.

(** Node identities: 0 is that of [FAUX_CONTINUE]. *)
Definition nd (id : nat) (k : nkind) (sp : span) (ks : list node) : node := Node (Label (S id) k [] sp) ks.

(** foundry/mod.rs:137-145 [MaybeNamed for Call]. *)
Definition sol_call_name (callee : sexpr) : option text := match callee with EVar _ _ n => Some n | _ => None end.

(** An expression as the visitor sees it: names (foundry/mod.rs:121-135), fields (303-320),
    calls (322-339), the callee with call options peeled off (368-385 [call_callee]).
    A call below call options ([f(){gas: 1}(x)]) is not walked (visitor/mod.rs:147-172 does
    not descend into the options), hence [KExpr]. *)
Fixpoint expr_node (e : sexpr) : node :=
  match e with
  | EVar i s n => nd i (KIdent n) s []
  | EMember i s b n => nd i (KField (Some n)) s [expr_node b]
  | ECall i s c args => nd i (KCall false (sol_call_name c)) s (callee_node false c :: map expr_node args)
  | ECallBlock i s c opts => nd i KExpr s (expr_node c :: map expr_node opts)
  | EAssignList i s _ r => nd i KExpr s [expr_node r]
  | EOther i s ks => nd i KExpr s (map expr_node ks)
  end
with callee_node (peeled : bool) (c : sexpr) {struct c} : node :=
  match c with
  | EVar i s n => nd i (KIdent n) s []
  | EMember i s b n => nd i (KField (Some n)) s [expr_node b]
  | ECall i s c' args =>
    if peeled then nd i KExpr s [] else nd i (KCall false (sol_call_name c')) s (callee_node false c' :: map expr_node args)
  | ECallBlock _ _ c' _ => callee_node true c'
  | EAssignList i s _ r => nd i KExpr s [expr_node r]
  | EOther i s ks => nd i KExpr s (map expr_node ks)
  end.

(** foundry/visitor/mod.rs:14 [FAUX_CONTINUE], a control statement. It has no place in the
    file; [faux_span] stands for [Loc::Builtin]. *)
Definition faux_span : span := Span [] (LC 0 0) (LC 0 0).
Definition faux_continue : node := Node (Label 0 (KStmt true true false false) [] faux_span) [].

(** foundry/mod.rs:253-272 [statement_is_control]. *)
Definition sol_control (k : skind) : bool :=
  match k with SKBreak | SKContinue | SKEmit | SKReturn | SKRevert | SKRevertNamed => true | _ => false end.
(** foundry/mod.rs:274-293 [statement_is_declaration]. *)
Definition sol_declaration (k : skind) (parts : list spart) : bool :=
  match k, parts with
  | SKVarDef, _ => true
  | SKExpr, [PExpr (EAssignList _ _ named _)] => existsb (fun b => b) named
  | _, _ => false
  end.
(** foundry/mod.rs:239-251 [statement_is_expression]. *)
Definition sol_isexpr (k : skind) : bool := match k with SKExpr => true | _ => false end.

(** foundry/visitor/mod.rs:201-216 [filter_statements]: a statement whose predecessor is a
    prefix cheatcode is replaced. [prev] says whether the previous one is one. *)
Definition filter_from {A} (prefix : sstmt -> bool) (faux : A) (f : sstmt -> A) : bool -> list sstmt -> list A :=
  fix go (prev : bool) (l : list sstmt) : list A :=
    match l with
    | [] => []
    | s :: r => (if prev then faux else f s) :: go (prefix s) r
    end.

(** A statement as the visitor sees it (foundry/visitor/mod.rs:119-145 [visit_statement]):
    a block is not a statement of its own; the others are, all of them removable
    (foundry/mod.rs:232-237). *)
Fixpoint stmt_node (s : sstmt) : node :=
  match s with
  | SBlock i sp l => nd i KGroup sp (filter_from is_prefix_cheatcode faux_continue stmt_node false l)
  | SStmt k i sp parts =>
    nd i (KStmt true (sol_control k) (sol_declaration k parts) (sol_isexpr k)) sp (map part_node parts)
  end
with part_node (p : spart) : node :=
  match p with PExpr e => expr_node e | PStmt s => stmt_node s end.

(** foundry/visitor/mod.rs:175-188 [is_test_function]: the test's name. *)
Definition test_name (f : sfun) : option text :=
  match f_name f, f_body f with
  | Some n, Some (SBlock _ _ _) => if starts_with_text TEST n && negb (f_pure f) then Some n else None
  | _, _ => None
  end.

(** [visit_fns::visit_function_definition]: the attributes, then the body. *)
Definition fun_kids (f : sfun) : list node :=
  map expr_node (f_attrs f) ++ match f_body f with Some s => [stmt_node s] | None => [] end.

(** foundry/visitor/mod.rs:102-117 [visit_function_definition]: functions that are not
    tests are not walked. The test's statements are those of its block
    (foundry/mod.rs:212-224). *)
Definition item_node (i : sitem) : node :=
  match i with
  | IFun f =>
    match test_name f with
    | Some n => nd (f_id f) (KTest n (length (f_attrs f))) (f_span f) (fun_kids f)
    | None => nd (f_id f) KGroup (f_span f) []
    end
  | IInit e => expr_node e
  end.
(** foundry/visitor/mod.rs:61-73 [visit]. *)
Definition file_node (items : list sitem) : node := nd 0 KGroup faux_span (map item_node items).

(** foundry/visitor/mod.rs:92-96 [visit_local_function]: the function is walked without
    being considered a test. *)
Definition local_node (f : sfun) : node := nd (f_id f) KGroup (f_span f) (fun_kids f).

(** foundry/visitor/mod.rs:38-59 [FunctionDefinitionCollector]: named functions that are
    not [pure], in the order of the file. *)
Definition functions (items : list sitem) : list sfun :=
  flat_map (fun i => match i with IFun f => [f] | IInit _ => [] end) items.
Definition local_functions (items : list sitem) (name : text) : list sfun :=
  filter (fun f => match f_name f with Some n => text_eqb n name | None => false end && negb (f_pure f)) (functions items).

(** The environment of the visitor for the file: as given, with the file's functions that
    the configuration allows to be walked (parsing.rs:420-424). The spans of statements
    include the semicolon (foundry/mod.rs:505-524, modelled in [M_Positions]). *)
Definition sol_env (E : venv) (items : list sitem) (walkable : text -> bool) : venv :=
  VEnv fw_foundry (v_ign_fun E) (v_ign_mac E) (v_ign_met E) (v_ign_test E) (v_visit_args E) (v_disamb E)
    (fun name => if walkable name then map local_node (local_functions items name) else [])
    (v_skip E) (v_contents E).
