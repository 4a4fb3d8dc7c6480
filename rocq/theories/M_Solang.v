(** Model of the Solidity syntax trees (backends/assets/solang_parser_pt.rs, "pt.rs" below) and of the visitor that is generated for
    them: backends/build/solang.rs with backends/src/foundry/visitor/visit.rs.

    The generated functions visit the fields of a value in the order of their declaration (solang.rs:99-239), through
    [Option], [Box], [Vec] and pairs (visit.rs:21-75), and stop at the types that have none
    (visit.rs:77-95). Both visitors of the back end take over at expressions, statements and function definitions
    (foundry/visitor/mod.rs:41-58, 102-172); what is between those is described here by the list of the expressions and
    statements that the generated functions come to, in order.

    [loc] stands for [Loc]: where the construct is (as a span; for statements with the semicolon, [M_Positions]), and its identity.
    Types of which no value contains an expression, a statement or a function are left out (pragmas, imports,
    identifiers' locations, Yul). *)
From Verif Require Import Base M_Text M_Span M_Visitor M_Foundry.

Record loc := Loc { l_id : nat; l_span : span }.

(** pt.rs:1073-1330, operators with one operand. *)
Inductive unary := UPostIncrement | UPostDecrement | UNew | UParenthesis | UNot | UBitwiseNot | UDelete | UPreIncrement | UPreDecrement | UPlus | UNegate.
(** Operators with two, but for the plain assignment. *)
Inductive binary := BPower | BMultiply | BDivide | BModulo | BAdd | BSubtract | BShiftLeft | BShiftRight | BBitwiseAnd | BBitwiseXor | BBitwiseOr
| BLess | BMore | BLessEqual | BMoreEqual | BEqual | BNotEqual | BAnd | BOr
| BAssignOr | BAssignAnd | BAssignXor | BAssignShiftLeft | BAssignShiftRight | BAssignAdd | BAssignSubtract | BAssignMultiply | BAssignDivide | BAssignModulo.
(** pt.rs:1476-1495 [FunctionTy]. *)
Inductive fty := TConstructor | TFunction | TFallback | TReceive | TModifier.
(** pt.rs:1412-1446 [Mutability], [Visibility]. *)
Inductive mutability := MPure | MView | MConstant | MPayable.
Inductive visibility := VExternal | VPublic | VInternal | VPrivate.

(** pt.rs:1073-1153 [Expression], 1396-1407 [Parameter] (with its [Annotation], 1017-1024), 1551-1585 [Statement],
    1643-1649 [CatchClause]. A named argument (1061-1068) is given by name and expression. *)
Inductive pexpr :=
| XVariable (l : loc) (name : text)
| XMember (l : loc) (e : pexpr) (name : text)
| XCall (l : loc) (e : pexpr) (args : list pexpr)
| XCallBlock (l : loc) (e : pexpr) (options : pstmt)
| XNamedCall (l : loc) (e : pexpr) (args : list (text * pexpr))
| XUnary (o : unary) (l : loc) (e : pexpr)
| XBinary (o : binary) (l : loc) (a b : pexpr)
| XAssign (l : loc) (lhs rhs : pexpr)
| XConditional (l : loc) (c a b : pexpr)
| XSubscript (l : loc) (e : pexpr) (i : option pexpr)
| XSlice (l : loc) (e : pexpr) (a b : option pexpr)
| XList (l : loc) (ps : list (option pparam))
| XArray (l : loc) (es : list pexpr)
| XLiteral (l : loc)                       (* bool, number, rational, hex number, string, hex, address *)
| XType (l : loc) (es : list pexpr)        (* Type, 435-476, with the expressions in it *)
with pparam := PParam (annotation : option pexpr) (ty : pexpr) (name : option text)
with pstmt :=
| TBlock (l : loc) (unchecked : bool) (ss : list pstmt)
| TAssembly (l : loc)                      (* the Yul block contains no Solidity *)
| TArgs (l : loc) (args : list (text * pexpr))
| TIf (l : loc) (c : pexpr) (s : pstmt) (other : option pstmt)
| TWhile (l : loc) (c : pexpr) (s : pstmt)
| TExpression (l : loc) (e : pexpr)
| TVariable (l : loc) (ty : pexpr) (name : option text) (init : option pexpr)     (* with VariableDeclaration, 514-520 *)
| TFor (l : loc) (init : option pstmt) (c next : option pexpr) (s : option pstmt)
| TDoWhile (l : loc) (s : pstmt) (c : pexpr)
| TContinue (l : loc)
| TBreak (l : loc)
| TReturn (l : loc) (e : option pexpr)
| TRevert (l : loc) (args : list pexpr)
| TRevertNamed (l : loc) (args : list (text * pexpr))
| TEmit (l : loc) (e : pexpr)
| TTry (l : loc) (e : pexpr) (returns : option (list (option pparam) * pstmt)) (catches : list pcatch)
| TError (l : loc)
with pcatch :=
| CSimple (p : option pparam) (s : pstmt)
| CNamed (name : text) (p : pparam) (s : pstmt).

(** pt.rs:1450-1473 [FunctionAttribute]; [Base] 827-834. *)
Inductive pattr := AVisibility (v : visibility) | AMutability (m : mutability) | AModifier (name : text) (args : option (list pexpr))
| AOtherAttr.   (* Virtual, Immutable, Override, Error *)
(** pt.rs:1498-1518 [FunctionDefinition]. *)
Record pfun := PFun { pf_loc : loc; pf_ty : fty; pf_name : option text; pf_params : list (option pparam); pf_attrs : list pattr;
  pf_returns : list (option pparam); pf_body : option pstmt }.

(** pt.rs:983-996 [VariableDefinition], 532-541 [StructDefinition], 861-888 events, 895-920 errors, 1003-1010 types, 1017-1024 annotations,
    789-800 [Using]: the expressions in them, by field. *)
Inductive pdecl :=
| DVariable (ty : pexpr) (init : option pexpr)
| DStruct (fields : list pexpr)
| DEvent (fields : list pexpr)
| DError (keyword : pexpr) (fields : list pexpr)
| DType (ty : pexpr)
| DAnnotation (value : option pexpr)
| DUsing (ty : option pexpr)
| DNothing.                                (* enum, pragma, import, stray semicolon *)
(** pt.rs:546-577 [ContractPart], 841-854 [ContractDefinition], 343-388 [SourceUnitPart], 338 [SourceUnit]. *)
Inductive pcpart := KFun (f : pfun) | KDecl (d : pdecl).
Record pcontract := PContract { pc_name : option text; pc_bases : list (text * option (list pexpr)); pc_parts : list pcpart }.
Inductive ppart := UContract (c : pcontract) | UFun (f : pfun) | UDecl (d : pdecl).
Definition punit := list ppart.

(** ** What the generated functions come to *)
Definition olist {A} (o : option A) : list A := match o with Some a => [a] | None => [] end.
(** [visit_parameter]: annotation, then type. *)
Definition param_exprs (p : pparam) : list pexpr := match p with PParam a t _ => olist a ++ [t] end.
(** A [ParameterList]: a list of locations and optional parameters. *)
Definition params_exprs (ps : list (option pparam)) : list pexpr := flat_map (fun o => match o with Some p => param_exprs p | None => [] end) ps.
(** [visit_function_attribute]. *)
Definition attr_exprs (a : pattr) : list pexpr := match a with AModifier _ (Some es) => es | _ => [] end.
(** [visit_variable_definition] and so on. *)
Definition decl_exprs (d : pdecl) : list pexpr :=
  match d with
  | DVariable t i => t :: olist i
  | DStruct fs | DEvent fs => fs
  | DError k fs => k :: fs
  | DType t => [t]
  | DAnnotation v => olist v
  | DUsing t => olist t
  | DNothing => []
  end.

(** An expression as [M_Foundry] has it. Nothing below an expression that is not a call is visited
    (foundry/visitor/mod.rs:147-172 leaves those alone), so only what names and classification need is kept of it. *)
Definition named_param (o : option pparam) : bool := match o with Some (PParam _ _ (Some _)) => true | _ => false end.
Fixpoint to_expr (e : pexpr) : sexpr :=
  match e with
  | XVariable l n => EVar (l_id l) (l_span l) n
  | XMember l b n => EMember (l_id l) (l_span l) (to_expr b) n
  | XCall l f args => ECall (l_id l) (l_span l) (to_expr f) (map to_expr args)
  | XCallBlock l f o => ECallBlock (l_id l) (l_span l) (to_expr f)
      match o with TArgs _ args => map (fun a => to_expr (snd a)) args | _ => [] end
  | XNamedCall l f args => EOther (l_id l) (l_span l) (to_expr f :: map (fun a => to_expr (snd a)) args)
  | XUnary _ l a => EOther (l_id l) (l_span l) [to_expr a]
  | XBinary _ l a b => EOther (l_id l) (l_span l) [to_expr a; to_expr b]
  | XAssign l (XList _ ps) r => EAssignList (l_id l) (l_span l) (map named_param ps) (to_expr r)
  | XAssign l a r => EOther (l_id l) (l_span l) [to_expr a; to_expr r]
  | XConditional l c a b => EOther (l_id l) (l_span l) [to_expr c; to_expr a; to_expr b]
  | XSubscript l a i => EOther (l_id l) (l_span l) (to_expr a :: match i with Some x => [to_expr x] | None => [] end)
  | XSlice l a i j => EOther (l_id l) (l_span l) (to_expr a :: match i with Some x => [to_expr x] | None => [] end ++ match j with Some x => [to_expr x] | None => [] end)
  | XList l ps => EOther (l_id l) (l_span l) (map (fun o => match o with Some (PParam _ t _) => to_expr t | None => EOther (l_id l) (l_span l) [] end) ps)
  | XArray l es => EOther (l_id l) (l_span l) (map to_expr es)
  | XLiteral l => EOther (l_id l) (l_span l) []
  | XType l es => EOther (l_id l) (l_span l) (map to_expr es)
  end.
Definition pe (e : pexpr) : spart := PExpr (to_expr e).

Definition at_loc (k : skind) (l : loc) (parts : list spart) : sstmt := SStmt k (l_id l) (l_span l) parts.
(** The fields of a statement, in the order of their declaration (pt.rs:1551-1585), for [visit_statement] of the generated code. *)
Fixpoint to_stmt (s : pstmt) : sstmt :=
  match s with
  | TBlock l _ ss => SBlock (l_id l) (l_span l) (map to_stmt ss)
  | TAssembly l => at_loc SKOther l []
  | TArgs l args => at_loc SKOther l (map (fun a => pe (snd a)) args)
  | TIf l c a b => at_loc SKOther l (pe c :: PStmt (to_stmt a) :: match b with Some x => [PStmt (to_stmt x)] | None => [] end)
  | TWhile l c a => at_loc SKOther l [pe c; PStmt (to_stmt a)]
  | TExpression l e => at_loc SKExpr l [pe e]
  | TVariable l t _ i => at_loc SKVarDef l (pe t :: map pe (olist i))
  | TFor l i c n b => at_loc SKOther l (match i with Some x => [PStmt (to_stmt x)] | None => [] end ++ map pe (olist c) ++ map pe (olist n) ++
      match b with Some x => [PStmt (to_stmt x)] | None => [] end)
  | TDoWhile l a c => at_loc SKOther l [PStmt (to_stmt a); pe c]
  | TContinue l => at_loc SKContinue l []
  | TBreak l => at_loc SKBreak l []
  | TReturn l e => at_loc SKReturn l (map pe (olist e))
  | TRevert l es => at_loc SKRevert l (map pe es)
  | TRevertNamed l args => at_loc SKRevertNamed l (map (fun a => pe (snd a)) args)
  | TEmit l e => at_loc SKEmit l [pe e]
  | TTry l e r cs => at_loc SKOther l (pe e :: match r with Some (ps, x) => map pe (params_exprs ps) ++ [PStmt (to_stmt x)] | None => [] end ++
      flat_map (fun c => match c with
                         | CSimple o x => map pe (flat_map param_exprs (olist o)) ++ [PStmt (to_stmt x)]
                         | CNamed _ p x => map pe (param_exprs p) ++ [PStmt (to_stmt x)]
                         end) cs)
  | TError l => at_loc SKOther l []
  end.

(** foundry/visitor/mod.rs:190-199 [is_pure]. *)
Definition is_pure (f : pfun) : bool := existsb (fun a => match a with AMutability MPure => true | _ => false end) (pf_attrs f).
(** A function definition; the expressions that [visit_function_definition] comes to before the body are those of the parameters, the
    attributes and the returned values. *)
Definition to_fun (f : pfun) : sfun :=
  SFun (l_id (pf_loc f)) (l_span (pf_loc f)) (pf_name f) (is_pure f)
    (map to_expr (params_exprs (pf_params f) ++ flat_map attr_exprs (pf_attrs f) ++ params_exprs (pf_returns f)))
    (option_map to_stmt (pf_body f)).
Definition decl_items (d : pdecl) : list sitem := map (fun e => IInit (to_expr e)) (decl_exprs d).
Definition cpart_items (p : pcpart) : list sitem := match p with KFun f => [IFun (to_fun f)] | KDecl d => decl_items d end.
(** [visit_contract_definition]: the arguments of the bases, then the parts. *)
Definition contract_items (c : pcontract) : list sitem :=
  map (fun e => IInit (to_expr e)) (flat_map (fun b => match snd b with Some es => es | None => [] end) (pc_bases c)) ++ flat_map cpart_items (pc_parts c).
Definition part_items (p : ppart) : list sitem :=
  match p with UContract c => contract_items c | UFun f => [IFun (to_fun f)] | UDecl d => decl_items d end.
(** [visit_source_unit]. *)
Definition to_items (u : punit) : list sitem := flat_map part_items u.
