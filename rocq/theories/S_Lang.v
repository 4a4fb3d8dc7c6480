(** Where the nodes of each language's syntax tree are, and what is expected of each parser. *)
From Verif Require Import Base M_Text S_Text M_Span M_Run S_Layout M_Lang.
From Verif Require M_Tree M_Syn M_Swc M_Foundry S_Swc S_Foundry.

(** Go and PHP: [stmt parent t] says whether [t] is a statement. *)
Section Tree.
Context (stmt : option M_Tree.tinfo -> M_Tree.tree -> bool).
Fixpoint tree_geo (q : option M_Tree.tinfo) (t : M_Tree.tree) : geo :=
  match t with M_Tree.Tree a ks => Geo (M_Tree.t_span a) (stmt q t) (map (fun fk => tree_geo (Some a) (snd fk)) ks) end.
End Tree.
Definition go_geo (t : M_Tree.tree) : geo := tree_geo (fun _ t => M_Tree.t_stmt (M_Tree.t_info t)) None t.
Definition php_geo (t : M_Tree.tree) : geo := tree_geo M_Tree.php_statement None t.

Definition syn_stmt (k : M_Syn.xkind) : bool :=
  match k with M_Syn.XLocal | M_Syn.XItemStmt | M_Syn.XExprStmt _ | M_Syn.XMacroStmt _ => true | _ => false end.
Fixpoint syn_geo (t : M_Syn.syn) : geo := match t with M_Syn.Syn a k l => Geo (M_Syn.x_span a) (syn_stmt k) (map syn_geo l) end.

Definition swc_stmt (k : M_Swc.jkind) : bool := match k with M_Swc.JStmt _ => true | _ => false end.
Fixpoint swc_geo (t : M_Swc.swc) : geo := match t with M_Swc.Swc a k l => Geo (M_Swc.j_span a) (swc_stmt k) (map swc_geo l) end.

(** Blocks of Solidity are not statements of their own. *)
Fixpoint expr_geo (e : M_Foundry.sexpr) : geo :=
  match e with
  | M_Foundry.EVar _ s _ => Geo s false []
  | M_Foundry.EMember _ s b _ => Geo s false [expr_geo b]
  | M_Foundry.ECall _ s c args => Geo s false (expr_geo c :: map expr_geo args)
  | M_Foundry.ECallBlock _ s c opts => Geo s false (expr_geo c :: map expr_geo opts)
  | M_Foundry.EAssignList _ s _ r => Geo s false [expr_geo r]
  | M_Foundry.EOther _ s ks => Geo s false (map expr_geo ks)
  end.
Fixpoint stmt_geo (s : M_Foundry.sstmt) : geo :=
  match s with
  | M_Foundry.SBlock _ sp l => Geo sp false (map stmt_geo l)
  | M_Foundry.SStmt _ _ sp parts => Geo sp true (map part_geo parts)
  end
with part_geo (x : M_Foundry.spart) : geo := match x with M_Foundry.PExpr e => expr_geo e | M_Foundry.PStmt s => stmt_geo s end.
Definition item_geo (i : M_Foundry.sitem) : geo :=
  match i with
  | M_Foundry.IFun f => Geo (M_Foundry.f_span f) false (map expr_geo (M_Foundry.f_attrs f) ++ match M_Foundry.f_body f with Some s => [stmt_geo s] | None => [] end)
  | M_Foundry.IInit e => expr_geo e
  end.

(** The parsers place what they read; there is no statement [await it(..)] (C68), nor a Solidity statement [f().x] (C36), on
    which the visitor fails. *)
Record parsers_place (ps : parsers) : Prop := {
  pp_go : forall p contents t, scalars contents -> ps_go ps p contents = Some t -> placed p contents [go_geo t];
  pp_php : forall p contents t, scalars contents -> ps_php ps p contents = Some t -> placed p contents [php_geo t];
  pp_rust : forall p contents t, scalars contents -> ps_rust ps p contents = Some t -> placed p contents [syn_geo t];
  pp_ts : forall p contents t, scalars contents -> ps_ts ps p contents = Some t -> placed p contents [swc_geo t] /\ S_Swc.js_regular t;
  pp_sol : forall p contents items, scalars contents -> ps_sol ps p contents = Some items -> placed p contents (map item_geo items) /\ S_Foundry.no_member_statement items
}.
