(** Vocabulary for the Foundry properties: Solidity statements that follow a cheatcode. *)
From Verif Require Import Base M_Text M_Span M_Visitor M_Foundry.

(** The statement [vm.prank(..);] or [vm.expect..(..);]. *)
Definition prefix_cheatcode (s : sstmt) : Prop :=
  exists i sp i1 sp1 i2 sp2 i3 sp3 method args,
    s = SStmt SKExpr i sp [PExpr (ECall i1 sp1 (EMember i2 sp2 (EVar i3 sp3 (s2t "vm")) method) args)] /\
    (method = s2t "prank" \/ exists r, method = s2t "expect" ++ r).

(** [s] occurs in [b]. *)
Inductive inside : sstmt -> sstmt -> Prop :=
| in_here s : inside s s
| in_block i sp l x s : In x l -> inside x s -> inside (SBlock i sp l) s
| in_part k i sp parts x s : In (PStmt x) parts -> inside x s -> inside (SStmt k i sp parts) s.

(** [s] is, or is inside, a statement of [b] that comes directly after a cheatcode. *)
Definition protected (b s : sstmt) : Prop :=
  exists i sp pre c g post, inside b (SBlock i sp (pre ++ c :: g :: post)) /\ prefix_cheatcode c /\ inside g s.

(** [s] occurs in [b], and nothing it is inside of comes directly after a cheatcode. *)
Inductive exposed : sstmt -> sstmt -> Prop :=
| ex_here s : exposed s s
| ex_block i sp pre x post s : (forall p c, pre = p ++ [c] -> ~ prefix_cheatcode c) ->
    exposed x s -> exposed (SBlock i sp (pre ++ x :: post)) s
| ex_part k i sp parts x s : In (PStmt x) parts -> exposed x s -> exposed (SStmt k i sp parts) s.

(** A statement proper (blocks are not). *)
Definition proper (s : sstmt) : Prop := exists k i sp parts, s = SStmt k i sp parts.
Definition stmt_span (s : sstmt) : span := match s with SBlock _ sp _ => sp | SStmt _ _ sp _ => sp end.
Definition stmt_id (s : sstmt) : nat := match s with SBlock i _ _ => i | SStmt _ i _ _ => i end.

(** The spans of the statements proper, place by place. *)
Fixpoint spans (s : sstmt) : list span :=
  match s with
  | SBlock _ _ l => flat_map spans l
  | SStmt _ _ sp parts => sp :: flat_map part_spans parts
  end
with part_spans (p : spart) : list span :=
  match p with PExpr _ => [] | PStmt s => spans s end.
Definition fun_spans (f : sfun) : list span := match f_body f with Some b => spans b | None => [] end.

(** [e] occurs in the expression. *)
Inductive subexpr : sexpr -> sexpr -> Prop :=
| se_here e : subexpr e e
| se_base i sp b n e : subexpr b e -> subexpr (EMember i sp b n) e
| se_callee i sp c args e : subexpr c e -> subexpr (ECall i sp c args) e
| se_arg i sp c args a e : In a args -> subexpr a e -> subexpr (ECall i sp c args) e
| se_options i sp c opts e : subexpr c e -> subexpr (ECallBlock i sp c opts) e
| se_option i sp c opts a e : In a opts -> subexpr a e -> subexpr (ECallBlock i sp c opts) e
| se_rhs i sp ns r e : subexpr r e -> subexpr (EAssignList i sp ns r) e
| se_other i sp ks k e : In k ks -> subexpr k e -> subexpr (EOther i sp ks) e.
(** [e] occurs directly in the statement [s] (not in a statement inside [s]). *)
Definition directly_in (s : sstmt) (e : sexpr) : Prop :=
  exists k i sp parts e', s = SStmt k i sp parts /\ In (PExpr e') parts /\ subexpr e' e.

(** No statement of the file consists of a member of a call's result ([f().x;]): the walker
    panics on those (C36). *)
Fixpoint member_of_call (e : sexpr) : bool :=
  match e with
  | EMember _ _ b _ => match b with ECall _ _ _ _ => true | _ => member_of_call b end
  | _ => false
  end.
Definition no_member_statement (items : list sitem) : Prop :=
  forall f b s k i sp e parts, In f (functions items) -> f_body f = Some b -> inside b s ->
    s = SStmt k i sp (PExpr e :: parts) -> member_of_call e = false.

(** What the expression [x.m1...mn(..)] with call options calls a method on. *)
Inductive callee_of : sexpr -> sexpr -> Prop :=
| co_plain c : (forall i sp c' o, c <> ECallBlock i sp c' o) -> callee_of c c
| co_options i sp c o c' : callee_of c c' -> callee_of (ECallBlock i sp c o) c'.
Inductive members : sexpr -> sexpr -> Prop :=
| me_one i sp b n : (forall i' sp' b' n', b <> EMember i' sp' b' n') -> members (EMember i sp b n) b
| me_more i sp b n b' : members b b' -> members (EMember i sp b n) b'.
(** [e] is the method call [base.m1...mn(..)]. *)
Definition method_call_of (e base : sexpr) : Prop :=
  exists i sp c args c', e = ECall i sp c args /\ callee_of c c' /\ members c' base.

(** The test function [f] is named [t]. *)
Definition test_function (f : sfun) (t : text) : Prop :=
  f_name f = Some t /\ (exists r, t = s2t "test" ++ r) /\ f_pure f = false /\ exists i sp l, f_body f = Some (SBlock i sp l).
