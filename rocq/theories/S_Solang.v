(** Vocabulary for Solidity syntax (C79): where statements are, and what the functions of a file are. *)
From Verif Require Import Base M_Text M_Span M_Visitor M_Solang.

Definition stmt_loc (s : pstmt) : loc :=
  match s with
  | TBlock l _ _ | TAssembly l | TArgs l _ | TIf l _ _ _ | TWhile l _ _ | TExpression l _ | TVariable l _ _ _ | TFor l _ _ _ _ | TDoWhile l _ _ | TContinue l
  | TBreak l | TReturn l _ | TRevert l _ | TRevertNamed l _ | TEmit l _ | TTry l _ _ _ | TError l => l
  end.
Definition is_block (s : pstmt) : Prop := exists l u ss, s = TBlock l u ss.
Definition catch_body (c : pcatch) : pstmt := match c with CSimple _ s | CNamed _ _ s => s end.
(** [x] stands directly in the statement [s], which is not a block. *)
Inductive branch : pstmt -> pstmt -> Prop :=
| br_then l c x o : branch (TIf l c x o) x
| br_else l c a x : branch (TIf l c a (Some x)) x
| br_while l c x : branch (TWhile l c x) x
| br_do l c x : branch (TDoWhile l x c) x
| br_for_init l x c n b : branch (TFor l (Some x) c n b) x
| br_for_body l i c n x : branch (TFor l i c n (Some x)) x
| br_try l e ps x cs : branch (TTry l e (Some (ps, x)) cs) x
| br_catch l e r cs c : In c cs -> branch (TTry l e r cs) (catch_body c).
(** [s] is [b], or is somewhere in it. *)
Inductive below : pstmt -> pstmt -> Prop :=
| be_here s : below s s
| be_block l u ss x s : In x ss -> below x s -> below (TBlock l u ss) s
| be_branch a x s : branch a x -> below x s -> below a s.
(** [vm.prank(..);] and [vm.expect..(..);]. *)
Definition cheatcode (s : pstmt) : Prop :=
  exists l l1 l2 l3 method args, s = TExpression l (XCall l1 (XMember l2 (XVariable l3 (s2t "vm")) method) args) /\
    (method = s2t "prank" \/ exists r, method = s2t "expect" ++ r).
(** The same, but not through a statement that comes directly after such a one. *)
Inductive reached : pstmt -> pstmt -> Prop :=
| re_here s : reached s s
| re_block l u pre x post s : (forall p c, pre = p ++ [c] -> ~ cheatcode c) -> reached x s -> reached (TBlock l u (pre ++ x :: post)) s
| re_branch a x s : branch a x -> reached x s -> reached a s.

(** The functions of a file: those outside of contracts and those of contracts. *)
Definition function_of (u : punit) (f : pfun) : Prop := In (UFun f) u \/ exists c, In (UContract c) u /\ In (KFun f) (pc_parts c).
(** Tests: named [test..], not [pure], with a body. *)
Definition test_of (u : punit) (f : pfun) (t : text) : Prop :=
  function_of u f /\ pf_name f = Some t /\ (exists r, t = s2t "test" ++ r) /\ ~ In (AMutability MPure) (pf_attrs f) /\ exists b, pf_body f = Some b /\ is_block b.
(** The last statement of a function's body. *)
Definition last_of (f : pfun) (s : pstmt) : Prop :=
  exists l u pre, pf_body f = Some (TBlock l u (pre ++ [s])) /\ forall p c, pre = p ++ [c] -> ~ cheatcode c.

(** Statements that are kept: declarations, among them [(uint x, ) = ..], [break], [continue], [emit], [return], [revert]. *)
Inductive kept : pstmt -> Prop :=
| ke_variable l t n i : kept (TVariable l t n i)
| ke_list l l1 l2 ps r a t n : In (Some (PParam a t (Some n))) ps -> kept (TExpression l (XAssign l1 (XList l2 ps) r))
| ke_break l : kept (TBreak l)
| ke_continue l : kept (TContinue l)
| ke_emit l e : kept (TEmit l e)
| ke_return l e : kept (TReturn l e)
| ke_revert l es : kept (TRevert l es)
| ke_named l es : kept (TRevertNamed l es).
(** The statement is a call (without named arguments). *)
Definition call_statement (s : pstmt) : Prop := exists l l1 f args, s = TExpression l (XCall l1 f args).
(** Statements to be removed: not a block, not kept, not a call, and with no statements in it but empty blocks. *)
Definition plain (s : pstmt) : Prop :=
  ~ is_block s /\ ~ kept s /\ ~ call_statement s /\ forall x y, branch s x -> below x y -> is_block y.
