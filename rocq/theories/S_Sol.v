(** Vocabulary for the candidates of Solidity tests (C69), over the syntax trees of [M_Foundry]. *)
From Verif Require Import Base M_Text M_Span M_Run M_Visitor S_Visitor M_Foundry S_Foundry.

(** [e] is [base.p1...pn]; [base] is not a member. *)
Inductive sol_members : sexpr -> sexpr -> list text -> Prop :=
| sm_base e : (forall i sp b x, e <> EMember i sp b x) -> sol_members e e []
| sm_member i sp b x base p : sol_members b base p -> sol_members (EMember i sp b x) base (p ++ [x]).
(** [c] is the call [g(..)] or [g{..}(..)]. *)
Definition sol_call_of (c g : sexpr) : Prop := exists i sp f args, c = ECall i sp f args /\ callee_of f g.
(** The method call [base.p1...pn(..)], n at least one, possibly with call options. *)
Definition sol_method (c base : sexpr) (p : list text) : Prop := exists g, sol_call_of c g /\ sol_members g base p /\ p <> [].
Definition sol_call (e : sexpr) : Prop := exists i sp f args, e = ECall i sp f args.

Section Ignored.
Context (E : venv).
(** Calls that the configuration (or the back end) ignores: of an ignored function [f] or [x.f], and method calls on the
    result of such a call. *)
Inductive sol_root_ignored : sexpr -> Prop :=
| si_function i sp i' sp' x args : v_ign_fun E x = true -> sol_root_ignored (ECall i sp (EVar i' sp' x) args)
| si_path c i sp p x : sol_method c (EVar i sp x) p ->
    (match v_disamb E with
     | DNone => v_ign_fun E (x ++ s2t "." ++ dotted p) = true \/ v_ign_met E (dotted p) = true
     | DFunction => v_ign_fun E (x ++ s2t "." ++ dotted p) = true
     | DMethod => v_ign_met E (dotted p) = true
     end) -> sol_root_ignored c
| si_chain c b p : sol_method c b p -> sol_call b -> sol_root_ignored b -> sol_root_ignored c.
Definition sol_ignored_method (c : sexpr) : Prop := exists b p, sol_method c b p /\ v_ign_met E (dotted p) = true.
Definition sol_ignored_call (c : sexpr) : Prop :=
  sol_root_ignored c \/ exists b p, sol_method c b p /\ ~ sol_call b /\ v_ign_met E (dotted p) = true.
(** The call [c] is the expression [e], its callee, an argument, or an argument's argument and so on, outside of ignored
    calls (unless the arguments of those are to be looked at, too). *)
Inductive sol_in : sexpr -> sexpr -> Prop :=
| sn_here e : sol_in e e
| sn_call i sp f args k e :
    v_visit_args E = true \/ (~ sol_ignored_call (ECall i sp f args) /\ ~ sol_ignored_method (ECall i sp f args)) ->
    In k (f :: args) -> (forall i' sp' g o, k = f -> f <> ECallBlock i' sp' g o) -> sol_in k e -> sol_in (ECall i sp f args) e
| sn_callee i sp f args e : (forall i' sp' g o, f <> ECallBlock i' sp' g o) -> sol_in f e -> sol_in (ECall i sp f args) e.
End Ignored.

Section File.
Context (E : venv) (items : list sitem) (walkable : text -> bool).
(** [g] is the first function of the file with that name that is not [pure]. *)
Definition sol_local (x : text) (g : sfun) : Prop :=
  exists pre post, functions items = pre ++ g :: post /\ f_name g = Some x /\ f_pure g = false /\
    forall h, In h pre -> f_name h = Some x -> f_pure h = true.
(** The call [c] names the function [g] of the file. *)
Definition sol_local_call (c : sexpr) (g : sfun) : Prop :=
  exists i sp x, sol_call_of c (EVar i sp x) /\ walkable x = true /\ sol_local x g.
(** [e] occurs in [f]: in a modifier's arguments, or in a statement that is not protected by a cheatcode. *)
Definition sol_expr_of (f : sfun) (e : sexpr) : Prop :=
  (exists a, In a (f_attrs f) /\ subexpr a e) \/
  exists b s, f_body f = Some b /\ exposed b s /\ directly_in s e.
Definition sol_test (f : sfun) (t : text) : Prop := In f (functions items) /\ test_function f t.
(** The test [t] calls this function of the file, directly or not. *)
Inductive sol_calls (t : text) : sfun -> Prop :=
| sc_test f c g : sol_test f t -> sol_expr_of f c -> sol_local_call c g -> sol_calls t g
| sc_fun f c g : sol_calls t f -> sol_expr_of f c -> sol_local_call c g -> sol_calls t g.
(** The last statement of a test; a statement directly after a cheatcode does not count. *)
Definition sol_last (f : sfun) (u : sstmt) : Prop :=
  exists i sp pre, f_body f = Some (SBlock i sp (pre ++ [u])) /\ forall p c, pre = p ++ [c] -> ~ prefix_cheatcode c.
(** [s] is a statement that [t] runs: one of a function that [t] calls, or one of [t] other than the last. *)
Definition sol_code (t : text) (s : sstmt) : Prop :=
  exists f b, f_body f = Some b /\ exposed b s /\ proper s /\
    (sol_calls t f \/ sol_test f t /\ forall u, sol_last f u -> stmt_id u <> stmt_id s).
(** Declarations, [break], [continue], [emit], [return], [revert]. *)
Definition sol_kept (s : sstmt) : Prop :=
  exists k i sp parts, s = SStmt k i sp parts /\
    ((k <> SKOther /\ k <> SKExpr) \/ (k = SKExpr /\ exists i' sp' named rhs, parts = [PExpr (EAssignList i' sp' named rhs)] /\ In true named)).
(** The statement consists of the call [c]. *)
Definition sol_call_statement (s : sstmt) (c : sexpr) : Prop :=
  sol_call c /\ exists i sp parts, s = SStmt SKExpr i sp (PExpr c :: parts).
(** A call in [f], as a statement, an argument or part of one, names the function [g] of the file. *)
Definition sol_enters (f g : sfun) : Prop :=
  exists b k i sp parts e c, f_body f = Some b /\ exposed b (SStmt k i sp parts) /\ In (PExpr e) parts /\ sol_in E e c /\ sol_local_call c g.
(** Functions that are entered from a test that is not ignored, or from such a function. *)
Inductive sol_entered : sfun -> Prop :=
| sd_test t f g : sol_test f t -> v_ign_test E t = false -> sol_enters f g -> sol_entered g
| sd_call f g : sol_entered f -> sol_enters f g -> sol_entered g.
(** No function of the file is called in the initial value of a variable of a contract. *)
Definition sol_calls_in_functions : Prop := forall e c g, In (IInit e) items -> subexpr e c -> ~ sol_local_call c g.
(** A call as a statement; the call is not ignored, and not of a function of the file. *)
Definition sol_removable_call (s : sstmt) : Prop :=
  exists i sp c, s = SStmt SKExpr i sp [PExpr c] /\ sol_call c /\ ~ sol_ignored_call E c /\ forall g, ~ sol_local_call c g.
(** A statement that is not a call, not of a kind that is kept, and has no statement inside. *)
Definition sol_plain (s : sstmt) : Prop :=
  proper s /\ ~ sol_kept s /\ (forall c, ~ sol_call_statement s c) /\
  forall k i sp parts x s', s = SStmt k i sp parts -> In (PStmt x) parts -> inside x s' -> ~ proper s'.
End File.
