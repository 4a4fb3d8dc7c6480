(** Vocabulary for the TypeScript properties: what swc's trees mean to the reader of a test file. *)
From Verif Require Import Base M_Text M_Span M_Run M_Visitor S_Visitor M_Swc.

(** [u] is [t] or a part of it, or a part of a part, and so on. *)
Inductive js_part : swc -> swc -> Prop :=
| jp_here t : js_part t t
| jp_part a k l t u : In t l -> js_part t u -> js_part (Swc a k l) u.

(** ** Tests and functions *)
(** [e] is [it("m", (..) => b)] or [it("m", function (..) b)] with exactly these two arguments, and [b] a block. *)
Definition it_expr (e : swc) (m : text) (b : swc) : Prop :=
  exists f s g pre, j_kind e = JCall /\ j_parts e = [f; s; g] /\ j_kind f = JIdent (s2t "it") /\ j_kind s = JStr (Some m) /\
    j_kind g = JFun true /\ j_parts g = pre ++ [b].
(** The statement [u] is [it("m", ..)], and [b] the body of its function. *)
Definition it_statement (u : swc) (m : text) (b : swc) : Prop :=
  j_kind u = JStmt SExpr /\ exists e r, j_parts u = e :: r /\ it_expr e m b.
Definition is_it (u : swc) : Prop := exists m b, it_statement u m b.
(** [u] occurs in [t] outside of tests. *)
Inductive beyond_tests : swc -> swc -> Prop :=
| bt_here t : beyond_tests t t
| bt_part t p u : ~ is_it t -> In p (j_parts t) -> beyond_tests p u -> beyond_tests t u.
(** A test of the file, not in another test: the statement, the message, the body. *)
Definition js_test (root f : swc) (m : text) (b : swc) : Prop := beyond_tests root f /\ it_statement f m b.
(** [u] occurs in [t] outside of function declarations. *)
Inductive beyond_functions : swc -> swc -> Prop :=
| bf_here t : beyond_functions t t
| bf_part t p u : (forall n, j_kind t <> JFunction n) -> In p (j_parts t) -> beyond_functions p u -> beyond_functions t u.
Definition js_local (root : swc) (n : text) (f : swc) : Prop := beyond_functions root f /\ j_kind f = JFunction n.

(** ** Statements *)
(** A statement that is not a test. *)
Definition js_stmt (t : swc) : Prop :=
  (exists s, j_kind t = JStmt s /\ s <> SExpr) \/ (j_kind t = JStmt SExpr /\ j_parts t <> [] /\ ~ is_it t).
(** [break], [continue], [return], [throw], declarations. *)
Definition js_kept (u : swc) : Prop := exists s, j_kind u = JStmt s /\ In s [SBreak; SContinue; SReturn; SThrow; SDecl].
(** The last statement of the block [b]. *)
Definition js_last (b u : swc) : Prop := j_kind b = JPart /\ exists pre, j_parts b = pre ++ [u].

(** ** Calls *)
Definition js_call_of (c f : swc) : Prop := j_kind c = JCall /\ exists args, j_parts c = f :: args.
Definition js_call (c : swc) : Prop := exists f, js_call_of c f.
Definition js_member (e : swc) (x : option text) (b : swc) : Prop := j_kind e = JMember x /\ exists r, j_parts e = b :: r.
Definition js_await (e b : swc) : Prop := j_kind e = JAwait /\ exists r, j_parts e = b :: r.
(** [e] is [base.p1...pn], and [base] is not itself [b.x]. *)
Inductive js_members : swc -> swc -> list text -> Prop :=
| jm_base e : (forall x b, ~ js_member e (Some x) b) -> js_members e e []
| jm_member e x b base p : js_member e (Some x) b -> js_members b base p -> js_members e base (p ++ [x]).
(** The method call [base.p1...pn(..)], n at least one. *)
Definition js_method (c base : swc) (p : list text) : Prop := exists f, js_call_of c f /\ js_members f base p /\ p <> [].
(** What an expression calls, seen through [await] and members. *)
Inductive js_performs : swc -> swc -> Prop :=
| jf_call c : js_call c -> js_performs c c
| jf_await e b c : js_await e b -> js_performs b c -> js_performs e c
| jf_member e x b c : js_member e x b -> js_performs b c -> js_performs e c.
(** The statement [u] consists of the call [c]. *)
Definition js_call_statement (u c : swc) : Prop :=
  j_kind u = JStmt SExpr /\ ~ is_it u /\ exists e r, j_parts u = e :: r /\ js_performs e c.

Section Ignored.
Context (E : venv).
(** Calls that the configuration (or the back end) ignores: of an ignored function [f] or [x.f], and method calls on the result of
    such a call. *)
Inductive js_root_ignored : swc -> Prop :=
| ji_function c f x : js_call_of c f -> j_kind f = JIdent x -> v_ign_fun E x = true -> js_root_ignored c
| ji_path c b p x : js_method c b p -> j_kind b = JIdent x ->
    (match v_disamb E with
     | DNone => v_ign_fun E (x ++ s2t "." ++ dotted p) = true \/ v_ign_met E (dotted p) = true
     | DFunction => v_ign_fun E (x ++ s2t "." ++ dotted p) = true
     | DMethod => v_ign_met E (dotted p) = true
     end) -> js_root_ignored c
| ji_chain c b p : js_method c b p -> js_call b -> js_root_ignored b -> js_root_ignored c.
Definition js_ignored_method (c : swc) : Prop := exists b p, js_method c b p /\ v_ign_met E (dotted p) = true.
Definition js_ignored_call (c : swc) : Prop :=
  js_root_ignored c \/ exists b p, js_method c b p /\ ~ js_call b /\ v_ign_met E (dotted p) = true.
(** Not an ignored call, unless the arguments of those are to be looked at, too. *)
Definition js_open (n : swc) : Prop := js_call n -> v_visit_args E = true \/ (~ js_ignored_call n /\ ~ js_ignored_method n).
(** [u] occurs in [t] outside of tests and of the arguments of ignored calls. *)
Inductive js_in : swc -> swc -> Prop :=
| jn_here t : js_in t t
| jn_part t p u : ~ is_it t -> js_open t -> In p (j_parts t) -> js_in p u -> js_in t u
| jn_callee t f u : ~ is_it t -> js_call_of t f -> js_in f u -> js_in t u.
(** [u] occurs below [b]. *)
Definition js_below (b u : swc) : Prop := exists p, In p (j_parts b) /\ js_in p u.
End Ignored.

Section File.
Context (E : venv) (root : swc) (walkable : text -> bool).
(** The call [c] names the function [f] of the file. *)
Definition js_local_call (c f : swc) : Prop :=
  exists g x, js_call_of c g /\ j_kind g = JIdent x /\ walkable x = true /\ js_local root x f.
(** A test of the file or (which is the same place) of a function of it. *)
Definition js_some_test (f : swc) (t : text) (b : swc) : Prop := js_part root f /\ it_statement f t b.
(** The test [t] runs this code: it is the test, or a function of the file that is called from code the test runs. *)
Inductive js_runs (t : text) : swc -> Prop :=
| jr_test f b : js_some_test f t b -> js_runs t f
| jr_call n c f : js_runs t n -> js_part n c -> js_local_call c f -> js_runs t f.
(** The call [c] names [h], the only function of the file with its name, and such calls are followed. *)
Definition js_enters (c h : swc) : Prop :=
  exists g x, js_call_of c g /\ j_kind g = JIdent x /\ walkable x = true /\ (forall m b, ~ it_expr c m b) /\
    js_local root x h /\ forall h', js_local root x h' -> h' = h.
(** Functions that are entered from a test that is not ignored, or from such a function. *)
Inductive js_entered : swc -> Prop :=
| jd_test t f b c h : js_test root f t b -> v_ign_test E t = false -> js_in E b c -> js_enters c h -> js_entered h
| jd_call h c h' : js_entered h -> js_below E h c -> js_enters c h' -> js_entered h'.
(** A statement that is not a call, not of a kind that is kept, and has no statement inside. *)
Definition js_plain_statement (u : swc) : Prop :=
  js_stmt u /\ ~ js_kept u /\ (forall c, ~ js_call_statement u c) /\ forall k v, In k (j_parts u) -> js_part k v -> ~ js_stmt v.
(** A call as a statement; the call is not ignored, and not of a function of the file. *)
Definition js_removable_call (u : swc) : Prop :=
  exists c, js_call_statement u c /\ ~ js_ignored_call E c /\ forall f, ~ js_local_call c f.
End File.

(** The places of a file differ. *)
Definition js_apart (root : swc) : Prop := forall u v, js_part root u -> js_part root v -> j_id (j_info u) = j_id (j_info v) -> u = v.
(** No statement consists of a call of [it] within [await] or members, such as [await it("m", () => {});]. *)
Definition js_regular (root : swc) : Prop := forall u c m b, js_part root u -> js_call_statement u c -> ~ it_expr c m b.
(** No test inside of a test or of a function. *)
Definition js_no_inner_test (root : swc) : Prop :=
  forall f p u, js_part root f -> (is_it f \/ exists n, j_kind f = JFunction n) -> In p (j_parts f) -> js_part p u -> ~ is_it u.
(** [n] is the test [t], or a function of the file that [t] calls, directly or not. *)
Definition js_code (root : swc) (walkable : text -> bool) (t : text) (n u : swc) : Prop :=
  js_part n u /\ ((exists b, js_some_test root n t b /\ ~ js_last b u) \/ (js_runs root walkable t n /\ exists x, js_local root x n)).
