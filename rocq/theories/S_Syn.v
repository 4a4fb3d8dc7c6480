(** Vocabulary for the Rust properties: what syn's trees mean to the reader of a test file. *)
From Verif Require Import Base M_Text M_Span M_Run M_Visitor S_Visitor M_Syn.

(** [u] is [t] or a part of it, or a part of a part, and so on. *)
Inductive part_of : syn -> syn -> Prop :=
| po_here t : part_of t t
| po_part a k l t u : In t l -> part_of t u -> part_of (Syn a k l) u.

(** ** Functions and tests *)
Definition a_function (t : syn) : Prop := (exists at_ n, x_kind t = XFn at_ n) \/ exists n, x_kind t = XImplFn n.
(** The attribute is [test] or [tokio::test]. *)
Definition marks_test (at_ : list (list (text * bool))) : Prop :=
  In [(s2t "test", false)] at_ \/ In [(s2t "tokio", false); (s2t "test", false)] at_.
(** A function that is not a test, with its name and body. *)
Definition plain_function (t : syn) (n : text) (b : syn) : Prop :=
  ((exists at_, x_kind t = XFn at_ n /\ ~ marks_test at_) \/ x_kind t = XImplFn n) /\ exists h r, x_parts t = h :: b :: r.

(** [u] occurs in [t] outside of functions. *)
Inductive outside : syn -> syn -> Prop :=
| ou_here t : outside t t
| ou_part t p u : ~ a_function t -> In p (x_parts t) -> outside p u -> outside t u.
(** A function of the file [root]: not a test, and not in another function. *)
Definition rs_local (root : syn) (n : text) (b : syn) : Prop := exists f, outside root f /\ plain_function f n b.
(** Where the walk goes on: not into functions that are not tests, and not into macros. *)
Definition enters (t : syn) : Prop :=
  (forall at_ n, x_kind t <> XFn at_ n) /\ (forall p, x_kind t <> XMacro p) /\ (forall p, x_kind t <> XMacroStmt p).
(** The modules between [t] and [u]. The flags say whether [t] and [u] are in a test, where modules do not count. *)
Inductive through : bool -> syn -> list text -> bool -> syn -> Prop :=
| th_here i t : through i t [] i t
| th_part i t p ms j u : enters t -> (forall n, x_kind t = XMod n -> i = true) ->
    In p (x_parts t) -> through i p ms j u -> through i t ms j u
| th_mod t n p ms j u : x_kind t = XMod n -> In p (x_parts t) -> through false p ms j u -> through false t (n :: ms) j u
| th_test i t at_ n p u : x_kind t = XFn at_ n -> marks_test at_ -> In p (x_parts t) -> through true p [] true u -> through i t [] true u.

(** [u] is [n], or occurs in it outside of macros and of functions that are not tests. *)
Definition rs_within (n u : syn) : Prop := exists i ms j, through i n ms j u.

Section Spec.
Context (fs : option (list text)) (listed : text -> bool).
(** The test function [f], found in modules [ms], is the test that Cargo calls [t]. *)
Definition known_as (ms : list text) (f : syn) (t : text) : Prop :=
  exists at_ n p, x_kind f = XFn at_ n /\ marks_test at_ /\ fs = Some p /\
    t = separated (s2t "::") (p ++ ms ++ [n]) /\ listed t = true.
(** A test of the file, outside of other functions. *)
Definition rs_test (root f : syn) (t : text) : Prop := exists ms, through false root ms false f /\ known_as ms f t.
(** A test anywhere in the file or in a function of the file, which is searched as if it was in no module. *)
Definition rs_test_somewhere (root f : syn) (t : text) : Prop :=
  exists ms j, (through false root ms j f \/ exists n b, rs_local root n b /\ through false b ms j f) /\ known_as ms f t.

(** ** Statements *)
Definition rs_stmt (t : syn) : Prop :=
  x_kind t = XLocal \/ x_kind t = XItemStmt \/ (exists p, x_kind t = XMacroStmt p) \/
  (exists semi e r, x_kind t = XExprStmt semi /\ x_parts t = e :: r).
(** Expressions that end with a block, as the program has it: not [match]. *)
Definition ends_in_block (e : syn) : Prop :=
  exists k, x_kind e = XExpr k /\ In k [EAsync; EBlock; EConst; EForLoop; EIf; ELoop; ETryBlock; EUnsafe; EWhile].
(** The value of a block: an expression without semicolon that does not end with a block. *)
Definition block_value (u : syn) : Prop :=
  exists e r, x_kind u = XExprStmt false /\ x_parts u = e :: r /\ ~ ends_in_block e.
(** [break], [continue], [return]; declarations. *)
Definition rs_kept (u : syn) : Prop :=
  x_kind u = XLocal \/ x_kind u = XItemStmt \/
  exists semi e r k, x_kind u = XExprStmt semi /\ x_parts u = e :: r /\ x_kind e = XExpr k /\ In k [EBreak; EContinue; EReturn].
(** Equal but for positions. *)
Inductive alike : syn -> syn -> Prop :=
| al_node a b k l m : x_text a = x_text b -> all_alike l m -> alike (Syn a k l) (Syn b k m)
with all_alike : list syn -> list syn -> Prop :=
| al_nil : all_alike [] []
| al_cons t u l m : alike t u -> all_alike l m -> all_alike (t :: l) (u :: m).
(** The last statement of the test function [f]. *)
Definition rs_last (f u : syn) : Prop := exists h b pre, x_parts f = [h; b] /\ x_kind b = XPart /\ x_parts b = pre ++ [u].
(** The function [f] has the block [b] as its body. *)
Definition has_body (f b : syn) : Prop := exists h, x_parts f = [h; b] /\ x_kind b = XPart.

(** ** Calls *)
(** A call with the function [f], or of the method [m] of [r]. *)
Definition rs_function_call (c f : syn) : Prop := x_kind c = XCall /\ exists args, x_parts c = f :: args.
Definition rs_calls_method (c : syn) (m : text) (r : syn) : Prop := x_kind c = XMethod m /\ exists args, x_parts c = r :: args.
Definition rs_call (c : syn) : Prop := (exists f, rs_function_call c f) \/ exists m r, rs_calls_method c m r.
(** A macro call in an expression. *)
Definition rs_macro (c : syn) (p : text) : Prop := x_kind c = XMacro p.
(** [e] is [b.x]; [b.await]. *)
Definition rs_field (e : syn) (x : option text) (b : syn) : Prop := x_kind e = XField x /\ exists r, x_parts e = b :: r.
Definition rs_await (e b : syn) : Prop := x_kind e = XAwait /\ exists r, x_parts e = b :: r.
(** [e] is [base.p1...pn], and [base] is not itself [b.x]. *)
Inductive rs_fields : syn -> syn -> list text -> Prop :=
| rf_base e : (forall x b, ~ rs_field e (Some x) b) -> rs_fields e e []
| rf_field e x b base p : rs_field e (Some x) b -> rs_fields b base p -> rs_fields e base (p ++ [x]).
(** The method call [base.p1...pn(..)], n at least one. *)
Definition rs_method (c base : syn) (p : list text) : Prop :=
  (exists f, rs_function_call c f /\ rs_fields f base p /\ p <> []) \/
  (exists m r q, rs_calls_method c m r /\ rs_fields r base q /\ p = q ++ [m]).

(** What a statement's expression calls, seen through [.await] and fields. *)
Inductive rs_performs : syn -> syn -> Prop :=
| rp_call c : rs_call c \/ (exists p, rs_macro c p) -> rs_performs c c
| rp_await e b c : rs_await e b -> rs_performs b c -> rs_performs e c
| rp_field e x b c : rs_field e x b -> rs_performs b c -> rs_performs e c.
(** The expression statement [u] consists of the call [c]; the statement [u] is a call of the macro [p]. *)
Definition rs_call_statement (u c : syn) : Prop :=
  exists semi e r, x_kind u = XExprStmt semi /\ x_parts u = e :: r /\ rs_performs e c.
Definition rs_macro_statement (u : syn) (p : text) : Prop := x_kind u = XMacroStmt p.

(** The name by which a call refers to a function of the file: that of the method, or of the function if it is a single identifier;
    for [f(..)(..)], [x.m(..)(..)] and [p!(..)(..)] that of the inner call, and for [(e.x)(..)] without parentheses [x]. *)
Inductive callee_name : syn -> text -> Prop :=
| cn_method c m r : rs_calls_method c m r -> callee_name c m
| cn_ident c f x s : rs_function_call c f -> x_kind f = XPath false (Some x) s -> callee_name c x
| cn_field c f x b : rs_function_call c f -> rs_field f (Some x) b -> callee_name c x
| cn_macro c f p : rs_function_call c f -> rs_macro f p -> callee_name c p
| cn_call c f g q i s : rs_function_call c f -> rs_function_call f g -> x_kind g = XPath q i s -> callee_name c s
| cn_inner c f m r : rs_function_call c f -> rs_calls_method f m r -> callee_name c m.

Section Ignored.
Context (E : venv).
(** Calls that the configuration (or the back end) ignores: of an ignored function, a method call on an ignored macro call, and
    method calls on the result of such a call. *)
Inductive rs_root_ignored : syn -> Prop :=
| xi_function c f q i s : rs_function_call c f -> (forall b p, ~ rs_method c b p) -> x_kind f = XPath q i s ->
    v_ign_fun E s = true -> rs_root_ignored c
| xi_macro c b p x : rs_method c b p -> rs_macro b x -> v_ign_mac E x = true -> rs_root_ignored c
| xi_chain c b p : rs_method c b p -> rs_call b -> rs_root_ignored b -> rs_root_ignored c.
Definition rs_ignored_method (c : syn) : Prop := exists b p, rs_method c b p /\ v_ign_met E (dotted p) = true.
Definition rs_ignored_call (c : syn) : Prop :=
  rs_root_ignored c \/ exists b p, rs_method c b p /\ ~ rs_call b /\ v_ign_met E (dotted p) = true.
(** Not an ignored call, unless the arguments of those are to be looked at, too. *)
Definition rs_open (n : syn) : Prop := rs_call n -> v_visit_args E = true \/ (~ rs_ignored_call n /\ ~ rs_ignored_method n).
(** [u] occurs in [t] outside of functions, macros and the arguments of ignored calls; so do the parts of a function. *)
Inductive rs_in : syn -> syn -> Prop :=
| ri_here t : rs_in t t
| ri_part t p u : enters t -> rs_open t -> In p (x_parts t) -> rs_in p u -> rs_in t u
| ri_callee t f u : rs_function_call t f -> rs_in f u -> rs_in t u
| ri_receiver t m r u : rs_calls_method t m r -> rs_in r u -> rs_in t u.
Definition rs_part (f u : syn) : Prop := exists p, In p (x_parts f) /\ rs_in p u.
End Ignored.

Context (E : venv) (root : syn) (walkable : text -> bool).
(** The call [c] refers to a function of the file, with body [b]. *)
Definition rs_local_call (c b : syn) : Prop := exists x, callee_name c x /\ walkable x = true /\ rs_local root x b.
(** The test [t] runs the function with these parts: it is the test itself, or its body is that of a function of the file
    that is called from a function the test runs. *)
Inductive rs_runs (t : text) : syn -> Prop :=
| rr_test f : rs_test_somewhere root f t -> rs_runs t f
| rr_call n c b : rs_runs t n -> rs_within n c -> rs_local_call c b -> rs_runs t b.
(** [b] is the body of the only function of the file with its name; it is called by that name in [n], and such calls are followed. *)
Definition rs_enters (n b : syn) : Prop :=
  exists c x, rs_part E n c /\ rs_call c /\ callee_name c x /\ walkable x = true /\ rs_local root x b /\ (forall b', rs_local root x b' -> b' = b) /\ x_kind b = XPart.
(** Bodies of functions that are entered from a test that is not ignored, or from such a body. *)
Inductive rs_entered : syn -> Prop :=
| rd_test t f b : rs_test root f t -> v_ign_test E t = false -> rs_enters f b -> rs_entered b
| rd_call b b' : rs_entered b -> rs_enters b b' -> rs_entered b'.
(** No function of the file is called outside of the tests and of the functions of the file that are not in an [impl]. *)
Definition rs_calls_in_tests : Prop := forall ms u b, through false root ms false u -> ~ rs_local_call u b.
(** A statement that is not a call, not of a kind that is kept, not a block's value, and has no statement inside. *)
Definition rs_plain_statement (u : syn) : Prop :=
  rs_stmt u /\ ~ rs_kept u /\ ~ block_value u /\ (forall c, ~ rs_call_statement u c) /\ (forall p, ~ rs_macro_statement u p) /\
  forall k v, In k (x_parts u) -> part_of k v -> ~ rs_stmt v.
(** A call as a statement; the call is not ignored, and not of a function of the file; or a macro call as a statement. *)
Definition rs_removable_call (u : syn) : Prop :=
  (exists c, rs_call_statement u c /\ ~ block_value u /\ ((rs_call c /\ ~ rs_ignored_call E c) \/ exists p, rs_macro c p /\ v_ign_mac E p = false) /\
     forall b, ~ rs_local_call c b) \/
  (exists p, rs_macro_statement u p /\ v_ign_mac E p = false).
End Spec.

(** The places of a file differ. *)
Definition places_apart (root : syn) : Prop :=
  forall u v, part_of root u -> part_of root v -> x_id (x_info u) = x_id (x_info v) -> u = v.
(** No two functions of the file have the same text. *)
Definition bodies_apart (root : syn) : Prop := forall x y b b', rs_local root x b -> rs_local root y b' -> tokens b = tokens b' -> b = b'.
(** No test inside of a function. *)
Definition no_inner_test (root : syn) : Prop :=
  forall f p u at_ n, part_of root f -> a_function f -> In p (x_parts f) -> part_of p u -> x_kind u = XFn at_ n -> ~ marks_test at_.
(** The body of a test [t], or of a function of the file that [t] calls, directly or not; in the code of [t], [u] is not its last statement. *)
Definition rs_code (fs : option (list text)) (listed : text -> bool) (root : syn) (walkable : text -> bool) (t : text) (n u : syn) : Prop :=
  rs_within n u /\
  ((rs_test_somewhere fs listed root n t /\ forall l, rs_last n l -> ~ alike l u) \/
   (rs_runs fs listed root walkable t n /\ exists x, rs_local root x n)).
