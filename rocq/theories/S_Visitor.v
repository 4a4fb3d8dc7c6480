(** What is a removal candidate: a declarative description of the walk over a test file,
    without the visitor's mutable state.  It uses from [M_Visitor] the syntax trees, the
    environment, the framework's equality [same], and the names and spans stored in
    nodes. *)
From Verif Require Import Base M_Text M_Rewriter M_Span M_Run M_Visitor.

Definition is_stmt (n : node) : Prop := exists r c d e, n_kind n = KStmt r c d e.
Definition is_call (n : node) : Prop := exists h x, n_kind n = KCall h x.
Definition is_macro (n : node) : Prop := exists x, n_kind n = KMacro x.

(** The call a statement's expression performs, seen through [.await] and fields:
    [f(x).await.y] performs [f(x)]. *)
Inductive performs : node -> node -> Prop :=
| pf_call c : is_call c \/ is_macro c -> performs c c
| pf_await l b r c : l_kind l = KAwait -> performs b c -> performs (Node l (b :: r)) c
| pf_field l x b r c : l_kind l = KField x -> performs b c -> performs (Node l (b :: r)) c.

(** [c] is the call that the expression statement [s] consists of. *)
Definition call_statement (s c : node) : Prop :=
  exists l e r rm ct d, s = Node l (e :: r) /\ l_kind l = KStmt rm ct d true /\ performs e c.

(** [e] is the expression [base.p1.p2...pn], [base] itself not being a named field. *)
Inductive field_path : node -> node -> list text -> Prop :=
| fp_base e : (forall x, n_kind e <> KField (Some x)) -> field_path e e []
| fp_field l x b r base p : l_kind l = KField (Some x) -> field_path b base p ->
    field_path (Node l (b :: r)) base (p ++ [x]).

(** [c] is the method call [base.p1...pn(..)], [n >= 1]. *)
Definition method_call (c base : node) (p : list text) : Prop :=
  is_call c /\ exists callee args, n_kids c = callee :: args /\ field_path callee base p /\ p <> [].

(** [p1.p2...pn]. *)
Definition dotted (p : list text) : text := separated (s2t ".") p.

Section Spec.
Context (E : venv).

(** Calls whose innermost receiver call is ignored: an ignored function [f(..)], an ignored
    path [x.p(..)], a method on an ignored macro, or a chain of methods starting with one
    of those. *)
Inductive root_ignored : node -> Prop :=
| ri_function c f : (forall b p, ~ method_call c b p) -> call_name c = Some f ->
    v_ign_fun E f = true -> root_ignored c
| ri_path c b p x : method_call c b p -> n_kind b = KIdent x ->
    (match v_disamb E with
     | DNone => v_ign_fun E (x ++ [46%N] ++ dotted p) = true \/ v_ign_met E (dotted p) = true
     | DFunction => v_ign_fun E (x ++ [46%N] ++ dotted p) = true
     | DMethod => v_ign_met E (dotted p) = true
     end) -> root_ignored c
| ri_macro c b p x : method_call c b p -> n_kind b = KMacro x -> v_ign_mac E x = true -> root_ignored c
| ri_chain c b p : method_call c b p -> is_call b -> root_ignored b -> root_ignored c.

(** The method is one of the ignored methods. *)
Definition ignored_method (c : node) : Prop :=
  exists b p, method_call c b p /\ v_ign_met E (dotted p) = true.

(** The whole call is ignored. *)
Definition ignored_call (c : node) : Prop :=
  (exists x, n_kind c = KMacro x /\ v_ign_mac E x = true) \/
  (is_call c /\
   (root_ignored c \/ exists b p, method_call c b p /\ ~ is_call b /\ v_ign_met E (dotted p) = true)).

(** [c] calls the walkable local function [f]. *)
Definition calls_local (R : list node) (c f : node) : Prop :=
  is_call c /\ (forall r, In r R -> same E f r = false) /\
  exists callee args x fs,
    n_kids c = callee :: args /\ expr_name E callee = Some x /\ v_walkable E x = f :: fs.

(** A body being walked: [live] says whether some test is known to run it, [L] is the
    last statement of the test (none in a local function), [R] are the local functions
    already taken up. *)
Section Body.
Context (live : bool) (L : option node) (R : list node).

(** Statements that are kept: tail expressions that cannot be removed, and the last
    statement of the test. *)
Definition kept (s : node) : Prop :=
  removable s = false \/ exists l, L = Some l /\ same E l s = true.

(** A call is considered for removal unless no test runs it, or it goes to a local
    function that will be walked, or it is the call of a kept statement.  [ctx] is the
    statement the call makes up, if any. *)
Definition considered (c : node) (ctx : option node) : Prop :=
  live = true /\ (forall f, ~ calls_local R c f) /\ (forall s, ctx = Some s -> ~ kept s).

(** The arguments of a considered, ignored call are not looked at. *)
Definition closed (c : node) (ctx : option node) : Prop :=
  considered c ctx /\ (ignored_call c \/ ignored_method c) /\ v_visit_args E = false.

(** One step of the walk: from a node to a child.  The context is the statement whose
    call is being looked for. *)
Inductive child : node -> option node -> node -> option node -> Prop :=
| ch_call_stmt s e r c ctx : n_kids s = e :: r -> call_statement s c -> child s ctx e (Some s)
| ch_stmt s pre k post ctx : is_stmt s -> n_kids s = pre ++ k :: post ->
    (pre <> [] \/ forall c, ~ call_statement s c) -> child s ctx k None
| ch_head n k post ctx : (n_kind n = KAwait \/ exists x, n_kind n = KField x) ->
    fw_expr_kids (v_fw E) = true -> n_kids n = k :: post -> child n ctx k ctx
| ch_tail n pre k post ctx : (n_kind n = KAwait \/ exists x, n_kind n = KField x) ->
    fw_expr_kids (v_fw E) = true -> n_kids n = pre ++ k :: post -> pre <> [] -> child n ctx k None
| ch_expr n k ctx : (n_kind n = KExpr \/ exists x, n_kind n = KIdent x) ->
    fw_expr_kids (v_fw E) = true -> In k (n_kids n) -> child n ctx k None
| ch_group n k ctx : n_kind n = KGroup -> In k (n_kids n) -> child n ctx k None
| ch_hidden n x k ctx : n_kind n = KCall true x -> In k (n_kids n) -> child n ctx k None
| ch_open n x k ctx : n_kind n = KCall false x -> ~ closed n ctx -> In k (n_kids n) -> child n ctx k None
| ch_callee n x k r ctx : n_kind n = KCall false x -> fw_skip_whole (v_fw E) = false ->
    n_kids n = k :: r -> child n ctx k None
| ch_macro n x k ctx : n_kind n = KMacro x -> ~ closed n ctx -> In k (n_kids n) -> child n ctx k None.

(** The nodes the walk reaches. *)
Inductive visits : node -> option node -> node -> option node -> Prop :=
| vi_here n ctx : visits n ctx n ctx
| vi_step n ctx k ctx' m ctx'' : child n ctx k ctx' -> visits k ctx' m ctx'' -> visits n ctx m ctx''.

(** The walk below [s] reaches a statement. *)
Definition contains_stmt (s : node) : Prop :=
  exists k ctx' m ctx'', child s None k ctx' /\ visits k ctx' m ctx'' /\ is_stmt m.

(** What a visited node contributes. *)
Inductive contributes : node -> option node -> kind -> span -> Prop :=
| cb_leaf s ctx : live = true -> is_stmt s -> (forall c, ~ call_statement s c) ->
    ~ kept s -> control s = false -> declaration s = false -> ~ contains_stmt s ->
    v_skip E (n_span s) = false ->
    contributes s ctx Statement (n_span s)
| cb_call s c : (exists x, n_kind c = KCall false x) \/ is_macro c ->
    considered c (Some s) -> ~ ignored_call c ->
    v_skip E (n_span s) = false ->
    contributes c (Some s) Statement (n_span s)
| cb_method c ctx x b p sp : n_kind c = KCall false x -> considered c ctx ->
    method_call c b p -> ~ ignored_call c -> ~ ignored_method c ->
    method_span E (n_span c) (n_span b) = Some sp ->
    v_skip E sp = false ->
    contributes c ctx MethodCall sp.

(** Walking the nodes [ks] yields a candidate. *)
Definition yields (ks : list node) (k : kind) (sp : span) : Prop :=
  exists n m ctx, In n ks /\ visits n None m ctx /\ contributes m ctx k sp.

(** Walking the nodes [ks] reaches a call of the local function [f]. *)
Definition yields_call (ks : list node) (f : node) : Prop :=
  exists n m ctx, In n ks /\ visits n None m ctx /\ (exists x, n_kind m = KCall false x) /\ calls_local R m f.

End Body.

(** Trees as the parsers produce them: calls, fields and awaits have a first child, and the
    call a statement consists of is one the traversal sees (it does not see a call below a
    field in Foundry, nor an [it(..)] below an await in TypeScript; the walker panics on
    those, see C36). *)
Fixpoint head_ok (e : node) : bool :=
  match e with
  | Node l ks =>
    match l_kind l with
    | KAwait | KField _ =>
      match ks with
      | b :: _ => negb (head_is_call b) || (fw_expr_kids (v_fw E) && head_ok b)
      | [] => true
      end
    | KCall hidden _ => negb hidden
    | _ => true
    end
  end.
Fixpoint well_formed (n : node) : bool :=
  match n with
  | Node l ks =>
    match l_kind l with
    | KCall _ _ | KField _ | KAwait => negb (is_nil ks)
    | KStmt _ _ _ true => match ks with e :: _ => head_ok e | [] => true end
    | _ => true
    end && forallb well_formed ks
  end.

(** The tests of a file: those the walk of the file reaches outside of any test, and that
    are not ignored. *)
Definition a_test_in (R : list node) (ks : list node) (tn : node) (t : text) : Prop :=
  exists n ctx b, In n ks /\ visits false None R n None tn ctx /\ n_kind tn = KTest t b /\ v_ign_test E t = false.

(** The last statement of a test's body. *)
Definition last_statement (tn : node) : option node :=
  match n_kind tn with
  | KTest _ b => last_of (test_statements b (n_kids tn))
  | _ => None
  end.

(** [STM] membership: [t] is among the tests of the candidate. *)
Definition lists (m : span_test_maps) (k : kind) (sp : span) (t : text) : Prop :=
  exists ts, In (sp, ts) (match k with Statement => stm_statement m | MethodCall => stm_method m end) /\ In t ts.

End Spec.
