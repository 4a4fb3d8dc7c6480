(** Removal candidates as a user sees them: the vocabulary of the theorems C29-C38. *)
From Verif Require Import Base M_Text M_Rewriter M_Span M_Run M_Visitor S_Visitor S_Walk.

Section Candidates.
Context (E : venv) (root : node).

(** The file and its local functions are trees the parsers produce. *)
Definition parsed : Prop :=
  well_formed E root = true /\ forall x f fs, v_walkable E x = f :: fs -> well_formed E f = true.

(** The walk of the file ends with the result [st]. *)
Definition result (st : vst) : Prop := exists fuel, visit_file E fuel root = LDone st.

(** [(k, sp)] is a candidate for removal, to be tried with test [t]. *)
Definition candidate (st : vst) (k : kind) (sp : span) (t : text) : Prop := lists (s_maps st) k sp t.

(** Different statements of the file have different spans. *)
Definition statements_apart : Prop :=
  forall s s', in_file E root s -> in_file E root s' -> is_stmt s -> is_stmt s' -> n_span s = n_span s' -> s = s'.

(** [s] is in the body of the test [t], or in a local function that [t] reaches. *)
Definition belongs (t : text) (s : node) : Prop :=
  (exists tn, test_named E root tn t /\ within tn s) \/ (exists f, test_reaches E root t f /\ within f s).

(** [c] is a call whose callee names a local function that is walked; [f] is the first
    function with that name. *)
Definition local_call (c f : node) : Prop :=
  exists callee args x fs, n_kids c = callee :: args /\ expr_name E callee = Some x /\ v_walkable E x = f :: fs.

(** A call the traversals hand to the visitor (not TypeScript's [it(..)]). *)
Definition seen_call (c : node) : Prop := exists x, n_kind c = KCall false x.

(** A statement to be removed: either a call statement whose call is not ignored and does not
    go to a local function, or a statement without inner statements that is not a
    declaration nor a control statement. *)
Definition removable_leaf (s : node) : Prop :=
  is_stmt s /\ (forall c, ~ call_statement s c) /\ removable s = true /\
  control s = false /\ declaration s = false /\
  (forall k m, In k (n_kids s) -> within k m -> ~ is_stmt m).
Definition removable_call (s : node) : Prop :=
  removable s = true /\ exists c, call_statement s c /\ ~ ignored_call E c /\ forall f, ~ local_call c f.

(** [s] occurs in the body of [n] (a test or a local function), outside of nested tests and
    of the arguments of ignored calls. *)
Definition in_body (n s : node) : Prop := exists k, In k (n_kids n) /\ open_path E k s.

(** Functions are told apart by [==]. *)
Definition functions_apart : Prop :=
  forall x y f g fs gs, v_walkable E x = f :: fs -> v_walkable E y = g :: gs -> same E f g = true -> f = g.

(** The test [t] calls the local function, directly or through other local functions. *)
Inductive test_calls (t : text) : node -> Prop :=
| tc_test tn f : test_named E root tn t -> mentions E tn f -> test_calls t f
| tc_fun g f : test_calls t g -> mentions E g f -> test_calls t f.

(** [s] is in the body of the test [t], or in a local function that [t] calls. *)
Definition runs (t : text) (s : node) : Prop :=
  (exists tn, test_named E root tn t /\ within tn s) \/ (exists f, test_calls t f /\ within f s).

(** No local function is called outside of the tests. *)
Definition calls_in_tests_only : Prop :=
  forall c f, test_path E root c -> seen_call c -> ~ local_call c f.

(** Local functions that a test of the file calls, directly or not. *)
Inductive reached : node -> Prop :=
| re_test tn t c f : file_test E root tn t -> in_body tn c -> seen_call c -> local_call c f -> reached f
| re_fun g c f : reached g -> in_body g c -> seen_call c -> local_call c f -> reached f.

(** Different method calls of the file have different candidate spans. *)
Definition method_calls_apart : Prop :=
  forall c b p c' b' p' sp, in_file E root c -> in_file E root c' -> method_call c b p -> method_call c' b' p' ->
    method_span E (n_span c) (n_span b) = Some sp -> method_span E (n_span c') (n_span b') = Some sp -> c = c'.

(** The statement or method call that makes up the candidate. *)
Definition source (m : node) (k : kind) (sp : span) : Prop :=
  match k with
  | Statement => is_stmt m /\ n_span m = sp
  | MethodCall => exists b p, method_call m b p /\ method_span E (n_span m) (n_span b) = Some sp
  end.

(** [m] is in the arguments of the call or macro call [c]. *)
Definition in_arguments (c m : node) : Prop :=
  exists a, within a m /\ ((is_macro c /\ In a (n_kids c)) \/ exists callee args, n_kids c = callee :: args /\ In a args).

(** The local functions called from somewhere in the file. *)
Inductive called : node -> Prop :=
| ca_file f : mentions E root f -> called f
| ca_fun g f : called g -> mentions E g f -> called f.

End Candidates.
