(** The whole walk of a file, declaratively: which bodies are walked, on behalf of which
    tests, and what they yield.  Uses the one-body description of [S_Visitor]. *)
From Verif Require Import Base M_Text M_Rewriter M_Span M_Run M_Visitor S_Visitor.

(** A body that is walked: the whole file ([b_fun = None]) or a local function; the tests on
    whose behalf it is walked (none for the file itself); the local functions taken up
    so far, itself included. *)
Record body := Body {
  b_fun : option node;
  b_nodes : list node;
  b_tests : list text;
  b_done : list node
}.

Definition file_body (root : node) : body := Body None [root] [] [].
Definition fun_body (f : node) (T : list text) (R : list node) : body := Body (Some f) (n_kids f) T (f :: R).

Section Walk.
Context (E : venv).

(** The test [t], with syntax node [tn], is found in the body. *)
Definition finds_test (b : body) (tn : node) (t : text) : Prop :=
  b_tests b = [] /\ a_test_in E (b_done b) (b_nodes b) tn t.

(** The body yields the candidate [(k, sp)] for test [t]: either the body is run by [t], or
    it is (or contains) the test [t] itself. *)
Definition body_yields (b : body) (k : kind) (sp : span) (t : text) : Prop :=
  (In t (b_tests b) /\ yields E true None (b_done b) (b_nodes b) k sp) \/
  (exists tn, finds_test b tn t /\ yields E true (last_statement tn) (b_done b) (n_kids tn) k sp).

(** The body calls the local function [f] on behalf of test [t]. *)
Definition body_calls (b : body) (f : node) (t : text) : Prop :=
  (In t (b_tests b) /\ yields_call E true None (b_done b) (b_nodes b) f) \/
  (exists tn, finds_test b tn t /\ yields_call E true (last_statement tn) (b_done b) (n_kids tn) f).

(** The body calls the local function [f] (possibly on behalf of no test). *)
Definition body_reaches (b : body) (f : node) : Prop :=
  (exists t, body_calls b f t) \/
  (b_tests b = [] /\ yields_call E false None (b_done b) (b_nodes b) f).

Definition done (H : list body) : list node :=
  flat_map (fun b => match b_fun b with Some f => [f] | None => [] end) H.

(** Test [t] calls [f] from one of the bodies [H]. *)
Definition called_by (H : list body) (f : node) (t : text) : Prop :=
  exists b f', In b H /\ body_calls b f' t /\ same E f' f = true.

(** The bodies walked, latest first: the file, then local functions called from bodies
    already walked, none twice, each on behalf of exactly the tests known by then to call
    it. *)
Inductive walk_history (root : node) : list body -> Prop :=
| wh_file : walk_history root [file_body root]
| wh_fun f T H : walk_history root H ->
    (exists b, In b H /\ body_reaches b f) ->
    (forall g, In g (done H) -> same E f g = false) ->
    (forall t, In t T <-> called_by H f t) ->
    walk_history root (fun_body f T (done H) :: H).

(** Every local function called from a walked body is walked. *)
Definition complete (H : list body) : Prop :=
  forall b f, In b H -> body_reaches b f -> exists g, In g (done H) /\ same E f g = true.

(** The candidates, the tests, and the functions taken up are those of the history. *)
Definition explains (H : list body) (st : vst) : Prop :=
  (forall k sp t, lists (s_maps st) k sp t <-> exists b, In b H /\ body_yields b k sp t) /\
  (forall t, In t (s_tset st) <-> exists b tn, In b H /\ finds_test b tn t) /\
  s_ret st = done H.

End Walk.

(** [m] occurs in [n]. *)
Inductive within : node -> node -> Prop :=
| wi_here n : within n n
| wi_kid n k m : In k (n_kids n) -> within k m -> within n m.

Section Panics.
Context (E : venv).

(** The position arithmetic of the method calls of a tree succeeds. *)
Definition spans_ok (n : node) : Prop :=
  forall c b p, within n c -> method_call c b p -> method_span E (n_span c) (n_span b) <> None.

(** No test inside [n]. *)
Definition no_test (n : node) : Prop := forall m t b, within n m -> n_kind m <> KTest t b.
(** No test inside another test. *)
Definition flat_tests (n : node) : Prop :=
  forall m t b k, within n m -> n_kind m = KTest t b -> In k (n_kids m) -> no_test k.

End Panics.

(** ** Reading the candidates off the syntax tree *)
Section Reading.
Context (E : venv) (root : node).

(** [n] occurs in the file: in its syntax tree, or in a function known to be local. *)
Definition in_file (n : node) : Prop :=
  within root n \/ exists x f fs, v_walkable E x = f :: fs /\ within f n.

(** A test that is not ignored. *)
Definition test_named (tn : node) (t : text) : Prop :=
  in_file tn /\ (exists i, n_kind tn = KTest t i) /\ v_ign_test E t = false.

(** [n] contains a call of the local function [f]: the callee has a name, and [f] is the
    first local function with that name. *)
Definition mentions (n f : node) : Prop :=
  exists c callee args x fs, within n c /\ is_call c /\ n_kids c = callee :: args /\
    expr_name E callee = Some x /\ v_walkable E x = f :: fs.

(** Test [t] reaches the local function through calls ([same]: Rust does not tell
    functions with the same body apart). *)
Inductive test_reaches (t : text) : node -> Prop :=
| tr_test tn f g : test_named tn t -> mentions tn f -> same E f g = true -> test_reaches t g
| tr_fun g f h : test_reaches t g -> mentions g f -> same E f h = true -> test_reaches t h.

(** A body on behalf of which candidates of [t] are found, with the test's last statement
    if it is the test itself. *)
Inductive body_of (t : text) : node -> option node -> Prop :=
| bo_test tn : test_named tn t -> body_of t tn (last_statement tn)
| bo_fun f : test_reaches t f -> body_of t f None.

(** Descending without passing through a test, nor through an ignored call or method call
    (unless the arguments of those are to be visited). *)
Inductive open_path : node -> node -> Prop :=
| op_here n : open_path n n
| op_kid n k m :
    (is_stmt n \/ n_kind n = KGroup \/
     ((is_call n \/ is_macro n) /\ (v_visit_args E = true \/ (~ ignored_call E n /\ ~ ignored_method E n))) \/
     (fw_expr_kids (v_fw E) = true /\
      (n_kind n = KExpr \/ (exists x, n_kind n = KIdent x) \/ n_kind n = KAwait \/ exists x, n_kind n = KField x))) ->
    In k (n_kids n) -> open_path k m -> open_path n m
(** Where ignored calls are not skipped altogether, what is called is looked at nonetheless. *)
| op_callee n k r m : is_call n -> fw_skip_whole (v_fw E) = false -> n_kids n = k :: r -> open_path k m -> open_path n m.

(** Descending without passing through a test. *)
Inductive test_path : node -> node -> Prop :=
| tp_here n : test_path n n
| tp_kid n k m :
    (is_stmt n \/ is_call n \/ is_macro n \/ n_kind n = KGroup \/
     (fw_expr_kids (v_fw E) = true /\
      (n_kind n = KExpr \/ (exists x, n_kind n = KIdent x) \/ n_kind n = KAwait \/ exists x, n_kind n = KField x))) ->
    In k (n_kids n) -> test_path k m -> test_path n m.

(** A test the walk of the file finds. *)
Definition file_test (tn : node) (t : text) : Prop :=
  test_path root tn /\ (exists i, n_kind tn = KTest t i) /\ v_ign_test E t = false.

End Reading.

(** No two places of the tree have the same identity. *)
Fixpoint ids (n : node) : list nat := match n with Node l ks => l_id l :: flat_map ids ks end.

(** A call is not a control statement or a declaration (the frameworks' classification:
    rust/mod.rs:490-513, go/mod.rs:341-364, php/mod.rs:369-403, ts/inner/mod.rs:371-388,
    foundry/mod.rs:253-293). *)
Definition calls_tidy (n : node) : Prop :=
  forall s c, within n s -> call_statement s c -> control s = false /\ declaration s = false.
