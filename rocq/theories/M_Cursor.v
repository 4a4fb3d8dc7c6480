(** Model of [BoundedCursor] (backends/src/tree_sitter_utils.rs:50-122) and of the traversals of Go and PHP that use
    it (backends/src/go/visitor.rs:159-276, backends/src/php/visitor.rs:77-166). *)
From Verif Require Import Base M_Text M_Rewriter M_Span M_Run M_Visitor.

(** A [tree_sitter::TreeCursor], which is started on a node and never leaves its subtree: the current node, and for
    each of its ancestors (the nearest first) the label and the siblings before (nearest first) and after it. *)
Record frame := Frame { fr_lab : label; fr_left : list node; fr_right : list node }.
Record cursor := Cursor { c_node : node; c_ctx : list frame }.

Definition goto_first_child (c : cursor) : option cursor :=
  match c_node c with
  | Node l (k :: ks) => Some (Cursor k (Frame l [] ks :: c_ctx c))
  | _ => None
  end.
Definition goto_next_sibling (c : cursor) : option cursor :=
  match c_ctx c with
  | Frame l before (k :: after) :: up => Some (Cursor k (Frame l (c_node c :: before) after :: up))
  | _ => None
  end.
Definition goto_parent (c : cursor) : option cursor :=
  match c_ctx c with
  | Frame l before after :: up => Some (Cursor (Node l (rev before ++ c_node c :: after)) up)
  | _ => None
  end.

(** [==] of tree-sitter nodes: identity. *)
Definition same_node (a b : node) : bool := (n_id a =? n_id b)%nat.

(** tree_sitter_utils.rs:50-54 [BoundedCursor]; the last bound pushed comes first. *)
Record bounded := Bounded { b_cursor : cursor; b_bounds : list node; b_exhausted : bool }.

(** tree_sitter_utils.rs:57-63 [new]. *)
Definition bc_new (n : node) : bounded := Bounded (Cursor n []) [] false.
(** tree_sitter_utils.rs:65-71 [current_node]. *)
Definition current_node (b : bounded) : option node := if b_exhausted b then None else Some (c_node (b_cursor b)).
(** tree_sitter_utils.rs:73-77 [push]; [None]: the assertion fails. *)
Definition bc_push (b : bounded) : option bounded :=
  if b_exhausted b then None else Some (Bounded (b_cursor b) (c_node (b_cursor b) :: b_bounds b) (b_exhausted b)).
(** tree_sitter_utils.rs:117-121 [at_current_bound]. *)
Definition at_current_bound (bounds : list node) (n : node) : bool :=
  match bounds with b :: _ => same_node b n | [] => false end.
(** tree_sitter_utils.rs:97-115 [skip]: the loop goes up with every turn.  [None]: the assertion fails. *)
Fixpoint skip_loop (n : node) (ctx : list frame) (bounds : list node) : option bounded :=
  match goto_next_sibling (Cursor n ctx) with
  | Some c => Some (Bounded c bounds false)
  | None =>
    match ctx with
    | [] => match bounds with [] => Some (Bounded (Cursor n []) bounds true) | _ => None end
    | Frame l before after :: up =>
      let parent := Node l (rev before ++ n :: after) in
      if at_current_bound bounds parent then Some (Bounded (Cursor parent up) bounds true)
      else skip_loop parent up bounds
    end
  end.
Definition bc_skip (b : bounded) : option bounded := skip_loop (c_node (b_cursor b)) (c_ctx (b_cursor b)) (b_bounds b).
(** tree_sitter_utils.rs:89-95 [goto_next_node]. *)
Definition bc_next (b : bounded) : option bounded :=
  match goto_first_child (b_cursor b) with
  | Some c => Some (Bounded c (b_bounds b) (b_exhausted b))
  | None => bc_skip b
  end.
(** tree_sitter_utils.rs:79-87 [pop]. *)
Fixpoint climb (n : node) (ctx : list frame) (bound : node) : option cursor :=
  if same_node n bound then Some (Cursor n ctx)
  else match ctx with
       | [] => None
       | Frame l before after :: up => climb (Node l (rev before ++ n :: after)) up bound
       end.
Definition bc_pop (b : bounded) : option bounded :=
  match b_bounds b with
  | [] => None
  | bound :: bounds =>
    match climb (c_node (b_cursor b)) (c_ctx (b_cursor b)) bound with
    | None => None
    | Some c => bc_skip (Bounded c bounds (b_exhausted b))
    end
  end.

(** The traversals, for a visitor with state [St]: [look] is the inspection of a node ([visit_current_node] asks of
    what kind it is); [matched]: the node is a statement or a call; [enter] and [leave] are [visit_statement] or
    [visit_call] of the generic visitor and their [_post]; [None] is a panic. *)
Section Traversal.
Context {St : Type} (look : node -> St -> St) (matched : node -> bool)
        (enter : node -> St -> option (St * bool)) (leave : node -> St -> option St).

Inductive outcome_of := WDone (b : bounded) (s : St) | WPanic | WFuel.

(** go/visitor.rs:228-243 [walk_nodes], its loop and the [pop] after it, with [visit_current_node] (248-275),
    [visit_statement] (162-184), [visit_call] (189-206) and [walk_or_skip] (210-220) unfolded.  The recursion is
    bounded by fuel, which is proved to suffice. *)
Fixpoint walk_loop (fuel : nat) (b : bounded) (s : St) : outcome_of :=
  match fuel with
  | O => WFuel
  | S fuel =>
    match current_node b with
    | None => match bc_pop b with Some b => WDone b s | None => WPanic end
    | Some n =>
      let s := look n s in
      let go (b : bounded) (s : St) :=                          (* the [assert_ne!], and the next turn *)
        match current_node b with
        | Some m => if same_node n m then WPanic else walk_loop fuel b s
        | None => walk_loop fuel b s
        end in
      if matched n then
        match enter n s with
        | None => WPanic
        | Some (s, walk) =>
          let r := if walk
                   then match bc_push b with
                        | None => WPanic
                        | Some b => match bc_next b with Some b => walk_loop fuel b s | None => WPanic end
                        end
                   else match bc_skip b with Some b => WDone b s | None => WPanic end in
          match r with
          | WDone b s => match leave n s with Some s => go b s | None => WPanic end
          | x => x
          end
        end
      else match bc_next b with Some b => go b s | None => WPanic end
    end
  end.
(** [walk_nodes]. *)
Definition walk_nodes (fuel : nat) (b : bounded) (s : St) : outcome_of :=
  match bc_push b with
  | None => WPanic
  | Some b => match bc_next b with Some b => walk_loop fuel b s | None => WPanic end
  end.
End Traversal.
Arguments WDone {St}. Arguments WPanic {St}. Arguments WFuel {St}.

(** Go and PHP: which nodes are statements and calls, and what the generic visitor does with them
    (backends/src/generic_visitor.rs:216-339). *)
Definition ts_matched (n : node) : bool := match n_kind n with KStmt _ _ _ _ | KCall false _ => true | _ => false end.
Definition ts_enter (E : venv) (n : node) (st : vst) : option (vst * bool) :=
  match n_kind n with
  | KStmt _ _ _ _ => do st <- visit_statement n st; Some (st, true)
  | _ => visit_call E n st
  end.
Definition ts_leave (E : venv) (n : node) (st : vst) : option vst :=
  match n_kind n with
  | KStmt _ _ _ _ => visit_statement_post E n st
  | _ => Some st
  end.
Definition ts_walk (E : venv) (fuel : nat) (body : node) (st : vst) : outcome_of :=
  walk_nodes (fun _ st => st) ts_matched (ts_enter E) (ts_leave E) fuel (bc_new body) st.
