(** Specification vocabulary for one execution. *)
From Verif Require Import Base M_Text M_Span M_Run M_Exec.
Local Open Scope N_scope.

(** ** Process trees *)
Inductive ptree := PNode (p : pid) (ts : list ptree).
Definition root (t : ptree) : pid := match t with PNode p _ => p end.
Fixpoint pids (t : ptree) : list pid :=
  match t with PNode p ts => p :: (fix go l := match l with [] => [] | x :: r => pids x ++ go r end) ts end.

(** [parent t a b]: [a] is the parent of [b] in the tree. *)
Inductive parent : ptree -> pid -> pid -> Prop :=
| par_here : forall p ts t, In t ts -> parent (PNode p ts) p (root t)
| par_below : forall p ts t a b, In t ts -> parent t a b -> parent (PNode p ts) a b.

(** The system's answers describe the tree. *)
Inductive describes (children : pid -> res exec_error (list pid)) : ptree -> Prop :=
| desc_node : forall p ts, children p = Ok (map root ts) -> (forall t, In t ts -> describes children t) ->
    describes children (PNode p ts).

(** [a] comes before [b] in [l]. *)
Definition before {A} (a b : A) (l : list A) : Prop := exists x y z, l = x ++ a :: y ++ b :: z.

(** The time a test is given, in nanoseconds: 60 seconds by default, else the given number of
    seconds; with 0 there is no limit. *)
Definition allowed (opt : option N) (d : N) : Prop :=
  (opt = None /\ d = 60 * 1000000000) \/ (exists s, opt = Some s /\ s <> 0 /\ d = s * 1000000000).
(** The process lives longer than that. *)
Definition outlives (o : os) (opt : option N) : Prop :=
  exists d, allowed opt d /\ forall life, os_life o = Some life -> d < life.

(** The output shows that the intended test was run: some readable line satisfies the check. *)
Definition shows (f : text -> bool) (stdout : list N) : Prop :=
  exists l t, In l (lines stdout) /\ dec l = Some t /\ f t = true.
(** Every readable line satisfies it. *)
Definition all_show (f : text -> bool) (stdout : list N) : Prop :=
  forall l t, In l (lines stdout) -> dec l = Some t -> f t = true.
(** Some line is not readable. *)
Definition unreadable (stdout : list N) : Prop := exists l, In l (lines stdout) /\ dec l = None.

Definition ran_it (init : bool) (f : text -> bool) (stdout : list N) : Prop :=
  if init then all_show f stdout else shows f stdout.

Definition dry_known (ops : list it_op) (p : path) (t : text) : Prop := exists ms, In (ItDry p ms) ops /\ In t ms.
Definition dry_done (ops : list it_op) (p : path) : Prop := exists ms, In (ItDry p ms) ops.

