(** What is expected of the parsers of the languages: where the nodes of the syntax tree of a file are in that file. *)
From Verif Require Import Base M_Text S_Text M_Rewriter M_Span M_Run S_Placed.

(** Where the nodes of a syntax tree are, and which of them are statements. *)
Inductive geo := Geo (sp : span) (stmt : bool) (kids : list geo).
Definition g_span (t : geo) : span := match t with Geo s _ _ => s end.
Definition g_stmt (t : geo) : bool := match t with Geo _ b _ => b end.
Definition g_kids (t : geo) : list geo := match t with Geo _ _ l => l end.

(** [u] is [t], or a node below it. *)
Inductive part : geo -> geo -> Prop :=
| part_here t : part t t
| part_kid t k u : In k (g_kids t) -> part k u -> part t u.
Definition part_among (l : list geo) (u : geo) : Prop := exists t, In t l /\ part t u.

(** Different nodes of [l] that both have statements in them do not overlap. *)
Definition apart (l : list geo) : Prop :=
  forall l1 k l2 k' l3 s s', l = l1 ++ k :: l2 ++ k' :: l3 ->
    part k s -> g_stmt s = true -> part k' s' -> g_stmt s' = true -> disjoint (g_span k) (g_span k').

(** The trees [roots] are laid out in the file [contents] at [p] as syntax trees are: every node is a piece of the file; the
    nodes below a node are in it, and do not overlap; a statement is not empty, and begins before those in it. *)
Record placed (p : path) (contents : text) (roots : list geo) : Prop := {
  pl_piece : forall t, part_among roots t -> sp_path (g_span t) = p /\
    exists before mid after, between contents (sp_start (g_span t)) (sp_end (g_span t)) before mid after /\ (g_stmt t = true -> mid <> []);
  pl_inside : forall t k, part_among roots t -> In k (g_kids t) ->
    lc_le (sp_start (g_span t)) (sp_start (g_span k)) /\ lc_le (sp_end (g_span k)) (sp_end (g_span t));
  pl_roots : apart roots;
  pl_kids : forall t, part_among roots t -> apart (g_kids t);
  pl_first : forall s k s', part_among roots s -> g_stmt s = true -> In k (g_kids s) -> part k s' -> g_stmt s' = true ->
    lc_lt (sp_start (g_span s)) (sp_start (g_span s'))
}.
