(** What is expected of a parser: where the statements and calls of the tree it makes of a file are in that file. *)
From Verif Require Import Base M_Text S_Text M_Rewriter M_Span M_Run M_Visitor S_Visitor S_Walk M_Parsing.

(** [n] is part of the file: of its tree, or of one of its functions. *)
Definition part_of (f : pfile) (n : node) : Prop :=
  within (pf_root f) n \/ exists name fs g, In (name, fs) (pf_locals f) /\ In g fs /\ within g n.

(** Statements that may be candidates.  The others (say, the stand-in for a statement after a cheatcode) need not be
    anywhere in the file. *)
Definition eligible (s : node) : Prop := exists r c d e, n_kind s = KStmt r c d e /\ (c = false \/ e = true).

(** Of two statements of a file with different spans, one ends before the other begins, or one begins inside of the other, after
    its beginning, and ends inside of it. *)
Definition disjoint (a b : span) : Prop := lc_le (sp_end a) (sp_start b) \/ lc_le (sp_end b) (sp_start a).
Definition nested_in (a b : span) : Prop := lc_lt (sp_start b) (sp_start a) /\ lc_le (sp_end a) (sp_end b).

(** The tree [f] is a proper reading of the file [contents] at [p]. *)
Record proper (fw : M_Visitor.framework) (p : path) (contents : text) (f : pfile) : Prop := {
  pr_shape : forall E, v_fw E = fw -> well_formed E (pf_root f) = true /\
    forall name fs g, In (name, fs) (pf_locals f) -> In g fs -> well_formed E g = true;
  pr_statement : forall s, part_of f s -> eligible s -> sp_path (n_span s) = p /\
    exists before mid after, between contents (sp_start (n_span s)) (sp_end (n_span s)) before mid after /\ mid <> [];
  pr_nested : forall s s', part_of f s -> part_of f s' -> eligible s -> eligible s' ->
    n_span s = n_span s' \/ disjoint (n_span s) (n_span s') \/ nested_in (n_span s) (n_span s') \/ nested_in (n_span s') (n_span s);
  pr_method : forall c b names, part_of f c -> method_call c b names -> sp_path (n_span c) = p /\
    exists before mid after, between contents (sp_end (n_span b)) (sp_end (n_span c)) before mid after
}.
