(** Well-formedness of spans, used as hypotheses of the span theorems. *)
From Verif Require Import Base M_Text M_Span.
Local Open Scope N_scope.

(** A component as it occurs in a path below the root: not empty, not ["."], without a
    slash.  Any other character, including [:], [-] and a line break, is allowed. *)
Definition wf_component (c : text) : Prop := c <> [] /\ c <> s2t "." /\ ~ In 47%N (* the slash *) c.
Definition wf_path (p : list text) : Prop := p <> [] /\ Forall wf_component p.
Definition wf_span (s : span) : Prop := wf_path (sp_path s).

(** Numbers of a span are 64-bit [usize] values, and its columns can be printed 1-based. *)
Definition usize_span (s : span) : Prop :=
  N.of_nat (line (sp_start s)) < 2 ^ 64 /\ N.of_nat (column (sp_start s)) + 1 < 2 ^ 64 /\
  N.of_nat (line (sp_end s)) < 2 ^ 64 /\ N.of_nat (column (sp_end s)) + 1 < 2 ^ 64.
