(** Vocabulary for C02: what a span looks like when it is written down, whoever wrote it. *)
From Verif Require Import Base M_Text M_Span M_Options S_Cli.
From Coq Require Import List.
Local Open Scope N_scope.
Local Open Scope list_scope.

(** The components of a relative path: the pieces between slashes but for empty ones and dots. *)
Definition relative (t : text) (p : list text) : Prop :=
  (forall r, t <> s2t "/" ++ r) /\
  exists pieces, t = separated (s2t "/") pieces /\ (forall x c, In x pieces -> In c x -> s2t "/" <> [c]) /\ named pieces p.
Definition free_of (bad : string) (t : text) : Prop := forall c, In c t -> s2t bad <> [c].
Definition no_newline (t : text) : Prop := ~ In NL t.
(** A line number as it is; a column counted from 1 instead of 0. *)
Definition writes (t : text) (n : nat) : Prop := reads_seconds t (N.of_nat n).

(** "path:line:column-line:column". *)
Definition written (s : text) (sp : span) : Prop :=
  exists path sl sc el ec,
    s = path ++ s2t ":" ++ sl ++ s2t ":" ++ sc ++ s2t "-" ++ el ++ s2t ":" ++ ec /\
    free_of ":" path /\ free_of ":" sl /\ free_of "-" sc /\ free_of ":" el /\ no_newline ec /\
    relative path (sp_path sp) /\
    writes sl (line (sp_start sp)) /\ writes sc (column (sp_start sp) + 1) /\
    writes el (line (sp_end sp)) /\ writes ec (column (sp_end sp) + 1).
