(** Specification of source directives (README, "Source directives"), independent of the model. *)
From Verif Require Import Base M_Text S_Text.

(** [l] is line [n] (counting from 1) of [t], without its terminator, LF or CR LF. *)
Definition line_at (t : text) (n : nat) (l : text) : Prop :=
  exists before eol after, t = before ++ l ++ eol ++ after /\
    (before = [] \/ exists b, before = b ++ [NL]) /\ n = S (count_nl before) /\ ~ In NL l /\
    ((eol = [NL] /\ forall b, l <> b ++ [CR]) \/ eol = [CR; NL] \/ (eol = [] /\ after = [] /\ l <> [])).

Definition blank (t : text) : Prop := Forall (fun c => is_whitespace c = true) t.

Section S.
Context (alphanumeric : char -> bool).

(** The line is a comment with the directive [what], after optional white space. *)
Definition comment_with (l what : text) : Prop :=
  exists a b, blank a /\ blank b /\ l = a ++ s2t "//" ++ b ++ s2t "necessist:" ++ what.
(** The directive is [word], possibly followed by more after a word boundary. *)
Definition says (word what : text) : Prop :=
  exists c tail, blank c /\ what = c ++ word ++ tail /\
    match tail with
    | [] => True
    | x :: _ => alphanumeric x = false /\ x <> 95%N (* '_' *) /\ x <> 45%N (* '-' *)
    end.
Definition skip_comment (l : text) : Prop := exists what, comment_with l what /\ says (s2t "skip") what.
Definition skip_file_comment (l : text) : Prop := exists what, comment_with l what /\ says (s2t "skip-file") what.
Definition unknown_comment (l : text) : Prop :=
  (exists what, comment_with l what) /\ ~ skip_comment l /\ ~ skip_file_comment l.

(** Lines without code: blank, or a line comment. *)
Definition no_code (l : text) : Prop := blank l \/ exists a r, blank a /\ l = a ++ s2t "//" ++ r.
(** Lines that may precede [skip-file]. *)
Definition header (l : text) : Prop := no_code l \/ exists a b, blank a /\ blank b /\ l = a ++ s2t "<?php" ++ b.

(** The first line of [t] that has code is [k] lines below its first; 0 if there is none. *)
Definition code_offset (t : text) (k : nat) : Prop :=
  (exists l, line_at t (S k) l /\ ~ no_code l /\ forall j l', (j < S k)%nat -> line_at t j l' -> no_code l') \/
  (k = 0%nat /\ forall j l, line_at t j l -> no_code l).
End S.
