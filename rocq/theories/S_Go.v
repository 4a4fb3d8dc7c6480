(** Specification of how a Go file imports the package [os], in terms of the text alone. *)
From Verif Require Import Base M_Text.
Local Open Scope N_scope.

Section S.
Context (word : char -> bool).        (* word characters: Unicode's letters, digits and connectors *)

(** [a] does not end within a word. *)
Definition word_end (a : text) : Prop := forall b c, a = b ++ [c] -> word c = false.

(** A package name as it is written before the path: a dot, or an identifier. *)
Definition letter (c : char) : Prop := 65 <= c <= 90 \/ 97 <= c <= 122 \/ c = 95.
Definition digit (c : char) : Prop := 48 <= c <= 57.
Definition import_name (n : text) : Prop :=
  n = s2t "." \/ exists c r, n = c :: r /\ letter c /\ Forall (fun d => letter d \/ digit d) r.
Definition gap (g : text) : Prop := g = [] \/ g = [32].
Definition open_text (t : text) : Prop := ~ In 41 t.        (* no closing parenthesis *)

Definition PATH : text := [34] ++ s2t "os" ++ [34].          (* the path, with its quotes *)

(** [t] says [import NAME "os"], after [a]. *)
Definition named (t a n : text) : Prop :=
  exists g b, t = a ++ s2t "import " ++ n ++ g ++ PATH ++ b /\ word_end a /\ import_name n /\ gap g.
Definition unnamed (t a : text) : Prop := exists b, t = a ++ s2t "import " ++ PATH ++ b /\ word_end a.
(** [t] says [import ( ... NAME "os" ... )], after [a]; [x] is what precedes the name. *)
Definition paren_named (t a x n : text) : Prop :=
  exists g y b, t = a ++ s2t "import (" ++ x ++ n ++ g ++ PATH ++ y ++ [41] ++ b /\
    word_end a /\ open_text x /\ open_text y /\ import_name n /\ gap g.
Definition paren_unnamed (t a : text) : Prop :=
  exists x y b, t = a ++ s2t "import (" ++ x ++ PATH ++ y ++ [41] ++ b /\ word_end a /\ open_text x /\ open_text y.

Definition imports (t : text) : Prop :=
  (exists a n, named t a n) \/ (exists a, unnamed t a) \/ (exists a x n, paren_named t a x n) \/ (exists a, paren_unnamed t a).

(** Nothing with property [P] starts before [a]. *)
Definition first (P : text -> Prop) (a : text) : Prop := P a /\ forall a', P a' -> (length a <= length a')%nat.
End S.
