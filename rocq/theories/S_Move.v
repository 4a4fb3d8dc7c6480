(** Specification for C87: a file in which code stands elsewhere: other positions, the same code. *)
From Verif Require Import Base M_Text S_Text M_Rewriter M_Span S_Span M_Run M_Visitor S_Visitor S_Walk M_Parsing S_Directives S_Placed.
From Coq Require Import List.
Local Open Scope list_scope.

(** The same tree with other positions. *)
Fixpoint moved (phi : span -> span) (n : node) : node :=
  match n with
  | Node l ks => Node (Label (l_id l) (l_kind l) (l_text l) (phi (l_span l))) (map (moved phi) ks)
  end.

(** What stood before something else still does. *)
Definition keeps_order (phi : span -> span) : Prop := forall a b, span_compare (phi a) (phi b) = span_compare a b.

(** The second file is the first with code at other positions.  Nothing that was skipped is not. *)
Record moves (phi : span -> span) (E E' : venv) : Prop := Moves {
  mv_framework : v_fw E' = v_fw E;
  mv_functions : forall x, v_ign_fun E' x = v_ign_fun E x;
  mv_macros : forall x, v_ign_mac E' x = v_ign_mac E x;
  mv_methods : forall x, v_ign_met E' x = v_ign_met E x;
  mv_tests : forall x, v_ign_test E' x = v_ign_test E x;
  mv_arguments : v_visit_args E' = v_visit_args E;
  mv_disambiguation : v_disamb E' = v_disamb E;
  mv_locals : forall x, v_walkable E' x = map (moved phi) (v_walkable E x);
  mv_skip : forall s, v_skip E s = true -> v_skip E' (phi s) = true
}.
(** The method calls of [n] begin, after the receiver, where they began. *)
Definition calls_move (phi : span -> span) (E E' : venv) (n : node) : Prop :=
  forall c b p, within n c -> method_call c b p ->
    method_span E' (phi (n_span c)) (phi (n_span b)) = option_map phi (method_span E (n_span c) (n_span b)).

(** Of a file's candidates, those that are not skipped in the second file, at their new positions. *)
Definition moved_list (phi : span -> span) (hidden : span -> bool) (l : list (span * list text)) : list (span * list text) :=
  map (fun x => (phi (fst x), snd x)) (filter (fun x => negb (hidden (fst x))) l).
Definition moved_maps (phi : span -> span) (hidden : span -> bool) (m : span_test_maps) : span_test_maps :=
  STM (moved_list phi hidden (stm_statement m)) (moved_list phi hidden (stm_method m)).

(** ** A line put into a file *)

(** [contents'] is [contents] with the line [l] put in as its line [n]. *)
Definition put_in (contents contents' : text) (n : nat) (l : text) : Prop :=
  exists a b eol, contents = a ++ b /\ contents' = a ++ l ++ eol ++ b /\ (a = [] \/ exists a0, a = a0 ++ [NL]) /\ ~ In NL l /\
    ((eol = [NL] /\ forall x, l <> x ++ [CR]) \/ eol = [CR; NL]) /\ n = S (count_nl a).
(** Lines from [n] on are one line further down. *)
Definition lower (n : nat) (p : line_column) : line_column := if Nat.leb n (line p) then LC (S (line p)) (column p) else p.
Definition lower_span (n : nat) (s : span) : span := Span (sp_path s) (lower n (sp_start s)) (lower n (sp_end s)).
(** The parser's reading of a file in which code stands elsewhere. *)
Definition moved_file (phi : span -> span) (f : pfile) : pfile :=
  PFile (moved phi (pf_root f)) (map (fun e => (fst e, map (moved phi) (snd e))) (pf_locals f)).
(** Line [n] does not begin right after a receiver and white space: a line put in there is not put between a receiver and
    the name of the method called on it. *)
Definition off_chains (contents : text) (f : pfile) (n : nat) : Prop :=
  forall c b names before m1 rest, part_of f c -> method_call c b names -> contents = before ++ m1 ++ rest ->
    pos before = sp_end (n_span b) -> pos (before ++ m1) = LC n 0 -> m1 = [] \/ ~ blank m1.
(** The first line with code on it of what stands at [s] is line [n]. *)
Definition begins_on (contents : text) (s : span) (n : nat) : Prop :=
  exists before mid after k, between contents (sp_start s) (sp_end s) before mid after /\ code_offset mid k /\ n = line (sp_start s) + k.
