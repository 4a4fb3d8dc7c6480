(** What the test tools do with their command lines, as far as it matters for which tests they run (C58), from their
    documentation.  Nothing here refers to the model of necessist; only the meaning of regular expressions is taken from
    [M_Config]: the patterns that occur use literals, [.], [*], [^] and [$], which mean the same in Rust, RE2 and PCRE. *)
From Verif Require Import Base M_Text M_Span M_Config.
Local Open Scope string_scope.
Local Open Scope list_scope.

Definition DASHES : text := s2t "--".

(** The arguments before and after the first argument [--]. *)
Fixpoint split_dashes (args : list text) : list text * list text :=
  match args with
  | [] => ([], [])
  | a :: r => if text_eqb a DASHES then ([], r) else let '(x, y) := split_dashes r in (a :: x, y)
  end.

(** ** cargo test and libtest
    What stands before [--] is for Cargo, which may find a TESTNAME in it; the rest is for the test binaries.  A test binary
    reads options up to a [--]; whatever is no option is a filter.  (Options whose value is a separate argument, like
    [--skip x], are left out.)  A test is selected if there are no filters or it satisfies one of them: equals it, with
    [--exact], and contains it otherwise. *)
Record libtest := Libtest { l_exact : bool; l_list : bool; l_filters : list text }.
Definition is_option (a : text) : bool := match strip_prefix (s2t "-") a with Some _ => true | None => false end.
Fixpoint libtest_args (args : list text) : libtest :=
  match args with
  | [] => Libtest false false []
  | a :: r =>
    if text_eqb a DASHES then Libtest false false r
    else let l := libtest_args r in
      if text_eqb a (s2t "--exact") then Libtest true (l_list l) (l_filters l)
      else if text_eqb a (s2t "--list") then Libtest (l_exact l) true (l_filters l)
      else if is_option a then l
      else Libtest (l_exact l) (l_list l) (a :: l_filters l)
  end.
Definition infix (x t : text) : Prop := exists a b, t = a ++ x ++ b.
Definition libtest_selects (l : libtest) (test : text) : Prop :=
  l_filters l = [] \/ exists f, In f (l_filters l) /\ if l_exact l then test = f else infix f test.

Section Cargo.
Context (testname : list text -> option text).     (* the TESTNAME among Cargo's own arguments *)
Definition cargo_libtest (args : list text) : libtest :=
  let '(own, rest) := split_dashes args in
  libtest_args (match testname own with Some n => n :: rest | None => rest end).
(** [cargo test ARGS] compiles but does not run. *)
Definition cargo_no_run (args : list text) : Prop := In (s2t "--no-run") (fst (split_dashes args)).

(** [selected] are the tests of a binary that [cargo test ARGS] selects. *)
Definition cargo_selected (args : list text) (tests selected : list text) : Prop :=
  NoDup selected /\ forall t, In t selected <-> In t tests /\ libtest_selects (cargo_libtest args) t.

(** What a binary prints.  If it lists, a line per selected test; if it runs, a line with their number before anything else
    of that form, and no line like those of a listing. *)
Definition header (n : nat) : text :=
  s2t "running " ++ print_usize n ++ (if Nat.eqb n 1 then s2t " test" else s2t " tests").
Definition lists (printed selected : list text) : Prop := printed = map (fun t => t ++ s2t ": test") selected.
Definition runs (printed selected : list text) : Prop :=
  (exists rest, printed = header (length selected) :: rest /\ forall l n, In l rest -> l <> header n) /\
  (forall l x, In l printed -> l <> x ++ s2t ": test").
Definition libtest_prints (args : list text) (tests printed : list text) : Prop :=
  exists selected, cargo_selected args tests selected /\
    if l_list (cargo_libtest args) then lists printed selected else runs printed selected.
End Cargo.

(** ** go test
    The last [-run] before an [-args] counts; a test runs if the pattern matches somewhere in its name.  With [-v], a line is
    printed for every test that runs. *)
Definition run_names : list text := [s2t "-run"; s2t "--run"; s2t "-test.run"; s2t "--test.run"].
(** Some None: the pattern is the next argument. *)
Definition run_flag (a : text) : option (option text) :=
  fold_right (fun n other => match strip_prefix n a with
                             | Some [] => Some None
                             | Some (61%N :: p) => Some (Some p)       (* = *)
                             | _ => other
                             end) None run_names.
Fixpoint go_pattern (args : list text) (found : option text) : option text :=
  match args with
  | [] => found
  | a :: r =>
    if text_eqb a (s2t "-args") then found
    else match run_flag a with
         | Some (Some p) => go_pattern r (Some p)
         | Some None => match r with p :: r' => go_pattern r' (Some p) | [] => found end
         | None => go_pattern r found
         end
  end.
Definition pattern_matches (p t : text) : Prop := exists r, regex_new p = Some r /\ is_match r t.
Definition go_selects (args : list text) (test : text) : Prop :=
  match go_pattern args None with Some p => pattern_matches p test | None => True end.
(** Subtests' lines have a slash after the test's name; tests print nothing of this form themselves. *)
Definition go_prints (args : list text) (tests printed : list text) : Prop :=
  In (s2t "-v") args ->
  (forall t, In t tests -> go_selects args t -> In (s2t "=== RUN   " ++ t) printed) /\
  (forall x, In (s2t "=== RUN   " ++ x) printed -> In 47%N (* the slash *) x \/ (In x tests /\ go_selects args x)).

(** ** phpunit
    The pattern of the (last) [--filter] is matched with "Class::method", followed by " with data set #n" for the tests that a
    data provider makes; upper and lower case are not distinguished ([fold] maps both to the same). *)
Section Php.
Context (fold : char -> char).
Fixpoint php_pattern (args : list text) (found : option text) : option text :=
  match args with
  | [] => found
  | a :: r => if text_eqb a (s2t "--filter") then match r with p :: r' => php_pattern r' (Some p) | [] => found end
              else match strip_prefix (s2t "--filter=") a with Some p => php_pattern r (Some p) | None => php_pattern r found end
  end.
Definition php_selects (args : list text) (test : text) : Prop :=
  match php_pattern args None with
  | Some p => exists r t, regex_new p = Some r /\ map fold t = map fold test /\ is_match r t
  | None => True
  end.
End Php.
Definition php_test (class method : text) : text := class ++ s2t "::" ++ method.
Definition php_provided (class method : text) (n : nat) : text := php_test class method ++ s2t " with data set #" ++ print_usize n.

(** ** forge test
    The pattern of [--match-test] is matched with the test's signature. *)
Fixpoint forge_pattern (args : list text) : option text :=
  match args with
  | [] => None
  | a :: r => if text_eqb a (s2t "--match-test") || text_eqb a (s2t "--mt") then match r with p :: _ => Some p | [] => None end else forge_pattern r
  end.
Definition signature (name params : text) : text := name ++ s2t "(" ++ params ++ s2t ")".
Definition forge_selects (args : list text) (name params : text) : Prop :=
  match forge_pattern args with Some p => pattern_matches p (signature name params) | None => True end.
(** A line per test that runs, with its status before and figures after its signature, like
    "[PASS] test_f() (gas: 120)", and other lines without parentheses of this kind. *)
Definition forge_prints (args : list text) (tests : list (text * text)) (printed : list text) : Prop :=
  (forall name params, In (name, params) tests -> forge_selects args name params ->
     exists status figures, In (status ++ s2t " " ++ signature name params ++ s2t " (" ++ figures) printed) /\
  (forall line before name after, In line printed -> line = before ++ s2t " " ++ name ++ s2t "(" ++ after -> name <> [] -> ~ In 32%N name ->
     exists params, In (name, params) tests /\ forge_selects args name params).
