(** Vocabulary for C70: which files are test files. *)
From Verif Require Import Base M_Text M_Span M_Run M_Find.

Inductive backend := BRust | BGo | BPhp | BFoundry | BHardhat | BVitest | BAnchorMocha | BAnchorVitest.
Definition finder_of (b : backend) : finder :=
  match b with
  | BRust => find_rust | BGo => find_go | BPhp => find_php | BFoundry => find_foundry
  | BHardhat => find_hardhat | BVitest => find_vitest | BAnchorMocha => find_anchor_mocha | BAnchorVitest => find_anchor_vitest
  end.

(** In the directory [e], the entry [k] is at [ns]. *)
Inductive holds : entry -> list text -> entry -> Prop :=
| ho_here e : holds e [] e
| ho_in ks n x ns k : In (n, x) ks -> holds x ns k -> holds (EDir (Some ks)) (n :: ns) k.
(** No directory has two entries with the same name. *)
Definition distinct_names (e : entry) : Prop := forall ns ks, holds e ns (EDir (Some ks)) -> NoDup (map fst ks).

(** Where a back end looks for tests, below the directory it is given. *)
Definition start_dir (b : backend) : list text :=
  match b with
  | BFoundry | BHardhat => [s2t "test"]
  | BAnchorMocha | BAnchorVitest => [s2t "tests"]
  | _ => []
  end.
(** The names of test files. *)
Definition ends_in (suffix : string) (n : text) : Prop := exists r, n = r ++ s2t suffix.
Definition with_extension (x : string) (n : text) : Prop := exists r, r <> [] /\ n = r ++ s2t "." ++ s2t x.
Definition test_file_name (b : backend) (n : text) : Prop :=
  match b with
  | BRust => with_extension "rs" n
  | BGo => ends_in "_test.go" n
  | BPhp => ends_in "Test.php" n
  | BFoundry => ends_in ".t.sol" n
  | BHardhat | BAnchorMocha => with_extension "js" n \/ with_extension "ts" n
  | BVitest | BAnchorVitest => (with_extension "js" n \/ with_extension "ts" n) /\ ~ ends_in ".test-d.ts" n
  end.
(** The directories a back end leaves out. *)
Definition left_out (b : backend) (n : text) : Prop :=
  match b with BRust => n = s2t "target" | BPhp => n = s2t "vendor" | _ => False end.

Section Spec.
Context (ignored : path -> bool) (b : backend).
(** From [start], the walk goes down [ns]: nothing on the way is ignored or left out. *)
Definition open_way (start ns : list text) : Prop :=
  forall pre n post, ns = pre ++ n :: post -> ignored (start ++ pre ++ [n]) = false /\ ~ left_out b n.
(** The test files at or below the directory [d] of the tree at [root], for a back end that is given [d]. *)
Definition test_file (root : path) (tree : entry) (d f : path) : Prop :=
  exists ns, f = d ++ start_dir b ++ ns /\ holds tree f EFile /\ open_way (root ++ d ++ start_dir b) ns /\
    forall pre n, ns = pre ++ [n] -> test_file_name b n.
End Spec.
