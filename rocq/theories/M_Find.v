(** Model of how source files are found: the [walk_dir] of each back end, on top of the crate [ignore]'s directory walk
    with a filter ([WalkBuilder::filter_entry]).

    A directory tree is given. What [ignore] itself leaves out (hidden files, entries named in .gitignore and the like)
    is given by a predicate on paths. Names are texts; names that are not UTF-8, and links whose target is the directory
    the walk starts from, are not modelled. *)
From Verif Require Import Base M_Text M_Span M_Run M_Output M_Directives.

(** What [Path::is_file], [Path::is_dir] and the walk see. *)
Inductive entry :=
| EFile                                          (* a file, or a link to one *)
| EDir (listing : option (list (text * entry)))  (* a directory; [None]: it cannot be read *)
| ELinkDir                                       (* a link to a directory: not descended into *)
| EOther.                                        (* a dangling link, a socket, ... *)
Definition e_is_file (e : entry) : bool := match e with EFile => true | _ => false end.
Definition e_is_dir (e : entry) : bool := match e with EDir _ | ELinkDir => true | _ => false end.

(** [str::ends_with]. *)
Definition ends_with_text (suffix t : text) : bool := starts_with_text (rev suffix) (rev t).
(** [Path::extension] of a path that ends in the name [n]: what follows the last dot, unless nothing precedes it. *)
Fixpoint split_last_dot (n : text) : option (text * text) :=   (* before and after the last dot *)
  match n with
  | [] => None
  | c :: r =>
    match split_last_dot r with
    | Some (b, a) => Some (c :: b, a)
    | None => if (c =? 46)%N then Some ([], r) else None
    end
  end.
Definition extension (n : text) : option text :=
  match split_last_dot n with
  | Some ([], _) | None => None
  | Some (_, a) => Some a
  end.
Definition has_extension (x n : text) : bool := match extension n with Some y => text_eqb y x | None => false end.
(** [to_string_lossy] of an absolute path. *)
Definition path_text (p : path) : text := SLASH :: join_path p.

(** A back end's way of finding files: the directory below the one given where the walk starts, and the filter. *)
Record finder := Finder { fd_subdir : path; fd_keep : path -> text -> entry -> bool }.   (* the filter: path, its last name, what is there *)

(** backends/src/rust/mod.rs:411-421. *)
Definition find_rust : finder := Finder []
  (fun _ n e => negb (text_eqb n (s2t "target")) && (negb (e_is_file e) || has_extension (s2t "rs") n)).
(** backends/src/go/mod.rs:239-248. *)
Definition find_go : finder := Finder []
  (fun p _ e => negb (e_is_file e) || ends_with_text (s2t "_test.go") (path_text p)).
(** backends/src/php/mod.rs:271-283. *)
Definition find_php : finder := Finder []
  (fun p n e => if e_is_dir e then negb (text_eqb n (s2t "vendor")) else ends_with_text (s2t "Test.php") (path_text p)).
(** backends/src/foundry/mod.rs:173-182. *)
Definition find_foundry : finder := Finder [s2t "test"]
  (fun p _ e => negb (e_is_file e) || ends_with_text (s2t ".t.sol") (path_text p)).
(** backends/src/ts/inner/mod.rs:274-289, with the predicate. *)
Definition ts_keep (predicate : text -> bool) (_ : path) (n : text) (e : entry) : bool :=
  negb (e_is_file e) || ((has_extension (s2t "js") n || has_extension (s2t "ts") n) && predicate n).
(** backends/src/ts/vitest.rs:40-45 [path_predicate]. *)
Definition vitest_predicate (n : text) : bool := negb (ends_with_text (s2t ".test-d.ts") n).
(** backends/src/hardhat/mod.rs:21-25; ts/mocha.rs:11-13; ts/inner/mod.rs:79-85. *)
Definition find_hardhat : finder := Finder [s2t "test"] (ts_keep (fun _ => true)).
(** backends/src/vitest/mod.rs:21-25. The directory [.]. *)
Definition find_vitest : finder := Finder [] (ts_keep vitest_predicate).
(** backends/src/anchor/mod.rs:45-48. *)
Definition find_anchor_mocha : finder := Finder [s2t "tests"] (ts_keep (fun _ => true)).
Definition find_anchor_vitest : finder := Finder [s2t "tests"] (ts_keep vitest_predicate).

Section Walk.
Context (ignored : path -> bool) (keep : path -> text -> entry -> bool).
(** The walk below an entry that is not left out; [None] is an error. *)
Fixpoint below_entry (p : path) (e : entry) {struct e} : list (option path) :=
  Some p ::
  match e with
  | EDir None => [None]
  | EDir (Some ks) =>
    (fix go (ks : list (text * entry)) : list (option path) :=
       match ks with
       | [] => []
       | (n, k) :: r => (if ignored (p ++ [n]) || negb (keep (p ++ [n]) n k) then [] else below_entry (p ++ [n]) k) ++ go r
       end) ks
  | _ => []
  end.
End Walk.

(** What is at a path below a directory. *)
Fixpoint child_entry (n : text) (ks : list (text * entry)) : option entry :=
  match ks with [] => None | (m, k) :: r => if text_eqb m n then Some k else child_entry n r end.
Fixpoint entry_at (e : entry) (p : path) : option entry :=
  match p with
  | [] => Some e
  | n :: r => match e with EDir (Some ks) => match child_entry n ks with Some k => entry_at k r | None => None end | _ => None end
  end.

Section Tree.
Context (ignored : path -> bool) (root : path) (tree : entry).   (* [tree] is at [root]; all other paths are not looked at *)
Definition at_full (p : path) : option entry :=
  match strip_components root p with Some q => entry_at tree q | None => None end.
Definition fs_is_file (p : path) : bool := match at_full p with Some e => e_is_file e | None => false end.
Definition fs_is_dir (p : path) : bool := match at_full p with Some e => e_is_dir e | None => false end.
(** [WalkBuilder::new(dir.join(subdir)).filter_entry(..).build()]: the place where the walk starts is not filtered; a
    missing one is an error. *)
Definition walk_dir (f : finder) (dir : path) : list (option path) :=
  match at_full (dir ++ fd_subdir f) with
  | None => [None]
  | Some e => below_entry ignored (fd_keep f) (dir ++ fd_subdir f) e
  end.
End Tree.
