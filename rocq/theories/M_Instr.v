(** Model of statement instrumentation: core/src/core.rs:736-804
    [instrument_statements] (the pure part: the new file contents) and the
    back ends' [statement_prefix_and_suffix] and [instrument_source_file]. *)
From Verif Require Import Base M_Text M_Rewriter M_Span.

Section Instr.
Context {A : Type} (inj : char -> A).

(** [BTreeMap::entry(k).or_default().push(v)] (core.rs:762-765); a [BTreeMap] is its
    list of entries in ascending key order. *)
Fixpoint map_push {V} (k : line_column) (v : V) (m : list (line_column * list V))
  : list (line_column * list V) :=
  match m with
  | [] => [(k, [v])]
  | (k', vs) :: m' =>
    match lc_compare k k' with
    | Lt => (k, [v]) :: m
    | Eq => (k', vs ++ [v]) :: m'
    | Gt => (k', vs) :: map_push k v m'
    end
  end.

(** core/src/core.rs:760-767: the loop that fills [insertion_map]. *)
Fixpoint insertion_map (prefix : span -> list A) (suffix : list A) (spans : list span)
  (m : list (line_column * list (list A))) : list (line_column * list (list A)) :=
  match spans with
  | [] => m
  | s :: r => insertion_map prefix suffix r
                (map_push (sp_end s) suffix (map_push (sp_start s) (prefix s) m))
  end.

(** core/src/source_file.rs:91-99 [insert]. *)
Definition sf_insert (r : rewriter A) (p : line_column) (ins : list A) : option (rewriter A) :=
  match rw_rewrite inj r p p ins with
  | Some (_, r') => Some r'
  | None => None
  end.

(** core/src/core.rs:772-773: inner loop. *)
Fixpoint insert_all (r : rewriter A) (p : line_column) (ins : list (list A)) : option (rewriter A) :=
  match ins with
  | [] => Some r
  | i :: rest => match sf_insert r p i with Some r' => insert_all r' p rest | None => None end
  end.

(** core/src/core.rs:771-775: outer loop. *)
Fixpoint apply_map (r : rewriter A) (m : list (line_column * list (list A))) : option (rewriter A) :=
  match m with
  | [] => Some r
  | (p, ins) :: rest => match insert_all r p ins with Some r' => apply_map r' rest | None => None end
  end.

(** core/src/core.rs:747-783: the contents written to the file.  [extra] is what the back
    end's [instrument_source_file] inserts first (Go: the import; other back ends:
    nothing).  [None]: a position is rejected by the rewriter. *)
Definition instrument (extra : option (line_column * list A))
  (prefix : span -> list A) (suffix : list A) (contents : text) (spans : list span)
  : option (list A) :=
  match (match extra with
         | None => Some (rw_new contents)
         | Some (p, t) => sf_insert (rw_new contents) p t
         end) with
  | None => None
  | Some r0 =>
    match apply_map r0 (insertion_map prefix suffix spans []) with
    | Some r => Some (rw_contents inj r)
    | None => None
    end
  end.

End Instr.

(** Host languages of the back ends. *)
Inductive lang :=
| LRust
| LGo (os_prefix : text)
| LTypeScript
| LPhp
| LFoundry.

Local Open Scope string_scope.

Definition DQ : text := [34%N].

(** [statement_prefix_and_suffix]: backends/src/rust/mod.rs:639-647, go/mod.rs:484-499,
    php/mod.rs:560-565, foundry/mod.rs:417-425, ts/inner/mod.rs:119-127
    (also Anchor and Hardhat, which delegate to it). *)
Definition guard_text (l : lang) (id : text) : text :=
  match l with
  | LRust => s2t "if std::env::var(" ++ DQ ++ s2t "NECESSIST_REMOVAL" ++ DQ ++ s2t ").unwrap() != "
             ++ DQ ++ id ++ DQ ++ s2t " { "
  | LGo os => s2t "if " ++ os ++ s2t "Getenv(" ++ DQ ++ s2t "NECESSIST_REMOVAL" ++ DQ ++ s2t ") != "
             ++ DQ ++ id ++ DQ ++ s2t " { "
  | LTypeScript => s2t "if (process.env.NECESSIST_REMOVAL != " ++ DQ ++ id ++ DQ ++ s2t ") { "
  | LPhp => s2t "if (getenv('NECESSIST_REMOVAL') !== '" ++ id ++ s2t "') { "
  | LFoundry => s2t "if (bytes8(vm.envBytes(" ++ DQ ++ s2t "NECESSIST_REMOVAL" ++ DQ
             ++ s2t ")) != bytes8(hex" ++ DQ ++ id ++ DQ ++ s2t ")) { "
  end%list.

Definition end_text : text := s2t " }".

(** The contents of the instrumented file, as text: what the code writes. *)
Definition instrument_text (hash16 : text -> text) (l : lang) (extra : option (line_column * text))
  (contents : text) (spans : list span) : option text :=
  instrument (fun c => c) extra (fun s => guard_text l (span_id hash16 s)) end_text contents spans.
