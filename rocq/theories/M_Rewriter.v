(** The external [rewriter] crate's [Rewriter], by contract.

    core/src/lib.rs:40-46 only names the type; the crate is not in /repo.  The
    contract used here (trusted): rewrites are given in ascending, non-overlapping
    order; each replaces the original text of its span; [contents] is the original with all
    replacements made; [rewrite] returns the text that was replaced.  Out-of-order
    rewrites and positions that do not exist are an explicit failure [None].
    Offsets are counted in characters; [L_Text.slice_enc] relates byte slices to
    character slices.

    The output alphabet [A] is a parameter ([inj] embeds source characters), so that
    the same algorithm can be run on characters (what the code does) and on
    characters plus guard markers (what the theorems interpret). *)
From Verif Require Import Base M_Text.

Section Rewriter.
Context {A : Type} (inj : char -> A).

Record rewriter := RW {
  rw_original : text;   (* the original contents *)
  rw_out : list A;      (* output produced so far *)
  rw_at : nat           (* offset in the original up to which output was produced *)
}.

(** [Rewriter::with_offset_calculator] (used at core/src/core.rs:747-748, core/src/span.rs:175-178). *)
Definition rw_new (contents : text) : rewriter := RW contents [] 0.

(** Characters [a, b) of [t]. *)
Definition slice (t : text) (a b : nat) : text := firstn (b - a) (skipn a t).

(** [Rewriter::rewrite] (used at core/src/span.rs:180, core/src/source_file.rs:98). *)
Definition rw_rewrite (r : rewriter) (s e : line_column) (replacement : list A)
  : option (text * rewriter) :=
  match char_offset (rw_original r) s, char_offset (rw_original r) e with
  | Some so, Some eo =>
    if (rw_at r <=? so) && (so <=? eo) then
      Some (slice (rw_original r) so eo,
            RW (rw_original r)
               (rw_out r ++ map inj (slice (rw_original r) (rw_at r) so) ++ replacement) eo)
    else None
  | _, _ => None
  end.

(** [Rewriter::contents] (used at core/src/core.rs:783, core/src/span.rs:186). *)
Definition rw_contents (r : rewriter) : list A :=
  rw_out r ++ map inj (skipn (rw_at r) (rw_original r)).

End Rewriter.
Arguments rewriter : clear implicits.
Arguments rw_new {A} contents.
