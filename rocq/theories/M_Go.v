(** Model of the Go back end's instrumentation of a source file (backends/src/go/mod.rs:452-499, 536-579): finding
    out under which name the package [os] is imported, and importing it if it is not. *)
From Verif Require Import Base M_Text M_Rewriter M_Span M_Run M_Instr M_Directives.
Local Open Scope N_scope.

(** ** The regular expressions used
    The [regex] crate's leftmost-first search with one capturing group, for the operators that occur. *)
Inductive rx :=
| XChar (c : char)                    (* a literal *)
| XClass (f : char -> bool)           (* a class: one character *)
| XStar (f : char -> bool)            (* a class, repeated, as often as possible first *)
| XOpt (c : char)                     (* a literal or nothing, in this order *)
| XAlt (a b : rx)                     (* [a] or [b], in this order *)
| XSeq (a b : rx)
| XCap (r : rx)                       (* the capturing group number 1 *)
| XBound.                             (* a word boundary *)

Section Regex.
Context (word : char -> bool).        (* Unicode's [\w] *)

Definition is_word (o : option char) : bool := match o with Some c => word c | None => false end.
Definition hd_char (t : text) : option char := match t with c :: _ => Some c | [] => None end.

(** Backtracking: the alternatives are tried in order of priority, and the first one with which the rest succeeds is
    taken.  [prev] is the character before [rest]; [k] continues with what is left. *)
Fixpoint m {R} (r : rx) (prev : option char) (rest : text) (cap : option text)
  (k : option char -> text -> option text -> option R) {struct r} : option R :=
  match r with
  | XChar c => match rest with d :: rest' => if d =? c then k (Some d) rest' cap else None | [] => None end
  | XClass f => match rest with d :: rest' => if f d then k (Some d) rest' cap else None | [] => None end
  | XStar f =>
    (fix star (prev : option char) (rest : text) : option R :=
       match rest with
       | d :: rest' => if f d then match star (Some d) rest' with Some x => Some x | None => k prev rest cap end
                       else k prev rest cap
       | [] => k prev rest cap
       end) prev rest
  | XOpt c =>
    match (match rest with d :: rest' => if d =? c then k (Some d) rest' cap else None | [] => None end) with
    | Some x => Some x
    | None => k prev rest cap
    end
  | XAlt a b => match m a prev rest cap k with Some x => Some x | None => m b prev rest cap k end
  | XSeq a b => m a prev rest cap (fun prev rest cap => m b prev rest cap k)
  | XCap r => m r prev rest cap (fun prev' rest' _ => k prev' rest' (Some (firstn (length rest - length rest') rest)))
  | XBound => if Bool.eqb (is_word prev) (is_word (hd_char rest)) then None else k prev rest cap
  end.

(** [Regex::captures]: the leftmost match; the text of group 1. *)
Fixpoint search (r : rx) (prev : option char) (t : text) : option (option text) :=
  match m r prev t None (fun _ _ cap => Some cap) with
  | Some cap => Some cap
  | None => match t with [] => None | c :: t' => search r (Some c) t' end
  end.
Definition captures (r : rx) (t : text) : option (option text) := search r None t.

(** ** go/mod.rs:536-579 *)
Fixpoint lit (t : text) (r : rx) : rx := match t with [] => r | c :: t' => XSeq (XChar c) (lit t' r) end.

Definition ident_start (c : char) : bool := ((65 <=? c) && (c <=? 90)) || ((97 <=? c) && (c <=? 122)) || (c =? 95).
Definition ident_char (c : char) : bool := ((48 <=? c) && (c <=? 57)) || ident_start c.
Definition not_close (c : char) : bool := negb (c =? 41).

(** go/mod.rs:537: a dot or an ASCII identifier (group 1), and an optional space (group 2, never looked at). *)
Definition NAME (r : rx) : rx := XSeq (XCap (XAlt (XChar 46) (XSeq (XClass ident_start) (XStar ident_char)))) (XSeq (XOpt 32) r).
(** go/mod.rs:536: an opening parenthesis, then anything but closing ones. *)
Definition PREFIX (r : rx) : rx := XSeq (XChar 40) (XSeq (XStar not_close) r).
(** go/mod.rs:538: anything but closing parentheses, then one. *)
Definition SUFFIX : rx := XSeq (XStar not_close) (XChar 41).

Definition OS : text := DQ ++ s2t "os" ++ DQ.
(** go/mod.rs:549-551 [import_os_re]: a word boundary, then [import {prefix}{name}"os"{suffix}]. *)
Definition import_os_re (prefix name : rx -> rx) (suffix : rx) : rx :=
  XSeq XBound (lit (s2t "import ") (prefix (name (lit OS suffix)))).
Definition nothing : rx := XStar (fun _ => false).      (* the empty expression *)
Definition none (r : rx) : rx := r.

(** go/mod.rs:540-547. *)
Definition IMPORT_NAMED_OS_RE := import_os_re none NAME nothing.
Definition IMPORT_UNNAMED_OS_RE := import_os_re none none nothing.
Definition PARENTHESIZED_IMPORT_NAMED_OS_RE := import_os_re PREFIX NAME SUFFIX.
Definition PARENTHESIZED_IMPORT_UNNAMED_OS_RE := import_os_re PREFIX none SUFFIX.

(** go/mod.rs:553-571 [imports_os]; in a match of a named import, group 1 took part. *)
Definition imports_os (contents : text) : option text :=
  match captures IMPORT_NAMED_OS_RE contents with
  | Some cap => cap
  | None =>
    match captures IMPORT_UNNAMED_OS_RE contents with
    | Some _ => Some (s2t "os")
    | None =>
      match captures PARENTHESIZED_IMPORT_NAMED_OS_RE contents with
      | Some cap => cap
      | None => match captures PARENTHESIZED_IMPORT_UNNAMED_OS_RE contents with Some _ => Some (s2t "os") | None => None end
      end
    end
  end.

(** go/mod.rs:573-579 [package_line]. *)
Definition package_line (contents : text) : option nat :=
  option_map S (first_index (starts_with_text (s2t "package ")) (lines contents)).

Inductive go_error := NoPackageLine.
Definition IMPORT_OS : text := s2t "import " ++ OS ++ [NL].

(** go/mod.rs:452-482 [instrument_source_file]: the text inserted, if any, and the name recorded for the file. [known]
    is the name recorded before, if any. *)
Definition instrument_go (known : option text) (contents : text) (n : nat)
  : res go_error (option (line_column * text) * option text) :=
  match known with
  | Some name => Ok (None, Some name)
  | None =>
    if (n =? 0)%nat then Ok (None, None)
    else match imports_os contents with
         | Some name => Ok (None, Some name)
         | None =>
           match package_line contents with
           | None => Err NoPackageLine
           | Some l => Ok (Some (LC (l + 1) 0, IMPORT_OS), Some (s2t "os"))
           end
         end
  end.

(** go/mod.rs:487-491: what the guards put before [Getenv]. *)
Definition os_prefix (name : text) : text := if text_eqb name (s2t ".") then [] else name ++ s2t ".".

(** core/src/core.rs:747-783 with the Go back end: the new contents of the file. *)
Definition instrument_go_file (hash16 : text -> text) (contents : text) (spans : list span) : res go_error (option text) :=
  bind (instrument_go None contents (length spans)) (fun x =>
    let '(extra, name) := x in
    Ok (match name with
        | None => instrument_text hash16 (LGo []) extra contents spans           (* no statement, no guard *)
        | Some name => instrument_text hash16 (LGo (os_prefix name)) extra contents spans
        end)).
End Regex.
