(** Model of the TypeScript back ends' way of finding out which tests there are in a source file:
    backends/src/ts/mocha.rs, backends/src/ts/vitest.rs, and anchor/mod.rs:58-81.
    Output arrives without ANSI escape sequences (output_stripped_of_ansi_escapes). *)
From Verif Require Import Base M_Text M_Span M_Run M_Output M_Exec M_Go M_Select.
Local Open Scope N_scope.

(** ** ts/mocha.rs:16-47 *)
Definition dot (c : char) : bool := negb (c =? NL).                      (* . *)
Definition digit09 (c : char) : bool := (48 <=? c) && (c <=? 57).        (* [0-9] *)
(** White space, any character, a space, and the rest (captured), followed by [r]. *)
Definition line_re (r : rx) : rx := XSeq (XStar is_whitespace) (XSeq (XClass dot) (XSeq (XChar 32) (XSeq (XCap (XStar dot)) r))).
(** " \([0-9]+" followed by [unit] and "\)". *)
Definition figure_re (unit : text) : rx := lit (s2t " (") (XSeq (XClass digit09) (XSeq (XStar digit09) (lit unit (XChar 41)))).
Definition LINE_WITH_GAS_RE : rx := line_re (figure_re (s2t " gas")).
Definition LINE_WITH_TIME_RE : rx := line_re (figure_re (s2t "ms")).
Definition LINE_WITHOUT_GAS_OR_TIME_RE : rx := line_re nothing.
(** [Regex::captures] of an expression between [^] and [$]; capture group 1 (present in all three).  No word boundaries occur. *)
Definition captures_line (r : rx) (line : text) : option text :=
  match m (fun _ => false) r None line None (fun _ rest cap => match rest with [] => Some cap | _ => None end) with
  | Some (Some x) => Some x
  | _ => None
  end.
(** The body of the loop, 36-43. *)
Definition it_message (line : text) : option text :=
  match captures_line LINE_WITH_GAS_RE line with
  | Some x => Some x
  | None => match captures_line LINE_WITH_TIME_RE line with
            | Some x => Some x
            | None => captures_line LINE_WITHOUT_GAS_OR_TIME_RE line
            end
  end.
(** 33-47 [it_message_extractor]; the error is that of a non-UTF-8 output. *)
Definition mocha_messages (stdout : list N) : res unit (list text) :=
  match dec stdout with
  | Some t => Ok (filter_map it_message (lines t))
  | None => Err tt
  end.

(** ** ts/vitest.rs:22-31, 47-72; the JSON text is given by its parse (serde_json), [None] if there is none.
    An object's entries have distinct keys (a later one replaces an earlier one while parsing). *)
Inductive json :=
| JNull | JBool (b : bool) | JNumber (n : text) | JString (s : text) | JArray (l : list json) | JObject (l : list (text * json)).
Definition as_object (v : json) : option (list (text * json)) := match v with JObject l => Some l | _ => None end.
Definition as_array (v : json) : option (list json) := match v with JArray l => Some l | _ => None end.
Definition as_str (v : json) : option text := match v with JString s => Some s | _ => None end.
Fixpoint get (k : text) (l : list (text * json)) : option json :=
  match l with [] => None | (k', v) :: r => if text_eqb k' k then Some v else get k r end.
Definition obind {A B} (o : option A) (f : A -> option B) : option B := match o with Some a => f a | None => None end.
Inductive ts_error := NotUtf8 | TooFewLines | NotJson | NoTestResults.
(** 45-72 [extract_it_messages]. *)
Definition extract_it_messages (parse_json : text -> option json) (t : text) : res ts_error (list text) :=
  match parse_json t with
  | None => Err NotJson
  | Some value =>
    match obind (obind (as_object value) (get (s2t "testResults"))) as_array with
    | None => Err NoTestResults
    | Some test_results =>
      Ok (filter_map (fun v => obind (obind (as_object v) (get (s2t "title"))) as_str)
            (concat (filter_map (fun v => obind (obind (as_object v) (get (s2t "assertionResults"))) as_array) test_results)))
    end
  end.
(** anchor/mod.rs:58-81 [json_extractor]: what follows the fifth newline. *)
Fixpoint skip_line (t : text) : option text :=      (* what follows the first newline *)
  match t with [] => None | c :: r => if c =? NL then Some r else skip_line r end.
Fixpoint skip_lines (n : nat) (t : text) : option text :=
  match n with O => Some t | S n' => obind (skip_line t) (skip_lines n') end.
Definition N_LINES_TO_SKIP : nat := 5.
Definition json_extractor (t : text) : res ts_error text :=
  match skip_lines N_LINES_TO_SKIP t with Some r => Ok r | None => Err TooFewLines end.
(** vitest.rs:22-31. *)
Definition vitest_messages (parse_json : text -> option json) (extractor : option (text -> res ts_error text)) (stdout : list N) : res ts_error (list text) :=
  match dec stdout with
  | None => Err NotUtf8
  | Some t => bind (match extractor with Some f => f t | None => Ok t end) (extract_it_messages parse_json)
  end.
