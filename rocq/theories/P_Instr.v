(** Property theorem C05 (instrumentation). *)
From Verif Require Import Base M_Text S_Text L_Text M_Rewriter M_Span S_Span L_Span M_Instr S_Instr L_Instr.
Local Open Scope string_scope.
Local Open Scope list_scope.

(** C05: the instrumented file has one reading [xs] (source characters unchanged, guards well
    nested) that executes the whole file when the environment names none of its candidates, and
    executes the file without candidate [s] when the environment names [s]. *)
Theorem C05_instrumentation_equivalent : forall hash16 l extra file spans,
  layout file spans -> extra_before file extra spans ->
  exists xs, instrument_text hash16 l extra file spans = Some (render l xs) /\ chars_of xs = file /\
    (forall env, (forall s, In s spans -> span_id hash16 s <> env) -> eval env [] xs = Some file) /\
    (forall s before mid after, In s spans ->
       (forall s', In s' spans -> span_id hash16 s' = span_id hash16 s -> s' = s) ->
       between file (sp_start s) (sp_end s) before mid after ->
       eval (span_id hash16 s) [] xs = Some (before ++ after)).
Proof. exact instrument_equiv. Qed.
Print Assumptions C05_instrumentation_equivalent.

(** C05 and C04 agree: what runs is exactly what explicit removal would have left in the file. *)
Theorem C05_same_as_explicit_removal : forall hash16 l extra file spans s removed new,
  layout file spans -> extra_before file extra spans -> In s spans ->
  (forall s', In s' spans -> span_id hash16 s' = span_id hash16 s -> s' = s) ->
  remove_text file s = Some (removed, new) ->
  exists xs, instrument_text hash16 l extra file spans = Some (render l xs) /\
             eval (span_id hash16 s) [] xs = Some new.
Proof.
  exact (fun h l ex f sp s r n L X Hs U R =>
    match instrument_equiv h l ex f sp L X with
    | ex_intro _ xs (conj E (conj _ (conj _ H))) =>
      match proj1 (remove_text_iff f s r n) R with
      | ex_intro _ b (ex_intro _ a (conj B En)) =>
        ex_intro _ xs (conj E (eq_trans (H s b r a Hs U B) (f_equal Some (eq_sym En))))
      end
    end).
Qed.
Print Assumptions C05_same_as_explicit_removal.

(** What is inserted before a statement is, in each language, "if the removal under way is not this one {"; what is inserted behind
    it is the closing brace. *)
Theorem C05_guards : forall l id,
  guard_text l id = opening l (not_removing id) /\ end_text = s2t " }" /\
  forall vars, holds vars (not_removing id) <-> vars (s2t "NECESSIST_REMOVAL") <> id.
Proof. intros l id. split; [apply guard_written|]. split; [reflexivity|]. intros vars. apply not_removing_holds. Qed.
Print Assumptions C05_guards.

(** A file with two adjacent statements, one containing two nested ones. *)
Definition c05_file : text := s2t "fn t(){f(||{g();h();});k();}".
Definition c05_a : span := Span [s2t "t.rs"] (LC 1 7) (LC 1 23).
Definition c05_b : span := Span [s2t "t.rs"] (LC 1 12) (LC 1 16).
Definition c05_c : span := Span [s2t "t.rs"] (LC 1 16) (LC 1 20).
Definition c05_d : span := Span [s2t "t.rs"] (LC 1 23) (LC 1 27).
Definition c05_spans := [c05_a; c05_b; c05_c; c05_d].

Example C05_nonvacuous :
  layout c05_file c05_spans /\ extra_before c05_file None c05_spans /\
  source_text c05_file c05_a = Ok (s2t "f(||{g();h();});") /\
  source_text c05_file c05_c = Ok (s2t "h();") /\
  NoDup (map (span_id (fun t => t)) c05_spans) /\
  (exists t, instrument_text (fun t => firstn 9 t) LTypeScript None c05_file [c05_b] = Some t /\
     t = s2t "fn t(){f(||{if (process.env.NECESSIST_REMOVAL != " ++ DQ ++ s2t "t.rs:1:13" ++ DQ ++
         s2t ") { g(); }h();});k();}").
Proof.
  split; [|split; [exact I|split; [vm_compute; reflexivity|split; [vm_compute; reflexivity|split]]]].
  - split; [|split].
    + intros s [<-|[<-|[<-|[<-|[]]]]].
      * exists (s2t "fn t(){"), (s2t "f(||{g();h();});"), (s2t "k();}"). split; [repeat split|discriminate].
      * exists (s2t "fn t(){f(||{"), (s2t "g();"), (s2t "h();});k();}"). split; [repeat split|discriminate].
      * exists (s2t "fn t(){f(||{g();"), (s2t "h();"), (s2t "});k();}"). split; [repeat split|discriminate].
      * exists (s2t "fn t(){f(||{g();h();});"), (s2t "k();"), (s2t "}"). split; [repeat split|discriminate].
    + intros l1 a l2 b l3 E. unfold c05_spans in E.
      destruct l1 as [|x1 [|x2 [|x3 [|x4 l1]]]]; cbn in E; injection E; intros; subst;
      destruct l2 as [|y1 [|y2 [|y3 l2]]]; cbn in *; try discriminate;
        repeat match goal with H : _ :: _ = _ :: _ |- _ => injection H; clear H; intros; subst end;
        try discriminate; unfold lc_lt; cbn; try lia;
        try (destruct l2; discriminate); try (destruct l1; discriminate).
    + intros l1 a l2 b l3 E. unfold c05_spans in E.
      destruct l1 as [|x1 [|x2 [|x3 [|x4 l1]]]]; cbn in E; injection E; intros; subst;
      destruct l2 as [|y1 [|y2 [|y3 l2]]]; cbn in *; try discriminate;
        repeat match goal with H : _ :: _ = _ :: _ |- _ => injection H; clear H; intros; subst end;
        try discriminate; unfold lc_le, lc_lt; cbn;
        try (first [left; right; lia | left; left; reflexivity | right; right; lia | right; left; reflexivity]);
        try (destruct l2; discriminate); try (destruct l1; discriminate).
  - repeat constructor; cbn; intuition discriminate.
  - eexists; split; vm_compute; reflexivity.
Qed.

(** The hypothesis that starts differ is needed: with two candidates starting at the same
    place (the shorter comes first in the [BTreeMap]), naming one of them removes the text of
    the other. *)
Example C05_same_start_misnests :
  let a := Span [s2t "t.rs"] (LC 1 0) (LC 1 1) in
  let b := Span [s2t "t.rs"] (LC 1 0) (LC 1 2) in
  exists xs, instrument_sym (fun t => t) None (s2t "xyz") [a; b] = Some xs /\
    eval (span_id (fun t => t) a) [] xs = Some (s2t "z") /\
    eval (span_id (fun t => t) b) [] xs = Some (s2t "yz").
Proof. eexists; split; [vm_compute; reflexivity|split; vm_compute; reflexivity]. Qed.
