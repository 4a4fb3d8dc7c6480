(** Property theorems C01-C04, C41, C42 (spans, texts, positions). *)
From Verif Require Import Base M_Text S_Text L_Text M_Rewriter M_Span S_Span L_Span M_Positions L_Positions.
Local Open Scope string_scope.
Local Open Scope list_scope.

(** C01: two candidates with the same printed form are the same candidate. *)
Theorem C01_printed_form_injective : forall s1 s2,
  wf_span s1 -> wf_span s2 -> display_span s1 = display_span s2 -> s1 = s2.
Proof. exact display_inj. Qed.
Print Assumptions C01_printed_form_injective.

(** C01: the removal id depends on the printed form only, and two different
    candidates share an id only if the hash collides on their printed forms. *)
Theorem C01_id_collision_is_hash_collision : forall hash16 s1 s2,
  wf_span s1 -> wf_span s2 -> s1 <> s2 ->
  span_id hash16 s1 = span_id hash16 s2 ->
  exists t1 t2, t1 = display_span s1 /\ t2 = display_span s2 /\ t1 <> t2 /\ hash16 t1 = hash16 t2.
Proof.
  exact (fun h s1 s2 W1 W2 N E =>
    ex_intro _ _ (ex_intro _ _ (conj eq_refl (conj eq_refl (conj (fun D => N (display_inj s1 s2 W1 W2 D)) E))))).
Qed.
Print Assumptions C01_id_collision_is_hash_collision.

Definition ex_span : span := Span [s2t "tests"; s2t "a-1.rs"] (LC 3 4) (LC 12 0).
Definition ex_colon_span : span := Span [s2t "tests"; s2t "a:b.rs"] (LC 3 4) (LC 12 0).

Example C01_nonvacuous :
  wf_span ex_span /\ wf_span ex_colon_span /\ ex_span <> ex_colon_span /\
  display_span ex_span = s2t "tests/a-1.rs:3:5-12:1".
Proof.
  assert (W : forall s, forallb (fun c => negb (text_eqb c []) && negb (text_eqb c DOT) && negb (existsb (N.eqb SLASH) c))%bool (sp_path s) = true -> sp_path s <> [] -> wf_span s).
  { intros s H Hn. split; [exact Hn|]. apply Forall_forall. intros c Hc.
    rewrite forallb_forall in H. specialize (H c Hc).
    apply andb_true_iff in H as [H H3]. apply andb_true_iff in H as [H1 H2].
    apply negb_true_iff in H1, H2, H3. apply text_eqb_neq in H1, H2.
    split; [exact H1|]. split; [exact H2|]. intros Hi.
    assert (existsb (N.eqb SLASH) c = true); [|congruence].
    apply existsb_exists. exists SLASH. split; [exact Hi|reflexivity]. }
  split; [apply W; [vm_compute; reflexivity|discriminate]|].
  split; [apply W; [vm_compute; reflexivity|discriminate]|].
  split; [discriminate|vm_compute; reflexivity].
Qed.

(** C02, exact extent: the printed form reads back as the same span iff the relative path
    contains no colon. *)
Theorem C02_parse_display_iff_partial : forall file_exists s,
  wf_span s -> usize_span s -> file_exists (sp_path s) = true ->
  (parse_span file_exists (display_span s) = Ok s <-> ~ In 58%N (join_path (sp_path s))).
Proof. exact parse_display_iff. Qed.
Print Assumptions C02_parse_display_iff_partial.

(** C02 is false in general: a file name with a colon in it (legal on Unix) makes
    reading the database back fail. *)
Theorem C02_parse_display_refuted : exists file_exists s,
  wf_span s /\ usize_span s /\ file_exists (sp_path s) = true /\
  parse_span file_exists (display_span s) = Err BadNumber.
Proof.
  exact (ex_intro _ (fun _ => true) (ex_intro _ ex_colon_span
    (conj (proj1 (proj2 C01_nonvacuous))
      (conj (conj eq_refl (conj eq_refl (conj eq_refl eq_refl))) (conj eq_refl eq_refl))))).
Qed.
Print Assumptions C02_parse_display_refuted.

Example C02_nonvacuous :
  usize_span ex_span /\ parse_span (fun _ => true) (display_span ex_span) = Ok ex_span.
Proof. split; [repeat split; vm_compute; reflexivity | vm_compute; reflexivity]. Qed.

(** C03: the candidate text is exactly what lies between the two positions. *)
Theorem C03_source_text_exact : forall contents s t,
  scalars contents ->
  (source_text contents s = Ok t <->
   exists before after, between contents (sp_start s) (sp_end s) before t after).
Proof. exact source_text_iff. Qed.
Print Assumptions C03_source_text_exact.

(** C03: for a legal Rust string the UTF-8 check in [source_text] never fails. *)
Theorem C03_source_text_never_not_utf8 : forall contents s e,
  scalars contents -> source_text contents s <> Err e.
Proof. exact source_text_no_err. Qed.
Print Assumptions C03_source_text_never_not_utf8.

(** C03: a position denotes at most one place in a file. *)
Theorem C03_position_unique : forall (a b c d : text), a ++ b = c ++ d -> pos a = pos c -> a = c.
Proof. exact pos_prefix_inj. Qed.
Print Assumptions C03_position_unique.

Definition ex_file : text := s2t "ab" ++ [233; 8364]%N ++ s2t "(1);" ++ [NL] ++ s2t "  x();" ++ [NL].
Example C03_nonvacuous :
  scalars ex_file /\
  source_text ex_file (Span [s2t "f"] (LC 1 3) (LC 2 3)) = Ok ([8364]%N ++ s2t "(1);" ++ [NL] ++ s2t "  x").
Proof. split; [apply Forall_forall, forallb_forall|]; vm_compute; reflexivity. Qed.

(** C04: removal leaves everything before and after the span unchanged, and removes
    the text that is reported. *)
Theorem C04_remove_exact : forall contents s removed new,
  remove_text contents s = Some (removed, new) <->
  exists before after, between contents (sp_start s) (sp_end s) before removed after /\
                       new = before ++ after.
Proof. exact remove_text_iff. Qed.
Print Assumptions C04_remove_exact.

Example C04_nonvacuous :
  remove_text ex_file (Span [s2t "f"] (LC 1 0) (LC 2 3))
  = Some (s2t "ab" ++ [233; 8364]%N ++ s2t "(1);" ++ [NL] ++ s2t "  x", s2t "();" ++ [NL]).
Proof. vm_compute; reflexivity. Qed.

(** C42: trimming. *)
Theorem C42_trim_start : forall contents s before mid after,
  scalars contents -> between contents (sp_start s) (sp_end s) before mid after ->
  exists s' ws rest,
    span_trim_start contents s = Ok s' /\ sp_path s' = sp_path s /\ sp_end s' = sp_end s /\
    mid = ws ++ rest /\ Forall (fun c => is_whitespace c = true) ws /\
    (rest = [] \/ exists x r, rest = x :: r /\ is_whitespace x = false) /\
    between contents (sp_start s') (sp_end s') (before ++ ws) rest after /\
    source_text contents s' = Ok rest.
Proof. exact span_trim_start_spec. Qed.
Print Assumptions C42_trim_start.

(** Whitespace is what Unicode calls white space: tab to carriage return, the space, next line, no-break space, Ogham space,
    the spaces of general punctuation from en quad to hair space, the line and paragraph separators, and the narrow no-break, mathematical
    and ideographic spaces. *)
Theorem C42_whitespace : forall c, is_whitespace c = true <->
  In c [9; 10; 11; 12; 13; 32; 133; 160; 5760; 8192; 8193; 8194; 8195; 8196; 8197; 8198; 8199; 8200; 8201; 8202; 8232; 8233; 8239; 8287; 12288]%N.
Proof.
  intros c. unfold is_whitespace. rewrite !orb_true_iff, !andb_true_iff, !N.leb_le, !N.eqb_eq. split.
  - intros H. 
    destruct H as [[[[[[[[[[H|H]|H]|H]|H]|H]|H]|H]|H]|H]|H]; subst; cbn [In]; try tauto.
    + assert (H0 : (c = 9 \/ c = 10 \/ c = 11 \/ c = 12 \/ c = 13)%N) by lia. clear -H0. intuition (subst; tauto).
    + assert (H0 : (c = 8192 \/ c = 8193 \/ c = 8194 \/ c = 8195 \/ c = 8196 \/ c = 8197 \/ c = 8198 \/ c = 8199 \/ c = 8200 \/ c = 8201 \/ c = 8202)%N) by lia.
      clear -H0. intuition (subst; tauto).
  - intros H. cbn [In] in H. repeat (destruct H as [<-|H]; [vm_compute; clear; intuition discriminate|]). destruct H.
Qed.
Print Assumptions C42_whitespace.

Example C42_nonvacuous :
  span_trim_start ex_file (Span [s2t "f"] (LC 1 8) (LC 2 6)) = Ok (Span [s2t "f"] (LC 2 2) (LC 2 6)).
Proof. vm_compute; reflexivity. Qed.

(** C41 (tree-sitter back ends): a point inside the file (byte column on a character
    boundary) denotes the same place after conversion. *)
Theorem C41_tree_sitter_points : forall before after, after <> [] ->
  point_to_line_column (before ++ after) (count_nl before) (blen (last_line before)) = Ok (pos before).
Proof. exact point_to_line_column_ok. Qed.
Print Assumptions C41_tree_sitter_points.

(** C41 is false at the end of a file: the conversion of the end-of-file point panics. *)
Theorem C41_tree_sitter_eof_refuted : forall file,
  point_to_line_column file (count_nl file) (blen (last_line file)) = Panic.
Proof. exact point_to_line_column_eof. Qed.
Print Assumptions C41_tree_sitter_eof_refuted.

(** C41 (Foundry), exact extent: a byte offset is converted correctly iff its line is ASCII
    up to it. *)
Theorem C41_foundry_offsets_partial : forall before after,
  offset_to_line_column (before ++ after) (blen before) = pos before <->
  Forall (fun c => (c < 128)%N) (last_line before).
Proof. exact offset_to_line_column_iff. Qed.
Print Assumptions C41_foundry_offsets_partial.

(** C41 is false for Foundry: after a non-ASCII character the column is a byte column, and the
    candidate text is shifted. *)
Definition ex_sol : text := s2t "f(" ++ [233]%N ++ s2t "); g(); h();" ++ [NL].
Theorem C41_foundry_refuted : exists before text_of_statement after,
  let file := before ++ text_of_statement ++ after in
  let s := Span [s2t "T.t.sol"] (offset_to_line_column file (blen before))
                (offset_to_line_column file (blen (before ++ text_of_statement))) in
  exists t, source_text file s = Ok t /\ t <> text_of_statement.
Proof.
  exact (ex_intro _ (s2t "f(" ++ [233]%N ++ s2t "); ") (ex_intro _ (s2t "g();") (ex_intro _ (s2t " h();" ++ [NL])
    (ex_intro _ (s2t "(); ") (conj eq_refl (fun H : s2t "(); " = s2t "g();" => ltac:(discriminate H))))))).
Qed.
Print Assumptions C41_foundry_refuted.

(** C41 (Foundry): a statement's span is extended over following ASCII whitespace and one
    semicolon if there is one, and not otherwise. *)
Definition ascii_blank (c : char) : Prop := In c [9; 10; 12; 13; 32]%N.      (* tab, line feed, form feed, carriage return, space *)
Lemma ascii_blank_ws c : is_ascii_ws c = true <-> ascii_blank c.
Proof. unfold is_ascii_ws, ascii_blank. rewrite !orb_true_iff, !N.eqb_eq. cbn [In]. intuition congruence. Qed.
Theorem C41_foundry_semicolon : forall before after,
  (exists ws after', after = ws ++ 59%N :: after' /\ Forall ascii_blank ws /\
     end_with_semicolon (before ++ after) (blen before) = blen (before ++ ws ++ [59%N])) \/
  ((forall ws after', Forall ascii_blank ws -> after <> ws ++ 59%N :: after') /\
     end_with_semicolon (before ++ after) (blen before) = blen before).
Proof.
  assert (F : forall ws, Forall (fun c => is_ascii_ws c = true) ws <-> Forall ascii_blank ws).
  { intros ws. rewrite !Forall_forall. split; intros H c Hc; apply ascii_blank_ws; auto. }
  intros before after. destruct (end_with_semicolon_spec before after) as [(ws & after' & H1 & H2 & H3)|(H1 & H2)].
  - left. exists ws, after'. rewrite <- F. auto.
  - right. split; [|exact H2]. intros ws after' Hw. apply H1. apply F. exact Hw.
Qed.
Print Assumptions C41_foundry_semicolon.

Example C41_nonvacuous :
  pos (s2t "a" ++ [NL] ++ [233]%N) = LC 2 1 /\ blen (last_line (s2t "a" ++ [NL] ++ [233]%N)) = 2.
Proof. split; vm_compute; reflexivity. Qed.
