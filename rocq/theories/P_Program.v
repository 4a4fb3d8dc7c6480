(** C75: from the words of the command line to what is left on disk, and the exit code. *)
From Verif Require Import Base M_Text M_Rewriter M_Span M_Run S_Run L_Run P_Run M_Output S_Output M_Sqlite P_Sqlite M_Options P_Options M_Config M_Main P_Main M_Cli S_Cli P_Cli M_Program.
From Verif Require M_Skill P_Skill.
From Coq Require Import List.
Import ListNotations.
Local Open Scope N_scope.
Local Open Scope list_scope.

Section Program.
Context {V : Type} (yaml : text -> option M_Skill.header) (semver : text -> option V) (vcmp : V -> V -> comparison)
        (vshow : V -> text) (pshow : path -> text) (builtin_skill : text) (builtin_version : V)
        (hash16 : text -> text) (default_toml : text).
Notation program := (program yaml semver vcmp vshow pshow builtin_skill builtin_version hash16 default_toml).

(** ** Specification *)

(** The option of this name is on the command line, as a flag or with a value. *)
Definition asked (items : list item) (name : string) : Prop := said items name \/ values (s2t name) items <> [].
(** Nothing is changed and nothing is run. *)
Definition idle (a : answer) : Prop := a_states a = [] /\ a_trace a = [].
(** What a word that asks for help, or for the version, looks like. *)
Definition asks_info (w : text) : Prop := w = s2t "--help" \/ w = s2t "--version" \/ (exists r, w = s2t "-h" ++ r) \/ (exists r, w = s2t "-V" ++ r).
(** The options of which at most one may be given; those that use the database; those whose answer is printed. *)
Definition mode_names : list string :=
  ["check-skill"; "default-config"; "dump"; "dump-candidates"; "dump-candidate-counts"; "find-skill"; "reset"; "resume"]%string.
Definition clash (a b : string) : Prop :=
  (In a mode_names /\ In b mode_names /\ a <> b) \/
  (In a ["dump"; "reset"; "resume"]%string /\ b = "no-sqlite"%string) \/
  (In a ["check-skill"; "dump"; "dump-candidates"; "dump-candidate-counts"; "find-skill"]%string /\ b = "quiet"%string) \/
  (a = "quiet"%string /\ b = "verbose"%string).

(** ** Lemmas *)

Definition field_name (f : field) : string :=
  match f with
  | check_skill => "check-skill" | default_config => "default-config" | dump_ => "dump"
  | dump_candidates_ => "dump-candidates" | dump_candidate_counts_ => "dump-candidate-counts"
  | find_skill => "find-skill" | no_sqlite => "no-sqlite" | quiet => "quiet" | reset => "reset"
  | resume => "resume" | verbose => "verbose"
  end%string.
Lemma values_flag items name : Forall item_ok items -> ~ In (s2t name) value_names -> values (s2t name) items = [].
Proof.
  intros K N. induction items as [|[n|n v e|f] items IH]; cbn [values]; inversion K as [|? ? K1 K2]; subst; auto.
  destruct (text_eqb n (s2t name)) eqn:E; [|auto]. apply text_eqb_eq in E. subst n. destruct K1 as [K1 _]. contradiction.
Qed.
Lemma said_value items name : Forall item_ok items -> ~ In (s2t name) flag_names -> ~ said items name.
Proof. intros K N S1. rewrite Forall_forall in K. apply (N (K _ S1)). Qed.
Lemma given_values {A} (R : text -> A -> Prop) vs x : S_Cli.given R vs x -> x <> None <-> vs <> [].
Proof. intros []; split; congruence. Qed.
Lemma asked_given items args o sel f : Forall item_ok items -> means items args o sel -> P_Options.given o f <-> asked items (field_name f).
Proof.
  intros K M. unfold asked.
  assert (FL : forall n (b : bool), ~ In (s2t n) value_names -> (b = true <-> said items n) -> (b = true <-> said items n \/ values (s2t n) items <> [])).
  { intros n b N ->. rewrite (values_flag _ _ K N). tauto. }
  assert (NO : forall n, existsb (text_eqb (s2t n)) value_names = false -> ~ In (s2t n) value_names).
  { intros n E I. assert (X : existsb (text_eqb (s2t n)) value_names = true) by (apply existsb_exists; exists (s2t n); split; [exact I|apply text_eqb_refl]). congruence. }
  destruct f; cbn [P_Options.given field_name].
  1: { rewrite (given_values _ _ _ (mn_check_skill _ _ _ _ M)). split; [auto|]. intros [H|H]; [|exact H]. exfalso. revert H. apply said_value; [exact K|]. cbn. intuition discriminate. }
  all: apply FL; [apply NO; reflexivity|]; destruct M; assumption.
Qed.
Lemma asked_write items args o sel : Forall item_ok items -> means items args o sel -> op_write o = true <-> asked items "write".
Proof.
  intros K M. unfold asked. rewrite (values_flag _ "write" K) by (cbn; intuition discriminate). rewrite (mn_write _ _ _ _ M). tauto.
Qed.

Lemma name_field a : In a mode_names -> exists f, a = field_name f /\ mode f.
Proof.
  intros H. cbn in H. destruct H as [<-|[<-|[<-|[<-|[<-|[<-|[<-|[<-|[]]]]]]]]].
  1: exists check_skill. 2: exists default_config. 3: exists dump_. 4: exists dump_candidates_. 5: exists dump_candidate_counts_. 6: exists find_skill. 7: exists reset. 8: exists resume.
  all: split; [reflexivity|exact I].
Qed.
Lemma clash_contradict a b : clash a b -> exists f h, a = field_name f /\ b = field_name h /\ contradict f h.
Proof.
  intros [(A & B & N)|[[A ->]|[[A ->]|[-> ->]]]].
  - destruct (name_field a A) as (f & -> & F), (name_field b B) as (h & -> & H). exists f, h. split; [reflexivity|]. split; [reflexivity|]. apply two_modes; [exact F|exact H|]. congruence.
  - destruct A as [<-|[<-|[<-|[]]]]; [exists dump_|exists reset|exists resume]; exists no_sqlite; (split; [reflexivity|]; split; [reflexivity|]; apply database_unused; unfold uses_database; tauto).
  - destruct A as [<-|[<-|[<-|[<-|[<-|[]]]]]]; [exists check_skill|exists dump_|exists dump_candidates_|exists dump_candidate_counts_|exists find_skill]; exists quiet;
      (split; [reflexivity|]; split; [reflexivity|]; apply answer_unseen; unfold prints_its_answer; tauto).
  - exists quiet, verbose. split; [reflexivity|]. split; [reflexivity|]. apply quiet_and_verbose.
Qed.
Lemma field_mode f : mode f -> In (field_name f) mode_names.
Proof. destruct f; cbn; tauto. Qed.
Lemma contradict_clash f h : contradict f h -> clash (field_name f) (field_name h) \/ clash (field_name h) (field_name f).
Proof.
  induction 1 as [f h F H N|f F|f F| |f h _ IH].
  - left. left. split; [apply field_mode, F|]. split; [apply field_mode, H|]. intros E. apply N. destruct f, h; cbn in E; congruence.
  - left. right. left. destruct F as [->|[-> | ->]]; cbn; tauto.
  - left. right. right. left. destruct F as [->|[->|[->|[-> | ->]]]]; cbn; tauto.
  - left. right. right. right. tauto.
  - tauto.
Qed.

(** ** Lines that are not accepted *)

Definition help_asked (words : list text) : Prop :=
  exists before w after, words = before ++ w :: after /\ ~ In (s2t "--") before /\ asks_info w.
Lemma info_word n : forall words m, (length words < n)%nat -> read_words words m = PInfo -> help_asked words.
Proof.
  induction n as [|n IH]; [intros; lia|]. intros [|w rest] m L; cbn [read_words]; [discriminate|]. cbn [length] in L.
  destruct (text_eqb w [DASH; DASH]) eqn:W; [discriminate|]. apply text_eqb_neq in W.
  assert (NX : forall m', read_words rest m' = PInfo -> help_asked (w :: rest)).
  { intros m' H. destruct (IH rest m') as (b & x & a & -> & N & A); [lia|exact H|]. exists (w :: b), x, a. split; [reflexivity|]. split; [intros [X|X]; [apply W, X|contradiction]|exact A]. }
  assert (NOW : asks_info w -> help_asked (w :: rest)) by (intros A; exists [], w, rest; split; [reflexivity|split; [intros []|exact A]]).
  destruct (strip_prefix [DASH; DASH] w) as [body|] eqn:SP.
  - apply strip_prefix_spec in SP. destruct (split_equals body) as [name value] eqn:Q. pose proof (split_equals_spec _ _ _ Q) as SE.
    destruct (from_str long_opts name) as [o|].
    + destruct (takes_value o).
      * destruct value as [v|].
        -- destruct (react_value o v m) as [m'|]; [apply NX|discriminate].
        -- destruct rest as [|v rest']; [discriminate|]. destruct (dashed v) eqn:D; [discriminate|]. destruct (react_value o v m) as [m'|]; [|discriminate].
           intros H. destruct (IH rest' m') as (b & x & a & -> & N & A); [cbn [length] in L; lia|exact H|]. exists (w :: v :: b), x, a. split; [reflexivity|]. split; [|exact A].
           intros [X|[X|X]]; [apply W, X|subst v; discriminate|contradiction].
      * destruct value; [discriminate|]. destruct (react_flag o m) as [m'|]; [apply NX|discriminate].
    + destruct (text_eqb name (s2t "help") || text_eqb name (s2t "version")) eqn:HV; [|discriminate]. destruct value; [discriminate|]. intros _.
      apply NOW. apply orb_true_iff in HV. unfold asks_info. rewrite app_nil_r in SE. subst body.
      destruct HV as [HV|HV]; apply text_eqb_eq in HV; subst name; [left|right; left]; exact SP.
  - destruct (dashed w) eqn:D; [|destruct (react_file w m) as [m'|]; [apply NX|discriminate]].
    destruct w as [|c0 [|c r]]; try discriminate. cbn in D. apply N.eqb_eq in D. subst c0. destruct ((c =? 104) || (c =? 86)) eqn:C; [|discriminate]. intros _.
    apply NOW. unfold asks_info. apply orb_true_iff in C. destruct C as [C|C]; apply N.eqb_eq in C; subst c; right; right; [left|right]; exists r; reflexivity.
Qed.

(** ** The theorems *)

(** Words that are no command line, or make no sense as one: nothing happens; the exit code is 2, or 0 if there is a word
    that asks for help or the version. *)
Theorem C75_not_accepted : forall g words k,
  (forall items args o sel, words = line_of items args -> Forall item_ok items -> ~ means items args o sel) ->
  let a := program g words k in
  idle a /\ (exit_code a = 2 \/ exit_code a = 0 /\ help_asked words).
Proof.
  intros g words k H a. unfold a, M_Program.program. destruct (command_line words) as [o sel| |] eqn:C.
  - exfalso. apply C73_command_line in C. destruct C as (items & args & E & K & M). exact (H _ _ _ _ E K M).
  - split; [split; reflexivity|]. right. split; [reflexivity|]. unfold command_line in C.
    destruct (read_words words no_matches) as [m| |] eqn:R; [destruct (options_of m); discriminate| |discriminate].
    exact (info_word _ words no_matches (Nat.lt_succ_diag_r _) R).
  - split; [split; reflexivity|left; reflexivity].
Qed.

(** A command line on which two options contradict each other, or with --write but nothing to write: nothing happens, and the
    exit code is 2. *)
Theorem C75_contradiction : forall g items args k, Forall item_ok items ->
  (exists a b, clash a b /\ asked items a /\ asked items b) \/ (asked items "write" /\ ~ asked items "check-skill" /\ ~ asked items "find-skill") ->
  let a := program g (line_of items args) k in idle a /\ exit_code a = 2.
Proof.
  intros g items args k K H a. unfold a, M_Program.program. destruct (command_line (line_of items args)) as [o sel| |] eqn:C.
  - pose proof (line_means _ _ _ _ K C) as M.
    destruct (C56_refused yaml semver vcmp vshow pshow builtin_skill builtin_version hash16 default_toml g o sel k) as (A1 & A2 & A3); [|split; [split|]; assumption].
    left. intros [A1 A2]. destruct H as [(x & y & CL & X & Y)|(W & N1 & N2)].
    + destruct (clash_contradict x y CL) as (f & h & -> & -> & CT). apply (A1 f h); [| |exact CT]; apply (asked_given _ _ _ _ _ K M); assumption.
    + apply (asked_write _ _ _ _ K M) in W. destruct (A2 W) as [G|G]; apply (asked_given _ _ _ _ _ K M) in G; contradiction.
  - destruct (line_not_info _ _ K C).
  - split; [split; reflexivity|reflexivity].
Qed.

(** What is on the command line bounds what can change, however the program ends.  The exit code is 1 only for questions
    about the skill. *)
Theorem C75_effects : forall g items args k, parses_well g -> Forall item_ok items ->
  let a := program g (line_of items args) k in
  (forall s, In s (a_states a) ->
     (forall p, k_src s p = k_src k p) /\
     (k_config s <> k_config k -> asked items "default-config" /\ k_config k = None) /\
     ((exists q, k_skill s q <> k_skill k q) -> asked items "write" /\ (asked items "check-skill" \/ asked items "find-skill")) /\
     (k_db s <> k_db k -> (forall n, In n mode_names -> asked items n -> n = "reset" \/ n = "resume")%string /\ ~ asked items "no-sqlite" /\
        (kept (k_db k) (k_db s) \/ asked items "reset"))) /\
  (a_trace a <> [] -> forall n, In n mode_names -> asked items n -> (n = "reset" \/ n = "resume")%string) /\
  (exit_code a = 0 \/ exit_code a = 1 \/ exit_code a = 2 \/ exit_code a = 101) /\
  (exit_code a = 1 -> asked items "check-skill" \/ asked items "find-skill").
Proof.
  intros g items args k PW K a. unfold a, M_Program.program. destruct (command_line (line_of items args)) as [o sel| |] eqn:C.
  2: { destruct (line_not_info _ _ K C). }
  2: { cbn. split; [intros s []|]. split; [congruence|]. split; [auto|discriminate]. }
  pose proof (line_means _ _ _ _ K C) as M. clear C.
  pose proof (fun f => asked_given _ _ _ _ f K M) as AG. pose proof (asked_write _ _ _ _ K M) as AW.
  pose proof (C57_invocation_leaves yaml semver vcmp vshow pshow builtin_skill builtin_version hash16 default_toml g o sel k PW) as LV.
  pose proof (C56_only_after_preparation yaml semver vcmp vshow pshow builtin_skill builtin_version hash16 default_toml g o sel k) as OP.
  pose proof (C56_exit_codes yaml semver vcmp vshow pshow builtin_skill builtin_version hash16 default_toml g o sel k) as (EX & E1 & _).
  pose proof (C56_refused yaml semver vcmp vshow pshow builtin_skill builtin_version hash16 default_toml g o sel k) as RF.
  assert (RUN : forall n, In n mode_names -> asked items n -> runs_tests o -> (n = "reset" \/ n = "resume")%string).
  { intros n I A (R1 & R2 & R3). destruct (name_field n I) as (f & -> & F). apply AG in A. unfold only_looks, about_skill in *. destruct f; cbn [mode] in F; try contradiction; cbn [field_name]; try tauto; exfalso; tauto. }
  split; [|split; [|split; [exact EX|]]].
  - intros s I. destruct (LV s I) as (L1 & L2 & L3 & L4 & L5). split; [exact L1|]. split; [|split].
    + intros N. destruct (op_default_config o) eqn:D.
      * split; [apply (AG default_config), D|]. destruct (k_config k) eqn:KC; [|reflexivity]. exfalso. apply N. apply L2. left. congruence.
      * exfalso. apply N. apply L2. right. unfold P_Options.given. congruence.
    + intros [q N]. destruct (op_write o) eqn:W; [|destruct (N (L3 eq_refl q))]. split; [apply AW; reflexivity|].
      destruct (op_check_skill o) eqn:CS; [left; apply (AG check_skill); cbn; congruence|]. destruct (op_find_skill o) eqn:FS; [right; apply (AG find_skill), FS|].
      exfalso. destruct RF as (R1 & _); [|rewrite R1 in I; destruct I]. left. intros [_ A2]. destruct (A2 W) as [X|X]; cbn in X; congruence.
    + intros N. destruct OP as [RT _]; [right; exists s; split; [exact I|left; exact N]|]. split; [intros n I1 A; exact (RUN n I1 A RT)|].
      split; [intros A; apply (AG no_sqlite) in A; destruct (N (L4 A))|].
      destruct (op_reset o) eqn:R; [right; apply (AG reset), R|left; apply L5; unfold P_Options.given; congruence].
  - intros N n I A. destruct OP as [RT _]; [left; exact N|]. exact (RUN n I A RT).
  - intros E. destruct (E1 E) as [X|X]; [left; apply (AG check_skill), X|right; apply (AG find_skill), X].
Qed.
End Program.
Print Assumptions C75_not_accepted.
Print Assumptions C75_contradiction.
Print Assumptions C75_effects.

(** In the small world of [P_Main]: two runs, the second of which refuses; a dump; a contradiction; nonsense; help. *)
Definition ex_program (g : setting) (words : list string) (k : disk) : answer :=
  M_Program.program P_Skill.ex_yaml P_Skill.ex_semver Nat.compare (fun _ => []) (fun _ => []) (P_Skill.ex_skill "5") 5%nat ex_hash (s2t "# defaults") g (map s2t words) k.
Definition ex_items : list item := [IFlag (s2t "verbose"); ISet (s2t "timeout") (s2t "10") true; IFile (s2t "t.rs")].
Definition ex_refused_items : list item := [IFlag (s2t "resume"); IFlag (s2t "reset")].
Example C75_nonvacuous :
  let g := ex_setting ex_files_m ex_o in
  let first := ex_program g [] ex_start in
  let k1 := final ex_start first in
  parses_well g /\ exit_code first = 0 /\ length (a_trace first) <> 0%nat /\ k_db k1 <> None /\
  exit_code (ex_program g [] k1) = 2 /\ a_states (ex_program g [] k1) = [] /\
  exit_code (ex_program g ["--dump"]%string k1) = 0 /\ a_trace (ex_program g ["--dump"]%string k1) = [] /\
  exit_code (ex_program g ["--find-skill"]%string k1) = 1 /\
  exit_code (ex_program g ["--default-config"]%string k1) = 0 /\ k_config (final k1 (ex_program g ["--default-config"]%string k1)) <> None /\
  exit_code (ex_program g ["--resume"; "--reset"]%string k1) = 2 /\
  exit_code (ex_program g ["--bogus"]%string k1) = 2 /\ exit_code (ex_program g ["x"; "--help"]%string k1) = 0.
Proof.
  split; [apply ex_parses_well|]. vm_compute. repeat split; discriminate || reflexivity.
Qed.
Example C75_lines : Forall item_ok ex_items /\ Forall item_ok ex_refused_items /\ clash "resume" "reset" /\ asked ex_refused_items "resume" /\ asked ex_refused_items "reset" /\
  line_of ex_refused_items None = map s2t ["--resume"; "--reset"]%string /\
  line_of ex_items (Some [s2t "--quiet"]) = map s2t ["--verbose"; "--timeout=10"; "t.rs"; "--"; "--quiet"]%string /\ asked ex_items "timeout" /\ ~ asked ex_items "quiet".
Proof.
  split. { constructor; [cbn; tauto|]. constructor; [split; [cbn; tauto|discriminate]|]. constructor; [|constructor]. split; [intros c r E; discriminate E|discriminate]. }
  split. { repeat constructor; cbn; tauto. }
  split. { left. cbn. split; [tauto|]. split; [tauto|discriminate]. }
  split; [left; cbn; tauto|]. split; [left; cbn; tauto|]. split; [reflexivity|]. split; [reflexivity|].
  split; [right; vm_compute; discriminate|]. intros [H|H]; [|apply H; reflexivity]. cbn in H. intuition discriminate.
Qed.
