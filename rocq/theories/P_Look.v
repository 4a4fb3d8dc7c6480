(** C66: what the looking modes print, from the command line to the lines on the console. *)
From Verif Require Import Base M_Text S_Text L_Text M_Rewriter M_Span S_Span L_Span P_Text M_Instr S_Instr P_Instr M_Run S_Run L_Run L_RunFinal L_Resume L_History L_Total L_Unique L_Denied P_Run
  M_Output S_Output L_Output P_Output M_Sqlite P_Sqlite M_Options P_Options M_Config M_Main P_Main P_Resume P_Progress.
From Verif Require M_Skill P_Skill.
From Coq Require Import Permutation.

Section Look.
Context {V : Type} (yaml : text -> option M_Skill.header) (semver : text -> option V) (vcmp : V -> V -> comparison)
        (vshow : V -> text) (pshow : path -> text) (builtin_skill : text) (builtin_version : V)
        (hash16 : text -> text) (default_toml : text).
Notation invoke := (necessist yaml semver vcmp vshow pshow builtin_skill builtin_version hash16 default_toml).
Notation exit g o sel k := (exit_code (invoke g o sel k)).

(** ** Specification *)
(** The root is found and locked, and the configuration can be read. *)
Definition root_ready (g : setting) (o : options) (k : disk) : Prop :=
  acceptable o /\ exists root c,
    g_root g (op_root o) = Some root /\ g_lock g root = true /\
    (g_config_stat g = true /\
     match k_config k with
     | None => c = toml_default
     | Some t => g_config_read g = true /\ g_toml g t = Some c
     end).
(** Where a candidate is and what it says, as it is printed. *)
Definition candidate_line (v : env) (no_positions : bool) (s : span) (t : text) : text :=
  console_path v (sp_path s) ++
  (if no_positions then []
   else s2t ":" ++ print_usize (line (sp_start s)) ++ s2t ":" ++ print_usize (column (sp_start s) + 1)
        ++ s2t "-" ++ print_usize (line (sp_end s)) ++ s2t ":" ++ print_usize (column (sp_end s) + 1))
  ++ s2t ": `" ++ without_cr t ++ s2t "`".
(** The lines that [--dump] prints for the rows [rs]: in the order of the spans, those with the outcome "passed" unless [--verbose]
    is given, and a note if anything was left out. *)
Definition dumped (g : setting) (o : options) (rs : list removal) (l : list out) : Prop :=
  exists sorted, Permutation sorted rs /\ ascending (map rm_span sorted) /\
  let sh := fun r => op_verbose o || match rm_outcome r with Passed => true | _ => false end in
  l = map (fun r => OLine (ARemoval r) (removal_line (g_env g) (print_opts_of o) r)) (filter sh sorted) ++
      (if existsb (fun r => negb (sh r)) rs
       then [OLine ANote ((if e_terminal (g_env g) then 27%N :: s2t "[1;32mNote" ++ 27%N :: s2t "[0m" else s2t "Note")
                            ++ s2t ": more output would be produced with --verbose")]
       else []).

(** ** Lemmas *)
Lemma light_proper v o : proper v (light_context o). Proof. exists o. left. reflexivity. Qed.

Lemma looks_not_quiet o f : acceptable o -> given o f -> prints_its_answer f -> op_quiet o = false.
Proof.
  intros [AC _] G P. destruct (op_quiet o) eqn:Q; [|reflexivity]. exfalso. exact (AC f quiet G Q (answer_unseen f P)).
Qed.

Lemma reaches_prepare g o sel k : root_ready g o k -> nothing_deprecated o -> ~ about_skill o ->
  exists root, g_root g (op_root o) = Some root /\ g_lock g root = true /\ invoke g o sel k = prepare_and_run hash16 default_toml g o sel root k.
Proof.
  intros [AC [root [c [R [L _]]]]] DP NS. exists root. split; [exact R|]. split; [exact L|].
  unfold necessist. apply accepted_iff in AC as PO. rewrite PO.
  destruct (op_check_skill o) eqn:CS; [destruct NS; left; unfold given; congruence|].
  destruct (op_find_skill o) eqn:FS; [destruct NS; right; exact FS|]. rewrite R, L. cbn [negb].
  assert (D : op_no_local_functions o && M_Main.denied o WOptionDeprecated = false).
  { unfold nothing_deprecated in DP. destruct (op_no_local_functions o); [|reflexivity]. cbn. apply denied_false, DP. reflexivity. }
  rewrite D. reflexivity.
Qed.

Lemma reads g o k : root_ready g o k -> exists c, read_config g k = Ok c.
Proof.
  intros [_ [root [c [_ [_ [ST C]]]]]]. exists c. unfold read_config. rewrite ST. cbn [negb].
  destruct (k_config k) as [t|]; [|congruence]. destruct C as [-> ->]. reflexivity.
Qed.

Lemma mode_alone o f h : acceptable o -> given o f -> P_Options.mode f -> P_Options.mode h -> f <> h -> ~ given o h.
Proof. intros AC F MF MH N H. exact (one_mode o f h AC F H MF MH N). Qed.

Lemma not_skill o f : acceptable o -> given o f -> P_Options.mode f -> f <> check_skill -> f <> find_skill -> ~ about_skill o.
Proof.
  intros AC F MF N1 N2 [H|H].
  - exact (one_mode o f check_skill AC F H MF I N1).
  - exact (one_mode o f find_skill AC F H MF I N2).
Qed.

Lemma dumping g o sel k : root_ready g o k -> nothing_deprecated o -> given o dump_ ->
  invoke g o sel k =
  let '(states, r) := open_db g o k in
  match r with
  | Err e => Answer states [] (Some []) (Err e)
  | Panic => Answer states [] (Some []) Panic
  | Ok past => let l := M_Output.dump (g_env g) (light_context (print_opts_of o)) (sort_removals past) in
               Answer states [] l (match l with Some _ => Ok true | None => Panic end)
  end.
Proof.
  intros RR ND G. pose proof (proj1 RR) as AC.
  destruct (reaches_prepare g o sel k RR ND) as [root [_ [_ ->]]].
  { apply (not_skill o dump_ AC G I); discriminate. }
  destruct (reads g o k RR) as [c RC]. unfold prepare_and_run.
  assert (DC : op_default_config o = false).
  { destruct (op_default_config o) eqn:E; [|reflexivity]. exfalso. refine (one_mode o dump_ M_Options.default_config AC G E I I _). discriminate. }
  rewrite DC, RC. unfold given in G. rewrite G.
  assert (NQ : op_no_sqlite o = false).
  { destruct (op_no_sqlite o) eqn:E; [|reflexivity]. exfalso. apply (proj1 AC dump_ no_sqlite); [exact G|exact E|]. apply database_unused. left. reflexivity. }
  rewrite NQ. reflexivity.
Qed.

Lemma looking g o sel k files : prepared g o sel k files -> nothing_deprecated o -> ~ about_skill o -> ~ given o M_Options.default_config -> ~ given o dump_ ->
  invoke g o sel k =
  if op_dump_candidates o then
    let '(l, r) := M_Output.dump_candidates (g_env g) (light_context (print_opts_of o)) (k_src k) files in
    Answer [] [] l (match l, r with
                    | None, _ => Panic | _, Panic => Panic | _, Err _ => Err tt | Some _, Ok _ => Ok true
                    end)
  else if op_dump_candidate_counts o then
    let l := M_Output.dump_candidate_counts (g_env g) (light_context (print_opts_of o)) files in
    Answer [] [] l (match l with Some _ => Ok true | None => Panic end)
  else main_run hash16 g o files k.
Proof.
  intros P DP NS ND NDU. assert (RR : root_ready g o k).
  { destruct P as [AC [root [c [f [paths [n [R [L [C _]]]]]]]]]. split; [exact AC|]. exists root, c. auto. }
  destruct (reaches_prepare g o sel k RR DP NS) as [root' [R' [_ ->]]].
  destruct P as [AC [root [c [f [paths [n [R [L [[ST C] [CF [GC [SF GP]]]]]]]]]]]].
  assert (root' = root) as -> by congruence.
  unfold prepare_and_run. unfold given in ND, NDU. destruct (op_default_config o); [destruct ND; reflexivity|].
  assert (RC : read_config g k = Ok c).
  { unfold read_config. rewrite ST. cbn [negb]. destruct (k_config k) as [t|]; [|congruence]. destruct C as [-> ->]. reflexivity. }
  rewrite RC. destruct (op_dump o); [destruct NDU; reflexivity|]. rewrite CF, GC. cbn [negb].
  apply C24_accepted_iff in SF. rewrite SF, GP. reflexivity.
Qed.

Lemma dump_spans_total v x contents ss : proper v x -> po_quiet (x_opts x) = false ->
  Forall (fun s => exists t, source_text (contents (sp_path s)) s = Ok t) ss -> exists l, dump_spans v x contents ss = (Some l, Ok tt).
Proof.
  intros P Q F. induction F as [|s ss [t T] F [l IH]]; [exists []; reflexivity|]. cbn [dump_spans]. rewrite T, (println_proper v x _ _ P), Q, IH.
  eexists. reflexivity.
Qed.

Lemma dump_spans_ok v x contents ss l : proper v x -> dump_spans v x contents ss = (l, Ok tt) -> exists l', l = Some l'.
Proof.
  intros P. revert l. induction ss as [|s ss IH]; intros l E; cbn [dump_spans] in E; [injection E as <-; eauto|].
  destruct (source_text _ _) as [t| |]; try discriminate. rewrite (println_proper v x _ _ P) in E.
  destruct (dump_spans v x contents ss) as [l1 r1]. injection E as <- ->. destruct (IH l1 eq_refl) as [l' ->]. eexists. reflexivity.
Qed.

Lemma cand_spans files : map c_span (all_cands files) = flat_map (fun f => stm_spans (snd f)) files.
Proof.
  unfold all_cands. induction files as [|f fl IH]; [reflexivity|]. simpl. rewrite map_app, stm_iter_spans.
  f_equal. clear -fl. induction fl as [|g fl IH]; [reflexivity|]. simpl. rewrite map_app, stm_iter_spans, IH. reflexivity.
Qed.

Lemma dumps_past g o past : op_quiet o = false -> NoDup (map rm_span past) ->
  exists l, M_Output.dump (g_env g) (light_context (print_opts_of o)) (sort_removals past) = Some l /\ dumped g o past l.
Proof.
  intros Q N. destruct (C17_dump (g_env g) (light_context (print_opts_of o)) past (light_proper _ _) N) as [sorted [S1 [S2 S3]]].
  eexists. split; [exact S3|]. exists sorted. split; [exact S1|]. split; [exact S2|]. cbv zeta.
  assert (SH : forall r, shown (x_opts (light_context (print_opts_of o))) r = op_verbose o || match rm_outcome r with Passed => true | _ => false end).
  { intros r. unfold shown. cbn. rewrite Q. destruct (op_verbose o); reflexivity. }
  rewrite (filter_ext _ _ SH). f_equal. 
  assert (EX : existsb (fun r => negb (shown (x_opts (light_context (print_opts_of o))) r)) past =
               existsb (fun r => negb (op_verbose o || match rm_outcome r with Passed => true | _ => false end)) past).
  { clear -SH. induction past as [|r past IH]; [reflexivity|]. cbn [existsb]. now rewrite SH, IH. }
  rewrite EX. cbn [light_context x_opts print_opts_of po_quiet]. rewrite Q. reflexivity.
Qed.

(** ** C66 *)
(** [--dump] prints the rows of the database and succeeds, if the rows can be read; without a database it fails. *)
Theorem C66_dump : forall g o sel k rows rs, root_ready g o k -> nothing_deprecated o -> given o dump_ -> g_sql g = all_ok ->
  k_db k = Some (Some rows) ->
  Forall2 (fun r x => parse_span (g_file_exists g) (r_span r) = Ok (rm_span x) /\ r_text r = rm_text x /\ r_outcome r = outcome_name (rm_outcome x)) rows rs ->
  NoDup (map rm_span rs) ->
  exit g o sel k = 0%N /\ exists l, a_out (invoke g o sel k) = Some l /\ dumped g o rs l.
Proof.
  intros g o sel k rows rs RR ND G SQ DB F N. rewrite (dumping g o sel k RR ND G).
  pose proof (looks_not_quiet o dump_ (proj1 RR) G (or_intror (or_introl eq_refl))) as Q.
  assert (RS : op_reset o = false).
  { destruct (op_reset o) eqn:E; [|reflexivity]. exfalso. refine (one_mode o dump_ reset (proj1 RR) G E I I _). discriminate. }
  assert (OD : exists states, open_db g o k = (states, Ok rs)).
  { unfold open_db. rewrite SQ, DB, RS. unfold given in G. rewrite G.
    destruct (C18_all_rows all_ok (g_file_exists g) (M_Main.denied o WDatabaseDoesNotExist) true (op_resume o) rows (or_introl eq_refl)) as [A1 A2].
    destruct A2 as [rs' E].
    { intros r I. clear -F I. induction F as [|r' x rows rs [P1 [P2 P3]] F IH]; [destruct I|]. destruct I as [<-|I]; [|apply IH, I]. eauto. }
    destruct (init _ _ _ _ _ _ _) as [states r] eqn:EI. cbn [snd] in *. subst r. specialize (A1 rs' eq_refl).
    assert (rs' = rs) as ->.
    { clear -F A1. revert rs' A1. induction F as [|r x rows rs [P1 [P2 P3]] F IH]; intros rs' A1; inversion A1 as [|? y ? l [Q1 [Q2 Q3]] A1']; subst; [reflexivity|].
      f_equal; [|apply IH, A1']. destruct x as [x1 x2 x3], y as [y1 y2 y3]. cbn in *. assert (outcome_name x3 = outcome_name y3) by congruence.
      f_equal; try congruence. destruct x3, y3; try reflexivity; discriminate. }
    eexists. reflexivity. }
  destruct OD as [states ->]. cbv zeta. destruct (dumps_past g o rs Q N) as [l [-> D]]. split; [reflexivity|]. exists l. split; [reflexivity|exact D].
Qed.

Theorem C66_dump_nothing : forall g o sel k, given o dump_ -> k_db k = None -> root_ready g o k -> exit g o sel k = 2%N /\ a_out (invoke g o sel k) = Some [].
Proof.
  intros g o sel k G DB RR. pose proof (proj1 RR) as AC. destruct (op_no_local_functions o && M_Main.denied o WOptionDeprecated) eqn:D.
  - destruct RR as [_ [root [c [R [L _]]]]]. unfold necessist. apply accepted_iff in AC as PO. rewrite PO.
    pose proof (not_skill o dump_ AC G I ltac:(discriminate) ltac:(discriminate)) as NS.
    destruct (op_check_skill o) eqn:CS; [destruct NS; left; unfold given; congruence|].
    destruct (op_find_skill o) eqn:FS; [destruct NS; right; exact FS|]. rewrite R, L. cbn [negb]. rewrite D. split; reflexivity.
  - assert (ND : nothing_deprecated o).
    { intros E H. apply denied_iff in H. rewrite E, H in D. discriminate. }
    rewrite (dumping g o sel k RR ND G). unfold open_db. rewrite DB. unfold given in G. rewrite G.
    destruct (C18_dump_no_create (g_sql g) (g_file_exists g) (M_Main.denied o WDatabaseDoesNotExist) (op_reset o) (op_resume o)) as [_ [e E]].
    destruct (init _ _ _ _ _ _ _) as [states r]. cbn [snd] in E. subst r. split; reflexivity.
Qed.

(** [--dump-candidates] succeeds exactly if the text of every candidate can be read, and then prints one line for each, in the order in
    which the candidates would be removed. *)
Theorem C66_candidates : forall g o sel k files, prepared g o sel k files -> nothing_deprecated o -> given o dump_candidates_ ->
  (exit g o sel k = 0%N <-> forall c, In c (all_cands files) -> exists t, source_text (k_src k (sp_path (c_span c))) (c_span c) = Ok t) /\
  (exit g o sel k = 0%N -> exists l, a_out (invoke g o sel k) = Some l /\
     Forall2 (fun c x => exists t, source_text (k_src k (sp_path (c_span c))) (c_span c) = Ok t /\
        x = OLine (ACandidate (c_span c)) (candidate_line (g_env g) (op_no_lines_or_columns o) (c_span c) t)) (all_cands files) l).
Proof.
  intros g o sel k files P ND G. pose proof (proj1 P) as AC.
  pose proof (looks_not_quiet o _ AC G (or_intror (or_intror (or_introl eq_refl)))) as Q.
  rewrite (looking g o sel k files P ND).
  2: { apply (not_skill o _ AC G I); discriminate. }
  2: { apply (mode_alone o dump_candidates_ M_Options.default_config AC G I I). discriminate. }
  2: { apply (mode_alone o dump_candidates_ dump_ AC G I I). discriminate. }
  unfold given in G. rewrite G. set (x := light_context (print_opts_of o)).
  assert (PX : proper (g_env g) x) by apply light_proper.
  destruct (M_Output.dump_candidates (g_env g) x (k_src k) files) as [l r] eqn:E.
  assert (OK : forall u, r = Ok u -> exists l', l = Some l' /\
    Forall2 (fun c x0 => exists t, source_text (k_src k (sp_path (c_span c))) (c_span c) = Ok t /\
        x0 = OLine (ACandidate (c_span c)) (candidate_line (g_env g) (op_no_lines_or_columns o) (c_span c) t)) (all_cands files) l').
  { intros [] ->. unfold M_Output.dump_candidates in E. destruct (dump_spans_ok _ _ _ _ _ PX E) as [l' ->]. exists l'. split; [reflexivity|].
    pose proof (C47_candidates (g_env g) x (k_src k) files l' PX Q E) as F. clear -F.
    remember (map c_span (all_cands files)) as ss eqn:ES. revert ES. generalize (all_cands files). induction F as [|s y ss l H F IH]; intros cs ES.
    - destruct cs; [constructor|discriminate].
    - destruct cs as [|c cs]; [discriminate|]. cbn in ES. injection ES as -> ES. constructor; [exact H|apply IH, ES]. }
  split; [split|].
  - intros X c Hc. assert (R0 : exists u, r = Ok u).
    { cbn in X. destruct l as [l0|]; [|discriminate]. destruct r as [u|e|]; try discriminate. eauto. }
    destruct R0 as [u ->]. destruct (OK u eq_refl) as [l' [_ F]]. clear -F Hc.
    induction F as [|c' y cs l [t [T _]] F IH]; [destruct Hc|]. destruct Hc as [<-|Hc]; [eauto|apply IH, Hc].
  - intros H. destruct (dump_spans_total (g_env g) x (k_src k) (flat_map (fun f => stm_spans (snd f)) files) PX Q) as [l' EL].
    { rewrite <- cand_spans. apply Forall_forall. intros s I. apply in_map_iff in I as [c [<- Hc]]. apply H, Hc. }
    unfold M_Output.dump_candidates in E. rewrite E in EL. injection EL as -> ->. reflexivity.
  - intros X. cbn in X. destruct l as [l0|] eqn:L0; [|discriminate]. destruct r as [u|e|]; try discriminate.
    destruct (OK u eq_refl) as [l' [EL F]]. exists l'. split; [cbn; exact EL|exact F].
Qed.

(** [--dump-candidate-counts] always succeeds: one line for each file, in ascending order of counts, with the numbers aligned. *)
Theorem C66_counts : forall g o sel k files, prepared g o sel k files -> nothing_deprecated o -> given o dump_candidate_counts_ ->
  exit g o sel k = 0%N /\
  exists counts width,
  Permutation counts (map (fun f => (length (stm_iter (snd f)), fst f)) files) /\
  counts_ascend counts /\
  a_out (invoke g o sel k) = Some (map (fun c => OLine (ACount (snd c))
     (repeat 32%N (width - length (print_usize (fst c))) ++ print_usize (fst c) ++ 32%N :: console_path (g_env g) (snd c))) counts) /\
  (forall c, In c counts -> length (print_usize (fst c)) <= width) /\
  list_sum (map fst counts) = length (all_cands files).
Proof.
  intros g o sel k files P ND G. pose proof (proj1 P) as AC.
  assert (PA : prints_its_answer dump_candidate_counts_) by (unfold prints_its_answer; tauto).
  pose proof (looks_not_quiet o _ AC G PA) as Q.
  rewrite (looking g o sel k files P ND).
  2: { apply (not_skill o _ AC G I); discriminate. }
  2: { apply (mode_alone o dump_candidate_counts_ M_Options.default_config AC G I I). discriminate. }
  2: { apply (mode_alone o dump_candidate_counts_ dump_ AC G I I). discriminate. }
  assert (NC : op_dump_candidates o = false).
  { destruct (op_dump_candidates o) eqn:E; [|reflexivity]. exfalso. refine (one_mode o dump_candidate_counts_ dump_candidates_ AC G E I I _). discriminate. }
  rewrite NC. unfold given in G. rewrite G. set (x := light_context (print_opts_of o)).
  destruct (C47_counts (g_env g) x files (light_proper _ _) Q) as [counts [width [C1 [C2 [C3 [C4 [C5 _]]]]]]].
  rewrite C3. split; [reflexivity|]. exists counts, width. split; [exact C1|]. split; [exact C2|]. split; [reflexivity|]. auto.
Qed.

(** After a completed run (or several, C62), [--dump --verbose] shows every candidate with its outcome. *)
Section After.
Context (src : path -> text) (files : list (path * span_test_maps)) (b : behaviour).
Hypothesis PR : project files.
Hypothesis NA : nameable files.
Hypothesis ASC : ascending (map c_span (all_cands files)).
Notation reachable := (reachable yaml semver vcmp vshow pshow builtin_skill builtin_version hash16 default_toml src files b).

Theorem C66_dump_after : forall g o sel k g' o' sel' k',
  reachable (k_db k) -> usual src files b g o sel k -> runs_tests o -> ~ given o no_sqlite -> exit g o sel k = 0%N ->
  k_db k' = k_db (final k (invoke g o sel k)) ->
  root_ready g' o' k' -> nothing_deprecated o' -> given o' dump_ -> g_sql g' = all_ok ->
  (forall c, In c (all_cands files) -> g_file_exists g' (sp_path (c_span c)) = true) ->
  exit g' o' sel' k' = 0%N /\
  exists all l, a_out (invoke g' o' sel' k') = Some l /\ dumped g' o' all l /\
    (forall x, In x all <-> exists c, In c (all_cands files) /\ is_row src b c x).
Proof.
  intros g o sel k g' o' sel' k' RD US RT NS X KD RR ND G SQ FE.
  destruct (C62_complete yaml semver vcmp vshow pshow builtin_skill builtin_version hash16 default_toml src files b PR NA ASC g o sel k RD US RT NS X) as [rows [all [D [F [N A]]]]].
  rewrite D in KD.
  destruct (C66_dump g' o' sel' k' rows all RR ND G SQ KD) as [E [l [EL DU]]]; [|exact N|].
  - assert (IN : forall x, In x all -> exists c, In c (all_cands files) /\ is_row src b c x) by (intros x I; apply A, I).
    clear -F IN NA PR FE. induction F as [|x r all rows R F IH]; constructor.
    + destruct (IN x (or_introl eq_refl)) as [c [Hc [S1 _]]]. destruct (NA c Hc) as [U C]. destruct (proj2 (proj2 PR) c Hc) as [W _].
      destruct R as [R1 [R2 R3]]. rewrite R1, R2, R3. split; [|split; [reflexivity|destruct (rm_outcome x); reflexivity]].
      apply parse_display; rewrite S1; auto.
    + apply IH. intros y I. apply IN. right. exact I.
  - split; [exact E|]. exists all, l. auto.
Qed.
End After.
End Look.
Print Assumptions C66_dump.
Print Assumptions C66_dump_nothing.
Print Assumptions C66_candidates.
Print Assumptions C66_counts.
Print Assumptions C66_dump_after.

(** The project of P_Run: what the three modes print before and after a run. *)
Definition look (counts cands : bool) : options := Options [] None false [] false counts cands false false false false false false false None None false false [] [].
Definition texts (l : option (list out)) : list text := match l with Some l => flat_map (fun x => match x with OLine _ t => [t] | _ => [] end) l | None => [] end.
Example C66_nonvacuous :
  let g := ex_setting ex_files_m ex_o in
  let k1 := final ex_start (ex_invoke g plain ex_start) in
  root_ready g with_dump k1 /\ nothing_deprecated with_dump /\ given with_dump dump_ /\
  prepared g (look false true) None ex_start ex_files_m /\ given (look false true) dump_candidates_ /\
  prepared g (look true false) None ex_start ex_files_m /\ given (look true false) dump_candidate_counts_ /\
  exit_code (ex_invoke g with_dump ex_start) = 2%N /\ exit_code (ex_invoke g with_dump k1) = 0%N /\
  texts (a_out (ex_invoke g with_dump k1)) =
    [s2t "t.rs:1:2-1:6: `.a()` passed"; s2t "t.rs:1:7-1:11: `b();` passed"; s2t "Note: more output would be produced with --verbose"] /\
  texts (a_out (ex_invoke g (look false true) ex_start)) = [s2t "t.rs:1:1-1:7: `x.a();`"; s2t "t.rs:1:7-1:11: `b();`"; s2t "t.rs:1:2-1:6: `.a()`"] /\
  texts (a_out (ex_invoke g (look true false) ex_start)) = [s2t "3 t.rs"].
Proof.
  cbv zeta. split; [|split; [intros; discriminate|split; [reflexivity|]]].
  { split; [apply accepted_iff; reflexivity|]. exists ex_root, toml_default. split; [reflexivity|]. split; [reflexivity|]. split; [vm_compute; reflexivity|]. vm_compute; reflexivity. }
  assert (G : forall a c, (a && c = false) -> prepared (ex_setting ex_files_m ex_o) (look a c) None ex_start ex_files_m).
  { intros a c E. split; [apply accepted_iff; destruct a, c; try discriminate E; reflexivity|]. exists ex_root, toml_default, Rust, [], 2.
    split; [reflexivity|]. split; [reflexivity|]. split; [split; reflexivity|]. split; [vm_compute; reflexivity|]. split; [reflexivity|]. split; [constructor|reflexivity]. }
  split; [apply G; reflexivity|]. split; [reflexivity|]. split; [apply G; reflexivity|]. split; [reflexivity|].
  repeat (split; [vm_compute; reflexivity|]). vm_compute; reflexivity.
Qed.
