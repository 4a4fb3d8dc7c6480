(** What necessist prints: C17, C20, C21, C22, C47, C54. *)
From Verif Require Import Base M_Text M_Rewriter M_Span M_Run S_Run M_Output S_Output L_Output L_Progress L_RunFinal P_Run.
From Coq Require Import Permutation.

(** ** C20 *)
(** After any history, for any warning: denied is an error and nothing is printed; not denied
    is never an error; allowed or quiet prints nothing; otherwise exactly one line, which starts with the
    source and contains the message, appears, unless the once flag is given and the kind has appeared before. *)
Theorem C20_deny_allow : forall v pre m outs x w source msg once,
  (forall y op, In (y, op) pre -> proper v y) -> proper v x -> w <> WAll ->
  do_ops v wmap_empty pre = (m, outs) ->
  exists m' l r, do_op v x m (OpWarn w source msg once) = (m', l, r) /\
  (denied (x_opts x) w -> l = Some [] /\ exists e, r = Err e) /\
  (~ denied (x_opts x) w -> r = Ok tt) /\
  (~ denied (x_opts x) w -> allowed (x_opts x) w \/ po_quiet (x_opts x) = true -> l = Some []) /\
  (~ denied (x_opts x) w -> ~ allowed (x_opts x) w -> po_quiet (x_opts x) = false ->
   once = false \/ ~ appeared w outs ->
   exists bug advice, l = Some [OLine (AWarning w) (warning_line v w source msg bug advice)]).
Proof.
  intros v pre m outs x w source msg once P Px Hw E.
  destruct (warn_after v pre x w source msg once m outs P Px Hw E) as [m' [l [r [rb [ab [E' [Ha [_ He]]]]]]]].
  exists m', l, r. split; [exact E'|]. unfold warn_effect in He. destruct He as [H1 [H2 [H3 H4]]].
  split; [|split; [exact H2|split; [exact H3|]]].
  - intros D. destruct (H1 D) as [-> ->]. split; [reflexivity|eauto].
  - intros D A Q O. rewrite (H4 D A Q).
    assert (once && ab = false) as ->.
    { destruct O as [->|O]; [reflexivity|]. destruct ab; [exfalso; apply O, Ha; reflexivity|apply andb_false_r]. }
    eauto.
Qed.
Print Assumptions C20_deny_allow.

Definition ex_env : env := Env false true (Some [s2t "r"]) [s2t "r"; s2t "p"].
Definition ex_opts (allow deny : list warning) (quiet verbose : bool) : print_opts := PrintOpts allow deny quiet verbose false.
Definition ex_warn o w once : context * print_op := (light_context o, OpWarn w None (s2t "m") once).
Definition ex_outs ops := snd (do_ops ex_env wmap_empty ops).

Example C20_nonvacuous :
  ex_outs [ex_warn (ex_opts [WAll] [WDryRunFailed] false false) WDryRunFailed false] = [(Some [], Err (s2t "m"))] /\
  ex_outs [ex_warn (ex_opts [WAll] [WDryRunFailed] false false) WParsingFailed false] = [(Some [], Ok tt)] /\
  ex_outs [ex_warn (ex_opts [] [] false false) WParsingFailed false] =
    [(Some [OLine (AWarning WParsingFailed) (s2t "Warning: m" ++ NL :: s2t "Silence this warning with: --allow parsing-failed")], Ok tt)] /\
  proper ex_env (light_context (ex_opts [] [] false false)).
Proof. split; [|split; [|split]]; try (vm_compute; reflexivity). exists (ex_opts [] [] false false). left. reflexivity. Qed.

(** Warnings are told apart by the names the advice mentions. *)
Theorem C20_names_distinct : forall a b, warning_name a = warning_name b -> a = b.
Proof. intros a b; destruct a, b; intros E; try reflexivity; vm_compute in E; discriminate E. Qed.
Print Assumptions C20_names_distinct.

(** These names. *)
Theorem C20_names : forall w, warning_name w = s2t (warning_word w).
Proof. exact warning_name_word. Qed.
Print Assumptions C20_names.

(** ** C21 *)
(** Exactly when the request to report a bug and the advice on silencing are part of a printed warning:
    the former the first time a suspicious kind is raised, the latter the first time the kind appears. *)
Theorem C21_exact : forall v pre m outs x w source msg once,
  (forall y op, In (y, op) pre -> proper v y) -> proper v x -> w <> WAll ->
  ~ denied (x_opts x) w -> ~ allowed (x_opts x) w -> po_quiet (x_opts x) = false ->
  do_ops v wmap_empty pre = (m, outs) ->
  exists m' l bug advice, do_op v x m (OpWarn w source msg once) = (m', Some l, Ok tt) /\
  (advice = true <-> ~ appeared w outs) /\
  (bug = true <-> suspicious w /\ ~ raised w pre) /\
  ((once = true /\ appeared w outs /\ l = []) \/
   (~ (once = true /\ appeared w outs) /\ l = [OLine (AWarning w) (warning_line v w source msg bug advice)])).
Proof.
  intros v pre m outs x w source msg once P Px Hw D A Q E.
  destruct (warn_after v pre x w source msg once m outs P Px Hw E) as [m' [l [r [rb [ab [E' [Ha [Hr He]]]]]]]].
  unfold warn_effect in He. destruct He as [_ [H2 [_ H4]]]. rewrite (H2 D), (H4 D A Q) in E'.
  exists m', (if once && ab then [] else [OLine (AWarning w) (warning_line v w source msg (may_be_bug w && negb rb) (negb ab))]),
    (may_be_bug w && negb rb), (negb ab).
  split; [exact E'|]. split; [|split].
  - destruct ab; simpl; intuition discriminate.
  - rewrite andb_true_iff, may_be_bug_b, negb_true_iff. split.
    + intros [S R]. split; [exact S|]. rewrite <- (Hr S), R. discriminate.
    + intros [S R]. split; [exact S|]. apply (bool_iff _ _ (Hr S)). exact R.
  - destruct once, ab; simpl; [left|right|right|right]; intuition discriminate.
Qed.
Print Assumptions C21_exact.

(** A kind raised only with the once flag appears at most once in the whole process. *)
Theorem C21_once_at_most_once : forall v ops w, w <> WAll ->
  (forall x op, In (x, op) ops -> proper v x) ->
  (forall x s t b, In (x, OpWarn w s t b) ops -> b = true) ->
  length (warning_lines w (stdout (snd (do_ops v wmap_empty ops)))) <= 1.
Proof.
  intros v ops w Hw P O. apply (once_once v w ops Hw [] [] wmap_empty inv_nil P O). simpl. lia.
Qed.
Print Assumptions C21_once_at_most_once.

Example C21_nonvacuous :
  let o := ex_opts [] [] false false in
  map (fun r => match fst r with Some l => warning_lines WRunTestFailed l | None => [] end)
    (ex_outs [ex_warn o WFilesChanged true; ex_warn o WFilesChanged true; ex_warn o WRunTestFailed false; ex_warn o WRunTestFailed false]) =
    [[]; []; [warning_line ex_env WRunTestFailed None (s2t "m") true true]; [s2t "Warning: m"]] /\
  length (warning_lines WFilesChanged (stdout (ex_outs [ex_warn o WFilesChanged true; ex_warn o WFilesChanged true]))) = 1.
Proof. split; vm_compute; reflexivity. Qed.

(** ** C22 *)
Theorem C22_quiet : forall v m ops,
  (forall x op, In (x, op) ops -> proper v x /\ po_quiet (x_opts x) = true) ->
  stdout (snd (do_ops v m ops)) = [].
Proof. intros v m ops H. apply quiet_ops, H. Qed.
Print Assumptions C22_quiet.

(** Nor does printing ever panic: the progress printer is only used when there is a bar. *)
Theorem C22_printer_total : forall v x a msg, proper v x -> exists l, println x a msg = Some l.
Proof. intros v x a msg P. rewrite (println_proper v x a msg P). eauto. Qed.
Print Assumptions C22_printer_total.

Definition ex_ops (o : print_opts) : list (context * print_op) :=
  let x := run_context (Env true false None [s2t "r"]) o in
  [(x, OpWarn WFilesChanged None (s2t "m") true); (x, OpNote (s2t "n")); (x, OpRemoval (ex_row ex_s1));
   (x, OpDump [ex_row ex_s2]); (x, OpPrintln (s2t "t.rs: dry running")); (x, OpBar 3)].
Example C22_nonvacuous :
  let v := Env true false None [s2t "r"] in
  stdout (snd (do_ops v wmap_empty (ex_ops (ex_opts [] [] true false)))) = [] /\
  length (stdout (snd (do_ops v wmap_empty (ex_ops (ex_opts [] [] false false))))) = 6.
Proof. split; vm_compute; reflexivity. Qed.

(** ** C17 *)
(** In a process, whatever else it prints, the removal lines are those of the removals it was to report, in
    order, filtered by the options, each formatted as [removal_line] says. *)
Theorem C17_removal_lines : forall v o m ops,
  (forall x op, In (x, op) ops -> proper v x /\ x_opts x = o) ->
  removal_lines (stdout (snd (do_ops v m ops))) =
  map (removal_line v o) (filter (shown o) (flat_map (fun e => asked (snd e)) ops)).
Proof. intros. apply process_removal_lines; assumption. Qed.
Print Assumptions C17_removal_lines.

(** Files are named as the current directory suggests, unambiguously so. *)
Theorem C17_file_name : forall v p, file_name v p (console_path v p) /\ forall t, file_name v p t -> t = console_path v p.
Proof. intros v p. split; [apply console_path_spec|]. intros t H. exact (file_name_unique v p _ _ H (console_path_spec v p)). Qed.
Print Assumptions C17_file_name.

(** The removals a run reports: each is a candidate with its text and a justified outcome. *)
Theorem C17_run : forall hash16 contents orc files fs db v o m ops, paths_ok files ->
  let tr := w_trace (fst (run_from hash16 contents orc files fs db)) in
  (forall x op, In (x, op) ops -> proper v x /\ x_opts x = o) ->
  flat_map (fun e => asked (snd e)) ops = consoles tr ->
  exists reported,
    removal_lines (stdout (snd (do_ops v m ops))) = map (removal_line v o) reported /\
    reported = filter (shown o) (consoles tr) /\
    forall r, In r reported -> exists c, In c (all_cands files) /\ row_of contents orc tr c r.
Proof.
  intros hash16 contents orc files fs db v o m ops PO tr H E.
  exists (filter (shown o) (consoles tr)). split; [|split; [reflexivity|]].
  - rewrite (process_removal_lines v o ops m H), E. reflexivity.
  - intros r I. apply filter_In in I as [I _].
    apply (reported_justified hash16 contents orc files fs db PO). left.
    unfold consoles in I. apply in_flat_map in I as [e [I J]]. apply in_rev in I.
    destruct e; simpl in J; try contradiction. destruct J as [<-|[]]. exact I.
Qed.
Print Assumptions C17_run.

(** --dump prints all recorded removals the options ask for, in span order, and a note iff some are left out. *)
Theorem C17_dump : forall v x rows, proper v x -> NoDup (map rm_span rows) ->
  exists sorted, Permutation sorted rows /\ ascending (map rm_span sorted) /\
  dump v x (past_of (Some rows)) =
  Some (map (fun r => OLine (ARemoval r) (removal_line v (x_opts x) r)) (filter (shown (x_opts x)) sorted) ++
        (if negb (po_quiet (x_opts x)) && existsb (fun r => negb (shown (x_opts x) r)) rows
         then [OLine ANote ((if e_terminal v then 27%N :: s2t "[1;32mNote" ++ 27%N :: s2t "[0m" else s2t "Note")
                              ++ s2t ": more output would be produced with --verbose")]
         else [])).
Proof.
  intros v x rows P N. exists (sort_removals rows). split; [apply sort_perm|]. split.
  - pose proof (L_Resume.sort_sorted rows N) as S.
    induction S as [|a l S IH F]; [exact I|]. destruct l as [|b l]; [exact I|]. split; [|exact IH].
    inversion F; subst. assumption.
  - simpl past_of. rewrite (dump_spec v x _ P). do 2 f_equal.
    assert (existsb (fun r => negb (shown (x_opts x) r)) (sort_removals rows) =
            existsb (fun r => negb (shown (x_opts x) r)) rows) as ->; [|reflexivity].
    apply eq_true_iff_eq. rewrite !existsb_exists. split; intros [r [I B]]; exists r; (split; [|exact B]); apply (in_sort r rows); exact I.
Qed.
Print Assumptions C17_dump.

Example C17_nonvacuous :
  removal_lines (stdout (ex_outs [(light_context (ex_opts [] [] false false),
    OpDump (past_of (Some [Removal ex_s2 (s2t "b();") Passed; Removal ex_s1 (s2t "x.a();" ++ [CR]) Failed])))])) =
    [s2t "p/t.rs:1:7-1:11: `b();` passed"] /\
  removal_lines (stdout (ex_outs [(light_context (ex_opts [] [] false true),
    OpDump (past_of (Some [Removal ex_s2 (s2t "b();") Passed; Removal ex_s1 (s2t "x.a();" ++ [CR]) Failed])))])) =
    [s2t "p/t.rs:1:1-1:7: `x.a();` failed"; s2t "p/t.rs:1:7-1:11: `b();` passed"].
Proof. split; vm_compute; reflexivity. Qed.

(** ** C47 *)
(** --dump-candidates prints one line per candidate, file by file, statements before method
    calls, with the candidate's own text. *)
Theorem C47_candidates : forall v x contents files l, proper v x -> po_quiet (x_opts x) = false ->
  dump_candidates v x contents files = (Some l, Ok tt) ->
  Forall2 (fun s o => exists t, source_text (contents (sp_path s)) s = Ok t /\
     o = OLine (ACandidate s) (console_path v (sp_path s) ++
        (if po_no_lines_or_columns (x_opts x) then []
         else s2t ":" ++ print_usize (line (sp_start s)) ++ s2t ":" ++ print_usize (column (sp_start s) + 1)
           ++ s2t "-" ++ print_usize (line (sp_end s)) ++ s2t ":" ++ print_usize (column (sp_end s) + 1))
        ++ s2t ": `" ++ without_cr t ++ s2t "`")) (map c_span (all_cands files)) l.
Proof.
  intros v x contents files l P Q E.
  assert (map c_span (all_cands files) = flat_map (fun f => stm_spans (snd f)) files) as ->.
  { unfold all_cands. induction files as [|f fl IH]; [reflexivity|]. simpl. rewrite map_app, stm_iter_spans.
    f_equal. clear -fl. induction fl as [|g fl IH]; [reflexivity|]. simpl. rewrite map_app, stm_iter_spans, IH. reflexivity. }
  exact (candidates_lines v x contents _ l P Q E).
Qed.
Print Assumptions C47_candidates.

(** --dump-candidate-counts prints one line per file, ascending, numbers right-aligned to the widest; they add up to
    the number of candidates, which is the number of lines --dump-candidates prints. *)
Theorem C47_counts : forall v x files, proper v x -> po_quiet (x_opts x) = false ->
  exists counts width,
  Permutation counts (map (fun f => (length (stm_iter (snd f)), fst f)) files) /\
  counts_ascend counts /\
  dump_candidate_counts v x files = Some (map (fun c => OLine (ACount (snd c))
     (repeat 32%N (width - length (print_usize (fst c))) ++ print_usize (fst c) ++ 32%N :: console_path v (snd c))) counts) /\
  (forall c, In c counts -> length (print_usize (fst c)) <= width) /\
  list_sum (map fst counts) = length (all_cands files) /\
  (forall contents l, dump_candidates v x contents files = (Some l, Ok tt) -> length l = list_sum (map fst counts)).
Proof.
  intros v x files P Q. exists (count_sort (map file_count files)).
  eexists. 
  assert (EF : map file_count files = map (fun f => (length (stm_iter (snd f)), fst f)) files).
  { apply map_ext. intros f. unfold file_count, stm_iter. rewrite app_length, !map_length. reflexivity. }
  assert (ES : list_sum (map fst (count_sort (map file_count files))) = length (all_cands files)).
  { rewrite (list_sum_perm _ (map fst (map file_count files))) by (apply Permutation_map, count_sort_perm).
    rewrite <- total_spans. unfold all_cands. clear. induction files as [|f fl IH]; [reflexivity|]. simpl.
    rewrite !app_length, <- stm_iter_spans, map_length. f_equal. exact IH. }
  split; [rewrite <- EF; apply count_sort_perm|]. split; [apply count_sort_ascend|].
  split; [rewrite (counts_lines v x files P Q); unfold right_align; f_equal; apply map_ext; intros c; rewrite <- app_assoc; reflexivity|].
  split; [|split; [exact ES|]].
  - intros c I. generalize (count_sort (map file_count files)) c I. clear.
    induction l as [|d l IH]; intros c I; [destruct I|]. simpl. destruct I as [->|I]; [lia|]. specialize (IH c I). lia.
  - intros contents l E. apply C47_candidates in E; try assumption. apply Forall2_len in E.
    rewrite <- E, map_length, ES. reflexivity.
Qed.
Print Assumptions C47_counts.

(** The announced number counts a candidate once per test: it equals the number of candidates iff every
    candidate has exactly one test. *)
Theorem C47_announced : forall files, (forall c, In c (all_cands files) -> c_tests c <> []) ->
  length (all_cands files) <= n_spans files /\
  (n_spans files = length (all_cands files) <-> forall c, In c (all_cands files) -> length (c_tests c) = 1).
Proof.
  intros files H. rewrite n_spans_cands.
  assert (H' : forall c, In c (all_cands files) -> 1 <= length (c_tests c)).
  { intros c I. specialize (H c I). destruct (c_tests c); [congruence|simpl; lia]. }
  split; [apply (sum_ge (fun c => length (c_tests c))), H'|apply (sum_eq (fun c => length (c_tests c))), H'].
Qed.
Print Assumptions C47_announced.

(** The announcement: nouns in the plural unless there is exactly one. *)
Definition counted (n : nat) (noun : string) : text := print_usize n ++ s2t " " ++ s2t noun ++ (match n with 1 => [] | _ => s2t "s" end).
Theorem C47_announcement : forall spans tests files,
  announcement spans tests files = print_usize spans ++ s2t " candidates in " ++ counted tests "test" ++ s2t " in " ++ counted files "source file".
Proof.
  intros spans tests files. unfold announcement, counted.
  assert (P : forall n, (if Nat.eqb n 1 then [] else s2t "s") = match n with 1 => [] | _ => s2t "s" end) by (intros [|[|n]]; reflexivity).
  rewrite !P, <- !app_assoc. reflexivity.
Qed.
Print Assumptions C47_announcement.

(** So the announced number is not the number of candidates. *)
Theorem C47_announced_refuted : exists files, (forall c, In c (all_cands files) -> c_tests c <> []) /\
  n_spans files <> length (all_cands files).
Proof. exists ex_files_m. split; [intros c [<-|[<-|[<-|[]]]]; discriminate|vm_compute; discriminate]. Qed.
Print Assumptions C47_announced_refuted.

Example C47_nonvacuous :
  dump_candidate_counts ex_env (light_context (ex_opts [] [] false false)) (ex_files_m ++ [([s2t "u.rs"], STM [(ex_s1, ex_tests)] [])]) =
  Some [OLine (ACount [s2t "u.rs"]) (s2t "1 p/u.rs"); OLine (ACount ex_path) (s2t "3 p/t.rs")] /\
  dump_candidates ex_env (light_context (ex_opts [] [] false false)) ex_disk ex_files_m =
  (Some [OLine (ACandidate ex_s1) (s2t "p/t.rs:1:1-1:7: `x.a();`"); OLine (ACandidate ex_s2) (s2t "p/t.rs:1:7-1:11: `b();`");
         OLine (ACandidate ex_m1) (s2t "p/t.rs:1:2-1:6: `.a()`")], Ok tt).
Proof. split; vm_compute; reflexivity. Qed.

(** ** C54 *)
(** The progress bar never moves past the number of candidates and ends exactly there when the run completes,
    whatever was skipped, recorded before, or failed its dry run. *)
Theorem C54_progress : forall hash16 contents o files fs db,
  w_progress (fst (run_from hash16 contents o files fs db)) <= length (all_cands files) /\
  (snd (run_from hash16 contents o files fs db) = Ok tt ->
   w_progress (fst (run_from hash16 contents o files fs db)) = length (all_cands files)).
Proof. exact progress_run. Qed.
Print Assumptions C54_progress.

(** Hence it does not fill up when some candidate has two tests: its length is the announced number. *)
Theorem C54_full_refuted : exists hash16 contents o files fs db,
  snd (run_from hash16 contents o files fs db) = Ok tt /\
  w_progress (fst (run_from hash16 contents o files fs db)) < n_spans files.
Proof.
  exists ex_hash, ex_disk, ex_o, ex_files_m, ex_disk, (Some []). split; vm_compute; [reflexivity|repeat constructor].
Qed.
Print Assumptions C54_full_refuted.

Example C54_nonvacuous :
  snd (ex_run ex_o ex_files_m (Some [Removal ex_s1 (s2t "x.a();") Failed])) = Ok tt /\
  w_progress (fst (ex_run ex_o ex_files_m (Some [Removal ex_s1 (s2t "x.a();") Failed]))) = 3.
Proof. split; vm_compute; reflexivity. Qed.
