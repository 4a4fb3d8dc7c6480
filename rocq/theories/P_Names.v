(** C93: how the source files are named on the command line does not matter, only which files these are. *)
From Verif Require Import Base M_Text M_Span M_Run S_Run M_Output M_Sqlite M_Options P_Options M_Config M_Visitor M_Directives M_Parsing P_Parsing M_Find P_Find M_Project
  M_Main P_Main P_Project S_Part P_Part P_Config.
From Verif Require M_Skill P_Skill.

(** ** Parsing *)
Section Parse.
Context (alphanumeric : char -> bool).
Context (fw : M_Visitor.framework) (own : builtin) (parse_file : path -> text -> option pfile) (denied : warning -> bool).
Context (root : path) (read : path -> option text) (is_dir is_file : path -> bool) (walk_dir : path -> list (option path)).
Notation parse := (parse alphanumeric fw own parse_file denied root read is_dir is_file walk_dir).
Notation visited := (visited root is_dir is_file walk_dir).
Notation walkable_dirs := (walkable_dirs root is_dir walk_dir).
Theorem C93_parse : (forall p, is_file p = true -> is_dir p = false) -> forall cfg sf sf', (forall f, In f (visited sf) <-> In f (visited sf')) -> (walkable_dirs sf -> walkable_dirs sf') ->
  forall ws n m, parse cfg sf = (ws, Ok (n, m)) -> exists ws' n', parse cfg sf' = (ws', Ok (n', m)).
Proof.
  intros FD cfg sf sf' V W ws n m H.
  destruct (proj1 (C39_succeeds_iff alphanumeric fw own parse_file denied root read is_dir is_file walk_dir cfg sf FD)) as [C [K A]]; [eauto|].
  destruct (proj2 (C39_succeeds_iff alphanumeric fw own parse_file denied root read is_dir is_file walk_dir cfg sf' FD)) as [ws' [n' [m' H']]].
  { split; [exact C|]. split; [exact (W K)|]. intros f I. apply A, V, I. }
  exists ws', n'. rewrite H'. rewrite (C39_only_the_set alphanumeric fw own parse_file denied root read is_dir is_file walk_dir cfg sf sf' ws ws' n n' m m' H H' V). reflexivity.
Qed.
End Parse.
Print Assumptions C93_parse.

(** ** Invocations *)
Section Main.
Context {V : Type} (yaml : text -> option M_Skill.header) (semver : text -> option V) (vcmp : V -> V -> comparison)
        (vshow : V -> text) (pshow : path -> text) (builtin_skill : text) (builtin_version : V).
Context (hash16 : text -> text) (default_toml : text).
Notation invoke := (necessist yaml semver vcmp vshow pshow builtin_skill builtin_version hash16 default_toml).
Context (alphanumeric : char -> bool) (denied : warning -> bool) (parser : M_Options.framework -> path -> text -> option pfile).
Context (anchor : finder) (ignored : path -> bool) (root : path) (tree : entry).

(** What the names [given] on the command line mean: the canonical paths [ps], all below the root [full]. *)
Definition mean (g : setting) (full : path) (given : list upath) (ps : list path) : Prop :=
  Forall2 (fun p q => exists f, means full p f /\ g_canon g f = Some q /\ P_Options.within full q) given ps.
(** The files that a search of [ps] looks at: those named, and those below the directories named (all of the root, if none is named). *)
Definition looked_at (f : M_Options.framework) (ps : list path) (q : path) : Prop :=
  In q (visited root (fs_is_dir root tree) (fs_is_file root tree) (walk_dir ignored root tree (M_Project.finder_of anchor f)) ps).
Definition searchable (f : M_Options.framework) (ps : list path) : Prop :=
  walkable_dirs root (fs_is_dir root tree) (walk_dir ignored root tree (M_Project.finder_of anchor f)) ps.
(** An invocation that comes to nothing: an error, nothing written, nothing run, nothing printed. *)
Definition came_to_nothing (a : answer) : Prop := a_states a = [] /\ a_trace a = [] /\ a_out a = Some [] /\ a_end a <> Ok true /\ a_end a <> Ok false.

Lemma nothing_err : came_to_nothing (done (Err tt)). Proof. repeat split; discriminate. Qed.
Lemma nothing_panic : came_to_nothing (done Panic). Proof. repeat split; discriminate. Qed.

(** C93: two invocations that differ only in how the source files are named, so that the same files are looked at, do exactly the same; or both come to nothing. *)
Theorem C93_invocation : forall g o o' sel k full ps ps',
  reads_with alphanumeric denied parser anchor ignored root tree g -> same_but_files o o' ->
  g_root g (op_root o) = Some full -> mean g full (op_source_files o) ps -> mean g full (op_source_files o') ps' ->
  (forall f, choose_framework (g_exists g) sel = Ok f -> (searchable f ps <-> searchable f ps') /\ forall q, looked_at f ps q <-> looked_at f ps' q) ->
  invoke g o' sel k = invoke g o sel k \/ (came_to_nothing (invoke g o sel k) /\ came_to_nothing (invoke g o' sel k)).
Proof.
  intros g o o' sel k full ps ps' RW SB GR FF FF' SAME. unfold same_but_files in SB. remember (op_source_files o') as sf eqn:X.
  match type of SB with o' = ?y => set (o2 := y) in SB end. clear X. subst o'. unfold mean in *.
  apply C24_accepted_iff in FF, FF'.
  assert (OD : open_db g o2 k = open_db g o k) by reflexivity. assert (PO : print_opts_of o2 = print_opts_of o) by reflexivity.
  assert (NQ : op_no_sqlite o2 = op_no_sqlite o) by reflexivity. assert (MR : forall files, main_run hash16 g o2 files k = main_run hash16 g o files k) by reflexivity.
  change (op_source_files o2) with sf in FF'.
  unfold necessist. change (process_options o2) with (process_options o). destruct (process_options o) as [u|e|]; [|left; reflexivity..].
  change (op_check_skill o2) with (op_check_skill o). destruct (op_check_skill o) as [c|]; [left; reflexivity|].
  change (op_find_skill o2) with (op_find_skill o). destruct (op_find_skill o); [left; reflexivity|].
  change (op_root o2) with (op_root o). rewrite GR. destruct (negb (g_lock g full)); [left; reflexivity|].
  change (op_no_local_functions o2) with (op_no_local_functions o). change (M_Main.denied o2) with (M_Main.denied o). destruct (op_no_local_functions o && M_Main.denied o WOptionDeprecated); [left; reflexivity|].
  unfold prepare_and_run. rewrite OD, PO, NQ. change (op_dump_candidates o2) with (op_dump_candidates o). change (op_dump_candidate_counts o2) with (op_dump_candidate_counts o).
  change (op_source_files o2) with sf. change (op_default_config o2) with (op_default_config o). destruct (op_default_config o); [left; reflexivity|].
  destruct (read_config g k) as [c|e|]; [|left; reflexivity..].
  change (op_dump o2) with (op_dump o). destruct (op_dump o); [left; reflexivity|].
  destruct (choose_framework (g_exists g) sel) as [f|e|]; [|left; reflexivity..]. specialize (SAME f eq_refl). destruct (negb _); [left; reflexivity|].
  rewrite FF, FF'.
  destruct SAME as [SW SV]. rewrite !RW. unfold project_parse.
  assert (FD : forall p, fs_is_file root tree p = true -> fs_is_dir root tree p = false) by (intros p; apply P_Find.file_not_dir).
  set (pa := parse alphanumeric (visitor_of f) (builtin_of f) (parser f) denied root (read_source root (k_src k)) (fs_is_dir root tree) (fs_is_file root tree) (walk_dir ignored root tree (M_Project.finder_of anchor f)) c).
  assert (P1 : forall ws n m, pa ps = (ws, Ok (n, m)) -> exists ws' n', pa ps' = (ws', Ok (n', m))) by (apply C93_parse; [exact FD|exact SV|apply SW]).
  assert (P2 : forall ws n m, pa ps' = (ws, Ok (n, m)) -> exists ws' n', pa ps = (ws', Ok (n', m))) by (apply C93_parse; [exact FD|intros q; symmetry; apply SV|apply SW]).
  clearbody pa. destruct (pa ps) as [ws [[n m]|e|]] eqn:E.
  - destruct (P1 _ _ _ eq_refl) as (ws' & n' & E'). rewrite E'. cbn [snd]. left. rewrite MR. reflexivity.
  - right. cbn [snd]. split; [apply nothing_err|]. destruct (pa ps') as [ws' [[n m]|e'|]]; [destruct (P2 _ _ _ eq_refl) as (w2 & n2 & E'); discriminate|apply nothing_err|apply nothing_panic].
  - right. cbn [snd]. split; [apply nothing_panic|]. destruct (pa ps') as [ws' [[n m]|e'|]]; [destruct (P2 _ _ _ eq_refl) as (w2 & n2 & E'); discriminate|apply nothing_err|apply nothing_panic].
Qed.

(** In particular, neither the order of the names matters, nor whether a file is named several times, nor which of several names is used. *)
Theorem C93_same_files : forall g o o' sel k full ps ps',
  reads_with alphanumeric denied parser anchor ignored root tree g -> same_but_files o o' ->
  g_root g (op_root o) = Some full -> mean g full (op_source_files o) ps -> mean g full (op_source_files o') ps' ->
  (forall q, In q ps <-> In q ps') ->
  invoke g o' sel k = invoke g o sel k \/ (came_to_nothing (invoke g o sel k) /\ came_to_nothing (invoke g o' sel k)).
Proof.
  intros g o o' sel k full ps ps' RW SB GR FF FF' SAME. apply (C93_invocation g o o' sel k full ps ps' RW SB GR FF FF'). intros f CF.
  assert (X : forall q, In q (match ps with [] => [root] | _ => ps end) <-> In q (match ps' with [] => [root] | _ => ps' end)).
  { destruct ps as [|a ps], ps' as [|a' ps']; try exact SAME; [intros q; reflexivity|destruct (proj2 (SAME a') (or_introl eq_refl))|destruct (proj1 (SAME a) (or_introl eq_refl))]. }
  split.
  - unfold searchable, walkable_dirs. split; intros H s I; apply H, X, I.
  - intros q. unfold looked_at, visited. rewrite !in_flat_map. split; intros (s & I & J); exists s; (split; [apply X, I|exact J]).
Qed.

(** Nor whether files are named that are looked at anyway, because they are below a directory that is named, too. *)
Theorem C93_below : forall g o o' sel k full ps more,
  reads_with alphanumeric denied parser anchor ignored root tree g -> same_but_files o o' ->
  g_root g (op_root o) = Some full -> mean g full (op_source_files o) ps -> mean g full (op_source_files o') (ps ++ more) -> ps <> [] ->
  (forall q, In q more -> fs_is_file root tree q = true /\ forall f, choose_framework (g_exists g) sel = Ok f -> looked_at f ps q) ->
  invoke g o' sel k = invoke g o sel k \/ (came_to_nothing (invoke g o sel k) /\ came_to_nothing (invoke g o' sel k)).
Proof.
  intros g o o' sel k full ps more RW SB GR FF FF' NE MO. apply (C93_invocation g o o' sel k full ps (ps ++ more) RW SB GR FF FF'). intros f CF.
  assert (E1 : (match ps with [] => [root] | _ => ps end) = ps) by (destruct ps; congruence).
  assert (E2 : (match ps ++ more with [] => [root] | _ => ps ++ more end) = ps ++ more) by (destruct ps; [congruence|reflexivity]).
  unfold searchable, walkable_dirs, looked_at, visited in *. rewrite E1, E2 in *. split.
  - split; intros H s I D; [|apply H; [apply in_app_iff; left; exact I|exact D]]. apply in_app_iff in I as [I|I]; [apply H; assumption|].
    destruct (MO s I) as [F _]. apply P_Find.file_not_dir in F. congruence.
  - intros q. rewrite flat_map_app, in_app_iff. split; [tauto|]. intros [I|I]; [exact I|]. apply in_flat_map in I as (s & I & J). destruct (MO s I) as [F L].
    unfold files_in in J. rewrite (P_Find.file_not_dir _ _ _ F), F in J. destruct J as [<-|[]]. exact (L f CF).
Qed.

(** The same for directories: whatever is named besides, if it can be searched and has no other files, makes no difference. *)
Theorem C93_within : forall g o o' sel k full ps more,
  reads_with alphanumeric denied parser anchor ignored root tree g -> same_but_files o o' ->
  g_root g (op_root o) = Some full -> mean g full (op_source_files o) ps -> mean g full (op_source_files o') (ps ++ more) -> ps <> [] ->
  (forall q f, In q more -> choose_framework (g_exists g) sel = Ok f -> searchable f [q] /\ forall x, looked_at f [q] x -> looked_at f ps x) ->
  invoke g o' sel k = invoke g o sel k \/ (came_to_nothing (invoke g o sel k) /\ came_to_nothing (invoke g o' sel k)).
Proof.
  intros g o o' sel k full ps more RW SB GR FF FF' NE MO. apply (C93_invocation g o o' sel k full ps (ps ++ more) RW SB GR FF FF'). intros f CF.
  assert (E1 : (match ps with [] => [root] | _ => ps end) = ps) by (destruct ps; congruence).
  assert (E2 : (match ps ++ more with [] => [root] | _ => ps ++ more end) = ps ++ more) by (destruct ps; [congruence|reflexivity]).
  unfold searchable, walkable_dirs, looked_at, visited in *. rewrite E1, E2 in *. split.
  - split; intros H s I D; [|apply H; [apply in_app_iff; left; exact I|exact D]]. apply in_app_iff in I as [I|I]; [apply H; assumption|].
    exact (proj1 (MO s f I CF) s (or_introl eq_refl) D).
  - intros q. rewrite flat_map_app, in_app_iff. split; [tauto|]. intros [I|I]; [exact I|]. apply in_flat_map in I as (s & I & J).
    apply (proj2 (MO s f I CF) q). cbn [flat_map]. rewrite app_nil_r. exact J.
Qed.

(** Naming the root is naming nothing. *)
Theorem C93_root : forall g o o' sel k,
  reads_with alphanumeric denied parser anchor ignored root tree g -> same_but_files o o' ->
  g_root g (op_root o) = Some root -> op_source_files o = [] -> mean g root (op_source_files o') [root] ->
  invoke g o' sel k = invoke g o sel k \/ (came_to_nothing (invoke g o sel k) /\ came_to_nothing (invoke g o' sel k)).
Proof.
  intros g o o' sel k RW SB GR NO ME. assert (ME0 : mean g root (op_source_files o) []) by (rewrite NO; constructor).
  apply (C93_invocation g o o' sel k root [] [root] RW SB GR ME0 ME). intros f CF. unfold searchable, walkable_dirs, looked_at, visited. split; reflexivity.
Qed.
End Main.
Print Assumptions C93_root.
Print Assumptions C93_invocation.
Print Assumptions C93_same_files.
Print Assumptions C93_below.
Print Assumptions C93_within.

(** ** An example: the project of C84; one of its two files named twice; and the root named, with and without one of its files. *)
Definition nm_means (given : list upath) (ps : list path) : Prop := mean v_setting ex_root given ps.
Definition nm_ends (given : list upath) : res unit bool * nat :=
  let a := ex_invoke v_setting (v_plain given) v_start in (a_end a, length (consoles (a_trace a))).
Definition nm_u : upath := UPath false [s2t "u.rs"].
Definition nm_root : upath := UPath false [].
Example C93_nonvacuous :
  reads_with ascii_alphanumeric (fun _ => false) v_parser find_anchor_mocha (fun _ => false) ex_root v_entry v_setting /\
  (forall l l', same_but_files (v_plain l) (v_plain l')) /\
  nm_means [nm_u] [ex_root ++ v_path] /\ nm_means [nm_u; nm_u] [ex_root ++ v_path; ex_root ++ v_path] /\
  nm_means [nm_root] [ex_root] /\ nm_means [nm_root; nm_u] ([ex_root] ++ [ex_root ++ v_path]) /\
  choose_framework (g_exists v_setting) None = Ok Rust /\ fs_is_file ex_root v_entry (ex_root ++ v_path) = true /\ looked_at find_anchor_mocha (fun _ => false) ex_root v_entry Rust [ex_root] (ex_root ++ v_path) /\
  nm_ends [nm_u] = (Ok true, 3) /\ nm_ends [nm_u; nm_u] = (Ok true, 3) /\ nm_ends [nm_root] = (Ok true, 6) /\ nm_ends [nm_root; nm_u] = (Ok true, 6).
Proof.
  assert (U : exists f, means ex_root nm_u f /\ g_canon v_setting f = Some (ex_root ++ v_path) /\ P_Options.within ex_root (ex_root ++ v_path)).
  { exists (ex_root ++ v_path). split; [right; split; reflexivity|]. split; [reflexivity|]. exists v_path. reflexivity. }
  assert (R : exists f, means ex_root nm_root f /\ g_canon v_setting f = Some ex_root /\ P_Options.within ex_root ex_root).
  { exists ex_root. split; [right; split; [reflexivity|symmetry; apply app_nil_r]|]. split; [reflexivity|]. exists []. symmetry. apply app_nil_r. }
  split; [intros f c ps src; reflexivity|]. split; [intros l l'; reflexivity|].
  split; [constructor; [exact U|constructor]|]. split; [constructor; [exact U|constructor; [exact U|constructor]]|].
  split; [constructor; [exact R|constructor]|]. split; [constructor; [exact R|constructor; [exact U|constructor]]|].
  split; [vm_compute; reflexivity|]. split; [vm_compute; reflexivity|]. split; [vm_compute; auto|]. do 3 (split; [vm_compute; reflexivity|]). vm_compute. reflexivity.
Qed.
Example C93_within_nonvacuous :
  searchable find_anchor_mocha (fun _ => false) ex_root v_entry Rust [ex_root ++ v_path] /\
  looked_at find_anchor_mocha (fun _ => false) ex_root v_entry Rust [ex_root ++ v_path] (ex_root ++ v_path) /\
  (forall x, looked_at find_anchor_mocha (fun _ => false) ex_root v_entry Rust [ex_root ++ v_path] x ->
     looked_at find_anchor_mocha (fun _ => false) ex_root v_entry Rust [ex_root] x).
Proof.
  split; [|split].
  - intros s [<-|[]] D. vm_compute in D. discriminate.
  - vm_compute. auto.
  - intros x I. vm_compute in I. destruct I as [<-|[]]. vm_compute. auto.
Qed.

Example C93_root_nonvacuous :
  g_root v_setting (op_root (v_plain [])) = Some ex_root /\ op_source_files (v_plain []) = [] /\ nm_means (op_source_files (v_plain [nm_root])) [ex_root] /\
  nm_ends [] = (Ok true, 6) /\ nm_ends [nm_root] = (Ok true, 6).
Proof.
  split; [vm_compute; reflexivity|]. split; [reflexivity|]. split; [exact (proj1 (proj2 (proj2 (proj2 (proj2 C93_nonvacuous)))))|].
  split; vm_compute; reflexivity.
Qed.
