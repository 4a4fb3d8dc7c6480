(** Property theorem C39_warnings: what necessist warns of while it parses. *)
From Verif Require Import Base M_Text S_Text M_Rewriter M_Span S_Span L_Span M_Run S_Run M_Output M_Visitor S_Visitor S_Candidates S_Walk L_Visitor L_VisitorMaps
  L_VisitorTotal L_Candidates M_Config L_Config P_Config M_Directives S_Directives L_Directives P_Directives M_Parsing P_Sqlite P_Visitor L_Run P_Parsing.
Local Open Scope list_scope.

Lemma result_det E r st st' : result E r st -> result E r st' -> st = st'.
Proof.
  intros (n & Hn) (m & Hm). assert (A : visit_file E (n + m) r = LDone st) by (eapply visit_more; [exact Hn|discriminate|lia]).
  assert (B : visit_file E (n + m) r = LDone st') by (eapply visit_more; [exact Hm|discriminate|lia]). congruence.
Qed.

Section P.
Context (alphanumeric : char -> bool).
Context (fw : M_Visitor.framework) (own : builtin) (parse_file : path -> text -> option pfile) (denied : warning -> bool).
Context (root : path) (read : path -> option text) (is_dir is_file : path -> bool) (walk_dir : path -> list (option path)).
Notation visit_one := (visit_one alphanumeric fw parse_file denied).
Notation visit_source_file := (visit_source_file alphanumeric fw parse_file denied root read).
Notation visit_entries := (visit_entries alphanumeric fw parse_file denied root read is_file).
Notation visit_paths := (visit_paths alphanumeric fw parse_file denied root read is_dir is_file walk_dir).
Notation parse := (parse alphanumeric fw own parse_file denied root read is_dir is_file walk_dir).
Notation visited := (visited root is_dir is_file walk_dir).
Notation files_in := (files_in is_dir is_file walk_dir).

(** ** Specification: the warnings that the file [p] with [contents] gives rise to. *)
Inductive says (c : compiled) (p : path) (contents : text) : pwarn -> Prop :=
| sa_directive x : In x (fst (collect alphanumeric denied contents)) -> says c p contents (PWDirective p x)
| sa_unparsed ds d : collect alphanumeric denied contents = (ds, Ok d) -> d_skip_file d = false -> parse_file p contents = None -> says c p contents (PWParsingFailed p)
| sa_ambiguous ds d f st : collect alphanumeric denied contents = (ds, Ok d) -> d_skip_file d = false -> parse_file p contents = Some f ->
    result (file_env fw c d contents f) (pf_root f) st -> s_warn st <> [] -> says c p contents (PWAmbiguous p (s_warn st)).

(** The outcome of a part of the work: its warnings [ws], and whether one of them ended it. *)
Definition ends (ws : list pwarn) (o : option perror) : Prop :=
  match o with
  | None => Forall (fun x => denied (pw_warning x) = false) ws
  | Some (PEDenied w) => exists pre x, ws = pre ++ [x] /\ pw_warning x = w /\ denied w = true /\ Forall (fun x => denied (pw_warning x) = false) pre
  | Some _ => Forall (fun x => denied (pw_warning x) = false) ws
  end.
Definition err_of {A} (r : res perror A) : option perror := match r with Err e => Some e | _ => None end.
Lemma ends_app ws ws' o : Forall (fun x => denied (pw_warning x) = false) ws -> ends ws' o -> ends (ws ++ ws') o.
Proof.
  intros F H. destruct o as [[]|]; cbn [ends] in *; try (apply Forall_app; auto).
  destruct H as (pre & x & -> & H1 & H2 & H3). exists (ws ++ pre), x. rewrite app_assoc. split; [reflexivity|]. split; [exact H1|]. split; [exact H2|]. apply Forall_app. auto.
Qed.
Lemma collect_ends contents : match collect alphanumeric denied contents with
  | (ds, Ok _) => Forall (fun x => denied (dw_warning x) = false) ds
  | (ds, Err w) => exists pre x, ds = pre ++ [x] /\ dw_warning x = w /\ denied w = true /\ Forall (fun x => denied (dw_warning x) = false) pre
  | (ds, Panic) => False
  end.
Proof.
  unfold collect. destruct (collect_denied alphanumeric denied (lines contents) 1 true (Directives false []) []) as (news & d' & E & [(Q & F)|(a & x & b & -> & F & D & Q)]); rewrite Q; cbn [app].
  - exact F.
  - exists a, x. auto.
Qed.
Lemma visit_one_says c p contents ws r : visit_one c p contents = (ws, r) -> r <> Panic -> (forall w, In w ws <-> says c p contents w) /\ ends ws (err_of r) /\
  (forall e, r = Err e -> exists w, e = PEDenied w).
Proof.
  unfold M_Parsing.visit_one. pose proof (collect_ends contents) as CE. destruct (collect alphanumeric denied contents) as [ds rd] eqn:C.
  assert (D : forall w, In w (map (PWDirective p) ds) <-> exists x, w = PWDirective p x /\ In x (fst (collect alphanumeric denied contents))).
  { intros w. rewrite C. cbn [fst]. rewrite in_map_iff. split; intros (x & H1 & H2); exists x; auto. }
  assert (FD : forall l, Forall (fun x => denied (dw_warning x) = false) l -> Forall (fun x => denied (pw_warning x) = false) (map (PWDirective p) l)).
  { intros l Hl. apply Forall_forall. intros x Hx. apply in_map_iff in Hx. destruct Hx as (y & <- & Hy). rewrite Forall_forall in Hl. exact (Hl y Hy). }
  assert (Only : (forall d, rd = Ok d -> d_skip_file d = true) -> forall w, In w (map (PWDirective p) ds) <-> says c p contents w).
  { intros K w. rewrite D. split.
    - intros (x & -> & Hx). apply sa_directive. exact Hx.
    - intros [x Hx|ds' d C' Hd _|ds' d f st C' Hd _ _ _]; [eauto| |]; rewrite C in C'; inversion C'; subst; rewrite (K d eq_refl) in Hd; discriminate. }
  destruct rd as [d|w|]; [|destruct CE as (pre & x & -> & E1 & E2 & E3)|destruct CE].
  - destruct (d_skip_file d) eqn:S0.
    + intros H _. inversion H; subst. split; [apply Only; intros d' Hd; inversion Hd; subst; exact S0|]. split; [apply FD; exact CE|discriminate].
    + destruct (parse_file p contents) as [f|] eqn:PF.
      * assert (NoU : forall w, says c p contents w <-> (exists x, w = PWDirective p x /\ In x (fst (collect alphanumeric denied contents))) \/
            exists st, result (file_env fw c d contents f) (pf_root f) st /\ s_warn st <> [] /\ w = PWAmbiguous p (s_warn st)).
        { intros w. split.
          - intros [x Hx|ds' d' C' Hd P'|ds' d' f' st C' Hd P' HR Hne]; [left; eauto|congruence|]. rewrite C in C'. inversion C'; subst. assert (f' = f) by congruence. subst. right. eauto.
          - intros [(x & -> & Hx)|(st & HR & Hne & ->)]; [apply sa_directive; exact Hx|eapply sa_ambiguous; eassumption]. }
        destruct (visit_file (file_env fw c d contents f) (enough f) (pf_root f)) as [st| |] eqn:V.
        -- assert (HR : result (file_env fw c d contents f) (pf_root f) st) by (eexists; exact V).
           destruct (s_warn st) as [|n ns] eqn:W.
           ++ intros H _. inversion H; subst. split; [|split; [apply FD; exact CE|discriminate]]. intros w. rewrite D, NoU. split; [auto|]. intros [K|(st' & HR' & Hne & _)]; [exact K|].
              destruct (Hne (eq_trans (f_equal s_warn (result_det _ _ _ _ HR' HR)) W)).
           ++ assert (A : forall w, In w (map (PWDirective p) ds ++ [PWAmbiguous p (n :: ns)]) <-> says c p contents w).
              { intros w. rewrite in_app_iff, D, NoU. cbn [In]. split.
                - intros [K|[<-|[]]]; [auto|]. right. exists st. rewrite W. split; [exact HR|]. split; [discriminate|reflexivity].
                - intros [K|(st' & HR' & Hne & ->)]; [auto|]. right. left. rewrite (result_det _ _ _ _ HR' HR), W. reflexivity. }
              destruct (denied WLocalFunctionAmbiguous) eqn:DD; intros H _; inversion H; subst; (split; [exact A|]); split.
              ** cbn [err_of ends]. eexists _, _. split; [reflexivity|]. split; [reflexivity|]. split; [exact DD|]. apply FD. exact CE.
              ** intros e He. inversion He. eauto.
              ** cbn [err_of ends]. apply Forall_app. split; [apply FD; exact CE|]. constructor; [exact DD|constructor].
              ** discriminate.
        -- intros H NP. inversion H; subst. destruct (NP eq_refl).
        -- intros H NP. inversion H; subst. destruct (NP eq_refl).
      * assert (A : forall w, In w (map (PWDirective p) ds ++ [PWParsingFailed p]) <-> says c p contents w).
        { intros w. rewrite in_app_iff, D. cbn [In]. split.
          - intros [(x & -> & Hx)|[<-|[]]]; [apply sa_directive; exact Hx|eapply sa_unparsed; eassumption].
          - intros [x Hx|ds' d' C' Hd P'|ds' d' f' st C' Hd P' HR Hne]; [left; eauto|auto|congruence]. }
        destruct (denied WParsingFailed) eqn:DD; intros H _; inversion H; subst; (split; [exact A|]); split.
        -- cbn [err_of ends]. eexists _, _. split; [reflexivity|]. split; [reflexivity|]. split; [exact DD|]. apply FD. exact CE.
        -- intros e He. inversion He. eauto.
        -- cbn [err_of ends]. apply Forall_app. split; [apply FD; exact CE|]. constructor; [exact DD|constructor].
        -- discriminate.
  - intros H _. inversion H; subst. split; [apply Only; intros d Hd; discriminate|]. split; [|intros e He; inversion He; eauto]. cbn [err_of ends]. rewrite map_app. cbn [map].
    eexists _, _. split; [reflexivity|]. split; [reflexivity|]. split; [exact E2|]. apply FD. exact E3.
Qed.

(** ** Several files *)
(** The file at [full] is looked at without a crash: it lies below the root, can be read, and its warnings are [ws]. *)
Definition looked (c : compiled) (full : path) (w : pwarn) : Prop :=
  exists p contents, full = root ++ p /\ read full = Some contents /\ says c p contents w.
(** [fs]: the files that were looked at, [news]: the warnings. *)
Definition step_ok (c : compiled) (all : list path) (news : list pwarn) (x : res perror unit) : Prop :=
  x <> Panic -> exists seen rest, all = seen ++ rest /\ (forall w, In w news <-> exists f, In f seen /\ looked c f w) /\ ends news (err_of x) /\ (x = Ok tt -> rest = []).
Lemma source_file_warns c full st st' x : visit_source_file c full st = (st', x) -> exists news, ps_warned st' = ps_warned st ++ news /\ step_ok c [full] news x.
Proof.
  unfold M_Parsing.visit_source_file. destruct (strip_components root full) as [p|] eqn:E.
  2:{ intros H. inversion H; subst. exists []. rewrite app_nil_r. split; [reflexivity|]. intros N. destruct (N eq_refl). }
  apply strip_components_spec in E. destruct (read full) as [contents|] eqn:R.
  2:{ intros H. inversion H; subst. exists []. rewrite app_nil_r. split; [reflexivity|]. intros _. exists [], [root ++ p]. split; [reflexivity|]. split; [|split; [constructor|discriminate]].
      intros w. split; [intros []|intros (f & [] & _)]. }
  destruct (visit_one c p contents) as [ws r] eqn:V.
  assert (K : r <> Panic -> forall y, err_of y = err_of r -> step_ok c [full] ws y).
  { intros N y Hy _. destruct (visit_one_says c p contents ws r V N) as (H1 & H2 & _). exists [full], []. split; [reflexivity|]. split; [|split; [rewrite Hy; exact H2|auto]].
    intros w. rewrite H1. split.
    - intros H. exists full. split; [left; reflexivity|]. exists p, contents. auto.
    - intros (f & [<-|[]] & p' & ct & E' & R' & H). assert (p' = p) by (rewrite E in E'; apply app_inv_head in E'; auto). subst p'. assert (ct = contents) by congruence. subst. exact H. }
  destruct r as [[[tests maps]|]|e|]; intros H; inversion H; subst; cbn [ps_warned]; exists ws; (split; [reflexivity|]).
  - apply K; [discriminate|reflexivity].
  - apply K; [discriminate|reflexivity].
  - apply K; [discriminate|reflexivity].
  - intros N. destruct (N eq_refl).
Qed.
Lemma step_ok_nil c : step_ok c [] [] (Ok tt).
Proof. intros _. exists [], []. split; [reflexivity|]. split; [|split; [constructor|auto]]. intros w. split; [intros []|intros (f & [] & _)]. Qed.
Lemma step_ok_seq c a b n m x : step_ok c a n (Ok tt) -> step_ok c b m x -> step_ok c (a ++ b) (n ++ m) x.
Proof.
  intros H1 H2 N. destruct H1 as (s1 & r1 & -> & A1 & B1 & C1); [discriminate|]. rewrite (C1 eq_refl) in *. rewrite app_nil_r. destruct (H2 N) as (s2 & r2 & -> & A2 & B2 & C2).
  exists (s1 ++ s2), r2. rewrite app_assoc. split; [reflexivity|]. split; [|split; [apply ends_app; [exact B1|exact B2]|exact C2]].
  intros w. rewrite in_app_iff, A1, A2. split.
  - intros [(f & Hf & Hw)|(f & Hf & Hw)]; exists f; (split; [apply in_or_app; auto|exact Hw]).
  - intros (f & Hf & Hw). apply in_app_or in Hf. destruct Hf; [left|right]; eauto.
Qed.
Lemma step_ok_stop c a b n x : step_ok c a n x -> x <> Ok tt -> step_ok c (a ++ b) n x.
Proof.
  intros H Hx N. destruct (H N) as (s1 & r1 & -> & A1 & B1 & C1). exists s1, (r1 ++ b). rewrite app_assoc. split; [reflexivity|]. split; [exact A1|]. split; [exact B1|]. intros K. destruct (Hx K).
Qed.
Lemma entries_warn c dir es : forall st st' x, visit_entries c dir es st = (st', x) -> exists news, ps_warned st' = ps_warned st ++ news /\
  step_ok c (flat_map (fun e => match e with Some p => if is_file p then [p] else [] | None => [] end) es) news x.
Proof.
  induction es as [|[p|] es IH]; intros st st' x H; cbn [M_Parsing.visit_entries flat_map] in *.
  - inversion H; subst. exists []. rewrite app_nil_r. split; [reflexivity|apply step_ok_nil].
  - destruct (is_file p).
    + destruct (visit_source_file c p st) as [st1 y] eqn:V. destruct (source_file_warns _ _ _ _ _ V) as (n1 & E1 & S1). destruct y as [[]|e|].
      * destruct (IH _ _ _ H) as (n2 & E2 & S2). exists (n1 ++ n2). rewrite E2, E1, app_assoc. split; [reflexivity|]. apply step_ok_seq; assumption.
      * inversion H; subst. exists n1. split; [exact E1|]. apply step_ok_stop; [exact S1|discriminate].
      * inversion H; subst. exists n1. split; [exact E1|]. intros N. destruct (N eq_refl).
    + apply IH. exact H.
  - inversion H; subst. exists []. rewrite app_nil_r. split; [reflexivity|]. intros _. exists [], (flat_map (fun e => match e with Some p => if is_file p then [p] else [] | None => [] end) es).
    split; [reflexivity|]. split; [|split; [constructor|discriminate]]. intros w. split; [intros []|intros (f & [] & _)].
Qed.
Lemma paths_warn c ps : forall st st' x, visit_paths c ps st = (st', x) -> exists news, ps_warned st' = ps_warned st ++ news /\ step_ok c (flat_map files_in ps) news x.
Proof.
  induction ps as [|p ps IH]; intros st st' x H; cbn [M_Parsing.visit_paths flat_map] in *.
  - inversion H; subst. exists []. rewrite app_nil_r. split; [reflexivity|apply step_ok_nil].
  - assert (B : forall st1 y, (if is_dir p then visit_entries c p (walk_dir p) st else if is_file p then visit_source_file c p st else (st, Ok tt)) = (st1, y) ->
      exists news, ps_warned st1 = ps_warned st ++ news /\ step_ok c (files_in p) news y).
    { intros st1 y Q. unfold P_Parsing.files_in. destruct (is_dir p); [eapply entries_warn; exact Q|]. destruct (is_file p); [eapply source_file_warns; exact Q|].
      inversion Q; subst. exists []. rewrite app_nil_r. split; [reflexivity|apply step_ok_nil]. }
    destruct (if is_dir p then _ else _) as [st1 y] eqn:Q. destruct (B st1 y eq_refl) as (n1 & E1 & S1). destruct y as [[]|e|].
    + destruct (IH _ _ _ H) as (n2 & E2 & S2). exists (n1 ++ n2). rewrite E2, E1, app_assoc. split; [reflexivity|]. apply step_ok_seq; assumption.
    + inversion H; subst. exists n1. split; [exact E1|]. apply step_ok_stop; [exact S1|discriminate].
    + inversion H; subst. exists n1. split; [exact E1|]. intros N. destruct (N eq_refl).
Qed.

(** With a configuration that compiles and without a crash: the warnings are those about the configuration and those of the files looked at, which come first among
    the files to visit. No warning is denied when the parse succeeds, and all files are looked at. When a warning ended the parse it is the last and the only one that is denied. *)
Theorem C39_warnings : forall cfg sf ws r c, compile_config alphanumeric denied own cfg = Ok c -> parse cfg sf = (ws, r) -> r <> Panic ->
  exists seen rest, visited sf = seen ++ rest /\
    (forall w, In w ws <-> (exists k, In k (check_config own cfg) /\ w = PWConfig k) \/ exists f, In f seen /\ looked c f w) /\
    ((exists n m, r = Ok (n, m)) -> rest = [] /\ forall w, In w ws -> denied (pw_warning w) = false) /\
    (forall k, r = Err (PEDenied k) -> exists pre w, ws = pre ++ [w] /\ pw_warning w = k /\ denied k = true /\ forall v, In v pre -> denied (pw_warning v) = false).
Proof.
  intros cfg sf ws r c HC HP HN. unfold M_Parsing.parse in HP. rewrite HC in HP. set (cws := map PWConfig (check_config own cfg)) in *.
  destruct (visit_paths c (match sf with [] => [root] | _ => sf end) (PState 0 [] cws)) as [st x] eqn:V. destruct (paths_warn _ _ _ _ _ V) as (news & E & SO). cbn [ps_warned] in E.
  assert (FC : Forall (fun x => denied (pw_warning x) = false) cws).
  { unfold compile_config in HC. destruct (existsb denied (check_config own cfg)) eqn:X; [discriminate|]. apply Forall_forall. intros w Hw. apply in_map_iff in Hw. destruct Hw as (k & <- & Hk). cbn [pw_warning].
    destruct (denied k) eqn:D; [|reflexivity]. assert (existsb denied (check_config own cfg) = true) by (apply existsb_exists; eauto). congruence. }
  assert (NX : x <> Panic) by (intros ->; inversion HP; subst; destruct (HN eq_refl)).
  destruct (SO NX) as (seen & rest & H1 & H2 & H3 & H4). pose proof (ends_app cws news _ FC H3) as H5. exists seen, rest. split; [exact H1|].
  assert (EW : ws = cws ++ news) by (destruct x as [[]|e|]; inversion HP; subst; exact E). split; [|split].
  - intros w. rewrite EW, in_app_iff, H2. unfold cws. rewrite in_map_iff. split; (intros [(k & K1 & K2)|K]; [left; exists k; auto|right; exact K]).
  - intros (n & m & ->). destruct x as [[]|e|]; try (inversion HP; fail). split; [apply H4; reflexivity|]. cbn [err_of ends] in H5. rewrite Forall_forall in H5. rewrite EW. exact H5.
  - intros k ->. destruct x as [[]|e|]; try (inversion HP; fail). assert (e = PEDenied k) by (inversion HP; reflexivity). subst e. cbn [err_of ends] in H5. destruct H5 as (pre & w & K1 & K2 & K3 & K4). exists pre, w.
    rewrite EW. rewrite Forall_forall in K4. auto.
Qed.
End P.
Print Assumptions C39_warnings.

(** In the example, the file [c] cannot be parsed. With functions of the same name in the others the name is warned of. *)
Definition w_parser (p : path) (t : text) : option pfile := if text_eqb t (s2t "(") then None else Some (PFile g_root [(s2t "h", [g_h; mk 95 KGroup 1 70 75 []])]).
Definition w_parse (den : warning -> bool) := parse ascii_alphanumeric fw_go go_builtin w_parser den y_root y_read y_is_dir y_is_file y_walk y_cfg [].
Example C39_warnings_nonvacuous : (exists c, compile_config ascii_alphanumeric (fun _ => false) go_builtin y_cfg = Ok c) /\
  fst (w_parse (fun _ => false)) = [PWAmbiguous [s2t "a"] [s2t "h"]; PWParsingFailed [s2t "c"]] /\ (exists n m, snd (w_parse (fun _ => false)) = Ok (n, m)) /\
  w_parse (fun w => match w with WParsingFailed => true | _ => false end) = ([PWAmbiguous [s2t "a"] [s2t "h"]; PWParsingFailed [s2t "c"]], Err (PEDenied WParsingFailed)).
Proof. split; [eexists; vm_compute; reflexivity|]. split; [vm_compute; reflexivity|]. split; [eexists _, _; vm_compute; reflexivity|]. vm_compute. reflexivity. Qed.
