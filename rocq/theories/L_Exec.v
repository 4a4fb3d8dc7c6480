(** Lemmas about one execution. *)
From Verif Require Import Base M_Text S_Text L_Text M_Span M_Instr S_Instr M_Run S_Run L_Run L_RunFinal M_Exec S_Exec.
From Coq Require Import Permutation.
Local Open Scope N_scope.

Lemma pids_eq p ts : pids (PNode p ts) = p :: flat_map pids ts.
Proof. reflexivity. Qed.

(** Induction over all subtrees. *)
Lemma ptree_ind2 (P : ptree -> Prop) : (forall p ts, (forall t, In t ts -> P t) -> P (PNode p ts)) -> forall t, P t.
Proof.
  intros H. fix IH 1. intros [p ts]. apply H. induction ts as [|x ts IHts]; intros t Ht; [destruct Ht|].
  destruct Ht as [<-|Ht]; [apply IH|now apply IHts].
Qed.

Fixpoint kill_order (t : ptree) : list pid :=
  match t with PNode p ts => ((fix go l := match l with [] => [] | x :: r => go r ++ kill_order x end) ts ++ [p])%list end.
Lemma kill_order_eq p ts : kill_order (PNode p ts) = (flat_map kill_order (rev ts) ++ [p])%list.
Proof.
  cbn. f_equal. induction ts as [|x ts IH]; cbn; [reflexivity|]. rewrite flat_map_app, <- IH. cbn. now rewrite app_nil_r.
Qed.

Lemma kill_loop_mono children : forall f stack k r, kill_loop children f stack k = Some r ->
  forall f', (f <= f')%nat -> kill_loop children f' stack k = Some r.
Proof.
  induction f as [|f IH]; intros stack k r E f' L; [discriminate|]. destruct f' as [|f']; [lia|]. cbn in *.
  destruct stack as [|[p [|]] rest]; [exact E| |].
  - apply (IH _ _ _ E). lia.
  - destruct (children p); [apply (IH _ _ _ E); lia|exact E|exact E].
Qed.

Lemma flat_map_perm {A B} (f g : A -> list B) l : (forall x, In x l -> Permutation (f x) (g x)) ->
  Permutation (flat_map f (rev l)) (flat_map g l).
Proof.
  induction l as [|x l IH]; intros H; cbn; [constructor|]. rewrite flat_map_app. cbn. rewrite app_nil_r.
  eapply perm_trans; [apply Permutation_app_comm|]. apply Permutation_app.
  - apply H. now left.
  - apply IH. intros y Hy. apply H. now right.
Qed.

Lemma kill_order_perm t : Permutation (kill_order t) (pids t).
Proof.
  induction t as [p ts IH] using ptree_ind2. rewrite kill_order_eq, pids_eq.
  eapply perm_trans; [apply Permutation_app_comm|]. cbn. constructor. now apply flat_map_perm.
Qed.

Lemma before_app_l {A} (a b : A) l m : before a b l -> before a b (l ++ m).
Proof. intros (x & y & z & ->). exists x, y, (z ++ m)%list. rewrite <- !app_assoc. cbn. now rewrite <- app_assoc. Qed.
Lemma before_app_r {A} (a b : A) l m : before a b l -> before a b (m ++ l).
Proof. intros (x & y & z & ->). exists (m ++ x)%list, y, z. now rewrite <- app_assoc. Qed.

Lemma root_in_order t : In (root t) (kill_order t).
Proof. destruct t as [p ts]. rewrite kill_order_eq. apply in_or_app. right. now left. Qed.

Lemma kill_order_parents t a b : parent t a b -> before b a (kill_order t).
Proof.
  induction t as [p ts IH] using ptree_ind2. intros H. rewrite kill_order_eq. inversion H; subst.
  - assert (Hb : In (root t) (flat_map kill_order (rev ts))).
    { apply in_flat_map. exists t. split; [now apply -> in_rev|apply root_in_order]. }
    apply in_split in Hb as (x & y & ->). exists x, y, []. now rewrite <- app_assoc.
  - apply before_app_l. assert (Ht : In t (rev ts)) by now apply -> in_rev. apply in_split in Ht as (x & y & ->).
    rewrite flat_map_app. cbn [flat_map]. apply before_app_r, before_app_l. now apply IH.
Qed.

Lemma kill_loop_tree children t : describes children t -> forall rest k r,
  (exists f, kill_loop children f rest (rev (kill_order t) ++ k) = Some r) ->
  exists f, kill_loop children f ((root t, false) :: rest) k = Some r.
Proof.
  induction t as [p ts IH] using ptree_ind2. intros D rest k r (f & E). inversion D as [? ? C DS]; subst.
  assert (G : forall l, (forall t, In t l -> In t ts) -> forall rest' k' r',
     (exists f, kill_loop children f rest' (rev (flat_map kill_order l) ++ k')%list = Some r') ->
     exists f, kill_loop children f (map (fun c => (c, false)) (map root l) ++ rest')%list k' = Some r').
  { induction l as [|x l IHl]; intros HL rest' k' r' X; [exact X|]. cbn [map app].
    apply IH; [apply HL; now left|apply DS, HL; now left|]. apply IHl; [intros y Hy; apply HL; now right|].
    cbn [flat_map] in X. rewrite rev_app_distr, <- app_assoc in X. exact X. }
  destruct (G (rev ts) ltac:(intros y Hy; now apply in_rev) ((p, true) :: rest) k r) as (f1 & E1).
  { exists (S f). cbn. rewrite kill_order_eq, rev_app_distr in E. exact E. }
  exists (S f1). cbn. rewrite C, <- map_rev. exact E1.
Qed.

Lemma transitive_kill_tree children t : describes children t ->
  exists n, forall fuel, (n <= fuel)%nat -> transitive_kill children fuel (root t) = Some (kill_order t, Ok tt).
Proof.
  intros D. destruct (kill_loop_tree children t D [] [] (kill_order t, Ok tt)) as (n & E).
  - exists 1%nat. cbn. now rewrite app_nil_r, rev_involutive.
  - exists n. intros fuel L. unfold transitive_kill. eapply kill_loop_mono; eassumption.
Qed.

(** ** Limits *)
Lemma limits_restored opt post o l lim tr r : soft l <= hard l ->
  perform_exec opt post o l = Some (lim, tr, r) -> In XStart tr -> (In XWaited tr \/ exists p, In (XKill p) tr) ->
  fst (os_wait o) = true -> snd (os_getrlimit o) = true -> snd (os_setrlimit o) = true -> lim = l.
Proof.
  intros L E S1 S2 W G1 G2. unfold perform_exec in E. rewrite W, G1, G2 in E.
  destruct (os_nproc o); [|injection E as <- <- <-; destruct S1].
  unfold set_soft_rlimit in E.
  destruct (fst (os_getrlimit o)); [|injection E as <- <- <-; destruct S1].
  destruct (fst (os_setrlimit o)); [|injection E as <- <- <-; destruct S1].
  destruct (os_start o); cbn [negb] in E; [|injection E as <- <- <-; destruct S1 as [S1|[]]; discriminate].
  destruct (match timeout opt with None => _ | _ => _ end); [discriminate|]. cbn [negb] in E.
  assert (X : Limits (N.min (hard l) (soft l)) (hard l) = l).
  { destruct l as [s h]. cbn in *. f_equal. lia. }
  cbn [hard soft fst snd] in E. rewrite X in E.
  destruct (ends_within o (timeout opt)).
  - destruct post as [[[|]| |]|]; injection E as <- <- <-; reflexivity.
  - destruct (transitive_kill _ _ _) as [[killed [| |]]|]; [destruct (snd (os_wait o))| | |discriminate]; injection E as <- <- <-; reflexivity.
Qed.

Lemma limits_bounded opt post o l lim tr r : soft l <= hard l ->
  perform_exec opt post o l = Some (lim, tr, r) ->
  (forall l', In (XLimit l') tr -> soft l' <= hard l' /\ hard l' = hard l) /\ soft lim <= hard lim /\ hard lim = hard l.
Proof.
  intros L E. unfold perform_exec in E.
  destruct (os_nproc o) as [n|]; [|injection E as <- <- <-; split; [intros ? []|lia]].
  unfold set_soft_rlimit in E.
  destruct (fst (os_getrlimit o)); [|injection E as <- <- <-; split; [intros ? []|lia]].
  destruct (fst (os_setrlimit o)); [|injection E as <- <- <-; split; [intros ? []|lia]].
  set (l1 := Limits (N.min (hard l) (n + NPROC_ALLOWANCE)) (hard l)) in *.
  assert (L1 : soft l1 <= hard l1 /\ hard l1 = hard l) by (cbn; lia).
  assert (K : forall tr, (forall l', In (XLimit l') tr -> soft l' <= hard l' /\ hard l' = hard l) ->
     forall e l', In (XLimit l') (e :: tr) -> (forall x, e = XLimit x -> soft x <= hard x /\ hard x = hard l) -> soft l' <= hard l' /\ hard l' = hard l).
  { intros tr0 H e l' [->|H'] HE; [now apply HE|now apply H]. }
  assert (B1 : forall l', In (XLimit l') [XLimit l1] -> soft l' <= hard l' /\ hard l' = hard l).
  { intros l' [H|[]]. injection H as <-. exact L1. }
  assert (B2 : forall l', In (XLimit l') [XStart; XLimit l1] -> soft l' <= hard l' /\ hard l' = hard l).
  { intros l' [H|H]; [discriminate|now apply B1]. }
  destruct (os_start o); cbn [negb] in E; [|injection E as <- <- <-; split; [exact B1|exact L1]].
  destruct (match timeout opt with None => _ | _ => _ end); [discriminate|].
  destruct (fst (os_wait o)); cbn [negb] in E; [|injection E as <- <- <-; split; [exact B2|exact L1]].
  set (tr3 := if ends_within o (timeout opt) then _ else _) in E.
  assert (B3 : forall l', In (XLimit l') tr3 -> soft l' <= hard l' /\ hard l' = hard l).
  { subst tr3. destruct (ends_within o (timeout opt)); [|exact B2]. intros l' [H|H]; [discriminate|now apply B2]. }
  destruct (snd (os_getrlimit o)); [|injection E as <- <- <-; split; [exact B3|exact L1]].
  destruct (snd (os_setrlimit o)); [|injection E as <- <- <-; split; [exact B3|exact L1]].
  set (l2 := Limits (N.min (hard l1) (soft l)) (hard l1)) in *.
  assert (L2 : soft l2 <= hard l2 /\ hard l2 = hard l) by (cbn; lia).
  assert (B4 : forall l', In (XLimit l') (XLimit l2 :: tr3) -> soft l' <= hard l' /\ hard l' = hard l).
  { intros l' [H|H]; [injection H as <-; exact L2|now apply B3]. }
  destruct (ends_within o (timeout opt)).
  - destruct post as [[[|]| |]|]; injection E as <- <- <-; (split; [|exact L2]); auto; intros l' [H|H]; try discriminate; now apply B4.
  - destruct (transitive_kill _ _ _) as [[killed q]|]; [|discriminate].
    assert (B5 : forall l', In (XLimit l') (rev (map XKill killed) ++ XLimit l2 :: tr3) -> soft l' <= hard l' /\ hard l' = hard l).
    { intros l' H. apply in_app_or in H as [H|H]; [|now apply B4]. apply in_rev, in_map_iff in H as (x & X & _). discriminate. }
    destruct q as [u| |]; [destruct (snd (os_wait o))| |]; injection E as <- <- <-; (split; [|exact L2]); auto.
    intros l' [H|H]; [discriminate|now apply B5].
Qed.

(** ** Classification *)
Lemma allowed_timeout opt d : timeout opt = Some d <-> allowed opt d.
Proof.
  unfold timeout, allowed, nanos. destruct opt as [s|].
  - destruct (N.eqb_spec s 0) as [->|N].
    + split; [discriminate|]. intros [[H _]|(s & [= <-] & H & _)]; [discriminate|congruence].
    + split; [intros [= <-]; right; eauto|]. intros [[H _]|(x & [= <-] & _ & ->)]; [discriminate|reflexivity].
  - split; [intros [= <-]; left; auto|]. intros [[_ ->]|(s & H & _)]; [reflexivity|discriminate].
Qed.

Lemma ends_within_spec o t : ends_within o (timeout t) = false <-> outlives o t.
Proof.
  unfold ends_within, outlives. split.
  - destruct (timeout t) as [d|] eqn:E; [|discriminate]. apply allowed_timeout in E. intros H. exists d. split; [exact E|].
    intros life L. rewrite L in H. now apply N.leb_gt.
  - intros (d & A & H). apply allowed_timeout in A. rewrite A. destruct (os_life o) as [life|]; [|reflexivity].
    apply N.leb_gt. now apply H.
Qed.

Lemma classify opt post o l lim tr x : perform_exec opt post o l = Some (lim, tr, Ok x) ->
  match x with
  | XTimedOut => outlives o opt
  | XPassed => ~ outlives o opt /\ success (os_status o) = true /\ (post = None \/ post = Some (Ok true))
  | XFailed => ~ outlives o opt /\ success (os_status o) = false /\ (post = None \/ post = Some (Ok true))
  | XNone => ~ outlives o opt /\ post = Some (Ok false)
  end.
Proof.
  intros E. unfold perform_exec in E.
  destruct (os_nproc o); [|discriminate].
  destruct (set_soft_rlimit _ _ _ l) as [[prev l1]| |]; [|discriminate..].
  destruct (os_start o); cbn [negb] in E; [|discriminate].
  destruct (match timeout opt with None => _ | _ => _ end); [discriminate|].
  destruct (fst (os_wait o)); cbn [negb] in E; [|discriminate].
  destruct (set_soft_rlimit _ _ _ l1) as [[? l2]| |]; [|discriminate..].
  destruct (ends_within o (timeout opt)) eqn:EW.
  - assert (NO : ~ outlives o opt) by (rewrite <- ends_within_spec; congruence).
    destruct post as [[[|]| |]|]; try discriminate; injection E as <- <- E; rewrite <- ?E;
      destruct (success (os_status o)) eqn:S1; cbn; auto; destruct x; try discriminate; auto.
  - apply ends_within_spec in EW. destruct (transitive_kill _ _ _) as [[killed [| |]]|]; try discriminate.
    destruct (snd (os_wait o)); [|discriminate]. injection E as <- <- <-. exact EW.
Qed.

(** A timed-out execution: its processes were killed, and then it was reaped. *)
Lemma timed_out_killed opt post o l lim tr : perform_exec opt post o l = Some (lim, tr, Ok XTimedOut) ->
  forall t, describes (os_children o) t -> root t = os_pid o ->
  exists tr0, tr = XWaited :: rev (map XKill (kill_order t)) ++ tr0 /\
    ~ In XWaited tr0 /\ ~ In XJudge tr0 /\ (forall p, ~ In (XKill p) tr0).
Proof.
  intros E t D R. unfold perform_exec in E.
  destruct (os_nproc o); [|discriminate].
  destruct (set_soft_rlimit _ _ _ l) as [[prev l1]| |]; [|discriminate..].
  destruct (os_start o); cbn [negb] in E; [|discriminate].
  destruct (match timeout opt with None => _ | _ => _ end); [discriminate|].
  destruct (fst (os_wait o)); cbn [negb] in E; [|discriminate].
  destruct (set_soft_rlimit _ _ _ l1) as [[? l2]| |]; [|discriminate..].
  destruct (ends_within o (timeout opt)).
  - destruct post as [[[|]| |]|]; try discriminate; destruct (success (os_status o)); discriminate.
  - destruct (transitive_kill (os_children o) (os_kill_fuel o) (os_pid o)) as [[killed q]|] eqn:TK; [|discriminate].
    destruct (transitive_kill_tree _ _ D) as (m & M).
    assert (KE : (killed, q) = (kill_order t, Ok tt)).
    { unfold transitive_kill in TK, M.
      assert (X := kill_loop_mono _ _ _ _ _ TK (max m (os_kill_fuel o)) ltac:(lia)). rewrite <- R in X.
      rewrite (M _ (Nat.le_max_l _ _)) in X. congruence. }
    injection KE as -> ->. destruct (snd (os_wait o)); [|discriminate]. injection E as <- <-.
    eexists. split; [reflexivity|]. cbn. intuition discriminate.
Qed.

(** Executions that are not broken off return. *)
Lemma exec_returns opt post o l t : os_nproc o <> None ->
  os_getrlimit o = (true, true) -> os_setrlimit o = (true, true) -> os_start o = true -> os_wait o = (true, true) ->
  (timeout opt = None -> os_life o <> None) ->
  (post = None \/ exists y, post = Some (Ok y)) ->
  describes (os_children o) t -> root t = os_pid o ->
  (exists n, forall fuel, (n <= fuel)%nat -> exists lim tr x,
     perform_exec opt post (OS (os_nproc o) (os_getrlimit o) (os_setrlimit o) (os_start o) (os_life o) (os_status o)
        (os_wait o) (os_pid o) (os_children o) fuel) l = Some (lim, tr, Ok x)).
Proof.
  intros N G S ST W T P D R. destruct (transitive_kill_tree _ _ D) as (n & K). exists n. intros fuel L.
  specialize (K fuel L). unfold perform_exec. cbn [os_nproc os_getrlimit os_setrlimit os_start os_life os_status os_wait os_pid os_children os_kill_fuel].
  destruct (os_nproc o); [|congruence]. rewrite G, S, ST, W. cbn [fst snd set_soft_rlimit negb].
  assert (X : match timeout opt with None => match os_life o with None => true | _ => false end | _ => false end = false).
  { destruct (timeout opt); [reflexivity|]. destruct (os_life o); [reflexivity|]. destruct (T eq_refl eq_refl). }
  rewrite X. clear X. rewrite R in K. rewrite K.
  unfold ends_within. cbn [os_life].
  destruct (match timeout opt with None => _ | _ => _ end).
  - destruct P as [->|([|] & ->)]; repeat eexists.
  - repeat eexists.
Qed.

(** ** The output check *)
Lemma post_fold init f deny ls : forall k prev,
  fold_left (post_line init f deny) ls (k, Ok prev) =
  (if deny && existsb (fun l => match dec l with None => true | _ => false end) ls
   then (S k, Err PostFailed)
   else ((k + length (filter (fun l => match dec l with None => true | _ => false end) ls))%nat,
         Ok (if init then prev && forallb (fun l => match dec l with Some t => f t | None => true end) ls
             else prev || existsb (fun l => match dec l with Some t => f t | None => false end) ls))).
Proof.
  assert (ERR : forall ls k e, fold_left (post_line init f deny) ls (k, Err e) = (k, Err e)) by (induction ls0; auto).
  induction ls as [|l ls IH]; intros k prev; cbn [fold_left existsb filter forallb length].
  - rewrite andb_false_r, Nat.add_0_r. destruct init; [now rewrite andb_true_r|now rewrite orb_false_r].
  - cbn [post_line]. destruct (dec l) as [t|]; cbn [orb].
    + rewrite IH. destruct (deny && _); [reflexivity|]. f_equal. destruct init; f_equal; [now rewrite andb_assoc|now rewrite orb_assoc].
    + destruct deny; cbn [andb].
      * rewrite ERR. reflexivity.
      * rewrite IH. cbn [andb]. cbn [length]. f_equal. lia.
Qed.

Lemma unreadable_b stdout : existsb (fun l => match dec l with None => true | _ => false end) (lines stdout) = true <-> unreadable stdout.
Proof.
  rewrite existsb_exists. split; intros (l & H & K); exists l; split; auto; destruct (dec l); congruence.
Qed.
Lemma shows_b f stdout : existsb (fun l => match dec l with Some t => f t | None => false end) (lines stdout) = true <-> shows f stdout.
Proof.
  rewrite existsb_exists. split.
  - intros (l & H & K). destruct (dec l) as [t|] eqn:E; [|discriminate]. exists l, t. auto.
  - intros (l & t & H & K & F). exists l. rewrite K. auto.
Qed.
Lemma all_show_b f stdout : forallb (fun l => match dec l with Some t => f t | None => true end) (lines stdout) = true <-> all_show f stdout.
Proof.
  rewrite forallb_forall. split.
  - intros H l t Hl E. specialize (H l Hl). now rewrite E in H.
  - intros H l Hl. destruct (dec l) as [t|] eqn:E; [|reflexivity]. eapply H; eassumption.
Qed.

Lemma postprocess_spec init f d1 d2 stdout st k w r : postprocess init f d1 d2 stdout st = (k, w, r) ->
  (r = Ok true <-> ran_it init f stdout /\ ~ (d1 = true /\ unreadable stdout)) /\
  (r = Ok false -> w = true) /\
  (w = true -> ~ ran_it init f stdout /\ exists c, st = Exited c) /\
  r <> Panic /\
  (d1 = false -> k = length (filter (fun l => match dec l with None => true | _ => false end) (lines stdout))).
Proof.
  unfold postprocess. rewrite post_fold. intros E.
  destruct (d1 && _) eqn:D.
  - apply andb_prop in D as [-> D]. apply unreadable_b in D. injection E as <- <- <-.
    split; [split; [discriminate|]; intros [_ H]; destruct H; auto|]. repeat split; discriminate.
  - assert (ND : ~ (d1 = true /\ unreadable stdout)).
    { intros [-> U]. apply unreadable_b in U. rewrite U in D. discriminate. }
    set (b := if init then _ else _) in E.
    assert (B : b = true <-> ran_it init f stdout).
    { subst b. destruct init; cbn [andb orb ran_it]; [apply all_show_b|apply shows_b]. }
    destruct b.
    + injection E as <- <- <-. rewrite <- B. split; [tauto|]. repeat split; try discriminate; intros _; reflexivity.
    + assert (NB : ~ ran_it init f stdout) by (rewrite <- B; discriminate).
      destruct st as [c|c].
      * destruct d2; injection E as <- <- <-; (split; [split; [discriminate|tauto]|]); repeat split; try discriminate; eauto.
      * injection E as <- <- <-. (split; [split; [discriminate|tauto]|]); repeat split; try discriminate.
Qed.

(** ** Lookups of [it] messages *)
Lemma path_eqb_sym_t (p q : path) : path_eqb p q = true -> p = q.
Proof. now rewrite path_eqb_eq. Qed.

Lemma msgs_found ms : forall m t, (fold_left (fun m t => msg_set t Found m) ms m) t = if mem_text t ms then Found else m t.
Proof.
  induction ms as [|x ms IH]; intros m t; cbn [fold_left]; [reflexivity|]. rewrite IH. unfold msg_set.
  change (mem_text t (x :: ms)) with (text_eqb t x || mem_text t ms).
  destruct (mem_text t ms); [now rewrite orb_true_r|]. rewrite orb_false_r.
  destruct (text_eqb t x) eqn:E.
  - apply text_eqb_eq in E. subst. now rewrite text_eqb_refl.
  - destruct (text_eqb x t) eqn:E2; [|reflexivity]. apply text_eqb_eq in E2. subst. now rewrite text_eqb_refl in E.
Qed.

(** What the table says after a history: known names are [Found]; a name about which a warning
    was issued is never [NotFound] again. *)
Record it_ok (ops : list it_op) (im : it_map) (ws : list (path * text)) : Prop := {
  io_dom : forall p, im p <> None <-> dry_done ops p;
  io_found : forall p m t, im p = Some m -> (m t = Found <-> dry_known ops p t);
  io_warned : forall p t, In (p, t) ws -> exists m, im p = Some m /\ m t <> NotFound;
  io_warned2 : forall p m t, im p = Some m -> m t = WarningEmitted -> In (p, t) ws;
  io_nodup : NoDup ws
}.

Lemma it_history_ok ops : it_ok ops (fst (it_history false ops)) (snd (it_history false ops)).
Proof.
  induction ops as [|op ops IH] using rev_ind.
  - cbn. constructor; cbn; try discriminate; try (intros; contradiction); [|constructor].
    intros p. split; [congruence|intros (ms & [])].
  - unfold it_history in *. rewrite fold_left_app. cbn [fold_left].
    set (st := fold_left _ ops _) in *. destruct IH as [D F W W2 N].
    assert (DD : forall p, dry_done (ops ++ [op]) p <-> dry_done ops p \/ exists ms, op = ItDry p ms).
    { intros p. split.
      - intros (ms & H). apply in_app_or in H as [H|[H|[]]]; [left; now exists ms|right; now exists ms].
      - intros [(ms & H)|(ms & ->)]; exists ms; apply in_or_app; [now left|right; now left]. }
    assert (DK : forall p t, dry_known (ops ++ [op]) p t <-> dry_known ops p t \/ exists ms, op = ItDry p ms /\ In t ms).
    { intros p t. split.
      - intros (ms & H & K). apply in_app_or in H as [H|[H|[]]]; [left; now exists ms|right; now exists ms].
      - intros [(ms & H & K)|(ms & -> & K)]; exists ms; (split; [|exact K]); apply in_or_app; [now left|right; now left]. }
    destruct op as [q ms|q t0]; cbn [it_step].
    + cbn [fst snd]. unfold it_dry_run.
      set (m0 := match fst st q with Some m => m | None => fun _ => NotFound end).
      assert (QQ : forall p m, it_set q (fold_left (fun m t => msg_set t Found m) ms m0) (fst st) p = Some m ->
        (p = q /\ forall t, m t = if mem_text t ms then Found else m0 t) \/ (p <> q /\ fst st p = Some m)).
      { intros p m. unfold it_set. destruct (path_eqb q p) eqn:E.
        - apply path_eqb_eq in E. subst. intros [= <-]. left. split; [reflexivity|]. intros t. apply msgs_found.
        - apply path_eqb_neq in E. right. split; congruence. }
      assert (NN : forall p ms', p <> q -> ItDry q ms <> ItDry p ms') by (intros p ms' X [= -> ->]; congruence).
      constructor.
      * intros p. rewrite DD, <- D. unfold it_set. destruct (path_eqb q p) eqn:E.
        -- apply path_eqb_eq in E. subst. split; [intros _; right; eauto|discriminate].
        -- apply path_eqb_neq in E. split; [auto|]. intros [H|(ms' & H)]; [exact H|]. injection H as -> ->. congruence.
      * intros p m t HM. rewrite DK. destruct (QQ p m HM) as [[-> H]|[NE H]].
        -- rewrite H. destruct (mem_text t ms) eqn:E.
           ++ split; [intros _; right; exists ms; split; [reflexivity|now apply mem_text_In]|reflexivity].
           ++ unfold m0. destruct (fst st q) as [m1|] eqn:E1.
              ** rewrite (F q m1 t E1). split; [auto|]. intros [X|(ms' & [= <-] & X)]; [exact X|].
                 apply mem_text_In in X. congruence.
              ** split; [discriminate|]. intros [(ms' & X & Y)|(ms' & [= <-] & X)].
                 --- destruct (proj2 (D q)); [now exists ms'|exact E1].
                 --- apply mem_text_In in X. congruence.
        -- rewrite (F p m t H). split; [auto|]. intros [X|(ms' & X & Y)]; [exact X|]. destruct (NN _ _ NE X).
      * intros p t H. destruct (W p t H) as (m & E & NF). unfold it_set. destruct (path_eqb q p) eqn:E1.
        -- apply path_eqb_eq in E1. subst. eexists. split; [reflexivity|]. rewrite msgs_found. destruct (mem_text t ms); [discriminate|].
           unfold m0. rewrite E. exact NF.
        -- exists m. auto.
      * intros p m t HM WE. destruct (QQ p m HM) as [[-> H]|[NE H]]; [|eapply W2; eassumption].
        rewrite H in WE. destruct (mem_text t ms); [discriminate|]. unfold m0 in WE. destruct (fst st q) eqn:E; [|discriminate]. eapply W2; eassumption.
      * exact N.
    + assert (DD' : forall p, dry_done (ops ++ [ItExec q t0]) p <-> dry_done ops p).
      { intros p. rewrite DD. split; [intros [H|(ms & H)]; [exact H|discriminate]|auto]. }
      assert (DK' : forall p t, dry_known (ops ++ [ItExec q t0]) p t <-> dry_known ops p t).
      { intros p t. rewrite DK. split; [intros [H|(ms & H & _)]; [exact H|discriminate]|auto]. }
      unfold it_exec. destruct (fst st q) as [mq|] eqn:EQ.
      2:{ cbn. constructor; auto; intros; rewrite ?DD', ?DK'; auto. }
      destruct (mq t0) eqn:ES; cbn [fst snd].
      2,3: constructor; auto; intros; rewrite ?DD', ?DK'; auto.
      assert (QQ : forall p m, it_set q (msg_set t0 WarningEmitted mq) (fst st) p = Some m ->
        (p = q /\ forall t, m t = if text_eqb t0 t then WarningEmitted else mq t) \/ (p <> q /\ fst st p = Some m)).
      { intros p m. unfold it_set. destruct (path_eqb q p) eqn:E.
        - apply path_eqb_eq in E. subst. intros [= <-]. left. split; reflexivity.
        - apply path_eqb_neq in E. right. split; congruence. }
      constructor.
      * intros p. rewrite DD', <- D. unfold it_set. destruct (path_eqb q p) eqn:E; [|tauto].
        apply path_eqb_eq in E. subst. rewrite EQ. split; discriminate.
      * intros p m t HM. rewrite DK'. destruct (QQ p m HM) as [[-> H]|[NE H]]; [|now apply F].
        rewrite H. destruct (text_eqb t0 t) eqn:E; [|now apply F].
        apply text_eqb_eq in E. subst. rewrite <- (F q mq t EQ). rewrite ES. split; discriminate.
      * intros p t [H|H].
        -- injection H as <- <-. unfold it_set. rewrite path_eqb_refl. eexists. split; [reflexivity|].
           unfold msg_set. now rewrite text_eqb_refl.
        -- destruct (W p t H) as (m & E & NF). unfold it_set. destruct (path_eqb q p) eqn:E1; [|eauto].
           apply path_eqb_eq in E1. subst. eexists. split; [reflexivity|]. unfold msg_set.
           destruct (text_eqb t0 t); [discriminate|]. congruence.
      * intros p m t HM WE. destruct (QQ p m HM) as [[-> H]|[NE H]]; [|right; eapply W2; eassumption].
        rewrite H in WE. destruct (text_eqb t0 t) eqn:E; [apply text_eqb_eq in E; subst; now left|].
        right. eapply W2; eassumption.
      * constructor; [|exact N]. intros H. destruct (W q t0 H) as (m & E & NF). congruence.
Qed.

(** In a run: a test is executed only if a dry run printed its name. *)
Lemma it_after_known denied msgs builds o tr p m t : it_after denied msgs builds o tr p = Some m -> m t = Found -> In t (msgs p).
Proof.
  revert p m t. induction tr as [|e tr IH]; intros p m t E F; [discriminate|].
  destruct e; try exact (IH _ _ _ E F); cbn [it_after] in E.
  - destruct (o_dry_run o _ p0); try exact (IH _ _ _ E F). unfold it_dry_run, it_set in E.
    destruct (path_eqb p0 p) eqn:P; [|exact (IH _ _ _ E F)]. apply path_eqb_eq in P. subst p0. injection E as <-.
    rewrite msgs_found in F. destruct (mem_text t (msgs p)) eqn:M; [now apply mem_text_In|].
    destruct (it_after _ _ _ _ tr p) eqn:X; [|discriminate]. exact (IH _ _ _ X F).
  - destruct (builds _ test s); [|exact (IH _ _ _ E F)]. unfold it_exec in E.
    destruct (it_after denied msgs builds o tr (sp_path s)) as [mq|] eqn:X; [|exact (IH _ _ _ E F)].
    destruct (mq test) eqn:Q; try exact (IH _ _ _ E F). destruct denied; [exact (IH _ _ _ E F)|].
    cbn in E. unfold it_set in E. destruct (path_eqb (sp_path s) p) eqn:P; [|exact (IH _ _ _ E F)].
    apply path_eqb_eq in P. subst p. injection E as <-. unfold msg_set in F. destruct (text_eqb test t); [discriminate|].
    exact (IH _ _ _ X F).
Qed.

Lemma ts_runs_known hash16 contents denied msgs builds o files fs db : paths_ok files ->
  forall s t env disk,
  In (ERun s t env disk) (w_trace (fst (run_from hash16 contents (ts_oracle denied msgs builds o) files fs db))) ->
  In t (msgs (sp_path s)).
Proof.
  intros P s t env disk H. apply in_moment in H as (pre & later & E).
  assert (M : moment (ERun s t env disk :: pre) (w_trace (fst (run_from hash16 contents (ts_oracle denied msgs builds o) files fs db)))) by (exists later; exact E).
  destruct (run_exec hash16 contents (ts_oracle denied msgs builds o) files fs db P s t env disk pre M) as (_ & p' & -> & _ & u & U).
  unfold ts_oracle in U. cbn [o_exec] in U. destruct (builds _ t s); [|discriminate]. cbn [tl] in U. unfold it_exec in U.
  destruct (it_after denied msgs builds o p' (sp_path s)) as [m|] eqn:X; [|discriminate].
  destruct (m t) eqn:F; [destruct denied; discriminate| |discriminate].
  eapply it_after_known; eassumption.
Qed.

Lemma contains_spec n h : contains n h = true <-> exists a b, h = (a ++ n ++ b)%list.
Proof.
  induction h as [|c h IH]; cbn [contains].
  - destruct n as [|x n]; split; try discriminate; auto.
    + intros _. exists [], []. reflexivity.
    + intros (a & b & E). destruct a; discriminate.
  - destruct (strip_prefix n (c :: h)) as [r|] eqn:E.
    + apply strip_prefix_spec in E. split; [|reflexivity]. intros _. exists [], r. exact E.
    + rewrite IH. split; intros (a & b & X).
      * exists (c :: a), b. cbn. now rewrite X.
      * destruct a as [|y a]; [|injection X as -> ->; now exists a, b].
        cbn [app] in X. assert (strip_prefix n (c :: h) = Some b) by now apply strip_prefix_spec. congruence.
Qed.

(** A process that is not killed: no kill events. *)
Lemma not_timed_out_not_killed opt post o l lim tr r : perform_exec opt post o l = Some (lim, tr, r) ->
  ~ outlives o opt -> forall p, ~ In (XKill p) tr.
Proof.
  intros E NO p. rewrite <- ends_within_spec in NO. unfold perform_exec in E.
  destruct (os_nproc o); [|injection E as <- <- <-; intros []].
  destruct (set_soft_rlimit _ _ _ l) as [[prev l1]| |]; [|injection E as <- <- <-; intros []..].
  destruct (os_start o); cbn [negb] in E; [|injection E as <- <- <-; cbn; intuition discriminate].
  destruct (match timeout opt with None => _ | _ => _ end); [discriminate|].
  destruct (fst (os_wait o)); cbn [negb] in E; [|injection E as <- <- <-; cbn; intuition discriminate].
  destruct (ends_within o (timeout opt)); [|congruence].
  destruct (set_soft_rlimit _ _ _ l1) as [[? l2]| |]; [|injection E as <- <- <-; cbn; intuition discriminate..].
  destruct post as [[[|]| |]|]; injection E as <- <- <-; cbn; intuition discriminate.
Qed.
