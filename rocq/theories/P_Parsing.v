(** Parsing several source files: C39. *)
From Verif Require Import Base M_Text S_Text M_Rewriter M_Span S_Span L_Span M_Run S_Run M_Output M_Visitor S_Visitor S_Candidates S_Walk L_Visitor L_VisitorMaps
  L_VisitorTotal L_Candidates M_Config L_Config P_Config M_Directives S_Directives L_Directives P_Directives M_Parsing P_Sqlite P_Visitor L_Run.
From Coq Require Import Sorted Permutation.

(** ** Merging *)
Lemma iset_adds_fresh ts : forall l, NoDup (l ++ ts) -> iset_adds ts l = l ++ ts.
Proof.
  unfold iset_adds. induction ts as [|t ts IH]; intros l H; cbn [fold_left]; [rewrite app_nil_r; reflexivity|].
  assert (N : mem_text t l = false).
  { destruct (mem_text t l) eqn:M; [|reflexivity]. apply mem_text_In in M. apply NoDup_remove_2 in H. destruct H. apply in_app_iff. auto. }
  unfold iset_add at 2. rewrite N. replace (l ++ t :: ts) with ((l ++ [t]) ++ ts) in * by (rewrite <- app_assoc; reflexivity). apply IH, H.
Qed.
Lemma iset_adds_present ts : forall l, (forall t, In t ts -> In t l) -> iset_adds ts l = l.
Proof.
  unfold iset_adds. induction ts as [|t ts IH]; intros l H; cbn [fold_left]; [reflexivity|].
  unfold iset_add at 2. rewrite (proj2 (mem_text_In t l)) by (apply H; left; reflexivity). apply IH. intros u I. apply H. right. exact I.
Qed.

Lemma asc_lt a l : ascending (a :: l) -> forall b, In b l -> span_lt a b.
Proof.
  revert a. induction l as [|x l IH]; intros a H b I; [destruct I|]. destruct H as [H1 H2]. destruct I as [<-|I]; [exact H1|].
  unfold span_lt in *. eapply span_compare_trans; [exact H1|]. exact (IH x H2 b I).
Qed.
Lemma asc_tail a l : ascending (a :: l) -> ascending l.
Proof. destruct l; [auto|]. intros [_ H]. exact H. Qed.

Lemma map_add_end s ts acc : NoDup ts -> (forall b, In b (map fst acc) -> span_lt b s) -> map_add s ts acc = acc ++ [(s, ts)].
Proof.
  intros N H. induction acc as [|[s' ts'] acc IH]; cbn [map_add app].
  - rewrite (iset_adds_fresh ts []) by exact N. reflexivity.
  - assert (L : span_lt s' s) by (apply H; left; reflexivity). unfold span_lt in L.
    assert (G : span_compare s s' = Gt) by (rewrite span_compare_antisym, L; reflexivity). rewrite G. f_equal. apply IH. intros b I. apply H. right. exact I.
Qed.
Lemma merge_map_fresh m : forall acc, ascending (map fst (acc ++ m)) -> (forall s ts, In (s, ts) m -> NoDup ts) -> merge_map m acc = acc ++ m.
Proof.
  unfold merge_map. induction m as [|[s ts] m IH]; intros acc A N; cbn [fold_left]; [rewrite app_nil_r; reflexivity|]. cbn [fst snd].
  rewrite map_add_end.
  - replace (acc ++ (s, ts) :: m) with ((acc ++ [(s, ts)]) ++ m) in * by (rewrite <- app_assoc; reflexivity). apply IH; [exact A|].
    intros s' ts' I. apply (N s' ts'). right. exact I.
  - apply (N s ts). left. reflexivity.
  - clear IH N. intros b I. rewrite map_app in A. cbn [map fst] in A. induction acc as [|[s' ts'] acc IHa]; [destruct I|].
    cbn [map app] in A. destruct I as [<-|I]; [|apply IHa; [exact (asc_tail _ _ A)|exact I]].
    apply (asc_lt _ _ A). apply in_app_iff. right. left. reflexivity.
Qed.
Lemma map_add_same s ts m : ascending (map fst m) -> In (s, ts) m -> map_add s ts m = m.
Proof.
  induction m as [|[s' ts'] m IH]; intros A I; [destruct I|]. cbn [map_add]. destruct I as [I|I].
  - injection I as -> ->. rewrite (proj2 (span_compare_eq s s) eq_refl). rewrite iset_adds_present by auto. reflexivity.
  - assert (L : span_lt s' s) by (apply (asc_lt _ _ A); apply (in_map fst) in I; exact I). unfold span_lt in L.
    assert (G : span_compare s s' = Gt) by (rewrite span_compare_antisym, L; reflexivity). rewrite G. f_equal. apply IH; [exact (asc_tail _ _ A)|exact I].
Qed.
Lemma merge_map_same m : entries_ok m -> merge_map m m = m.
Proof.
  intros [A _]. unfold merge_map. assert (G : forall l, (forall e, In e l -> In e m) -> fold_left (fun m e => map_add (fst e) (snd e) m) l m = m).
  { induction l as [|[s ts] l IH]; intros H; cbn [fold_left]; [reflexivity|]. cbn [fst snd].
    rewrite map_add_same by (auto; apply H; left; reflexivity). apply IH. intros e I. apply H. right. exact I. }
  apply G. auto.
Qed.
Lemma merge_map_nil m : entries_ok m -> merge_map m [] = m.
Proof. intros [A N]. rewrite merge_map_fresh; [reflexivity|exact A|]. intros s ts I. apply (N s ts I). Qed.

Definition maps_ok (x : span_test_maps) : Prop := entries_ok (stm_statement x) /\ entries_ok (stm_method x).

(** Files in the order of their paths, each once. *)
Definition by_path (a b : path * span_test_maps) : Prop := path_compare (fst a) (fst b) = Lt.

Lemma upsert_in p f m q x : StronglySorted by_path m ->
  (In (q, x) (upsert p f m) <->
    (q <> p /\ In (q, x) m) \/ (q = p /\ ((exists y, In (p, y) m /\ x = f y) \/ (x = f (STM [] []) /\ forall y, ~ In (p, y) m)))).
Proof.
  intros S. induction S as [|[r y] m S IH F]; cbn [upsert].
  - cbn [In]. split.
    + intros [E|[]]. injection E as <- <-. right. split; [reflexivity|]. right. split; [reflexivity|intros y []].
    + intros [[_ []]|[-> [[y [[] _]]|[-> _]]]]. left. reflexivity.
  - rewrite Forall_forall in F. destruct (path_compare p r) eqn:C.
    + apply path_compare_eq in C. subst r.
      assert (NP : forall z, ~ In (p, z) m).
      { intros z I. specialize (F _ I). unfold by_path in F. cbn in F. rewrite (proj2 (path_compare_eq p p) eq_refl) in F. discriminate. }
      cbn [In]. split.
      * intros [E|I]; [injection E as <- <-; right; split; [reflexivity|]; left; exists y; auto|].
        left. split; [intros ->; exact (NP _ I)|auto].
      * intros [[N [E|I]]|[-> [[z [[E|I] ->]]|[-> N]]]]; [injection E as <- _; congruence|auto|injection E as ->; auto|destruct (NP _ I)|destruct (N y); auto].
    + assert (NP : forall z, ~ In (p, z) ((r, y) :: m)).
      { intros z [E|I]; [injection E as -> _; rewrite (proj2 (path_compare_eq p p) eq_refl) in C; discriminate|].
        specialize (F _ I). unfold by_path in F. cbn in F. pose proof (path_compare_trans _ _ _ C F) as T.
        rewrite (proj2 (path_compare_eq p p) eq_refl) in T. discriminate. }
      split.
      * intros [E|I]; [injection E as <- <-; right; split; [reflexivity|]; right; auto|]. left. split; [intros ->; exact (NP _ I)|exact I].
      * intros [[N I]|[-> [[z [I _]]|[-> _]]]]; [right; exact I|destruct (NP _ I)|left; reflexivity].
    + assert (NR : p <> r) by (intros ->; rewrite (proj2 (path_compare_eq r r) eq_refl) in C; discriminate).
      cbn [In]. rewrite IH. split.
      * intros [E|[[N I]|[-> [[z [I ->]]|[-> N]]]]].
        -- injection E as <- <-. left. split; [congruence|auto].
        -- left. auto.
        -- right. split; [reflexivity|]. left. exists z. auto.
        -- right. split; [reflexivity|]. right. split; [reflexivity|]. intros z [E|I]; [injection E; congruence|exact (N z I)].
      * intros [[N [E|I]]|[-> [[z [[E|I] ->]]|[-> N]]]]; [auto|auto|injection E; congruence| |].
        -- right. right. split; [reflexivity|]. left. eauto.
        -- right. right. split; [reflexivity|]. right. split; [reflexivity|]. intros z I. apply (N z). auto.
Qed.
Lemma upsert_sorted p f m : StronglySorted by_path m -> StronglySorted by_path (upsert p f m).
Proof.
  intros S. induction S as [|[r y] m S IH F]; cbn [upsert]; [repeat constructor|]. destruct (path_compare p r) eqn:C.
  - constructor; [exact S|exact F].
  - constructor; [constructor; assumption|]. constructor; [exact C|]. rewrite Forall_forall in *. intros [q z] I. specialize (F _ I).
    unfold by_path in *. cbn in *. exact (path_compare_trans _ _ _ C F).
  - constructor; [exact IH|]. rewrite Forall_forall in *. intros [q z] I. apply (upsert_in p f m q z S) in I as [[_ I]|[-> _]]; [exact (F _ I)|].
    unfold by_path. cbn. rewrite path_compare_antisym, C. reflexivity.
Qed.

Lemma sorted_ext (m m' : files_map) : StronglySorted by_path m -> StronglySorted by_path m' -> (forall e, In e m <-> In e m') -> m = m'.
Proof.
  intros S. revert m'. induction S as [|a m S IH F]; intros m' S' E.
  - destruct m' as [|b m']; [reflexivity|]. destruct (proj2 (E b)). left. reflexivity.
  - destruct S' as [|b m' S' F']; [destruct (proj1 (E a)); left; reflexivity|].
    rewrite Forall_forall in F, F'.
    assert (a = b) as ->.
    { destruct (proj1 (E a) (or_introl eq_refl)) as [->|I]; [reflexivity|]. destruct (proj2 (E b) (or_introl eq_refl)) as [->|I']; [reflexivity|].
      pose proof (F' _ I) as L1. pose proof (F _ I') as L2. unfold by_path in *. rewrite path_compare_antisym, L1 in L2. discriminate. }
    f_equal. apply IH; [exact S'|]. intros e. split; intros I.
    + destruct (proj1 (E e) (or_intror I)) as [->|I']; [|exact I']. specialize (F _ I). unfold by_path in F. rewrite (proj2 (path_compare_eq _ _) eq_refl) in F. discriminate.
    + destruct (proj2 (E e) (or_intror I)) as [->|I']; [|exact I']. specialize (F' _ I). unfold by_path in F'. rewrite (proj2 (path_compare_eq _ _) eq_refl) in F'. discriminate.
Qed.

Section P.
Context (alphanumeric : char -> bool).
Context (fw : M_Visitor.framework) (own : builtin) (parse_file : path -> text -> option pfile) (denied : warning -> bool).
Context (root : path) (read : path -> option text) (is_dir is_file : path -> bool) (walk_dir : path -> list (option path)).
Notation visit_one := (visit_one alphanumeric fw parse_file denied).
Notation visit_source_file := (visit_source_file alphanumeric fw parse_file denied root read).
Notation visit_entries := (visit_entries alphanumeric fw parse_file denied root read is_file).
Notation visit_paths := (visit_paths alphanumeric fw parse_file denied root read is_dir is_file walk_dir).
Notation parse := (parse alphanumeric fw own parse_file denied root read is_dir is_file walk_dir).

(** ** Specification *)
(** The files looked at, in order and with repetitions: the files named, and those in the directories named; by
    default those in the root. *)
Definition files_in (s : path) : list path :=
  if is_dir s then flat_map (fun e => match e with Some p => if is_file p then [p] else [] | None => [] end) (walk_dir s)
  else if is_file s then [s] else [].
Definition visited (source_files : list path) : list path :=
  flat_map files_in (match source_files with [] => [root] | _ => source_files end).
Definition walkable_dirs (source_files : list path) : Prop :=
  forall s, In s (match source_files with [] => [root] | _ => source_files end) -> is_dir s = true -> ~ In None (walk_dir s).

(** ** What is accumulated *)
Lemma visit_one_ok c p contents ws t m : visit_one c p contents = (ws, Ok (Some (t, m))) -> maps_ok m.
Proof.
  unfold M_Parsing.visit_one. destruct (collect alphanumeric denied contents) as [dws [d|w|]]; try discriminate.
  destruct (d_skip_file d); [discriminate|]. destruct (parse_file p contents) as [f|]; [|destruct (denied WParsingFailed); discriminate].
  destruct (visit_file _ _ _) as [st| |] eqn:V; try discriminate.
  assert (K : vok st).
  { unfold visit_file in V. destruct (walk _ (pf_root f) init_vst) as [st0|] eqn:W; [|discriminate].
    eapply vok_loop; [|exact V]. eapply vok_walk; [|exact W]. constructor; cbn; try exact I; try (split; [exact I|intros ? ? []]). intros ? ? []. }
  destruct (s_warn st); [|destruct (denied WLocalFunctionAmbiguous)]; intros H; try discriminate; injection H as _ _ <-; split; apply K.
Qed.

(** The file contributes [r]. *)
Definition contributes_ok (c : compiled) (full : path) (r : contribution) : Prop :=
  exists p contents ws, full = root ++ p /\ read full = Some contents /\ visit_one c p contents = (ws, Ok r).
Lemma contributes_det c full r r' : contributes_ok c full r -> contributes_ok c full r' -> r = r'.
Proof.
  intros [p [t [ws [E [R V]]]]] [p' [t' [ws' [E' [R' V']]]]]. subst full. apply app_inv_head in E'. subst p'. congruence.
Qed.
Definition tests_of (r : contribution) : nat := match r with Some (t, _) => length t | None => 0 end.

(** [st] is what the visits [fs] (in any order) with contributions [rs] leave. *)
Definition accounted (c : compiled) (fs : list path) (st : pstate) : Prop :=
  StronglySorted by_path (ps_map st) /\
  (forall p x, In (p, x) (ps_map st) <-> exists t, In (root ++ p) fs /\ contributes_ok c (root ++ p) (Some (t, x))) /\
  exists rs, Forall2 (contributes_ok c) fs rs /\ ps_tests st = list_sum (map tests_of rs).

Lemma list_sum_snoc l n : list_sum (l ++ [n]) = (list_sum l + n)%nat.
Proof. rewrite list_sum_app. cbn. lia. Qed.

Lemma accounted_step c fs st full st' : accounted c fs st -> visit_source_file c full st = (st', Ok tt) -> accounted c (fs ++ [full]) st'.
Proof.
  intros [S [M [rs [R T]]]] H. unfold M_Parsing.visit_source_file in H.
  destruct (strip_components root full) as [p|] eqn:E; [|discriminate]. apply strip_components_spec in E.
  destruct (read full) as [contents|] eqn:Rd; [|discriminate].
  destruct (visit_one c p contents) as [ws [[[t x]|]|e|]] eqn:V; try discriminate; injection H as <-; cbn [ps_map ps_tests] in *.
  - assert (C : contributes_ok c full (Some (t, x))) by (exists p, contents, ws; auto).
    assert (OK : maps_ok x) by (eapply visit_one_ok; exact V).
    split; [apply upsert_sorted, S|]. split.
    + intros q y. unfold extend. etransitivity; [apply upsert_in; exact S|]. split.
      * intros [[N I]|[-> [[z [I ->]]|[-> N]]]].
        -- apply M in I as [t' [I C']]. exists t'. split; [apply in_app_iff; auto|exact C'].
        -- apply M in I as [t' [I C']]. rewrite <- E in C'. pose proof (contributes_det _ _ _ _ C C') as D. injection D as -> ->.
           exists t'. split; [apply in_app_iff; right; left; congruence|]. rewrite !merge_map_same by apply OK. destruct z. cbn. rewrite <- E. exact C.
        -- exists t. split; [apply in_app_iff; right; left; congruence|]. cbn. rewrite !merge_map_nil by apply OK. destruct x. rewrite <- E. exact C.
      * intros [t' [I C']]. destruct (list_eq_dec (list_eq_dec N.eq_dec) q p) as [->|N].
        -- right. split; [reflexivity|]. rewrite <- E in C'. pose proof (contributes_det _ _ _ _ C C') as D. injection D as <- <-.
           destruct (in_dec (list_eq_dec (list_eq_dec N.eq_dec)) full fs) as [If|Nf].
           ++ left. exists x. split; [apply M; exists t; rewrite <- E; auto|]. rewrite !merge_map_same by apply OK. destruct x; reflexivity.
           ++ right. split; [cbn; rewrite !merge_map_nil by apply OK; destruct x; reflexivity|]. intros z Iz. apply M in Iz as [t'' [If _]]. rewrite <- E in If. contradiction.
        -- left. split; [exact N|]. apply M. exists t'. split; [|exact C']. apply in_app_iff in I as [I|[I|[]]]; [exact I|]. rewrite E in I. apply app_inv_head in I. congruence.
    + exists (rs ++ [Some (t, x)]). split; [apply Forall2_app; [exact R|repeat constructor; exact C]|]. rewrite map_app, list_sum_app, T. cbn. lia.
  - assert (C : contributes_ok c full None) by (exists p, contents, ws; auto).
    split; [exact S|]. split.
    + intros q y. rewrite M. split; intros [t' [I C']]; exists t'; (split; [|exact C']); [apply in_app_iff; auto|].
      apply in_app_iff in I as [I|[I|[]]]; [exact I|]. subst full. rewrite <- I in C'. pose proof (contributes_det _ _ _ _ C C'). discriminate.
    + exists (rs ++ [None]). split; [apply Forall2_app; [exact R|repeat constructor; exact C]|]. rewrite map_app, list_sum_app, T. cbn. lia.
Qed.

(** A visit succeeds iff the file has a contribution. *)
Lemma step_ok_iff c full st : (exists st', visit_source_file c full st = (st', Ok tt)) <-> exists r, contributes_ok c full r.
Proof.
  unfold M_Parsing.visit_source_file. split.
  - intros [st' H]. destruct (strip_components root full) as [p|] eqn:E; [|discriminate]. apply strip_components_spec in E.
    destruct (read full) as [contents|] eqn:R; [|discriminate]. destruct (visit_one c p contents) as [ws [r|e|]] eqn:V; try discriminate. exists r, p, contents, ws. auto.
  - intros [r [p [contents [ws [E [R V]]]]]]. apply strip_components_spec in E. rewrite E, R, V. destruct r as [[t m]|]; eauto.
Qed.

Lemma entries_spec c dir es : forall fs st st' x, accounted c fs st -> visit_entries c dir es st = (st', x) ->
  let gs := flat_map (fun e => match e with Some p => if is_file p then [p] else [] | None => [] end) es in
  (x = Ok tt -> accounted c (fs ++ gs) st') /\
  (x = Ok tt <-> ~ In None es /\ forall g, In g gs -> exists r, contributes_ok c g r).
Proof.
  induction es as [|[p|] es IH]; intros fs st st' x A H; cbn [M_Parsing.visit_entries flat_map] in *; cbv zeta.
  - injection H as <- <-. rewrite app_nil_r. split; [auto|]. split; [|auto]. intros _. split; [intros []|intros g []].
  - destruct (is_file p) eqn:F.
    + destruct (visit_source_file c p st) as [st1 [[]|e|]] eqn:V.
      * pose proof (accounted_step _ _ _ _ _ A V) as A1. destruct (IH _ _ _ _ A1 H) as [H1 H2]. cbv zeta in H1, H2.
        split; [intros E; specialize (H1 E); rewrite <- app_assoc in H1; exact H1|]. rewrite H2. cbn [In app]. split.
        -- intros [N G]. split; [intros [D|D]; [discriminate|exact (N D)]|]. intros g [<-|I]; [apply (step_ok_iff c p st); eauto|apply G, I].
        -- intros [N G]. split; [tauto|]. intros g I. apply G. right. exact I.
      * injection H as <- <-. split; [discriminate|]. split; [discriminate|]. intros [_ G].
        destruct (proj2 (step_ok_iff c p st)) as [st2 W]; [apply G; left; reflexivity|]. congruence.
      * injection H as <- <-. split; [discriminate|]. split; [discriminate|]. intros [_ G].
        destruct (proj2 (step_ok_iff c p st)) as [st2 W]; [apply G; left; reflexivity|]. congruence.
    + destruct (IH _ _ _ _ A H) as [H1 H2]. cbv zeta in H1, H2. cbn [app]. split; [exact H1|]. rewrite H2. cbn [In]. intuition discriminate.
  - injection H as <- <-. split; [discriminate|]. split; [discriminate|]. intros [N _]. destruct N. left. reflexivity.
Qed.

Lemma paths_spec c ps : forall fs st st' x, accounted c fs st -> visit_paths c ps st = (st', x) ->
  (x = Ok tt -> accounted c (fs ++ flat_map files_in ps) st') /\
  (x = Ok tt <-> (forall s, In s ps -> is_dir s = true -> ~ In None (walk_dir s)) /\ forall g, In g (flat_map files_in ps) -> exists r, contributes_ok c g r).
Proof.
  induction ps as [|p ps IH]; intros fs st st' x A H; cbn [M_Parsing.visit_paths flat_map] in *.
  - injection H as <- <-. rewrite app_nil_r. split; [auto|]. split; [|auto]. intros _. split; [intros s []|intros g []].
  - assert (B : forall st1 y, (if is_dir p then visit_entries c p (walk_dir p) st else if is_file p then visit_source_file c p st else (st, Ok tt)) = (st1, y) ->
      (y = Ok tt -> accounted c (fs ++ files_in p) st1) /\
      (y = Ok tt <-> (is_dir p = true -> ~ In None (walk_dir p)) /\ forall g, In g (files_in p) -> exists r, contributes_ok c g r)).
    { intros st1 y Q. unfold files_in. destruct (is_dir p) eqn:D.
      - destruct (entries_spec c p (walk_dir p) fs st st1 y A Q) as [Q1 Q2]. cbv zeta in Q1, Q2. split; [exact Q1|]. rewrite Q2. intuition auto.
      - destruct (is_file p) eqn:F.
        + split; [intros ->; eapply accounted_step; eassumption|]. split.
          * intros ->. split; [discriminate|]. intros g [<-|[]]. apply (step_ok_iff c p st). eauto.
          * intros [_ G]. destruct (proj2 (step_ok_iff c p st)) as [st2 W]; [apply G; left; reflexivity|]. congruence.
        + injection Q as <- <-. rewrite app_nil_r. split; [auto|]. split; [|auto]. intros _. split; [discriminate|intros g []]. }
    destruct (if is_dir p then _ else _) as [st1 y] eqn:Q. destruct (B st1 y eq_refl) as [B1 B2].
    destruct y as [[]|e|].
    + destruct (IH _ _ _ _ (B1 eq_refl) H) as [H1 H2]. split; [intros E; specialize (H1 E); rewrite <- app_assoc in H1; exact H1|].
      rewrite H2. destruct (proj1 B2 eq_refl) as [C1 C2]. split.
      * intros [K1 K2]. split; [intros s [<-|I]; [exact C1|apply K1, I]|]. intros g I. apply in_app_iff in I as [I|I]; [apply C2, I|apply K2, I].
      * intros [K1 K2]. split; [intros s I; apply K1; right; exact I|]. intros g I. apply K2, in_app_iff. auto.
    + injection H as <- <-. split; [discriminate|]. split; [discriminate|]. intros [K1 K2].
      assert (Err (A := unit) e = Ok tt); [|discriminate]. apply B2. split; [apply K1; left; reflexivity|]. intros g I. apply K2, in_app_iff. auto.
    + injection H as <- <-. split; [discriminate|]. split; [discriminate|]. intros [K1 K2].
      assert (Panic (E := perror) (A := unit) = Ok tt); [|discriminate]. apply B2. split; [apply K1; left; reflexivity|]. intros g I. apply K2, in_app_iff. auto.
Qed.

Lemma accounted_init c ws : accounted c [] (PState 0 [] ws).
Proof.
  split; [constructor|]. split; [|exists []; split; [constructor|reflexivity]]. intros p x. split; [intros []|intros [t [[] _]]].
Qed.

Lemma parse_spec cfg sf : forall c, compile_config alphanumeric denied own cfg = Ok c ->
  exists ws r, parse cfg sf = (ws, r) /\
   ((exists n m, r = Ok (n, m)) <-> walkable_dirs sf /\ forall g, In g (visited sf) -> exists r, contributes_ok c g r) /\
   forall n m, r = Ok (n, m) -> accounted c (visited sf) (PState n m []).
Proof.
  intros c C. unfold M_Parsing.parse. rewrite C.
  destruct (visit_paths c _ _) as [st x] eqn:V. destruct (paths_spec c _ [] _ _ _ (accounted_init c _) V) as [H1 H2]. cbn [app] in H1.
  unfold walkable_dirs, visited. destruct x as [[]|e|].
  - eexists _, _. split; [reflexivity|]. split; [split; [intros _; apply H2; reflexivity|eauto]|]. intros n m E. injection E as <- <-.
    specialize (H1 eq_refl). destruct st. exact H1.
  - eexists _, _. split; [reflexivity|]. split; [|discriminate]. split; [intros [n [m E]]; discriminate|]. intros K. apply H2 in K. discriminate.
  - eexists _, _. split; [reflexivity|]. split; [|discriminate]. split; [intros [n [m E]]; discriminate|]. intros K. apply H2 in K. discriminate.
Qed.

(** ** C39 *)

Lemma parse_ok_config cfg sf ws n m : parse cfg sf = (ws, Ok (n, m)) -> exists c, compile_config alphanumeric denied own cfg = Ok c.
Proof.
  unfold M_Parsing.parse. destruct (compile_config alphanumeric denied own cfg) as [c|[]|]; intros H; try discriminate. eauto.
Qed.

(** Parsing a list of files gives, for each of the files looked at, exactly what parsing that file alone gives; in
    the order of the paths, each file once, however often and in whatever order they are named. *)
Theorem C39_each_file_alone : forall cfg sf ws n m,
  (forall p, is_file p = true -> is_dir p = false) ->
  parse cfg sf = (ws, Ok (n, m)) ->
  StronglySorted (fun a b => path_compare (fst a) (fst b) = Lt) m /\
  forall p x, In (p, x) m <-> In (root ++ p) (visited sf) /\ exists ws' n', parse cfg [root ++ p] = (ws', Ok (n', [(p, x)])).
Proof.
  intros cfg sf ws n m FD H. destruct (parse_ok_config _ _ _ _ _ H) as [c C].
  destruct (parse_spec cfg sf c C) as [ws0 [r [P [I A]]]]. rewrite H in P. injection P as <- <-.
  destruct (A n m eq_refl) as [S [M _]]. cbn [ps_map] in *. split; [exact S|].
  destruct (proj1 I (ex_intro _ n (ex_intro _ m eq_refl))) as [_ G].
  intros p x. rewrite M.
  assert (Alone : In (root ++ p) (visited sf) -> forall t, contributes_ok c (root ++ p) (Some (t, x)) <-> 
     exists ws' n', parse cfg [root ++ p] = (ws', Ok (n', [(p, x)])) /\ n' = length t /\ contributes_ok c (root ++ p) (Some (t, x))).
  { intros V t. split; [|intros [? [? [_ [_ K]]]]; exact K]. intros K.
    assert (F : is_file (root ++ p) = true).
    { unfold visited in V. apply in_flat_map in V as [s [_ V]]. unfold files_in in V. destruct (is_dir s).
      - apply in_flat_map in V as [[q|] [_ V]]; [|destruct V]. destruct (is_file q) eqn:Q; [|destruct V]. destruct V as [<-|[]]. exact Q.
      - destruct (is_file s) eqn:Q; [|destruct V]. destruct V as [<-|[]]. exact Q. }
    assert (D := FD _ F).
    destruct (parse_spec cfg [root ++ p] c C) as [ws1 [r1 [P1 [I1 A1]]]].
    assert (VV : visited [root ++ p] = [root ++ p]) by (unfold visited, files_in; cbn [flat_map]; rewrite D, F; reflexivity).
    assert (O : exists n' m', r1 = Ok (n', m')).
    { apply I1. split; [intros s [<-|[]] D'; congruence|]. rewrite VV. intros g [<-|[]]. eauto. }
    destruct O as [n' [m' ->]]. destruct (A1 n' m' eq_refl) as [S1 [M1 [rs [R T]]]]. cbn [ps_map ps_tests] in *. rewrite VV in *.
    assert (E : m' = [(p, x)]).
    { apply sorted_ext; [exact S1|repeat constructor|]. intros [q y]. rewrite M1. split.
      - intros [t' [[E|[]] K']]. apply app_inv_head in E. subst q. pose proof (contributes_det _ _ _ _ K K') as Q. injection Q as _ <-. left. reflexivity.
      - intros [E|[]]. injection E as <- <-. exists t. split; [left; reflexivity|exact K]. }
    subst m'. exists ws1, n'. split; [exact P1|]. split; [|exact K].
    inversion R as [|? r0 ? ? K0 R0]; subst. inversion R0; subst. pose proof (contributes_det _ _ _ _ K K0) as <-. cbn. lia. }
  split.
  - intros [t [V K]]. split; [exact V|]. apply (Alone V) in K as [ws' [n' [K _]]]. eauto.
  - intros [V [ws' [n' K]]]. destruct (G _ V) as [[[t y]|] Kc].
    + exists t. split; [exact V|]. destruct (parse_spec cfg [root ++ p] c C) as [ws1 [r1 [P1 [_ A1]]]]. rewrite K in P1. injection P1 as <- <-.
      destruct (A1 _ _ eq_refl) as [_ [M1 _]]. cbn [ps_map] in M1. destruct (proj1 (M1 p x) (or_introl eq_refl)) as [t' [_ K']].
      pose proof (contributes_det _ _ _ _ Kc K') as E. injection E as _ ->. exact Kc.
    + destruct (parse_spec cfg [root ++ p] c C) as [ws1 [r1 [P1 [_ A1]]]]. rewrite K in P1. injection P1 as <- <-.
      destruct (A1 _ _ eq_refl) as [_ [M1 _]]. cbn [ps_map] in M1. destruct (proj1 (M1 p x) (or_introl eq_refl)) as [t' [_ K']].
      pose proof (contributes_det _ _ _ _ Kc K') as E. discriminate.
Qed.

(** Only the set of the files looked at matters. *)
Theorem C39_only_the_set : forall cfg sf sf' ws ws' n n' m m',
  parse cfg sf = (ws, Ok (n, m)) -> parse cfg sf' = (ws', Ok (n', m')) ->
  (forall f, In f (visited sf) <-> In f (visited sf')) -> m = m'.
Proof.
  intros cfg sf sf' ws ws' n n' m m' H H' V. destruct (parse_ok_config _ _ _ _ _ H) as [c C].
  destruct (parse_spec cfg sf c C) as [ws0 [r [P [_ A]]]]. rewrite H in P. injection P as <- <-.
  destruct (parse_spec cfg sf' c C) as [ws1 [r [P' [_ A']]]]. rewrite H' in P'. injection P' as <- <-.
  destruct (A n m eq_refl) as [S [M _]]. destruct (A' n' m' eq_refl) as [S' [M' _]]. cbn [ps_map] in *.
  apply sorted_ext; [exact S|exact S'|]. intros [p x]. rewrite M, M'. split; intros [t [I K]]; exists t; (split; [apply V, I|exact K]).
Qed.

(** Whether the parse as a whole succeeds depends on each file on its own: it does iff the configuration is legal,
    the directories can be walked, and each file looked at can be parsed alone. *)
Theorem C39_succeeds_iff : forall cfg sf, (forall p, is_file p = true -> is_dir p = false) ->
  ((exists ws n m, parse cfg sf = (ws, Ok (n, m))) <->
   (exists c, compile_config alphanumeric denied own cfg = Ok c) /\ walkable_dirs sf /\
   forall f, In f (visited sf) -> exists ws n m, parse cfg [f] = (ws, Ok (n, m))).
Proof.
  intros cfg sf FD.
  assert (Alone : forall c f, compile_config alphanumeric denied own cfg = Ok c -> In f (visited sf) ->
     ((exists r, contributes_ok c f r) <-> exists ws n m, parse cfg [f] = (ws, Ok (n, m)))).
  { intros c f C V.
    assert (F : is_file f = true).
    { unfold visited in V. apply in_flat_map in V as [s [_ V]]. unfold files_in in V. destruct (is_dir s).
      - apply in_flat_map in V as [[q|] [_ V]]; [|destruct V]. destruct (is_file q) eqn:Q; [|destruct V]. destruct V as [<-|[]]. exact Q.
      - destruct (is_file s) eqn:Q; [|destruct V]. destruct V as [<-|[]]. exact Q. }
    assert (D := FD _ F). destruct (parse_spec cfg [f] c C) as [ws1 [r1 [P1 [I1 _]]]].
    assert (VV : visited [f] = [f]) by (unfold visited, files_in; cbn [flat_map]; rewrite D, F; reflexivity). rewrite VV in I1. split.
    - intros K. destruct (proj2 I1) as [n [m ->]]; [|eauto]. split; [intros s [<-|[]] D'; congruence|]. intros g [<-|[]]. exact K.
    - intros [ws [n [m K]]]. rewrite K in P1. injection P1 as <- <-. apply I1; [eauto|left; reflexivity]. }
  split.
  - intros [ws [n [m H]]]. destruct (parse_ok_config _ _ _ _ _ H) as [c C]. split; [eauto|].
    destruct (parse_spec cfg sf c C) as [ws0 [r [P [I _]]]]. rewrite H in P. injection P as <- <-.
    destruct (proj1 I) as [W G]; [eauto|]. split; [exact W|]. intros f V. apply (Alone c f C V), G, V.
  - intros [[c C] [W G]]. destruct (parse_spec cfg sf c C) as [ws0 [r [P [I _]]]].
    destruct (proj2 I) as [n [m ->]]; [|eauto]. split; [exact W|]. intros f V. apply (Alone c f C V), G, V.
Qed.

(** The number of tests reported is the sum over the files looked at, when none is looked at twice. *)
Theorem C39_number_of_tests : forall cfg sf ws n m, (forall p, is_file p = true -> is_dir p = false) ->
  parse cfg sf = (ws, Ok (n, m)) ->
  exists ns, n = list_sum ns /\ Forall2 (fun f k => exists ws' m', parse cfg [f] = (ws', Ok (k, m'))) (visited sf) ns.
Proof.
  intros cfg sf ws n m FD H. destruct (parse_ok_config _ _ _ _ _ H) as [c C].
  destruct (parse_spec cfg sf c C) as [ws0 [r [P [I A]]]]. rewrite H in P. injection P as <- <-.
  destruct (A n m eq_refl) as [_ [_ [rs [R T]]]]. cbn [ps_tests] in T. exists (map tests_of rs). split; [exact T|].
  assert (Fs : Forall (fun f => is_file f = true) (visited sf)).
  { apply Forall_forall. intros f V. unfold visited in V. apply in_flat_map in V as [s [_ V]]. unfold files_in in V. destruct (is_dir s).
      - apply in_flat_map in V as [[q|] [_ V]]; [|destruct V]. destruct (is_file q) eqn:Q; [|destruct V]. destruct V as [<-|[]]. exact Q.
      - destruct (is_file s) eqn:Q; [|destruct V]. destruct V as [<-|[]]. exact Q. }
  clear - R Fs FD C. induction R as [|f r fs rs K R IH]; cbn [map]; [constructor|]. inversion Fs as [|? ? F Fs']; subst.
  constructor; [|apply IH, Fs'].
  assert (D := FD _ F). destruct (parse_spec cfg [f] c C) as [ws1 [r1 [P1 [I1 A1]]]].
  assert (VV : visited [f] = [f]) by (unfold visited, files_in; cbn [flat_map]; rewrite D, F; reflexivity). rewrite VV in *.
  destruct (proj2 I1) as [k [m' ->]]; [split; [intros s [<-|[]] D'; congruence|intros g [<-|[]]; eauto]|].
  destruct (A1 k m' eq_refl) as [_ [_ [rs1 [R1 T1]]]]. cbn [ps_tests] in T1. inversion R1 as [|? r0 ? ? K0 R0]; subst. inversion R0; subst.
  pose proof (contributes_det _ _ _ _ K K0) as <-. cbn in P1. rewrite Nat.add_0_r in P1. eauto.
Qed.

(** ** From the files to the candidates *)

(** [E] is what the walk over a file with text [contents] goes by: the patterns of the framework and of the user's
    configuration, the two options, the local functions, the skip comments. *)
Record in_force (cfg : toml) (contents : text) (f : pfile) (E : venv) : Prop := {
  if_framework : v_fw E = fw;
  if_contents : v_contents E = contents;
  if_functions : forall name, v_ign_fun E name = true <->
    exists q, ((exists qs, b_functions own = Some qs /\ In q qs) \/ In q (t_functions cfg)) /\ glob q name;
  if_macros : forall name, v_ign_mac E name = true <->
    exists q, ((exists qs, b_macros own = Some qs /\ In q qs) \/ In q (t_macros cfg)) /\ glob q name;
  if_methods : forall name, v_ign_met E name = true <->
    exists q, ((exists qs, b_methods own = Some qs /\ In q qs) \/ In q (t_methods cfg)) /\ method_glob q name;
  if_tests : forall name, v_ign_test E name = true <-> In name (t_tests cfg);
  if_arguments : v_visit_args E = true <-> t_visit_args cfg = Some true;
  if_disambiguation : v_disamb E = match t_disambiguation cfg with Some d => d | None => DNone end;
  if_walkable : forall name fs, (exists q, In q (t_walkable cfg) /\ glob q name) ->
    find (fun e => text_eqb (fst e) name) (pf_locals f) = Some (name, fs) -> v_walkable E name = fs;
  if_walkable_only : forall name, v_walkable E name <> [] -> (exists q, In q (t_walkable cfg) /\ glob q name) /\ In (name, v_walkable E name) (pf_locals f);
  if_skip : scalars contents -> forall sp before mid after, between contents (sp_start sp) (sp_end sp) before mid after ->
    (v_skip E sp = true <-> exists k l, code_offset mid k /\ line_at contents (line (sp_start sp) + k - 1) l /\ skip_comment alphanumeric l)
}.

Lemma own_in (l : option (list text)) q : (match l with Some ps => In q ps | None => False end) <-> exists qs, l = Some qs /\ In q qs.
Proof. destruct l as [ps|]; split; [eauto|intros [qs [E I]]; injection E as <-; exact I|intros []|intros [qs [E _]]; discriminate]. Qed.

Lemma in_force_env cfg c ws d contents f : (forall x, alphanumeric x = true -> is_meta x = false) ->
  compile_config alphanumeric denied own cfg = Ok c -> collect alphanumeric denied contents = (ws, Ok d) ->
  in_force cfg contents f (file_env fw c d contents f).
Proof.
  intros AL C D.
  assert (X : forall name, _) by (intros name; exact (proj2 (C27_effective alphanumeric AL denied own cfg) c name C)). cbv zeta in X.
  constructor; cbn [file_env v_fw v_contents v_ign_fun v_ign_mac v_ign_met v_ign_test v_visit_args v_disamb v_walkable v_skip]; try reflexivity.
  - intros name. rewrite any_match_b_spec. etransitivity; [apply X|]. split; intros [q [Q G]]; exists q; (split; [|exact G]); rewrite own_in in *; exact Q.
  - intros name. rewrite any_match_b_spec. etransitivity; [apply X|]. split; intros [q [Q G]]; exists q; (split; [|exact G]); rewrite own_in in *; exact Q.
  - intros name. rewrite any_match_b_spec. etransitivity; [apply X|]. split; intros [q [Q G]]; exists q; (split; [|exact G]); rewrite own_in in *; exact Q.
  - intros name. rewrite mem_text_In. apply X.
  - destruct (X []) as [_ [_ [_ [_ [_ [_ ->]]]]]]. destruct (t_visit_args cfg) as [[|]|]; split; congruence.
  - apply (X []).
  - intros name fs Q Fi. destruct (X name) as [_ [_ [_ [W _]]]]. apply W in Q. apply any_match_b_spec in Q. rewrite Q. unfold lookup_local. rewrite Fi. reflexivity.
  - intros name N. destruct (any_match_b (c_walkable c) name) eqn:Q; [|congruence]. apply any_match_b_spec in Q. split; [apply X, Q|].
    unfold lookup_local in *. destruct (find _ (pf_locals f)) as [[x fs]|] eqn:Fi; [|congruence].
    apply find_some in Fi as [Fi E]. cbn [fst] in E. apply text_eqb_eq in E. subst x. exact Fi.
  - intros Sc sp before mid after B. destruct (C28_skip_iff alphanumeric denied contents ws d sp before mid after Sc D B) as [b [-> H]]. exact H.
Qed.


(** The file is marked to be skipped as a whole. *)
Definition marked (contents : text) : Prop :=
  exists k l, line_at contents k l /\ skip_file_comment alphanumeric l /\ forall j l', (j < k)%nat -> line_at contents j l' -> S_Directives.header l'.

Lemma loop_fuel_any E fuel r st : visit_file E fuel r = LDone st -> result E r st.
Proof. intros H. exists fuel. exact H. Qed.

(** The candidates of a file are those that the walk over the parser's tree yields, with the configuration and the
    comments in force: the theorems C29-C38 speak about them. *)
Theorem C39_from_files_to_candidates : forall cfg sf ws n m, (forall x, alphanumeric x = true -> is_meta x = false) ->
  parse cfg sf = (ws, Ok (n, m)) -> forall p x, In (p, x) m ->
   In (root ++ p) (visited sf) /\
   exists contents f E st, read (root ++ p) = Some contents /\ ~ marked contents /\ parse_file p contents = Some f /\
     in_force cfg contents f E /\ result E (pf_root f) st /\ x = s_maps st.
Proof.
  intros cfg sf ws n m AL H p x I. destruct (parse_ok_config _ _ _ _ _ H) as [c C].
  destruct (parse_spec cfg sf c C) as [ws0 [r [P [_ A]]]]. rewrite H in P. injection P as <- <-.
  destruct (A n m eq_refl) as [_ [M _]]. cbn [ps_map] in M. apply M in I. destruct I as [t [V [p' [contents [ws1 [E [R K]]]]]]].
  apply app_inv_head in E. subst p'. split; [exact V|]. unfold M_Parsing.visit_one in K.
  destruct (collect alphanumeric denied contents) as [dws [d|w|]] eqn:D; try discriminate.
  destruct (d_skip_file d) eqn:SF; [discriminate|]. destruct (parse_file p contents) as [f|] eqn:PF; [|destruct (denied WParsingFailed); discriminate].
  destruct (visit_file (file_env fw c d contents f) (enough f) (pf_root f)) as [st| |] eqn:VF; try discriminate.
  exists contents, f, (file_env fw c d contents f), st. split; [exact R|].
  split; [intros Mk; apply (C28_skip_file_iff alphanumeric denied contents dws d D) in Mk; congruence|].
  split; [exact PF|]. split; [eapply in_force_env; eassumption|]. split; [exists (enough f); exact VF|].
  destruct (s_warn st); [|destruct (denied WLocalFunctionAmbiguous)]; try discriminate; injection K as _ _ <-; reflexivity.
Qed.

(** Which files have candidates listed at all (possibly none): those looked at that are not marked to be skipped and
    that the parser accepts. *)
Theorem C39_files_listed : forall cfg sf ws n m, parse cfg sf = (ws, Ok (n, m)) -> forall p, In (root ++ p) (visited sf) ->
  exists contents, read (root ++ p) = Some contents /\
    ((exists x, In (p, x) m) <-> ~ marked contents /\ exists f, parse_file p contents = Some f).
Proof.
  intros cfg sf ws n m H p V. destruct (parse_ok_config _ _ _ _ _ H) as [c C].
  destruct (parse_spec cfg sf c C) as [ws0 [r [P [Iff A]]]]. rewrite H in P. injection P as <- <-.
  destruct (A n m eq_refl) as [_ [M _]]. cbn [ps_map] in M. destruct (proj1 Iff) as [_ G]; [eauto|].
  destruct (G _ V) as [r [p' [contents [ws1 [E [R K]]]]]]. pose proof E as E'. apply app_inv_head in E'. subst p'.
  exists contents. split; [exact R|].
  assert (L : (exists x, In (p, x) m) <-> exists t x, r = Some (t, x)).
  { split.
    - intros [x I]. apply M in I as [t [_ K']]. exists t, x. eapply contributes_det; [|exact K']. exists p, contents, ws1. auto.
    - intros [t [x ->]]. exists x. apply M. exists t. split; [exact V|]. exists p, contents, ws1. auto. }
  rewrite L. clear - K. unfold M_Parsing.visit_one in K.
  destruct (collect alphanumeric denied contents) as [dws [d|w|]] eqn:D; try discriminate.
  pose proof (C28_skip_file_iff alphanumeric denied contents dws d D) as SF. fold (marked contents) in SF. destruct (d_skip_file d).
  - injection K as _ <-. split; [intros [t [x Q]]; discriminate|]. intros [N _]. destruct N. apply SF. reflexivity.
  - assert (NM : ~ marked contents) by (intros Q; apply SF in Q; discriminate).
    destruct (parse_file p contents) as [f|].
    + destruct (visit_file (file_env fw c d contents f) (enough f) (pf_root f)) as [st| |]; try discriminate.
      assert (exists t x, r = Some (t, x)).
      { destruct (s_warn st); [|destruct (denied WLocalFunctionAmbiguous)]; try discriminate; injection K as _ <-; eauto. }
      split; [|auto]. intros _. split; [exact NM|eauto].
    + destruct (denied WParsingFailed); [discriminate|]. injection K as _ <-. split; [intros [t [x Q]]; discriminate|intros [_ [f Q]]; discriminate].
Qed.

(** No candidate lies under a skip comment. *)
Theorem C39_nothing_under_skip : forall cfg sf ws n m, (forall x, alphanumeric x = true -> is_meta x = false) ->
  parse cfg sf = (ws, Ok (n, m)) -> forall p x k sp t contents before mid after j l,
  In (p, x) m -> lists x k sp t -> read (root ++ p) = Some contents -> scalars contents ->
  between contents (sp_start sp) (sp_end sp) before mid after ->
  (forall f E, parse_file p contents = Some f -> in_force cfg contents f E -> parsed E (pf_root f)) ->
  code_offset mid j -> line_at contents (line (sp_start sp) + j - 1) l -> ~ skip_comment alphanumeric l.
Proof.
  intros cfg sf ws n m AL H p x k sp t contents before mid after j l I L R Sc B Pd Co La Sk.
  destruct (C39_from_files_to_candidates cfg sf ws n m AL H p x I) as [_ [contents' [f [E [st [R' [_ [PF [Fo [Re ->]]]]]]]]]].
  rewrite R in R'. injection R' as <-. specialize (Pd f E PF Fo).
  assert (F : v_skip E sp = false).
  { destruct k; [destruct (statement_origin E (pf_root f) st Pd Re sp t L) as (? & ? & ? & ? & _ & _ & _ & _ & K & _)
                |destruct (method_origin E (pf_root f) st Pd Re sp t L) as (? & ? & ? & ? & ? & _ & _ & _ & K & _)]; exact K. }
  assert (T : v_skip E sp = true) by (apply (if_skip _ _ _ _ Fo Sc sp before mid after B); eauto). congruence.
Qed.

End P.
Print Assumptions C39_each_file_alone.
Print Assumptions C39_only_the_set.
Print Assumptions C39_succeeds_iff.
Print Assumptions C39_number_of_tests.
Print Assumptions C39_from_files_to_candidates.
Print Assumptions C39_files_listed.
Print Assumptions C39_nothing_under_skip.

(** ** What is not so: the number of tests when a file is looked at twice *)
Definition y_root : path := [s2t "r"].
Definition y_read (p : path) : option text :=
  if path_eqb p [s2t "r"; s2t "a"] then Some g_ct
  else if path_eqb p [s2t "r"; s2t "b"] then Some (s2t "// necessist: skip-file" ++ [NL] ++ g_ct)
  else if path_eqb p [s2t "r"; s2t "c"] then Some (s2t "(") else None.
Definition y_is_file (p : path) : bool := match y_read p with Some _ => true | None => false end.
Definition y_is_dir (p : path) : bool := path_eqb p y_root.
Definition y_walk (p : path) : list (option path) := [Some [s2t "r"; s2t "a"]; Some [s2t "r"; s2t "d"]; Some [s2t "r"; s2t "c"]; Some [s2t "r"; s2t "b"]].
Definition y_parser (p : path) (t : text) : option pfile := if text_eqb t (s2t "(") then None else Some (PFile g_root [(s2t "h", [g_h])]).
Definition y_cfg : toml := Toml [s2t "f"] [] [] None [] None [s2t "h*"].
Definition y_parse (sf : list path) := parse ascii_alphanumeric fw_go go_builtin y_parser (fun _ => false) y_root y_read y_is_dir y_is_file y_walk y_cfg sf.

(** By default the root is walked: [a] has candidates, [b] is marked, [c] is warned about and has none. *)
Example y_default : y_parse [] = ([PWParsingFailed [s2t "c"]], Ok (1%nat, [([s2t "a"], s_maps g_st)])).
Proof. vm_compute. reflexivity. Qed.
Example y_visited : visited y_root y_is_dir y_is_file y_walk [] = [[s2t "r"; s2t "a"]; [s2t "r"; s2t "c"]; [s2t "r"; s2t "b"]].
Proof. vm_compute. reflexivity. Qed.
Example y_files_not_dirs : forall p, y_is_file p = true -> y_is_dir p = false.
Proof.
  intros p. unfold y_is_file, y_is_dir, y_root. destruct (path_eqb p [s2t "r"]) eqn:E; [|reflexivity].
  apply path_eqb_eq in E. subst p. vm_compute. discriminate.
Qed.
Example y_ascii : forall x, ascii_alphanumeric x = true -> is_meta x = false.
Proof. exact ascii_literal. Qed.
Example y_nonempty : lists (s_maps g_st) Statement (xsp 1 20 24) (s2t "TestT").
Proof. apply lists_dec. vm_compute. reflexivity. Qed.

(** Naming a file twice, or a directory and a file in it, counts the file's tests twice, although the candidates are
    the same: the claim "the number of tests reported is the number of the tests" is wrong. *)
Theorem C39_number_of_tests_refuted : exists fw own parser root read is_dir is_file walk cfg f ws n m,
  parse ascii_alphanumeric fw own parser (fun _ => false) root read is_dir is_file walk cfg [f] = (ws, Ok (n, m)) /\
  (exists ws' n', parse ascii_alphanumeric fw own parser (fun _ => false) root read is_dir is_file walk cfg [f; f] = (ws', Ok (n', m)) /\ n' <> n).
Proof.
  exists fw_go, go_builtin, y_parser, y_root, y_read, y_is_dir, y_is_file, y_walk, y_cfg, [s2t "r"; s2t "a"], [], 1%nat, [([s2t "a"], s_maps g_st)].
  split; [vm_compute; reflexivity|]. exists [], 2%nat. split; [vm_compute; reflexivity|discriminate].
Qed.
Print Assumptions C39_number_of_tests_refuted.
