(** Property theorems C73: the command line. *)
From Verif Require Import Base M_Text M_Span L_Span M_Run M_Output M_Options M_Cli S_Cli.
From Coq Require Import List Permutation Sorted.
Local Open Scope N_scope.
Local Open Scope list_scope.

(** ** Values from a list of names *)
Lemma from_str_In {A} (l : variants A) t a : from_str l t = Some a -> In (a, t) l.
Proof.
  induction l as [|[b n] l IH]; cbn [from_str]; [discriminate|]. destruct (text_eqb n t) eqn:E; intros H; [|right; apply IH, H].
  injection H as ->. apply text_eqb_eq in E. subst n. left. reflexivity.
Qed.
Lemma from_str_None {A} (l : variants A) t : from_str l t = None <-> ~ In t (map snd l).
Proof.
  induction l as [|[b n] l IH]; cbn [from_str map snd]; [split; [intros _ []|reflexivity]|]. destruct (text_eqb n t) eqn:E.
  - apply text_eqb_eq in E. split; [discriminate|]. intros H. destruct H. left. exact E.
  - apply text_eqb_neq in E. rewrite IH. cbn [In]. split; [intros H [K|K]; [exact (E K)|exact (H K)]|intros H K; apply H; right; exact K].
Qed.
Lemma name_insert_perm x l : Permutation (x :: l) (name_insert x l).
Proof.
  induction l as [|y l IH]; cbn [name_insert]; [reflexivity|]. destruct (text_compare y x); try reflexivity; (eapply perm_trans; [apply perm_swap|]; apply perm_skip, IH).
Qed.
Lemma name_sort_perm l : Permutation l (name_sort l).
Proof. induction l as [|x l IH]; cbn [name_sort fold_right]; [reflexivity|]. eapply perm_trans; [apply perm_skip, IH|]. apply name_insert_perm. Qed.
Definition name_le (a b : text) : Prop := text_compare a b <> Gt.
Lemma text_compare_opp a : forall b, text_compare b a = CompOpp (text_compare a b).
Proof.
  induction a as [|x a IH]; intros [|y b]; try reflexivity. cbn [text_compare]. rewrite (N.compare_antisym x y). destruct (N.compare x y); cbn [CompOpp]; [apply IH|reflexivity|reflexivity].
Qed.
Lemma name_insert_hd x l : forall y, name_le y x -> HdRel name_le y l -> HdRel name_le y (name_insert x l).
Proof. destruct l as [|z l]; intros y A B; cbn [name_insert]; [constructor; exact A|]. destruct (text_compare z x); constructor; try exact A; inversion B; assumption. Qed.
Lemma name_insert_sorted x l : Sorted name_le l -> Sorted name_le (name_insert x l).
Proof.
  induction 1 as [|y l Sl IH Hd]; cbn [name_insert]; [repeat constructor|]. destruct (text_compare y x) eqn:E.
  - constructor; [exact IH|]. apply name_insert_hd; [unfold name_le; rewrite E; discriminate|exact Hd].
  - constructor; [exact IH|]. apply name_insert_hd; [unfold name_le; rewrite E; discriminate|exact Hd].
  - constructor; [constructor; assumption|]. constructor. unfold name_le. rewrite text_compare_opp, E. discriminate.
Qed.
Lemma name_sort_sorted l : Sorted name_le (name_sort l).
Proof. induction l; cbn [name_sort fold_right]; [constructor|apply name_insert_sorted; assumption]. Qed.

Section Union.
Context {L R : Type} (ls : variants L) (rs : variants R).
Lemma union_from_str_some n : In n (map snd ls ++ map snd rs) -> exists v, union_from_str ls rs n = Some v.
Proof.
  intros H. unfold union_from_str. destruct (from_str ls n) eqn:E; [eexists; reflexivity|]. apply from_str_None in E. apply in_app_or in H. destruct H as [H|H]; [destruct (E H)|].
  destruct (from_str rs n) eqn:F; [eexists; reflexivity|]. apply from_str_None in F. destruct (F H).
Qed.
Lemma union_names : map snd (union_variants ls rs) = name_sort (map snd ls ++ map snd rs).
Proof.
  unfold union_variants. assert (H : forall n, In n (name_sort (map snd ls ++ map snd rs)) -> In n (map snd ls ++ map snd rs)) by (intros n; apply Permutation_in; symmetry; apply name_sort_perm).
  revert H. generalize (name_sort (map snd ls ++ map snd rs)) as l. induction l as [|n l IH]; intros H; [reflexivity|]. cbn [flat_map]. destruct (union_from_str_some n (H n (or_introl eq_refl))) as [v ->].
  cbn [app map snd]. f_equal. apply IH. intros m K. apply H. right. exact K.
Qed.
Lemma union_reads n : from_str (union_variants ls rs) n = union_from_str ls rs n.
Proof.
  destruct (from_str (union_variants ls rs) n) as [v|] eqn:E.
  - apply from_str_In in E. unfold union_variants in E. apply in_flat_map in E. destruct E as (m & _ & E). destruct (union_from_str ls rs m) as [u|] eqn:U; [|destruct E]. destruct E as [E|[]]. injection E as -> ->. symmetry. exact U.
  - apply from_str_None in E. rewrite union_names in E. destruct (union_from_str ls rs n) as [v|] eqn:U; [|reflexivity]. destruct E. eapply Permutation_in; [apply name_sort_perm|].
    unfold union_from_str in U. destruct (from_str ls n) as [l|] eqn:F.
    + apply in_or_app. left. apply from_str_In in F. apply (in_map snd) in F. exact F.
    + destruct (from_str rs n) as [r|] eqn:G; [|discriminate]. apply in_or_app. right. apply from_str_In in G. apply (in_map snd) in G. exact G.
Qed.
End Union.

(** Two sets of names, joined: the names are those of both, in alphabetical order, and a name reads as what it reads as on
    the left, or else on the right. *)
Theorem C73_union : forall (L R : Type) (ls : variants L) (rs : variants R),
  Permutation (map snd ls ++ map snd rs) (map snd (union_variants ls rs)) /\ Sorted name_le (map snd (union_variants ls rs)) /\
  (forall n l, from_str (union_variants ls rs) n = Some (inl l) <-> from_str ls n = Some l) /\
  (forall n r, from_str (union_variants ls rs) n = Some (inr r) <-> ~ In n (map snd ls) /\ from_str rs n = Some r).
Proof.
  intros L R ls rs. rewrite union_names. split; [apply name_sort_perm|]. split; [apply name_sort_sorted|]. split; intros n x; rewrite union_reads; unfold union_from_str.
  - destruct (from_str ls n) as [l|]; cbn; [split; intros H; inversion H; reflexivity|]. destruct (from_str rs n); cbn; split; discriminate.
  - rewrite <- from_str_None. destruct (from_str ls n) as [l|]; cbn; [split; [discriminate|intros [H _]; discriminate H]|]. destruct (from_str rs n); cbn; split; try discriminate; try (intros [_ H]; inversion H; reflexivity); intros H; inversion H; auto.
Qed.
Print Assumptions C73_union.

Lemma reads_warning_iff v w : from_str warning_variants v = Some w <-> reads_warning v w.
Proof.
  unfold reads_warning. split.
  - intros H. apply from_str_In in H. unfold warning_variants in H. apply in_map_iff in H. destruct H as (x & H & _). injection H as -> <-. reflexivity.
  - intros ->. destruct w; vm_compute; reflexivity.
Qed.
Lemma reads_auto_iff v x : from_str auto_variants v = Some x <-> reads_framework v (match x with inl _ => None | inr f => Some f end).
Proof.
  unfold auto_variants. rewrite union_reads. split.
  - unfold union_from_str. destruct (from_str singleton_variants v) as [l|] eqn:E.
    + intros H. injection H as <-. apply from_str_In in E. destruct E as [E|[]]. injection E as _ <-. reflexivity.
    + destruct (from_str identifier_variants v) as [f|] eqn:F; [|discriminate]. intros H. injection H as <-. apply from_str_In in F. unfold identifier_variants in F. apply in_map_iff in F.
      destruct F as (g & F & _). injection F as -> <-. destruct f; vm_compute; reflexivity.
  - destruct x as [[]|f]; cbn [reads_framework]; intros ->; [vm_compute; reflexivity|]. destruct f; vm_compute; reflexivity.
Qed.
Lemma long_iff n o : from_str long_opts n = Some o <-> n = opt_name o.
Proof.
  split.
  - intros H. apply from_str_In in H. unfold long_opts in H. apply in_map_iff in H. destruct H as (x & H & _). injection H as -> <-. reflexivity.
  - intros ->. destruct o; vm_compute; reflexivity.
Qed.
Lemma opt_name_inj a b : opt_name a = opt_name b -> a = b.
Proof. intros H. apply long_iff in H. assert (K : from_str long_opts (opt_name a) = Some a) by (apply long_iff; reflexivity). congruence. Qed.
Lemma flag_name_iff n : In n flag_names <-> exists o, takes_value o = false /\ n = opt_name o.
Proof.
  split.
  - intros H. unfold flag_names in H. cbn [map In] in H.
    repeat (destruct H as [H|H]; [subst n;
      first [exists ODefaultConfig; split; reflexivity|exists ODump; split; reflexivity|exists ODumpCandidateCounts; split; reflexivity|exists ODumpCandidates; split; reflexivity|exists OFindSkill; split; reflexivity
            |exists ONoLinesOrColumns; split; reflexivity|exists ONoLocalFunctions; split; reflexivity|exists ONoSqlite; split; reflexivity|exists OQuiet; split; reflexivity|exists OReset; split; reflexivity|exists OResume; split; reflexivity
            |exists OVerbose; split; reflexivity|exists OWrite; split; reflexivity]|]). destruct H.
  - intros (o & T & ->). apply mem_text_In. destruct o; try discriminate; vm_compute; reflexivity.
Qed.
Lemma value_name_iff n : In n value_names <-> exists o, takes_value o = true /\ n = opt_name o.
Proof.
  split.
  - intros H. unfold value_names in H. cbn [map In] in H.
    repeat (destruct H as [H|H]; [subst n;
      first [exists OAllow; split; reflexivity|exists OCheckSkill; split; reflexivity|exists ODeny; split; reflexivity|exists OFramework; split; reflexivity|exists ORoot; split; reflexivity|exists OTimeout; split; reflexivity]|]). destruct H.
  - intros (o & T & ->). apply mem_text_In. destruct o; try discriminate; vm_compute; reflexivity.
Qed.

(** ** Words *)
Lemma split_equals_spec t : forall n v, split_equals t = (n, v) -> t = n ++ match v with Some x => EQUALS :: x | None => [] end.
Proof.
  induction t as [|c t IH]; intros n v; cbn [split_equals]; [intros H; injection H as <- <-; reflexivity|]. destruct (c =? EQUALS) eqn:E.
  - intros H. injection H as <- <-. apply N.eqb_eq in E. subst c. reflexivity.
  - destruct (split_equals t) as [a b] eqn:F. intros H. injection H as <- <-. cbn [app]. f_equal. apply IH. reflexivity.
Qed.
Lemma split_equals_name (n v : text) : forallb (fun c : char => negb (c =? EQUALS)) n = true -> split_equals (n ++ EQUALS :: v) = (n, Some v).
Proof. induction n as [|c n IH]; cbn [forallb app split_equals]; [reflexivity|]. intros H. apply andb_prop in H. destruct H as [A B]. destruct (c =? EQUALS); [discriminate|]. rewrite (IH B). reflexivity. Qed.
Lemma split_equals_none (n : text) : forallb (fun c : char => negb (c =? EQUALS)) n = true -> split_equals n = (n, None).
Proof. induction n as [|c n IH]; cbn [forallb split_equals]; [reflexivity|]. intros H. apply andb_prop in H. destruct H as [A B]. destruct (c =? EQUALS); [discriminate|]. rewrite (IH B). reflexivity. Qed.
Lemma name_no_equals o : forallb (fun c : char => negb (c =? EQUALS)) (opt_name o) = true.
Proof. destruct o; vm_compute; reflexivity. Qed.
Lemma dashed_plain t : dashed t = false <-> plain t.
Proof.
  unfold plain. destruct t as [|c [|d t]]; cbn [dashed]; [split; [intros _ c r; discriminate|reflexivity]|split; [intros _ c' r; discriminate|reflexivity]|]. split.
  - intros E c' r H. injection H as -> -> ->. rewrite N.eqb_refl in E. discriminate.
  - intros H. destruct (c =? DASH) eqn:E; [|reflexivity]. apply N.eqb_eq in E. subst c. destruct (H d t eq_refl).
Qed.

(** ** Items *)
Definition react (i : item) (m : matches) : option matches :=
  match i with
  | IFlag n => match from_str long_opts n with Some o => react_flag o m | None => None end
  | ISet n v _ => match from_str long_opts n with Some o => react_value o v m | None => None end
  | IFile f => react_file f m
  end.
Lemma words_read i rest m : item_ok i -> read_words (words_of i ++ rest) m = match react i m with Some m' => read_words rest m' | None => PUsage end.
Proof.
  destruct i as [n|n v e|f]; cbn [item_ok words_of react].
  - intros H. apply flag_name_iff in H. destruct H as (o & T & ->). cbn [app read_words].
    replace (text_eqb (s2t "--" ++ opt_name o) [DASH; DASH]) with false by (destruct o; vm_compute; reflexivity).
    change (strip_prefix [DASH; DASH] (s2t "--" ++ opt_name o)) with (Some (opt_name o)). cbv beta iota. rewrite (split_equals_none _ (name_no_equals o)).
    replace (from_str long_opts (opt_name o)) with (Some o) by (symmetry; apply long_iff; reflexivity). rewrite T. reflexivity.
  - intros [H P]. apply value_name_iff in H. destruct H as (o & T & ->). destruct e; cbn [app].
    + cbn [read_words]. replace (text_eqb (s2t "--" ++ opt_name o ++ s2t "=" ++ v) [DASH; DASH]) with false by (destruct o; vm_compute; reflexivity).
      change (strip_prefix [DASH; DASH] (s2t "--" ++ opt_name o ++ s2t "=" ++ v)) with (Some (opt_name o ++ EQUALS :: v)). cbv beta iota. rewrite (split_equals_name _ v (name_no_equals o)).
      replace (from_str long_opts (opt_name o)) with (Some o) by (symmetry; apply long_iff; reflexivity). rewrite T. reflexivity.
    + cbn [read_words]. replace (text_eqb (s2t "--" ++ opt_name o) [DASH; DASH]) with false by (destruct o; vm_compute; reflexivity).
      change (strip_prefix [DASH; DASH] (s2t "--" ++ opt_name o)) with (Some (opt_name o)). cbv beta iota. rewrite (split_equals_none _ (name_no_equals o)).
      replace (from_str long_opts (opt_name o)) with (Some o) by (symmetry; apply long_iff; reflexivity). rewrite T. specialize (P eq_refl). apply dashed_plain in P. rewrite P. reflexivity.
  - intros [P N]. cbn [app read_words]. destruct (text_eqb f [DASH; DASH]) eqn:E; [apply text_eqb_eq in E; destruct (P _ _ E)|].
    destruct (strip_prefix [DASH; DASH] f) as [b|] eqn:F; [apply strip_prefix_spec in F; destruct (P _ _ F)|]. apply dashed_plain in P. rewrite P. reflexivity.
Qed.

(** What has been read so far. *)
Record inv (items : list item) (m : matches) : Prop := Inv {
  i_once : NoDup (flags_in items);
  i_flags : forall o, m_flags m o = true <-> takes_value o = false /\ In (opt_name o) (flags_in items);
  i_allow : Forall2 (fun v w => from_str warning_variants v = Some w) (values (opt_name OAllow) items) (m_allow m);
  i_deny : Forall2 (fun v w => from_str warning_variants v = Some w) (values (opt_name ODeny) items) (m_deny m);
  i_check : given (fun v p => path_value v = Some p) (values (opt_name OCheckSkill) items) (m_check_skill m);
  i_framework : given (fun v p => from_str auto_variants v = Some p) (values (opt_name OFramework) items) (m_framework m);
  i_root : given (fun v p => path_value v = Some p) (values (opt_name ORoot) items) (m_root m);
  i_timeout : given (fun v p => parse_usize v = Some p) (values (opt_name OTimeout) items) (m_timeout m);
  i_files : Forall2 (fun v p => path_value v = Some p) (files_in items) (m_files m);
  i_args : m_args m = []
}.
Lemma values_app n a b : values n (a ++ b) = values n a ++ values n b.
Proof. induction a as [|[f|k v e|f] a IH]; cbn [app values]; try exact IH; [reflexivity|]. destruct (text_eqb k n); [cbn [app]; f_equal|]; exact IH. Qed.
Lemma flags_app a b : flags_in (a ++ b) = flags_in a ++ flags_in b.
Proof. induction a as [|[f|k v e|f] a IH]; cbn [app flags_in]; try exact IH; [reflexivity|]. f_equal. exact IH. Qed.
Lemma files_app a b : files_in (a ++ b) = files_in a ++ files_in b.
Proof. induction a as [|[f|k v e|f] a IH]; cbn [app files_in]; try exact IH; [reflexivity|]. f_equal. exact IH. Qed.
Lemma opt_eqb_iff a b : opt_eqb a b = true <-> a = b.
Proof. unfold opt_eqb. destruct (opt_eq_dec a b); split; congruence. Qed.

Lemma inv_start : inv [] no_matches.
Proof. constructor; cbn; try constructor; try discriminate. intros [_ []]. Qed.
Lemma given_grow {A} (reads : text -> option A) vs old v new : given (fun v a => reads v = Some a) vs old -> once old (reads v) = Some new -> given (fun v a => reads v = Some a) (vs ++ [v]) (Some new).
Proof. intros G H. destruct G as [|x a X]; cbn [once] in H; [|discriminate]. cbn [app]. constructor. exact H. Qed.
Lemma inv_react items m i m' : inv items m -> item_ok i -> react i m = Some m' -> inv (items ++ [i]) m'.
Proof.
  intros I K. destruct i as [n|n v e|f]; cbn [item_ok react] in *.
  - apply flag_name_iff in K. destruct K as (o & T & ->). replace (from_str long_opts (opt_name o)) with (Some o) by (symmetry; apply long_iff; reflexivity). unfold react_flag. destruct (m_flags m o) eqn:F; [discriminate|].
    intros H. injection H as <-. destruct I. constructor; cbn [m_flags m_allow m_deny m_check_skill m_framework m_root m_timeout m_files m_args]; rewrite ?values_app, ?flags_app, ?files_app; cbn [values flags_in files_in]; rewrite ?app_nil_r; try assumption.
    + apply NoDup_Add with (a := opt_name o) (l := flags_in items); [apply Add_app_nil || (rewrite <- (app_nil_r (flags_in items)) at 1; apply Add_app)|]. split; [assumption|].
      intros H. assert (X : m_flags m o = true) by (apply i_flags0; auto). congruence.
    + intros x. rewrite Bool.orb_true_iff, opt_eqb_iff, i_flags0, in_app_iff. cbn [In]. split.
      * intros [<-|[A B]]; auto.
      * intros [A [B|[B|[]]]]; [right; auto|]. left. apply opt_name_inj, B.
  - destruct K as [K _]. apply value_name_iff in K. destruct K as (o & T & ->). replace (from_str long_opts (opt_name o)) with (Some o) by (symmetry; apply long_iff; reflexivity). intros H. destruct I.
    destruct o; try discriminate T; cbn [react_value] in H;
    match type of H with option_map _ ?x = _ => destruct x as [new|] eqn:X; [|discriminate H] end; injection H as <-;
    constructor; cbn [m_flags m_allow m_deny m_check_skill m_framework m_root m_timeout m_files m_args]; rewrite ?values_app, ?flags_app, ?files_app; cbn [values flags_in files_in];
    repeat match goal with |- context [text_eqb (opt_name ?a) (opt_name ?b)] => let r := eval vm_compute in (text_eqb (opt_name a) (opt_name b)) in replace (text_eqb (opt_name a) (opt_name b)) with r by (vm_compute; reflexivity) end;
    cbv beta iota; rewrite ?app_nil_r; try assumption; try (apply Forall2_app; [assumption|constructor; [exact X|constructor]]); try (eapply given_grow; eassumption).
  - intros H. unfold react_file in H. destruct (path_value f) as [p|] eqn:P; [|discriminate]. injection H as <-. destruct I.
    constructor; cbn [m_flags m_allow m_deny m_check_skill m_framework m_root m_timeout m_files m_args]; rewrite ?values_app, ?flags_app, ?files_app; cbn [values flags_in files_in]; rewrite ?app_nil_r; try assumption.
    apply Forall2_app; [assumption|]. constructor; [exact P|constructor].
Qed.

(** Reading goes on as long as the whole makes sense. *)
Lemma given_split {A} (P : text -> A -> Prop) a v b x : given P (a ++ v :: b) x -> a = [] /\ exists y, P v y.
Proof. intros G. inversion G as [E|w y Q E]; destruct a as [|z [|z' a]]; try discriminate. injection E as -> _. eauto. Qed.
Lemma given_nil {A} (P : text -> A -> Prop) x : given P [] x -> x = None.
Proof. intros G. inversion G. reflexivity. Qed.
Lemma Forall2_mid {A B} (P : A -> B -> Prop) a x b l : Forall2 P (a ++ x :: b) l -> exists y, P x y.
Proof. intros F. apply Forall2_app_inv_l in F. destruct F as (l1 & l2 & _ & F & _). inversion F; subst. eauto. Qed.
Lemma inv_next items i rest m mt : inv items m -> item_ok i -> inv (items ++ i :: rest) mt -> exists m', react i m = Some m'.
Proof.
  intros I K T. destruct i as [n|n v e|f]; cbn [item_ok react] in *.
  - apply flag_name_iff in K. destruct K as (o & _ & ->). replace (from_str long_opts (opt_name o)) with (Some o) by (symmetry; apply long_iff; reflexivity). unfold react_flag.
    destruct (m_flags m o) eqn:F; [|eexists; reflexivity]. apply (i_flags _ _ I) in F. destruct F as [_ F]. pose proof (i_once _ _ T) as N. rewrite flags_app in N. cbn [flags_in] in N.
    apply NoDup_remove_2 in N. destruct N. apply in_or_app. left. exact F.
  - destruct K as [K _]. apply value_name_iff in K. destruct K as (o & Tv & ->). replace (from_str long_opts (opt_name o)) with (Some o) by (symmetry; apply long_iff; reflexivity).
    assert (Va : values (opt_name o) (items ++ ISet (opt_name o) v e :: rest) = values (opt_name o) items ++ v :: values (opt_name o) rest) by (rewrite values_app; cbn [values]; rewrite text_eqb_refl; reflexivity).
    destruct o; try discriminate Tv; cbn [react_value].
    + pose proof (i_allow _ _ T) as G. rewrite Va in G. apply Forall2_mid in G. destruct G as [y ->]. eexists; reflexivity.
    + pose proof (i_check _ _ T) as G. rewrite Va in G. apply given_split in G. destruct G as [N [y G]]. pose proof (i_check _ _ I) as J. rewrite N in J. apply given_nil in J. rewrite J. cbn [once]. rewrite G. eexists; reflexivity.
    + pose proof (i_deny _ _ T) as G. rewrite Va in G. apply Forall2_mid in G. destruct G as [y ->]. eexists; reflexivity.
    + pose proof (i_framework _ _ T) as G. rewrite Va in G. apply given_split in G. destruct G as [N [y G]]. pose proof (i_framework _ _ I) as J. rewrite N in J. apply given_nil in J. rewrite J. cbn [once]. rewrite G. eexists; reflexivity.
    + pose proof (i_root _ _ T) as G. rewrite Va in G. apply given_split in G. destruct G as [N [y G]]. pose proof (i_root _ _ I) as J. rewrite N in J. apply given_nil in J. rewrite J. cbn [once]. rewrite G. eexists; reflexivity.
    + pose proof (i_timeout _ _ T) as G. rewrite Va in G. apply given_split in G. destruct G as [N [y G]]. pose proof (i_timeout _ _ I) as J. rewrite N in J. apply given_nil in J. rewrite J. cbn [once]. rewrite G. eexists; reflexivity.
  - pose proof (i_files _ _ T) as G. rewrite files_app in G. cbn [files_in] in G. apply Forall2_mid in G. destruct G as [y G]. unfold react_file. rewrite G. eexists; reflexivity.
Qed.

Definition with_m_args (a : list text) (m : matches) : matches :=
  Matches (m_flags m) (m_allow m) (m_deny m) (m_check_skill m) (m_framework m) (m_root m) (m_timeout m) (m_files m) a.
Lemma inv_no_args items m : inv items m -> with_m_args [] m = m.
Proof. intros I. pose proof (i_args _ _ I) as E. unfold with_m_args. rewrite <- E. destruct m. reflexivity. Qed.

Lemma read_complete more args : forall items m mt, inv items m -> Forall item_ok more -> inv (items ++ more) mt ->
  exists m', inv (items ++ more) m' /\ read_words (line_of more args) m = PMatches (with_m_args (match args with Some a => a | None => [] end) m').
Proof.
  induction more as [|i more IH]; intros items m mt I K T.
  - rewrite app_nil_r. exists m. split; [exact I|]. unfold line_of. cbn [flat_map app]. destruct args as [a|]; cbn [read_words]; [reflexivity|]. rewrite (inv_no_args _ _ I). reflexivity.
  - inversion K as [|? ? Ki Kr]; subst. destruct (inv_next _ _ _ _ _ I Ki T) as [m1 R]. pose proof (inv_react _ _ _ _ I Ki R) as I1.
    assert (Q : items ++ i :: more = (items ++ [i]) ++ more) by (rewrite <- app_assoc; reflexivity). rewrite Q in T |- *.
    destruct (IH _ _ _ I1 Kr T) as (m' & I' & E). exists m'. split; [exact I'|]. unfold line_of. cbn [flat_map]. rewrite <- !app_assoc. rewrite (words_read _ _ _ Ki), R. exact E.
Qed.

Lemma app_cons_nil {A} (x y : A) l : x :: y :: l = [x; y] ++ l. Proof. reflexivity. Qed.
Lemma read_sound n : forall words items m m', (length words < n)%nat -> inv items m -> read_words words m = PMatches m' ->
  exists more args m0, words = line_of more args /\ Forall item_ok more /\ inv (items ++ more) m0 /\ m' = with_m_args (match args with Some a => a | None => [] end) m0.
Proof.
  induction n as [|n IH]; [intros; lia|]. intros words items m m' Len I.
  assert (Step : forall i rest m1, item_ok i -> react i m = Some m1 -> (length rest < n)%nat -> read_words rest m1 = PMatches m' ->
     exists more args m0, words_of i ++ rest = line_of more args /\ Forall item_ok more /\ inv (items ++ more) m0 /\ m' = with_m_args (match args with Some a => a | None => [] end) m0).
  { intros i rest m1 K R L H. destruct (IH rest _ _ _ L (inv_react _ _ _ _ I K R) H) as (more & args & m0 & E & F & J & Q). exists (i :: more), args, m0. split; [|split; [constructor; assumption|split; [|exact Q]]].
    - rewrite E. unfold line_of. cbn [flat_map]. rewrite <- app_assoc. reflexivity.
    - rewrite <- app_assoc in J. exact J. }
  destruct words as [|w rest]; cbn [read_words].
  - intros H. injection H as <-. exists [], None, m. rewrite app_nil_r. split; [reflexivity|]. split; [constructor|]. split; [exact I|]. symmetry. eapply inv_no_args, I.
  - cbn [length] in Len. destruct (text_eqb w [DASH; DASH]) eqn:E.
    { intros H. injection H as <-. apply text_eqb_eq in E. subst w. exists [], (Some rest), m. rewrite app_nil_r. split; [reflexivity|]. split; [constructor|]. split; [exact I|reflexivity]. }
    destruct (strip_prefix [DASH; DASH] w) as [body|] eqn:Sp.
    + apply strip_prefix_spec in Sp. destruct (split_equals body) as [name value] eqn:Se. apply split_equals_spec in Se.
      destruct (from_str long_opts name) as [o|] eqn:Fo.
      2:{ destruct (_ || _); [destruct value|]; discriminate. }
      apply long_iff in Fo. subst name. assert (Lo : from_str long_opts (opt_name o) = Some o) by (apply long_iff; reflexivity). destruct (takes_value o) eqn:Tv.
      * destruct value as [v|].
        -- destruct (react_value o v m) as [m1|] eqn:R; [|discriminate]. intros H. destruct (Step (ISet (opt_name o) v true) rest m1) as (more & args & m0 & X & Y); [split; [apply value_name_iff; exists o; auto|discriminate]|cbn [react]; rewrite Lo; exact R|lia|exact H|].
           exists more, args, m0. split; [|exact Y]. rewrite <- X. subst w body. reflexivity.
        -- destruct rest as [|v rest]; [discriminate|]. destruct (dashed v) eqn:D; [discriminate|]. destruct (react_value o v m) as [m1|] eqn:R; [|discriminate]. intros H. cbn [length] in Len.
           destruct (Step (ISet (opt_name o) v false) rest m1) as (more & args & m0 & X & Y); [split; [apply value_name_iff; exists o; auto|intros _; apply dashed_plain, D]|cbn [react]; rewrite Lo; exact R|lia|exact H|].
           exists more, args, m0. split; [|exact Y]. rewrite <- X. subst w body. rewrite app_nil_r. reflexivity.
      * destruct value as [v|]; [discriminate|]. destruct (react_flag o m) as [m1|] eqn:R; [|discriminate]. intros H.
        destruct (Step (IFlag (opt_name o)) rest m1) as (more & args & m0 & X & Y); [apply flag_name_iff; exists o; auto|cbn [react]; rewrite Lo; exact R|lia|exact H|].
        exists more, args, m0. split; [|exact Y]. rewrite <- X. subst w body. rewrite app_nil_r. reflexivity.
    + destruct (dashed w) eqn:D; [destruct w as [|? [|c ?]]; try discriminate; destruct (_ || _); discriminate|]. destruct (react_file w m) as [m1|] eqn:R; [|discriminate]. intros H.
      destruct (Step (IFile w) rest m1) as (more & args & m0 & X & Y); [split; [apply dashed_plain, D|intros ->; discriminate R]|exact R|lia|exact H|].
      exists more, args, m0. split; [|exact Y]. rewrite <- X. reflexivity.
Qed.

Lemma given_ext {A} (P Q : text -> A -> Prop) l x : (forall v a, P v a <-> Q v a) -> given P l x <-> given Q l x.
Proof. intros H. split; intros G; destruct G; constructor; apply H; assumption. Qed.
Lemma Forall2_ext {A B} (P Q : A -> B -> Prop) l k : (forall v a, P v a <-> Q v a) -> Forall2 P l k <-> Forall2 Q l k.
Proof. intros H. split; intros G; induction G; constructor; try apply H; assumption. Qed.
Lemma split_separated l cur : l <> [] -> (forall x, In x l -> ~ In SLASH x) ->
  split_all SLASH cur (separated (s2t "/") l) = match l with x :: r => (rev cur ++ x) :: r | [] => [] end.
Proof.
  revert cur. induction l as [|x l IH]; intros cur N H; [congruence|]. destruct l as [|y l].
  - cbn [separated map concat]. rewrite app_nil_r. apply split_all_last. apply H. left. reflexivity.
  - change (separated (s2t "/") (x :: y :: l)) with (x ++ SLASH :: separated (s2t "/") (y :: l)).
    rewrite split_all_app by (apply H; left; reflexivity). rewrite IH by (try discriminate; intros z Z; apply H; right; exact Z). reflexivity.
Qed.
Lemma split_pieces t : forall cur, ~ In SLASH cur -> exists x r, split_all SLASH cur t = x :: r /\ rev cur ++ t = separated (s2t "/") (x :: r) /\
  forall y, In y (x :: r) -> ~ In SLASH y.
Proof.
  induction t as [|c t IH]; intros cur N; cbn [split_all].
  - exists (rev cur), []. split; [reflexivity|]. split; [cbn; reflexivity|]. intros y [<-|[]]. rewrite <- in_rev. exact N.
  - destruct (N.eqb_spec c SLASH) as [->|Q].
    + destruct (IH [] (fun x => x)) as (x & r & E1 & E2 & E3). exists (rev cur), (x :: r). split; [f_equal; exact E1|]. cbn [rev app] in E2.
      split; [rewrite E2; reflexivity|]. intros y [<-|Y]; [rewrite <- in_rev; exact N|apply E3, Y].
    + destruct (IH (c :: cur)) as (x & r & E1 & E2 & E3); [intros [->|X]; [congruence|contradiction]|]. exists x, r. split; [exact E1|].
      split; [rewrite <- E2; cbn [rev]; rewrite <- app_assoc; reflexivity|exact E3].
Qed.
Lemma named_filter l l' : named l l' <-> l' = filter (fun c => negb (text_eqb c []) && negb (text_eqb c (s2t "."))) l.
Proof.
  split.
  - intros H. induction H as [|x l l' [->| ->] H IH|x l l' N1 N2 H IH]; cbn [filter]; [reflexivity|exact IH|exact IH|].
    rewrite (proj2 (text_eqb_neq _ _) N1), (proj2 (text_eqb_neq _ _) N2). cbn [negb andb]. f_equal. exact IH.
  - intros ->. induction l as [|x l IH]; cbn [filter]; [constructor|].
    destruct (text_eqb x []) eqn:A; [apply text_eqb_eq in A; apply nm_skip; auto|].
    destruct (text_eqb x (s2t ".")) eqn:B; [apply text_eqb_eq in B; apply nm_skip; auto|].
    cbn [negb andb]. apply nm_keep; [apply text_eqb_neq, A|apply text_eqb_neq, B|exact IH].
Qed.
Lemma upath_of_iff v p : (v <> [] /\ p = upath_of v) <->
  v <> [] /\ (u_absolute p = true <-> exists r, v = s2t "/" ++ r) /\
  exists pieces, v = separated (s2t "/") pieces /\ (forall x c, In x pieces -> In c x -> s2t "/" <> [c]) /\ named pieces (u_components p).
Proof.
  assert (AB : forall v : text, (match v with c :: _ => c =? SLASH | [] => false end) = true <-> exists r, v = s2t "/" ++ r).
  { clear. intros [|c v]; split; [discriminate|intros [r H]; discriminate| |].
    - intros H. apply N.eqb_eq in H. subst c. exists v. reflexivity.
    - intros [r H]. cbn in H. inversion H. reflexivity. }
  split.
  - intros [N ->]. split; [exact N|]. cbn [upath_of u_absolute u_components]. split; [apply AB|].
    destruct (split_pieces v [] (fun x => x)) as (x & r & E1 & E2 & E3). cbn [rev app] in E2. exists (x :: r). split; [exact E2|].
    split; [intros y c Y C Q; inversion Q; subst c; exact (E3 y Y C)|]. apply named_filter. cbn [u_components]. f_equal. exact E1.
  - intros [N [A [pieces [E [S1 K]]]]]. split; [exact N|]. destruct p as [ab cs]. cbn [u_absolute u_components] in *. apply named_filter in K. subst cs.
    unfold upath_of. f_equal.
    + destruct (match v with c :: _ => c =? SLASH | [] => false end) eqn:Q.
      * apply A, AB, Q.
      * destruct ab; [|reflexivity]. rewrite <- Q. symmetry. apply AB, A. reflexivity.
    + f_equal. rewrite E. assert (Ne : pieces <> []) by (intros ->; apply N, E).
      rewrite split_separated; [destruct pieces; [congruence|reflexivity]|exact Ne|]. intros y Y C. exact (S1 y SLASH Y C eq_refl).
Qed.
Lemma digits_app a t u : digits_value a (t ++ u) = match digits_value a t with Some n => digits_value n u | None => None end.
Proof. revert a. induction t as [|c t IH]; intros a; cbn [app digits_value]; [reflexivity|]. destruct (digit c); [apply IH|reflexivity]. Qed.
Lemma digits_decimal t n : digits_value 0 t = Some n <-> decimal t n.
Proof.
  split.
  - revert n. induction t as [|c t IH] using rev_ind; intros n H; [cbn in H; injection H as <-; constructor|].
    rewrite digits_app in H. destruct (digits_value 0 t) as [m|]; [|discriminate]. cbn [digits_value] in H.
    destruct (digit c) as [d|] eqn:D; [|discriminate]. injection H as <-. unfold digit in D.
    destruct ((48 <=? c) && (c <=? 57)) eqn:B; [|discriminate]. injection D as <-. apply andb_true_iff in B as [B1 B2]. apply N.leb_le in B1, B2.
    replace [c] with [48 + (c - 48)] by (f_equal; lia). constructor; [lia|apply IH; reflexivity].
  - induction 1 as [|t n d D H IH]; [reflexivity|]. rewrite digits_app, IH. cbn [digits_value]. unfold digit.
    replace (48 <=? 48 + d) with true by (symmetry; apply N.leb_le; lia). replace (48 + d <=? 57) with true by (symmetry; apply N.leb_le; lia).
    cbn [andb]. f_equal. lia.
Qed.
Lemma decimal_head t n : decimal t n -> forall r, t <> s2t "+" ++ r.
Proof.
  intros H. apply digits_decimal in H. intros r ->. cbn in H. discriminate.
Qed.
Lemma seconds_iff v n : parse_usize v = Some n <-> reads_seconds v n.
Proof.
  unfold parse_usize, reads_seconds. change (2 ^ 64) with usize_bound. split.
  - set (body := match v with c :: r => if c =? PLUS then r else v | [] => v end). intros H.
    assert (B : v = body \/ v = s2t "+" ++ body).
    { unfold body. destruct v as [|c r]; [left; reflexivity|]. destruct (N.eqb_spec c PLUS) as [->|]; [right; reflexivity|left; reflexivity]. }
    destruct body as [|c r] eqn:Q; [discriminate|]. destruct (digits_value 0 (c :: r)) as [m|] eqn:D; [|discriminate].
    destruct (N.ltb_spec m usize_bound) as [L|]; [|discriminate]. injection H as ->. split; [exact L|]. exists (c :: r). split; [discriminate|].
    split; [exact B|]. apply digits_decimal, D.
  - intros [L [t [N [E D]]]].
    assert (B : match v with c :: r => if c =? PLUS then r else v | [] => v end = t).
    { destruct E as [->| ->]; [|reflexivity]. destruct t as [|c r]; [congruence|]. destruct (N.eqb_spec c PLUS) as [->|]; [|reflexivity].
      destruct (decimal_head _ _ D r). reflexivity. }
    rewrite B. destruct t as [|c r]; [congruence|]. rewrite (proj2 (digits_decimal _ _) D). replace (n <? usize_bound) with true by (symmetry; apply N.ltb_lt, L). reflexivity.
Qed.
Lemma path_value_iff v p : path_value v = Some p <-> reads_path v p.
Proof.
  unfold path_value, reads_path. destruct v as [|c v]; [split; [discriminate|intros [H _]; congruence]|]. rewrite <- (upath_of_iff (c :: v) p).
  split; [intros H; injection H as ->|intros [_ ->]; reflexivity]. split; [discriminate|reflexivity].
Qed.
Lemma said_iff items o : In (opt_name o) (flags_in items) <-> In (IFlag (opt_name o)) items.
Proof.
  induction items as [|[n|n v e|f] items IH]; cbn [flags_in In]; [reflexivity| | |].
  - rewrite IH. split; (intros [H|H]; [left; congruence|right; exact H]).
  - rewrite IH. split; [auto|]. intros [H|H]; [discriminate|exact H].
  - rewrite IH. split; [auto|]. intros [H|H]; [discriminate|exact H].
Qed.
Lemma flag_means items m o : inv items m -> takes_value o = false -> (m_flags m o = true <-> In (IFlag (opt_name o)) items).
Proof. intros I T. rewrite (i_flags _ _ I), said_iff. split; [intros [_ H]; exact H|auto]. Qed.
Lemma inv_means items args m : inv items m ->
  let '(o, sel) := options_of (with_m_args (match args with Some a => a | None => [] end) m) in means items args o sel.
Proof.
  intros I. cbn [options_of]. constructor; cbn [with_m_args m_flags m_allow m_deny m_check_skill m_framework m_root m_timeout m_files m_args op_allow op_check_skill op_default_config op_deny op_dump op_dump_candidate_counts op_dump_candidates op_find_skill op_no_lines_or_columns op_no_local_functions op_no_sqlite op_quiet op_reset op_resume op_root op_timeout op_verbose op_write op_source_files op_args].
  all: try (eapply i_once; eassumption).
  all: try (match goal with |- m_flags ?a ?o = true <-> _ => refine (flag_means _ a o _ eq_refl); assumption end).
  - eapply Forall2_ext; [|apply (i_allow _ _ I)]. intros v w. symmetry. apply reads_warning_iff.
  - eapply given_ext; [|apply (i_check _ _ I)]. intros v w. symmetry. apply path_value_iff.
  - eapply Forall2_ext; [|apply (i_deny _ _ I)]. intros v w. symmetry. apply reads_warning_iff.
  - eapply given_ext; [|apply (i_root _ _ I)]. intros v w. symmetry. apply path_value_iff.
  - eapply given_ext; [|apply (i_timeout _ _ I)]. intros v w. symmetry. apply seconds_iff.
  - eapply Forall2_ext; [|apply (i_files _ _ I)]. intros v w. symmetry. apply path_value_iff.
  - reflexivity.
  - pose proof (i_framework _ _ I) as G. change (s2t "framework") with (opt_name OFramework). destruct G as [|v x G].
    + exists None. split; [constructor|reflexivity].
    + apply reads_auto_iff in G. exists (Some (match x with inl _ => None | inr f => Some f end)). split; [constructor; exact G|]. destruct x as [[]|f]; reflexivity.
Qed.
Lemma means_inv items args o sel : means items args o sel -> exists m, inv items m.
Proof.
  intros M. destruct (mn_framework _ _ _ _ M) as (f & G & _).
  exists (Matches (fun x => negb (takes_value x) && existsb (text_eqb (opt_name x)) (flags_in items)) (op_allow o) (op_deny o) (op_check_skill o)
            (match f with None => None | Some None => Some (inl tt) | Some (Some x) => Some (inr x) end) (op_root o) (op_timeout o) (op_source_files o) []).
  constructor; cbn [m_flags m_allow m_deny m_check_skill m_framework m_root m_timeout m_files m_args].
  - apply (mn_once _ _ _ _ M).
  - intros x. rewrite Bool.andb_true_iff, Bool.negb_true_iff, existsb_exists. split.
    + intros [A (y & B & C)]. apply text_eqb_eq in C. subst y. auto.
    + intros [A B]. split; [exact A|]. exists (opt_name x). split; [exact B|apply text_eqb_refl].
  - eapply Forall2_ext; [|apply (mn_allow _ _ _ _ M)]. intros v w. apply reads_warning_iff.
  - eapply Forall2_ext; [|apply (mn_deny _ _ _ _ M)]. intros v w. apply reads_warning_iff.
  - eapply given_ext; [|apply (mn_check_skill _ _ _ _ M)]. intros v w. apply path_value_iff.
  - change (s2t "framework") with (opt_name OFramework) in G. destruct G as [|v x G]; [constructor|]. destruct x as [x|]; constructor; apply reads_auto_iff; exact G.
  - eapply given_ext; [|apply (mn_root _ _ _ _ M)]. intros v w. apply path_value_iff.
  - eapply given_ext; [|apply (mn_timeout _ _ _ _ M)]. intros v w. apply seconds_iff.
  - eapply Forall2_ext; [|apply (mn_files _ _ _ _ M)]. intros v w. apply path_value_iff.
  - reflexivity.
Qed.

(** The meaning is one. *)
Lemma given_det {A} (P : text -> A -> Prop) l x y : (forall v a b, P v a -> P v b -> a = b) -> given P l x -> given P l y -> x = y.
Proof. intros D G H. destruct G as [|v a G]; inversion H; subst; [reflexivity|]. f_equal. eapply D; eassumption. Qed.
Lemma Forall2_det {A B} (P : A -> B -> Prop) l : (forall v a b, P v a -> P v b -> a = b) -> forall k k', Forall2 P l k -> Forall2 P l k' -> k = k'.
Proof. intros D. induction l as [|v l IH]; intros k k' F G; inversion F; inversion G; subst; [reflexivity|]. f_equal; [eapply D; eassumption|apply IH; assumption]. Qed.
Lemma bool_det (a b : bool) (P : Prop) : (a = true <-> P) -> (b = true <-> P) -> a = b.
Proof. intros [A1 A2] [B1 B2]. destruct a, b; try reflexivity; [symmetry|]; auto. Qed.
Lemma warning_det v a b : reads_warning v a -> reads_warning v b -> a = b.
Proof. intros A B. apply reads_warning_iff in A, B. congruence. Qed.
Lemma path_det v a b : reads_path v a -> reads_path v b -> a = b.
Proof. rewrite <- !path_value_iff. congruence. Qed.
Lemma framework_det v a b : reads_framework v a -> reads_framework v b -> a = b.
Proof.
  intros A B. assert (A' : from_str auto_variants v = Some (match a with Some f => inr f | None => inl tt end)) by (apply reads_auto_iff; destruct a; exact A).
  assert (B' : from_str auto_variants v = Some (match b with Some f => inr f | None => inl tt end)) by (apply reads_auto_iff; destruct b; exact B). destruct a, b; congruence.
Qed.
Lemma seconds_det v a b : reads_seconds v a -> reads_seconds v b -> a = b.
Proof. rewrite <- !seconds_iff. congruence. Qed.
Lemma options_ext (o p : options) : op_allow o = op_allow p -> op_check_skill o = op_check_skill p -> op_default_config o = op_default_config p -> op_deny o = op_deny p -> op_dump o = op_dump p -> op_dump_candidate_counts o = op_dump_candidate_counts p -> op_dump_candidates o = op_dump_candidates p -> op_find_skill o = op_find_skill p -> op_no_lines_or_columns o = op_no_lines_or_columns p -> op_no_local_functions o = op_no_local_functions p -> op_no_sqlite o = op_no_sqlite p -> op_quiet o = op_quiet p -> op_reset o = op_reset p -> op_resume o = op_resume p -> op_root o = op_root p -> op_timeout o = op_timeout p -> op_verbose o = op_verbose p -> op_write o = op_write p -> op_source_files o = op_source_files p -> op_args o = op_args p -> o = p.
Proof. destruct o as [a1 a2 a3 a4 a5 a6 a7 a8 a9 a10 a11 a12 a13 a14 a15 a16 a17 a18 a19 a20], p as [b1 b2 b3 b4 b5 b6 b7 b8 b9 b10 b11 b12 b13 b14 b15 b16 b17 b18 b19 b20]. cbn. intros; subst; reflexivity. Qed.
Lemma means_det items args o sel o' sel' : means items args o sel -> means items args o' sel' -> o = o' /\ sel = sel'.
Proof.
  intros M N. destruct (mn_framework _ _ _ _ M) as (f & G & ->), (mn_framework _ _ _ _ N) as (f' & G' & ->). pose proof (given_det _ _ _ _ framework_det G G'). subst f'. split; [|reflexivity].
  destruct M as [_ A1 A2 A3 A4 A5 A6 A7 A8 A9 A10 A11 A12 A13 A14 A15 A16 A17 A18 A19 A20 _], N as [_ B1 B2 B3 B4 B5 B6 B7 B8 B9 B10 B11 B12 B13 B14 B15 B16 B17 B18 B19 B20 _].
  apply options_ext.
  - exact (Forall2_det _ _ warning_det _ _ A1 B1).
  - exact (given_det _ _ _ _ path_det A2 B2).
  - exact (bool_det _ _ _ A3 B3).
  - exact (Forall2_det _ _ warning_det _ _ A4 B4).
  - exact (bool_det _ _ _ A5 B5).
  - exact (bool_det _ _ _ A6 B6).
  - exact (bool_det _ _ _ A7 B7).
  - exact (bool_det _ _ _ A8 B8).
  - exact (bool_det _ _ _ A9 B9).
  - exact (bool_det _ _ _ A10 B10).
  - exact (bool_det _ _ _ A11 B11).
  - exact (bool_det _ _ _ A12 B12).
  - exact (bool_det _ _ _ A13 B13).
  - exact (bool_det _ _ _ A14 B14).
  - exact (given_det _ _ _ _ path_det A15 B15).
  - exact (given_det _ _ _ _ seconds_det A16 B16).
  - exact (bool_det _ _ _ A17 B17).
  - exact (bool_det _ _ _ A18 B18).
  - exact (Forall2_det _ _ path_det _ _ A19 B19).
  - rewrite A20; symmetry; exact B20.
Qed.

(** A command line is accepted exactly if it is written in the grammar and makes sense, and means what it says. *)
Theorem C73_command_line : forall words o sel,
  command_line words = Run o sel <->
  exists items args, words = line_of items args /\ Forall item_ok items /\ means items args o sel.
Proof.
  intros words o sel. unfold command_line. split.
  - destruct (read_words words no_matches) as [m| |] eqn:R; [|discriminate|discriminate]. intros H.
    destruct (read_sound (S (length words)) words [] no_matches m (Nat.lt_succ_diag_r _) inv_start R) as (items & args & m0 & E & K & I & ->). cbn [app] in I.
    exists items, args. split; [exact E|]. split; [exact K|]. pose proof (inv_means items args m0 I) as M. destruct (options_of _) as [o' sel']. injection H as <- <-. exact M.
  - intros (items & args & -> & K & M). destruct (means_inv _ _ _ _ M) as [mt T]. destruct (read_complete items args [] no_matches mt inv_start K T) as (m' & I & ->). cbn [app] in I.
    pose proof (inv_means items args m' I) as M'. destruct (options_of _) as [o' sel']. destruct (means_det _ _ _ _ _ _ M M') as [-> ->]. reflexivity.
Qed.
Print Assumptions C73_command_line.

(** What the line made of [items] and [args] means, if it is accepted, is what these mean; it is never a request for help. *)
Lemma line_read args : forall l m0 acc, inv acc m0 -> Forall item_ok l ->
  match read_words (line_of l args) m0 with
  | PMatches m1 => exists m2, inv (acc ++ l) m2 /\ m1 = with_m_args (match args with Some a => a | None => [] end) m2
  | PInfo => False
  | PUsage => True
  end.
Proof.
  induction l as [|i l IH]; intros m0 acc I F.
  - unfold line_of. cbn [flat_map app]. destruct args as [a|]; cbn [read_words]; exists m0; rewrite app_nil_r; (split; [exact I|]); [reflexivity|symmetry; eapply inv_no_args, I].
  - inversion F as [|? ? F1 F2]; subst. unfold line_of. cbn [flat_map]. rewrite <- app_assoc, (words_read _ _ _ F1). destruct (react i m0) as [m3|] eqn:Re; [|exact Logic.I].
    specialize (IH m3 (acc ++ [i]) (inv_react _ _ _ _ I F1 Re) F2). fold (line_of l args). destruct (read_words (line_of l args) m3); [|contradiction|exact Logic.I].
    rewrite <- app_assoc in IH. exact IH.
Qed.
Lemma line_means items args o sel : Forall item_ok items -> command_line (line_of items args) = Run o sel -> means items args o sel.
Proof.
  intros K C. unfold command_line in C. pose proof (line_read args items no_matches [] inv_start K) as R.
  destruct (read_words (line_of items args) no_matches) as [m| |]; try discriminate. destruct R as (m2 & I2 & ->). cbn [app] in I2.
  pose proof (inv_means items args m2 I2) as M2. destruct (options_of _) as [o2 sel2]. injection C as -> ->. exact M2.
Qed.
Lemma line_not_info items args : Forall item_ok items -> command_line (line_of items args) <> Info.
Proof.
  intros K C. unfold command_line in C. pose proof (line_read args items no_matches [] inv_start K) as R.
  destruct (read_words (line_of items args) no_matches) as [m| |]; [destruct (options_of m); discriminate|contradiction|discriminate].
Qed.

(** Nothing after [--] is looked at. *)
Theorem C73_rest : forall items o sel rest, Forall item_ok items -> command_line (line_of items None) = Run o sel ->
  exists o', command_line (line_of items None ++ s2t "--" :: rest) = Run o' sel /\ op_args o' = rest /\
    o' = Options (op_allow o) (op_check_skill o) (op_default_config o) (op_deny o) (op_dump o) (op_dump_candidate_counts o) (op_dump_candidates o) (op_find_skill o)
           (op_no_lines_or_columns o) (op_no_local_functions o) (op_no_sqlite o) (op_quiet o) (op_reset o) (op_resume o) (op_root o) (op_timeout o) (op_verbose o) (op_write o) (op_source_files o) rest.
Proof.
  intros items o sel rest K H. unfold line_of in *. rewrite app_nil_r in *. revert H. unfold command_line.
  assert (G : forall l m, Forall item_ok l -> match read_words (flat_map words_of l) m with
     | PMatches m' => read_words (flat_map words_of l ++ s2t "--" :: rest) m = PMatches (with_m_args rest m')
     | _ => True end).
  { induction l as [|i l IH]; intros m F; cbn [flat_map app]; [reflexivity|]. inversion F as [|? ? F1 F2]; subst. rewrite <- app_assoc, !(words_read _ _ _ F1). destruct (react i m) as [m1|]; [apply IH, F2|exact I]. }
  specialize (G items no_matches K). destruct (read_words (flat_map words_of items) no_matches) as [m| |]; [|discriminate|discriminate]. rewrite G. intros H. injection H as <- <-. eexists. split; [reflexivity|]. split; reflexivity.
Qed.
Print Assumptions C73_rest.

(** ** The advice that necessist prints *)
Definition allowing (w : warning) (o : options) : options :=
  Options (w :: op_allow o) (op_check_skill o) (op_default_config o) (op_deny o) (op_dump o) (op_dump_candidate_counts o) (op_dump_candidates o) (op_find_skill o)
    (op_no_lines_or_columns o) (op_no_local_functions o) (op_no_sqlite o) (op_quiet o) (op_reset o) (op_resume o) (op_root o) (op_timeout o) (op_verbose o) (op_write o) (op_source_files o) (op_args o).
Lemma warning_name_plain w : plain (warning_name w).
Proof. apply dashed_plain. destruct w; vm_compute; reflexivity. Qed.
Lemma framework_name_plain f : plain (framework_name f).
Proof. apply dashed_plain. destruct f; vm_compute; reflexivity. Qed.
Lemma allow_more words o sel w : command_line words = Run o sel -> command_line (s2t "--allow" :: warning_name w :: words) = Run (allowing w o) sel.
Proof.
  intros H. apply C73_command_line in H. destruct H as (items & args & -> & K & M). apply C73_command_line. exists (ISet (s2t "allow") (warning_name w) false :: items), args.
  split; [reflexivity|]. split; [constructor; [|exact K]; split; [left; reflexivity|intros _; apply warning_name_plain]|].
  assert (Fl : forall n, said (ISet (s2t "allow") (warning_name w) false :: items) n <-> said items n) by (intros n; unfold said; cbn [In]; split; [intros [X|X]; [discriminate|exact X]|auto]).
  assert (Va : forall n, n <> s2t "allow" -> values n (ISet (s2t "allow") (warning_name w) false :: items) = values n items).
  { intros n N. cbn [values]. destruct (text_eqb (s2t "allow") n) eqn:E; [apply text_eqb_eq in E; congruence|reflexivity]. }
  destruct M. constructor; cbn [allowing op_allow op_check_skill op_default_config op_deny op_dump op_dump_candidate_counts op_dump_candidates op_find_skill op_no_lines_or_columns op_no_local_functions op_no_sqlite op_quiet op_reset op_resume op_root op_timeout op_verbose op_write op_source_files op_args];
    rewrite ?Fl; rewrite ?Va by (vm_compute; discriminate); try assumption.
  change (values (s2t "allow") (ISet (s2t "allow") (warning_name w) false :: items)) with (warning_name w :: values (s2t "allow") items). constructor; [reflexivity|assumption].
Qed.

(** A warning that is printed for the first time says how to silence it. Whoever puts these words first on the command line
    gets the invocation they had, except that this warning is silent and no error, whatever its message. *)
Theorem C73_allow_advice : forall v x m w source msg once m' a line r words o sel,
  warn_internal v x m w source msg once = (m', Some [OLine a line], r) ->
  x_opts x = PrintOpts (op_allow o) (op_deny o) (op_quiet o) (op_verbose o) (op_no_lines_or_columns o) ->
  command_line words = Run o sel ->
  (allow_msg_emitted (m w) = false -> exists before, line = before ++ NL :: s2t "Silence this warning with: --allow " ++ warning_name w) /\
  command_line (s2t "--allow" :: warning_name w :: words) = Run (allowing w o) sel /\
  forall v2 x2 m2 source2 msg2 once2,
    x_opts x2 = PrintOpts (op_allow (allowing w o)) (op_deny (allowing w o)) (op_quiet (allowing w o)) (op_verbose (allowing w o)) (op_no_lines_or_columns (allowing w o)) ->
    exists m3, warn_internal v2 x2 m2 w source2 msg2 once2 = (m3, Some [], Ok tt).
Proof.
  intros v x m w source msg once m' a line r words o sel H X C.
  assert (N : w <> WAll) by (intros ->; discriminate).
  assert (D : has_warning WAll (po_deny (x_opts x)) || has_warning w (po_deny (x_opts x)) = false).
  { destruct (has_warning WAll (po_deny (x_opts x)) || has_warning w (po_deny (x_opts x))) eqn:D; [|reflexivity]. unfold warn_internal in H. rewrite D in H. destruct w; try discriminate; congruence. }
  split; [|split; [apply allow_more, C|]].
  - intros F. unfold warn_internal in H. rewrite D in H.
    assert (Q : exists before, println x (AWarning w) (before ++ NL :: s2t "Silence this warning with: --allow " ++ warning_name w) = Some [OLine a line]).
    { destruct w; try (destruct (N eq_refl)); cbn [allow_msg_emitted] in H; rewrite F in H;
        (destruct (_ || _ || _ || _) in H; [discriminate|]);
        match type of H with context [println x ?ab ?t] => destruct (println x ab t) as [l|] eqn:P end; try discriminate; injection H as _ -> _; (match type of P with println _ _ (?p1 ++ ?p2 ++ ?p3 ++ ?p4 ++ _) = _ => exists (p1 ++ p2 ++ p3 ++ p4) end); rewrite <- !app_assoc; exact P. }
    destruct Q as [before Q]. unfold println in Q. destruct (x_printer x); try discriminate; [|destruct (x_progress x); [|discriminate]]; injection Q as _ Q; exists before; symmetry; exact Q.
  - intros v2 x2 m2 source2 msg2 once2 X2. unfold warn_internal. rewrite X2. cbn [po_deny po_allow po_quiet allowing op_allow op_deny op_quiet]. rewrite X in D. cbn [po_deny] in D. rewrite D.
    assert (A : has_warning w (w :: op_allow o) = true) by (unfold has_warning; cbn [existsb]; unfold warning_eqb; destruct (warning_eq_dec w w); [reflexivity|congruence]).
    rewrite A, !Bool.orb_true_r, ?Bool.orb_true_l. destruct w; try (destruct (N eq_refl)); eexists; reflexivity.
Qed.
Print Assumptions C73_allow_advice.

(** When several frameworks apply, the invocation fails with their names. Whoever puts [--framework] and one of them first
    on the command line gets the invocation they had, with that framework. *)
Theorem C73_framework_advice : forall ex names items args o,
  choose_framework ex None = Err (MultipleApplicable names) ->
  Forall item_ok items -> values (s2t "framework") items = [] -> command_line (line_of items args) = Run o None ->
  exists fs, names = join_comma (map framework_name fs) /\ (2 <= length fs)%nat /\ NoDup fs /\
    forall f, In f fs -> command_line (s2t "--framework" :: framework_name f :: line_of items args) = Run o (Some f) /\ choose_framework ex (Some f) = Ok f.
Proof.
  intros ex names items args o H K V C. unfold choose_framework in H. destruct (applicable_frameworks ex all_frameworks) as [fs|] eqn:A; [|discriminate].
  destruct (Nat.leb (length fs) 1) eqn:L; [destruct fs; discriminate|]. injection H as <-. apply Nat.leb_gt in L. exists fs. split; [reflexivity|]. split; [exact L|]. split.
  - assert (Sub : forall l k, applicable_frameworks ex l = Some k -> NoDup l -> NoDup k /\ incl k l).
    { induction l as [|f l IH]; intros k; cbn [applicable_frameworks]; [intros E _; injection E as <-; split; [constructor|intros ? []]|]. destruct (applicable ex f) as [b|]; [|discriminate].
      destruct (applicable_frameworks ex l) as [k'|]; [|discriminate]. intros E N. inversion N; subst. destruct (IH k' eq_refl) as [A1 A2]; [assumption|]. injection E as <-. destruct b; split.
      - constructor; [|exact A1]. intros X. apply A2 in X. contradiction.
      - intros x [->|X]; [left; reflexivity|right; apply A2, X].
      - exact A1.
      - intros x X. right. apply A2, X. }
    apply (Sub _ _ A). unfold all_frameworks. repeat (constructor; [cbn [In]; intuition discriminate|]). constructor.
  - intros f _. split; [|reflexivity]. apply C73_command_line in C. destruct C as (items' & args' & E & K' & M).
    assert (M0 : means items args o None) by (apply line_means; [exact K|rewrite E; apply C73_command_line; eauto]).
    clear M E K' items' args'. apply C73_command_line.
    exists (ISet (s2t "framework") (framework_name f) false :: items), args. split; [reflexivity|]. split; [constructor; [|exact K]; split; [do 3 right; left; reflexivity|intros _; apply framework_name_plain]|].
    assert (Fl : forall n, said (ISet (s2t "framework") (framework_name f) false :: items) n <-> said items n) by (intros n; unfold said; cbn [In]; split; [intros [X|X]; [discriminate|exact X]|auto]).
    assert (Va : forall n, n <> s2t "framework" -> values n (ISet (s2t "framework") (framework_name f) false :: items) = values n items).
    { intros n N. cbn [values]. destruct (text_eqb (s2t "framework") n) eqn:E; [apply text_eqb_eq in E; congruence|reflexivity]. }
    destruct M0. constructor; rewrite ?Fl; rewrite ?Va by (vm_compute; discriminate); try assumption.
    exists (Some (Some f)). split; [|reflexivity]. change (values (s2t "framework") (ISet (s2t "framework") (framework_name f) false :: items)) with (framework_name f :: values (s2t "framework") items). rewrite V. constructor. reflexivity.
Qed.
Print Assumptions C73_framework_advice.

(** A command line with some of everything, one with advice taken, and some that are not accepted. *)
Definition ex_words : list text :=
  map s2t ["--quiet"; "tests/a.rs"; "--allow=run-test-failed"; "--framework"; "rust"; "--timeout=0"; "/p//./b.rs"; "--"; "--quiet"; "--"; ""]%string.
Example C73_nonvacuous : exists o, command_line ex_words = Run o (Some Rust) /\ op_quiet o = true /\ op_verbose o = false /\ op_allow o = [WRunTestFailed] /\ op_timeout o = Some 0 /\
  op_source_files o = [UPath false [s2t "tests"; s2t "a.rs"]; UPath true [s2t "p"; s2t "b.rs"]] /\ op_args o = map s2t ["--quiet"; "--"; ""]%string.
Proof. eexists. vm_compute. repeat split; reflexivity. Qed.
(** Help or the version is shown exactly if a word asks for it before [--] and what comes before it makes sense by itself. *)
Lemma info_word w rest m : asks_info w -> read_words (w :: rest) m = PInfo.
Proof.
  intros [->|[->|[r [->| ->]]]]; reflexivity.
Qed.
Lemma info_sound n : forall words items m, (length words < n)%nat -> inv items m -> read_words words m = PInfo ->
  exists more w rest m0, words = line_of more None ++ w :: rest /\ Forall item_ok more /\ inv (items ++ more) m0 /\ asks_info w.
Proof.
  induction n as [|n IH]; [intros; lia|]. intros words items m Len I.
  assert (Step : forall i rest m1, item_ok i -> react i m = Some m1 -> (length rest < n)%nat -> read_words rest m1 = PInfo ->
     exists more w r m0, words_of i ++ rest = line_of more None ++ w :: r /\ Forall item_ok more /\ inv (items ++ more) m0 /\ asks_info w).
  { intros i rest m1 K R L H. destruct (IH rest _ _ L (inv_react _ _ _ _ I K R) H) as (more & w & r & m0 & E & F & J & Q). exists (i :: more), w, r, m0. split; [|split; [constructor; assumption|split; [|exact Q]]].
    - rewrite E. unfold line_of. cbn [flat_map]. rewrite <- !app_assoc. reflexivity.
    - rewrite <- app_assoc in J. exact J. }
  destruct words as [|w rest]; cbn [read_words]; [discriminate|].
  cbn [length] in Len. destruct (text_eqb w [DASH; DASH]) eqn:E; [discriminate|].
  assert (Here : asks_info w -> exists more v r m0, w :: rest = line_of more None ++ v :: r /\ Forall item_ok more /\ inv (items ++ more) m0 /\ asks_info v).
  { intros A. exists [], w, rest, m. rewrite app_nil_r. split; [reflexivity|]. split; [constructor|]. split; [exact I|exact A]. }
  destruct (strip_prefix [DASH; DASH] w) as [body|] eqn:Sp.
  - apply strip_prefix_spec in Sp. destruct (split_equals body) as [name value] eqn:Se. apply split_equals_spec in Se.
    destruct (from_str long_opts name) as [o|] eqn:Fo.
    2:{ destruct (text_eqb name (s2t "help") || text_eqb name (s2t "version")) eqn:Q; [|discriminate]. destruct value as [v|]; [discriminate|]. intros _. apply Here. rewrite app_nil_r in Se. subst body w.
        apply Bool.orb_true_iff in Q. destruct Q as [Q|Q]; apply text_eqb_eq in Q; subst name; [left|right; left]; reflexivity. }
    apply long_iff in Fo. subst name. assert (Lo : from_str long_opts (opt_name o) = Some o) by (apply long_iff; reflexivity). destruct (takes_value o) eqn:Tv.
    + destruct value as [v|].
      * destruct (react_value o v m) as [m1|] eqn:R; [|discriminate]. intros H. destruct (Step (ISet (opt_name o) v true) rest m1) as (more & x & r & m0 & X & Y); [split; [apply value_name_iff; exists o; auto|discriminate]|cbn [react]; rewrite Lo; exact R|lia|exact H|].
        exists more, x, r, m0. split; [|exact Y]. rewrite <- X. subst w body. reflexivity.
      * destruct rest as [|v rest]; [discriminate|]. destruct (dashed v) eqn:D; [discriminate|]. destruct (react_value o v m) as [m1|] eqn:R; [|discriminate]. intros H. cbn [length] in Len.
        destruct (Step (ISet (opt_name o) v false) rest m1) as (more & x & r & m0 & X & Y); [split; [apply value_name_iff; exists o; auto|intros _; apply dashed_plain, D]|cbn [react]; rewrite Lo; exact R|lia|exact H|].
        exists more, x, r, m0. split; [|exact Y]. rewrite <- X. subst w body. rewrite app_nil_r. reflexivity.
    + destruct value as [v|]; [discriminate|]. destruct (react_flag o m) as [m1|] eqn:R; [|discriminate]. intros H.
      destruct (Step (IFlag (opt_name o)) rest m1) as (more & x & r & m0 & X & Y); [apply flag_name_iff; exists o; auto|cbn [react]; rewrite Lo; exact R|lia|exact H|].
      exists more, x, r, m0. split; [|exact Y]. rewrite <- X. subst w body. rewrite app_nil_r. reflexivity.
  - destruct (dashed w) eqn:D.
    + assert (Dw : exists c r, w = DASH :: c :: r).
      { destruct w as [|d [|c r]]; try discriminate. exists c, r. f_equal. unfold dashed in D. destruct (N.eqb_spec d DASH) as [->|Nd]; [reflexivity|]. exfalso. cbn [strip_prefix] in D. destruct (N.eqb_spec DASH d); [congruence|]. destruct (N.eqb_spec d DASH); [congruence|]. discriminate D. }
      destruct Dw as (c & r & ->). destruct ((c =? 104) || (c =? 86)) eqn:Q; [|discriminate]. intros _. apply Here. right. right. exists r.
      apply Bool.orb_true_iff in Q. destruct Q as [Q|Q]; apply N.eqb_eq in Q; subst c; [left|right]; reflexivity.
    + destruct (react_file w m) as [m1|] eqn:R; [|discriminate]. intros H.
      destruct (Step (IFile w) rest m1) as (more & x & r & m0 & X & Y); [split; [apply dashed_plain, D|intros ->; discriminate R]|exact R|lia|exact H|].
      exists more, x, r, m0. split; [|exact Y]. rewrite <- X. reflexivity.
Qed.
Lemma info_complete w rest : asks_info w -> forall more items m mt, inv items m -> Forall item_ok more -> inv (items ++ more) mt ->
  read_words (line_of more None ++ w :: rest) m = PInfo.
Proof.
  intros A. induction more as [|i more IH]; intros items m mt I K T.
  - exact (info_word _ _ _ A).
  - inversion K as [|? ? Ki Kr]; subst. destruct (inv_next _ _ _ _ _ I Ki T) as [m1 R]. pose proof (inv_react _ _ _ _ I Ki R) as I1.
    assert (Q : items ++ i :: more = (items ++ [i]) ++ more) by (rewrite <- app_assoc; reflexivity). rewrite Q in T.
    specialize (IH _ _ _ I1 Kr T). unfold line_of in *. cbn [flat_map]. rewrite <- !app_assoc in *. rewrite (words_read _ _ _ Ki), R. exact IH.
Qed.
Theorem C73_info : forall words,
  command_line words = Info <->
  exists items w rest o sel, words = line_of items None ++ w :: rest /\ Forall item_ok items /\ means items None o sel /\ asks_info w.
Proof.
  intros words. unfold command_line. split.
  - destruct (read_words words no_matches) as [m| |] eqn:E; [destruct (options_of m); discriminate| |discriminate]. intros _.
    destruct (info_sound (S (length words)) words [] no_matches ltac:(lia) inv_start E) as (items & w & rest & m0 & X & K & J & A).
    pose proof (inv_means items None m0 J) as M. destruct (options_of (with_m_args [] m0)) as [o sel] eqn:Q. exists items, w, rest, o, sel. split; [exact X|]. split; [exact K|]. split; [exact M|exact A].
  - intros (items & w & rest & o & sel & -> & K & M & A). destruct (means_inv _ _ _ _ M) as (mt & J).
    rewrite (info_complete w rest A items [] no_matches mt inv_start K J). reflexivity.
Qed.
Print Assumptions C73_info.

Example C73_usage : forallb (fun l => match command_line (map s2t l) with Usage => true | _ => false end)
  [["--quiet"; "--quiet"]; ["--framework"; "Rust"]; ["--root"]; ["--root"; "--quiet"]; ["--root="]; ["--quiet=yes"]; ["-q"]; ["--fram=rust"]; ["--timeout"; "-1"]; ["--allow"; "everything"]; [""]]%string = true.
Proof. vm_compute. reflexivity. Qed.
Example C73_info_example : map (fun l => command_line (map s2t l)) [["--help"]; ["a"; "-V"]]%string = [Info; Info].
Proof. reflexivity. Qed.
Example C73_names : map snd auto_variants = map s2t ["anchor"; "auto"; "foundry"; "go"; "hardhat"; "php"; "rust"; "vitest"]%string.
Proof. vm_compute. reflexivity. Qed.
(** Several frameworks apply; a warning is printed. *)
Example C73_several : exists names o, choose_framework (fun n => Some (text_eqb n (s2t "Cargo.toml") || text_eqb n (s2t "go.mod"))) None = Err (MultipleApplicable names) /\ names = s2t "go, rust" /\
  command_line (map s2t ["--framework"; "go"; "--dump"]%string) = Run o (Some Go) /\ op_dump o = true.
Proof. do 2 eexists. vm_compute. repeat split; reflexivity. Qed.
Example C73_warned : exists m l, warn_internal (Env false false None []) (Ctx (PrintOpts [] [] false false false) PrintStdout false) wmap_empty WFilesChanged None (s2t "a") false
  = (m, Some [OLine (AWarning WFilesChanged) l], Ok tt) /\ l = s2t "Warning: a" ++ NL :: s2t "Silence this warning with: --allow files-changed".
Proof. do 2 eexists. vm_compute. split; reflexivity. Qed.
