(** The command line: C23, C24, C25. *)
From Verif Require Import Base M_Text M_Span M_Run M_Output M_Options P_Sqlite.

(** ** C23: specification *)

(** What each option is for. *)
Definition mode (f : field) : Prop :=       (* options that say what to do instead of, or before, a plain run *)
  match f with
  | check_skill | default_config | dump_ | dump_candidates_ | dump_candidate_counts_ | find_skill | reset | resume => True
  | no_sqlite | quiet | verbose => False
  end.
Definition uses_database (f : field) : Prop := f = dump_ \/ f = reset \/ f = resume.
Definition prints_its_answer (f : field) : Prop :=
  f = check_skill \/ f = dump_ \/ f = dump_candidates_ \/ f = dump_candidate_counts_ \/ f = find_skill.

(** Two options contradict each other. *)
Inductive contradict : field -> field -> Prop :=
| two_modes f g : mode f -> mode g -> f <> g -> contradict f g
| database_unused f : uses_database f -> contradict f no_sqlite
| answer_unseen f : prints_its_answer f -> contradict f quiet
| quiet_and_verbose : contradict quiet verbose
| contradict_sym f g : contradict f g -> contradict g f.

(** The option was given on the command line. *)
Definition given (o : options) (f : field) : Prop :=
  match f with
  | check_skill => op_check_skill o <> None
  | default_config => op_default_config o = true
  | dump_ => op_dump o = true
  | dump_candidates_ => op_dump_candidates o = true
  | dump_candidate_counts_ => op_dump_candidate_counts o = true
  | find_skill => op_find_skill o = true
  | no_sqlite => op_no_sqlite o = true
  | quiet => op_quiet o = true
  | reset => op_reset o = true
  | resume => op_resume o = true
  | verbose => op_verbose o = true
  end.

Definition spelling (f : field) : text := s2t
  match f with
  | check_skill => "--check-skill" | default_config => "--default-config" | dump_ => "--dump"
  | dump_candidates_ => "--dump-candidates" | dump_candidate_counts_ => "--dump-candidate-counts"
  | find_skill => "--find-skill" | no_sqlite => "--no-sqlite" | quiet => "--quiet" | reset => "--reset"
  | resume => "--resume" | verbose => "--verbose"
  end%string.

Lemma is_set_given o f : is_set o f = true <-> given o f.
Proof. destruct f; simpl; try tauto. destruct (op_check_skill o); split; congruence. Qed.

Lemma ensure_each_spec o x ys :
  (ensure_each o x ys = Ok tt /\ forall y, In y ys -> ~ (given o x /\ given o y)) \/
  (exists y, In y ys /\ given o x /\ given o y /\
     ensure_each o x ys = Err (spelling x ++ s2t " and " ++ spelling y ++ s2t " are incompatible")).
Proof.
  induction ys as [|y ys IH]; simpl; [left; split; [reflexivity|tauto]|].
  destruct (is_set o x && is_set o y) eqn:E.
  - right. apply andb_prop in E as [Ex Ey]. exists y. split; [left; reflexivity|].
    split; [apply is_set_given, Ex|]. split; [apply is_set_given, Ey|]. destruct x, y; reflexivity.
  - destruct IH as [[H N]|[z [I H]]].
    + left. split; [exact H|]. intros z [<-|I]; [|apply N, I]. intros [A B].
      apply is_set_given in A. apply is_set_given in B. rewrite A, B in E. discriminate.
    + right. exists z. split; [right; exact I|exact H].
Qed.

Lemma incompatible_spec o xs :
  (incompatible o xs = Ok tt /\ forall f g l r, xs = l ++ f :: r -> In g r -> ~ (given o f /\ given o g)) \/
  (exists f g l r, xs = l ++ f :: r /\ In g r /\ given o f /\ given o g /\
     incompatible o xs = Err (spelling f ++ s2t " and " ++ spelling g ++ s2t " are incompatible")).
Proof.
  induction xs as [|x ys IH].
  { left. split; [reflexivity|]. intros f g l r E. destruct l; discriminate. }
  simpl. destruct (ensure_each_spec o x ys) as [[E N]|[y [I [A [B E]]]]]; rewrite E; simpl.
  - destruct IH as [[H M]|[f [g [l [r [Q [I [A [B H]]]]]]]]].
    + left. split; [exact H|]. intros f g [|h l] r Q I; simpl in Q; injection Q as -> Q.
      * subst ys. apply N, I.
      * exact (M f g l r Q I).
    + right. exists f, g, (x :: l), r. subst ys. auto.
  - right. exists x, y, [], ys. auto.
Qed.

Lemma contradict_cases f g : contradict f g ->
  (mode f /\ mode g /\ f <> g) \/ (uses_database f /\ g = no_sqlite) \/ (uses_database g /\ f = no_sqlite) \/
  (prints_its_answer f /\ g = quiet) \/ (prints_its_answer g /\ f = quiet) \/ (f = quiet /\ g = verbose) \/ (f = verbose /\ g = quiet).
Proof. intros H. induction H; try tauto. intuition congruence. Qed.

(** If [l] lists distinct fields in order, any two different members come in one order or the other. *)
Lemma in_two {A} (f g : A) l : In f l -> In g l -> f <> g ->
  (exists a b, l = a ++ f :: b /\ In g b) \/ (exists a b, l = a ++ g :: b /\ In f b).
Proof.
  induction l as [|x l IH]; [intros []|]. intros [->|Hf] [->|Hg] N; try congruence.
  - left. exists [], l. auto.
  - right. exists [], l. auto.
  - destruct (IH Hf Hg N) as [[a [b [-> I]]]|[a [b [-> I]]]]; [left|right]; exists (x :: a), b; auto.
Qed.

(** The command line is accepted iff no two of the options given contradict each other and --write comes with
    --check-skill or --find-skill. *)
Theorem C23_accepted_iff : forall o,
  process_options o = Ok tt <->
  (forall f g, given o f -> given o g -> ~ contradict f g) /\
  (op_write o = true -> given o check_skill \/ given o find_skill).
Proof.
  intros o.
  set (g1 := [check_skill; default_config; dump_; dump_candidates_; dump_candidate_counts_; find_skill; reset; resume]).
  set (g2 := [dump_; no_sqlite; reset; resume]).
  set (g3 := [check_skill; dump_; dump_candidates_; dump_candidate_counts_; find_skill; quiet]).
  set (g4 := [quiet; verbose]).
  assert (D : forall l, In l [g1; g2; g3; g4] -> forall f g a b, l = a ++ f :: b -> In g b -> contradict f g).
  { intros l I f g a b Q Ig.
    assert (ND : f <> g).
    { assert (N : NoDup l) by (destruct I as [<-|[<-|[<-|[<-|[]]]]]; repeat constructor; simpl; intuition discriminate).
      subst l. apply NoDup_remove_2 in N. intros ->. apply N, in_app_iff. right. exact Ig. }
    assert (Jf : In f l) by (subst l; apply in_app_iff; right; left; reflexivity).
    assert (Jg : In g l) by (subst l; apply in_app_iff; right; right; exact Ig). clear Q Ig a b.
    unfold uses_database, prints_its_answer in *.
    destruct I as [<-|[<-|[<-|[<-|[]]]]]; simpl in Jf, Jg;
      repeat (match goal with H : _ \/ _ |- _ => destruct H as [H|H] | H : False |- _ => destruct H end); subst f g;
      try congruence;
      first [ apply two_modes; [exact I|exact I|discriminate]
            | apply database_unused; unfold uses_database; tauto
            | apply contradict_sym, database_unused; unfold uses_database; tauto
            | apply answer_unseen; unfold prints_its_answer; tauto
            | apply contradict_sym, answer_unseen; unfold prints_its_answer; tauto
            | apply quiet_and_verbose | apply contradict_sym, quiet_and_verbose ]. }
  assert (S : forall l, In l [g1; g2; g3; g4] ->
     (incompatible o l = Ok tt /\ forall f g, In f l -> In g l -> f <> g -> ~ (given o f /\ given o g)) \/
     (incompatible o l <> Ok tt /\ exists f g, contradict f g /\ given o f /\ given o g)).
  { intros l I. destruct (incompatible_spec o l) as [[E N]|[f [g [a [b [Q [Ig [A [B E]]]]]]]]].
    - left. split; [exact E|]. intros f g Hf Hg NE [A B].
      destruct (in_two f g l Hf Hg NE) as [[a [b [Q Ib]]]|[a [b [Q Ib]]]]; [apply (N f g a b Q Ib)|apply (N g f a b Q Ib)]; auto.
    - right. rewrite E. split; [discriminate|]. exists f, g. split; [exact (D l I f g a b Q Ig)|auto]. }
  unfold process_options. fold g1 g2 g3 g4.
  pose proof (S g1 ltac:(simpl; tauto)) as S1. pose proof (S g2 ltac:(simpl; tauto)) as S2.
  pose proof (S g3 ltac:(simpl; tauto)) as S3. pose proof (S g4 ltac:(simpl; tauto)) as S4.
  assert (B : forall (m : res text unit) (k : unit -> res text unit), bind m k = Ok tt <-> m = Ok tt /\ k tt = Ok tt).
  { intros [[]| |] k; simpl; (split; [intros Q|intros [Q Q']]); try discriminate; auto. }
  rewrite !B.
  assert (W : (if op_write o && negb (is_set o check_skill) && negb (op_find_skill o)
               then Err (s2t "--write can be used only with --check-skill <PATH> or --find-skill") else Ok tt : res text unit) = Ok tt
              <-> (op_write o = true -> given o check_skill \/ given o find_skill)).
  { simpl. destruct (op_write o), (op_check_skill o), (op_find_skill o); simpl; split; try discriminate; try reflexivity;
      try (intros _ _; tauto); try (intros _ _; left; discriminate); try (intros H; destruct (H eq_refl) as [X|X]; congruence); try (intros _ X; discriminate). }
  rewrite W. clear W B. split.
  - intros [E1 [E2 [E3 [E4 H]]]]. split; [|exact H]. clear H. intros f g Hf Hg C.
    destruct S1 as [[_ S1]|[S1 _]]; [|congruence]. destruct S2 as [[_ S2]|[S2 _]]; [|congruence].
    destruct S3 as [[_ S3]|[S3 _]]; [|congruence]. destruct S4 as [[_ S4]|[S4 _]]; [|congruence].
    assert (G1 : forall f, mode f -> In f g1) by (intros []; simpl; tauto).
    assert (G2 : forall f, uses_database f -> In f g2) by (unfold uses_database; intros ? [->|[->| ->]]; simpl; tauto).
    assert (G3 : forall f, prints_its_answer f -> In f g3) by (unfold prints_its_answer; intros ? [->|[->|[->|[->| ->]]]]; simpl; tauto).
    destruct (contradict_cases f g C) as [[A [B N]]|[[A ->]|[[A ->]|[[A ->]|[[A ->]|[[-> ->]|[-> ->]]]]]]].
    + exact (S1 f g (G1 f A) (G1 g B) N (conj Hf Hg)).
    + refine (S2 f no_sqlite (G2 f A) _ _ (conj Hf Hg)); [simpl; tauto|]. destruct A as [->|[->| ->]]; discriminate.
    + refine (S2 g no_sqlite (G2 g A) _ _ (conj Hg Hf)); [simpl; tauto|]. destruct A as [->|[->| ->]]; discriminate.
    + refine (S3 f quiet (G3 f A) _ _ (conj Hf Hg)); [simpl; tauto|]. destruct A as [->|[->|[->|[->| ->]]]]; discriminate.
    + refine (S3 g quiet (G3 g A) _ _ (conj Hg Hf)); [simpl; tauto|]. destruct A as [->|[->|[->|[->| ->]]]]; discriminate.
    + refine (S4 quiet verbose _ _ _ (conj Hf Hg)); simpl; try tauto; discriminate.
    + refine (S4 quiet verbose _ _ _ (conj Hg Hf)); simpl; try tauto; discriminate.
  - intros [N H].
    assert (K : forall P, (P \/ exists f g, contradict f g /\ given o f /\ given o g) -> P).
    { intros P [p|[f [g [C [A B]]]]]; [exact p|]. destruct (N f g A B C). }
    split; [apply K; destruct S1 as [[? _]|[_ ?]]; auto|]. split; [apply K; destruct S2 as [[? _]|[_ ?]]; auto|].
    split; [apply K; destruct S3 as [[? _]|[_ ?]]; auto|]. split; [apply K; destruct S4 as [[? _]|[_ ?]]; auto|]. exact H.
Qed.
Print Assumptions C23_accepted_iff.

(** A refusal names two contradicting options that were given, or is about --write. *)
Theorem C23_refusal_names_pair : forall o e, process_options o = Err e ->
  (exists f g, given o f /\ given o g /\ contradict f g /\ e = spelling f ++ s2t " and " ++ spelling g ++ s2t " are incompatible") \/
  (op_write o = true /\ ~ given o check_skill /\ ~ given o find_skill /\
   e = s2t "--write can be used only with --check-skill <PATH> or --find-skill").
Proof.
  intros o e H. unfold process_options in H.
  assert (D : forall l, In l [[check_skill; default_config; dump_; dump_candidates_; dump_candidate_counts_; find_skill; reset; resume];
      [dump_; no_sqlite; reset; resume]; [check_skill; dump_; dump_candidates_; dump_candidate_counts_; find_skill; quiet]; [quiet; verbose]] ->
      incompatible o l = Ok tt \/ exists f g, given o f /\ given o g /\ contradict f g /\
         incompatible o l = Err (spelling f ++ s2t " and " ++ spelling g ++ s2t " are incompatible")).
  { intros l I. destruct (incompatible_spec o l) as [[E _]|[f [g [a [b [Q [Ig [A [B E]]]]]]]]]; [left; exact E|right].
    exists f, g. split; [exact A|]. split; [exact B|]. split; [|exact E].
    assert (ND : f <> g).
    { assert (N : NoDup l) by (destruct I as [<-|[<-|[<-|[<-|[]]]]]; repeat constructor; simpl; intuition discriminate).
      rewrite Q in N. apply NoDup_remove_2 in N. intros ->. apply N, in_app_iff. right. exact Ig. }
    assert (Jf : In f l) by (rewrite Q; apply in_app_iff; right; left; reflexivity).
    assert (Jg : In g l) by (rewrite Q; apply in_app_iff; right; right; exact Ig). clear Q Ig a b E A B H.
    destruct I as [<-|[<-|[<-|[<-|[]]]]]; simpl in Jf, Jg;
      repeat (match goal with H : _ \/ _ |- _ => destruct H as [H|H] | H : False |- _ => destruct H end); subst f g;
      try congruence;
      first [ apply two_modes; [exact I|exact I|discriminate]
            | apply database_unused; unfold uses_database; tauto
            | apply contradict_sym, database_unused; unfold uses_database; tauto
            | apply answer_unseen; unfold prints_its_answer; tauto
            | apply contradict_sym, answer_unseen; unfold prints_its_answer; tauto
            | apply quiet_and_verbose | apply contradict_sym, quiet_and_verbose ]. }
  assert (X : forall (P : Prop) f g r, given o f /\ given o g /\ contradict f g /\ r = spelling f ++ s2t " and " ++ spelling g ++ s2t " are incompatible" ->
     (exists f g, given o f /\ given o g /\ contradict f g /\ r = spelling f ++ s2t " and " ++ spelling g ++ s2t " are incompatible") \/ P).
  { intros P f g r Y. left. exists f, g. exact Y. }
  destruct (D _ ltac:(left; reflexivity)) as [E|[f [g [A [B [C E]]]]]]; rewrite E in H; cbn [bind] in H;
    [|injection H as <-; apply (X _ f g); auto]. clear E.
  destruct (D _ ltac:(right; left; reflexivity)) as [E|[f [g [A [B [C E]]]]]]; rewrite E in H; cbn [bind] in H;
    [|injection H as <-; apply (X _ f g); auto]. clear E.
  destruct (D _ ltac:(right; right; left; reflexivity)) as [E|[f [g [A [B [C E]]]]]]; rewrite E in H; cbn [bind] in H;
    [|injection H as <-; apply (X _ f g); auto]. clear E.
  destruct (D _ ltac:(right; right; right; left; reflexivity)) as [E|[f [g [A [B [C E]]]]]]; rewrite E in H; cbn [bind] in H;
    [|injection H as <-; apply (X _ f g); auto]. clear E.
  right. simpl in *. destruct (op_write o), (op_check_skill o), (op_find_skill o); simpl in H; try discriminate.
  injection H as <-. split; [reflexivity|]. split; [congruence|]. split; [congruence|reflexivity].
Qed.
Print Assumptions C23_refusal_names_pair.

Definition no_options : options :=
  Options [] None false [] false false false false false false false false false false None None false false [] [].
Definition set_flags (o : options) (skill : option upath) (du dc rs rm ns q v w : bool) : options :=
  Options [] skill dc [] du false false false false false ns q rs rm None None v w [] [].
Example C23_nonvacuous :
  process_options no_options = Ok tt /\
  process_options (set_flags no_options None false false false true false true false false) = Ok tt /\
  process_options (set_flags no_options None true false false false true false false false) =
    Err (s2t "--dump and --no-sqlite are incompatible") /\
  process_options (set_flags no_options (Some (UPath true [])) false false false false false true false false) =
    Err (s2t "--check-skill and --quiet are incompatible") /\
  process_options (set_flags no_options (Some (UPath true [])) false false false false false false false true) = Ok tt /\
  exists e, process_options (set_flags no_options None false false false false false false false true) = Err e.
Proof. repeat split; try (vm_compute; reflexivity). eexists. reflexivity. Qed.

(** ** C24 *)

(** [q] is the root or lies below it. *)
Definition within (root q : path) : Prop := exists rel, q = root ++ rel.

(** The file that [p] means: relative paths are relative to the root. *)
Definition means (root : path) (p : upath) (full : path) : Prop :=
  (u_absolute p = true /\ full = u_components p) \/ (u_absolute p = false /\ full = root ++ u_components p).

Lemma means_resolve root p full : means root p full <-> full = resolve root p.
Proof. unfold means, resolve. destruct (u_absolute p); intuition congruence. Qed.

Lemma starts_with_spec q root : starts_with q root = true <-> within root q.
Proof.
  unfold starts_with, within. destruct (strip_components root q) as [r|] eqn:E.
  - split; [|reflexivity]. intros _. exists r. apply strip_components_spec, E.
  - split; [discriminate|]. intros [rel H]. apply strip_components_spec in H. congruence.
Qed.

(** Accepted exactly when every named file exists and its real location is in the root; what the run
    gets is those locations, in the order given. *)
Theorem C24_accepted_iff : forall canon root ps qs,
  canonicalize_source_files canon root ps = Ok qs <->
  Forall2 (fun p q => exists full, means root p full /\ canon full = Some q /\ within root q) ps qs.
Proof.
  intros canon root ps. induction ps as [|p ps IH]; intros qs; simpl.
  - split; [intros H; injection H as <-; constructor|intros H; inversion H; reflexivity].
  - destruct (canon (resolve root p)) as [q|] eqn:E.
    + destruct (starts_with q root) eqn:S.
      * destruct (canonicalize_source_files canon root ps) as [qs'|e|] eqn:R; simpl.
        -- split.
           ++ intros H. injection H as <-. constructor; [|apply IH; reflexivity].
              exists (resolve root p). split; [apply means_resolve; reflexivity|]. split; [exact E|apply starts_with_spec, S].
           ++ intros H. inversion H as [|? q0 ? qs0 [full [M [C W]]] F]; subst. apply means_resolve in M. subst full.
              rewrite E in C. injection C as <-. apply IH in F. injection F as <-. reflexivity.
        -- split; [discriminate|]. intros H. inversion H; subst. apply IH in H4. discriminate.
        -- split; [discriminate|]. intros H. inversion H; subst. apply IH in H4. discriminate.
      * split; [discriminate|]. intros H. inversion H as [|? q0 ? qs0 [full [M [C W]]] F]; subst.
        apply means_resolve in M. subst full. rewrite E in C. injection C as <-. apply starts_with_spec in W. congruence.
    + split; [discriminate|]. intros H. inversion H as [|? q0 ? qs0 [full [M [C W]]] F]; subst.
      apply means_resolve in M. subst full. congruence.
Qed.
Print Assumptions C24_accepted_iff.

(** Otherwise it is refused, and the first offender is named. *)
Theorem C24_refusal : forall canon root ps e,
  canonicalize_source_files canon root ps = Err e ->
  exists before p after, ps = before ++ p :: after /\
    (exists qs, canonicalize_source_files canon root before = Ok qs) /\
    ((e = NotCanonicalizable p /\ exists full, means root p full /\ canon full = None) \/
     (exists q full, e = NotInRoot q /\ means root p full /\ canon full = Some q /\ ~ within root q)).
Proof.
  intros canon root ps e. induction ps as [|p ps IH]; simpl; [discriminate|].
  destruct (canon (resolve root p)) as [q|] eqn:E.
  - destruct (starts_with q root) eqn:S.
    + destruct (canonicalize_source_files canon root ps) as [qs'|e'|] eqn:R; simpl; try discriminate.
      intros H. injection H as ->. destruct (IH eq_refl) as [b [p' [a [-> [[qs Q] D]]]]].
      exists (p :: b), p', a. split; [reflexivity|]. split; [|exact D].
      exists (q :: qs). simpl. rewrite E, S, Q. reflexivity.
    + intros H. injection H as <-. exists [], p, ps. split; [reflexivity|]. split; [exists []; reflexivity|].
      right. exists q, (resolve root p). split; [reflexivity|]. split; [apply means_resolve; reflexivity|]. split; [exact E|].
      intros W. apply starts_with_spec in W. congruence.
  - intros H. injection H as <-. exists [], p, ps. split; [reflexivity|]. split; [exists []; reflexivity|].
    left. split; [reflexivity|]. exists (resolve root p). split; [apply means_resolve; reflexivity|exact E].
Qed.
Print Assumptions C24_refusal.

Theorem C24_total : forall canon root ps, canonicalize_source_files canon root ps <> Panic.
Proof.
  intros canon root ps. induction ps as [|p ps IH]; simpl; [discriminate|].
  destruct (canon (resolve root p)); [|discriminate]. destruct (starts_with _ _); [|discriminate].
  destruct (canonicalize_source_files canon root ps); simpl; congruence.
Qed.
Print Assumptions C24_total.

(** A link inside the root to a file outside is refused; a sibling whose name extends the root's is not inside it. *)
Definition ex_canon (p : path) : option path :=
  if path_eqb p [s2t "w"; s2t "a"] then Some [s2t "w"; s2t "a"]
  else if path_eqb p [s2t "w"; s2t "link"] then Some [s2t "etc"; s2t "passwd"]
  else if path_eqb p [s2t "work"; s2t "a"] then Some [s2t "work"; s2t "a"] else None.
Example C24_nonvacuous :
  canonicalize_source_files ex_canon [s2t "w"] [UPath false [s2t "a"]; UPath true [s2t "w"; s2t "a"]] = Ok [[s2t "w"; s2t "a"]; [s2t "w"; s2t "a"]] /\
  canonicalize_source_files ex_canon [s2t "w"] [UPath false [s2t "link"]] = Err (NotInRoot [s2t "etc"; s2t "passwd"]) /\
  canonicalize_source_files ex_canon [s2t "w"] [UPath true [s2t "work"; s2t "a"]] = Err (NotInRoot [s2t "work"; s2t "a"]) /\
  canonicalize_source_files ex_canon [s2t "w"] [UPath false [s2t "b"]] = Err (NotCanonicalizable (UPath false [s2t "b"])).
Proof. repeat split; vm_compute; reflexivity. Qed.

(** ** C25 *)

(** The files that make a framework applicable. *)
Definition markers (f : framework) : list text := map s2t
  match f with
  | Anchor => ["Anchor.toml"] | Foundry => ["foundry.toml"] | Go => ["go.mod"] | Hardhat => ["hardhat.config.ts"]
  | Php => ["php.xml"; "php.xml.dist"] | Rust => ["Cargo.toml"] | Vitest => ["vitest.config.ts"]
  end%string.
Definition marked (ex : exists_oracle) (f : framework) : Prop := exists m, In m (markers f) /\ ex m = Some true.
Definition determined (ex : exists_oracle) : Prop := forall f m, In m (markers f) -> ex m <> None.

Lemma applicable_spec ex f : determined ex -> exists b, applicable ex f = Some b /\ (b = true <-> marked ex f).
Proof.
  intros D.
  assert (S : forall m, markers f = [m] -> exists b, ex m = Some b /\ (b = true <-> marked ex f)).
  { intros m E. pose proof (D f m) as H. rewrite E in H. specialize (H (or_introl eq_refl)).
    destruct (ex m) as [b|] eqn:X; [|congruence]. exists b. split; [reflexivity|]. unfold marked. rewrite E. split.
    - intros ->. exists m. split; [left; reflexivity|exact X].
    - intros [m' [[<-|[]] H']]. congruence. }
  destruct f; try (apply S; reflexivity). clear S. cbn [applicable].
  pose proof (D Php (s2t "php.xml") ltac:(left; reflexivity)) as H1.
  pose proof (D Php (s2t "php.xml.dist") ltac:(right; left; reflexivity)) as H2.
  destruct (ex (s2t "php.xml")) as [a|] eqn:A; [|congruence].
  destruct (ex (s2t "php.xml.dist")) as [b|] eqn:B; [|congruence].
  exists (a || b). split; [reflexivity|]. unfold marked. cbn [markers map In]. split.
  - intros H. apply orb_prop in H as [->| ->]; eexists; split; [left; reflexivity|exact A|right; left; reflexivity|exact B].
  - intros [m [[<-|[<-|[]]] H]]; apply orb_true_iff; [left|right]; congruence.
Qed.

Lemma all_frameworks_all f : In f all_frameworks.
Proof. destruct f; simpl; tauto. Qed.

Lemma all_frameworks_nodup : NoDup all_frameworks.
Proof. repeat constructor; simpl; intuition discriminate. Qed.

(** The applicable frameworks, in alphabetical order. *)
Definition found (ex : exists_oracle) (m : text) : bool := match ex m with Some b => b | None => false end.
Definition marked_frameworks (ex : exists_oracle) : list framework :=
  filter (fun f => existsb (found ex) (markers f)) all_frameworks.

Lemma marked_existsb ex f : existsb (found ex) (markers f) = true <-> marked ex f.
Proof.
  unfold marked, found. rewrite existsb_exists. split; intros [m [I H]]; exists m; (split; [exact I|]).
  - destruct (ex m) as [[]|]; congruence.
  - rewrite H. reflexivity.
Qed.

Lemma marked_frameworks_in ex f : In f (marked_frameworks ex) <-> marked ex f.
Proof.
  unfold marked_frameworks. rewrite filter_In, marked_existsb. split; [tauto|]. intros H. split; [apply all_frameworks_all|exact H].
Qed.

Lemma applicable_frameworks_spec ex fs : determined ex ->
  applicable_frameworks ex fs = Some (filter (fun f => existsb (found ex) (markers f)) fs).
Proof.
  intros D. induction fs as [|f fs IH]; [reflexivity|]. cbn [applicable_frameworks filter].
  destruct (applicable_spec ex f D) as [b [-> B]]. rewrite IH.
  destruct (existsb (found ex) (markers f)) eqn:E, b; try reflexivity.
  - apply marked_existsb, B in E. discriminate.
  - assert (X : marked ex f) by (apply B; reflexivity). apply marked_existsb in X. congruence.
Qed.

Lemma applicable_frameworks_none ex fs : applicable_frameworks ex fs = None -> exists f m, In m (markers f) /\ ex m = None.
Proof.
  induction fs as [|f fs IH]; simpl; [discriminate|].
  destruct (applicable ex f) as [b|] eqn:A.
  - destruct (applicable_frameworks ex fs); [discriminate|]. intros _. apply IH. reflexivity.
  - intros _. exists f. destruct f; cbn [applicable] in A; try (eexists; split; [left; reflexivity|exact A]).
    destruct (ex (s2t "php.xml")) eqn:E; [|eexists; split; [left; reflexivity|exact E]].
    destruct (ex (s2t "php.xml.dist")) eqn:E'; [discriminate|]. eexists; split; [right; left; reflexivity|exact E'].
Qed.

(** A framework named on the command line is used, whatever files there are. *)
Theorem C25_named : forall ex f, choose_framework ex (Some f) = Ok f.
Proof. reflexivity. Qed.
Print Assumptions C25_named.

(** With auto, [f] is used iff it is the only applicable framework (provided the existence of the files can be determined). *)
Theorem C25_auto_unique : forall ex f, determined ex ->
  (choose_framework ex None = Ok f <-> (forall g, marked ex g <-> g = f)).
Proof.
  intros ex f D. unfold choose_framework. rewrite (applicable_frameworks_spec ex _ D). fold (marked_frameworks ex).
  pose proof (marked_frameworks_in ex) as M.
  assert (ND : NoDup (marked_frameworks ex)) by apply NoDup_filter, all_frameworks_nodup.
  destruct (marked_frameworks ex) as [|a [|b l]]; simpl.
  - split; [discriminate|]. intros H. destruct (proj2 (M f)). apply H. reflexivity.
  - split.
    + intros H. injection H as ->. intros g. rewrite <- M. simpl. split; [intros [->|[]]; reflexivity|intros ->; tauto].
    + intros H. f_equal. apply H, M. left. reflexivity.
  - split; [discriminate|]. intros H. apply NoDup_cons_iff in ND as [N _]. exfalso. apply N. left.
    transitivity f; [|symmetry]; apply H, M; simpl; tauto.
Qed.
Print Assumptions C25_auto_unique.

(** None: refused. *)
Theorem C25_none : forall ex, determined ex ->
  (choose_framework ex None = Err NoneApplicable <-> forall g, ~ marked ex g).
Proof.
  intros ex D. unfold choose_framework. rewrite (applicable_frameworks_spec ex _ D). fold (marked_frameworks ex).
  pose proof (marked_frameworks_in ex) as M.
  destruct (marked_frameworks ex) as [|a [|b l]]; simpl.
  - split; [|reflexivity]. intros _ g H. apply M in H. destruct H.
  - split; [discriminate|]. intros H. destruct (H a). apply M. left. reflexivity.
  - split; [discriminate|]. intros H. destruct (H a). apply M. left. reflexivity.
Qed.
Print Assumptions C25_none.

(** Several: refused, naming all of them and no others. *)
Definition framework_spelling (f : framework) : text :=
  match f with
  | Anchor => s2t "anchor" | Foundry => s2t "foundry" | Go => s2t "go" | Hardhat => s2t "hardhat" | Php => s2t "php" | Rust => s2t "rust" | Vitest => s2t "vitest"
  end.
Lemma spelled_names fs : join_comma (map framework_name fs) = separated (s2t ", ") (map framework_spelling fs).
Proof.
  induction fs as [|f fs IH]; [reflexivity|]. assert (X : framework_name f = framework_spelling f) by (destruct f; reflexivity).
  destruct fs as [|g fs]; [cbn [map join_comma separated concat]; rewrite X, app_nil_r; reflexivity|].
  change (join_comma (map framework_name (f :: g :: fs))) with (framework_name f ++ s2t ", " ++ join_comma (map framework_name (g :: fs))). rewrite IH, X. cbn [map separated concat].
  rewrite <- app_assoc. reflexivity.
Qed.
Theorem C25_several : forall ex f g, determined ex -> marked ex f -> marked ex g -> f <> g ->
  exists fs, choose_framework ex None = Err (MultipleApplicable (separated (s2t ", ") (map framework_spelling fs))) /\
    NoDup fs /\ forall h, In h fs <-> marked ex h.
Proof.
  intros ex f g D F G N. exists (marked_frameworks ex). rewrite <- spelled_names. split; [|split; [apply NoDup_filter, all_frameworks_nodup|apply marked_frameworks_in]].
  unfold choose_framework. rewrite (applicable_frameworks_spec ex _ D). fold (marked_frameworks ex).
  apply marked_frameworks_in in F. apply marked_frameworks_in in G.
  destruct (marked_frameworks ex) as [|a [|b l]]; simpl; [destruct F| |reflexivity].
  destruct F as [<-|[]], G as [<-|[]]. congruence.
Qed.
Print Assumptions C25_several.

(** If the existence of a file cannot be determined, no framework is guessed. *)
Theorem C25_undetermined : forall ex, (exists f m, In m (markers f) /\ ex m = None) ->
  choose_framework ex None = Err ExistsFailed.
Proof.
  intros ex [f [m [I X]]]. unfold choose_framework.
  assert (N : applicable ex f = None).
  { destruct f; cbn [markers map In] in I; destruct I as [<-|I]; try (destruct I as []; fail); try exact X.
    - cbn [applicable]. rewrite X. reflexivity.
    - destruct I as [<-|[]]. cbn [applicable]. rewrite X. destruct (ex (s2t "php.xml")); reflexivity. }
  assert (Y : forall fs, In f fs -> applicable_frameworks ex fs = None).
  { induction fs as [|h fs IH]; [intros []|]. intros [->|J]; simpl; [rewrite N; reflexivity|].
    rewrite (IH J). destruct (applicable ex h); reflexivity. }
  rewrite (Y _ (all_frameworks_all f)). reflexivity.
Qed.
Print Assumptions C25_undetermined.

Definition ex_files_of (l : list string) : exists_oracle := fun m => Some (existsb (text_eqb m) (map s2t l)).
Example C25_nonvacuous :
  determined (ex_files_of ["go.mod"]%string) /\ 
  choose_framework (ex_files_of ["go.mod"; "README.md"]%string) None = Ok Go /\
  choose_framework (ex_files_of ["php.xml.dist"; "php.xml"]%string) None = Ok Php /\
  choose_framework (ex_files_of ["README.md"]%string) None = Err NoneApplicable /\
  choose_framework (ex_files_of ["Cargo.toml"; "Anchor.toml"]%string) None = Err (MultipleApplicable (s2t "anchor, rust")) /\
  choose_framework (ex_files_of ["Cargo.toml"; "Anchor.toml"]%string) (Some Rust) = Ok Rust.
Proof. split; [intros f m _; discriminate|]. repeat split; vm_compute; reflexivity. Qed.
