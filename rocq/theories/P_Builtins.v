(** What each framework ignores by default: C27_builtins. *)
From Verif Require Import Base M_Text M_Span M_Run M_Output M_Visitor M_Config P_Config.
From Verif Require M_Options.

(** ** Specification: the lists of README.md, 266-460, entry by entry. *)
Inductive entry := Exactly (s : string) | Beginning (s : string).

(** [name] is the entry's name, or begins with it and goes on with anything but a newline. *)
Definition describes (e : entry) (name : text) : Prop :=
  match e with
  | Exactly s => name = s2t s
  | Beginning s => exists rest, name = s2t s ++ rest /\ ~ In NL rest
  end.

(** The same for a method: only what follows the receiver "x.y." counts. *)
Definition describes_method (e : entry) (name : text) : Prop :=
  exists segs last, name = concat (map (fun s => s ++ s2t ".") segs) ++ last /\
    (forall s, In s segs -> s <> [] /\ ~ In DOT s) /\ describes e last.

Definition documented_functions (f : M_Options.framework) : list entry :=
  match f with
  | M_Options.Anchor | M_Options.Hardhat | M_Options.Vitest =>
    [Exactly "assert"; Beginning "assert."; Beginning "console."; Exactly "expect"]
  | M_Options.Foundry =>
    [Beginning "assert"; Beginning "vm.expect"; Beginning "console.log"; Beginning "console2.log";
     Exactly "vm.getLabel"; Exactly "vm.label"; Exactly "vm.startSnapshotGas"; Exactly "vm.stopSnapshotGas"]
  | M_Options.Go =>
    [Beginning "assert."; Beginning "require."; Exactly "panic"]
  | M_Options.Php =>
    [Exactly "var_dump"; Exactly "print_r"; Exactly "var_export"]
  | M_Options.Rust =>
    []
  end%string.
Definition documented_macros (f : M_Options.framework) : list entry :=
  match f with
  | M_Options.Anchor | M_Options.Hardhat | M_Options.Vitest =>
    []
  | M_Options.Foundry =>
    []
  | M_Options.Go =>
    []
  | M_Options.Php =>
    []
  | M_Options.Rust =>
    [Exactly "assert"; Exactly "assert_eq"; Exactly "assert_matches"; Exactly "assert_ne"; Exactly "dbg";
     Exactly "debug"; Exactly "eprint"; Exactly "eprintln"; Exactly "error"; Exactly "info"; Exactly "panic";
     Exactly "print"; Exactly "println"; Exactly "trace"; Exactly "unimplemented"; Exactly "unreachable";
     Exactly "warn"]
  end%string.
Definition documented_methods (f : M_Options.framework) : list entry :=
  match f with
  | M_Options.Anchor | M_Options.Hardhat | M_Options.Vitest =>
    [Exactly "toNumber"; Exactly "toString"]
  | M_Options.Foundry =>
    []
  | M_Options.Go =>
    [Exactly "Close"; Exactly "Error"; Exactly "Errorf"; Exactly "Fail"; Exactly "FailNow"; Exactly "Fatal";
     Exactly "Fatalf"; Exactly "Helper"; Exactly "Log"; Exactly "Logf"; Exactly "Parallel"; Exactly "Skip";
     Exactly "Skipf"; Exactly "SkipNow"]
  | M_Options.Php =>
    [Beginning "assert"; Beginning "expect"; Exactly "fail"; Exactly "markTestIncomplete"; Exactly "markTestSkipped"]
  | M_Options.Rust =>
    [Exactly "as_bytes"; Exactly "as_encoded_bytes"; Exactly "as_mut"; Exactly "as_mut_os_str";
     Exactly "as_mut_os_string"; Exactly "as_mut_slice"; Exactly "as_mut_str"; Exactly "as_os_str"; Exactly "as_path";
     Exactly "as_ref"; Exactly "as_slice"; Exactly "as_str"; Exactly "borrow"; Exactly "borrow_mut"; Exactly "clone";
     Exactly "cloned"; Exactly "copied"; Exactly "deref"; Exactly "deref_mut"; Exactly "expect"; Exactly "expect_err";
     Exactly "into_boxed_bytes"; Exactly "into_boxed_os_str"; Exactly "into_boxed_path"; Exactly "into_boxed_slice";
     Exactly "into_boxed_str"; Exactly "into_bytes"; Exactly "into_encoded_bytes"; Exactly "into_os_string";
     Exactly "into_owned"; Exactly "into_path_buf"; Exactly "into_string"; Exactly "into_vec"; Exactly "iter";
     Exactly "iter_mut"; Exactly "success"; Exactly "to_os_string"; Exactly "to_owned"; Exactly "to_path_buf";
     Exactly "to_string"; Exactly "to_vec"; Exactly "unwrap"; Exactly "unwrap_err"]
  end%string.

(** ** Proof *)
Definition as_pattern (e : entry) : text :=
  match e with Exactly s => s2t s | Beginning s => s2t s ++ [STAR] end.
Definition no_star (e : entry) : bool :=
  match e with Exactly s | Beginning s => forallb (fun c => negb (N.eqb c STAR)) (s2t s) end.

Lemma glob_literal p : forallb (fun c => negb (N.eqb c STAR)) p = true -> forall q name,
  glob (p ++ q) name <-> exists rest, name = p ++ rest /\ glob q rest.
Proof.
  induction p as [|c p IH]; intros H q name.
  - cbn. split; [intros G; exists name; auto|]. intros (rest & -> & G). exact G.
  - cbn [forallb] in H. apply andb_true_iff in H as [H1 H2]. apply negb_true_iff, N.eqb_neq in H1. split.
    + intros G. cbn [app] in G. inversion G as [|c' p' n' N G'|x p' n' N G']; subst; [|congruence].
      apply (IH H2) in G' as (rest & -> & G'). exists rest. split; [reflexivity|exact G'].
    + intros (rest & -> & G). cbn [app]. apply g_char; [exact H1|]. apply (IH H2). exists rest. auto.
Qed.

Lemma entry_glob e name : no_star e = true -> (glob (as_pattern e) name <-> describes e name).
Proof.
  destruct e as [s|s]; cbn [no_star as_pattern describes]; intros H.
  - rewrite <- (app_nil_r (s2t s)) at 1. rewrite (glob_literal _ H). split.
    + intros (rest & -> & G). inversion G. rewrite app_nil_r. reflexivity.
    + intros ->. exists []. rewrite app_nil_r. split; [reflexivity|constructor].
  - rewrite (glob_literal _ H). split.
    + intros (rest & -> & G). exists rest. split; [reflexivity|]. inversion G as [|c p' n' N G'|x p' n' N G']; subst; [congruence|].
      inversion G'; subst. rewrite app_nil_r. exact N.
    + intros (rest & -> & N). exists rest. split; [reflexivity|]. rewrite <- (app_nil_r rest). apply g_star; [exact N|constructor].
Qed.

Lemma entry_method_glob e name : no_star e = true -> (method_glob (as_pattern e) name <-> describes_method e name).
Proof.
  intros H. unfold method_glob, describes_method.
  split; intros (segs & last & A & B & C); exists segs, last; (split; [exact A|split; [exact B|]]); apply (entry_glob _ _ H); exact C.
Qed.

Lemma same_entries (l : option (list text)) (es : list entry) (P : text -> text -> Prop) (Q : entry -> text -> Prop) name :
  (forall e, In e es -> (P (as_pattern e) name <-> Q e name)) ->
  (forall p, In p (or_nil l) <-> In p (map as_pattern es)) ->
  ((exists p, match l with Some ps => In p ps | None => False end /\ P p name) <-> exists e, In e es /\ Q e name).
Proof.
  intros H M. assert (X : forall p, match l with Some ps => In p ps | None => False end <-> In p (or_nil l)) by (intros p; destruct l; reflexivity).
  split.
  - intros (p & I & Y). apply X, M, in_map_iff in I as (e & <- & I). exists e. split; [exact I|]. apply (H e I), Y.
  - intros (e & I & Y). exists (as_pattern e). split; [apply X, M, in_map, I|]. apply (H e I), Y.
Qed.

Definition sublist (a b : list text) : bool := forallb (fun p => mem_text p b) a.
Lemma sublist_iff a b : sublist a b = true -> sublist b a = true -> forall p, In p a <-> In p b.
Proof.
  intros A B p. unfold sublist in A, B. rewrite forallb_forall in A, B.
  split; intros I; [apply A in I|apply B in I]; apply mem_text_In in I; exact I.
Qed.

Definition table_ok (l : option (list text)) (es : list entry) : bool :=
  forallb no_star es && sublist (or_nil l) (map as_pattern es) && sublist (map as_pattern es) (or_nil l).
Lemma table_functions f : table_ok (b_functions (builtin_of f)) (documented_functions f) = true.
Proof. destruct f; vm_compute; reflexivity. Qed.
Lemma table_macros f : table_ok (b_macros (builtin_of f)) (documented_macros f) = true.
Proof. destruct f; vm_compute; reflexivity. Qed.
Lemma table_methods f : table_ok (b_methods (builtin_of f)) (documented_methods f) = true.
Proof. destruct f; vm_compute; reflexivity. Qed.

Lemma table_use l es (P : text -> text -> Prop) (Q : entry -> text -> Prop) (name : text) : table_ok l es = true -> (forall e, no_star e = true -> (P (as_pattern e) name <-> Q e name)) ->
  forall us : list text,
  (exists p, (match l with Some ps => In p ps | None => False end \/ In p us) /\ P p name) <->
  (exists e, In e es /\ Q e name) \/ (exists p, In p us /\ P p name).
Proof.
  intros T H us. unfold table_ok in T. rewrite !andb_true_iff in T. destruct T as [[T1 T2] T3].
  rewrite forallb_forall in T1.
  rewrite <- (same_entries l es P Q name (fun e I => H e (T1 e I)) (sublist_iff _ _ T2 T3)).
  split.
  - intros (p & [I|I] & X); [left|right]; exists p; auto.
  - intros [(p & I & X)|(p & I & X)]; exists p; auto.
Qed.

(** C27: whatever the user's configuration, a framework ignores the functions, macros and methods that its section of the
    README lists, those that match the user's patterns, and no others. *)
Theorem C27_builtins : forall alphanumeric denied f t c name,
  (forall c, alphanumeric c = true -> is_meta c = false) ->      (* letters and digits are not regular expression operators *)
  compile_config alphanumeric denied (builtin_of f) t = Ok c ->
  (is_ignored_function c name <->
     (exists e, In e (documented_functions f) /\ describes e name) \/ (exists p, In p (t_functions t) /\ glob p name)) /\
  (is_ignored_macro c name <->
     (exists e, In e (documented_macros f) /\ describes e name) \/ (exists p, In p (t_macros t) /\ glob p name)) /\
  (is_ignored_method c name <->
     (exists e, In e (documented_methods f) /\ describes_method e name) \/ (exists p, In p (t_methods t) /\ method_glob p name)).
Proof.
  intros alphanumeric denied f t c name AM H.
  destruct (C27_effective alphanumeric AM denied (builtin_of f) t) as [_ X]. destruct (X c name H) as (A & B & C & _). cbv zeta in A, B, C.
  split; [rewrite A; apply (table_use _ _ glob describes name (table_functions f)); intros e N; apply (entry_glob _ _ N)|].
  split; [rewrite B; apply (table_use _ _ glob describes name (table_macros f)); intros e N; apply (entry_glob _ _ N)|].
  rewrite C. apply (table_use _ _ method_glob describes_method name (table_methods f)). intros e N. apply (entry_method_glob _ _ N).
Qed.
Print Assumptions C27_builtins.

(** Without a configuration file every framework's patterns compile. *)
Example C27_builtins_nonvacuous : forall f, exists c,
  compile_config ascii_alphanumeric (fun _ => false) (builtin_of f) (Toml [] [] [] None [] None []) = Ok c.
Proof. intros f. destruct f; vm_compute; eexists; reflexivity. Qed.
Example C27_builtins_foundry : exists e, In e (documented_functions M_Options.Foundry) /\ describes e (s2t "vm.expectRevert").
Proof. exists (Beginning "vm.expect"). split; [right; left; reflexivity|]. exists (s2t "Revert"). split; [reflexivity|]. vm_compute. intuition discriminate. Qed.
