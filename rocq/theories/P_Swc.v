(** TypeScript's candidates in terms of swc's syntax trees: C68. *)
From Verif Require Import Base M_Text M_Rewriter M_Span M_Run M_Visitor S_Visitor S_Walk S_Candidates L_Visitor L_VisitorFacts L_Candidates
  P_Visitor L_Tree M_Swc S_Swc L_Swc.
Local Open Scope list_scope.

Lemma js_method_call t base p : js_method t base p -> js_call t.
Proof. intros (f & H & _). exists f. exact H. Qed.
Lemma beyond_tests_part t u : beyond_tests t u -> js_part t u.
Proof. induction 1 as [|t p u _ Hp _ IH]; [constructor|]. destruct t as [a k l]. econstructor; eassumption. Qed.
Lemma beyond_functions_part t u : beyond_functions t u -> js_part t u.
Proof. induction 1 as [|t p u _ Hp _ IH]; [constructor|]. destruct t as [a k l]. econstructor; eassumption. Qed.
Lemma js_in_part E t u : js_in E t u -> js_part t u.
Proof.
  induction 1 as [|t p u _ _ Hp _ IH|t f u _ (_ & a & P) _ IH]; [constructor| |]; destruct t as [a0 k l]; econstructor; try eassumption.
  cbn [j_parts] in P. rewrite P. left. reflexivity.
Qed.
Lemma js_performs_part e c : js_performs e c -> js_part e c.
Proof.
  induction 1 as [c _|e b c (_ & r & P) _ IH|e x b c (_ & r & P) _ IH]; [constructor| |]; (eapply js_trans; [apply js_part_in; rewrite P; left; reflexivity|exact IH]).
Qed.
Lemma js_performs_call e c : js_performs e c -> js_call c.
Proof. induction 1; auto. Qed.
Lemma js_call_statement_part u c : js_call_statement u c -> js_part u c.
Proof. intros (_ & _ & e & r & P & H). eapply js_trans; [apply js_part_in; rewrite P; left; reflexivity|apply js_performs_part; exact H]. Qed.
Lemma js_call_statement_stmt u c : js_call_statement u c -> js_stmt u /\ ~ js_kept u.
Proof.
  intros (K & N & e & r & P & _). split; [right; split; [exact K|split; [congruence|exact N]]|]. intros (s & Q & H). rewrite K in Q. inversion Q; subst. cbn in H. intuition discriminate.
Qed.

(** The functions of a file. *)
Lemma js_funs_spec root n f : In (n, f) (js_funs root) <-> js_local root n f.
Proof.
  split.
  - revert n f. induction root as [a k l IH] using swc_ind'. intros n f H. rewrite Forall_forall in IH.
    assert (D : In (n, f) (flat_map js_funs l) -> (forall x, k <> JFunction x) -> js_local (Swc a k l) n f).
    { intros Hd Nf. apply in_flat_map in Hd. destruct Hd as (p & Hp & Hd). destruct (IH p Hp n f Hd) as (Ho & Hf). split; [|exact Hf]. eapply bf_part; [exact Nf|exact Hp|exact Ho]. }
    cbn [js_funs] in H. destruct k; try (apply D; [exact H|discriminate]). destruct H as [H|[]]. inversion H; subst. split; [constructor|reflexivity].
  - intros (Ho & Hk). induction Ho as [t|t p u Nf Hin _ IH].
    + destruct t as [a k l]. cbn [j_kind] in Hk. subst k. left. reflexivity.
    + specialize (IH Hk). destruct t as [a k l]. cbn [j_parts j_kind] in *. cbn [js_funs]. assert (D : In (n, u) (flat_map js_funs l)) by (apply in_flat_map; eauto).
      destruct k; try exact D. destruct (Nf name eq_refl).
Qed.

Section Env.
Context (E : venv) (root : swc) (walkable : text -> bool).
Notation ENV := (js_env E root walkable).
Notation FILE := (js_file root).

Lemma env_walkable x f gs : v_walkable ENV x = f :: gs -> exists b, walkable x = true /\ js_local root x b /\ f = jr b.
Proof.
  cbn [js_env v_walkable]. destruct (walkable x) eqn:W; [|discriminate]. intros H. destruct (filter _ _) as [|(y & b) r] eqn:L; [discriminate|]. inversion H; subst.
  assert (I : In (y, b) ((y, b) :: r)) by (left; reflexivity). rewrite <- L in I. apply filter_In in I. destruct I as (I & T). cbn in T. apply text_eqb_eq in T. subst y.
  exists b. split; [reflexivity|]. split; [apply js_funs_spec; exact I|reflexivity].
Qed.
Lemma walkable_env x b : walkable x = true -> js_local root x b -> exists b' gs, v_walkable ENV x = jr b' :: gs /\ js_local root x b'.
Proof.
  intros W H. apply js_funs_spec in H. cbn [js_env v_walkable]. rewrite W. destruct (filter (fun f => text_eqb (fst f) x) (js_funs root)) as [|(y & b') r] eqn:L.
  - exfalso. assert (I : In (x, b) []) by (rewrite <- L; apply filter_In; split; [exact H|apply text_eqb_refl]). destruct I.
  - exists b', (map (fun f => jr (snd f)) r). split; [reflexivity|]. assert (I : In (y, b') ((y, b') :: r)) by (left; reflexivity). rewrite <- L in I. apply filter_In in I.
    destruct I as (I & T). cbn in T. apply text_eqb_eq in T. subst y. apply js_funs_spec. exact I.
Qed.
Lemma js_local_part x b : js_local root x b -> js_part root b.
Proof. intros (H & _). apply beyond_functions_part. exact H. Qed.
Lemma js_parsed : js_regular root -> parsed ENV FILE.
Proof.
  intros R. split; [apply (j_wf ENV root); [reflexivity|exact R|constructor]|]. intros x f gs H. apply env_walkable in H. destruct H as (b & _ & Hb & ->).
  apply (j_wf ENV root); [reflexivity|exact R|eapply js_local_part; exact Hb].
Qed.

(** *** Ignored calls *)
Lemma v_root t : js_root_ignored E t -> root_ignored ENV (jr t).
Proof.
  induction 1 as [t f x Hf Hk Hi|t b p x Hm Hb Hi|t b p Hm Hc _ IH].
  - eapply ri_function with (f := x); [| |exact Hi].
    + intros B p M. apply j_method in M. destruct M as (base & (g & Hg & Hm & Np) & _). destruct Hf as (_ & a & P), Hg as (_ & a' & P'). rewrite P in P'. inversion P'; subst.
      inversion Hm as [e He|e y b' base' p' (K & _) _]; subst; [contradiction|congruence].
    + destruct (j_call_of t f Hf) as (l & args & -> & h & K). unfold call_name. change (n_kind (Node l _)) with (l_kind l). rewrite K. unfold j_name. rewrite Hk. reflexivity.
  - eapply ri_path; [apply j_method; exists b; split; [exact Hm|reflexivity]|apply j_ident; exact Hb|exact Hi].
  - eapply ri_chain; [apply j_method; exists b; split; [exact Hm|reflexivity]|apply j_call; exact Hc|exact IH].
Qed.
Lemma v_root_inv n : root_ignored ENV n -> forall t, n = jr t -> is_call n -> js_root_ignored E t.
Proof.
  induction 1 as [n f Hm Hn Hi|n b p x Hm Hb Hi|n b p x Hm Hb Hi|n b p Hm Hc _ IH]; intros t He Hcn; subst.
  - apply j_call in Hcn. destruct Hcn as (g & Hg). destruct (j_call_of t g Hg) as (l & args & E0 & h & K). unfold call_name in Hn. rewrite E0 in Hn. change (n_kind (Node l _)) with (l_kind l) in Hn. rewrite K in Hn.
    unfold j_name in Hn. destruct (j_kind g) eqn:Kg; try discriminate. inversion Hn; subst. eapply ji_function; eassumption.
  - apply j_method in Hm. destruct Hm as (base & Hm & ->). apply j_ident in Hb. eapply ji_path; [exact Hm|exact Hb|exact Hi].
  - apply j_method in Hm. destruct Hm as (base & Hm & ->). destruct (j_no_macro base x Hb).
  - apply j_method in Hm. destruct Hm as (base & Hm & ->). eapply ji_chain; [exact Hm|apply j_call; exact Hc|]. apply (IH base eq_refl Hc).
Qed.
Lemma v_ignored_method t : ignored_method ENV (jr t) <-> js_ignored_method E t.
Proof.
  split.
  - intros (B & p & Hm & Hi). apply j_method in Hm. destruct Hm as (base & Hm & _). exists base, p. auto.
  - intros (base & p & Hm & Hi). exists (jr base), p. split; [apply j_method; eauto|exact Hi].
Qed.
Lemma v_ignored_call t : js_call t -> (ignored_call ENV (jr t) <-> js_ignored_call E t).
Proof.
  intros Ht. pose proof (proj2 (j_call t) Ht) as Hc. split.
  - intros [(x & K & _)|(_ & [Hr|(B & p & Hm & Hb & Hi)])].
    + destruct (j_no_macro t x K).
    + left. eapply v_root_inv; [exact Hr|reflexivity|exact Hc].
    + right. apply j_method in Hm. destruct Hm as (base & Hm & ->). exists base, p. split; [exact Hm|]. split; [|exact Hi]. intros Q. apply Hb. apply j_call. exact Q.
  - intros [Hr|(base & p & Hm & Hb & Hi)]; right; (split; [exact Hc|]).
    + left. apply v_root. exact Hr.
    + right. exists (jr base), p. split; [apply j_method; eauto|]. split; [|exact Hi]. intros Q. apply Hb. apply j_call in Q. exact Q.
Qed.

(** *** Calls of functions of the file *)
Lemma v_local_call t f : js_call t -> local_call ENV (jr t) f -> exists b, f = jr b /\ js_local_call root walkable t b.
Proof.
  intros (g & Hg) (callee & args & x & gs & Hk & Hn & Hw). destruct (env_walkable _ _ _ Hw) as (b & W & Hl & ->). exists b. split; [reflexivity|].
  destruct (j_call_of t g Hg) as (l & args' & E0 & _). rewrite E0 in Hk. cbn [n_kids] in Hk. inversion Hk; subst. exists g, x. split; [exact Hg|]. split; [|auto].
  apply j_ident. unfold expr_name in Hn. cbn [js_env v_fw fw_ts fw_names_all] in Hn. destruct (n_kind (jr g)); try discriminate. inversion Hn. reflexivity.
Qed.

(** *** Where the walk goes *)
Lemma j_kinds t : ~ is_it t ->
  is_stmt (jr t) \/ n_kind (jr t) = KGroup \/ is_call (jr t) \/ n_kind (jr t) = KExpr \/
  (exists x, n_kind (jr t) = KIdent x) \/ n_kind (jr t) = KAwait \/ exists x, n_kind (jr t) = KField x.
Proof.
  intros N. destruct (n_kind (jr t)) eqn:K; eauto 10.
  - left. eexists _, _, _, _. exact K.
  - do 2 right. left. eexists _, _. exact K.
  - destruct (j_no_macro t _ K).
  - destruct (jr_test t _ _ K) as (_ & b & H). destruct N. eexists _, _. exact H.
Qed.
Lemma v_open t u : js_in E t u -> open_path ENV (jr t) (jr u).
Proof.
  induction 1 as [t|t p u He Ho Hp _ IH|t f u He Hf _ IH]; [constructor| |].
  2:{ pose proof (jr_parts t He) as Kp. destruct Hf as (Hk & a & Hp). rewrite Hp in Kp. cbn [map] in Kp. eapply op_callee; [apply j_call; exists f; split; [exact Hk|eauto]|reflexivity|exact Kp|exact IH]. }
  apply op_kid with (k := jr p); [|rewrite (jr_parts t He); apply in_map; exact Hp|exact IH].
  destruct (j_kinds t He) as [K|[K|[K|K]]]; [auto|auto| |right; right; right; split; [reflexivity|exact K]].
  right. right. left. split; [auto|]. apply j_call in K. destruct (Ho K) as [Hv|(H3 & H4)]; [left; exact Hv|right]. split; [rewrite v_ignored_call; assumption|rewrite v_ignored_method; exact H4].
Qed.
Lemma v_test_path t u : beyond_tests t u -> test_path ENV (jr t) (jr u).
Proof.
  induction 1 as [t|t p u He Hp _ IH]; [constructor|].
  apply tp_kid with (k := jr p); [|rewrite (jr_parts t He); apply in_map; exact Hp|exact IH].
  destruct (j_kinds t He) as [K|[K|[K|K]]]; [auto|auto|auto|]. do 4 right. split; [reflexivity|exact K].
Qed.

(** *** Tests and functions *)
Lemma js_file_test f t b : js_test root f t b -> v_ign_test E t = false -> file_test ENV FILE (jr f) t.
Proof.
  intros (Hp & Ht) Hi. split; [apply v_test_path; exact Hp|]. split; [|exact Hi]. exists 1%nat. destruct (test_jr _ _ _ Ht) as (pre & -> & _). reflexivity.
Qed.
Lemma js_inside t m : within (jr t) m -> n_kind m <> KGroup -> exists u, m = jr u /\ js_part t u.
Proof.
  intros H N. destruct (jr_within t m H) as (u & Hu & [->|(_ & l & ->)]); [eauto|]. destruct N. reflexivity.
Qed.
Lemma stmt_not_group n : is_stmt n \/ is_call n -> n_kind n <> KGroup.
Proof. intros [(a & b & c & d & ->)|(h & x & ->)]; discriminate. Qed.
Lemma js_named n t : test_named ENV FILE n t -> exists f b, n = jr f /\ js_some_test root f t b /\ v_ign_test E t = false.
Proof.
  intros (Hin & (i & K) & Hi).
  assert (W : forall r, js_part root r -> within (jr r) n -> exists f b, n = jr f /\ js_some_test root f t b /\ v_ign_test E t = false).
  { intros r Hr Hw. destruct (js_inside r n Hw) as (f & -> & Hf); [rewrite K; discriminate|]. destruct (jr_test f t i K) as (_ & b & Hb). exists f, b. split; [reflexivity|]. split; [|exact Hi].
    split; [eapply js_trans; eassumption|exact Hb]. }
  destruct Hin as [Hw|(x & g & gs & Hw & H)]; [apply (W root); [constructor|exact Hw]|].
  destruct (env_walkable _ _ _ Hw) as (b & _ & Hb & ->). apply (W b); [eapply js_local_part; exact Hb|exact H].
Qed.
Lemma js_mentions t f : mentions ENV (jr t) f -> exists c b, js_part t c /\ f = jr b /\ js_local_call root walkable c b.
Proof.
  intros (n & callee & args & x & gs & Hw & Hc & Hk & Hn & Hwk). destruct (js_inside t n Hw (stmt_not_group _ (or_intror Hc))) as (u & -> & Hu).
  destruct (v_local_call u f (proj1 (j_call u) Hc)) as (b & Hb & Hl); [exists callee, args, x, gs; auto|]. exists u, b. auto.
Qed.
Lemma js_calls t n : test_calls ENV FILE t n -> exists b x, n = jr b /\ js_runs root walkable t b /\ js_local root x b /\ v_ign_test E t = false.
Proof.
  assert (L : forall c b, js_local_call root walkable c b -> exists x, js_local root x b) by (intros c b (g & x & _ & _ & _ & H); eauto).
  induction 1 as [n f Hn Hm|g f _ IH Hm].
  - destruct (js_named n t Hn) as (f0 & b0 & -> & H1 & H2). destruct (js_mentions f0 f Hm) as (c & b & Hk & -> & Hl). destruct (L c b Hl) as (x & Hx).
    exists b, x. split; [reflexivity|]. split; [|auto]. eapply jr_call; [eapply S_Swc.jr_test; exact H1|exact Hk|exact Hl].
  - destruct IH as (b0 & x0 & -> & H1 & _ & H2). destruct (js_mentions b0 f Hm) as (c & b & Hk & -> & Hl). destruct (L c b Hl) as (x & Hx).
    exists b, x. split; [reflexivity|]. split; [|auto]. eapply jr_call; [exact H1|exact Hk|exact Hl].
Qed.
Lemma js_functions_apart : js_apart root -> functions_apart ENV.
Proof.
  intros A x y f g fs0 gs Hx Hy Hs. destruct (env_walkable _ _ _ Hx) as (b & _ & Hb & ->). destruct (env_walkable _ _ _ Hy) as (b' & _ & Hb' & ->).
  unfold same in Hs. cbn [js_env v_fw fw_ts fw_structural] in Hs. apply Nat.eqb_eq in Hs. rewrite !jr_id in Hs. f_equal. apply A; [eapply js_local_part; exact Hb|eapply js_local_part; exact Hb'|lia].
Qed.

(** *** Statements *)
Lemma v_removable u : js_stmt u -> removable (jr u) = true.
Proof. intros H. apply j_stmt in H. destruct H as (a & b & c & d & K). unfold removable. jshapes u; try discriminate; try (destruct Hko; subst; discriminate); reflexivity. Qed.
Lemma v_kept u : js_stmt u -> (control (jr u) = false /\ declaration (jr u) = false <-> ~ js_kept u).
Proof.
  intros H. apply j_stmt in H. destruct H as (a & b & c & d & K). unfold js_kept, control, declaration. jshapes u; try discriminate; try (destruct Hko; subst; discriminate).
  - cbn [jn n_kind n_lab l_kind]. split.
    + intros (H1 & H2) (s & Q & Hs). rewrite Hk in Q. inversion Q; subst. cbn in Hs. repeat (destruct Hs as [<-|Hs]; [discriminate|]). exact Hs.
    + intros H. split; destruct s9; try reflexivity; destruct H; eexists; (split; [exact Hk|cbn; tauto]).
  - split; [|intros _; split; reflexivity]. intros _ (s & Q & Hs). rewrite Hk in Q. inversion Q; subst. cbn in Hs. intuition discriminate.
Qed.

(** *** The last statement of a test *)
Lemma js_last_node f t b u : it_statement f t b -> js_last b u -> last_statement (jr f) = Some (jr u).
Proof.
  intros Ht (Kb & pre0 & Hb). destruct (test_jr _ _ _ Ht) as (pre & -> & _). unfold last_statement. cbn [jn n_kind n_lab l_kind n_kids]. unfold test_statements. cbn [nth_error].
  rewrite jr_parts by (intros (m & b0 & Q & _); congruence). rewrite Hb. unfold last_of. rewrite map_app, rev_app_distr. reflexivity.
Qed.
Lemma node_last_js f t b l : it_statement f t b -> j_kind b = JPart -> last_statement (jr f) = Some l -> exists u, js_last b u /\ l = jr u.
Proof.
  intros Ht Kb Hl. destruct (j_parts b) as [|p0 r0] eqn:Pb.
  - destruct (test_jr _ _ _ Ht) as (pre & Ej & _). rewrite Ej in Hl. unfold last_statement in Hl. cbn [jn n_kind n_lab l_kind n_kids] in Hl. unfold test_statements in Hl. cbn [nth_error] in Hl.
    rewrite jr_parts in Hl by (intros (m & b0 & Q & _); congruence). rewrite Pb in Hl. discriminate.
  - destruct (exists_last (l := p0 :: r0)) as (pre & u & Hb); [discriminate|]. rewrite Hb in Pb. assert (R : js_last b u) by (split; [exact Kb|eauto]). exists u. split; [exact R|].
    rewrite (js_last_node f t b u Ht R) in Hl. inversion Hl. reflexivity.
Qed.
End Env.

(** The tests found are those statements [it("m", () => {..})] whose messages the configuration does not ignore. Those in no other test are found. *)
Theorem C68_tests : forall E root walkable st, js_regular root -> result (js_env E root walkable) (js_file root) st ->
  (forall t, In t (s_tset st) -> v_ign_test E t = false /\ exists f b, js_some_test root f t b) /\
  (forall t f b, js_test root f t b -> v_ign_test E t = false -> In t (s_tset st)).
Proof.
  intros E root walkable st R HR. pose proof (js_parsed E root walkable R) as HP. split.
  - intros t H. destruct (in_named _ _ _ HP HR t H) as (n & Hn). destruct (js_named E root walkable n t Hn) as (f & b & _ & H1 & H2). eauto.
  - intros t f b Hf Hi. exact (file_test_in _ _ _ HP HR t _ (js_file_test E root walkable f t b Hf Hi)).
Qed.
Print Assumptions C68_tests.

Section Origin.
Context (E : venv) (root : swc) (walkable : text -> bool).
Notation ENV := (js_env E root walkable).
Notation FILE := (js_file root).
Lemma js_origin_test n t s k : test_named ENV FILE n t -> In k (n_kids n) -> within k s -> is_stmt s \/ is_call s ->
  v_ign_test E t = false /\ exists m b u, s = jr u /\ js_part m u /\ n = jr m /\ js_some_test root m t b.
Proof.
  intros Hn Hk Hw Hs. destruct (js_named E root walkable n t Hn) as (f & b & -> & H1 & H2). split; [exact H2|].
  destruct (js_inside f s (wi_kid _ _ _ Hk Hw) (stmt_not_group _ Hs)) as (u & -> & Hu). exists f, b, u. auto.
Qed.
Lemma js_origin_fun n t s k : test_calls ENV FILE t n -> In k (n_kids n) -> within k s -> is_stmt s \/ is_call s ->
  v_ign_test E t = false /\ exists m u, s = jr u /\ js_part m u /\ js_runs root walkable t m /\ exists x, js_local root x m.
Proof.
  intros Hn Hk Hw Hs. destruct (js_calls E root walkable t n Hn) as (b & x & -> & H1 & H2 & H3). split; [exact H3|].
  destruct (js_inside b s (wi_kid _ _ _ Hk Hw) (stmt_not_group _ Hs)) as (u & -> & Hu). exists b, u. eauto 8.
Qed.
End Origin.

(** A statement that is a candidate of the test [t] is a statement of the code of [t], and not its last. It is not a declaration, [break], [continue],
    [return] or [throw], and not itself a test. It is a call that is not ignored, or else no statement occurs in it, but for tests and the arguments of
    ignored calls. *)
Theorem C68_statement_candidates : forall E root walkable st sp t, js_regular root -> js_apart root -> result (js_env E root walkable) (js_file root) st ->
  candidate st Statement sp t ->
  v_skip E sp = false /\ v_ign_test E t = false /\
  exists n u, js_code root walkable t n u /\ js_stmt u /\ j_span (j_info u) = sp /\ ~ js_kept u /\
    ((exists c, js_call_statement u c /\ ~ js_ignored_call E c) \/
     ((forall c, ~ js_call_statement u c) /\ forall k v, In k (j_parts u) -> js_in E k v -> ~ js_stmt v)).
Proof.
  intros E root walkable st sp t RG A HR HC. pose proof (js_parsed E root walkable RG) as HP. pose proof (js_functions_apart E root walkable A) as FA.
  destruct (candidate_runs_last _ _ _ HP HR Statement sp t FA HC) as (n & L & R & Hn & Hy).
  apply yields_statement in Hy. destruct Hy as (k & s & Hk & Hw & Hs & Hsk & (His & Hkp & Hcase)). split; [exact Hsk|].
  assert (O : v_ign_test E t = false /\ exists m u, s = jr u /\ js_code root walkable t m u).
  { destruct Hn as [(Hn & ->)|(Hn & ->)].
    - destruct (js_origin_test E root walkable n t s k Hn Hk Hw (or_introl His)) as (Hi & m & b & u & -> & Hin & -> & H1). split; [exact Hi|].
      exists m, u. split; [reflexivity|]. split; [exact Hin|]. left. exists b. split; [exact H1|]. intros Hl. apply Hkp. right.
      eexists. split; [apply (js_last_node m t b u (proj2 H1) Hl)|]. unfold same. cbn [js_env v_fw fw_ts fw_structural]. apply Nat.eqb_refl.
    - destruct (js_origin_fun E root walkable n t s k Hn Hk Hw (or_introl His)) as (Hi & m & u & -> & Hin & H1). split; [exact Hi|].
      exists m, u. split; [reflexivity|]. split; [exact Hin|]. right. exact H1. }
  destruct O as (Hi & m & u & -> & Hm). split; [exact Hi|].
  assert (S0 : js_stmt u) by (apply j_stmt; exact His).
  exists m, u. split; [exact Hm|]. split; [exact S0|]. split; [rewrite <- Hs; symmetry; apply jr_span|]. split.
  - destruct Hcase as [(_ & H1 & H2 & _)|(n0 & Hc & _)]; [rewrite <- (v_kept u S0); auto|].
    apply j_call_statement in Hc. destruct Hc as (c & Hc & _). exact (proj2 (js_call_statement_stmt u c Hc)).
  - destruct Hcase as [(H1 & _ & _ & H2)|(n0 & Hc & Hni & _)].
    + right. split; [intros c Hc; apply (H1 (jr c)); apply j_call_statement; eauto|]. intros k0 v Hk0 Hv Hsv.
      assert (Hkid : In (jr k0) (n_kids (jr u))).
      { rewrite jr_parts; [apply in_map; exact Hk0|]. destruct S0 as [(s0 & Q & N)|(_ & _ & N)]; [|exact N]. intros (m0 & b0 & Q' & _). congruence. }
      exact (leaf_open _ L R _ His H2 _ _ Hkid (v_open E root walkable k0 v Hv) (proj2 (j_stmt v) Hsv)).
    + left. apply j_call_statement in Hc. destruct Hc as (c & Hc & ->). exists c. split; [exact Hc|].
      assert (Cc : js_call c) by (destruct Hc as (_ & _ & e & r & _ & Hf); exact (js_performs_call e c Hf)).
      rewrite <- (v_ignored_call E root walkable c Cc). exact Hni.
Qed.
Print Assumptions C68_statement_candidates.

(** A method call that is a candidate of [t] is a call [base.p1...pn(..)] in the code of [t] that is not ignored; the candidate is what follows [base]. *)
Theorem C68_method_candidates : forall E root walkable st sp t, js_regular root -> js_apart root -> result (js_env E root walkable) (js_file root) st ->
  candidate st MethodCall sp t ->
  v_skip E sp = false /\ v_ign_test E t = false /\
  exists n c base p, js_part n c /\ ((exists b, js_some_test root n t b) \/ (js_runs root walkable t n /\ exists x, js_local root x n)) /\
    js_method c base p /\ method_span E (j_span (j_info c)) (j_span (j_info base)) = Some sp /\ ~ js_ignored_call E c /\ ~ js_ignored_method E c.
Proof.
  intros E root walkable st sp t RG A HR HC. pose proof (js_parsed E root walkable RG) as HP. pose proof (js_functions_apart E root walkable A) as FA.
  destruct (candidate_runs_last _ _ _ HP HR MethodCall sp t FA HC) as (n & L & R & Hn & Hy).
  apply yields_method in Hy. destruct Hy as (k & m & ctx & Hk & Hv & Hsk & ((x & Kx) & Hni & Hnm & B & p & Hm & Hsp) & _). split; [exact Hsk|].
  assert (Hc : is_call m) by (eexists _, _; exact Kx). apply visits_within in Hv.
  assert (O : v_ign_test E t = false /\ exists n u, m = jr u /\ js_part n u /\ ((exists b, js_some_test root n t b) \/ (js_runs root walkable t n /\ exists x, js_local root x n))).
  { destruct Hn as [(Hn & _)|(Hn & _)].
    - destruct (js_origin_test E root walkable n t m k Hn Hk Hv (or_intror Hc)) as (Hi & f & b & u & -> & Hin & _ & H1). split; [exact Hi|]. exists f, u. eauto.
    - destruct (js_origin_fun E root walkable n t m k Hn Hk Hv (or_intror Hc)) as (Hi & f & u & -> & Hin & H1). split; [exact Hi|]. exists f, u. eauto. }
  destruct O as (Hi & f & u & -> & Hin & Hf). split; [exact Hi|]. apply j_method in Hm. destruct Hm as (base & Hm & ->).
  exists f, u, base, p. split; [exact Hin|]. split; [exact Hf|]. split; [exact Hm|]. rewrite !jr_span in Hsp. split; [exact Hsp|].
  split; [rewrite <- (v_ignored_call E root walkable u (js_method_call _ _ _ Hm)); exact Hni|rewrite <- (v_ignored_method E root walkable u); exact Hnm].
Qed.
Print Assumptions C68_method_candidates.

Section Listed.
Context (E : venv) (root : swc) (walkable : text -> bool).
Notation ENV := (js_env E root walkable).
Notation FILE := (js_file root).
Lemma js_in_test f t b u : it_statement f t b -> js_in E b u -> in_body ENV (jr f) (jr u).
Proof.
  intros Ht Hu. destruct (test_jr _ _ _ Ht) as (pre & -> & _). exists (jr b). split; [right; left; reflexivity|apply v_open; exact Hu].
Qed.
Lemma js_in_fun x b u : js_local root x b -> js_below E b u -> in_body ENV (jr b) (jr u).
Proof.
  intros (_ & Hk) (p & Hp & Hu). exists (jr p). split; [|apply v_open; exact Hu]. rewrite jr_parts; [apply in_map; exact Hp|]. intros (m & b0 & Q & _). congruence.
Qed.
Lemma js_stmt_parts u : js_stmt u -> n_kids (jr u) = map jr (j_parts u).
Proof. intros S0. apply jr_parts. destruct S0 as [(s0 & Q & N)|(_ & _ & N)]; [|exact N]. intros (m0 & b0 & Q' & _). congruence. Qed.
Lemma plain_leaf u : js_plain_statement u -> removable_leaf (jr u).
Proof.
  intros (S0 & Nk & Nc & Nin). pose proof (proj2 (v_kept u S0) Nk) as (H1 & H2). split; [apply j_stmt; exact S0|]. split.
  - intros n Hn. apply j_call_statement in Hn. destruct Hn as (c & Hc & _). exact (Nc c Hc).
  - split; [apply v_removable; exact S0|]. split; [exact H1|]. split; [exact H2|]. intros k m Hk Hw Hm. rewrite (js_stmt_parts u S0) in Hk. apply in_map_iff in Hk. destruct Hk as (p & <- & Hp).
    destruct (js_inside p m Hw (stmt_not_group _ (or_introl Hm))) as (v & -> & Hv). apply (Nin p v Hp Hv). apply j_stmt. exact Hm.
Qed.
Lemma call_leaf u : js_removable_call E root walkable u -> removable_call ENV (jr u).
Proof.
  intros (c & Hc & Hn & Hl). split; [apply v_removable; exact (proj1 (js_call_statement_stmt u c Hc))|].
  assert (Cc : js_call c) by (destruct Hc as (_ & _ & e & r & _ & Hf); exact (js_performs_call e c Hf)).
  exists (jr c). split; [apply j_call_statement; eauto|]. split; [rewrite v_ignored_call; assumption|]. intros f Hf. destruct (v_local_call E root walkable c f Cc Hf) as (b & _ & Hb). exact (Hl b Hb).
Qed.
Lemma not_last f t b u l : js_apart root -> js_part root b -> js_part root u -> it_statement f t b -> j_kind b = JPart -> ~ js_last b u -> last_statement (jr f) = Some l -> same ENV l (jr u) = false.
Proof.
  intros A Pb Pu Ht Kb N Hl. destruct (node_last_js f t b l Ht Kb Hl) as (v & Hv & ->). unfold same. cbn [js_env v_fw fw_ts fw_structural]. apply Nat.eqb_neq. rewrite !jr_id. intros Q.
  assert (v = u); [|subst; contradiction]. apply A; [|exact Pu|lia]. eapply js_trans; [exact Pb|]. destruct Hv as (_ & pre & Hv). apply js_part_in. rewrite Hv. apply in_or_app. right. left. reflexivity.
Qed.
Lemma test_body_part f t b : it_statement f t b -> js_part f b.
Proof.
  intros H. destruct (test_jr _ _ _ H) as (pre & _ & Hp). destruct (Hp b (or_intror eq_refl)) as (e & He & Heb). eapply js_trans; [apply js_part_in; exact He|exact Heb].
Qed.
End Listed.

(** Every statement of a test but the last is a candidate of that test, if it is plain, or a call that is not ignored and not of a function of the file. *)
Theorem C68_statements_of_tests : forall E root walkable st t f b u, js_regular root -> js_apart root -> result (js_env E root walkable) (js_file root) st ->
  js_test root f t b -> j_kind b = JPart -> v_ign_test E t = false -> js_in E b u ->
  js_plain_statement u \/ js_removable_call E root walkable u -> ~ js_last b u ->
  v_skip E (j_span (j_info u)) = false -> candidate st Statement (j_span (j_info u)) t.
Proof.
  intros E root walkable st t f b u RG A HR Hf Kb Hi Hin Hu Hl Hsk. pose proof (js_parsed E root walkable RG) as HP.
  pose proof (js_file_test E root walkable f t b Hf Hi) as Ht. pose proof (js_in_test E root walkable f t b u (proj2 Hf) Hin) as Hbody.
  assert (Pb : js_part root b) by (eapply js_trans; [apply beyond_tests_part; exact (proj1 Hf)|eapply test_body_part; exact (proj2 Hf)]).
  assert (Pu : js_part root u) by (eapply js_trans; [exact Pb|eapply js_in_part; exact Hin]).
  rewrite <- (jr_span u) in *. eapply C33_statements_of_tests; [exact HP|exact HR|exact Ht|exact Hbody| | |exact Hsk].
  - destruct Hu as [Hu|Hu]; [left; apply plain_leaf; exact Hu|right; apply call_leaf; exact Hu].
  - intros l Hll. eapply not_last; [exact A|exact Pb|exact Pu|exact (proj2 Hf)|exact Kb|exact Hl|exact Hll].
Qed.
Print Assumptions C68_statements_of_tests.

(** Every method call of a test that is not ignored and not of a function of the file is a candidate of that test, unless it makes up the last statement. *)
Theorem C68_method_calls_of_tests : forall E root walkable st t f b c base p sp, js_regular root -> js_apart root -> result (js_env E root walkable) (js_file root) st ->
  js_test root f t b -> j_kind b = JPart -> v_ign_test E t = false -> js_in E b c -> js_method c base p ->
  ~ js_ignored_call E c -> v_ign_met E (dotted p) = false ->
  (forall u, js_last b u -> ~ js_call_statement u c) ->
  method_span E (j_span (j_info c)) (j_span (j_info base)) = Some sp -> v_skip E sp = false -> candidate st MethodCall sp t.
Proof.
  intros E root walkable st t f b c base p sp RG A HR Hf Kb Hi Hin Hm Hnc Hnm Hst Hsp Hsk. pose proof (js_parsed E root walkable RG) as HP.
  pose proof (js_file_test E root walkable f t b Hf Hi) as Ht. pose proof (js_in_test E root walkable f t b c (proj2 Hf) Hin) as Hbody.
  assert (Pb : js_part root b) by (eapply js_trans; [apply beyond_tests_part; exact (proj1 Hf)|eapply test_body_part; exact (proj2 Hf)]).
  assert (Pc : js_part root c) by (eapply js_trans; [exact Pb|eapply js_in_part; exact Hin]).
  pose proof (js_method_call _ _ _ Hm) as Hc.
  eapply C33_method_calls_of_tests; [exact HP|exact HR|exact Ht|exact Hbody| |apply j_method; eauto|rewrite v_ignored_call; assumption|exact Hnm| | | |exact Hsk].
  - apply j_seen. split; [exact Hc|]. intros m b0 (f0 & s0 & g0 & pre0 & _ & P & K & _). destruct Hm as (g & (_ & a & P') & Hm & Np). rewrite P in P'. inversion P'; subst.
    inversion Hm as [e He|e y b' base' p' (K' & _) _]; subst; [contradiction|congruence].
  - intros g Hg. destruct (v_local_call E root walkable c g Hc Hg) as (b0 & _ & (g0 & x & (_ & a & P) & K & _)). destruct Hm as (g1 & (_ & a' & P') & Hm & Np). rewrite P in P'. inversion P'; subst.
    inversion Hm as [e He|e y b' base' p' (K' & _) _]; subst; [contradiction|congruence].
  - intros s Hs Hcs. assert (Ss : is_stmt s) by (eapply call_statement_stmt; exact Hcs).
    destruct (js_inside f s Hs (stmt_not_group _ (or_introl Ss))) as (u & -> & Hu).
    assert (Pu : js_part root u) by (eapply js_trans; [apply beyond_tests_part; exact (proj1 Hf)|exact Hu]).
    destruct (proj1 (j_call_statement u _) Hcs) as (c' & Hc' & Ec).
    assert (c' = c).
    { apply A; [eapply js_trans; [exact Pu|apply js_call_statement_part; exact Hc']|exact Pc|]. apply (f_equal n_id) in Ec. rewrite !jr_id in Ec. lia. }
    subst c'. split; [apply v_removable; apply j_stmt; exact Ss|]. intros l Hl. eapply not_last; [exact A|exact Pb|exact Pu|exact (proj2 Hf)|exact Kb| |exact Hl].
    intros Q. exact (Hst u Q Hc').
  - rewrite !jr_span. exact Hsp.
Qed.
Print Assumptions C68_method_calls_of_tests.

(** So are the statements of a function of the file that a test calls, if it is the only function with that name. *)
Theorem C68_statements_of_called_functions : forall E root walkable st t f b c g x h u, js_regular root -> js_apart root -> result (js_env E root walkable) (js_file root) st ->
  js_test root f t b -> v_ign_test E t = false -> js_in E b c -> js_call_of c g -> j_kind g = JIdent x -> walkable x = true ->
  (forall m b', ~ it_expr c m b') ->
  js_local root x h -> (forall h', js_local root x h' -> h' = h) -> js_below E h u ->
  js_plain_statement u \/ js_removable_call E root walkable u -> v_skip E (j_span (j_info u)) = false -> candidate st Statement (j_span (j_info u)) t.
Proof.
  intros E root walkable st t f b c g x h u RG A HR Hf Hi Hin Hc Kg Wx Nit Hl Honly Hu Hpl Hsk. pose proof (js_parsed E root walkable RG) as HP.
  pose proof (js_file_test E root walkable f t b Hf Hi) as Ht. pose proof (js_in_test E root walkable f t b c (proj2 Hf) Hin) as Hbody.
  pose proof (js_in_fun E root walkable x h u Hl Hu) as Hbu.
  rewrite <- (jr_span u) in *.
  eapply C33_statements_of_called_functions; [exact HP|exact HR|apply js_functions_apart; exact A|exact Ht|exact Hbody| | |exact Hbu| |exact Hsk].
  - apply j_seen. split; [exists g; exact Hc|exact Nit].
  - destruct (j_call_of c g Hc) as (l & args & -> & _). destruct (walkable_env E root walkable x h Wx Hl) as (h' & gs & Hw & Hl'). rewrite (Honly h' Hl') in Hw.
    exists (jr g), args, x, gs. split; [reflexivity|]. split; [|exact Hw]. unfold expr_name. rewrite (proj2 (j_ident g x) Kg). reflexivity.
  - destruct Hpl as [Hpl|Hpl]; [left; apply plain_leaf; exact Hpl|right; apply call_leaf; exact Hpl].
Qed.
Print Assumptions C68_statements_of_called_functions.

(** And the method calls of such a function. *)
Theorem C68_method_calls_of_called_functions : forall E root walkable st t f b c h k base p sp, js_regular root -> js_apart root -> result (js_env E root walkable) (js_file root) st ->
  js_test root f t b -> v_ign_test E t = false -> js_in E b c -> js_enters root walkable c h -> js_below E h k -> js_method k base p ->
  ~ js_ignored_call E k -> v_ign_met E (dotted p) = false ->
  method_span E (j_span (j_info k)) (j_span (j_info base)) = Some sp -> v_skip E sp = false -> candidate st MethodCall sp t.
Proof.
  intros E root walkable st t f b c h k base p sp RG A HR Hf Hi Hin (g & x & Hc & Kg & Wx & Nit & Hl & Honly) Hu Hm Hnc Hnm Hsp Hsk. pose proof (js_parsed E root walkable RG) as HP.
  pose proof (js_file_test E root walkable f t b Hf Hi) as Ht. pose proof (js_in_test E root walkable f t b c (proj2 Hf) Hin) as Hbody.
  pose proof (js_in_fun E root walkable x h k Hl Hu) as Hbu. pose proof (js_method_call _ _ _ Hm) as Hk.
  eapply (C33_method_calls_of_called_functions _ _ _ (jr f) t (jr c) (jr h) (jr k)); [exact HP|exact HR|apply js_functions_apart; exact A|exact Ht|exact Hbody| | |exact Hbu| |apply j_method; eauto|rewrite v_ignored_call; assumption|exact Hnm| | | |exact Hsk].
  - apply j_seen. split; [exists g; exact Hc|exact Nit].
  - destruct (j_call_of c g Hc) as (l & args & -> & _). destruct (walkable_env E root walkable x h Wx Hl) as (h' & gs & Hw & Hl'). rewrite (Honly h' Hl') in Hw.
    exists (jr g), args, x, gs. split; [reflexivity|]. split; [|exact Hw]. unfold expr_name. rewrite (proj2 (j_ident g x) Kg). reflexivity.
  - apply j_seen. split; [exact Hk|]. intros m b0 (f0 & s0 & g0 & pre0 & _ & P & K & _). destruct Hm as (g1 & (_ & a & P') & Hm & Np). rewrite P in P'. inversion P'; subst.
    inversion Hm as [e He|e y b' base' p' (K' & _) _]; subst; [contradiction|congruence].
  - intros g2 Hg. destruct (v_local_call E root walkable k g2 Hk Hg) as (b0 & _ & (g0 & x0 & (_ & a & P) & K & _)). destruct Hm as (g1 & (_ & a' & P') & Hm & Np). rewrite P in P'. inversion P'; subst.
    inversion Hm as [e He|e y b' base' p' (K' & _) _]; subst; [contradiction|congruence].
  - intros s Hs Hcs. assert (Ss : is_stmt s) by (eapply call_statement_stmt; exact Hcs).
    destruct (js_inside h s Hs (stmt_not_group _ (or_introl Ss))) as (u & -> & _). apply v_removable. apply j_stmt. exact Ss.
  - rewrite !jr_span. exact Hsp.
Qed.
Print Assumptions C68_method_calls_of_called_functions.

Lemma jr_no_test t : (forall u, js_part t u -> ~ is_it u) -> no_test (jr t).
Proof.
  intros H m x i Hm K. destruct (js_inside t m Hm) as (u & -> & Hu); [rewrite K; discriminate|]. destruct (jr_test u x i K) as (_ & b & Hb). apply (H u Hu). eexists _, _. exact Hb.
Qed.
(** The walk of a file without tests inside of tests or functions does not panic, provided the places of the method calls can be computed. *)
Theorem C68_no_panic : forall E root walkable fuel, js_regular root -> js_no_inner_test root ->
  (forall c base p, js_part root c -> js_method c base p -> method_span E (j_span (j_info c)) (j_span (j_info base)) <> None) ->
  visit_file (js_env E root walkable) fuel (js_file root) <> LPanic.
Proof.
  intros E root walkable fuel RG NT HS. pose proof (js_parsed E root walkable RG) as HP.
  assert (SP : forall r, js_part root r -> spans_ok (js_env E root walkable) (jr r)).
  { intros r Hr n B p Hn Hm. destruct (js_inside r n Hn (stmt_not_group _ (or_intror (proj1 Hm)))) as (u & -> & Hu).
    apply j_method in Hm. destruct Hm as (base & Hm & ->). rewrite !jr_span. apply (HS u base p); [|exact Hm]. eapply js_trans; eassumption. }
  apply C36_no_panic; [exact HP| |apply (SP root); constructor|].
  - intros m t i k Hm K Hk. destruct (js_inside root m Hm) as (u & -> & Hu); [rewrite K; discriminate|]. destruct (jr_test u t i K) as (_ & b & Hb).
    intros n x j Hn Kn. destruct (test_jr _ _ _ Hb) as (pre & Ej & Hpre). rewrite Ej in Hk.
    assert (Q : forall q, In q pre \/ q = b -> within (jr q) n -> False).
    { intros q Hq Hw. destruct (Hpre q Hq) as (e & He & Heq). refine (jr_no_test q _ n x j Hw Kn). intros v Hv. apply (NT u e v Hu); [left; eexists _, _; exact Hb|exact He|].
      eapply js_trans; eassumption. }
    destruct Hk as [<-|[<-|[]]]; [|exact (Q b (or_intror eq_refl) Hn)]. destruct (within_inv _ _ Hn) as [->|(h & Hh & Hw)]; [discriminate|].
    cbn [grp n_kids] in Hh. apply in_map_iff in Hh. destruct Hh as (q & <- & Hq). exact (Q q (or_introl Hq) Hw).
  - intros x f gs Hx. destruct (env_walkable E root walkable x f gs Hx) as (b & _ & Hb & ->). pose proof (js_local_part root x b Hb) as Pb.
    split; [|apply SP; exact Pb]. apply jr_no_test. intros v Hv Hit. destruct Hb as (_ & Kb).
    assert (Hv' : v = b \/ exists p, In p (j_parts b) /\ js_part p v) by (inversion Hv; subst; eauto). destruct Hv' as [->|(p & Hp & Hpv)].
    + destruct Hit as (m & b0 & Q & _). congruence.
    + apply (NT b p v Pb); [right; eauto|exact Hp|exact Hpv|exact Hit].
Qed.
Print Assumptions C68_no_panic.

(** The walk of a file ends, with a result if the above holds. *)
Theorem C68_result : forall E root walkable, js_regular root -> js_no_inner_test root ->
  (forall c base p, js_part root c -> js_method c base p -> method_span E (j_span (j_info c)) (j_span (j_info base)) <> None) ->
  exists st, result (js_env E root walkable) (js_file root) st.
Proof.
  intros E root walkable RG NT HS. destruct (js_parsed E root walkable RG) as [W WF].
  destruct (C35_walk_ends (js_env E root walkable) (js_file root) (map (fun f => jr (snd f)) (js_funs root)) W) as (r & Hr & HF).
  { intros x f gs Hx. split; [eapply WF; exact Hx|]. destruct (env_walkable E root walkable x f gs Hx) as (b & _ & Hb & ->). apply js_funs_spec in Hb.
    apply in_map_iff. exists (x, b). auto. }
  specialize (HF _ (le_n _)). pose proof (C68_no_panic E root walkable (length (map (fun f => jr (snd f)) (js_funs root))) RG NT HS) as HP.
  destruct r as [st| |]; [exists st; eexists; exact HF| |congruence]. congruence.
Qed.
Print Assumptions C68_result.

(** ** An example *)
Fixpoint all_parts (t : swc) : list swc := match t with Swc _ _ l => t :: flat_map all_parts l end.
Lemma all_parts_spec t : forall u, In u (all_parts t) <-> js_part t u.
Proof.
  induction t as [a k l IH] using swc_ind'. rewrite Forall_forall in IH. intros u. cbn [all_parts]. split.
  - intros [<-|H]; [constructor|]. apply in_flat_map in H. destruct H as (p & Hp & H). econstructor; [exact Hp|]. apply (IH p Hp). exact H.
  - intros H. inversion H as [|a' k' l' p u' Hp Hu]; subst; [left; reflexivity|right]. apply in_flat_map. exists p. split; [exact Hp|]. apply (IH p Hp). exact Hu.
Qed.
Definition is_it_b (t : swc) : bool := match j_kind t, j_parts t with JStmt SExpr, e :: _ => match it_call e with Some _ => true | None => false end | _, _ => false end.
Lemma is_it_b_spec t : is_it t <-> is_it_b t = true.
Proof.
  unfold is_it_b. split.
  - intros (m & b & K & e & r & P & H). rewrite K, P. assert (Q : it_call e = Some m) by (apply it_call_spec; eauto). rewrite Q. reflexivity.
  - destruct (j_kind t) as [[]| | | | | | | | |] eqn:K; try discriminate. destruct (j_parts t) as [|e r] eqn:P; [discriminate|]. destruct (it_call e) eqn:Q; [|discriminate]. intros _.
    apply (is_it_call t e r K P). congruence.
Qed.
Fixpoint performed (e : swc) : option swc :=
  match e with Swc _ k l => match k, l with JCall, _ :: _ => Some e | (JAwait | JMember _), b :: _ => performed b | _, _ => None end end.
Lemma performed_spec e c : js_performs e c -> performed e = Some c.
Proof.
  induction 1 as [c (f & K & args & P)|e b c (K & r & P) _ IH|e x b c (K & r & P) _ IH]; [destruct c|destruct e|destruct e]; cbn [j_kind j_parts] in *; subst; [reflexivity|exact IH|exact IH].
Qed.
Lemma apart_check root n : map (fun t => j_id (j_info t)) (all_parts root) = List.seq 1 n -> js_apart root.
Proof.
  intros Q u v Hu Hv. apply all_parts_spec in Hu, Hv. assert (H : NoDup (map (fun t => j_id (j_info t)) (all_parts root))) by (rewrite Q; apply seq_NoDup). clear Q.
  revert Hu Hv H. generalize (all_parts root). induction l as [|t l IH]; intros Hu Hv H Q; [destruct Hu|]. inversion H as [|? ? Hn Hd]; subst.
  destruct Hu as [<-|Hu]; destruct Hv as [<-|Hv]; [reflexivity| | |apply IH; assumption]; exfalso; apply Hn; [rewrite Q|rewrite <- Q]; apply (in_map (fun t => j_id (j_info t))); assumption.
Qed.
Lemma inner_check root :
  forallb (fun f => match is_it_b f, j_kind f with false, JFunction _ | true, _ => forallb (fun p => forallb (fun u => negb (is_it_b u)) (all_parts p)) (j_parts f) | _, _ => true end) (all_parts root) = true -> js_no_inner_test root.
Proof.
  intros A f p u Hf Hfun Hp Hu Hit. apply all_parts_spec in Hf, Hu. apply is_it_b_spec in Hit. rewrite forallb_forall in A. specialize (A f Hf). cbv beta in A.
  assert (B : forallb (fun p => forallb (fun u => negb (is_it_b u)) (all_parts p)) (j_parts f) = true).
  { destruct Hfun as [Q|(n & Q)]; [apply is_it_b_spec in Q; rewrite Q in A; exact A|]. rewrite Q in A. destruct (is_it_b f); exact A. }
  rewrite forallb_forall in B. specialize (B p Hp). cbv beta in B. rewrite forallb_forall in B. specialize (B u Hu). cbv beta in B. rewrite Hit in B. discriminate.
Qed.
Lemma regular_check root :
  forallb (fun u => match is_it_b u, j_kind u, j_parts u with false, JStmt SExpr, e :: _ => match performed e with Some c => match it_call c with Some _ => false | None => true end | None => true end | _, _, _ => true end) (all_parts root) = true -> js_regular root.
Proof.
  intros A u c m b Hu (K & N & e & r & P & Hf) Hit. apply all_parts_spec in Hu. rewrite forallb_forall in A. specialize (A u Hu). cbv beta in A. rewrite K, P, (performed_spec _ _ Hf) in A.
  destruct (is_it_b u) eqn:I; [apply is_it_b_spec in I; contradiction|]. assert (Q : it_call c = Some m) by (apply it_call_spec; eauto). rewrite Q in A. discriminate.
Qed.
Definition js_ex_text : text := s2t "it('a', async () => { const x = 1; g(x); x.m(); h(); { v = 2; } await k(); throw x; z(); });" ++ [NL] ++ s2t "function h() { p(); q(); }" ++ [NL] ++ s2t "describe('d', () => { it('b', function () { r(); s(); }); });" ++ [NL].
Definition js_a_it : swc := Swc (JI 4 (Span xp (LC 1 0) (LC 1 2))) (JIdent (s2t "it")) [].
Definition js_a_msg : swc := Swc (JI 5 (Span xp (LC 1 3) (LC 1 6))) (JStr (Some (s2t "a"))) [].
Definition js_let_x : swc := Swc (JI 9 (Span xp (LC 1 28) (LC 1 29))) (JIdent (s2t "x")) [].
Definition js_let_1 : swc := Swc (JI 10 (Span xp (LC 1 32) (LC 1 33))) JExpr [].
Definition js_let : swc := Swc (JI 8 (Span xp (LC 1 22) (LC 1 34))) (JStmt SDecl) [js_let_x; js_let_1].
Definition js_g_call_f : swc := Swc (JI 13 (Span xp (LC 1 35) (LC 1 36))) (JIdent (s2t "g")) [].
Definition js_g_call_x : swc := Swc (JI 14 (Span xp (LC 1 37) (LC 1 38))) (JIdent (s2t "x")) [].
Definition js_g_call : swc := Swc (JI 12 (Span xp (LC 1 35) (LC 1 39))) JCall [js_g_call_f; js_g_call_x].
Definition js_g : swc := Swc (JI 11 (Span xp (LC 1 35) (LC 1 40))) (JStmt SExpr) [js_g_call].
Definition js_m_x : swc := Swc (JI 18 (Span xp (LC 1 41) (LC 1 42))) (JIdent (s2t "x")) [].
Definition js_m_m : swc := Swc (JI 19 (Span xp (LC 1 43) (LC 1 44))) (JIdent (s2t "m")) [].
Definition js_m_f : swc := Swc (JI 17 (Span xp (LC 1 41) (LC 1 44))) (JMember (Some (s2t "m"))) [js_m_x; js_m_m].
Definition js_m_call : swc := Swc (JI 16 (Span xp (LC 1 41) (LC 1 46))) JCall [js_m_f].
Definition js_m : swc := Swc (JI 15 (Span xp (LC 1 41) (LC 1 47))) (JStmt SExpr) [js_m_call].
Definition js_h_call_f : swc := Swc (JI 22 (Span xp (LC 1 48) (LC 1 49))) (JIdent (s2t "h")) [].
Definition js_h_call : swc := Swc (JI 21 (Span xp (LC 1 48) (LC 1 51))) JCall [js_h_call_f].
Definition js_h : swc := Swc (JI 20 (Span xp (LC 1 48) (LC 1 52))) (JStmt SExpr) [js_h_call].
Definition js_v_l : swc := Swc (JI 26 (Span xp (LC 1 55) (LC 1 56))) (JIdent (s2t "v")) [].
Definition js_v_r : swc := Swc (JI 27 (Span xp (LC 1 59) (LC 1 60))) JExpr [].
Definition js_v_e : swc := Swc (JI 25 (Span xp (LC 1 55) (LC 1 60))) JExpr [js_v_l; js_v_r].
Definition js_v : swc := Swc (JI 24 (Span xp (LC 1 55) (LC 1 61))) (JStmt SExpr) [js_v_e].
Definition js_blk : swc := Swc (JI 23 (Span xp (LC 1 53) (LC 1 63))) (JStmt SBlock) [js_v].
Definition js_k_call_f : swc := Swc (JI 31 (Span xp (LC 1 70) (LC 1 71))) (JIdent (s2t "k")) [].
Definition js_k_call : swc := Swc (JI 30 (Span xp (LC 1 70) (LC 1 73))) JCall [js_k_call_f].
Definition js_k_await : swc := Swc (JI 29 (Span xp (LC 1 64) (LC 1 73))) JAwait [js_k_call].
Definition js_k : swc := Swc (JI 28 (Span xp (LC 1 64) (LC 1 74))) (JStmt SExpr) [js_k_await].
Definition js_throw_x : swc := Swc (JI 33 (Span xp (LC 1 81) (LC 1 82))) (JIdent (s2t "x")) [].
Definition js_throw : swc := Swc (JI 32 (Span xp (LC 1 75) (LC 1 83))) (JStmt SThrow) [js_throw_x].
Definition js_z_call_f : swc := Swc (JI 36 (Span xp (LC 1 84) (LC 1 85))) (JIdent (s2t "z")) [].
Definition js_z_call : swc := Swc (JI 35 (Span xp (LC 1 84) (LC 1 87))) JCall [js_z_call_f].
Definition js_z : swc := Swc (JI 34 (Span xp (LC 1 84) (LC 1 88))) (JStmt SExpr) [js_z_call].
Definition js_a_body : swc := Swc (JI 7 (Span xp (LC 1 20) (LC 1 90))) JPart [js_let; js_g; js_m; js_h; js_blk; js_k; js_throw; js_z].
Definition js_a_fun : swc := Swc (JI 6 (Span xp (LC 1 8) (LC 1 90))) (JFun true) [js_a_body].
Definition js_a_call : swc := Swc (JI 3 (Span xp (LC 1 0) (LC 1 91))) JCall [js_a_it; js_a_msg; js_a_fun].
Definition js_a : swc := Swc (JI 2 (Span xp (LC 1 0) (LC 1 92))) (JStmt SExpr) [js_a_call].
Definition js_hf_name : swc := Swc (JI 39 (Span xp (LC 2 9) (LC 2 10))) (JIdent (s2t "h")) [].
Definition js_p_call_f : swc := Swc (JI 43 (Span xp (LC 2 15) (LC 2 16))) (JIdent (s2t "p")) [].
Definition js_p_call : swc := Swc (JI 42 (Span xp (LC 2 15) (LC 2 18))) JCall [js_p_call_f].
Definition js_p : swc := Swc (JI 41 (Span xp (LC 2 15) (LC 2 19))) (JStmt SExpr) [js_p_call].
Definition js_q_call_f : swc := Swc (JI 46 (Span xp (LC 2 20) (LC 2 21))) (JIdent (s2t "q")) [].
Definition js_q_call : swc := Swc (JI 45 (Span xp (LC 2 20) (LC 2 23))) JCall [js_q_call_f].
Definition js_q : swc := Swc (JI 44 (Span xp (LC 2 20) (LC 2 24))) (JStmt SExpr) [js_q_call].
Definition js_hf_body : swc := Swc (JI 40 (Span xp (LC 2 13) (LC 2 26))) JPart [js_p; js_q].
Definition js_hf : swc := Swc (JI 38 (Span xp (LC 2 0) (LC 2 26))) (JFunction (s2t "h")) [js_hf_name; js_hf_body].
Definition js_hd : swc := Swc (JI 37 (Span xp (LC 2 0) (LC 2 26))) (JStmt SDecl) [js_hf].
Definition js_d_f : swc := Swc (JI 49 (Span xp (LC 3 0) (LC 3 8))) (JIdent (s2t "describe")) [].
Definition js_d_msg : swc := Swc (JI 50 (Span xp (LC 3 9) (LC 3 12))) (JStr (Some (s2t "d"))) [].
Definition js_b_it : swc := Swc (JI 55 (Span xp (LC 3 22) (LC 3 24))) (JIdent (s2t "it")) [].
Definition js_b_msg : swc := Swc (JI 56 (Span xp (LC 3 25) (LC 3 28))) (JStr (Some (s2t "b"))) [].
Definition js_r_call_f : swc := Swc (JI 61 (Span xp (LC 3 44) (LC 3 45))) (JIdent (s2t "r")) [].
Definition js_r_call : swc := Swc (JI 60 (Span xp (LC 3 44) (LC 3 47))) JCall [js_r_call_f].
Definition js_r : swc := Swc (JI 59 (Span xp (LC 3 44) (LC 3 48))) (JStmt SExpr) [js_r_call].
Definition js_s_call_f : swc := Swc (JI 64 (Span xp (LC 3 49) (LC 3 50))) (JIdent (s2t "s")) [].
Definition js_s_call : swc := Swc (JI 63 (Span xp (LC 3 49) (LC 3 52))) JCall [js_s_call_f].
Definition js_s : swc := Swc (JI 62 (Span xp (LC 3 49) (LC 3 53))) (JStmt SExpr) [js_s_call].
Definition js_b_body : swc := Swc (JI 58 (Span xp (LC 3 42) (LC 3 55))) JPart [js_r; js_s].
Definition js_b_fun : swc := Swc (JI 57 (Span xp (LC 3 30) (LC 3 55))) (JFun true) [js_b_body].
Definition js_b_call : swc := Swc (JI 54 (Span xp (LC 3 22) (LC 3 56))) JCall [js_b_it; js_b_msg; js_b_fun].
Definition js_b : swc := Swc (JI 53 (Span xp (LC 3 22) (LC 3 57))) (JStmt SExpr) [js_b_call].
Definition js_d_body : swc := Swc (JI 52 (Span xp (LC 3 20) (LC 3 59))) JPart [js_b].
Definition js_d_fun : swc := Swc (JI 51 (Span xp (LC 3 14) (LC 3 59))) (JFun true) [js_d_body].
Definition js_d_call : swc := Swc (JI 48 (Span xp (LC 3 0) (LC 3 60))) JCall [js_d_f; js_d_msg; js_d_fun].
Definition js_d : swc := Swc (JI 47 (Span xp (LC 3 0) (LC 3 61))) (JStmt SExpr) [js_d_call].
Definition js_ex : swc := Swc (JI 1 (Span xp (LC 1 0) (LC 3 61))) JPart [js_a; js_hd; js_d].
Definition js_ex_env : venv := VEnv fw_ts (fun _ => false) (fun _ => false) (fun _ => false) (fun _ => false) false DNone (fun _ => []) (fun _ => false) js_ex_text.
Definition js_ex_walkable (x : text) : bool := text_eqb x (s2t "h").
Definition js_ex_st : vst := st_of (js_env js_ex_env js_ex js_ex_walkable) (js_file js_ex).
Example js_ex_result : result (js_env js_ex_env js_ex js_ex_walkable) (js_file js_ex) js_ex_st.
Proof. exists 9. vm_compute. reflexivity. Qed.
Example js_ex_candidates : cands js_ex_st =
  [(Statement, 35, 40, [s2t "a"]); (Statement, 41, 47, [s2t "a"]); (Statement, 55, 61, [s2t "a"]); (Statement, 64, 74, [s2t "a"]); (Statement, 15, 19, [s2t "a"]);
   (Statement, 20, 24, [s2t "a"]); (Statement, 44, 48, [s2t "b"]); (MethodCall, 42, 46, [s2t "a"])]%nat /\
  s_tset js_ex_st = [s2t "a"; s2t "b"].
Proof. split; vm_compute; reflexivity. Qed.
Lemma js_ex_none_ignored c : ~ js_ignored_call js_ex_env c /\ ~ js_ignored_method js_ex_env c.
Proof.
  split; [|intros (b & p & _ & H); discriminate]. intros [H|(b & p & _ & _ & H)]; [|discriminate].
  induction H as [c f x _ _ H|c b p x _ _ H|c b p _ _ _ IH]; [discriminate|destruct H; discriminate|exact IH].
Qed.
Lemma js_ex_step t p u : is_it_b t = false -> In p (j_parts t) -> js_in js_ex_env p u -> js_in js_ex_env t u.
Proof.
  intros He Hp Hu. eapply jn_part; [intros Q; apply is_it_b_spec in Q; congruence| |exact Hp|exact Hu]. intros _. right. split; apply js_ex_none_ignored.
Qed.
Lemma js_ex_local n b : js_local js_ex n b -> n = s2t "h" /\ b = js_hf.
Proof. intros H. apply js_funs_spec in H. destruct H as [H|[]]. inversion H. auto. Qed.
Lemma js_ex_last u : js_last js_a_body u -> u = js_z.
Proof. intros (_ & pre & Hb). cbn [js_a_body j_parts] in Hb. apply (f_equal (@rev swc)) in Hb. rewrite rev_app_distr in Hb. inversion Hb. reflexivity. Qed.
Lemma js_ex_last_b u : js_last js_b_body u -> u = js_s.
Proof. intros (_ & pre & Hb). cbn [js_b_body j_parts] in Hb. apply (f_equal (@rev swc)) in Hb. rewrite rev_app_distr in Hb. inversion Hb. reflexivity. Qed.
Ltac differ := let Q := fresh in intros Q; apply (f_equal (fun t => j_id (j_info t))) in Q; vm_compute in Q; discriminate.
Ltac itb := intros Q; apply is_it_b_spec in Q; discriminate.
(** The hypotheses of the theorems above, for the statements [g(x);], [v = 2;] and [await k();] and the call [x.m()] of the test [a], for [r();] of the
    test [b], and for [p();] in [h]. *)
Example C68_nonvacuous :
  js_apart js_ex /\ js_regular js_ex /\ js_no_inner_test js_ex /\
  (forall c base p, js_part js_ex c -> js_method c base p -> method_span js_ex_env (j_span (j_info c)) (j_span (j_info base)) <> None) /\
  js_test js_ex js_a (s2t "a") js_a_body /\ js_test js_ex js_b (s2t "b") js_b_body /\ j_kind js_a_body = JPart /\ j_kind js_b_body = JPart /\
  (js_in js_ex_env js_a_body js_g /\ js_removable_call js_ex_env js_ex js_ex_walkable js_g /\ ~ js_last js_a_body js_g) /\
  (js_in js_ex_env js_a_body js_v /\ js_plain_statement js_v /\ ~ js_last js_a_body js_v) /\
  (js_in js_ex_env js_a_body js_k /\ js_removable_call js_ex_env js_ex js_ex_walkable js_k /\ ~ js_last js_a_body js_k) /\
  (js_in js_ex_env js_b_body js_r /\ js_removable_call js_ex_env js_ex js_ex_walkable js_r /\ ~ js_last js_b_body js_r) /\
  (js_in js_ex_env js_a_body js_m_call /\ js_method js_m_call js_m_x [s2t "m"] /\ (forall u, js_last js_a_body u -> ~ js_call_statement u js_m_call)) /\
  (js_in js_ex_env js_a_body js_h_call /\ js_call_of js_h_call js_h_call_f /\ j_kind js_h_call_f = JIdent (s2t "h") /\ (forall m b, ~ it_expr js_h_call m b) /\
   js_local js_ex (s2t "h") js_hf /\ (forall b, js_local js_ex (s2t "h") b -> b = js_hf) /\ js_below js_ex_env js_hf js_p /\ js_removable_call js_ex_env js_ex js_ex_walkable js_p).
Proof.
  assert (RC : forall u c f y, j_kind u = JStmt SExpr -> is_it_b u = false -> (exists e r, j_parts u = e :: r /\ js_performs e c) -> (exists a, j_kind c = JCall /\ j_parts c = f :: a) -> j_kind f = JIdent y -> js_ex_walkable y = false ->
    js_removable_call js_ex_env js_ex js_ex_walkable u).
  { intros u c f y K I P (a & Kc & Pc) Kf W. exists c. split; [split; [exact K|]; split; [intros Q; apply is_it_b_spec in Q; congruence|exact P]|]. split; [apply js_ex_none_ignored|].
    intros h (g & x & (_ & a' & Q) & Kg & Wx & _). rewrite Pc in Q. inversion Q; subst. rewrite Kf in Kg. inversion Kg; subst. congruence. }
  assert (CP : forall c f a, j_kind c = JCall -> j_parts c = f :: a -> js_performs c c) by (intros c f a K P; constructor; exists f; split; [exact K|eauto]).
  split; [apply (apart_check js_ex (length (all_parts js_ex))); vm_compute; reflexivity|]. split; [apply regular_check; vm_compute; reflexivity|]. split; [apply inner_check; vm_compute; reflexivity|]. split.
  { intros c base p Hc (f & (K & a & P) & Hm & Np). apply all_parts_spec in Hc.
    assert (A : forallb (fun c => match j_kind c, j_parts c with JCall, f :: _ => match j_kind f, j_parts f with JMember _, b :: _ => match j_kind b with JMember _ => false | _ => match method_span js_ex_env (j_span (j_info c)) (j_span (j_info b)) with Some _ => true | None => false end end
                | JMember _, [] => false | _, _ => true end | _, _ => true end) (all_parts js_ex) = true) by (vm_compute; reflexivity).
    rewrite forallb_forall in A. specialize (A c Hc). cbv beta in A. rewrite K, P in A. inversion Hm as [e Hn|e x b base0 q (Kf & rf & Pf) Hb]; subst; [destruct (Np eq_refl)|]. rewrite Kf, Pf in A.
    inversion Hb as [e Hn|e x' b' base0 q' (Kb & _) _]; subst; [|rewrite Kb in A; discriminate]. destruct (j_kind base); try discriminate; intros Q; rewrite Q in A; discriminate. }
  split.
  { split; [eapply bt_part; [itb|left; reflexivity|constructor]|]. split; [reflexivity|]. exists js_a_call, []. split; [reflexivity|]. exists js_a_it, js_a_msg, js_a_fun, []. repeat split; reflexivity. }
  split.
  { split; [|split; [reflexivity|]; exists js_b_call, []; split; [reflexivity|]; exists js_b_it, js_b_msg, js_b_fun, []; repeat split; reflexivity].
    eapply bt_part with (p := js_d); [itb|right; right; left; reflexivity|]. eapply bt_part with (p := js_d_call); [itb|left; reflexivity|]. eapply bt_part with (p := js_d_fun); [itb|right; right; left; reflexivity|].
    eapply bt_part with (p := js_d_body); [itb|left; reflexivity|]. eapply bt_part; [itb|left; reflexivity|constructor]. }
  split; [reflexivity|]. split; [reflexivity|]. split.
  { split; [eapply js_ex_step; [reflexivity|right; left; reflexivity|constructor]|]. split; [|intros Q; apply js_ex_last in Q; revert Q; differ].
    eapply RC with (c := js_g_call); [reflexivity|reflexivity|eexists _, _; split; [reflexivity|eapply CP; reflexivity]|eexists; split; reflexivity|reflexivity|reflexivity]. }
  split.
  { split; [eapply js_ex_step with (p := js_blk); [reflexivity|cbn [js_a_body j_parts In]; do 4 right; left; reflexivity|]; eapply js_ex_step; [reflexivity|left; reflexivity|constructor]|]. split; [|intros Q; apply js_ex_last in Q; revert Q; differ].
    split; [right; split; [reflexivity|split; [discriminate|itb]]|]. split; [intros (s & Q & H); inversion Q; subst; cbn in H; intuition discriminate|].
    split; [intros c (_ & _ & e & r & P & H); inversion P; subst; apply performed_spec in H; discriminate|].
    intros k v Hk Hv Hs. apply all_parts_spec in Hv. destruct Hk as [<-|[]]. cbn in Hv. destruct Hv as [<-|[<-|[<-|[]]]]; destruct Hs as [(s & Q & _)|(Q & _)]; discriminate. }
  split.
  { split; [eapply js_ex_step; [reflexivity|cbn [js_a_body j_parts In]; do 5 right; left; reflexivity|constructor]|]. split; [|intros Q; apply js_ex_last in Q; revert Q; differ].
    eapply RC with (c := js_k_call); [reflexivity|reflexivity|eexists _, _; split; [reflexivity|]; eapply jf_await; [split; [reflexivity|eexists; reflexivity]|eapply CP; reflexivity]|eexists; split; reflexivity|reflexivity|reflexivity]. }
  split.
  { split; [eapply js_ex_step; [reflexivity|left; reflexivity|constructor]|]. split; [|intros Q; apply js_ex_last_b in Q; revert Q; differ].
    eapply RC with (c := js_r_call); [reflexivity|reflexivity|eexists _, _; split; [reflexivity|eapply CP; reflexivity]|eexists; split; reflexivity|reflexivity|reflexivity]. }
  split.
  { split; [eapply js_ex_step with (p := js_m); [reflexivity|right; right; left; reflexivity|]; eapply js_ex_step; [reflexivity|left; reflexivity|constructor]|]. split.
    - exists js_m_f. split; [split; [reflexivity|eexists; reflexivity]|]. split; [|discriminate]. eapply (jm_member js_m_f (s2t "m") js_m_x js_m_x []); [split; [reflexivity|eexists; reflexivity]|].
      apply jm_base. intros x b (Q & _). discriminate.
    - intros u Hu (_ & _ & e & r & P & H). apply js_ex_last in Hu. subst u. inversion P; subst. apply performed_spec in H. revert H. vm_compute. discriminate. }
  split; [eapply js_ex_step with (p := js_h); [reflexivity|do 3 right; left; reflexivity|]; eapply js_ex_step; [reflexivity|left; reflexivity|constructor]|].
  split; [split; [reflexivity|eexists; reflexivity]|]. split; [reflexivity|]. split; [intros m b (f & s & g & pre & _ & Q & _); discriminate|].
  split; [apply js_funs_spec; left; reflexivity|]. split; [intros b Hb; apply js_ex_local in Hb; apply Hb|].
  split; [exists js_hf_body; split; [right; left; reflexivity|]; eapply js_ex_step; [reflexivity|left; reflexivity|constructor]|].
  eapply RC with (c := js_p_call); [reflexivity|reflexivity|eexists _, _; split; [reflexivity|eapply CP; reflexivity]|eexists; split; reflexivity|reflexivity|reflexivity].
Qed.

(** [a.get().log(1)], where [log] is ignored: the call of [get] is looked at. *)
Definition rc_at (i a b : nat) : jinfo := JI i (Span xp (LC 1 a) (LC 1 b)).
Definition rc_inner : swc := Swc (rc_at 4 0 7) JCall [Swc (rc_at 5 0 5) (JMember (Some (s2t "get"))) [Swc (rc_at 6 0 1) (JIdent (s2t "a")) []]].
Definition rc_outer : swc := Swc (rc_at 2 0 14) JCall [Swc (rc_at 3 0 11) (JMember (Some (s2t "log"))) [rc_inner]; Swc (rc_at 7 12 13) JExpr []].
Definition rc_env : venv := x_env fw_ts [] ["log"%string] false (fun _ => []) (s2t "a.get().log(1);").
Example C68_receiver_nonvacuous : js_ignored_method rc_env rc_outer /\ js_in rc_env rc_outer rc_inner /\ js_method rc_inner (Swc (rc_at 6 0 1) (JIdent (s2t "a")) []) [s2t "get"] /\ ~ js_ignored_method rc_env rc_inner.
Proof.
  assert (M : js_members (Swc (rc_at 3 0 11) (JMember (Some (s2t "log"))) [rc_inner]) rc_inner [s2t "log"]).
  { apply (jm_member _ (s2t "log") rc_inner rc_inner []); [split; [reflexivity|eexists; reflexivity]|]. constructor. intros x b (K & _). discriminate K. }
  assert (M' : js_members (Swc (rc_at 5 0 5) (JMember (Some (s2t "get"))) [Swc (rc_at 6 0 1) (JIdent (s2t "a")) []]) (Swc (rc_at 6 0 1) (JIdent (s2t "a")) []) [s2t "get"]).
  { apply (jm_member _ (s2t "get") (Swc (rc_at 6 0 1) (JIdent (s2t "a")) []) _ []); [split; [reflexivity|eexists; reflexivity]|]. constructor. intros x b (K & _). discriminate K. }
  split; [|split; [|split]].
  - exists rc_inner, [s2t "log"]. split; [|reflexivity]. eexists. split; [split; [reflexivity|eexists; reflexivity]|]. split; [exact M|discriminate].
  - eapply jn_callee; [|split; [reflexivity|eexists; reflexivity]|].
    + intros (m & b & (H & _)). discriminate H.
    + eapply jn_part; [| |left; reflexivity|constructor].
      * intros (m & b & (H & _)). discriminate H.
      * intros (f & K & _). discriminate K.
  - eexists. split; [split; [reflexivity|eexists; reflexivity]|]. split; [exact M'|discriminate].
  - intros (b & p & (f & (_ & a & Pf) & Hm & Np) & Hi). cbn in Pf. inversion Pf; subst. inversion Hm as [e He|e x b' base p' (K & r & P) Hm']; subst.
    + destruct (Np eq_refl).
    + inversion K; subst. cbn in P. inversion P; subst. inversion Hm' as [e He|e x b1 base1 p1 (K1 & _) _]; subst; [vm_compute in Hi; discriminate|discriminate K1].
Qed.

(** [js_regular] is needed: the walk of a file with the statement [await it('m', () => {});] panics. *)
Definition aw_it : swc := Swc (JI 5 (Span xp (LC 1 6) (LC 1 8))) (JIdent (s2t "it")) [].
Definition aw_msg : swc := Swc (JI 6 (Span xp (LC 1 9) (LC 1 12))) (JStr (Some (s2t "m"))) [].
Definition aw_fun : swc := Swc (JI 7 (Span xp (LC 1 14) (LC 1 22))) (JFun true) [Swc (JI 8 (Span xp (LC 1 20) (LC 1 22))) JPart []].
Definition aw_call : swc := Swc (JI 4 (Span xp (LC 1 6) (LC 1 23))) JCall [aw_it; aw_msg; aw_fun].
Definition aw_stmt : swc := Swc (JI 2 (Span xp (LC 1 0) (LC 1 24))) (JStmt SExpr) [Swc (JI 3 (Span xp (LC 1 0) (LC 1 23))) JAwait [aw_call]].
Definition aw_root : swc := Swc (JI 1 (Span xp (LC 1 0) (LC 1 24))) JPart [aw_stmt].
Definition aw_env : venv := VEnv fw_ts (fun _ => false) (fun _ => false) (fun _ => false) (fun _ => false) false DNone (fun _ => []) (fun _ => false) (s2t "await it('m', () => {});" ++ [NL]).
Theorem C68_await_refuted : exists E root walkable, js_apart root /\ js_no_inner_test root /\ (forall c base p, js_part root c -> ~ js_method c base p) /\
  (exists u e c b, js_part root u /\ j_kind u = JStmt SExpr /\ j_parts u = [e] /\ js_await e c /\ it_expr c (s2t "m") b) /\
  forall fuel, visit_file (js_env E root walkable) fuel (js_file root) = LPanic.
Proof.
  exists aw_env, aw_root, (fun _ => false). split; [apply (apart_check aw_root 8); vm_compute; reflexivity|]. split; [apply inner_check; vm_compute; reflexivity|]. split.
  { intros c base p Hc (f & (K & a & P) & Hm & Np). apply all_parts_spec in Hc. cbn in Hc. repeat (destruct Hc as [<-|Hc]; [try discriminate K|]); [|destruct Hc]. inversion P; subst.
    inversion Hm as [e Hn|e x b base0 q (Kf & _) _]; subst; [destruct (Np eq_refl)|]. discriminate. }
  split.
  { eexists aw_stmt, _, aw_call, _. split; [eapply jp_part; [left; reflexivity|constructor]|]. split; [reflexivity|]. split; [reflexivity|]. split; [split; [reflexivity|eexists; reflexivity]|].
    exists aw_it, aw_msg, aw_fun, []. repeat split; reflexivity. }
  intros [|fuel]; vm_compute; reflexivity.
Qed.
Print Assumptions C68_await_refuted.

(** Not every test is found: [it('m', () => { g(); s(); }).timeout(5);] is not taken to be a test. *)
Definition to_it : swc := Swc (JI 6 (Span xp (LC 1 0) (LC 1 2))) (JIdent (s2t "it")) [].
Definition to_msg : swc := Swc (JI 7 (Span xp (LC 1 3) (LC 1 6))) (JStr (Some (s2t "m"))) [].
Definition to_g : swc := Swc (JI 10 (Span xp (LC 1 16) (LC 1 20))) (JStmt SExpr) [Swc (JI 11 (Span xp (LC 1 16) (LC 1 19))) JCall [Swc (JI 12 (Span xp (LC 1 16) (LC 1 17))) (JIdent (s2t "g")) []]].
Definition to_s : swc := Swc (JI 13 (Span xp (LC 1 21) (LC 1 25))) (JStmt SExpr) [Swc (JI 14 (Span xp (LC 1 21) (LC 1 24))) JCall [Swc (JI 15 (Span xp (LC 1 21) (LC 1 22))) (JIdent (s2t "s")) []]].
Definition to_body : swc := Swc (JI 9 (Span xp (LC 1 14) (LC 1 27))) JPart [to_g; to_s].
Definition to_fun : swc := Swc (JI 8 (Span xp (LC 1 8) (LC 1 27))) (JFun true) [to_body].
Definition to_itcall : swc := Swc (JI 5 (Span xp (LC 1 0) (LC 1 28))) JCall [to_it; to_msg; to_fun].
Definition to_member : swc := Swc (JI 4 (Span xp (LC 1 0) (LC 1 36))) (JMember (Some (s2t "timeout"))) [to_itcall; Swc (JI 16 (Span xp (LC 1 29) (LC 1 36))) JPart []].
Definition to_call : swc := Swc (JI 3 (Span xp (LC 1 0) (LC 1 39))) JCall [to_member; Swc (JI 17 (Span xp (LC 1 37) (LC 1 38))) JExpr []].
Definition to_stmt : swc := Swc (JI 2 (Span xp (LC 1 0) (LC 1 40))) (JStmt SExpr) [to_call].
Definition to_root : swc := Swc (JI 1 (Span xp (LC 1 0) (LC 1 40))) JPart [to_stmt].
Definition to_env : venv := VEnv fw_ts (fun _ => false) (fun _ => false) (fun _ => false) (fun _ => false) false DNone (fun _ => []) (fun _ => false) (s2t "it('m', () => { g(); s(); }).timeout(5);" ++ [NL]).
Theorem C68_timeout_refuted : exists E root walkable st u c b, js_apart root /\ js_regular root /\ result (js_env E root walkable) (js_file root) st /\
  js_part root u /\ j_kind u = JStmt SExpr /\ (exists call e, j_parts u = [call] /\ js_call_of call e /\ js_member e (Some (s2t "timeout")) c) /\ it_expr c (s2t "m") b /\
  v_ign_test E (s2t "m") = false /\ s_tset st = [] /\ cands st = [].
Proof.
  exists to_env, to_root, (fun _ => false), (st_of (js_env to_env to_root (fun _ => false)) (js_file to_root)), to_stmt, to_itcall, to_body.
  split; [apply (apart_check to_root 17); vm_compute; reflexivity|]. split; [apply regular_check; vm_compute; reflexivity|]. split; [exists 9; vm_compute; reflexivity|].
  split; [eapply jp_part; [left; reflexivity|constructor]|]. split; [reflexivity|]. split.
  { exists to_call, to_member. split; [reflexivity|]. split; (split; [reflexivity|eexists; reflexivity]). }
  split; [exists to_it, to_msg, to_fun, []; repeat split; reflexivity|]. split; [reflexivity|]. split; vm_compute; reflexivity.
Qed.
Print Assumptions C68_timeout_refuted.

(** ** Functions that are called from functions *)
(** A file whose helpers come after the test that uses them:
<<
it('a', () => { h(); z(); });
function h() { k(); x.m(); w(); }
function k() { p(); q(); }
>> *)
Definition je_text : text := s2t "it('a', () => { h(); z(); });" ++ [NL] ++ s2t "function h() { k(); x.m(); w(); }" ++ [NL] ++ s2t "function k() { p(); q(); }" ++ [NL].
Definition je_a_it : swc := Swc (JI 4 (Span xp (LC 1 0) (LC 1 2))) (JIdent (s2t "it")) [].
Definition je_a_msg : swc := Swc (JI 5 (Span xp (LC 1 3) (LC 1 6))) (JStr (Some (s2t "a"))) [].
Definition je_h_call_f : swc := Swc (JI 10 (Span xp (LC 1 16) (LC 1 17))) (JIdent (s2t "h")) [].
Definition je_h_call : swc := Swc (JI 9 (Span xp (LC 1 16) (LC 1 19))) JCall [je_h_call_f].
Definition je_h : swc := Swc (JI 8 (Span xp (LC 1 16) (LC 1 20))) (JStmt SExpr) [je_h_call].
Definition je_z_call_f : swc := Swc (JI 13 (Span xp (LC 1 21) (LC 1 22))) (JIdent (s2t "z")) [].
Definition je_z_call : swc := Swc (JI 12 (Span xp (LC 1 21) (LC 1 24))) JCall [je_z_call_f].
Definition je_z : swc := Swc (JI 11 (Span xp (LC 1 21) (LC 1 25))) (JStmt SExpr) [je_z_call].
Definition je_a_body : swc := Swc (JI 7 (Span xp (LC 1 14) (LC 1 27))) JPart [je_h; je_z].
Definition je_a_fun : swc := Swc (JI 6 (Span xp (LC 1 8) (LC 1 27))) (JFun true) [je_a_body].
Definition je_a_call : swc := Swc (JI 3 (Span xp (LC 1 0) (LC 1 28))) JCall [je_a_it; je_a_msg; je_a_fun].
Definition je_a : swc := Swc (JI 2 (Span xp (LC 1 0) (LC 1 29))) (JStmt SExpr) [je_a_call].
Definition je_hf_name : swc := Swc (JI 16 (Span xp (LC 2 9) (LC 2 10))) (JIdent (s2t "h")) [].
Definition je_k_call_f : swc := Swc (JI 20 (Span xp (LC 2 15) (LC 2 16))) (JIdent (s2t "k")) [].
Definition je_k_call : swc := Swc (JI 19 (Span xp (LC 2 15) (LC 2 18))) JCall [je_k_call_f].
Definition je_k : swc := Swc (JI 18 (Span xp (LC 2 15) (LC 2 19))) (JStmt SExpr) [je_k_call].
Definition je_m_x : swc := Swc (JI 24 (Span xp (LC 2 20) (LC 2 21))) (JIdent (s2t "x")) [].
Definition je_m_m : swc := Swc (JI 25 (Span xp (LC 2 22) (LC 2 23))) (JIdent (s2t "m")) [].
Definition je_m_f : swc := Swc (JI 23 (Span xp (LC 2 20) (LC 2 23))) (JMember (Some (s2t "m"))) [je_m_x; je_m_m].
Definition je_m_call : swc := Swc (JI 22 (Span xp (LC 2 20) (LC 2 25))) JCall [je_m_f].
Definition je_m : swc := Swc (JI 21 (Span xp (LC 2 20) (LC 2 26))) (JStmt SExpr) [je_m_call].
Definition je_w_call_f : swc := Swc (JI 28 (Span xp (LC 2 27) (LC 2 28))) (JIdent (s2t "w")) [].
Definition je_w_call : swc := Swc (JI 27 (Span xp (LC 2 27) (LC 2 30))) JCall [je_w_call_f].
Definition je_w : swc := Swc (JI 26 (Span xp (LC 2 27) (LC 2 31))) (JStmt SExpr) [je_w_call].
Definition je_h_body : swc := Swc (JI 17 (Span xp (LC 2 13) (LC 2 33))) JPart [je_k; je_m; je_w].
Definition je_hf : swc := Swc (JI 15 (Span xp (LC 2 0) (LC 2 33))) (JFunction (s2t "h")) [je_hf_name; je_h_body].
Definition je_hd : swc := Swc (JI 14 (Span xp (LC 2 0) (LC 2 33))) (JStmt SDecl) [je_hf].
Definition je_kf_name : swc := Swc (JI 31 (Span xp (LC 3 9) (LC 3 10))) (JIdent (s2t "k")) [].
Definition je_p_call_f : swc := Swc (JI 35 (Span xp (LC 3 15) (LC 3 16))) (JIdent (s2t "p")) [].
Definition je_p_call : swc := Swc (JI 34 (Span xp (LC 3 15) (LC 3 18))) JCall [je_p_call_f].
Definition je_p : swc := Swc (JI 33 (Span xp (LC 3 15) (LC 3 19))) (JStmt SExpr) [je_p_call].
Definition je_q_call_f : swc := Swc (JI 38 (Span xp (LC 3 20) (LC 3 21))) (JIdent (s2t "q")) [].
Definition je_q_call : swc := Swc (JI 37 (Span xp (LC 3 20) (LC 3 23))) JCall [je_q_call_f].
Definition je_q : swc := Swc (JI 36 (Span xp (LC 3 20) (LC 3 24))) (JStmt SExpr) [je_q_call].
Definition je_k_body : swc := Swc (JI 32 (Span xp (LC 3 13) (LC 3 26))) JPart [je_p; je_q].
Definition je_kf : swc := Swc (JI 30 (Span xp (LC 3 0) (LC 3 26))) (JFunction (s2t "k")) [je_kf_name; je_k_body].
Definition je_kd : swc := Swc (JI 29 (Span xp (LC 3 0) (LC 3 26))) (JStmt SDecl) [je_kf].
Definition je_root : swc := Swc (JI 1 (Span xp (LC 1 0) (LC 3 26))) JPart [je_a; je_hd; je_kd].

Definition je_env : venv := VEnv fw_ts (fun _ => false) (fun _ => false) (fun _ => false) (fun _ => false) false DNone (fun _ => []) (fun _ => false) je_text.
Definition je_walkable (x : text) : bool := text_eqb x (s2t "h") || text_eqb x (s2t "k").
Definition je_st : vst := st_of (js_env je_env je_root je_walkable) (js_file je_root).
Lemma je_none_ignored c : ~ js_ignored_call je_env c /\ ~ js_ignored_method je_env c.
Proof.
  split; [|intros (b & p & _ & H); discriminate]. intros [H|(b & p & _ & _ & H)]; [|discriminate].
  induction H as [c f x _ _ H|c b p x _ _ H|c b p _ _ _ IH]; [discriminate|destruct H; discriminate|exact IH].
Qed.
Lemma je_step t p u : is_it_b t = false -> In p (j_parts t) -> js_in je_env p u -> js_in je_env t u.
Proof.
  intros He Hp Hu. eapply jn_part; [intros Q; apply is_it_b_spec in Q; congruence| |exact Hp|exact Hu]. intros _. right. split; apply je_none_ignored.
Qed.
Lemma je_local n b : js_local je_root n b -> (n = s2t "h" /\ b = je_hf) \/ (n = s2t "k" /\ b = je_kf).
Proof. intros H. apply js_funs_spec in H. destruct H as [H|[H|[]]]; inversion H; auto. Qed.
Lemma je_test : js_test je_root je_a (s2t "a") je_a_body.
Proof.
  split; [eapply bt_part; [itb|left; reflexivity|constructor]|]. split; [reflexivity|]. exists je_a_call, []. split; [reflexivity|]. exists je_a_it, je_a_msg, je_a_fun, []. repeat split; reflexivity.
Qed.
Lemma je_enters_h : js_enters je_root je_walkable je_h_call je_hf.
Proof.
  exists je_h_call_f, (s2t "h"). split; [split; [reflexivity|eexists; reflexivity]|]. split; [reflexivity|]. split; [reflexivity|].
  split; [intros m b (f & s & g & pre & _ & Q & _); discriminate|]. split; [apply js_funs_spec; left; reflexivity|]. intros h H. apply je_local in H. destruct H as [(_ & ->)|(Q & _)]; [reflexivity|discriminate].
Qed.
Lemma je_entered_h : js_entered je_env je_root je_walkable je_hf.
Proof.
  eapply jd_test; [exact je_test|reflexivity| |exact je_enters_h]. eapply je_step with (p := je_h); [reflexivity|left; reflexivity|]. eapply je_step; [reflexivity|left; reflexivity|constructor].
Qed.
Example je_facts : js_regular je_root /\ js_apart je_root /\ js_no_inner_test je_root /\ result (js_env je_env je_root je_walkable) (js_file je_root) je_st /\
  cands je_st = [(Statement, 15, 19, [s2t "a"]); (Statement, 20, 26, [s2t "a"]); (Statement, 27, 31, [s2t "a"]); (MethodCall, 21, 25, [s2t "a"])].
Proof.
  split; [apply regular_check; vm_compute; reflexivity|]. split; [apply (apart_check je_root (length (all_parts je_root))); vm_compute; reflexivity|]. split; [apply inner_check; vm_compute; reflexivity|].
  split; [exists 9; vm_compute; reflexivity|vm_compute; reflexivity].
Qed.
(** The hypotheses of [C68_method_calls_of_called_functions], for [x.m()] in [h]. *)
Example C68_method_calls_of_called_functions_nonvacuous :
  js_test je_root je_a (s2t "a") je_a_body /\ js_in je_env je_a_body je_h_call /\ js_enters je_root je_walkable je_h_call je_hf /\ js_below je_env je_hf je_m_call /\
  js_method je_m_call je_m_x [s2t "m"] /\ ~ js_ignored_call je_env je_m_call /\
  method_span je_env (j_span (j_info je_m_call)) (j_span (j_info je_m_x)) = Some (Span xp (LC 2 21) (LC 2 25)).
Proof.
  split; [exact je_test|]. split; [eapply je_step with (p := je_h); [reflexivity|left; reflexivity|]; eapply je_step; [reflexivity|left; reflexivity|constructor]|].
  split; [exact je_enters_h|]. split; [exists je_h_body; split; [right; left; reflexivity|]; eapply je_step with (p := je_m); [reflexivity|right; left; reflexivity|]; eapply je_step; [reflexivity|left; reflexivity|constructor]|].
  split; [|split; [apply je_none_ignored|vm_compute; reflexivity]].
  exists je_m_f. split; [split; [reflexivity|eexists; reflexivity]|]. split; [|discriminate]. eapply (jm_member je_m_f (s2t "m") je_m_x je_m_x []); [split; [reflexivity|eexists; reflexivity]|].
  apply jm_base. intros x b (Q & _). discriminate.
Qed.
(** Go, Rust and Foundry enter functions that are called from functions that are entered (C78_go_statements and so on). In TypeScript that is not so,
    even if only functions and tests call them: [p();] and [q();] are not candidates, although [h] is entered from the test, and [k] from [h]. The
    functions' declarations are walked, too, outside of tests, and [k] is entered on behalf of no test first; then the call [k();] in [h] is taken for a
    call like others. *)
Theorem C78_typescript_refuted : exists E root walkable st h u, js_regular root /\ js_apart root /\ js_no_inner_test root /\ result (js_env E root walkable) (js_file root) st /\
  js_entered E root walkable h /\ js_below E h u /\ js_removable_call E root walkable u /\ v_skip E (j_span (j_info u)) = false /\
  forall t, ~ candidate st Statement (j_span (j_info u)) t.
Proof.
  exists je_env, je_root, je_walkable, je_st, je_kf, je_p. destruct je_facts as (H1 & H2 & H3 & H4 & _). split; [exact H1|]. split; [exact H2|]. split; [exact H3|]. split; [exact H4|].
  split; [|split; [|split; [|split; [reflexivity|apply lists_none; vm_compute; reflexivity]]]].
  - eapply jd_call; [exact je_entered_h| |].
    + exists je_h_body. split; [right; left; reflexivity|]. eapply je_step with (p := je_k); [reflexivity|left; reflexivity|]. eapply je_step; [reflexivity|left; reflexivity|constructor].
    + exists je_k_call_f, (s2t "k"). split; [split; [reflexivity|eexists; reflexivity]|]. split; [reflexivity|]. split; [reflexivity|].
      split; [intros m b (f & s & g & pre & _ & Q & _); discriminate|]. split; [apply js_funs_spec; right; left; reflexivity|]. intros h H. apply je_local in H. destruct H as [(Q & _)|(_ & ->)]; [discriminate|reflexivity].
  - exists je_k_body. split; [right; left; reflexivity|]. eapply je_step; [reflexivity|left; reflexivity|constructor].
  - exists je_p_call. split; [split; [reflexivity|]; split; [itb|]; eexists _, _; split; [reflexivity|]; constructor; exists je_p_call_f; split; [reflexivity|eexists; reflexivity]|].
    split; [apply je_none_ignored|]. intros f (g & x & (_ & a & Q) & Kg & Wx & _). inversion Q; subst. inversion Kg; subst. discriminate.
Qed.
Print Assumptions C78_typescript_refuted.
