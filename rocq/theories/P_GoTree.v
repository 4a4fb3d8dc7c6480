(** Property theorems C64: which functions of a Go file are tests, and which of their statements are candidates. *)
From Verif Require Import Base M_Text M_Rewriter M_Span M_Run M_Visitor S_Visitor S_Walk S_Candidates L_Visitor L_VisitorFacts L_Candidates
  P_Visitor M_Directives M_Tree S_Tree L_Tree.
Local Open Scope list_scope.
Ltac nope := let H := fresh in intros H; exfalso; repeat match type of H with context [match ?x with _ => _ end] => destruct x end; discriminate H.

(** A Go node as the visitor sees it (the parent does not matter). *)
Definition go_view (t : tree) : node := ts_node go_class None t.
Lemma go_parent p t : ts_node go_class p t = go_view t.
Proof. destruct t as [a ks]. reflexivity. Qed.
Lemma go_ok : class_ok go_class.
Proof.
  intros p t. unfold go_class. destruct (t_stmt (t_info t)).
  - destruct (text_eqb (t_kind (t_info t)) _); [|exact I]. destruct (find_index _ (t_kids t)) as [j|] eqn:F; [|exact I]. eapply find_index_lt; exact F.
  - destruct (text_eqb (t_kind (t_info t)) (s2t "call_expression")).
    { destruct (child_index _ t) as [j|] eqn:F; [|exact I]. eapply find_index_lt; exact F. }
    destruct (text_eqb (t_kind (t_info t)) (s2t "selector_expression")).
    { destruct (child_index _ t) as [j|] eqn:F; [|exact I]. eapply find_index_lt; exact F. }
    destruct (text_eqb _ _); exact I.
Qed.
Lemma go_stmt_class p t c d o : go_class p t = CStmt c d o -> t_stmt (t_info t) = true /\ c = mem_text (kind_of t) go_control_kinds /\ d = mem_text (kind_of t) go_declaration_kinds /\
  (forall j, o = Some j -> kind_of t = s2t "expression_statement" /\ find_index (fun fk => t_expr (t_info (snd fk))) (t_kids t) = Some j).
Proof.
  unfold go_class. destruct (t_stmt (t_info t)).
  - intros H. inversion H. split; [reflexivity|]. split; [reflexivity|]. split; [reflexivity|]. intros j Hj. unfold kind_of.
    destruct (text_eqb (t_kind (t_info t)) (s2t "expression_statement")) eqn:K; [|congruence]. apply text_eqb_eq in K. split; [exact K|]. congruence.
  - destruct (text_eqb _ _); [destruct (child_index _ _); discriminate|]. destruct (text_eqb _ _); [destruct (child_index _ _); discriminate|].
    destruct (text_eqb _ _); discriminate.
Qed.
Lemma go_class_stmt p t : t_stmt (t_info t) = true -> exists o, go_class p t = CStmt (mem_text (kind_of t) go_control_kinds) (mem_text (kind_of t) go_declaration_kinds) o.
Proof. unfold go_class. intros ->. eexists. reflexivity. Qed.
Lemma go_call_class p t x j : go_class p t = CCall x j -> go_call t /\ child_index (s2t "function") t = Some j /\ x = child_text (s2t "function") t.
Proof.
  unfold go_class, go_call, kind_of. destruct (t_stmt (t_info t)); [discriminate|]. destruct (text_eqb (t_kind (t_info t)) (s2t "call_expression")) eqn:K.
  - apply text_eqb_eq in K. destruct (child_index _ t) as [i|] eqn:F; [|discriminate]. intros H. inversion H; subst. destruct (child_nth _ _ _ F) as (g & v & _ & Hv). rewrite K. eauto 8.
  - nope.
Qed.
Lemma go_no_method p t x j : go_class p t <> CMethod x j.
Proof.
  unfold go_class. destruct (t_stmt _); [discriminate|]. destruct (text_eqb _ _); [nope|].
  nope.
Qed.
Lemma go_field_class p t x j : go_class p t = CField x j -> kind_of t = s2t "selector_expression".
Proof.
  unfold go_class, kind_of. destruct (t_stmt (t_info t)); [discriminate|]. destruct (text_eqb (t_kind (t_info t)) (s2t "call_expression")); [nope|].
  destruct (text_eqb (t_kind (t_info t)) (s2t "selector_expression")) eqn:K; [intros _; apply text_eqb_eq; exact K|]. nope.
Qed.
Lemma go_ident_class p t x : go_class p t = CIdent x -> kind_of t = s2t "identifier" /\ t_text (t_info t) = x /\ t_stmt (t_info t) = false.
Proof.
  unfold go_class, kind_of. destruct (t_stmt (t_info t)); [discriminate|]. destruct (text_eqb (t_kind (t_info t)) (s2t "call_expression")); [nope|].
  destruct (text_eqb (t_kind (t_info t)) (s2t "selector_expression")); [nope|].
  destruct (text_eqb (t_kind (t_info t)) (s2t "identifier")) eqn:K; [|discriminate]. apply text_eqb_eq in K. intros H. inversion H. auto.
Qed.
Lemma go_is_ident p t : kind_of t = s2t "identifier" -> t_stmt (t_info t) = false -> go_class p t = CIdent (t_text (t_info t)).
Proof. unfold go_class, kind_of. intros K ->. rewrite K. reflexivity. Qed.
Lemma go_is_call p t j : go_call t -> child_index (s2t "function") t = Some j -> go_class p t = CCall (child_text (s2t "function") t) j.
Proof. unfold go_class, go_call, kind_of. intros (K & -> & _) ->. rewrite K. reflexivity. Qed.
Lemma kept_kind k : go_kept_kind k <-> mem_text k go_control_kinds = true \/ mem_text k go_declaration_kinds = true.
Proof.
  unfold go_kept_kind. rewrite !mem_text_In. unfold go_control_kinds, go_declaration_kinds. cbn [map In]. tauto.
Qed.

(** ** Functions of the file *)
Lemma go_funs_spec root f : In f (go_funs root) <-> inside root (tf_decl f) /\
  declares (s2t "function_declaration") (s2t "identifier") (s2t "block") (tf_decl f) (tf_name f) (tf_body f).
Proof. apply query_spec. Qed.
Lemma go_funs_function root f : In f (go_funs root) -> go_function root (tf_name f) (tf_body f).
Proof. intros H. apply go_funs_spec in H. exists (tf_decl f). exact H. Qed.
Lemma go_function_funs root n b : go_function root n b -> exists f, In f (go_funs root) /\ tf_name f = n /\ tf_body f = b.
Proof. intros (d & H). exists (TF d n b). split; [apply go_funs_spec; exact H|auto]. Qed.
Lemma go_tests_spec root f : In f (go_tests root) -> go_test root (tf_name f) (tf_body f).
Proof.
  unfold go_tests. intros H. apply filter_In in H. destruct H as [H1 H2]. apply andb_prop in H2. destruct H2 as [H2 H3].
  split; [apply go_funs_function; exact H1|]. split; [apply starts_spec; exact H2|]. apply Bool.negb_true_iff in H3. apply text_eqb_neq. exact H3.
Qed.
Lemma go_test_tests root n b : go_test root n b -> exists f, In f (go_tests root) /\ tf_name f = n /\ tf_body f = b.
Proof.
  intros (H1 & H2 & H3). destruct (go_function_funs root n b H1) as (f & Hf & Hn & Hb). exists f. split; [|auto]. apply filter_In. split; [exact Hf|].
  rewrite Hn. apply andb_true_intro. split; [apply starts_spec; exact H2|]. apply Bool.negb_true_iff. apply text_eqb_neq. exact H3.
Qed.
Lemma go_locals_spec root f : In f (go_locals root) -> go_local root (tf_name f) (tf_body f).
Proof.
  unfold go_locals. intros H. apply filter_In in H. destruct H as [H1 H2]. split; [apply go_funs_function; exact H1|].
  intros H. apply starts_spec in H. unfold go_test_name in H2. rewrite H in H2. discriminate.
Qed.
Lemma go_local_locals root n b : go_local root n b -> exists f, In f (go_locals root) /\ tf_name f = n /\ tf_body f = b.
Proof.
  intros (H1 & H2). destruct (go_function_funs root n b H1) as (f & Hf & Hn & Hb). exists f. split; [|auto]. apply filter_In. split; [exact Hf|].
  rewrite Hn. unfold go_test_name. destruct (starts_with_text (s2t "Test") n) eqn:K; [apply starts_spec in K; destruct (H2 K)|reflexivity].
Qed.

(** Nodes of a body. *)
Lemma tops_eq b : map snd (go_stmts b) = go_tops b.
Proof.
  unfold go_stmts, go_tops, go_list. induction (t_kids b) as [|(f & k) l IH]; [reflexivity|]. cbn [flat_map snd]. rewrite map_app, IH. f_equal.
  destruct (text_eqb (kind_of k) (s2t "statement_list")); [|reflexivity]. unfold kids_in. clear. generalize (Some (t_info k)). intros o.
  induction (t_kids k) as [|(g & u) r IH]; [reflexivity|]. cbn [map filter snd]. destruct (t_stmt (t_info u)); cbn [map snd]; rewrite IH; reflexivity.
Qed.
Lemma stmts_inside b p u : In (p, u) (go_stmts b) \/ In (p, u) (go_rest b) -> exists f k, In (f, k) (t_kids b) /\ inside k u.
Proof.
  assert (K : forall k q v, In (q, v) (kids_in k) -> inside k v).
  { intros k q v H. unfold kids_in in H. apply in_map_iff in H. destruct H as ((g & w) & H & Hw). inversion H; subst. eapply inside_kid; exact Hw. }
  intros [H|H]; apply in_flat_map in H; destruct H as ((f & k) & Hk & H); cbn [snd] in H; exists f, k; (split; [exact Hk|]); destruct (go_list k).
  - apply filter_In in H. eapply K. apply H.
  - destruct H.
  - apply filter_In in H. eapply K. apply H.
  - destruct H as [H|[]]. inversion H; subst. constructor.
Qed.
Lemma kids_split b f k : In (f, k) (t_kids b) -> (go_list k = false /\ In (Some (t_info b), k) (go_rest b)) \/
  (go_list k = true /\ forall g u, In (g, u) (t_kids k) -> In (Some (t_info k), u) (go_stmts b) \/ In (Some (t_info k), u) (go_rest b)).
Proof.
  intros Hk. destruct (go_list k) eqn:L; [right|left]; (split; [reflexivity|]).
  - intros g u Hu. assert (Hi : In (Some (t_info k), u) (kids_in k)) by (apply in_map_iff; exists (g, u); auto).
    destruct (t_stmt (t_info u)) eqn:S; [left|right]; apply in_flat_map; exists (f, k); (split; [exact Hk|]); cbn [snd]; rewrite L; apply filter_In; cbn [snd]; rewrite S; auto.
  - apply in_flat_map. exists (f, k). split; [exact Hk|]. cbn [snd]. rewrite L. left. reflexivity.
Qed.

Lemma tree_ids_inside t u : inside t u -> incl (tree_ids u) (tree_ids t).
Proof.
  induction 1 as [t|a ks f k u Hk _ IH]; [apply incl_refl|]. intros x Hx. cbn [tree_ids]. right. apply in_flat_map. exists (f, k). split; [exact Hk|]. apply IH. exact Hx.
Qed.
Lemma tree_id_in t : In (t_id (t_info t)) (tree_ids t).
Proof. destruct t. left. reflexivity. Qed.
Lemma flat_nodup_in {A B} (g : A -> list B) : forall l, NoDup (flat_map g l) -> forall x y z, In x l -> In y l -> In z (g x) -> In z (g y) -> x = y /\ NoDup (g x).
Proof.
  induction l as [|a l IH]; intros N x y z Hx Hy Hzx Hzy; [destruct Hx|]. cbn [flat_map] in N. apply nodup_app_parts in N. destruct N as (N1 & N2 & N3).
  destruct Hx as [->|Hx], Hy as [->|Hy]; auto.
  - exfalso. apply (N3 z Hzx). apply in_flat_map. eauto.
  - exfalso. apply (N3 z Hzy). apply in_flat_map. eauto.
  - eapply IH; eassumption.
Qed.
Lemma same_tree root : NoDup (tree_ids root) -> forall u v, inside root u -> inside root v -> t_id (t_info u) = t_id (t_info v) -> u = v.
Proof.
  induction root as [a ks IH] using tree_ind'. intros N u v Hu Hv He. cbn [tree_ids] in N. inversion N as [|x l Hn Hd]; subst.
  assert (X : forall w f k, In (f, k) ks -> inside k w -> In (t_id (t_info w)) (flat_map (fun fk => tree_ids (snd fk)) ks)).
  { intros w f k Hk Hw. apply in_flat_map. exists (f, k). split; [exact Hk|]. eapply tree_ids_inside; [exact Hw|apply tree_id_in]. }
  inversion Hu as [|a1 k1 f1 k1' u1 Hk1 Hu1]; inversion Hv as [|a2 k2 f2 k2' u2 Hk2 Hv2]; subst; try reflexivity.
  - exfalso. apply Hn. cbn [t_info] in He. rewrite He. eapply X; eassumption.
  - exfalso. apply Hn. cbn [t_info] in He. rewrite <- He. eapply X; eassumption.
  - rewrite Forall_forall in IH. 
    destruct (flat_nodup_in (fun fk => tree_ids (snd fk)) ks Hd (f1, k1') (f2, k2') (t_id (t_info u)) Hk1 Hk2) as (Heq & Hnd).
    + eapply tree_ids_inside; [exact Hu1|apply tree_id_in].
    + rewrite He. eapply tree_ids_inside; [exact Hv2|apply tree_id_in].
    + inversion Heq; subst. exact (IH _ Hk1 Hnd u v Hu1 Hv2 He).
Qed.

Section File.
Context (E0 : venv) (root : tree) (walkable : text -> bool).
Notation E := (go_env E0 root walkable).
Notation file := (go_file root).
Notation view_within t := (ts_within go_class go_ok t None).

Lemma fw_kids : fw_expr_kids (v_fw E) = true. Proof. reflexivity. Qed.
Lemma go_walkable x n fs : v_walkable E x = n :: fs -> exists g, In g (go_locals root) /\ n = body_node go_class g /\ tf_name g = x /\ walkable x = true.
Proof.
  cbn [go_env v_walkable]. destruct (walkable x) eqn:W; [|discriminate]. intros H.
  destruct (filter _ (go_locals root)) as [|g gs] eqn:L; [discriminate|]. inversion H; subst. exists g.
  assert (Hg : In g (filter (fun f => text_eqb (tf_name f) x) (go_locals root))) by (rewrite L; left; reflexivity). apply filter_In in Hg. destruct Hg as [Hg Hx].
  apply text_eqb_eq in Hx. auto.
Qed.

Lemma go_parsed : parsed E file.
Proof.
  split.
  - unfold go_file, tnode. cbn [well_formed l_kind andb]. apply forallb_forall. intros n Hn. apply in_map_iff in Hn. destruct Hn as (f & <- & _).
    unfold go_test_node, test_node, tnode. cbn [well_formed l_kind andb forallb]. rewrite Bool.andb_true_r. apply andb_true_intro.
    split; apply forallb_forall; intros n Hn; apply in_map_iff in Hn; destruct Hn as (pt & <- & _); apply ts_wf; reflexivity || exact go_ok.
  - intros x f fs H. destruct (go_walkable x f fs H) as (g & _ & -> & _). unfold body_node, tnode. cbn [well_formed l_kind andb]. apply forallb_forall. intros n Hn.
    apply in_map_iff in Hn. destruct Hn as (pt & <- & _). apply ts_wf; reflexivity || exact go_ok.
Qed.

(** Nodes below tests and local functions. *)
Lemma test_below f m : within (go_test_node f) m -> (n_kind m = KGroup \/ m = go_test_node f) \/
  exists g k u, In (g, k) (t_kids (tf_body f)) /\ inside k u /\ within (go_view u) m.
Proof.
  intros H. destruct (within_inv _ _ H) as [->|(k & Hk & Hw)]; [left; right; reflexivity|].
  assert (X : forall (l : list (option tinfo * tree)), (forall p u, In (p, u) l -> In (p, u) (go_stmts (tf_body f)) \/ In (p, u) (go_rest (tf_body f))) ->
    forall n, In n (map (fun pt => ts_node go_class (fst pt) (snd pt)) l) -> within n m ->
    exists g k u, In (g, k) (t_kids (tf_body f)) /\ inside k u /\ within (go_view u) m).
  { intros l Hl n Hn Hnm. apply in_map_iff in Hn. destruct Hn as ((p & u) & <- & Hu). cbn [fst snd] in Hnm. rewrite go_parent in Hnm.
    destruct (stmts_inside _ _ _ (Hl p u Hu)) as (g & k' & H1 & H2). exists g, k', u. auto. }
  cbn [go_test_node test_node tnode n_kids] in Hk. destruct Hk as [<-|[<-|[]]]; (destruct (within_inv _ _ Hw) as [->|(n & Hn & Hnm)]; [left; left; reflexivity|right]).
  - eapply X; [|exact Hn|exact Hnm]. auto.
  - eapply X; [|exact Hn|exact Hnm]. auto.
Qed.
Lemma local_below g m : within (body_node go_class g) m -> m = body_node go_class g \/
  exists f u, In (f, u) (t_kids (tf_body g)) /\ within (go_view u) m.
Proof.
  intros H. destruct (within_inv _ _ H) as [->|(k & Hk & Hw)]; [left; reflexivity|right]. cbn [body_node tnode n_kids] in Hk.
  apply in_map_iff in Hk. destruct Hk as ((f & u) & <- & Hu). cbn [snd] in Hw. rewrite go_parent in Hw. eauto.
Qed.
Lemma local_no_test g : no_test (body_node go_class g).
Proof.
  intros m x b H K. destruct (local_below g m H) as [->|(f & u & _ & Hw)]; [discriminate|]. exact (ts_no_test go_class go_ok None u m x b Hw K).
Qed.
Lemma go_named n t : test_named E file n t -> exists f, In f (go_tests root) /\ n = go_test_node f /\ tf_name f = t /\ v_ign_test E0 t = false.
Proof.
  intros ([H|(x & f & fs & Hx & H)] & (i & K) & Hi).
  - destruct (within_inv _ _ H) as [->|(k & Hk & Hw)]; [discriminate|]. cbn [go_file tnode n_kids] in Hk. apply in_map_iff in Hk. destruct Hk as (f & <- & Hf).
    exists f. split; [exact Hf|]. destruct (test_below f n Hw) as [[K'| ->]|(g & k & u & _ & _ & Hu)]; [congruence| |destruct (ts_no_test go_class go_ok None u n t i Hu K)].
    split; [reflexivity|]. inversion K; subst. split; [reflexivity|exact Hi].
  - destruct (go_walkable x f fs Hx) as (g & _ & -> & _). destruct (local_no_test g n t i H K).
Qed.
Lemma go_file_test f : In f (go_tests root) -> v_ign_test E0 (tf_name f) = false -> file_test E file (go_test_node f) (tf_name f).
Proof.
  intros Hf Hi. split; [|split; [exists 0%nat; reflexivity|exact Hi]]. eapply tp_kid; [right; right; right; left; reflexivity| |constructor].
  cbn [go_file tnode n_kids]. apply in_map. exact Hf.
Qed.

(** Calls by name. *)
Lemma go_callee u callee args : n_kids (go_view u) = callee :: args -> is_call (go_view u) ->
  go_call u /\ exists v, child (s2t "function") u = Some v /\ callee = go_view v.
Proof.
  unfold go_view at 1 2. destruct (ts_shape go_class go_ok None u) as [c d j e r C T|c d C|x j e r C T|x j e r C T|x j e r C T|x C|C]; intros Hk Hc;
    try (solve [destruct Hc as (h & y & Hy); discriminate]).
  - cbn [tnode n_kids] in Hk. inversion Hk; subst. destruct (go_call_class _ _ _ _ C) as (H1 & H2 & _). split; [exact H1|].
    destruct (taken go_class u j callee args T) as (f & v & Hv & ->). destruct (child_nth _ _ _ H2) as (f' & v' & Hv' & Hc'). rewrite Hv in Hv'. inversion Hv'; subst.
    exists v'. split; [exact Hc'|]. apply go_parent.
  - destruct (go_no_method _ _ _ _ C).
Qed.
Lemma go_name v x : expr_name E (go_view v) = Some x -> kind_of v = s2t "identifier" /\ t_text (t_info v) = x /\ t_stmt (t_info v) = false.
Proof.
  unfold go_view. destruct (ts_shape go_class go_ok None v) as [c d j e r C T|c d C|y j e r C T|y j e r C T|y j e r C T|y C|C]; try discriminate.
  intros H. cbn in H. inversion H; subst. apply go_ident_class in C. exact C.
Qed.
Lemma view_name v : kind_of v = s2t "identifier" -> t_stmt (t_info v) = false -> expr_name E (go_view v) = Some (t_text (t_info v)).
Proof.
  intros K S0. pose proof (go_is_ident None v K S0) as C. unfold go_view. destruct (ts_shape go_class go_ok None v) as [c d j e r C'|c d C'|y j e r C'|y j e r C'|y j e r C'|y C'|C']; rewrite C in C'; try discriminate.
  inversion C'. reflexivity.
Qed.
Lemma go_mentions (b : tree) n f : (forall c, within n c -> is_call c -> exists u, inside b u /\ c = go_view u) -> mentions E n f ->
  exists u v g, inside b u /\ go_call u /\ child (s2t "function") u = Some v /\ kind_of v = s2t "identifier" /\
    walkable (t_text (t_info v)) = true /\ In g (go_locals root) /\ tf_name g = t_text (t_info v) /\ f = body_node go_class g.
Proof.
  intros Hb (c & callee & args & x & fs & Hw & Hc & Hk & Hn & Hx). destruct (Hb c Hw Hc) as (u & Hu & ->).
  destruct (go_callee u callee args Hk Hc) as (H1 & v & H2 & ->). destruct (go_name v x Hn) as (H3 & H4 & _). destruct (go_walkable x f fs Hx) as (g & G1 & G2 & G3 & G4).
  exists u, v, g. subst x. rewrite <- G3 in *. auto 12.
Qed.
Lemma test_calls_inside f c : within (go_test_node f) c -> is_stmt c \/ is_call c -> exists g k u, In (g, k) (t_kids (tf_body f)) /\ inside k u /\ c = go_view u.
Proof.
  intros Hw Hc. destruct (test_below f c Hw) as [[K| ->]|(g & k & u & Hk & Hu & Hcu)].
  - destruct Hc as [(r & ct & d & e & H)|(h & x & H)]; congruence.
  - destruct Hc as [(r & ct & d & e & H)|(h & x & H)]; discriminate.
  - exists g, k. assert (X : exists q w, occurs None u q w /\ c = ts_node go_class q w) by (destruct Hc as [Hc|Hc]; [eapply ts_stmt_within|eapply ts_call_within]; eauto using go_ok).
    destruct X as (q & w & H1 & ->). exists w. split; [exact Hk|]. split; [eapply inside_trans; [exact Hu|eapply occurs_inside; exact H1]|apply go_parent].
Qed.
Lemma local_calls_inside g c : within (body_node go_class g) c -> is_stmt c \/ is_call c -> exists f k u, In (f, k) (t_kids (tf_body g)) /\ inside k u /\ c = go_view u.
Proof.
  intros Hw Hc. destruct (local_below g c Hw) as [->|(f & u & Hu & Hcu)].
  - destruct Hc as [(r & ct & d & e & H)|(h & x & H)]; discriminate.
  - exists f, u. assert (X : exists q w, occurs None u q w /\ c = ts_node go_class q w) by (destruct Hc as [Hc|Hc]; [eapply ts_stmt_within|eapply ts_call_within]; eauto using go_ok).
    destruct X as (q & w & H1 & ->). exists w. split; [exact Hu|]. split; [eapply occurs_inside; exact H1|apply go_parent].
Qed.
Lemma kid_inside b g k u : In (g, k) (t_kids b) -> inside k u -> inside b u.
Proof. intros H1 H2. eapply inside_trans; [eapply inside_kid; exact H1|exact H2]. Qed.

Lemma go_test_calls t n : test_calls E file t n -> exists g, In g (go_locals root) /\ n = body_node go_class g /\ go_runs root walkable t (tf_body g).
Proof.
  intros H. induction H as [n f Hn Hm|g0 f _ (g & Hg & -> & Hr) Hm].
  - destruct (go_named n t Hn) as (f0 & Hf0 & -> & Ht & _).
    destruct (go_mentions (tf_body f0) (go_test_node f0) f) with (2 := Hm) as (u & v & g & U1 & U2 & U3 & U4 & U5 & U6 & U7 & ->).
    { intros c Hw Hc. destruct (test_calls_inside f0 c Hw (or_intror Hc)) as (g & k & u & H1 & H2 & ->). exists u. split; [eapply kid_inside; eassumption|reflexivity]. }
    exists g. split; [exact U6|]. split; [reflexivity|]. eapply gr_call with (b := tf_body f0) (c := u) (f := v); try eassumption.
    + apply gr_test. rewrite <- Ht. apply go_tests_spec. exact Hf0.
    + apply U2.
    + rewrite <- U7. apply go_locals_spec. exact U6.
  - destruct (go_mentions (tf_body g) (body_node go_class g) f) with (2 := Hm) as (u & v & g' & U1 & U2 & U3 & U4 & U5 & U6 & U7 & ->).
    { intros c Hw Hc. destruct (local_calls_inside g c Hw (or_intror Hc)) as (f0 & k & u & H1 & H2 & ->). exists u. split; [eapply kid_inside; eassumption|reflexivity]. }
    exists g'. split; [exact U6|]. split; [reflexivity|]. eapply gr_call with (b := tf_body g) (c := u) (f := v); try eassumption.
    + apply U2.
    + rewrite <- U7. apply go_locals_spec. exact U6.
Qed.
Lemma go_bodies_inside f : In f (go_funs root) -> inside root (tf_body f).
Proof.
  intros H. apply go_funs_spec in H. destruct H as (H1 & _ & H2 & _). eapply inside_trans; [exact H1|]. destruct (child_in _ _ _ H2) as (g & Hg). eapply inside_kid; exact Hg.
Qed.
Lemma go_apart : NoDup (tree_ids root) -> functions_apart E.
Proof.
  intros N x y f g fs gs Hx Hy Hs. destruct (go_walkable x f fs Hx) as (f' & Hf & -> & _). destruct (go_walkable y g gs Hy) as (g' & Hg & -> & _).
  cbn [same go_env v_fw fw_go fw_structural] in Hs. apply Nat.eqb_eq in Hs. cbn [body_node tnode n_id n_lab l_id] in Hs.
  assert (Hb : tf_body f' = tf_body g').
  { apply (same_tree root N); [apply go_bodies_inside; eapply filter_In in Hf; apply Hf|apply go_bodies_inside; eapply filter_In in Hg; apply Hg|lia]. }
  unfold body_node. rewrite Hb. reflexivity.
Qed.

(** The last statement of a test. *)
Lemma go_last_node f l : last_statement (go_test_node f) = Some l -> exists u, go_last (tf_body f) u /\ l = go_view u.
Proof.
  unfold last_statement. cbn [go_test_node test_node tnode n_kind n_lab l_kind n_kids test_statements nth_error]. unfold last_of.
  destruct (rev (map _ (go_stmts (tf_body f)))) as [|x r] eqn:R; [discriminate|]. intros H. inversion H; subst x.
  rewrite <- map_rev in R. destruct (rev (go_stmts (tf_body f))) as [|(p & u) s] eqn:R'; [discriminate|]. cbn [map fst snd] in R. inversion R; subst.
  exists u. split; [|apply go_parent]. exists (map snd (rev s)). rewrite <- tops_eq, <- (rev_involutive (go_stmts (tf_body f))), R'. cbn [rev]. rewrite map_app. reflexivity.
Qed.
Lemma go_last_some f u : go_last (tf_body f) u -> last_statement (go_test_node f) = Some (go_view u).
Proof.
  intros (pre & H). rewrite <- tops_eq in H. unfold last_statement. cbn [go_test_node test_node tnode n_kind n_lab l_kind n_kids test_statements nth_error]. unfold last_of.
  destruct (rev (go_stmts (tf_body f))) as [|(p & v) s] eqn:R.
  - assert (go_stmts (tf_body f) = []) by (rewrite <- (rev_involutive (go_stmts (tf_body f))), R; reflexivity). rewrite H0 in H. destruct pre; discriminate.
  - assert (G : go_stmts (tf_body f) = rev s ++ [(p, v)]) by (rewrite <- (rev_involutive (go_stmts (tf_body f))), R; reflexivity).
    rewrite G, map_app in H. cbn [map snd] in H. apply app_inj_tail in H. destruct H as [_ ->].
    rewrite G, map_app, rev_app_distr. cbn [map rev app fst snd]. rewrite go_parent. reflexivity.
Qed.
Lemma last_inside b u : go_last b u -> inside b u.
Proof.
  intros (pre & H). assert (Hu : In u (go_tops b)) by (rewrite H; apply in_or_app; right; left; reflexivity). rewrite <- tops_eq in Hu. apply in_map_iff in Hu.
  destruct Hu as ((p & v) & <- & Hv). destruct (stmts_inside b p v (or_introl Hv)) as (f & k & H1 & H2). eapply kid_inside; eassumption.
Qed.

(** Statements. *)
Lemma view_stmt u : is_stmt (go_view u) -> t_stmt (t_info u) = true.
Proof. intros H. destruct (ts_stmt go_class go_ok None u H) as (c & d & o & C & _). eapply go_stmt_class. exact C. Qed.
Lemma view_not_kept u : t_stmt (t_info u) = true -> control (go_view u) = false -> declaration (go_view u) = false -> ~ go_kept_kind (kind_of u).
Proof.
  intros Hs Hc Hd Hk. destruct (go_class_stmt None u Hs) as (o & C). destruct (ts_is_stmt go_class go_ok None u _ _ _ C) as (_ & H1 & H2 & _).
  fold (go_view u) in *. rewrite Hc in H1. rewrite Hd in H2. apply kept_kind in Hk. destruct Hk; congruence.
Qed.
Lemma expression_statement_not_kept : ~ go_kept_kind (s2t "expression_statement").
Proof. intros H. apply kept_kind in H. destruct H as [H|H]; vm_compute in H; discriminate. Qed.
Lemma stmt_removable u : t_stmt (t_info u) = true -> removable (go_view u) = true /\ is_stmt (go_view u).
Proof. intros H. destruct (go_class_stmt None u H) as (o & C). destruct (ts_is_stmt go_class go_ok None u _ _ _ C) as (H1 & _ & _ & H2). auto. Qed.

(** ** Calls, selectors, identifiers *)
Lemma view_is_call c : go_call c -> exists f args, child (s2t "function") c = Some f /\
  go_view c = tnode (2 * t_id (t_info c)) (KCall false (Some (t_text (t_info f)))) (t_span (t_info c)) (go_view f :: args).
Proof.
  intros H. pose proof H as (_ & _ & f & Hf). destruct (child_has_index _ _ _ Hf) as (j & Hj). pose proof (go_is_call None c j H Hj) as C.
  unfold go_view at 1. destruct (ts_shape go_class go_ok None c) as [c0 d j' e r C'|c0 d C'|y j' e r C' T|y j' e r C'|y j' e r C'|y C'|C']; rewrite C in C'; try discriminate.
  inversion C'; subst. destruct (taken go_class c j' e r T) as (g & v & Hv & ->). destruct (child_nth _ _ _ Hj) as (g' & v' & Hv' & Hc).
  rewrite Hv in Hv'. inversion Hv'; subst. exists v', r. split; [exact Hc|]. rewrite go_parent. assert (X : child_text (s2t "function") c = Some (t_text (t_info v'))) by (unfold child_text; rewrite Hc; reflexivity). rewrite <- X. reflexivity.
Qed.
Lemma call_view c : is_call (go_view c) <-> go_call c.
Proof.
  split.
  - intros H. destruct (ts_call go_class go_ok None c H) as (x & j & [C|C]); [apply go_call_class in C; apply C|destruct (go_no_method _ _ _ _ C)].
  - intros H. destruct (view_is_call c H) as (f & args & _ & ->). eexists _, _. reflexivity.
Qed.
Lemma go_is_field p e b : go_selector e b -> exists j, child_index (s2t "operand") e = Some j /\ go_class p e = CField (child_text (s2t "field") e) j.
Proof.
  intros (K & S0 & Hb). destruct (child_has_index _ _ _ Hb) as (j & Hj). exists j. split; [exact Hj|]. unfold go_class. rewrite S0, Hj. unfold kind_of in K. rewrite K. reflexivity.
Qed.
Lemma view_selector e b : go_selector e b -> exists r,
  go_view e = tnode (2 * t_id (t_info e)) (KField (child_text (s2t "field") e)) (t_span (t_info e)) (go_view b :: r).
Proof.
  intros H. destruct (go_is_field None e b H) as (j & Hj & C). unfold go_view at 1.
  destruct (ts_shape go_class go_ok None e) as [c0 d j' e' r C'|c0 d C'|y j' e' r C'|y j' e' r C'|y j' e' r C' T|y C'|C']; rewrite C in C'; try discriminate.
  inversion C'; subst. destruct (taken go_class e j' e' r T) as (g & v & Hv & ->). destruct (child_nth _ _ _ Hj) as (g' & v' & Hv' & Hc).
  rewrite Hv in Hv'. inversion Hv'; subst. destruct H as (_ & _ & Hb). rewrite Hb in Hc. inversion Hc; subst. exists r. rewrite go_parent. reflexivity.
Qed.
Lemma field_view e x : n_kind (go_view e) = KField x -> exists b, go_selector e b /\ x = child_text (s2t "field") e.
Proof.
  unfold go_view. destruct (ts_shape go_class go_ok None e) as [c0 d j e' r C|c0 d C|y j e' r C|y j e' r C|y j e' r C T|y C|C]; try discriminate.
  intros H. cbn in H. assert (x = y) by congruence. subst x. clear H. revert C. unfold go_class, kind_of.
  destruct (t_stmt (t_info e)) eqn:S0; [nope|]. destruct (text_eqb (t_kind (t_info e)) (s2t "call_expression")); [nope|].
  destruct (text_eqb (t_kind (t_info e)) (s2t "selector_expression")) eqn:K; [|nope]. apply text_eqb_eq in K.
  destruct (child_index (s2t "operand") e) as [i|] eqn:I; [|nope]. intros C. assert (y = child_text (s2t "field") e) by congruence. subst y. destruct (child_nth _ _ _ I) as (g & b & _ & Hb).
  exists b. split; [|reflexivity]. split; [exact K|]. auto.
Qed.
Lemma ident_view e x : n_kind (go_view e) = KIdent x <-> go_identifier e x.
Proof.
  split.
  - unfold go_view. destruct (ts_shape go_class go_ok None e) as [c0 d j e' r C|c0 d C|y j e' r C|y j e' r C|y j e' r C T|y C|C]; try discriminate.
    intros H. cbn in H. inversion H; subst. apply go_ident_class in C. destruct C as (H1 & H2 & H3). split; [exact H1|]. auto.
  - intros (K & S0 & X). pose proof (go_is_ident None e K S0) as C. unfold go_view.
    destruct (ts_shape go_class go_ok None e) as [c0 d j e' r C'|c0 d C'|y j e' r C'|y j e' r C'|y j e' r C' T|y C'|C']; rewrite C in C'; try discriminate. inversion C'. cbn. congruence.
Qed.
Lemma no_macro e x : n_kind (go_view e) <> KMacro x.
Proof. unfold go_view. destruct (ts_shape go_class go_ok None e); discriminate. Qed.
Lemma no_await e : n_kind (go_view e) <> KAwait.
Proof. unfold go_view. destruct (ts_shape go_class go_ok None e); discriminate. Qed.

Lemma path_view e b p : go_path e b p -> field_path (go_view e) (go_view b) p.
Proof.
  induction 1 as [e H|e x b base p [Hs (f & Hf & Hx)] _ IH].
  - apply fp_base. intros x K. destruct (field_view e _ K) as (b & Hs & Hx). unfold child_text in Hx. destruct (child (s2t "field") e) as [f|] eqn:F; [|discriminate].
    inversion Hx; subst. apply (H (t_text (t_info f)) b). split; [exact Hs|]. exists f. auto.
  - destruct (view_selector e b Hs) as (r & ->). unfold child_text. rewrite Hf, Hx. apply fp_field; [reflexivity|exact IH].
Qed.
Lemma view_path : forall N B p, field_path N B p -> forall e, N = go_view e -> exists b, B = go_view b /\ go_path e b p.
Proof.
  induction 1 as [n H|l x k r base p K _ IH]; intros e H0.
  - subst n. exists e. split; [reflexivity|]. apply gp_base. intros x b (Hs & f & Hf & Hx). apply (H x). destruct (view_selector e b Hs) as (r & ->). unfold child_text. rewrite Hf, Hx. reflexivity.
  - assert (Hk : n_kind (go_view e) = KField (Some x)) by (rewrite <- H0; exact K). destruct (field_view e _ Hk) as (b & Hs & Hx).
    destruct (view_selector e b Hs) as (r' & He). rewrite He in H0. inversion H0; subst. destruct (IH b eq_refl) as (b' & -> & Hp). exists b'. split; [reflexivity|].
    apply gp_select with (b := b); [|exact Hp]. split; [exact Hs|]. unfold child_text in Hx. destruct (child (s2t "field") e) as [f|]; [|discriminate]. inversion Hx; subst. eauto.
Qed.
Lemma method_view c b p : go_method c b p -> method_call (go_view c) (go_view b) p.
Proof.
  intros (Hc & f & Hf & Hp & Hne). split; [apply call_view; exact Hc|]. destruct (view_is_call c Hc) as (f' & args & Hf' & ->). rewrite Hf in Hf'. inversion Hf'; subst.
  exists (go_view f'), args. split; [reflexivity|]. split; [apply path_view; exact Hp|exact Hne].
Qed.
Lemma view_method c B p : method_call (go_view c) B p -> exists b, B = go_view b /\ go_method c b p.
Proof.
  intros (Hc & callee & args & Hk & Hp & Hne). apply call_view in Hc. destruct (view_is_call c Hc) as (f & args' & Hf & He). rewrite He in Hk. cbn [tnode n_kids] in Hk. inversion Hk; subst.
  destruct (view_path _ _ _ Hp f eq_refl) as (b & -> & Hb). exists b. split; [reflexivity|]. split; [exact Hc|]. eauto.
Qed.
Lemma root_ignored_view c : go_root_ignored E0 c -> root_ignored E (go_view c).
Proof.
  induction 1 as [c f Hc Hf Hno Hi|c b p x Hm Hx Hi|c b p Hm Hb _ IH].
  - apply ri_function with (f := t_text (t_info f)).
    + intros B p Hm. destruct (view_method _ _ _ Hm) as (b & _ & Hb). exact (Hno b p Hb).
    + destruct (view_is_call c Hc) as (f' & args & Hf' & ->). rewrite Hf in Hf'. inversion Hf'. reflexivity.
    + exact Hi.
  - eapply ri_path; [apply method_view; exact Hm|apply ident_view; exact Hx|exact Hi].
  - eapply ri_chain; [apply method_view; exact Hm|apply call_view; exact Hb|exact IH].
Qed.
Lemma view_root_ignored : forall N, root_ignored E N -> forall c, N = go_view c -> is_call N -> go_root_ignored E0 c.
Proof.
  induction 1 as [n f Hno Hn Hi|n b p x Hm Hx Hi|n b p x Hm Hx|n b p Hm Hb _ IH]; intros c -> Hc; apply call_view in Hc.
  - destruct (view_is_call c Hc) as (f' & args & Hf' & He). rewrite He in Hn. cbn in Hn. inversion Hn; subst. eapply gi_function; [exact Hc|exact Hf'| |exact Hi].
    intros b p Hb. exact (Hno _ _ (method_view _ _ _ Hb)).
  - destruct (view_method _ _ _ Hm) as (b' & -> & Hb'). apply ident_view in Hx. eapply gi_path; eassumption.
  - destruct (view_method _ _ _ Hm) as (b' & -> & Hb'). destruct (no_macro _ _ Hx).
  - destruct (view_method _ _ _ Hm) as (b' & -> & Hb'). eapply gi_chain; [exact Hb'|apply call_view; exact Hb|]. apply IH; [reflexivity|exact Hb].
Qed.
Lemma ignored_method_view c : ignored_method E (go_view c) <-> go_ignored_method E0 c.
Proof.
  split.
  - intros (B & p & Hm & Hi). destruct (view_method _ _ _ Hm) as (b & -> & Hb). exists b, p. auto.
  - intros (b & p & Hm & Hi). exists (go_view b), p. split; [apply method_view; exact Hm|exact Hi].
Qed.
Lemma ignored_call_view c : go_call c -> (ignored_call E (go_view c) <-> go_ignored_call E0 c).
Proof.
  intros Hc. split.
  - intros [(x & K & _)|(_ & [H|(B & p & Hm & Hn & Hi)])]; [destruct (no_macro _ _ K)| |].
    + left. eapply view_root_ignored; [exact H|reflexivity|apply call_view; exact Hc].
    + right. destruct (view_method _ _ _ Hm) as (b & -> & Hb). exists b, p. split; [exact Hb|]. split; [rewrite <- call_view; exact Hn|exact Hi].
  - intros H. right. split; [apply call_view; exact Hc|]. destruct H as [H|(b & p & Hm & Hn & Hi)]; [left; apply root_ignored_view; exact H|].
    right. exists (go_view b), p. split; [apply method_view; exact Hm|]. split; [rewrite call_view; exact Hn|exact Hi].
Qed.
Lemma local_call_view c f : go_call c -> local_call E (go_view c) f -> exists g, In g (go_locals root) /\ f = body_node go_class g /\ go_local_call root walkable c (tf_body g).
Proof.
  intros Hc (callee & args & x & fs & Hk & Hn & Hx). destruct (view_is_call c Hc) as (f' & args' & Hf' & He). rewrite He in Hk. cbn [tnode n_kids] in Hk. inversion Hk; subst.
  destruct (go_name _ _ Hn) as (H1 & H2 & H3). destruct (go_walkable x f fs Hx) as (g & G1 & G2 & G3 & G4). exists g. split; [exact G1|]. split; [exact G2|].
  split; [exact Hc|]. exists f', x. split; [exact Hf'|]. split; [split; [exact H1|auto]|]. split; [exact G4|]. rewrite <- G3. apply go_locals_spec. exact G1.
Qed.

(** ** Statements *)
Lemma view_performs e c : go_performs e c -> performs (go_view e) (go_view c).
Proof.
  induction 1 as [c H|e b c H _ IH]; [apply pf_call; left; apply call_view; exact H|].
  destruct (view_selector e b H) as (r & ->). eapply pf_field; [reflexivity|exact IH].
Qed.
Lemma performs_view : forall N C, performs N C -> forall e, N = go_view e -> exists c, C = go_view c /\ go_performs e c.
Proof.
  induction 1 as [n H|l b r C K _ IH|l x b r C K _ IH]; intros e He; subst.
  - destruct H as [H|(x & H)]; [|destruct (no_macro _ _ H)]. exists e. split; [reflexivity|]. constructor. apply call_view. exact H.
  - exfalso. apply (no_await e). rewrite <- He. exact K.
  - assert (Hk : n_kind (go_view e) = KField x) by (rewrite <- He; exact K). destruct (field_view e _ Hk) as (b' & Hs & _). destruct (view_selector e b' Hs) as (r' & He').
    rewrite He' in He. inversion He; subst. destruct (IH b' eq_refl) as (c & -> & Hc). exists c. split; [reflexivity|]. eapply gf_select; eassumption.
Qed.
Lemma expression_index u e : go_expression u e <-> t_stmt (t_info u) = true /\ kind_of u = s2t "expression_statement" /\
  exists j f, find_index (fun fk => t_expr (t_info (snd fk))) (t_kids u) = Some j /\ nth_error (t_kids u) j = Some (f, e).
Proof.
  unfold go_expression. assert (X : forall l, (exists pre f post, l = pre ++ (f, e) :: post /\ t_expr (t_info e) = true /\ forall x : option text * tree, In x pre -> t_expr (t_info (snd x)) = false) <->
    exists j f, find_index (fun fk : option text * tree => t_expr (t_info (snd fk))) l = Some j /\ nth_error l j = Some (f, e)).
  { induction l as [|x l IH]; [split; [intros (pre & f & post & H & _); destruct pre; discriminate|intros (j & f & H & _); discriminate]|]. cbn [find_index]. split.
    - intros (pre & f & post & H & H1 & H2). destruct pre as [|y pre].
      + inversion H; subst. cbn [snd]. rewrite H1. exists 0%nat, f. auto.
      + inversion H; subst. rewrite (H2 y (or_introl eq_refl)). destruct (proj1 IH) as (j & g & Hj & Hn); [exists pre, f, post; split; [reflexivity|]; split; [exact H1|]; intros z Hz; apply H2; right; exact Hz|].
        rewrite Hj. exists (S j), g. auto.
    - intros (j & f & Hj & Hn). destruct (t_expr (t_info (snd x))) eqn:T.
      + inversion Hj; subst. cbn in Hn. inversion Hn; subst. exists [], f, l. split; [reflexivity|]. split; [exact T|intros y []].
      + destruct (find_index _ l) as [i|] eqn:F; [|discriminate]. inversion Hj; subst. destruct (proj2 IH) as (pre & g & post & -> & H1 & H2); [exists i, f; auto|].
        exists (x :: pre), g, post. split; [reflexivity|]. split; [exact H1|]. intros y [<-|Hy]; auto. }
  rewrite X. tauto.
Qed.
Lemma call_statement_view u C : call_statement (go_view u) C <-> exists c, C = go_view c /\ go_call_statement u c.
Proof.
  split.
  - intros H. destruct (ts_call_statement go_class go_ok None u C H) as (ct & d & j & f & e & K & Hn & P). rewrite go_parent in P.
    destruct (go_stmt_class _ _ _ _ _ K) as (H1 & _ & _ & H4). destruct (H4 j eq_refl) as (K' & F). destruct (performs_view _ _ P e eq_refl) as (c & -> & Hc).
    exists c. split; [reflexivity|]. exists e. split; [|exact Hc]. apply expression_index. eauto 6.
  - intros (c & -> & e & He & Hp). apply expression_index in He. destruct He as (S0 & K & j & f & Hj & Hn).
    assert (C : go_class None u = CStmt (mem_text (kind_of u) go_control_kinds) (mem_text (kind_of u) go_declaration_kinds) (Some j)).
    { unfold go_class. rewrite S0. unfold kind_of in K. rewrite K. rewrite Hj. unfold kind_of. rewrite K. reflexivity. }
    unfold go_view at 1. destruct (ts_shape go_class go_ok None u) as [c0 d j' e' r C' T|c0 d C'|y j' e' r C'|y j' e' r C'|y j' e' r C'|y C'|C']; rewrite C in C'; try discriminate.
    inversion C'; subst. destruct (taken go_class u j' e' r T) as (g & v & Hv & ->). rewrite Hn in Hv. inversion Hv; subst. rewrite go_parent.
    eexists _, _, _, _, _, _. split; [reflexivity|]. split; [reflexivity|]. apply view_performs. exact Hp.
Qed.
Lemma performs_call e c : go_performs e c -> go_call c.
Proof. induction 1; assumption. Qed.
Lemma performs_inside e c : go_performs e c -> inside e c.
Proof.
  induction 1 as [c H|e b c (_ & _ & H) _ IH]; [constructor|]. destruct (child_in _ _ _ H) as (f & Hf). eapply inside_trans; [eapply inside_kid; exact Hf|exact IH].
Qed.
Lemma call_statement_inside u c : go_call_statement u c -> inside u c.
Proof.
  intros (e & (_ & _ & pre & f & post & H & _) & Hp). eapply inside_trans; [|apply performs_inside; exact Hp]. apply (inside_kid u f). rewrite H. apply in_or_app. right. left. reflexivity.
Qed.
Lemma call_or_not c : go_call c \/ ~ go_call c.
Proof.
  unfold go_call. destruct (text_eqb (kind_of c) (s2t "call_expression")) eqn:K; [apply text_eqb_eq in K|apply text_eqb_neq in K; tauto].
  destruct (t_stmt (t_info c)); [right; intros (_ & H & _); discriminate|]. destruct (child (s2t "function") c) as [f|]; [left; eauto|right; intros (_ & _ & f & H); discriminate].
Qed.
Lemma view_open k u : reaches (go_open E0) k u -> open_path E (go_view k) (go_view u).
Proof.
  intros H. assert (X : forall p, exists q, opens go_class E p k q u).
  { induction H as [t|a ks f k u Ho Hk _ IH]; intros p; [exists p; constructor|]. destruct (IH (Some a)) as (q & Hq). exists q. eapply os_kid; [|exact Hk|exact Hq].
    intros _. rewrite go_parent. destruct (Bool.bool_dec (v_visit_args E) true) as [V|V]; [left; exact V|].
    destruct (call_or_not (Tree a ks)) as [Hc|Hc].
    - destruct (Ho Hc) as [O|(O1 & O2)]; [left; exact O|right]. rewrite (ignored_call_view _ Hc), ignored_method_view. auto.
    - right. split; intros Hi; apply Hc; apply call_view; [destruct Hi as [(x & K & _)|(H1 & _)]; [destruct (no_macro _ _ K)|exact H1]|destruct Hi as (b & p' & (H1 & _) & _); exact H1]. }
  destruct (X None) as (q & Hq). apply (opens_path go_class go_ok E _ _ _ _ fw_kids) in Hq. rewrite !go_parent in Hq. exact Hq.
Qed.

(** A statement or call of a body that a test runs. *)
Lemma go_node_origin n t m : test_named E file n t \/ test_calls E file t n -> (exists k, In k (n_kids n) /\ within k m) -> is_stmt m \/ is_call m ->
  v_ign_test E0 t = false -> exists b u, (exists f k, In (f, k) (t_kids b) /\ inside k u) /\ m = go_view u /\
    ((exists f, In f (go_tests root) /\ n = go_test_node f /\ tf_body f = b /\ go_test root t b) \/
     (exists x, go_runs root walkable t b /\ go_local root x b)).
Proof.
  intros Hn (k & Hk & Hw) Hm _. assert (Hnm : within n m) by (eapply wi_kid; eassumption). destruct Hn as [Hn|Hn].
  - destruct (go_named n t Hn) as (f & Hf & -> & Ht & _). destruct (test_calls_inside f m Hnm Hm) as (g & k' & u & H1 & H2 & ->).
    exists (tf_body f), u. split; [eauto|]. split; [reflexivity|]. left. exists f. split; [exact Hf|]. split; [reflexivity|]. split; [reflexivity|]. rewrite <- Ht. apply go_tests_spec. exact Hf.
  - destruct (go_test_calls t n Hn) as (g & Hg & -> & Hr). destruct (local_calls_inside g m Hnm Hm) as (f & k' & u & H1 & H2 & ->).
    exists (tf_body g), u. split; [eauto|]. split; [reflexivity|]. right. exists (tf_name g). split; [exact Hr|]. apply go_locals_spec. exact Hg.
Qed.
Lemma calls_has_test t n : test_calls E file t n -> v_ign_test E0 t = false.
Proof. induction 1 as [n f Hn _|]; [destruct (go_named n t Hn) as (f0 & _ & _ & _ & H); exact H|assumption]. Qed.
Lemma no_calls_ignored n t : test_named E file n t \/ test_calls E file t n -> v_ign_test E0 t = false.
Proof. intros [H|H]; [destruct (go_named n t H) as (f0 & _ & _ & _ & K); exact K|eapply calls_has_test; exact H]. Qed.

(** A statement's place in a test. *)
Lemma go_in_body f u : In f (go_tests root) -> go_in E0 (tf_body f) u -> kind_of u <> s2t "statement_list" -> in_body E (go_test_node f) (go_view u).
Proof.
  intros Hf (g & k & Hk & Hr) Hne. destruct (kids_split _ _ _ Hk) as [(_ & Hin)|(Hl & Hin)].
  - eexists. split; [right; left; reflexivity|]. eapply op_kid; [right; left; reflexivity| |apply view_open; exact Hr].
    cbn [tnode n_kids]. apply in_map_iff. exists (Some (t_info (tf_body f)), k). split; [apply go_parent|exact Hin].
  - inversion Hr as [t|a ks g' k' u' Ho Hk' Hr']; subst.
    + exfalso. apply Hne. apply text_eqb_eq. exact Hl.
    + destruct (Hin g' k' Hk') as [Hi|Hi].
      * eexists. split; [left; reflexivity|]. eapply op_kid; [right; left; reflexivity| |apply view_open; exact Hr'].
        cbn [tnode n_kids]. apply in_map_iff. eexists. split; [|exact Hi]. apply go_parent.
      * eexists. split; [right; left; reflexivity|]. eapply op_kid; [right; left; reflexivity| |apply view_open; exact Hr'].
        cbn [tnode n_kids]. apply in_map_iff. eexists. split; [|exact Hi]. apply go_parent.
Qed.
Lemma go_in_local g u : go_in E0 (tf_body g) u -> in_body E (body_node go_class g) (go_view u).
Proof.
  intros (f & k & Hk & Hr). exists (go_view k). split; [|apply view_open; exact Hr]. cbn [body_node tnode n_kids]. apply in_map_iff. exists (f, k). split; [apply go_parent|exact Hk].
Qed.
Lemma plain_leaf u : go_plain_statement u -> removable_leaf (go_view u).
Proof.
  intros (S0 & K & Hno & Hin). destruct (stmt_removable u S0) as (H1 & H2). split; [exact H2|].
  split; [intros c Hc; apply call_statement_view in Hc; destruct Hc as (c' & _ & Hc); exact (Hno c' Hc)|]. split; [exact H1|].
  destruct (go_class_stmt None u S0) as (o & C). destruct (ts_is_stmt go_class go_ok None u _ _ _ C) as (_ & H3 & H4 & _). fold (go_view u) in H3, H4. rewrite kept_kind in K.
  split; [rewrite H3; apply Bool.not_true_iff_false; tauto|]. split; [rewrite H4; apply Bool.not_true_iff_false; tauto|].
  intros k m Hk Hm Hs. assert (X : exists f v, In (f, v) (t_kids u) /\ exists w, inside v w /\ m = go_view w).
  { destruct (ts_kids go_class go_ok None u k Hk) as [Hk'|(x & j & v & Cv & _)]; [|destruct (go_no_method _ _ _ _ Cv)].
    apply in_kids_nodes in Hk'. destruct Hk' as (f & v & Hv & ->). rewrite go_parent in Hm. destruct (ts_stmt_within go_class go_ok None v m Hm Hs) as (q & w & Ho & ->).
    exists f, v. split; [exact Hv|]. exists w. split; [eapply occurs_inside; exact Ho|apply go_parent]. }
  destruct X as (f & v & Hv & w & Hw & ->). specialize (Hin f v w Hv Hw). apply view_stmt in Hs. congruence.
Qed.
Lemma call_removable u : go_removable_call E0 root walkable u -> removable_call E (go_view u).
Proof.
  intros (c & (e & He & Hp) & Hni & Hno). pose proof (performs_call e c Hp) as Hc.
  split; [apply stmt_removable; apply He|]. exists (go_view c).
  split; [apply call_statement_view; exists c; split; [reflexivity|]; exists e; auto|]. split; [rewrite (ignored_call_view c Hc); exact Hni|].
  intros f Hf. destruct (local_call_view c f Hc Hf) as (g & _ & _ & Hl). exact (Hno _ Hl).
Qed.
Lemma go_same u v : same E (go_view u) (go_view v) = Nat.eqb (2 * t_id (t_info u)) (2 * t_id (t_info v)).
Proof. unfold same. cbn [go_env v_fw fw_go fw_structural]. unfold go_view. rewrite !(ts_id go_class go_ok). reflexivity. Qed.
End File.

(** ** C64 *)
(** The tests of a Go file are its functions whose names start with "Test", but for "TestMain" and those that the
    configuration ignores. *)
Theorem C64_tests : forall E root walkable st, result (go_env E root walkable) (go_file root) st ->
  forall t, In t (s_tset st) <-> v_ign_test E t = false /\ exists b, go_test root t b.
Proof.
  intros E root walkable st HR t. pose proof (go_parsed E root walkable) as HP. split.
  - intros H. destruct (in_named _ _ _ HP HR t H) as (tn & Hn). destruct (go_named E root walkable tn t Hn) as (f & Hf & _ & Ht & Hi).
    split; [exact Hi|]. exists (tf_body f). rewrite <- Ht. apply go_tests_spec. exact Hf.
  - intros (Hi & b & Hb). destruct (go_test_tests root t b Hb) as (f & Hf & Hn & _). eapply (file_test_in _ _ _ HP HR). rewrite <- Hn in *.
    apply go_file_test; assumption.
Qed.
Print Assumptions C64_tests.

(** A statement that is a candidate of the test [t] is a statement of the body of [t] that is not its last, or of a
    function of the file that [t] calls, directly or through such functions. It is not of a kind that is kept. It is a
    call that is not ignored, or else no statement occurs in it, but for the arguments of ignored calls. *)
Theorem C64_statement_candidates : forall E root walkable st sp t, result (go_env E root walkable) (go_file root) st ->
  NoDup (tree_ids root) -> candidate st Statement sp t ->
  v_skip E sp = false /\ v_ign_test E t = false /\
  exists b u, (exists f k, In (f, k) (t_kids b) /\ inside k u) /\ t_stmt (t_info u) = true /\ t_span (t_info u) = sp /\
    ~ go_kept_kind (kind_of u) /\
    ((go_test root t b /\ ~ go_last b u) \/ (go_runs root walkable t b /\ exists x, go_local root x b)) /\
    ((exists c, go_call_statement u c /\ ~ go_ignored_call E c) \/
     ((forall c, ~ go_call_statement u c) /\
      forall f k v, In (f, k) (t_kids u) -> reaches (go_open E) k v -> t_stmt (t_info v) = false)).
Proof.
  intros E root walkable st sp t HR N HC. pose proof (go_parsed E root walkable) as HP. pose proof (go_apart E root walkable N) as FA.
  destruct (candidate_runs_last _ _ _ HP HR Statement sp t FA HC) as (n & L & R & Hn & Hy).
  apply yields_statement in Hy. destruct Hy as (k & s & Hk & Hw & Hs & Hsk & (His & Hkp & Hcase)). split; [exact Hsk|].
  assert (Hn' : test_named (go_env E root walkable) (go_file root) n t \/ test_calls (go_env E root walkable) (go_file root) t n) by tauto.
  pose proof (no_calls_ignored E root walkable n t Hn') as Hi. split; [exact Hi|].
  destruct (go_node_origin E root walkable n t s Hn' (ex_intro _ k (conj Hk Hw)) (or_introl His) Hi) as (b & u & Hin & -> & Hb).
  assert (S0 : t_stmt (t_info u) = true) by (eapply view_stmt; exact His).
  exists b, u. split; [exact Hin|]. split; [exact S0|]. split; [rewrite <- Hs; symmetry; apply ts_span; exact go_ok|]. split; [|split].
  - destruct Hcase as [(_ & H1 & H2 & _)|(c & Hc & _)]; [eapply view_not_kept; eassumption|].
    apply call_statement_view in Hc. destruct Hc as (c' & _ & e & (_ & K & _) & _). rewrite K. exact expression_statement_not_kept.
  - destruct Hb as [(f & Hf & -> & <- & Ht)|(x & Hr & Hx)]; [|right; eauto].
    destruct Hn as [(Hn & ->)|(Hn & ->)].
    + left. split; [exact Ht|]. intros Hl. apply Hkp. right. exists (go_view u). split; [apply go_last_some; exact Hl|apply same_refl].
    + destruct (go_test_calls E root walkable t _ Hn) as (g & _ & Hg & _). discriminate.
  - destruct Hcase as [(H1 & _ & _ & H2)|(c & Hc & Hni & _)].
    + right. split; [intros c Hc; apply (H1 (go_view c)); apply call_statement_view; eauto|]. intros f v w Hv Hr.
      destruct (t_stmt (t_info w)) eqn:Sw; [|reflexivity]. exfalso.
      assert (Hkn : In (go_view v) (kids_nodes go_class u)) by (apply in_kids_nodes; exists f, v; split; [exact Hv|symmetry; apply go_parent]).
      destruct (kid_within go_class go_ok None u _ Hkn) as (h & Hh & [->|((x & j & v0 & Cv & _) & _)]); [|destruct (go_no_method _ _ _ _ Cv)].
      eapply (leaf_open _ L R _ His H2 _ (go_view w) Hh); [apply view_open; exact Hr|]. apply (stmt_removable w Sw).
    + left. apply call_statement_view in Hc. destruct Hc as (c' & -> & Hc). exists c'. split; [exact Hc|]. destruct Hc as (e & _ & Hp).
      rewrite <- (ignored_call_view E root walkable c' (performs_call e c' Hp)). exact Hni.
Qed.
Print Assumptions C64_statement_candidates.

(** A method call that is a candidate of [t] is a call [base.p1...pn(..)] in the body of [t], or of such a function, that is not
    ignored; the candidate is what follows [base]. *)
Theorem C64_method_candidates : forall E root walkable st sp t, result (go_env E root walkable) (go_file root) st ->
  NoDup (tree_ids root) -> candidate st MethodCall sp t ->
  v_skip E sp = false /\ v_ign_test E t = false /\
  exists b c base p, (exists f k, In (f, k) (t_kids b) /\ inside k c) /\ go_method c base p /\
    method_span E (t_span (t_info c)) (t_span (t_info base)) = Some sp /\ ~ go_ignored_call E c /\ ~ go_ignored_method E c /\
    (go_test root t b \/ (go_runs root walkable t b /\ exists x, go_local root x b)).
Proof.
  intros E root walkable st sp t HR N HC. pose proof (go_parsed E root walkable) as HP. pose proof (go_apart E root walkable N) as FA.
  destruct (candidate_runs_last _ _ _ HP HR MethodCall sp t FA HC) as (n & L & R & Hn & Hy).
  apply yields_method in Hy. destruct Hy as (k & m & ctx & Hk & Hv & Hsk & ((x & Kx) & Hni & Hnm & B & p & Hm & Hsp) & _). split; [exact Hsk|].
  assert (Hn' : test_named (go_env E root walkable) (go_file root) n t \/ test_calls (go_env E root walkable) (go_file root) t n) by tauto.
  pose proof (no_calls_ignored E root walkable n t Hn') as Hi. split; [exact Hi|].
  assert (Hc : is_call m) by (eexists _, _; exact Kx). apply visits_within in Hv.
  destruct (go_node_origin E root walkable n t m Hn' (ex_intro _ k (conj Hk Hv)) (or_intror Hc) Hi) as (b & c & Hin & -> & Hb).
  destruct (view_method c B p Hm) as (base & -> & Hbase). exists b, c, base, p. split; [exact Hin|]. split; [exact Hbase|].
  split; [unfold go_view in Hsp; rewrite !(ts_span go_class go_ok) in Hsp; exact Hsp|]. split; [rewrite <- (ignored_call_view E root walkable c (proj1 Hbase)); exact Hni|].
  split; [rewrite <- (ignored_method_view E root walkable c); exact Hnm|]. destruct Hb as [(f & _ & _ & _ & Ht)|(y & Hr & Hy)]; [left; exact Ht|right; eauto].
Qed.
Print Assumptions C64_method_candidates.

(** Every statement of a test but its last is a candidate of that test, if it is plain, or a call that is not ignored and not of a function of
    the file. *)
Theorem C64_statements_of_tests : forall E root walkable st t b u, result (go_env E root walkable) (go_file root) st ->
  NoDup (tree_ids root) -> go_test root t b -> v_ign_test E t = false -> go_in E b u ->
  go_plain_statement u \/ go_removable_call E root walkable u -> ~ go_last b u -> kind_of u <> s2t "statement_list" ->
  v_skip E (t_span (t_info u)) = false -> candidate st Statement (t_span (t_info u)) t.
Proof.
  intros E root walkable st t b u HR N Hb Hi Hin Hu Hl Hk Hsk. pose proof (go_parsed E root walkable) as HP. destruct (go_test_tests root t b Hb) as (f & Hf & <- & <-).
  assert (Hsp : n_span (go_view u) = t_span (t_info u)) by (apply ts_span; exact go_ok). rewrite <- Hsp in *.
  eapply C33_statements_of_tests; [exact HP|exact HR|apply go_file_test; eassumption|apply go_in_body; eassumption| | |exact Hsk].
  - destruct Hu as [Hu|Hu]; [left; eapply plain_leaf; exact Hu|right; apply call_removable; exact Hu].
  - intros l Hll. destruct (go_last_node f l Hll) as (v & Hv & ->). rewrite go_same. apply Nat.eqb_neq. intros Heq. apply Hl.
    assert (inside (tf_body f) u) by (destruct Hin as (g & k & Hg & Hr); eapply kid_inside; [exact Hg|]; clear - Hr; induction Hr; [constructor|econstructor; eassumption]).
    assert (v = u); [|subst; exact Hv]. assert (Hbody : inside root (tf_body f)) by (apply go_bodies_inside; unfold go_tests in Hf; apply filter_In in Hf; apply Hf).
    apply (same_tree root N); [eapply inside_trans; [exact Hbody|apply last_inside; exact Hv]|eapply inside_trans; eassumption|lia].
Qed.
Print Assumptions C64_statements_of_tests.

(** Every method call of a test that is not ignored and not of a function of the file is a candidate of that test, unless
    it makes up its last statement. *)
Theorem C64_method_calls_of_tests : forall E root walkable st t b c base p sp, result (go_env E root walkable) (go_file root) st ->
  NoDup (tree_ids root) -> go_test root t b -> v_ign_test E t = false -> go_in E b c -> go_method c base p ->
  ~ go_ignored_call E c -> ~ go_ignored_method E c ->
  (forall u, go_last b u -> ~ go_call_statement u c) ->
  method_span E (t_span (t_info c)) (t_span (t_info base)) = Some sp -> v_skip E sp = false ->
  candidate st MethodCall sp t.
Proof.
  intros E root walkable st t b c base p sp HR N Hb Hi Hin Hm Hni Hnm Hl Hsp Hsk. pose proof (go_parsed E root walkable) as HP. destruct (go_test_tests root t b Hb) as (f & Hf & <- & <-).
  pose proof (proj1 Hm) as Hc.
  eapply C33_method_calls_of_tests with (c := go_view c) (b := go_view base) (p := p); [exact HP|exact HR|apply go_file_test; eassumption| | | | | | | | |].
  - apply go_in_body; [exact Hf|exact Hin|]. destruct Hc as (K & _). rewrite K. discriminate.
  - destruct (view_is_call c Hc) as (g & args & _ & ->). eexists. reflexivity.
  - apply method_view. exact Hm.
  - rewrite (ignored_call_view E root walkable c Hc). exact Hni.
  - destruct (v_ign_met (go_env E root walkable) (dotted p)) eqn:V; [|reflexivity]. exfalso. apply Hnm. exists base, p. auto.
  - intros g Hg. destruct (local_call_view E root walkable c g Hc Hg) as (h & _ & _ & _ & v & x & Hv & Hx & _).
    destruct Hm as (_ & v' & Hv' & Hp & Hne). rewrite Hv in Hv'. inversion Hv'; subst v'. inversion Hp as [e Hno|e y b' base' p' ((K & _) & _)]; subst; [apply Hne; reflexivity|].
    destruct Hx as (Kx & _). rewrite Kx in K. discriminate.
  - intros s Hws Hcs. destruct (test_calls_inside f s Hws) as (g & k & u & Hk & Hu & ->); [left; eapply call_statement_stmt; exact Hcs|].
    assert (S0 : t_stmt (t_info u) = true) by (eapply view_stmt; eapply call_statement_stmt; exact Hcs). split; [apply stmt_removable; exact S0|].
    intros l Hll. destruct (go_last_node f l Hll) as (v & Hv & ->). rewrite go_same. apply Nat.eqb_neq. intros Heq.
    assert (Hbody : inside root (tf_body f)) by (apply go_bodies_inside; unfold go_tests in Hf; apply filter_In in Hf; apply Hf).
    assert (v = u) by (apply (same_tree root N); [eapply inside_trans; [exact Hbody|apply last_inside; exact Hv]|eapply inside_trans; [exact Hbody|eapply kid_inside; eassumption]|lia]). subst v.
    apply call_statement_view in Hcs. destruct Hcs as (c' & He & Hcs).
    assert (c' = c); [|subst c'; exact (Hl u Hv Hcs)]. symmetry.
    apply (same_tree root N).
    + eapply inside_trans; [exact Hbody|]. destruct Hin as (g' & k' & Hg' & Hr). eapply kid_inside; [exact Hg'|]. clear - Hr. induction Hr; [constructor|econstructor; eassumption].
    + eapply inside_trans; [exact Hbody|]. eapply kid_inside; [exact Hk|]. eapply inside_trans; [exact Hu|]. apply call_statement_inside. exact Hcs.
    + assert (n_id (go_view c) = n_id (go_view c')) by congruence. unfold go_view in H. rewrite !(ts_id go_class go_ok) in H. lia.
  - unfold go_view. rewrite !(ts_span go_class go_ok). exact Hsp.
  - exact Hsk.
Qed.
Print Assumptions C64_method_calls_of_tests.

(** The statements of a function of the file that a test calls by name are candidates of that test: the first function of that name. *)
Theorem C64_statements_of_called_functions : forall E root walkable st t b c f x b' u, result (go_env E root walkable) (go_file root) st ->
  NoDup (tree_ids root) -> go_test root t b -> v_ign_test E t = false -> go_in E b c ->
  go_call c -> child (s2t "function") c = Some f -> go_identifier f x -> walkable x = true ->
  go_local root x b' -> (forall b'', go_local root x b'' -> b'' = b') ->
  go_in E b' u -> go_plain_statement u \/ go_removable_call E root walkable u ->
  v_skip E (t_span (t_info u)) = false -> candidate st Statement (t_span (t_info u)) t.
Proof.
  intros E root walkable st t b c f x b' u HR N Hb Hi Hin Hc Hf Hx Hw Hl Hone Hu Hr Hsk. pose proof (go_parsed E root walkable) as HP. destruct (go_test_tests root t b Hb) as (tf & Htf & <- & <-).
  assert (Hsp : n_span (go_view u) = t_span (t_info u)) by (apply ts_span; exact go_ok). rewrite <- Hsp in *.
  destruct (go_local_locals root x b' Hl) as (g0 & Hg0 & Hn0 & _).
  assert (Hex : exists g fs, v_walkable (go_env E root walkable) x = body_node go_class g :: fs /\ In g (go_locals root) /\ tf_name g = x).
  { cbn [go_env v_walkable]. rewrite Hw. destruct (filter (fun f0 => text_eqb (tf_name f0) x) (go_locals root)) as [|g gs] eqn:L.
    - exfalso. assert (In g0 []) by (rewrite <- L; apply filter_In; split; [exact Hg0|rewrite Hn0; apply text_eqb_refl]). destruct H.
    - assert (In g (g :: gs)) by (left; reflexivity). rewrite <- L in H. apply filter_In in H. destruct H as [H1 H2]. apply text_eqb_eq in H2.
      exists g, (map (body_node go_class) gs). auto. }
  destruct Hex as (g & fs & Hwk & Hg & Hng).
  assert (tf_body g = b') by (apply Hone; rewrite <- Hng; apply go_locals_spec; exact Hg). subst b'.
  eapply C33_statements_of_called_functions with (c := go_view c) (f := body_node go_class g);
    [exact HP|exact HR|apply go_apart; exact N|apply go_file_test; eassumption| | | | | |exact Hsk].
  - apply go_in_body; [exact Htf|exact Hin|]. destruct Hc as (K & _). rewrite K. discriminate.
  - destruct (view_is_call c Hc) as (g' & args & _ & ->). eexists. reflexivity.
  - destruct (view_is_call c Hc) as (f' & args & Hf' & ->). rewrite Hf in Hf'. inversion Hf'; subst f'. exists (go_view f), args, x, fs. split; [reflexivity|]. split; [|exact Hwk].
    destruct Hx as (K & S0 & <-). apply view_name; assumption.
  - apply go_in_local. exact Hu.
  - destruct Hr as [Hr|Hr]; [left; eapply plain_leaf; exact Hr|right; apply call_removable; exact Hr].
Qed.
Print Assumptions C64_statements_of_called_functions.

(** ** Functions that are entered *)
Lemma enters_local E root walkable b b' : go_enters E root walkable b b' -> exists c g, go_in E b c /\ go_call c /\ In g (go_locals root) /\ tf_body g = b' /\
  seen_call (go_view c) /\ local_call (go_env E root walkable) (go_view c) (body_node go_class g).
Proof.
  intros (c & f & x & Hin & Hc & Hf & Hx & Hw & Hl & Hone). destruct (go_local_locals root x b' Hl) as (g0 & Hg0 & Hn0 & _).
  assert (Hex : exists g fs, v_walkable (go_env E root walkable) x = body_node go_class g :: fs /\ In g (go_locals root) /\ tf_name g = x).
  { cbn [go_env v_walkable]. rewrite Hw. destruct (filter (fun f0 => text_eqb (tf_name f0) x) (go_locals root)) as [|g gs] eqn:L.
    - exfalso. assert (In g0 []) by (rewrite <- L; apply filter_In; split; [exact Hg0|rewrite Hn0; apply text_eqb_refl]). destruct H.
    - assert (In g (g :: gs)) by (left; reflexivity). rewrite <- L in H. apply filter_In in H. destruct H as [H1 H2]. apply text_eqb_eq in H2.
      exists g, (map (body_node go_class) gs). auto. }
  destruct Hex as (g & fs & Hwk & Hg & Hng). exists c, g. split; [exact Hin|]. split; [exact Hc|]. split; [exact Hg|].
  split; [apply Hone; rewrite <- Hng; apply go_locals_spec; exact Hg|]. destruct (view_is_call c Hc) as (f' & args & Hf' & ->). split; [eexists; reflexivity|].
  rewrite Hf in Hf'. inversion Hf'; subst f'. exists (go_view f), args, x, fs. split; [reflexivity|]. split; [|exact Hwk]. destruct Hx as (K & S0 & <-). apply view_name; assumption.
Qed.
Lemma entered_reached E root walkable b : go_entered E root walkable b -> exists g, tf_body g = b /\ In g (go_locals root) /\
  reached (go_env E root walkable) (go_file root) (body_node go_class g).
Proof.
  induction 1 as [t b b' Hb Hi He|b b' _ (g0 & <- & Hg0 & IH) He]; destruct (enters_local _ _ _ _ _ He) as (c & g & Hin & Hc & Hg & <- & Hs & Hl);
    exists g; (split; [reflexivity|]); (split; [exact Hg|]).
  - destruct (go_test_tests root t b Hb) as (tf & Htf & <- & <-). eapply re_test; [apply go_file_test; eassumption| |exact Hs|exact Hl].
    apply go_in_body; [exact Htf|exact Hin|]. destruct Hc as (K & _). rewrite K. discriminate.
  - eapply re_fun; [exact IH| |exact Hs|exact Hl]. apply go_in_local. exact Hin.
Qed.
Lemma go_tests_only E root walkable : calls_in_tests_only (go_env E root walkable) (go_file root).
Proof.
  intros c f Hp (x & K) _. inversion Hp as [n|n k m _ Hk Hp']; subst; [discriminate|]. cbn [go_file tnode n_kids] in Hk. apply in_map_iff in Hk. destruct Hk as (g & <- & _).
  inversion Hp' as [n|n k m Hd _ _]; subst; [discriminate|]. cbn in Hd. destruct Hd as [(? & ? & ? & ? & H)|[(? & ? & H)|[(? & H)|[H|(_ & [H|[(? & H)|[H|(? & H)]]])]]]]; discriminate.
Qed.

(** In Go: every statement of every function that is entered, from a test or from another such function, is a candidate, its last one included, if it is
    plain or a call that is neither ignored nor of a function of the file. *)
Theorem C78_go_statements : forall E root walkable st b u, result (go_env E root walkable) (go_file root) st -> NoDup (tree_ids root) ->
  go_entered E root walkable b -> go_in E b u -> go_plain_statement u \/ go_removable_call E root walkable u ->
  v_skip E (t_span (t_info u)) = false -> exists t, candidate st Statement (t_span (t_info u)) t.
Proof.
  intros E root walkable st b u HR N He Hu Hr Hsk. destruct (entered_reached _ _ _ _ He) as (g & <- & _ & Hg).
  assert (Hsp : n_span (go_view u) = t_span (t_info u)) by (apply ts_span; exact go_ok). rewrite <- Hsp in *.
  eapply C33_statements_of_reached_functions; [apply go_parsed|exact HR|apply go_apart; exact N|apply go_tests_only|exact Hg|apply go_in_local; exact Hu| |exact Hsk].
  destruct Hr as [Hr|Hr]; [left; eapply plain_leaf; exact Hr|right; apply call_removable; exact Hr].
Qed.
Print Assumptions C78_go_statements.

Lemma go_method_hyps E root walkable g c base p sp : go_in E (tf_body g) c -> go_method c base p -> ~ go_ignored_call E c -> ~ go_ignored_method E c ->
  method_span E (t_span (t_info c)) (t_span (t_info base)) = Some sp ->
  let E' := go_env E root walkable in
  in_body E' (body_node go_class g) (go_view c) /\ seen_call (go_view c) /\ method_call (go_view c) (go_view base) p /\ ~ ignored_call E' (go_view c) /\
  v_ign_met E' (dotted p) = false /\ (forall f, ~ local_call E' (go_view c) f) /\
  (forall s, within (body_node go_class g) s -> call_statement s (go_view c) -> removable s = true) /\
  method_span E' (n_span (go_view c)) (n_span (go_view base)) = Some sp.
Proof.
  intros Hin Hm Hni Hnm Hsp. pose proof (proj1 Hm) as Hc. cbv zeta. split; [apply go_in_local; exact Hin|].
  split; [destruct (view_is_call c Hc) as (f & args & _ & ->); eexists; reflexivity|]. split; [apply method_view; exact Hm|].
  split; [rewrite (ignored_call_view E root walkable c Hc); exact Hni|].
  split. { destruct (v_ign_met (go_env E root walkable) (dotted p)) eqn:V; [|reflexivity]. exfalso. apply Hnm. exists base, p. auto. }
  split. { intros f Hf. destruct (local_call_view E root walkable c f Hc Hf) as (h & _ & _ & _ & v & x & Hv & Hx & _).
    destruct Hm as (_ & v' & Hv' & Hp & Hne). rewrite Hv in Hv'. inversion Hv'; subst v'. inversion Hp as [e Hno|e y b' base' p' ((K & _) & _)]; subst; [apply Hne; reflexivity|].
    destruct Hx as (Kx & _). rewrite Kx in K. discriminate. }
  split; [|unfold go_view; rewrite !(ts_span go_class go_ok); exact Hsp].
  intros s Hws Hcs. pose proof (call_statement_stmt _ _ Hcs) as Hst.
  destruct (within_inv _ _ Hws) as [->|(k & Hk & Hw)]; [destruct Hst as (? & ? & ? & ? & H); discriminate|].
  cbn [body_node tnode n_kids] in Hk. apply in_map_iff in Hk. destruct Hk as ([q k'] & <- & Hk).
  destruct (ts_stmt_within go_class go_ok (Some (t_info (tf_body g))) k' s Hw Hst) as (q' & w & H1 & ->). rewrite go_parent in *.
  apply stmt_removable. eapply view_stmt. exact Hst.
Qed.
(** And every method call of such a function that is not ignored. *)
Theorem C78_go_method_calls : forall E root walkable st b c base p sp, result (go_env E root walkable) (go_file root) st -> NoDup (tree_ids root) ->
  go_entered E root walkable b -> go_in E b c -> go_method c base p -> ~ go_ignored_call E c -> ~ go_ignored_method E c ->
  method_span E (t_span (t_info c)) (t_span (t_info base)) = Some sp -> v_skip E sp = false -> exists t, candidate st MethodCall sp t.
Proof.
  intros E root walkable st b c base p sp HR N He Hin Hm Hni Hnm Hsp Hsk. destruct (entered_reached _ _ _ _ He) as (g & <- & _ & Hg).
  destruct (go_method_hyps E root walkable g c base p sp Hin Hm Hni Hnm Hsp) as (A1 & A2 & A3 & A4 & A5 & A6 & A7 & A8).
  eapply C33_method_calls_of_reached_functions; try eassumption; [apply go_parsed|apply go_apart; exact N|apply go_tests_only].
Qed.
Print Assumptions C78_go_method_calls.
(** With the tests: the method calls of a function that the test calls itself. *)
Theorem C64_method_calls_of_called_functions : forall E root walkable st t b b' c base p sp, result (go_env E root walkable) (go_file root) st ->
  NoDup (tree_ids root) -> go_test root t b -> v_ign_test E t = false -> go_enters E root walkable b b' ->
  go_in E b' c -> go_method c base p -> ~ go_ignored_call E c -> ~ go_ignored_method E c ->
  method_span E (t_span (t_info c)) (t_span (t_info base)) = Some sp -> v_skip E sp = false -> candidate st MethodCall sp t.
Proof.
  intros E root walkable st t b b' c base p sp HR N Hb Hi He Hin Hm Hni Hnm Hsp Hsk. destruct (enters_local _ _ _ _ _ He) as (c0 & g & Hin0 & Hc0 & Hg & <- & Hs & Hl).
  destruct (go_test_tests root t b Hb) as (tf & Htf & <- & <-).
  destruct (go_method_hyps E root walkable g c base p sp Hin Hm Hni Hnm Hsp) as (A1 & A2 & A3 & A4 & A5 & A6 & A7 & A8).
  eapply C33_method_calls_of_called_functions with (c0 := go_view c0) (tn := go_test_node tf); try eassumption; [apply go_parsed|apply go_apart; exact N|apply go_file_test; eassumption|].
  apply go_in_body; [exact Htf|exact Hin0|]. destruct Hc0 as (K & _). rewrite K. discriminate.
Qed.
Print Assumptions C64_method_calls_of_called_functions.

(** No Go file makes the walk panic, as long as the base of each method call starts and ends inside the call. *)
Theorem C64_no_panic : forall E root walkable fuel,
  (forall c base p, inside root c -> go_method c base p -> method_span E (t_span (t_info c)) (t_span (t_info base)) <> None) ->
  visit_file (go_env E root walkable) fuel (go_file root) <> LPanic.
Proof.
  intros E root walkable fuel HS. pose proof (go_parsed E root walkable) as HP.
  assert (HM : forall c B p, is_call (go_view c) -> inside root c -> method_call (go_view c) B p -> method_span (go_env E root walkable) (n_span (go_view c)) (n_span B) <> None).
  { intros c B p _ Hc Hm. destruct (view_method c B p Hm) as (base & -> & Hb). unfold go_view. rewrite !(ts_span go_class go_ok). exact (HS c base p Hc Hb). }
  apply C36_no_panic; [exact HP| | |].
  - intros m t b k Hm K Hk. destruct (within_inv _ _ Hm) as [->|(h & Hh & Hw)]; [discriminate|]. cbn [go_file tnode n_kids] in Hh. apply in_map_iff in Hh. destruct Hh as (f & <- & Hf).
    destruct (test_below f m Hw) as [[K'|K']|(g & k0 & u & _ & _ & Hu)]; [congruence| |destruct (ts_no_test go_class go_ok None u m t b Hu K)]. subst m.
    intros x y z Hx Ky. assert (Hx' : within (go_test_node f) x) by (eapply wi_kid; eassumption).
    destruct (test_below f x Hx') as [[K'|K']|(g & k0 & u & _ & _ & Hu)]; [congruence| |destruct (ts_no_test go_class go_ok None u x y z Hu Ky)]. subst x.
    clear - Hk Hx. assert (Hid : forall a b, within a b -> nsize b <= nsize a).
    { intros a b Hab. induction Hab as [|a0 k0 b0 Hk0 _ IH0]; [lia|]. destruct a0 as [l0 ks0]. pose proof (nsize_kid l0 ks0 k0 Hk0). lia. }
    pose proof (Hid _ _ Hx). destruct (go_test_node f) as [l ks]. pose proof (nsize_kid l ks k Hk). lia.
  - intros c B p Hc Hm. destruct (within_inv _ _ Hc) as [->|(h & Hh & Hw)]; [destruct Hm as ((h & x & K) & _); discriminate|]. cbn [go_file tnode n_kids] in Hh. apply in_map_iff in Hh. destruct Hh as (f & <- & Hf).
    destruct (test_calls_inside f c Hw (or_intror (proj1 Hm))) as (g & k & u & Hk & Hu & ->). apply HM with (p := p); [apply Hm| |exact Hm].
    eapply inside_trans; [apply go_bodies_inside; unfold go_tests in Hf; apply filter_In in Hf; apply Hf|eapply kid_inside; eassumption].
  - intros x f fs Hx. destruct (go_walkable E root walkable x f fs Hx) as (g & Hg & -> & _). split; [apply local_no_test|]. intros c B p Hc Hm.
    destruct (local_calls_inside g c Hc (or_intror (proj1 Hm))) as (f0 & k & u & Hk & Hu & ->). apply HM with (p := p); [apply Hm| |exact Hm].
    eapply inside_trans; [apply go_bodies_inside; unfold go_locals in Hg; apply filter_In in Hg; apply Hg|eapply kid_inside; eassumption].
Qed.
Print Assumptions C64_no_panic.

(** The walk of a Go file ends, with a result if the above holds. *)
Theorem C64_result : forall E root walkable,
  (forall c base p, inside root c -> go_method c base p -> method_span E (t_span (t_info c)) (t_span (t_info base)) <> None) ->
  exists st, result (go_env E root walkable) (go_file root) st.
Proof.
  intros E root walkable HS. destruct (go_parsed E root walkable) as [W WF].
  destruct (C35_walk_ends (go_env E root walkable) (go_file root) (map (body_node go_class) (go_locals root)) W) as (r & Hr & HF).
  { intros x f fs Hx. split; [eapply WF; exact Hx|]. destruct (go_walkable E root walkable x f fs Hx) as (g & Hg & -> & _). apply in_map. exact Hg. }
  specialize (HF _ (le_n _)). pose proof (C64_no_panic E root walkable (length (map (body_node go_class) (go_locals root))) HS) as HP.
  destruct r as [st| |]; [exists st; eexists; exact HF| |congruence]. congruence.
Qed.
Print Assumptions C64_result.

(** A file with the test [TestA], the function [h] that it calls, [TestMain], and a function [Testify] that is not a test. *)
Definition go_ex_text : text := s2t "package p" ++ [NL] ++ s2t "func TestA(t *testing.T) { x := 1; g(x); o.m(); h(); { v = 2 }; k(); }" ++ [NL] ++ s2t "func h() { a(); b(); }" ++ [NL] ++ s2t "func TestMain(m *testing.M) { q(); }" ++ [NL] ++ s2t "func Testify(n int) { c(); d(); }" ++ [NL] ++ s2t "".
Definition go_ex : tree :=
 Tree (TI 1 (s2t "source_file") true false false false (Span xp (LC 1 0) (LC 6 0)) (go_ex_text)) [(None, Tree (TI 2 (s2t "package_clause") true false false false (Span xp (LC 1 0) (LC 1 9)) (s2t "package p")) []);
 (None, Tree (TI 3 (s2t "function_declaration") true false false false (Span xp (LC 2 0) (LC 2 70)) (s2t "func TestA(t *testing.T) { x := 1; g(x); o.m(); h(); { v = 2 }; k(); }")) [(Some (s2t "name"), Tree (TI 4 (s2t "identifier") true false false true (Span xp (LC 2 5) (LC 2 10)) (s2t "TestA")) []);
  (Some (s2t "parameters"), Tree (TI 5 (s2t "parameter_list") true false false false (Span xp (LC 2 10) (LC 2 24)) (s2t "(t *testing.T)")) []);
  (Some (s2t "body"), Tree (TI 6 (s2t "block") true false true false (Span xp (LC 2 25) (LC 2 70)) (s2t "{ x := 1; g(x); o.m(); h(); { v = 2 }; k(); }")) [(None, Tree (TI 7 (s2t "{") false false false false (Span xp (LC 2 25) (LC 2 26)) (s2t "{")) []);
   (None, Tree (TI 8 (s2t "statement_list") true false false false (Span xp (LC 2 27) (LC 2 68)) (s2t "x := 1; g(x); o.m(); h(); { v = 2 }; k();")) [(None, Tree (TI 9 (s2t "short_var_declaration") true false true false (Span xp (LC 2 27) (LC 2 33)) (s2t "x := 1")) []);
    (None, Tree (TI 10 (s2t "expression_statement") true false true false (Span xp (LC 2 35) (LC 2 39)) (s2t "g(x)")) [(None, Tree (TI 11 (s2t "call_expression") true false false true (Span xp (LC 2 35) (LC 2 39)) (s2t "g(x)")) [(Some (s2t "function"), Tree (TI 12 (s2t "identifier") true false false true (Span xp (LC 2 35) (LC 2 36)) (s2t "g")) []);
      (None, Tree (TI 13 (s2t "argument_list") true false false false (Span xp (LC 2 36) (LC 2 39)) (s2t "(x)")) [])])]);
    (None, Tree (TI 14 (s2t "expression_statement") true false true false (Span xp (LC 2 41) (LC 2 46)) (s2t "o.m()")) [(None, Tree (TI 15 (s2t "call_expression") true false false true (Span xp (LC 2 41) (LC 2 46)) (s2t "o.m()")) [(Some (s2t "function"), Tree (TI 16 (s2t "selector_expression") true false false true (Span xp (LC 2 41) (LC 2 44)) (s2t "o.m")) [(Some (s2t "operand"), Tree (TI 17 (s2t "identifier") true false false true (Span xp (LC 2 41) (LC 2 42)) (s2t "o")) []);
       (Some (s2t "field"), Tree (TI 18 (s2t "field_identifier") true false false false (Span xp (LC 2 43) (LC 2 44)) (s2t "m")) [])]);
      (None, Tree (TI 19 (s2t "argument_list") true false false false (Span xp (LC 2 44) (LC 2 46)) (s2t "()")) [])])]);
    (None, Tree (TI 20 (s2t "expression_statement") true false true false (Span xp (LC 2 48) (LC 2 51)) (s2t "h()")) [(None, Tree (TI 21 (s2t "call_expression") true false false true (Span xp (LC 2 48) (LC 2 51)) (s2t "h()")) [(Some (s2t "function"), Tree (TI 22 (s2t "identifier") true false false true (Span xp (LC 2 48) (LC 2 49)) (s2t "h")) []);
      (None, Tree (TI 23 (s2t "argument_list") true false false false (Span xp (LC 2 49) (LC 2 51)) (s2t "()")) [])])]);
    (None, Tree (TI 24 (s2t "block") true false true false (Span xp (LC 2 53) (LC 2 62)) (s2t "{ v = 2 }")) [(None, Tree (TI 25 (s2t "{") false false false false (Span xp (LC 2 53) (LC 2 54)) (s2t "{")) []);
     (None, Tree (TI 26 (s2t "statement_list") true false false false (Span xp (LC 2 55) (LC 2 60)) (s2t "v = 2")) [(None, Tree (TI 27 (s2t "assignment_statement") true false true false (Span xp (LC 2 55) (LC 2 60)) (s2t "v = 2")) [])]);
     (None, Tree (TI 28 (s2t "}") false false false false (Span xp (LC 2 61) (LC 2 62)) (s2t "}")) [])]);
    (None, Tree (TI 29 (s2t "expression_statement") true false true false (Span xp (LC 2 64) (LC 2 67)) (s2t "k()")) [(None, Tree (TI 30 (s2t "call_expression") true false false true (Span xp (LC 2 64) (LC 2 67)) (s2t "k()")) [(Some (s2t "function"), Tree (TI 31 (s2t "identifier") true false false true (Span xp (LC 2 64) (LC 2 65)) (s2t "k")) []);
      (None, Tree (TI 32 (s2t "argument_list") true false false false (Span xp (LC 2 65) (LC 2 67)) (s2t "()")) [])])])]);
   (None, Tree (TI 33 (s2t "}") false false false false (Span xp (LC 2 69) (LC 2 70)) (s2t "}")) [])])]);
 (None, Tree (TI 34 (s2t "function_declaration") true false false false (Span xp (LC 3 0) (LC 3 22)) (s2t "func h() { a(); b(); }")) [(Some (s2t "name"), Tree (TI 35 (s2t "identifier") true false false true (Span xp (LC 3 5) (LC 3 6)) (s2t "h")) []);
  (Some (s2t "parameters"), Tree (TI 36 (s2t "parameter_list") true false false false (Span xp (LC 3 6) (LC 3 8)) (s2t "()")) []);
  (Some (s2t "body"), Tree (TI 37 (s2t "block") true false true false (Span xp (LC 3 9) (LC 3 22)) (s2t "{ a(); b(); }")) [(None, Tree (TI 38 (s2t "{") false false false false (Span xp (LC 3 9) (LC 3 10)) (s2t "{")) []);
   (None, Tree (TI 39 (s2t "statement_list") true false false false (Span xp (LC 3 11) (LC 3 20)) (s2t "a(); b();")) [(None, Tree (TI 40 (s2t "expression_statement") true false true false (Span xp (LC 3 11) (LC 3 14)) (s2t "a()")) [(None, Tree (TI 41 (s2t "call_expression") true false false true (Span xp (LC 3 11) (LC 3 14)) (s2t "a()")) [(Some (s2t "function"), Tree (TI 42 (s2t "identifier") true false false true (Span xp (LC 3 11) (LC 3 12)) (s2t "a")) []);
      (None, Tree (TI 43 (s2t "argument_list") true false false false (Span xp (LC 3 12) (LC 3 14)) (s2t "()")) [])])]);
    (None, Tree (TI 44 (s2t "expression_statement") true false true false (Span xp (LC 3 16) (LC 3 19)) (s2t "b()")) [(None, Tree (TI 45 (s2t "call_expression") true false false true (Span xp (LC 3 16) (LC 3 19)) (s2t "b()")) [(Some (s2t "function"), Tree (TI 46 (s2t "identifier") true false false true (Span xp (LC 3 16) (LC 3 17)) (s2t "b")) []);
      (None, Tree (TI 47 (s2t "argument_list") true false false false (Span xp (LC 3 17) (LC 3 19)) (s2t "()")) [])])])]);
   (None, Tree (TI 48 (s2t "}") false false false false (Span xp (LC 3 21) (LC 3 22)) (s2t "}")) [])])]);
 (None, Tree (TI 49 (s2t "function_declaration") true false false false (Span xp (LC 4 0) (LC 4 36)) (s2t "func TestMain(m *testing.M) { q(); }")) [(Some (s2t "name"), Tree (TI 50 (s2t "identifier") true false false true (Span xp (LC 4 5) (LC 4 13)) (s2t "TestMain")) []);
  (Some (s2t "parameters"), Tree (TI 51 (s2t "parameter_list") true false false false (Span xp (LC 4 13) (LC 4 27)) (s2t "(m *testing.M)")) []);
  (Some (s2t "body"), Tree (TI 52 (s2t "block") true false true false (Span xp (LC 4 28) (LC 4 36)) (s2t "{ q(); }")) [(None, Tree (TI 53 (s2t "{") false false false false (Span xp (LC 4 28) (LC 4 29)) (s2t "{")) []);
   (None, Tree (TI 54 (s2t "statement_list") true false false false (Span xp (LC 4 30) (LC 4 34)) (s2t "q();")) [(None, Tree (TI 55 (s2t "expression_statement") true false true false (Span xp (LC 4 30) (LC 4 33)) (s2t "q()")) [(None, Tree (TI 56 (s2t "call_expression") true false false true (Span xp (LC 4 30) (LC 4 33)) (s2t "q()")) [(Some (s2t "function"), Tree (TI 57 (s2t "identifier") true false false true (Span xp (LC 4 30) (LC 4 31)) (s2t "q")) []);
      (None, Tree (TI 58 (s2t "argument_list") true false false false (Span xp (LC 4 31) (LC 4 33)) (s2t "()")) [])])])]);
   (None, Tree (TI 59 (s2t "}") false false false false (Span xp (LC 4 35) (LC 4 36)) (s2t "}")) [])])]);
 (None, Tree (TI 60 (s2t "function_declaration") true false false false (Span xp (LC 5 0) (LC 5 33)) (s2t "func Testify(n int) { c(); d(); }")) [(Some (s2t "name"), Tree (TI 61 (s2t "identifier") true false false true (Span xp (LC 5 5) (LC 5 12)) (s2t "Testify")) []);
  (Some (s2t "parameters"), Tree (TI 62 (s2t "parameter_list") true false false false (Span xp (LC 5 12) (LC 5 19)) (s2t "(n int)")) []);
  (Some (s2t "body"), Tree (TI 63 (s2t "block") true false true false (Span xp (LC 5 20) (LC 5 33)) (s2t "{ c(); d(); }")) [(None, Tree (TI 64 (s2t "{") false false false false (Span xp (LC 5 20) (LC 5 21)) (s2t "{")) []);
   (None, Tree (TI 65 (s2t "statement_list") true false false false (Span xp (LC 5 22) (LC 5 31)) (s2t "c(); d();")) [(None, Tree (TI 66 (s2t "expression_statement") true false true false (Span xp (LC 5 22) (LC 5 25)) (s2t "c()")) [(None, Tree (TI 67 (s2t "call_expression") true false false true (Span xp (LC 5 22) (LC 5 25)) (s2t "c()")) [(Some (s2t "function"), Tree (TI 68 (s2t "identifier") true false false true (Span xp (LC 5 22) (LC 5 23)) (s2t "c")) []);
      (None, Tree (TI 69 (s2t "argument_list") true false false false (Span xp (LC 5 23) (LC 5 25)) (s2t "()")) [])])]);
    (None, Tree (TI 70 (s2t "expression_statement") true false true false (Span xp (LC 5 27) (LC 5 30)) (s2t "d()")) [(None, Tree (TI 71 (s2t "call_expression") true false false true (Span xp (LC 5 27) (LC 5 30)) (s2t "d()")) [(Some (s2t "function"), Tree (TI 72 (s2t "identifier") true false false true (Span xp (LC 5 27) (LC 5 28)) (s2t "d")) []);
      (None, Tree (TI 73 (s2t "argument_list") true false false false (Span xp (LC 5 28) (LC 5 30)) (s2t "()")) [])])])]);
   (None, Tree (TI 74 (s2t "}") false false false false (Span xp (LC 5 32) (LC 5 33)) (s2t "}")) [])])])].
Definition go_ex_env : venv := VEnv fw_go (fun _ => false) (fun _ => false) (fun _ => false) (fun _ => false) false DNone (fun _ => []) (fun _ => false) go_ex_text.
Definition go_ex_walkable (x : text) : bool := text_eqb x (s2t "h").
Definition go_ex_st : vst := st_of (go_env go_ex_env go_ex go_ex_walkable) (go_file go_ex).
Definition go_at (i : nat) : tree := match find (fun t => Nat.eqb (t_id (t_info t)) i) (subtrees go_ex) with Some t => t | None => go_ex end.
Lemma go_at_inside i : inside go_ex (go_at i).
Proof.
  apply subtrees_inside. unfold go_at. destruct (find _ (subtrees go_ex)) as [t|] eqn:F; [eapply find_some; exact F|]. left. reflexivity.
Qed.
Example go_ex_result : result (go_env go_ex_env go_ex go_ex_walkable) (go_file go_ex) go_ex_st.
Proof. exists 9. vm_compute. reflexivity. Qed.
Example go_ex_candidates : cands go_ex_st =
  [(Statement, 35, 39, [s2t "TestA"]); (Statement, 41, 46, [s2t "TestA"]); (Statement, 55, 60, [s2t "TestA"]); (Statement, 11, 14, [s2t "TestA"]);
   (Statement, 16, 19, [s2t "TestA"]); (Statement, 22, 25, [s2t "Testify"]); (MethodCall, 42, 46, [s2t "TestA"])]%nat /\
  s_tset go_ex_st = [s2t "TestA"; s2t "Testify"].
Proof. split; vm_compute; reflexivity. Qed.
Lemma ex_none_ignored c : ~ go_ignored_call go_ex_env c /\ ~ go_ignored_method go_ex_env c.
Proof.
  split; [|intros (b & p & _ & H); discriminate]. intros [H|(b & p & _ & _ & H)]; [|discriminate].
  induction H as [c f _ _ _ H|c b p x _ _ H|c b p _ _ _ IH]; [discriminate|destruct H; discriminate|exact IH].
Qed.
Lemma ex_open u : go_open go_ex_env u.
Proof. intros _. right. split; apply ex_none_ignored. Qed.
(** The hypotheses of the theorems above, for the statements [g(x)] and [v = 2] and the call [o.m()] of [TestA], and for
    [a()] in [h]. *)
Example C64_nonvacuous :
  NoDup (tree_ids go_ex) /\ go_test go_ex (s2t "TestA") (go_at 6) /\ v_ign_test go_ex_env (s2t "TestA") = false /\
  (go_in go_ex_env (go_at 6) (go_at 10) /\ go_removable_call go_ex_env go_ex go_ex_walkable (go_at 10) /\ ~ go_last (go_at 6) (go_at 10)) /\
  (go_in go_ex_env (go_at 6) (go_at 27) /\ go_plain_statement (go_at 27) /\ ~ go_last (go_at 6) (go_at 27)) /\
  (go_in go_ex_env (go_at 6) (go_at 15) /\ go_method (go_at 15) (go_at 17) [s2t "m"] /\ (forall u, go_last (go_at 6) u -> ~ go_call_statement u (go_at 15))) /\
  (go_in go_ex_env (go_at 6) (go_at 21) /\ go_call (go_at 21) /\ go_identifier (go_at 22) (s2t "h") /\ go_local go_ex (s2t "h") (go_at 37) /\
   (forall b, go_local go_ex (s2t "h") b -> b = go_at 37) /\ go_in go_ex_env (go_at 37) (go_at 40)) /\
  kind_of (go_at 6) = s2t "block" /\ t_text (t_info (go_at 10)) = s2t "g(x)" /\ t_text (t_info (go_at 27)) = s2t "v = 2" /\
  t_text (t_info (go_at 15)) = s2t "o.m()" /\ t_text (t_info (go_at 40)) = s2t "a()".
Proof.
  assert (ND : NoDup (tree_ids go_ex)).
  { assert (H : tree_ids go_ex = List.seq 1 (length (tree_ids go_ex))) by (vm_compute; reflexivity). rewrite H. apply seq_NoDup. }
  split; [exact ND|].
  assert (FN : forall d n b, existsb (fun f => Nat.eqb (t_id (t_info (tf_decl f))) d && text_eqb (tf_name f) n && Nat.eqb (t_id (t_info (tf_body f))) b) (go_funs go_ex) = true ->
    go_function go_ex n (go_at b)).
  { intros d n b H. apply existsb_exists in H. destruct H as (f & Hf & H). apply andb_prop in H. destruct H as [H H3]. apply andb_prop in H. destruct H as [_ H2].
    apply text_eqb_eq in H2. apply Nat.eqb_eq in H3. subst n b. pose proof (go_funs_function go_ex f Hf) as HF.
    assert (go_at (t_id (t_info (tf_body f))) = tf_body f); [|rewrite H; exact HF].
    apply (same_tree go_ex ND); [apply go_at_inside|apply go_bodies_inside; exact Hf|]. unfold go_at.
    destruct (find _ (subtrees go_ex)) as [t|] eqn:F; [apply find_some in F; apply Nat.eqb_eq; apply F|].
    exfalso. pose proof (find_none _ _ F (tf_body f)) as Hno. cbn beta in Hno. rewrite Nat.eqb_refl in Hno. discriminate Hno. apply subtrees_inside. apply go_bodies_inside. exact Hf. }
  split; [split; [apply (FN 3); vm_compute; reflexivity|split; [exists (s2t "A"); reflexivity|discriminate]]|]. split; [reflexivity|].
  assert (GI : forall b k u, existsb (fun fk => Nat.eqb (t_id (t_info (snd fk))) k) (t_kids (go_at b)) = true -> k = t_id (t_info (go_at k)) -> inside (go_at k) u -> go_in go_ex_env (go_at b) u).
  { intros b k u H Hk Hu. apply existsb_exists in H. destruct H as ((f & v) & Hv & He). cbn [snd] in He. apply Nat.eqb_eq in He.
    assert (v = go_at k). { apply (same_tree go_ex ND); [eapply inside_trans; [apply (go_at_inside b)|eapply inside_kid; exact Hv]|apply go_at_inside|congruence]. }
    subst v. exists f, (go_at k). split; [exact Hv|]. clear - Hu. induction Hu; [constructor|]. econstructor; [apply ex_open|eassumption|assumption]. }
  assert (IS : forall k u, existsb (fun t => Nat.eqb (t_id (t_info t)) u) (subtrees (go_at k)) = true -> u = t_id (t_info (go_at u)) -> inside (go_at k) (go_at u)).
  { intros k u H Hu. apply existsb_exists in H. destruct H as (t & Ht & He). apply Nat.eqb_eq in He. apply subtrees_inside in Ht.
    assert (t = go_at u); [|rewrite <- H; exact Ht]. apply (same_tree go_ex ND); [eapply inside_trans; [apply (go_at_inside k)|exact Ht]|apply go_at_inside|congruence]. }
  assert (LA : forall b u v, go_last (go_at b) v -> map (fun t => t_id (t_info t)) (go_tops (go_at b)) = u -> t_id (t_info v) = last u 0%nat).
  { intros b u v (pre & H) <-. rewrite H, map_app. cbn [map]. rewrite last_last. reflexivity. }
  split.
  { split; [apply (GI 6 8 (go_at 10)); [vm_compute; reflexivity|vm_compute; reflexivity|apply IS; vm_compute; reflexivity]|]. split.
    - exists (go_at 11). split.
      + exists (go_at 11). split; [|apply gf_call; split; [reflexivity|split; [reflexivity|exists (go_at 12); vm_compute; reflexivity]]].
        split; [reflexivity|]. split; [reflexivity|]. exists [], None, []. split; [vm_compute; reflexivity|]. split; [reflexivity|intros x []].
      + split; [apply ex_none_ignored|]. intros b (_ & f & x & Hf & (_ & _ & Hx) & Hw & _).
        assert (Hg : child (s2t "function") (go_at 11) = Some (go_at 12)) by (vm_compute; reflexivity). rewrite Hg in Hf. inversion Hf; subst f x. vm_compute in Hw. discriminate.
    - intros H. pose proof (LA 6 _ _ H eq_refl) as K. vm_compute in K. discriminate. }
  split.
  { split; [apply (GI 6 8 (go_at 27)); [vm_compute; reflexivity|vm_compute; reflexivity|apply IS; vm_compute; reflexivity]|]. split.
    - split; [reflexivity|]. split; [intros K; apply kept_kind in K; vm_compute in K; destruct K; discriminate|]. split.
      + intros c (e & (_ & K & _) & _). vm_compute in K. discriminate.
      + intros f k v Hk. assert (E0 : t_kids (go_at 27) = []) by (vm_compute; reflexivity). rewrite E0 in Hk. destruct Hk.
    - intros H. pose proof (LA 6 _ _ H eq_refl) as K. vm_compute in K. discriminate. }
  split.
  { split; [apply (GI 6 8 (go_at 15)); [vm_compute; reflexivity|vm_compute; reflexivity|apply IS; vm_compute; reflexivity]|]. split.
    - split; [split; [reflexivity|split; [reflexivity|exists (go_at 16); vm_compute; reflexivity]]|]. exists (go_at 16). split; [vm_compute; reflexivity|]. split; [|discriminate].
      apply (gp_select _ (s2t "m") (go_at 17) _ []).
      + split; [split; [reflexivity|split; [reflexivity|vm_compute; reflexivity]]|]. exists (go_at 18). split; vm_compute; reflexivity.
      + apply gp_base. intros x b ((K & _) & _). vm_compute in K. discriminate.
    - intros u Hu Hc. pose proof (LA 6 _ _ Hu eq_refl) as K. apply call_statement_inside in Hc.
      assert (u = go_at 29). { apply (same_tree go_ex ND); [eapply inside_trans; [apply (go_at_inside 6)|apply last_inside; exact Hu]|apply go_at_inside|]. rewrite K. vm_compute. reflexivity. }
      subst u. apply subtrees_inside in Hc. apply (in_map (fun t => t_id (t_info t))) in Hc. vm_compute in Hc. intuition discriminate. }
  split.
  { split; [apply (GI 6 8 (go_at 21)); [vm_compute; reflexivity|vm_compute; reflexivity|apply IS; vm_compute; reflexivity]|].
    split; [split; [reflexivity|split; [reflexivity|exists (go_at 22); vm_compute; reflexivity]]|]. split; [split; [reflexivity|split; reflexivity]|].
    split; [split; [apply (FN 34); vm_compute; reflexivity|intros (r & K); discriminate]|]. split.
    - intros b Hb. destruct (go_local_locals go_ex _ _ Hb) as (f & Hf & Hn & Hbody).
      assert (A : forallb (fun f => negb (text_eqb (tf_name f) (s2t "h")) || Nat.eqb (t_id (t_info (tf_body f))) 37) (go_funs go_ex) = true) by (vm_compute; reflexivity).
      rewrite forallb_forall in A. unfold go_locals in Hf. apply filter_In in Hf. destruct Hf as [Hf _]. specialize (A f Hf). rewrite Hn, text_eqb_refl in A. cbn [negb orb] in A. apply Nat.eqb_eq in A.
      apply (same_tree go_ex ND); [rewrite <- Hbody; apply go_bodies_inside; exact Hf|apply go_at_inside|]. rewrite <- Hbody, A. vm_compute. reflexivity.
    - apply (GI 37 39 (go_at 40)); [vm_compute; reflexivity|vm_compute; reflexivity|apply IS; vm_compute; reflexivity]. }
  split; [reflexivity|]. split; [reflexivity|]. split; [reflexivity|]. split; reflexivity.
Qed.

(** [go test] takes a function for a test only if what follows "Test" in its name does not start with a lowercase letter. *)
Definition go_test_convention (n : text) : Prop :=
  exists r, n = s2t "Test" ++ r /\ forall c r', r = c :: r' -> ~ (97 <= c <= 122)%N.
(** Necessist does not make that distinction: the statements of [Testify] are candidates. *)
Theorem C64_convention_refuted : exists E root walkable st t sp, result (go_env E root walkable) (go_file root) st /\ NoDup (tree_ids root) /\
  candidate st Statement sp t /\ In t (s_tset st) /\ ~ go_test_convention t.
Proof.
  exists go_ex_env, go_ex, go_ex_walkable, go_ex_st, (s2t "Testify"), (Span xp (LC 5 22) (LC 5 25)). split; [exact go_ex_result|]. split; [apply C64_nonvacuous|].
  split; [apply lists_dec; vm_compute; reflexivity|]. split; [vm_compute; tauto|].
  intros (r & H & Hr). inversion H; subst r. apply (Hr _ _ eq_refl). vm_compute. split; discriminate.
Qed.
Print Assumptions C64_convention_refuted.

(** A file with [TestA], [h] that it calls, and [k] that [h] calls. *)
Definition ge_text : text := s2t "package p" ++ [NL] ++ s2t "func TestA(t *testing.T) { h(); z(); }" ++ [NL] ++ s2t "func h() { k(); w(); }" ++ [NL] ++ s2t "func k() { a(); o.m(); }" ++ [NL] ++ s2t "".
Definition ge : tree :=
 Tree (TI 1 (s2t "source_file") true false false false (Span xp (LC 1 0) (LC 5 0)) (ge_text)) [(None, Tree (TI 2 (s2t "package_clause") true false false false (Span xp (LC 1 0) (LC 1 9)) (s2t "package p")) []);
 (None, Tree (TI 3 (s2t "function_declaration") true false false false (Span xp (LC 2 0) (LC 2 38)) (s2t "func TestA(t *testing.T) { h(); z(); }")) [(Some (s2t "name"), Tree (TI 4 (s2t "identifier") true false false true (Span xp (LC 2 5) (LC 2 10)) (s2t "TestA")) []);
  (Some (s2t "parameters"), Tree (TI 5 (s2t "parameter_list") true false false false (Span xp (LC 2 10) (LC 2 24)) (s2t "(t *testing.T)")) []);
  (Some (s2t "body"), Tree (TI 6 (s2t "block") true false true false (Span xp (LC 2 25) (LC 2 38)) (s2t "{ h(); z(); }")) [(None, Tree (TI 7 (s2t "{") false false false false (Span xp (LC 2 25) (LC 2 26)) (s2t "{")) []);
   (None, Tree (TI 8 (s2t "statement_list") true false false false (Span xp (LC 2 27) (LC 2 36)) (s2t "h(); z();")) [(None, Tree (TI 9 (s2t "expression_statement") true false true false (Span xp (LC 2 27) (LC 2 30)) (s2t "h()")) [(None, Tree (TI 10 (s2t "call_expression") true false false true (Span xp (LC 2 27) (LC 2 30)) (s2t "h()")) [(Some (s2t "function"), Tree (TI 11 (s2t "identifier") true false false true (Span xp (LC 2 27) (LC 2 28)) (s2t "h")) []);
      (None, Tree (TI 12 (s2t "argument_list") true false false false (Span xp (LC 2 28) (LC 2 30)) (s2t "()")) [])])]);
    (None, Tree (TI 13 (s2t "expression_statement") true false true false (Span xp (LC 2 32) (LC 2 35)) (s2t "z()")) [(None, Tree (TI 14 (s2t "call_expression") true false false true (Span xp (LC 2 32) (LC 2 35)) (s2t "z()")) [(Some (s2t "function"), Tree (TI 15 (s2t "identifier") true false false true (Span xp (LC 2 32) (LC 2 33)) (s2t "z")) []);
      (None, Tree (TI 16 (s2t "argument_list") true false false false (Span xp (LC 2 33) (LC 2 35)) (s2t "()")) [])])])]);
   (None, Tree (TI 17 (s2t "}") false false false false (Span xp (LC 2 37) (LC 2 38)) (s2t "}")) [])])]);
 (None, Tree (TI 18 (s2t "function_declaration") true false false false (Span xp (LC 3 0) (LC 3 22)) (s2t "func h() { k(); w(); }")) [(Some (s2t "name"), Tree (TI 19 (s2t "identifier") true false false true (Span xp (LC 3 5) (LC 3 6)) (s2t "h")) []);
  (Some (s2t "parameters"), Tree (TI 20 (s2t "parameter_list") true false false false (Span xp (LC 3 6) (LC 3 8)) (s2t "()")) []);
  (Some (s2t "body"), Tree (TI 21 (s2t "block") true false true false (Span xp (LC 3 9) (LC 3 22)) (s2t "{ k(); w(); }")) [(None, Tree (TI 22 (s2t "{") false false false false (Span xp (LC 3 9) (LC 3 10)) (s2t "{")) []);
   (None, Tree (TI 23 (s2t "statement_list") true false false false (Span xp (LC 3 11) (LC 3 20)) (s2t "k(); w();")) [(None, Tree (TI 24 (s2t "expression_statement") true false true false (Span xp (LC 3 11) (LC 3 14)) (s2t "k()")) [(None, Tree (TI 25 (s2t "call_expression") true false false true (Span xp (LC 3 11) (LC 3 14)) (s2t "k()")) [(Some (s2t "function"), Tree (TI 26 (s2t "identifier") true false false true (Span xp (LC 3 11) (LC 3 12)) (s2t "k")) []);
      (None, Tree (TI 27 (s2t "argument_list") true false false false (Span xp (LC 3 12) (LC 3 14)) (s2t "()")) [])])]);
    (None, Tree (TI 28 (s2t "expression_statement") true false true false (Span xp (LC 3 16) (LC 3 19)) (s2t "w()")) [(None, Tree (TI 29 (s2t "call_expression") true false false true (Span xp (LC 3 16) (LC 3 19)) (s2t "w()")) [(Some (s2t "function"), Tree (TI 30 (s2t "identifier") true false false true (Span xp (LC 3 16) (LC 3 17)) (s2t "w")) []);
      (None, Tree (TI 31 (s2t "argument_list") true false false false (Span xp (LC 3 17) (LC 3 19)) (s2t "()")) [])])])]);
   (None, Tree (TI 32 (s2t "}") false false false false (Span xp (LC 3 21) (LC 3 22)) (s2t "}")) [])])]);
 (None, Tree (TI 33 (s2t "function_declaration") true false false false (Span xp (LC 4 0) (LC 4 24)) (s2t "func k() { a(); o.m(); }")) [(Some (s2t "name"), Tree (TI 34 (s2t "identifier") true false false true (Span xp (LC 4 5) (LC 4 6)) (s2t "k")) []);
  (Some (s2t "parameters"), Tree (TI 35 (s2t "parameter_list") true false false false (Span xp (LC 4 6) (LC 4 8)) (s2t "()")) []);
  (Some (s2t "body"), Tree (TI 36 (s2t "block") true false true false (Span xp (LC 4 9) (LC 4 24)) (s2t "{ a(); o.m(); }")) [(None, Tree (TI 37 (s2t "{") false false false false (Span xp (LC 4 9) (LC 4 10)) (s2t "{")) []);
   (None, Tree (TI 38 (s2t "statement_list") true false false false (Span xp (LC 4 11) (LC 4 22)) (s2t "a(); o.m();")) [(None, Tree (TI 39 (s2t "expression_statement") true false true false (Span xp (LC 4 11) (LC 4 14)) (s2t "a()")) [(None, Tree (TI 40 (s2t "call_expression") true false false true (Span xp (LC 4 11) (LC 4 14)) (s2t "a()")) [(Some (s2t "function"), Tree (TI 41 (s2t "identifier") true false false true (Span xp (LC 4 11) (LC 4 12)) (s2t "a")) []);
      (None, Tree (TI 42 (s2t "argument_list") true false false false (Span xp (LC 4 12) (LC 4 14)) (s2t "()")) [])])]);
    (None, Tree (TI 43 (s2t "expression_statement") true false true false (Span xp (LC 4 16) (LC 4 21)) (s2t "o.m()")) [(None, Tree (TI 44 (s2t "call_expression") true false false true (Span xp (LC 4 16) (LC 4 21)) (s2t "o.m()")) [(Some (s2t "function"), Tree (TI 45 (s2t "selector_expression") true false false true (Span xp (LC 4 16) (LC 4 19)) (s2t "o.m")) [(Some (s2t "operand"), Tree (TI 46 (s2t "identifier") true false false true (Span xp (LC 4 16) (LC 4 17)) (s2t "o")) []);
       (Some (s2t "field"), Tree (TI 47 (s2t "field_identifier") true false false false (Span xp (LC 4 18) (LC 4 19)) (s2t "m")) [])]);
      (None, Tree (TI 48 (s2t "argument_list") true false false false (Span xp (LC 4 19) (LC 4 21)) (s2t "()")) [])])])]);
   (None, Tree (TI 49 (s2t "}") false false false false (Span xp (LC 4 23) (LC 4 24)) (s2t "}")) [])])])].

Definition ge_env : venv := VEnv fw_go (fun _ => false) (fun _ => false) (fun _ => false) (fun _ => false) false DNone (fun _ => []) (fun _ => false) ge_text.
Definition ge_walkable (x : text) : bool := text_eqb x (s2t "h") || text_eqb x (s2t "k").
Definition ge_st : vst := st_of (go_env ge_env ge ge_walkable) (go_file ge).
Definition ge_at (i : nat) : tree := match find (fun t => Nat.eqb (t_id (t_info t)) i) (subtrees ge) with Some t => t | None => ge end.
Lemma ge_at_inside i : inside ge (ge_at i).
Proof.
  apply subtrees_inside. unfold ge_at. destruct (find _ (subtrees ge)) as [t|] eqn:F; [eapply find_some; exact F|]. left. reflexivity.
Qed.
Lemma ge_ids : NoDup (tree_ids ge).
Proof. assert (H : tree_ids ge = List.seq 1 (length (tree_ids ge))) by (vm_compute; reflexivity). rewrite H. apply seq_NoDup. Qed.
Lemma ge_fun n b : existsb (fun f => text_eqb (tf_name f) n && Nat.eqb (t_id (t_info (tf_body f))) b) (go_funs ge) = true -> go_function ge n (ge_at b).
Proof.
  intros H. apply existsb_exists in H. destruct H as (f & Hf & H). apply andb_prop in H. destruct H as [H2 H3].
  apply text_eqb_eq in H2. apply Nat.eqb_eq in H3. subst n b. pose proof (go_funs_function ge f Hf) as HF.
  assert (ge_at (t_id (t_info (tf_body f))) = tf_body f); [|rewrite H; exact HF].
  apply (same_tree ge ge_ids); [apply ge_at_inside|apply go_bodies_inside; exact Hf|]. unfold ge_at.
  destruct (find _ (subtrees ge)) as [t|] eqn:F; [apply find_some in F; apply Nat.eqb_eq; apply F|].
  exfalso. pose proof (find_none _ _ F (tf_body f)) as Hno. cbn beta in Hno. rewrite Nat.eqb_refl in Hno. discriminate Hno. apply subtrees_inside. apply go_bodies_inside. exact Hf.
Qed.
Lemma ge_open u : go_open ge_env u.
Proof.
  intros _. right. split; [|intros (b & p & _ & H); discriminate]. intros [H|(b & p & _ & _ & H)]; [|discriminate].
  induction H as [c f _ _ _ H|c b p x _ _ H|c b p _ _ _ IH]; [discriminate|destruct H; discriminate|exact IH].
Qed.
Lemma ge_in b k u : existsb (fun fk => Nat.eqb (t_id (t_info (snd fk))) k) (t_kids (ge_at b)) = true -> k = t_id (t_info (ge_at k)) ->
  existsb (fun t => Nat.eqb (t_id (t_info t)) u) (subtrees (ge_at k)) = true -> u = t_id (t_info (ge_at u)) -> go_in ge_env (ge_at b) (ge_at u).
Proof.
  intros H Hk H' Hu'. assert (Hu : inside (ge_at k) (ge_at u)).
  { apply existsb_exists in H'. destruct H' as (t & Ht & He). apply Nat.eqb_eq in He. apply subtrees_inside in Ht.
    assert (t = ge_at u); [|rewrite <- H0; exact Ht]. apply (same_tree ge ge_ids); [eapply inside_trans; [apply (ge_at_inside k)|exact Ht]|apply ge_at_inside|congruence]. }
  apply existsb_exists in H. destruct H as ((f & v) & Hv & He). cbn [snd] in He. apply Nat.eqb_eq in He.
  assert (v = ge_at k). { apply (same_tree ge ge_ids); [eapply inside_trans; [apply (ge_at_inside b)|eapply inside_kid; exact Hv]|apply ge_at_inside|congruence]. }
  subst v. exists f, (ge_at k). split; [exact Hv|]. clear - Hu. induction Hu; [constructor|]. econstructor; [apply ge_open|eassumption|assumption].
Qed.
Lemma ge_one n k : forallb (fun f => negb (text_eqb (tf_name f) n) || Nat.eqb (t_id (t_info (tf_body f))) k) (go_funs ge) = true -> k = t_id (t_info (ge_at k)) ->
  forall b, go_local ge n b -> b = ge_at k.
Proof.
  intros A Hk b Hb. destruct (go_local_locals ge _ _ Hb) as (f & Hf & Hn & Hbody).
  rewrite forallb_forall in A. unfold go_locals in Hf. apply filter_In in Hf. destruct Hf as [Hf _]. specialize (A f Hf). rewrite Hn, text_eqb_refl in A. cbn [negb orb] in A. apply Nat.eqb_eq in A.
  apply (same_tree ge ge_ids); [rewrite <- Hbody; apply go_bodies_inside; exact Hf|apply ge_at_inside|]. rewrite <- Hbody, A. exact Hk.
Qed.
(** The hypotheses of C78_go_statements, for [a()] in [k]; of C78_go_method_calls, for [o.m()]. *)
Example C78_go_nonvacuous :
  NoDup (tree_ids ge) /\ result (go_env ge_env ge ge_walkable) (go_file ge) ge_st /\ go_entered ge_env ge ge_walkable (ge_at 36) /\
  (go_in ge_env (ge_at 36) (ge_at 39) /\ go_removable_call ge_env ge ge_walkable (ge_at 39) /\ t_text (t_info (ge_at 39)) = s2t "a()") /\
  (go_in ge_env (ge_at 36) (ge_at 44) /\ go_method (ge_at 44) (ge_at 46) [s2t "m"] /\ ~ go_ignored_call ge_env (ge_at 44) /\ ~ go_ignored_method ge_env (ge_at 44) /\
   method_span ge_env (t_span (t_info (ge_at 44))) (t_span (t_info (ge_at 46))) = Some (Span xp (LC 4 17) (LC 4 21))) /\
  cands ge_st = [(Statement, 16, 19, [s2t "TestA"]); (Statement, 11, 14, [s2t "TestA"]); (Statement, 16, 21, [s2t "TestA"]); (MethodCall, 17, 21, [s2t "TestA"])]%nat.
Proof.
  assert (NI : forall c, ~ go_ignored_call ge_env c /\ ~ go_ignored_method ge_env c).
  { intros c. split; [|intros (b & p & _ & H); discriminate]. intros [H|(b & p & _ & _ & H)]; [|discriminate].
    induction H as [c f _ _ _ H|c b p x _ _ H|c b p _ _ _ IH]; [discriminate|destruct H; discriminate|exact IH]. }
  assert (CA : forall i f, kind_of (ge_at i) = s2t "call_expression" -> t_stmt (t_info (ge_at i)) = false -> child (s2t "function") (ge_at i) = Some (ge_at f) -> go_call (ge_at i)).
  { intros i f K X C. split; [exact K|]. split; [exact X|]. eexists. exact C. }
  split; [exact ge_ids|]. split; [exists 9%nat; vm_compute; reflexivity|]. split.
  { apply gd_call with (b := ge_at 21); [apply gd_test with (t := s2t "TestA") (b := ge_at 6)|].
    - split; [apply ge_fun; vm_compute; reflexivity|]. split; [exists (s2t "A"); reflexivity|discriminate].
    - reflexivity.
    - exists (ge_at 10), (ge_at 11), (s2t "h"). split; [apply (ge_in 6 8 10); vm_compute; reflexivity|]. split; [apply (CA 10 11)%nat; vm_compute; reflexivity|].
      split; [vm_compute; reflexivity|]. split; [split; [reflexivity|split; reflexivity]|]. split; [reflexivity|]. split; [split; [apply ge_fun; vm_compute; reflexivity|intros (r & K); discriminate]|].
      apply ge_one; vm_compute; reflexivity.
    - exists (ge_at 25), (ge_at 26), (s2t "k"). split; [apply (ge_in 21 23 25); vm_compute; reflexivity|]. split; [apply (CA 25 26)%nat; vm_compute; reflexivity|].
      split; [vm_compute; reflexivity|]. split; [split; [reflexivity|split; reflexivity]|]. split; [reflexivity|]. split; [split; [apply ge_fun; vm_compute; reflexivity|intros (r & K); discriminate]|].
      apply ge_one; vm_compute; reflexivity. }
  split.
  { split; [apply (ge_in 36 38 39); vm_compute; reflexivity|]. split; [|reflexivity]. exists (ge_at 40). split.
    - exists (ge_at 40). split; [|apply gf_call; apply (CA 40 41)%nat; vm_compute; reflexivity].
      split; [reflexivity|]. split; [reflexivity|]. exists [], None, []. split; [vm_compute; reflexivity|]. split; [reflexivity|intros x []].
    - split; [apply NI|]. intros b (_ & f & x & Hf & (_ & _ & Hx) & Hw & _).
      assert (Hg : child (s2t "function") (ge_at 40) = Some (ge_at 41)) by (vm_compute; reflexivity). rewrite Hg in Hf. inversion Hf; subst f x. vm_compute in Hw. discriminate. }
  split; [|vm_compute; reflexivity].
  split; [apply (ge_in 36 38 44); vm_compute; reflexivity|]. split; [|split; [apply NI|split; [apply NI|vm_compute; reflexivity]]].
  split; [apply (CA 44 45)%nat; vm_compute; reflexivity|]. exists (ge_at 45). split; [vm_compute; reflexivity|]. split; [|discriminate].
  apply (gp_select _ (s2t "m") (ge_at 46) _ []).
  - split; [split; [reflexivity|split; [reflexivity|vm_compute; reflexivity]]|]. exists (ge_at 47). split; vm_compute; reflexivity.
  - apply gp_base. intros x b ((K & _) & _). vm_compute in K. discriminate.
Qed.

(** The vocabulary of trees: [child field t] is the first child that the grammar gives the field [field]. *)
Theorem C64_child : forall field t c,
  child field t = Some c <-> exists before after, t_kids t = before ++ (Some field, c) :: after /\ forall d, ~ In (Some field, d) before.
Proof.
  intros field t c. unfold child. generalize (t_kids t). intros l. induction l as [|[f d] l IH]; cbn [find].
  - split; [discriminate|]. intros (b & a & E & _). destruct b; discriminate.
  - unfold has_field at 1. cbn [fst]. destruct f as [f|]; [destruct (text_eqb f field) eqn:Q|].
    + apply text_eqb_eq in Q. subst f. cbn [snd]. split.
      * intros H. injection H as <-. exists [], l. split; [reflexivity|intros x []].
      * intros (b & a & E & N). destruct b as [|x b]; [injection E as -> _; reflexivity|]. injection E as <- _. destruct (N d). left. reflexivity.
    + apply text_eqb_neq in Q. rewrite IH. split.
      * intros (b & a & -> & N). exists ((Some f, d) :: b), a. split; [reflexivity|]. intros x [H|H]; [injection H as -> _; congruence|exact (N x H)].
      * intros (b & a & E & N). destruct b as [|x b]; [injection E as -> _ _; congruence|]. injection E as <- ->. exists b, a. split; [reflexivity|]. intros y Y. apply (N y). right. exact Y.
    + rewrite IH. split.
      * intros (b & a & -> & N). exists ((None, d) :: b), a. split; [reflexivity|]. intros x [H|H]; [discriminate|exact (N x H)].
      * intros (b & a & E & N). destruct b as [|x b]; [discriminate|]. injection E as <- ->. exists b, a. split; [reflexivity|]. intros y Y. apply (N y). right. exact Y.
Qed.
Print Assumptions C64_child.
