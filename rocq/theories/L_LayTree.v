(** Go and PHP trees are drawn from their syntax trees (see [L_Layout]). *)
From Verif Require Import Base M_Text S_Text M_Rewriter M_Span M_Run M_Options M_Visitor S_Visitor S_Walk M_Parsing M_Directives M_Tree S_Tree L_Tree P_GoTree P_Php S_Placed S_Layout L_Layout M_Lang S_Lang.

Definition none (n : node) : Prop := False.

Section Trees.
Context (cls : option tinfo -> tree -> tclass) (CO : class_ok cls) (stmt : option tinfo -> tree -> bool).
Hypothesis CS : forall q t c d e, cls q t = CStmt c d e -> stmt q t = true.
Notation tg := (tree_geo stmt).
Notation tn := (ts_node cls).

Lemma tg_span q t : g_span (tg q t) = t_span (t_info t). Proof. destruct t; reflexivity. Qed.
Lemma tg_stmt q t : g_stmt (tg q t) = stmt q t. Proof. destruct t; reflexivity. Qed.
Lemma tg_kid q t f u : In (f, u) (t_kids t) -> In (tg (Some (t_info t)) u) (g_kids (tg q t)).
Proof. destruct t as [a ks]. intros I. cbn. apply in_map_iff. exists (f, u). split; [reflexivity|exact I]. Qed.
Lemma tg_kid_part q t f u : In (f, u) (t_kids t) -> part (tg q t) (tg (Some (t_info t)) u).
Proof. intros I. eapply part_kid; [exact (tg_kid q t f u I)|constructor]. Qed.
Lemma tg_inside q t u : inside t u -> exists q', part (tg q t) (tg q' u).
Proof.
  intros H. revert q. induction H as [t|a ks f k u I _ IH]; intros q; [exists q; constructor|].
  destruct (IH (Some a)) as [q' P]. exists q'. eapply part_kid; [|exact P]. exact (tg_kid q (Tree a ks) f k I).
Qed.

Lemma ts_drawn t : forall q, drawn none (tn q t) (tg q t).
Proof.
  induction t as [a ks IH] using tree_ind'. intros q. rewrite Forall_forall in IH. constructor.
  - intros _. rewrite (ts_span cls CO), tg_span. reflexivity.
  - intros (r & c & d & e & K & _). split; [intros []|]. rewrite tg_stmt.
    destruct (ts_shape cls CO q (Tree a ks)) as [c0 d0 j e0 r0 C T|c0 d0 C|x j e0 r0 C T|x j e0 r0 C T|x j e0 r0 C T|x C|C]; try discriminate K; exact (CS _ _ _ _ _ C).
  - assert (KN : forall k, In k (kids_nodes cls (Tree a ks)) -> exists u, part (tg q (Tree a ks)) u /\ drawn none k u).
    { intros k I. apply in_kids_nodes in I as (f & u & I & ->). exists (tg (Some a) u). split; [exact (tg_kid_part q (Tree a ks) f u I)|]. exact (IH (f, u) I (Some a)). }
    intros k I. destruct (ts_kids cls CO q (Tree a ks) k I) as [Ik|(x & j & u & C & -> & f & N)]; [exact (KN k Ik)|].
    exists (tg q (Tree a ks)). split; [constructor|]. constructor.
    + intros _. rewrite tg_span. reflexivity.
    + intros (r & c & d & e & K & _). discriminate K.
    + intros h [<-|[]]. apply KN. apply in_kids_nodes. exists f, u. split; [exact (nth_error_In _ _ N)|reflexivity].
    + intros _. split; [intros []|intros h _ []].
  - intros _. split; [intros []|intros h _ []].
Qed.
(** A group of nodes drawn from parts of [t], standing where [t] does. *)
Lemma group_drawn i k sp ns t : (forall a b c d, k <> KStmt a b c d) -> sp = g_span t -> (forall n, In n ns -> exists u, part t u /\ drawn none n u) -> drawn none (tnode i k sp ns) t.
Proof.
  intros NK -> H. constructor.
  - reflexivity.
  - intros (r & c & d & e & K & _). destruct (NK _ _ _ _ K).
  - exact H.
  - intros _. split; [intros []|intros h _ []].
Qed.
Lemma body_part q f : (exists x, In (x, tf_body f) (t_kids (tf_decl f))) -> part (tg q (tf_decl f)) (tg (Some (t_info (tf_decl f))) (tf_body f)).
Proof. intros [x I]. exact (tg_kid_part q _ x _ I). Qed.
Lemma pair_drawn b pt q : (exists q' v, inside b v /\ part (tg q b) (tg q' v) /\ exists x, In (x, snd pt) (t_kids v) /\ fst pt = Some (t_info v)) ->
  exists u, part (tg q b) u /\ drawn none (tn (fst pt) (snd pt)) u.
Proof.
  intros (q' & v & _ & P & x & I & ->). exists (tg (Some (t_info v)) (snd pt)). split; [|apply ts_drawn].
  eapply part_trans; [exact P|]. exact (tg_kid_part q' v x _ I).
Qed.
End Trees.

Lemma body_of K N B d n b : declares K N B d n b -> exists x, In (x, b) (t_kids d).
Proof. intros (_ & H & _). exact (child_in _ _ _ H). Qed.
Lemma go_stmt_class q t c d e : go_class q t = CStmt c d e -> t_stmt (t_info t) = true.
Proof.
  unfold go_class. destruct (t_stmt (t_info t)); [reflexivity|]. destruct (text_eqb _ _); [destruct (child_index _ t); discriminate|].
  destruct (text_eqb _ _); [destruct (child_index _ t); discriminate|]. destruct (text_eqb _ _); discriminate.
Qed.
Lemma php_stmt_class q t c d e : php_class q t = CStmt c d e -> php_statement q t = true.
Proof.
  unfold php_class. destruct (php_statement q t); [reflexivity|]. destruct (text_eqb _ _); [destruct (child_index _ t); discriminate|].
  destruct (mem_text _ _); [destruct (child_index _ t); discriminate|]. destruct (mem_text _ _); [destruct (child_index _ t); discriminate|].
  destruct (mem_text _ _); discriminate.
Qed.

Lemma in_by_name {A} (name : A -> text) (view : A -> node) l x fs g : In (x, fs) (by_name name view l) -> In g fs -> exists h, In h l /\ g = view h /\ name h = x.
Proof.
  unfold by_name. intros I J. apply in_map_iff in I as (f & E & _). injection E as <- <-. apply in_map_iff in J as (h & <- & J).
  apply filter_In in J as [J T]. apply text_eqb_eq in T. eauto.
Qed.
Lemma singleton_among t u : part t u -> part_among [t] u.
Proof. intros P. exists t. split; [left; reflexivity|exact P]. Qed.
Lemma no_stmt_group a b c d : KGroup <> KStmt a b c d. Proof. discriminate. Qed.
Lemma no_stmt_test n m a b c d : KTest n m <> KStmt a b c d. Proof. discriminate. Qed.

(** The nodes that stand for functions, given what the test's statements and the rest of its body are. *)
Section Funs.
Context (cls : option tinfo -> tree -> tclass) (CO : class_ok cls) (stmt : option tinfo -> tree -> bool).
Hypothesis CS : forall q t c d e, cls q t = CStmt c d e -> stmt q t = true.
Context (stmts rest : tree -> list (option tinfo * tree)).
Hypothesis SR : forall b pt, In pt (stmts b) \/ In pt (rest b) -> exists v x, inside b v /\ In (x, snd pt) (t_kids v) /\ fst pt = Some (t_info v).
Lemma test_drawn q f : (exists x, In (x, tf_body f) (t_kids (tf_decl f))) -> drawn none (test_node cls stmts rest f) (tree_geo stmt q (tf_decl f)).
Proof.
  intros B. pose proof (body_part stmt q f B) as PB. set (qb := Some (t_info (tf_decl f))) in *.
  assert (X : forall i l, (forall pt, In pt l -> In pt (stmts (tf_body f)) \/ In pt (rest (tf_body f))) ->
     drawn none (tnode i KGroup (t_span (t_info (tf_body f))) (map (fun pt => ts_node cls (fst pt) (snd pt)) l)) (tree_geo stmt qb (tf_body f))).
  { intros i l H. apply group_drawn; [apply no_stmt_group|symmetry; apply tg_span|]. intros n I. apply in_map_iff in I as (pt & <- & I).
    destruct (SR _ _ (H pt I)) as (v & x & IN & I' & E). destruct (tg_inside stmt qb _ _ IN) as [q' P].
    exists (tree_geo stmt (fst pt) (snd pt)). split; [|apply ts_drawn; assumption]. rewrite E. eapply part_trans; [exact P|]. exact (tg_kid_part stmt q' v x _ I'). }
  unfold test_node. apply group_drawn; [apply no_stmt_test|symmetry; apply tg_span|].
  intros n [<-|[<-|[]]]; exists (tree_geo stmt qb (tf_body f)); (split; [exact PB|]); apply X; auto.
Qed.
Lemma body_drawn q f : (exists x, In (x, tf_body f) (t_kids (tf_decl f))) -> exists u, part (tree_geo stmt q (tf_decl f)) u /\ drawn none (body_node cls f) u.
Proof.
  intros B. pose proof (body_part stmt q f B) as PB. eexists. split; [exact PB|]. unfold body_node. apply group_drawn; [apply no_stmt_group|symmetry; apply tg_span|].
  intros n I. apply in_map_iff in I as ([x u] & <- & I). exists (tree_geo stmt (Some (t_info (tf_body f))) u). split; [exact (tg_kid_part stmt _ _ x u I)|]. apply ts_drawn; assumption.
Qed.
End Funs.

Lemma go_pairs b pt : In pt (go_stmts b) \/ In pt (go_rest b) -> exists v x, inside b v /\ In (x, snd pt) (t_kids v) /\ fst pt = Some (t_info v).
Proof.
  assert (K : forall f v, In (f, v) (t_kids b) -> inside b v) by (intros f v I; eapply inside_kid; exact I).
  intros [H|H]; apply in_flat_map in H as ([f v] & I & H); cbn [snd] in H; destruct (go_list v).
  - apply filter_In in H as [H _]. unfold kids_in in H. apply in_map_iff in H as ([x u] & <- & H). exists v, x. split; [exact (K f v I)|]. split; [exact H|reflexivity].
  - destruct H.
  - apply filter_In in H as [H _]. unfold kids_in in H. apply in_map_iff in H as ([x u] & <- & H). exists v, x. split; [exact (K f v I)|]. split; [exact H|reflexivity].
  - destruct H as [<-|[]]. exists b, f. split; [constructor|]. split; [exact I|reflexivity].
Qed.
Lemma php_pairs b pt : In pt (php_stmts b) \/ In pt (php_rest b) -> exists v x, inside b v /\ In (x, snd pt) (t_kids v) /\ fst pt = Some (t_info v).
Proof. destruct pt as [p u]. intros H. destruct (kids_parent b p u H) as [-> [x I]]. exists b, x. split; [constructor|]. split; [exact I|reflexivity]. Qed.

(** Go and PHP files are read properly. *)
Lemma go_proper p contents t : placed p contents [go_geo t] -> proper fw_go p contents (go_pfile t).
Proof.
  intros PL. assert (CS := fun q t c d e (H : go_class q t = CStmt c d e) => go_stmt_class q t c d e H).
  assert (FP : forall f, In f (go_funs t) -> exists q, part (go_geo t) (tree_geo (fun _ t => t_stmt (t_info t)) q (tf_decl f)) /\ exists x, In (x, tf_body f) (t_kids (tf_decl f))).
  { intros f I. apply go_funs_spec in I as [I D]. destruct (tg_inside (fun _ t => t_stmt (t_info t)) None t _ I) as [q P]. exists q. split; [exact P|exact (body_of _ _ _ _ _ _ D)]. }
  apply (drawn_proper none p contents [go_geo t] fw_go (go_pfile t) PL).
  - intros E HE. assert (X : fw_expr_kids (v_fw E) = true) by (rewrite HE; reflexivity). split.
    + cbn [go_pfile pf_root]. unfold go_file, tnode. cbn [well_formed l_kind andb]. apply forallb_forall. intros n Hn. apply in_map_iff in Hn. destruct Hn as (f & <- & _).
      unfold go_test_node, test_node, tnode. cbn [well_formed l_kind andb forallb]. rewrite Bool.andb_true_r. apply andb_true_intro.
      split; apply forallb_forall; intros n Hn; apply in_map_iff in Hn; destruct Hn as (pt & <- & _); apply ts_wf; exact X || exact go_ok.
    + intros name fs g I J. destruct (in_by_name _ _ _ _ _ _ I J) as (h & _ & -> & _). unfold body_node, tnode. cbn [well_formed l_kind andb]. apply forallb_forall. intros n Hn.
      apply in_map_iff in Hn. destruct Hn as (pt & <- & _). apply ts_wf; exact X || exact go_ok.
  - left. exists (go_geo t). split; [apply singleton_among; constructor|]. cbn [go_pfile pf_root]. unfold go_file. apply group_drawn; [apply no_stmt_group|symmetry; apply tg_span|].
    intros n I. apply in_map_iff in I as (f & <- & I). unfold go_tests in I. apply filter_In in I as [I _]. destruct (FP f I) as (q & P & B).
    eexists. split; [exact P|]. unfold go_test_node. apply test_drawn; [exact go_ok|exact CS|exact go_pairs|exact B].
  - intros name fs g I J. left. destruct (in_by_name _ _ _ _ _ _ I J) as (f & If & -> & _). unfold go_locals in If. apply filter_In in If as [If _]. destruct (FP f If) as (q & P & B).
    destruct (body_drawn go_class go_ok _ CS q f B) as (u & Pu & Du). exists u. split; [|exact Du]. apply singleton_among. exact (part_trans _ _ _ P Pu).
Qed.
Lemma php_proper p contents t : placed p contents [php_geo t] -> proper fw_php p contents (php_pfile t).
Proof.
  intros PL. assert (CS := fun q t c d e (H : php_class q t = CStmt c d e) => php_stmt_class q t c d e H).
  apply (drawn_proper none p contents [php_geo t] fw_php (php_pfile t) PL).
  - intros E HE. assert (X : fw_expr_kids (v_fw E) = true) by (rewrite HE; reflexivity). split; [|intros name fs g []].
    cbn [php_pfile pf_root]. unfold php_file, tnode. cbn [well_formed l_kind andb]. apply forallb_forall. intros n Hn. apply in_map_iff in Hn. destruct Hn as (f & <- & _).
    unfold php_test_node, test_node, tnode. cbn [well_formed l_kind andb forallb]. rewrite Bool.andb_true_r. apply andb_true_intro.
    split; apply forallb_forall; intros n Hn; apply in_map_iff in Hn; destruct Hn as (pt & <- & _); apply ts_wf; exact X || exact php_ok.
  - left. exists (php_geo t). split; [apply singleton_among; constructor|]. cbn [php_pfile pf_root]. unfold php_file. apply group_drawn; [apply no_stmt_group|symmetry; apply tg_span|].
    intros n I. apply in_map_iff in I as (f & <- & I). unfold php_tests in I. apply filter_In in I as [I _]. apply query_spec in I as [I D].
    destruct (tg_inside php_statement None t _ I) as [q P]. eexists. split; [exact P|]. unfold php_test_node. apply test_drawn; [exact php_ok|exact CS|exact php_pairs|exact (body_of _ _ _ _ _ _ D)].
  - intros name fs g [].
Qed.
