(** The walk over a file in which code stands elsewhere (for C87). *)
From Verif Require Import Base M_Text S_Text M_Rewriter M_Span S_Span L_Span M_Run S_Run M_Visitor S_Visitor S_Walk S_Candidates L_Visitor L_VisitorMaps S_Move.
From Coq Require Import List Lia.
Local Open Scope list_scope.

Lemma field_base_kind e b p : field_path e b p -> forall x, n_kind b <> KField (Some x).
Proof. induction 1 as [e N|l x b r base p K F IH]; auto. Qed.
Lemma within_trans a b c : within a b -> within b c -> within a c.
Proof. induction 1 as [|n k m I _ IH]; [auto|]. intros H. econstructor; eauto. Qed.

Section Move.
Variable phi : span -> span.
Variables E E' : venv.
Hypothesis MV : moves phi E E'.
Hypothesis KO : keeps_order phi.
Notation mv := (moved phi).
Notation hid := (fun s => v_skip E' (phi s)).
Notation ml := (moved_list phi hid).
Notation mm := (moved_maps phi hid).

Lemma mv_kids n : n_kids (mv n) = map mv (n_kids n). Proof. destruct n; reflexivity. Qed.
Lemma mv_kind n : n_kind (mv n) = n_kind n. Proof. destruct n; reflexivity. Qed.
Lemma mv_span n : n_span (mv n) = phi (n_span n). Proof. destruct n; reflexivity. Qed.
Lemma mv_id n : n_id (mv n) = n_id n. Proof. destruct n; reflexivity. Qed.

Lemma shape_moved : forall a b, shape_eqb (mv a) (mv b) = shape_eqb a b.
Proof.
  induction a as [l ks IH] using node_ind'. intros [l' ks']. cbn [moved shape_eqb l_kind l_text]. f_equal.
  revert ks'. induction IH as [|k ks Hk _ IHks]; intros [|k' ks']; try reflexivity. cbn [map]. rewrite Hk, IHks. reflexivity.
Qed.
Lemma same_moved a b : same E' (mv a) (mv b) = same E a b.
Proof. unfold same. rewrite (mv_framework _ _ _ MV), shape_moved, !mv_id. reflexivity. Qed.

Lemma expr_name_moved e : expr_name E' (mv e) = expr_name E e.
Proof. unfold expr_name. rewrite mv_kind, (mv_framework _ _ _ MV). reflexivity. Qed.
Lemma head_moved : forall e, head_is_call (mv e) = head_is_call e.
Proof.
  induction e as [l ks IH] using node_ind'. cbn [moved head_is_call l_kind]. destruct (l_kind l); try reflexivity; destruct IH as [|k ks Hk _]; cbn [map]; auto.
Qed.
Lemma stmt_call_moved s : statement_is_call (mv s) = statement_is_call s.
Proof. unfold statement_is_call. rewrite mv_kind, mv_kids. destruct (n_kind s) as [? ? ? []| | | | | | | | ]; try reflexivity. destruct (n_kids s); cbn [map]; [reflexivity|apply head_moved]. Qed.
Lemma ign_moved o : ignored_function E' o = ignored_function E o.
Proof. destruct o; [apply (mv_functions _ _ _ MV)|reflexivity]. Qed.

(** *** The maps *)
Lemma ml_hidden s ts m : hid s = true -> ml (map_add s ts m) = ml m.
Proof.
  intros H. induction m as [|[s' ts'] m IH]; cbn [map_add].
  - unfold moved_list. cbn [filter fst]. rewrite H. reflexivity.
  - destruct (span_compare s s') eqn:C.
    + apply span_compare_eq in C. subst s'. unfold moved_list. cbn [filter fst]. rewrite H. reflexivity.
    + unfold moved_list. cbn [filter fst]. rewrite H. reflexivity.
    + unfold moved_list in *. cbn [filter fst]. destruct (hid s'); cbn [negb map]; rewrite IH; reflexivity.
Qed.
Lemma asc_above s l : ascending (s :: l) -> forall x, In x l -> span_lt s x.
Proof.
  revert s. induction l as [|y l IH]; intros s H x I; [destruct I|]. destruct H as [H1 H2]. destruct I as [<-|I]; [exact H1|].
  unfold span_lt in *. eapply span_compare_trans; [exact H1|]. exact (IH y H2 x I).
Qed.
Lemma asc_rest s l : ascending (s :: l) -> ascending l. Proof. destruct l; [intros; exact I|]. intros [_ H]. exact H. Qed.
Lemma add_front s ts l : (forall x, In x (map fst l) -> span_lt s x) -> map_add s ts l = (s, iset_adds ts []) :: l.
Proof. destruct l as [|[s' ts'] l]; intros H; [reflexivity|]. cbn [map_add]. assert (L : span_lt s s') by (apply H; left; reflexivity). unfold span_lt in L. rewrite L. reflexivity. Qed.
Lemma ml_add s ts m : hid s = false -> ascending (map fst m) -> ml (map_add s ts m) = map_add (phi s) ts (ml m).
Proof.
  intros H. induction m as [|[s' ts'] m IH]; intros A; cbn [map_add].
  - unfold moved_list. cbn [filter fst map_add map]. rewrite H. reflexivity.
  - cbn [map fst] in A. destruct (span_compare s s') eqn:C.
    + apply span_compare_eq in C. subst s'. unfold moved_list. cbn [filter fst]. rewrite H. cbn [negb map fst snd map_add].
      rewrite (proj2 (span_compare_eq (phi s) (phi s)) eq_refl). reflexivity.
    + rewrite (add_front (phi s)).
      * unfold moved_list. cbn [filter fst]. rewrite H. cbn [negb map fst snd]. reflexivity.
      * intros x I. unfold moved_list in I. rewrite map_map in I. cbn [fst] in I. apply in_map_iff in I as ((y & us) & <- & I). cbn [fst]. apply filter_In in I as [I _].
        unfold span_lt. rewrite KO. destruct I as [I|I]; [injection I as <- _; exact C|].
        pose proof (asc_above s' (map fst m) A y (in_map fst _ _ I)) as L. eapply span_compare_trans; [exact C|exact L].
    + specialize (IH (asc_rest _ _ A)). unfold moved_list in *. cbn [filter fst]. destruct (hid s'); cbn [negb map fst snd].
      * exact IH.
      * cbn [map_add]. rewrite KO, C. rewrite IH. reflexivity.
Qed.

(** *** States *)
Definition smap (st : vst) : vst :=
  VSt (s_tests st) (option_map mv (s_last st)) (s_leaves st) (s_before st) (option_map mv (s_call st)) (s_tset st) (mm (s_maps st))
      (map (fun x => (mv (fst x), snd x)) (s_pend st)) (map mv (s_ret st)) (s_warn st).
Definition pmap (x : vst * bool) : vst * bool := (smap (fst x), snd x).

Lemma register_moved sp k st : vok st -> register_span E' (phi sp) k (smap st) = option_map smap (register_span E sp k st).
Proof.
  intros [_ [V1 _] [V2 _] _]. unfold register_span. cbn [smap s_tests s_maps]. destruct (negb (is_nil (s_tests st))); [|reflexivity]. cbn [guard obind].
  destruct (v_skip E sp) eqn:S1.
  - rewrite (mv_skip _ _ _ MV _ S1). reflexivity.
  - destruct (v_skip E' (phi sp)) eqn:S2.
    + cbn [option_map]. f_equal. unfold smap. cbn [set_maps s_tests s_last s_leaves s_before s_call s_tset s_maps s_pend s_ret s_warn].
      destruct k; unfold moved_maps; cbn [stm_statement stm_method]; rewrite (ml_hidden sp) by exact S2; reflexivity.
    + cbn [option_map]. f_equal. unfold smap, set_maps. cbn [s_tests s_last s_leaves s_before s_call s_tset s_maps s_pend s_ret s_warn].
      destruct k; unfold moved_maps; cbn [stm_statement stm_method]; rewrite (ml_add sp) by assumption; reflexivity.
Qed.
Lemma is_last_moved st s : is_last E' (smap st) (mv s) = is_last E st s.
Proof. unfold is_last. cbn [smap s_last]. destruct (s_last st); cbn [option_map]; [apply same_moved|reflexivity]. Qed.
Lemma removable_moved s : removable (mv s) = removable s. Proof. unfold removable. rewrite mv_kind. reflexivity. Qed.
Lemma control_moved s : control (mv s) = control s. Proof. unfold control. rewrite mv_kind. reflexivity. Qed.
Lemma declaration_moved s : declaration (mv s) = declaration s. Proof. unfold declaration. rewrite mv_kind. reflexivity. Qed.

Lemma vmm_moved sp ic im imet st : vok st ->
  visit_maybe_macro_call E' (phi sp) ic im imet (smap st) = option_map pmap (visit_maybe_macro_call E sp ic im imet st).
Proof.
  intros V. unfold visit_maybe_macro_call. change (set_call None (smap st)) with (smap (set_call None st)).
  assert (V0 : vok (set_call None st)) by (apply vok_call, V). set (st0 := set_call None st) in *.
  replace (match s_call (smap st) with Some s => removable s && negb (is_last E' (smap st0) s) | None => true end)
    with (match s_call st with Some s => removable s && negb (is_last E st0 s) | None => true end)
    by (cbn [smap s_call]; destruct (s_call st); cbn [option_map]; [rewrite removable_moved, is_last_moved|]; reflexivity).
  cbn [smap s_tests]. destruct (negb (is_nil (s_tests st0)) && _); [|reflexivity].
  assert (R1 : (match s_call (smap st) with Some s => if negb ic then register_span E' (n_span s) Statement (smap st0) else Some (smap st0) | None => Some (smap st0) end)
    = option_map smap (match s_call st with Some s => if negb ic then register_span E (n_span s) Statement st0 else Some st0 | None => Some st0 end)).
  { cbn [smap s_call]. destruct (s_call st) as [s|]; cbn [option_map]; [|reflexivity]. destruct (negb ic); [|reflexivity]. rewrite mv_span. apply register_moved, V0. }
  cbn [smap s_call] in R1. cbn [smap s_call]. fold (smap st0). fold (smap st0) in R1. rewrite R1.
  destruct (match s_call st with Some s => if negb ic then register_span E (n_span s) Statement st0 else Some st0 | None => Some st0 end) as [st1|] eqn:H1; [|reflexivity].
  cbn [option_map obind].
  assert (V1 : vok st1).
  { destruct (s_call st); [destruct (negb ic)|]; try (injection H1 as <-; exact V0). eapply vok_register; eassumption. }
  assert (R2 : (if negb ic && im && negb imet then register_span E' (phi sp) MethodCall (smap st1) else Some (smap st1))
    = option_map smap (if negb ic && im && negb imet then register_span E sp MethodCall st1 else Some st1)).
  { destruct (negb ic && im && negb imet); [|reflexivity]. apply register_moved, V1. }
  rewrite R2. destruct (if negb ic && im && negb imet then register_span E sp MethodCall st1 else Some st1); [|reflexivity].
  cbn [option_map obind pmap fst snd]. unfold pmap. cbn [fst snd]. rewrite (mv_arguments _ _ _ MV). reflexivity.
Qed.

(** *** Calls *)
Definition cmap (c : call_info) : call_info := CI (phi (ci_span c)) (ci_method c) (ci_ignored c) (ci_nested c).
Definition fit (cs bs : span) : Prop := method_span E' (phi cs) (phi bs) = option_map phi (method_span E cs bs).

Lemma info_moved cs bs path rec : fit cs bs -> method_info E' (phi cs) (phi bs) path rec = option_map cmap (method_info E cs bs path rec).
Proof. intros F. unfold method_info. rewrite F. destruct (method_span E cs bs); cbn [option_map obind]; [|reflexivity]. rewrite (mv_methods _ _ _ MV). reflexivity. Qed.

Lemma ci_moved : forall k base inn rec cs path, (nsize base < k)%nat -> (forall b p, field_path base b p -> fit cs (n_span b)) -> calls_move phi E E' base ->
  call_info_inner E' inn rec (phi cs) path (mv base) = option_map cmap (call_info_inner E inn rec cs path base).
Proof.
  induction k as [|k IH]; [lia|]. intros [l ks] inn rec cs path L F C. cbn [moved call_info_inner l_kind l_span].
  assert (B : (forall x, l_kind l <> KField (Some x)) -> fit cs (l_span l)).
  { intros N. apply (F (Node l ks) []). constructor. exact N. }
  destruct (l_kind l) as [r0 c0 d0 e0| |[n|]|h nm|nm|nm|nm bi| |] eqn:K; try (apply info_moved; apply B; intros x; discriminate).
  - destruct ks as [|b r]; [reflexivity|]. cbn [map]. apply IH.
    + pose proof (nsize_kid l (b :: r) b (or_introl eq_refl)). lia.
    + intros b0 p FP. apply (F b0 (p ++ [n])). econstructor; eassumption.
    + intros c b0 p W M. apply (C c b0 p); [|exact M]. eapply wi_kid; [left; reflexivity|exact W].
  - destruct inn; [|apply info_moved; apply B; intros x; discriminate].
    destruct ks as [|[lc [|b r]] args]; cbn [map moved l_kind]; try (cbn [option_map cmap ci_span ci_method ci_ignored ci_nested]; rewrite ign_moved; reflexivity).
    destruct (l_kind lc) as [ | |[n|]| | | | | |] eqn:Kc; try (cbn [option_map cmap ci_span ci_method ci_ignored ci_nested]; rewrite ign_moved; reflexivity).
    apply IH.
    + pose proof (nsize_kid lc (b :: r) b (or_introl eq_refl)). pose proof (nsize_kid l (Node lc (b :: r) :: args) (Node lc (b :: r)) (or_introl eq_refl)). lia.
    + intros b0 p FP. apply (C (Node l (Node lc (b :: r) :: args)) b0 (p ++ [n])); [constructor|]. split; [exists h, nm; exact K|].
      exists (Node lc (b :: r)), args. split; [reflexivity|]. split; [econstructor; eassumption|]. intros Z. apply app_eq_nil in Z as [_ Z]. discriminate.
    + intros c b0 p W M. apply (C c b0 p); [|exact M]. eapply wi_kid; [left; reflexivity|]. eapply wi_kid; [left; reflexivity|exact W].
  - destruct inn; [|apply info_moved; apply B; intros x; discriminate]. cbn [option_map cmap ci_span ci_method ci_ignored ci_nested]. rewrite (mv_macros _ _ _ MV). reflexivity.
  - destruct inn; [|apply info_moved; apply B; intros x; discriminate]. cbn [option_map cmap ci_span ci_method ci_ignored ci_nested].
    rewrite (mv_disambiguation _ _ _ MV), (mv_functions _ _ _ MV), (mv_methods _ _ _ MV). reflexivity.
Qed.

Lemma named_moved c : callee_is_named_field (mv c) = option_map (fun x => (fst x, mv (snd x))) (callee_is_named_field c).
Proof.
  unfold callee_is_named_field. rewrite mv_kids. destruct (n_kids c) as [|[l [|b r]] args]; cbn [map moved l_kind]; try reflexivity.
  destruct (l_kind l) as [ | |[x|]| | | | | |]; reflexivity.
Qed.
Lemma target_moved ret c : walk_target E' (map mv ret) (mv c) = option_map (fun x => (fst x, mv (snd x))) (walk_target E ret c).
Proof.
  unfold walk_target. rewrite mv_kids. destruct (n_kids c) as [|callee args]; [reflexivity|]. cbn [map]. rewrite expr_name_moved.
  destruct (expr_name E callee) as [name|]; [|reflexivity]. rewrite (mv_locals _ _ _ MV). destruct (v_walkable E name) as [|f r]; [reflexivity|]. cbn [map].
  replace (existsb (same E' (mv f)) (map mv ret)) with (existsb (same E f) ret) by (induction ret as [|g ret IH]; [reflexivity|]; cbn [map existsb]; rewrite same_moved, IH; reflexivity).
  destruct (existsb (same E f) ret); [reflexivity|]. cbn [option_map fst snd]. destruct r; reflexivity.
Qed.
Lemma pend_moved f ts l : pend_add E' (mv f) ts (map (fun x => (mv (fst x), snd x)) l) = map (fun x => (mv (fst x), snd x)) (pend_add E f ts l).
Proof. induction l as [|[g us] l IH]; [reflexivity|]. cbn [map pend_add fst snd]. rewrite same_moved. destruct (same E f g); cbn [map fst snd]; [reflexivity|]. rewrite IH. reflexivity. Qed.

Lemma visit_call_moved c st : is_call c -> calls_move phi E E' c -> vok st -> visit_call E' (mv c) (smap st) = option_map pmap (visit_call E c st).
Proof.
  intros IC C V. unfold visit_call. cbn [smap s_ret]. rewrite target_moved. destruct (walk_target E (s_ret st) c) as [[[name amb] f]|]; cbn [option_map fst snd].
  - unfold pmap. cbn [fst snd]. do 2 f_equal. destruct amb; unfold smap, set_call, set_pend, set_warn; cbn [s_tests s_last s_leaves s_before s_call s_tset s_maps s_pend s_ret s_warn option_map]; rewrite pend_moved; reflexivity.
  - rewrite named_moved. destruct (callee_is_named_field c) as [[name b]|] eqn:N; cbn [option_map fst snd].
    + assert (X : exists l r args, n_kids c = Node l (b :: r) :: args /\ l_kind l = KField (Some name)).
      { unfold callee_is_named_field in N. destruct (n_kids c) as [|[l [|b' r]] args]; try discriminate. destruct (l_kind l) as [ | |[x|]| | | | | |] eqn:K; try discriminate. injection N as <- <-. eauto 6. }
      destruct X as (l & r & args & NK & K). rewrite mv_span.
      assert (F : forall b0 p, field_path b b0 p -> fit (n_span c) (n_span b0)).
      { intros b0 p FP. apply (C c b0 (p ++ [name])); [constructor|]. split; [exact IC|]. exists (Node l (b :: r)), args. split; [exact NK|]. split; [econstructor; eassumption|].
        intros Z. apply app_eq_nil in Z as [_ Z]. discriminate. }
      assert (Cb : calls_move phi E E' b).
      { intros c0 b0 p W M. apply (C c0 b0 p); [|exact M]. eapply wi_kid; [rewrite NK; left; reflexivity|]. eapply wi_kid; [left; reflexivity|exact W]. }
      rewrite (ci_moved (S (nsize b)) b true false (n_span c) [name] (Nat.lt_succ_diag_r _) F Cb).
      destruct (call_info_inner E true false (n_span c) [name] b) as [inner|]; [|reflexivity]. cbn [option_map obind].
      rewrite (ci_moved (S (nsize b)) b false false (n_span c) [name] (Nat.lt_succ_diag_r _) F Cb).
      destruct (call_info_inner E false false (n_span c) [name] b) as [ci|]; [|reflexivity]. cbn [option_map obind cmap ci_span ci_method ci_ignored ci_nested].
      destruct (ci_method ci); [|reflexivity]. cbn [guard obind]. apply vmm_moved, V.
    + rewrite mv_span, ign_moved. replace (call_name (mv c)) with (call_name c) by (unfold call_name; rewrite mv_kind; reflexivity). apply vmm_moved, V.
Qed.

(** *** The walk *)
Lemma fold_moved ks : Forall (fun k => forall st, calls_move phi E E' k -> vok st -> walk E' (mv k) (smap st) = option_map smap (walk E k st)) ks ->
  forall st, (forall k, In k ks -> calls_move phi E E' k) -> vok st -> fold_kids (walk E') (map mv ks) (smap st) = option_map smap (fold_kids (walk E) ks st).
Proof.
  induction 1 as [|k ks Hk _ IH]; intros st C V; [reflexivity|]. cbn [map fold_kids]. rewrite Hk by (try exact V; apply C; left; reflexivity).
  destruct (walk E k st) as [st1|] eqn:W; [|reflexivity]. cbn [option_map obind]. apply IH; [intros q I; apply C; right; exact I|]. eapply vok_walk; eassumption.
Qed.
Lemma statement_moved s st : visit_statement (mv s) (smap st) = option_map smap (visit_statement s st).
Proof. unfold visit_statement. rewrite stmt_call_moved. destruct (statement_is_call s); [|reflexivity]. cbn [smap set_before s_call s_leaves]. destruct (s_call st); reflexivity. Qed.
Lemma statement_post_moved s st : vok st -> visit_statement_post E' (mv s) (smap st) = option_map smap (visit_statement_post E s st).
Proof.
  intros V. unfold visit_statement_post. cbn [smap s_call s_before]. destruct (s_call st) eqn:SC; cbn [option_map is_none guard obind]; [reflexivity|].
  destruct (s_before st) as [|nb rest]; [reflexivity|]. fold (smap st). cbn [smap s_leaves set_before].
  destruct (negb (nb =? s_leaves st)%nat); [cbn [option_map]; rewrite ?SC; reflexivity|].
  assert (V' : vok (set_leaves (S (s_leaves st)) (set_before rest st))) by (destruct V; constructor; assumption).
  set (st2 := set_leaves (S (s_leaves st)) (set_before rest st)) in *.
  match goal with |- context [register_span E' _ _ ?x] => replace x with (smap st2) by (unfold st2, smap, set_leaves, set_before; cbn; rewrite SC; reflexivity) end.
  match goal with |- context [is_last E' ?x _] => replace x with (smap st2) by (unfold st2, smap, set_leaves, set_before; cbn; rewrite SC; reflexivity) end.
  rewrite is_last_moved, stmt_call_moved, removable_moved, control_moved, declaration_moved, mv_span. cbn [s_tests set_leaves smap].
  change (s_tests st2) with (s_tests st).
  match goal with |- context [if ?b then _ else _] => destruct b end; [apply register_moved, V'|].
  cbn [option_map]. unfold st2, smap, set_leaves, set_before; cbn; rewrite ?SC; reflexivity.
Qed.
Lemma last_of_moved l : last_of (map mv l) = option_map mv (last_of l).
Proof. unfold last_of. rewrite <- map_rev. destruct (rev l); reflexivity. Qed.
Lemma test_moved name ss st : visit_test E' name (map mv ss) (smap st) = option_map pmap (visit_test E name ss st).
Proof.
  unfold visit_test. rewrite (mv_tests _ _ _ MV). destruct (v_ign_test E name); [reflexivity|]. destruct st as [a b c d e f g h i j].
  cbn -[last_of moved_maps]. destruct a; cbn -[last_of moved_maps]; [|reflexivity]. destruct b; cbn -[last_of moved_maps]; [reflexivity|].
  unfold pmap, smap, set_last. cbn -[last_of moved_maps]. rewrite last_of_moved. reflexivity.
Qed.
Lemma test_post_moved name st : visit_test_post E' name (smap st) = option_map smap (visit_test_post E name st).
Proof.
  unfold visit_test_post. cbn [smap set_last s_tests]. rewrite (mv_tests _ _ _ MV). destruct (s_tests st) as [|t [|t' r]]; [| |reflexivity].
  - destruct (v_ign_test E name); reflexivity.
  - destruct (text_eqb t name); reflexivity.
Qed.
Lemma statements_moved bi ks : test_statements bi (map mv ks) = map mv (test_statements bi ks).
Proof. unfold test_statements. rewrite nth_error_map. destruct (nth_error ks bi); cbn [option_map]; [apply mv_kids|reflexivity]. Qed.

Lemma vok_statement s st st' : vok st -> visit_statement s st = Some st' -> vok st'.
Proof.
  intros V H1. unfold visit_statement in H1. destruct (statement_is_call s).
  - cbn [set_before s_call] in H1. destruct (is_none (s_call st)); [|discriminate]. injection H1 as <-. destruct V; constructor; assumption.
  - injection H1 as <-. destruct V; constructor; assumption.
Qed.
Lemma vok_test name ss st st' w : vok st -> visit_test E name ss st = Some (st', w) -> vok st'.
Proof.
  intros V H1. unfold visit_test in H1. destruct (v_ign_test E name); [injection H1 as <- <-; exact V|].
  cbn [set_tset s_tests set_tests s_last] in H1. destruct (is_nil (s_tests st)); [|discriminate]. cbn [guard obind] in H1.
  destruct (is_none (s_last st)); [|discriminate]. cbn [guard obind] in H1. injection H1 as <- <-. destruct V; constructor; try assumption. exact I.
Qed.
Lemma vok_kids ks st st' : vok st -> fold_kids (walk E) ks st = Some st' -> vok st'.
Proof. intros V. apply vok_fold; [|exact V]. apply Forall_forall. intros k _ a b. apply vok_walk. Qed.

Lemma walk_moved : forall n st, calls_move phi E E' n -> vok st -> walk E' (mv n) (smap st) = option_map smap (walk E n st).
Proof.
  induction n as [l ks IH] using node_ind'. intros st C V.
  assert (CK : forall k, In k ks -> calls_move phi E E' k) by (intros k I c b p W M; apply (C c b p); [eapply wi_kid; [exact I|exact W]|exact M]).
  assert (FK : forall st, vok st -> fold_kids (walk E') (map mv ks) (smap st) = option_map smap (fold_kids (walk E) ks st)) by (intros st0 V0; apply fold_moved; assumption).
  cbn [moved walk l_kind l_span]. rewrite (mv_framework _ _ _ MV).
  destruct (l_kind l) as [r0 c0 d0 e0| |o|h nm|nm|nm|nm bi| |] eqn:K;
    try (destruct (fw_expr_kids (v_fw E)); [apply FK, V|reflexivity]); try (apply FK, V).
  - fold (mv (Node l ks)). change (Node (Label (l_id l) (KStmt r0 c0 d0 e0) (l_text l) (phi (l_span l))) (map mv ks)) with (Node (Label (l_id l) (KStmt r0 c0 d0 e0) (l_text l) (phi (l_span l))) (map mv ks)).
    replace (Node (Label (l_id l) (KStmt r0 c0 d0 e0) (l_text l) (phi (l_span l))) (map mv ks)) with (mv (Node l ks)) by (cbn [moved]; rewrite K; reflexivity).
    rewrite statement_moved. destruct (visit_statement (Node l ks) st) as [st1|] eqn:H1; [|reflexivity]. cbn [option_map obind].
    pose proof (vok_statement _ _ _ V H1) as V1. rewrite FK by exact V1. destruct (fold_kids (walk E) ks st1) as [st2|] eqn:H2; [|reflexivity]. cbn [option_map obind].
    apply statement_post_moved. eapply vok_kids; eassumption.
  - destruct h; [apply FK, V|].
    replace (Node (Label (l_id l) (KCall false nm) (l_text l) (phi (l_span l))) (map mv ks)) with (mv (Node l ks)) by (cbn [moved]; rewrite K; reflexivity).
    rewrite visit_call_moved by (try assumption; exists false, nm; exact K). destruct (visit_call E (Node l ks) st) as [[st1 w]|] eqn:H1; [|reflexivity]. cbn [option_map obind pmap fst snd].
    pose proof (vok_visit_call _ _ _ _ _ V H1) as V1. destruct w; [apply FK, V1|]. destruct (fw_skip_whole (v_fw E)); [reflexivity|].
    destruct ks as [|callee args]; [reflexivity|]. cbn [map]. inversion IH as [|? ? IHc _]; subst. apply IHc; [apply CK; left; reflexivity|exact V1].
  - unfold visit_macro_call. rewrite (mv_macros _ _ _ MV), vmm_moved by exact V. destruct (visit_maybe_macro_call E (l_span l) (v_ign_mac E nm) false false st) as [[st1 w]|] eqn:H1; [|reflexivity].
    cbn [option_map obind pmap fst snd]. apply vok_vmm in H1; [|exact V]. destruct w; [apply FK, H1|reflexivity].
  - rewrite statements_moved, test_moved. destruct (visit_test E nm (test_statements bi ks) st) as [[st1 w]|] eqn:H1; [|reflexivity]. cbn [option_map obind pmap fst snd].
    pose proof (vok_test _ _ _ _ _ V H1) as V1.
    destruct w; cbn [obind].
    + rewrite FK by exact V1. destruct (fold_kids (walk E) ks st1) as [st2|]; [|reflexivity]. cbn [option_map obind]. apply test_post_moved.
    + apply test_post_moved.
Qed.

Definition lmap (r : loop_result) : loop_result := match r with LDone st => LDone (smap st) | x => x end.
Lemma next_moved st : next_local_function (smap st) = option_map (fun x => (mv (fst x), smap (snd x))) (next_local_function st).
Proof.
  unfold next_local_function. cbn [smap s_pend]. rewrite <- map_rev. destruct (rev (s_pend st)) as [|[f ts] r]; [reflexivity|]. cbn [map option_map fst snd].
  unfold smap, set_tests, set_ret, set_pend. cbn. rewrite map_rev. reflexivity.
Qed.

(** *** Local functions to be walked are among the file's *)
Definition pin (st : vst) : Prop := forall f ts, In (f, ts) (s_pend st) -> exists x, In f (v_walkable E x).
Lemma pin_same st st' : s_pend st' = s_pend st -> pin st -> pin st'. Proof. unfold pin. intros ->. auto. Qed.
Lemma pend_register sp k st st' : register_span E sp k st = Some st' -> s_pend st' = s_pend st.
Proof. unfold register_span. destruct (negb _); [|discriminate]. cbn [guard obind]. destruct (v_skip E sp); intros H; injection H as <-; reflexivity. Qed.
Lemma pend_vmm sp ic im imet st st' w : visit_maybe_macro_call E sp ic im imet st = Some (st', w) -> s_pend st' = s_pend st.
Proof.
  unfold visit_maybe_macro_call. match goal with |- context [if ?b then _ else _] => destruct b end; [|intros H; injection H as <- _; reflexivity].
  destruct (match s_call st with Some s => if negb ic then register_span E (n_span s) Statement (set_call None st) else Some (set_call None st)
            | None => Some (set_call None st) end) as [st1|] eqn:H1; [|discriminate]. cbn [obind].
  assert (P1 : s_pend st1 = s_pend st).
  { destruct (s_call st); [destruct (negb ic)|]; try (injection H1 as <-; reflexivity). apply pend_register in H1. exact H1. }
  destruct (if negb ic && im && negb imet then register_span E sp MethodCall st1 else Some st1) as [st2|] eqn:H2; [|discriminate]. cbn [obind].
  intros H; injection H as <- _. destruct (negb ic && im && negb imet); [apply pend_register in H2; congruence|injection H2 as <-; exact P1].
Qed.
Lemma pin_add f ts l : (exists x, In f (v_walkable E x)) -> (forall g us, In (g, us) l -> exists x, In g (v_walkable E x)) ->
  forall g us, In (g, us) (pend_add E f ts l) -> exists x, In g (v_walkable E x).
Proof.
  intros F. induction l as [|[h vs] r IH]; intros H g us; cbn [pend_add].
  - intros [Hx|[]]. injection Hx as <- _. exact F.
  - destruct (same E f h); intros [Hx|Hx].
    + injection Hx as <- _. apply (H h vs). left. reflexivity.
    + apply (H g us). right. exact Hx.
    + injection Hx as <- _. apply (H h vs). left. reflexivity.
    + eapply IH; [|exact Hx]. intros g' us' I. apply (H g' us'). right. exact I.
Qed.
Lemma pin_call c st st' w : pin st -> visit_call E c st = Some (st', w) -> pin st'.
Proof.
  intros V. unfold visit_call. destruct (walk_target E (s_ret st) c) as [[[nm amb] f]|] eqn:T.
  - assert (F : exists x, In f (v_walkable E x)).
    { unfold walk_target in T. destruct (n_kids c) as [|q ?]; [discriminate|]. destruct (expr_name E q) as [name|]; [|discriminate].
      destruct (v_walkable E name) as [|g r] eqn:W; [discriminate|]. destruct (existsb _ _); [discriminate|]. injection T as _ _ <-. exists name. rewrite W. left. reflexivity. }
    intros H; injection H as <- _. unfold pin. destruct amb; cbn; intros g us I; eapply pin_add; try exact I; try exact F; exact V.
  - destruct (callee_is_named_field c) as [[x b0]|]; [|intros H; apply pend_vmm in H; exact (pin_same _ _ H V)].
    destruct (call_info_inner E true false (n_span c) [x] b0) as [inner|]; [|discriminate]. cbn [obind].
    destruct (call_info_inner E false false (n_span c) [x] b0) as [ci|]; [|discriminate]. cbn [obind].
    destruct (ci_method ci); [|discriminate]. cbn [guard obind]. intros H; apply pend_vmm in H; exact (pin_same _ _ H V).
Qed.
Lemma pin_fold ks : Forall (fun k => forall st st', pin st -> walk E k st = Some st' -> pin st') ks ->
  forall st st', pin st -> fold_kids (walk E) ks st = Some st' -> pin st'.
Proof.
  induction 1 as [|k r Hk _ IH]; intros st st' V; cbn [fold_kids]; [intros H; injection H as <-; exact V|].
  destruct (walk E k st) as [st1|] eqn:H1; [|discriminate]. cbn [obind]. apply IH. eapply Hk; eauto.
Qed.
Lemma pin_walk n : forall st st', pin st -> walk E n st = Some st' -> pin st'.
Proof.
  induction n as [l ks IH] using node_ind'. intros st st' V. cbn [walk].
  destruct (l_kind l) as [r0 c0 d0 e0| |o|h nm|nm|nm|nm bi| |];
    try (destruct (fw_expr_kids (v_fw E)); [apply (pin_fold ks IH); assumption|intros H; injection H as <-; exact V]); try (apply (pin_fold ks IH); assumption).
  - destruct (visit_statement (Node l ks) st) as [st1|] eqn:H1; [|discriminate]. cbn [obind].
    assert (P1 : s_pend st1 = s_pend st).
    { unfold visit_statement in H1. destruct (statement_is_call (Node l ks)); [|injection H1 as <-; reflexivity]. cbn [set_before s_call] in H1. destruct (is_none (s_call st)); [|discriminate]. injection H1 as <-. reflexivity. }
    destruct (fold_kids (walk E) ks st1) as [st2|] eqn:H2; [|discriminate]. cbn [obind].
    apply (pin_fold ks IH _ _ (pin_same _ _ P1 V)) in H2. unfold visit_statement_post. destruct (is_none (s_call st2)); [|discriminate]. cbn [guard obind].
    destruct (s_before st2) as [|nb rest]; [discriminate|]. match goal with |- context [if ?b then _ else _] => destruct b end; [intros H; injection H as <-; exact H2|].
    match goal with |- context [if ?b then _ else _] => destruct b end; [|intros H; injection H as <-; exact H2].
    intros H. apply pend_register in H. exact (pin_same st2 st' H H2).
  - destruct h; [apply (pin_fold ks IH); assumption|].
    destruct (visit_call E (Node l ks) st) as [[st1 w]|] eqn:H1; [|discriminate]. cbn [obind]. apply pin_call in H1; [|exact V]. destruct w; [apply (pin_fold ks IH); assumption|].
    destruct (fw_skip_whole (v_fw E)); [intros H; injection H as <-; exact H1|]. destruct ks as [|callee args]; [intros H; injection H as <-; exact H1|].
    inversion IH as [|? ? IHc _]; subst. apply IHc. exact H1.
  - destruct (visit_macro_call E nm (l_span l) st) as [[st1 w]|] eqn:H1; [|discriminate]. cbn [obind]. apply pend_vmm in H1. apply (pin_same _ _ H1) in V.
    destruct w; [apply (pin_fold ks IH); assumption|intros H; injection H as <-; exact V].
  - destruct (visit_test E nm (test_statements bi ks) st) as [[st1 w]|] eqn:H1; [|discriminate]. cbn [obind].
    assert (P1 : s_pend st1 = s_pend st).
    { unfold visit_test in H1. destruct (v_ign_test E nm); [injection H1 as <- _; reflexivity|]. cbn [set_tset s_tests set_tests s_last] in H1. destruct (is_nil (s_tests st)); [|discriminate].
      cbn [guard obind] in H1. destruct (is_none (s_last st)); [|discriminate]. cbn [guard obind] in H1. injection H1 as <- _. reflexivity. }
    apply (pin_same _ _ P1) in V. destruct (if w then fold_kids (walk E) ks st1 else Some st1) as [st2|] eqn:H2; [|discriminate]. cbn [obind].
    assert (V2 : pin st2) by (destruct w; [eapply (pin_fold ks IH); eassumption|injection H2 as <-; exact V]).
    unfold visit_test_post. cbn [set_last s_tests]. destruct (s_tests st2) as [|t [|t' r]]; [| |discriminate].
    + destruct (v_ign_test E nm); [|discriminate]. cbn [guard obind]. intros H; injection H as <-. exact V2.
    + destruct (text_eqb t nm); [|discriminate]. cbn [guard obind]. intros H; injection H as <-. exact V2.
Qed.

Lemma vok_next st f st' : vok st -> next_local_function st = Some (f, st') -> vok st'.
Proof.
  intros V Hn. unfold next_local_function in Hn. destruct (rev (s_pend st)) as [|[g ts] r] eqn:Hr; [discriminate|]. injection Hn as <- <-.
  assert (Hp : s_pend st = rev r ++ [(g, ts)]) by (rewrite <- (rev_involutive (s_pend st)), Hr; reflexivity).
  destruct V as [V1 V2 V3 V4]. constructor; cbn; try assumption.
  - eapply V4. rewrite Hp. apply in_or_app. right. left. reflexivity.
  - intros h us I. apply (V4 h us). rewrite Hp. apply in_or_app. left. exact I.
Qed.
Lemma pin_next st f st' : pin st -> next_local_function st = Some (f, st') -> (exists x, In f (v_walkable E x)) /\ pin st'.
Proof.
  intros V Hn. unfold next_local_function in Hn. destruct (rev (s_pend st)) as [|[g ts] r] eqn:Hr; [discriminate|]. injection Hn as <- <-.
  assert (Hp : s_pend st = rev r ++ [(g, ts)]) by (rewrite <- (rev_involutive (s_pend st)), Hr; reflexivity).
  split; [apply (V g ts); rewrite Hp; apply in_or_app; right; left; reflexivity|].
  intros h us I. cbn in I. apply (V h us). rewrite Hp. apply in_or_app. left. exact I.
Qed.

Lemma loop_moved (LM : forall x f, In f (v_walkable E x) -> calls_move phi E E' f) : forall fuel st, vok st -> pin st ->
  local_loop E' fuel (smap st) = lmap (local_loop E fuel st).
Proof.
  induction fuel as [|fuel IH]; intros st V P; cbn [local_loop]; rewrite next_moved; destruct (next_local_function st) as [[f st1]|] eqn:N; cbn [option_map fst snd]; try reflexivity.
  destruct (pin_next _ _ _ P N) as [(x & F) P1]. pose proof (vok_next _ _ _ V N) as V1. rewrite mv_kids.
  rewrite fold_moved; [|apply Forall_forall; intros k _ st0; apply walk_moved|intros k I c b p W M; apply (LM x f F c b p); [eapply wi_kid; eassumption|exact M]|exact V1].
  destruct (fold_kids (walk E) (n_kids f) st1) as [st2|] eqn:W; [|reflexivity]. cbn [option_map]. apply IH; [eapply vok_kids; eassumption|].
  eapply pin_fold; [|exact P1|exact W]. apply Forall_forall. intros k _ a b. apply pin_walk.
Qed.

Lemma file_moved root fuel : calls_move phi E E' root -> (forall x f, In f (v_walkable E x) -> calls_move phi E E' f) ->
  visit_file E' fuel (mv root) = lmap (visit_file E fuel root).
Proof.
  intros C LM. unfold visit_file.
  assert (V : vok init_vst) by (constructor; cbn; try exact I; try (intros f ts []); split; try exact I; intros s ts []).
  assert (P : pin init_vst) by (intros f ts []). change init_vst with (smap init_vst) at 1. rewrite walk_moved by assumption.
  destruct (walk E root init_vst) as [st|] eqn:W; [|reflexivity]. cbn [option_map]. apply loop_moved; [exact LM|eapply vok_walk; eassumption|eapply pin_walk; eassumption].
Qed.
End Move.
