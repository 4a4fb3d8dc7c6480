(** Property theorems C29-C38: which statements and method calls of a file are candidates. *)
From Verif Require Import Base M_Text M_Rewriter M_Span M_Run M_Visitor S_Visitor S_Walk S_Candidates
  L_Visitor L_VisitorLive L_VisitorWalk L_VisitorDead L_VisitorLoop L_VisitorTotal L_VisitorMaps L_VisitorFacts L_Candidates.
Local Open Scope string_scope.
Local Open Scope list_scope.

(** ** Small trees, used to show that hypotheses can be met *)
Definition xp : path := [s2t "t.rs"].
Definition xsp (l a b : nat) : span := Span xp (LC l a) (LC l b).
Definition mk (i : nat) (k : nkind) (l a b : nat) (ks : list node) : node := Node (Label i k [] (xsp l a b)) ks.
(** a name; an expression without structure; [f(args)]; the statement [e;] *)
Definition x_id (i l a b : nat) (x : string) := mk i (KIdent (s2t x)) l a b [].
Definition x_ex (i l a b : nat) := mk i KExpr l a b [].
Definition x_call (i l a b : nat) (x : string) (args : list node) := mk i (KCall false (Some (s2t x))) l a b (x_id (i + 1) l a (a + length (s2t x)) x :: args).
Definition x_stmt (i l a b : nat) (e : node) := mk i (KStmt true false false true) l a b [e].
(** [e.x(..)] *)
Definition x_meth (i l b : nat) (e : node) (x : string) (args : list node) :=
  let a := column (sp_start (n_span e)) in
  mk i (KCall false (Some (s2t x))) l a b (mk (i + 1) (KField (Some (s2t x))) l a (b - 2) [e] :: args).
Definition x_test (i : nat) (t : string) (body : list node) := mk i (KTest (s2t t) 0) 1 0 0 [mk (i + 1) KGroup 1 0 0 body].

Definition named (ns : list string) (x : text) : bool := existsb (fun n => text_eqb (s2t n) x) ns.
Definition x_env (fw : framework) (fs ms : list string) (va : bool) (wk : text -> list node) (ct : text) : venv :=
  VEnv fw (named fs) (named ["println"]) (named ms) (fun _ => false) va DNone wk (fun _ => false) ct.

Definition st_of (E : venv) (root : node) : vst :=
  match visit_file E 9 root with LDone s => s | _ => init_vst end.
Definition cands (st : vst) : list (kind * nat * nat * list text) :=
  map (fun e => (Statement, column (sp_start (fst e)), column (sp_end (fst e)), snd e)) (stm_statement (s_maps st)) ++
  map (fun e => (MethodCall, column (sp_start (fst e)), column (sp_end (fst e)), snd e)) (stm_method (s_maps st)).

(** The nodes of a tree, to check statements about all of them by computation. *)
Fixpoint nodes (n : node) : list node := match n with Node _ ks => n :: flat_map nodes ks end.
Lemma within_nodes n m : within n m -> In m (nodes n).
Proof.
  induction 1 as [n|n k m Hk _ IH]; destruct n as [l ks]; cbn [nodes]; [left; reflexivity|]. right. apply in_flat_map. exists k. auto.
Qed.
Lemma lists_dec m k sp t :
  existsb (fun e => match span_compare sp (fst e) with Eq => mem_text t (snd e) | _ => false end)
    (match k with Statement => stm_statement m | MethodCall => stm_method m end) = true <-> lists m k sp t.
Proof.
  rewrite existsb_exists. split.
  - intros ((sp', ts) & Hin & Hc). cbn [fst snd] in Hc. destruct (span_compare sp sp') eqn:Hsp; try discriminate.
    apply L_Span.span_compare_eq in Hsp. subst sp'. apply mem_text_In in Hc. exists ts. auto.
  - intros (ts & Hin & Ht). exists (sp, ts). split; [exact Hin|]. cbn [fst snd].
    rewrite (proj2 (L_Span.span_compare_eq sp sp) eq_refl). apply mem_text_In. exact Ht.
Qed.

Lemma lists_none m k sp :
  existsb (fun e => match span_compare sp (fst e) with Eq => true | _ => false end)
    (match k with Statement => stm_statement m | MethodCall => stm_method m end) = false -> forall t, ~ lists m k sp t.
Proof.
  intros H t (ts & Hin & _). 
  assert (existsb (fun e => match span_compare sp (fst e) with Eq => true | _ => false end)
    (match k with Statement => stm_statement m | MethodCall => stm_method m end) = true); [|congruence].
  apply existsb_exists. exists (sp, ts). split; [exact Hin|]. cbn [fst]. rewrite (proj2 (L_Span.span_compare_eq sp sp) eq_refl). reflexivity.
Qed.

(** A Go file:  [func TestT(t) { x = f(); if c { g(1); y = 2 }; o.m(); h(); last() }  func h() { k(); h() }] *)
Definition g_s1 := mk 10 (KStmt true false false false) 1 0 6 [x_ex 11 1 0 1; x_call 12 1 4 6 "f" []].
Definition g_s3 := x_stmt 30 1 20 24 (x_call 31 1 20 24 "g" [x_ex 34 1 22 23]).
Definition g_s4 := mk 40 (KStmt true false false false) 1 26 30 [x_ex 41 1 26 30].
Definition g_s2 := mk 20 (KStmt true false false false) 1 10 31 [x_ex 21 1 13 14; mk 22 KGroup 1 15 31 [g_s3; g_s4]].
Definition g_s5 := x_stmt 50 1 32 37 (x_meth 51 1 37 (x_id 53 1 32 33 "o") "m" []).
Definition g_s6 := x_stmt 60 1 38 41 (x_call 61 1 38 41 "h" []).
Definition g_s7 := x_stmt 70 1 42 48 (x_call 71 1 42 48 "last" []).
Definition g_test := x_test 1 "TestT" [g_s1; g_s2; g_s5; g_s6; g_s7].
Definition g_h1 := x_stmt 80 1 60 63 (x_call 81 1 60 63 "k" []).
Definition g_h2 := x_stmt 84 1 64 67 (x_call 85 1 64 67 "h" []).
Definition g_h := mk 90 KGroup 1 58 70 [g_h1; g_h2].
Definition g_root := mk 0 KGroup 1 0 99 [g_test].
Definition g_ct : text := repeat 97%N 99.
Definition g_wk (x : text) : list node := if text_eqb x (s2t "h") then [g_h] else [].
Definition g_env := x_env fw_go ["f"] [] false g_wk g_ct.
Definition g_st := st_of g_env g_root.

Lemma g_walk x f fs : v_walkable g_env x = f :: fs -> f = g_h.
Proof. cbn. unfold g_wk. destruct (text_eqb x (s2t "h")); [intros H; inversion H; reflexivity|discriminate]. Qed.
Example g_parsed : parsed g_env g_root.
Proof. split; [vm_compute; reflexivity|]. intros x f fs H. apply g_walk in H. subst. vm_compute. reflexivity. Qed.
Example g_result : result g_env g_root g_st.
Proof. exists 9%nat. vm_compute. reflexivity. Qed.
Example g_cands : cands g_st =
  [(Statement, 0, 6, [s2t "TestT"]); (Statement, 20, 24, [s2t "TestT"]); (Statement, 26, 30, [s2t "TestT"]);
   (Statement, 32, 37, [s2t "TestT"]); (Statement, 60, 63, [s2t "TestT"]); (Statement, 64, 67, [s2t "TestT"]);
   (MethodCall, 33, 37, [s2t "TestT"])]%nat.
Proof. vm_compute. reflexivity. Qed.

Lemma g_in_file n : in_file g_env g_root n -> In n (nodes g_root ++ nodes g_h).
Proof.
  intros [H|(x & f & fs & Hx & H)]; apply in_or_app; [left; apply within_nodes; exact H|right; apply g_walk in Hx; subst f; apply within_nodes; exact H].
Qed.
Definition is_stmtb (n : node) : bool := match n_kind n with KStmt _ _ _ _ => true | _ => false end.
Lemma is_stmtb_iff n : is_stmtb n = true <-> is_stmt n.
Proof.
  unfold is_stmtb, is_stmt. destruct (n_kind n); split; intros H; try discriminate; try (destruct H as (? & ? & ? & ? & H); discriminate); eauto; reflexivity.
Qed.
(** Statements with equal spans are at the same place of the list of nodes. *)
Definition apartb (l : list node) : bool :=
  (fix go (s : list span) : bool := match s with [] => true | x :: r => negb (existsb (fun y => match span_compare x y with Eq => true | _ => false end) r) && go r end)
    (map n_span (filter is_stmtb l)).
Lemma apartb_ok l : apartb l = true -> forall s s', In s l -> In s' l -> is_stmt s -> is_stmt s' -> n_span s = n_span s' -> s = s'.
Proof.
  unfold apartb. intros H s s' Hs Hs' Is Is' Hsp.
  assert (F : In s (filter is_stmtb l)) by (apply filter_In; split; [exact Hs|apply is_stmtb_iff; exact Is]).
  assert (F' : In s' (filter is_stmtb l)) by (apply filter_In; split; [exact Hs'|apply is_stmtb_iff; exact Is']).
  clear Hs Hs' Is Is'. induction (filter is_stmtb l) as [|x r IH]; [destruct F|]. cbn [map] in H. apply Bool.andb_true_iff in H. destruct H as [H1 H2].
  assert (Hno : forall y, In y r -> n_span x <> n_span y).
  { intros y Hy Heq. apply Bool.negb_true_iff in H1. 
    assert (existsb (fun y0 => match span_compare (n_span x) y0 with Eq => true | _ => false end) (map n_span r) = true); [|congruence].
    apply existsb_exists. exists (n_span y). split; [apply in_map; exact Hy|]. rewrite (proj2 (L_Span.span_compare_eq _ _) Heq). reflexivity. }
  destruct F as [->|F], F' as [->|F']; auto; exfalso; [apply (Hno s' F'); exact Hsp|apply (Hno s F); symmetry; exact Hsp].
Qed.
Example g_apart : statements_apart g_env g_root.
Proof.
  intros s s' Hs Hs'. apply (apartb_ok (nodes g_root ++ nodes g_h)); [vm_compute; reflexivity| |]; apply g_in_file; assumption.
Qed.

(** The test fixtures/valid_pattern/src/lib.rs:47-71 with its necessist.toml: the candidates are those that
    necessist/tests/necessist_db_absent/valid_pattern.stdout reports (23 of them). *)
Definition v_line (n : nat) (s : string) : text := s2t "    " ++ s2t s ++ [NL].
Definition v_ct : text := repeat NL 48 ++
  v_line 49 "say_hello!();" ++ [NL] ++ v_line 51 "let bar = foo();" ++ [NL] ++
  v_line 53 "foo().method();" ++ v_line 54 "foo().method().baz();" ++ v_line 55 "foo().ignored_method();" ++ v_line 56 "foo().ignored_method().baz();" ++ [NL] ++
  v_line 58 "bar.method();" ++ v_line 59 "bar.method().baz();" ++ v_line 60 "bar.ignored_method();" ++ v_line 61 "bar.ignored_method().baz();" ++ [NL] ++
  v_line 63 "bar.field.method();" ++ v_line 64 "bar.field.method().baz();" ++ v_line 65 "bar.field.ignored_method();" ++ v_line 66 "bar.field.ignored_method().baz();" ++ [NL] ++
  v_line 68 "ignored_function(foo().method());" ++ [NL] ++ v_line 70 "noop();".
Definition v_foo (l a : nat) := x_call 0 l a (a + 5) "foo" [].
Definition v_m (l : nat) (e : node) (x : string) := x_meth 0 l (column (sp_end (n_span e)) + length (s2t x) + 3) e x [].
Definition v_bar (l : nat) := x_ex 0 l 4 7.
Definition v_field (l : nat) := mk 0 (KField (Some (s2t "field"))) l 4 13 [v_bar l].
Definition v_s (e : node) := x_stmt 0 (line (sp_start (n_span e))) 4 (column (sp_end (n_span e)) + 1) e.
Definition v_test := x_test 0 "test"
  [x_stmt 0 49 4 17 (mk 0 (KMacro (s2t "say_hello")) 49 4 16 []);
   mk 0 (KStmt true false true false) 51 4 20 [v_foo 51 14];
   v_s (v_m 53 (v_foo 53 4) "method"); v_s (v_m 54 (v_m 54 (v_foo 54 4) "method") "baz");
   v_s (v_m 55 (v_foo 55 4) "ignored_method"); v_s (v_m 56 (v_m 56 (v_foo 56 4) "ignored_method") "baz");
   v_s (v_m 58 (v_bar 58) "method"); v_s (v_m 59 (v_m 59 (v_bar 59) "method") "baz");
   v_s (v_m 60 (v_bar 60) "ignored_method"); v_s (v_m 61 (v_m 61 (v_bar 61) "ignored_method") "baz");
   v_s (v_m 63 (v_field 63) "method"); v_s (v_m 64 (v_m 64 (v_field 64) "method") "baz");
   v_s (v_m 65 (v_field 65) "ignored_method"); v_s (v_m 66 (v_m 66 (v_field 66) "ignored_method") "baz");
   x_stmt 0 68 4 37 (x_call 0 68 4 36 "ignored_function" [v_m 68 (v_foo 68 21) "method"]);
   x_stmt 0 70 4 11 (x_call 0 70 4 10 "noop" [])].
Definition v_env : venv :=
  VEnv fw_rust (named ["ignored_function"]) (named ["say_hello"]) (named ["ignored_method"; "field.ignored_method"])
    (fun _ => false) true DNone (fun _ => []) (fun _ => false) v_ct.
Definition v_lines (m : list (span * list text)) : list (nat * nat * nat) :=
  map (fun e => (line (sp_start (fst e)), S (column (sp_start (fst e))), S (column (sp_end (fst e))))) m.
Example valid_pattern :
  let m := s_maps (st_of v_env (mk 0 KGroup 1 0 0 [v_test])) in
  v_lines (stm_statement m) =
    [(53, 5, 20); (54, 5, 26); (55, 5, 28); (56, 5, 34); (58, 5, 18); (59, 5, 24); (61, 5, 32); (63, 5, 24); (64, 5, 30); (66, 5, 38)]%nat /\
  v_lines (stm_method m) =
    [(53, 10, 19); (54, 10, 19); (54, 19, 25); (56, 27, 33); (58, 8, 17); (59, 8, 17); (59, 17, 23); (61, 25, 31);
     (63, 8, 23); (64, 8, 23); (64, 23, 29); (66, 31, 37); (68, 27, 36)]%nat.
Proof. split; vm_compute; reflexivity. Qed.

(** ** C29: the last statement of a test *)
(** A statement that is a candidate of test [t] is not the last statement of the body of [t], unless it is (also) part
    of a local function that [t] reaches. *)
Theorem C29_last_statement_kept : forall E root st sp t, parsed E root -> result E root st ->
  candidate st Statement sp t ->
  exists s, in_file E root s /\ is_stmt s /\ n_span s = sp /\
    ((exists tn, test_named E root tn t /\ within tn s /\ forall l, last_statement tn = Some l -> same E l s = false) \/
     (exists f, test_reaches E root t f /\ within f s)).
Proof.
  intros E root st sp t HP HR HC. destruct (statement_origin E root st HP HR sp t HC) as (n & L & R & s & Hb & Hin & Hw & Hs & _ & (His & Hk & _)).
  exists s. split; [exact Hin|]. split; [exact His|]. split; [exact Hs|]. destruct Hb as [tn Hn|f Hf]; [left|right; eauto].
  exists tn. split; [exact Hn|]. split; [exact Hw|]. intros l Hl. destruct (same E l s) eqn:Hsame; [|reflexivity].
  exfalso. apply Hk. right. eauto.
Qed.
Print Assumptions C29_last_statement_kept.

(** Hence the last statement of a test is never a candidate of that test. *)
Theorem C29_last_statement_never : forall E root st tn t l, parsed E root -> result E root st ->
  statements_apart E root -> test_named E root tn t -> (forall tn', test_named E root tn' t -> tn' = tn) ->
  last_statement tn = Some l -> is_stmt l -> in_file E root l ->
  (forall f, test_reaches E root t f -> ~ within f l) ->
  ~ candidate st Statement (n_span l) t.
Proof.
  intros E root st tn t l HP HR HA Hn Hu Hl Hil Hin Hno HC.
  destruct (C29_last_statement_kept E root st (n_span l) t HP HR HC) as (s & H1 & H2 & H3 & H4).
  assert (s = l) by (apply HA; auto). subst s. destruct H4 as [(tn' & Hn' & _ & Hs)|(f & Hf & Hw)]; [|exact (Hno f Hf Hw)].
  rewrite (Hu tn' Hn') in Hs. specialize (Hs l Hl). rewrite same_refl in Hs. discriminate.
Qed.
Print Assumptions C29_last_statement_never.

Lemma g_tests tn t : test_named g_env g_root tn t -> tn = g_test /\ t = s2t "TestT".
Proof.
  intros (Hin & (i & K) & _). apply g_in_file in Hin.
  assert (G : forallb (fun n => match n_kind n with KTest _ _ => (n_id n =? 1)%nat | _ => true end) (nodes g_root ++ nodes g_h) = true) by (vm_compute; reflexivity).
  assert (A : In tn (filter (fun n => match n_kind n with KTest _ _ => true | _ => false end) (nodes g_root ++ nodes g_h))) by (apply filter_In; split; [exact Hin|rewrite K; reflexivity]).
  vm_compute in A. destruct A as [A|[]]. subst tn. split; [reflexivity|]. unfold n_kind in K. cbn in K. inversion K. reflexivity.
Qed.
Lemma g_reaches t f : test_reaches g_env g_root t f -> exists g, g = g_h /\ same g_env g f = true.
Proof.
  intros H. destruct H as [tn f g _ Hm Hs|g f h _ Hm Hs]; apply called_walkable in Hm; destruct Hm as (x & fs & Hx); apply g_walk in Hx; subst f; eauto.
Qed.
Example C29_nonvacuous :
  test_named g_env g_root g_test (s2t "TestT") /\ (forall tn', test_named g_env g_root tn' (s2t "TestT") -> tn' = g_test) /\
  last_statement g_test = Some g_s7 /\ is_stmt g_s7 /\ in_file g_env g_root g_s7 /\ ~ within g_h g_s7 /\
  candidate g_st Statement (n_span g_s6) (s2t "TestT") = candidate g_st Statement (xsp 1 38 41) (s2t "TestT") /\
  candidate g_st Statement (n_span g_s5) (s2t "TestT").
Proof.
  split; [split; [left; eapply wi_kid; [left; reflexivity|constructor]|split; [eexists; reflexivity|reflexivity]]|].
  split; [intros tn' H; apply (g_tests _ _ H)|]. split; [reflexivity|]. split; [eexists _, _, _, _; reflexivity|].
  split; [left; eapply wi_kid; [left; reflexivity|]; eapply wi_kid; [left; reflexivity|]; eapply wi_kid; [right; right; right; right; left; reflexivity|constructor]|].
  split; [intros H; apply within_nodes in H; vm_compute in H; intuition discriminate|].
  split; [reflexivity|]. apply lists_dec. vm_compute. reflexivity.
Qed.

(** ** C30: declarations and control statements *)
(** [calls_tidy] is what every framework's classification guarantees: an expression statement that is a call is
    neither a declaration nor a control statement. *)
Theorem C30_not_declaration_nor_control : forall E root st sp t, parsed E root -> result E root st ->
  calls_tidy root -> (forall x f fs, v_walkable E x = f :: fs -> calls_tidy f) ->
  candidate st Statement sp t ->
  exists s, in_file E root s /\ is_stmt s /\ n_span s = sp /\ control s = false /\ declaration s = false /\ removable s = true.
Proof.
  intros E root st sp t HP HR HT HTF HC. destruct (statement_origin E root st HP HR sp t HC) as (n & L & R & s & Hb & Hin & Hw & Hs & _ & (His & Hk & Hcase)).
  exists s. split; [exact Hin|]. split; [exact His|]. split; [exact Hs|].
  assert (Hrm : removable s = true) by (destruct (removable s) eqn:Hr; [reflexivity|exfalso; apply Hk; left; exact Hr]).
  destruct Hcase as [(_ & Hct & Hd & _)|(c & Hc & _)]; [auto|].
  assert (Hcd : control s = false /\ declaration s = false); [|destruct Hcd; auto].
  destruct Hin as [Hin|(x & f & fs & Hx & Hin)]; [eapply HT; eassumption|eapply (HTF x f fs Hx); eassumption].
Qed.
Print Assumptions C30_not_declaration_nor_control.

Theorem C30_never : forall E root st s t, parsed E root -> result E root st ->
  calls_tidy root -> (forall x f fs, v_walkable E x = f :: fs -> calls_tidy f) ->
  statements_apart E root -> in_file E root s -> is_stmt s ->
  control s = true \/ declaration s = true \/ removable s = false -> ~ candidate st Statement (n_span s) t.
Proof.
  intros E root st s t HP HR HT HTF HA Hin His Hcd HC.
  destruct (C30_not_declaration_nor_control E root st _ t HP HR HT HTF HC) as (s' & H1 & H2 & H3 & H4 & H5 & H6).
  assert (s' = s) by (apply HA; auto). subst s'. destruct Hcd as [X|[X|X]]; congruence.
Qed.
Print Assumptions C30_never.

(** [let x = f(); break; g(); last();] in Rust. *)
Definition d_s1 := mk 1 (KStmt true false true false) 1 0 5 [x_call 2 1 1 4 "f" []].
Definition d_s2 := mk 4 (KStmt true true false false) 1 6 9 [].
Definition d_s3 := x_stmt 5 1 10 14 (x_call 6 1 10 13 "g" []).
Definition d_s4 := x_stmt 8 1 15 20 (x_call 9 1 15 19 "last" []).
Definition d_root := mk 0 KGroup 1 0 99 [x_test 20 "t" [d_s1; d_s2; d_s3; d_s4]].
Definition d_env := x_env fw_rust [] [] false (fun _ => []) g_ct.
Example C30_nonvacuous :
  calls_tidy d_root /\ declaration d_s1 = true /\ control d_s2 = true /\
  cands (st_of d_env d_root) = [(Statement, 10, 14, [s2t "t"])]%nat.
Proof.
  split; [|repeat split; vm_compute; reflexivity].
  intros s c Hs Hc. apply within_nodes in Hs. destruct Hc as (l & e & r & rm & ct & d & -> & K & Hp).
  assert (G : forallb (fun n => match n_kind n with KStmt _ c d true => negb c && negb d | _ => true end) (nodes d_root) = true) by (vm_compute; reflexivity).
  rewrite forallb_forall in G. specialize (G _ Hs). unfold control, declaration, n_kind in *. cbn [n_lab] in *. rewrite K in *.
  destruct ct, d; try discriminate G; auto.
Qed.

(** ** C31: ignored functions, macros and methods *)
Theorem C31_ignored_statement : forall E root st sp t, parsed E root -> result E root st ->
  candidate st Statement sp t ->
  exists s, in_file E root s /\ is_stmt s /\ n_span s = sp /\ forall c, call_statement s c -> ~ ignored_call E c.
Proof.
  intros E root st sp t HP HR HC. destruct (statement_origin E root st HP HR sp t HC) as (n & L & R & s & Hb & Hin & Hw & Hs & _ & (His & Hk & Hcase)).
  exists s. split; [exact Hin|]. split; [exact His|]. split; [exact Hs|]. intros c Hc.
  destruct Hcase as [(Hno & _)|(c' & Hc' & Hni & _)]; [exfalso; exact (Hno c Hc)|]. rewrite (call_statement_det _ _ _ Hc Hc'). exact Hni.
Qed.
Print Assumptions C31_ignored_statement.

Theorem C31_ignored_method : forall E root st sp t, parsed E root -> result E root st ->
  candidate st MethodCall sp t ->
  exists c b p, in_file E root c /\ method_call c b p /\ method_span E (n_span c) (n_span b) = Some sp /\
    ~ ignored_call E c /\ v_ign_met E (dotted p) = false.
Proof.
  intros E root st sp t HP HR HC. destruct (method_origin E root st HP HR sp t HC) as (n & L & R & c & ctx & Hb & Hin & Hw & _ & (Hs & Hni & Hnm & b & p & Hm & Hsp) & _).
  exists c, b, p. split; [exact Hin|]. split; [exact Hm|]. split; [exact Hsp|]. split; [exact Hni|].
  destruct (v_ign_met E (dotted p)) eqn:Hi; [|reflexivity]. exfalso. apply Hnm. exists b, p. auto.
Qed.
Print Assumptions C31_ignored_method.

Theorem C31_never : forall E root st t, parsed E root -> result E root st ->
  (forall s c, statements_apart E root -> in_file E root s -> call_statement s c -> ignored_call E c ->
     ~ candidate st Statement (n_span s) t) /\
  (forall c b p sp, method_calls_apart E root -> in_file E root c -> method_call c b p -> method_span E (n_span c) (n_span b) = Some sp ->
     ignored_call E c \/ v_ign_met E (dotted p) = true -> ~ candidate st MethodCall sp t).
Proof.
  intros E root st t HP HR. split.
  - intros s c HA Hin Hcs Hig HC. destruct (C31_ignored_statement E root st _ t HP HR HC) as (s' & H1 & H2 & H3 & H4).
    assert (s' = s) by (apply HA; auto; eapply call_statement_stmt; exact Hcs). subst s'. exact (H4 c Hcs Hig).
  - intros c b p sp HA Hin Hm Hsp Hig HC. destruct (C31_ignored_method E root st sp t HP HR HC) as (c' & b' & p' & H1 & H2 & H3 & H4 & H5).
    assert (c' = c) by (eapply HA; eassumption). subst c'. destruct (method_call_det _ _ _ _ _ Hm H2) as [-> ->].
    destruct Hig as [Hig|Hig]; [exact (H4 Hig)|congruence].
Qed.
Print Assumptions C31_never.

(** In [v_env] above, [say_hello!();], [bar.ignored_method();] and [ignored_function(..);] are ignored calls; the statement
    [foo().ignored_method();] is not one (the receiver is itself a call that is not ignored), and is a candidate. *)
Example C31_nonvacuous :
  (exists c, call_statement (x_stmt 0 49 4 17 (mk 0 (KMacro (s2t "say_hello")) 49 4 16 [])) c /\ ignored_call v_env c) /\
  (exists c, call_statement (v_s (v_m 60 (v_bar 60) "ignored_method")) c /\ ignored_call v_env c) /\
  (exists c, call_statement (v_s (v_m 55 (v_foo 55 4) "ignored_method")) c /\ ignored_method v_env c).
Proof.
  split; [|split]; eexists; (split; [eexists _, _, _, _, _, _; split; [reflexivity|split; [reflexivity|]]|]).
  - apply pf_call. right. eexists. reflexivity.
  - left. eexists. split; reflexivity.
  - apply pf_call. left. eexists _, _. reflexivity.
  - right. split; [eexists _, _; reflexivity|]. right. exists (v_bar 60), [s2t "ignored_method"]. split; [|split; [intros (h & x & K); discriminate|reflexivity]].
    split; [eexists _, _; reflexivity|]. eexists _, _. split; [reflexivity|]. split; [|discriminate].
    apply (fp_field _ (s2t "ignored_method") _ _ _ []); [reflexivity|]. apply fp_base. intros x K. discriminate.
  - apply pf_call. left. eexists _, _. reflexivity.
  - exists (v_foo 55 4), [s2t "ignored_method"]. split; [|reflexivity].
    split; [eexists _, _; reflexivity|]. eexists _, _. split; [reflexivity|]. split; [|discriminate].
    apply (fp_field _ (s2t "ignored_method") _ _ _ []); [reflexivity|]. apply fp_base. intros x K. discriminate.
Qed.

(** ** C32: statements containing statements *)
Theorem C32_leaf_or_call : forall E root st sp t, parsed E root -> result E root st ->
  candidate st Statement sp t ->
  exists s, in_file E root s /\ is_stmt s /\ n_span s = sp /\
    ((exists c, call_statement s c) \/ forall k m, In k (n_kids s) -> open_path E k m -> ~ is_stmt m).
Proof.
  intros E root st sp t HP HR HC. destruct (statement_origin E root st HP HR sp t HC) as (n & L & R & s & Hb & Hin & Hw & Hs & _ & (His & Hk & Hcase)).
  exists s. split; [exact Hin|]. split; [exact His|]. split; [exact Hs|].
  destruct Hcase as [(Hno & _ & _ & Hcs)|(c & Hc & _)]; [right|left; eauto]. intros k m Hkm Ho Hm.
  destruct (open_visits E true L R s m (op_kid E s k m (or_introl His) Hkm Ho) None) as (ctx & Hv).
  inversion Hv as [n0 c0|n0 c0 k' c' m' c'' Hch Hv']; subst.
  - (* m = s cannot be strictly inside s *)
    apply open_within in Ho.
    assert (Hid : forall a b, within a b -> nsize b <= nsize a).
    { intros a b Hab. induction Hab as [|a0 k0 b0 Hk0 _ IH0]; [lia|]. destruct a0 as [l0 ks0]. pose proof (nsize_kid l0 ks0 k0 Hk0). lia. }
    pose proof (Hid _ _ Ho). destruct m as [l ks]. pose proof (nsize_kid l ks k Hkm). lia.
  - apply Hcs. exists k', c', m, ctx. auto.
Qed.
Print Assumptions C32_leaf_or_call.

Theorem C32_never : forall E root st s k m t, parsed E root -> result E root st -> statements_apart E root ->
  in_file E root s -> is_stmt s -> (forall c, ~ call_statement s c) ->
  In k (n_kids s) -> open_path E k m -> is_stmt m -> ~ candidate st Statement (n_span s) t.
Proof.
  intros E root st s k m t HP HR HA Hin His Hno Hk Ho Hm HC.
  destruct (C32_leaf_or_call E root st _ t HP HR HC) as (s' & H1 & H2 & H3 & H4).
  assert (s' = s) by (apply HA; auto). subst s'. destruct H4 as [(c & Hc)|H4]; [exact (Hno c Hc)|exact (H4 k m Hk Ho Hm)].
Qed.
Print Assumptions C32_never.

Example C32_nonvacuous : (forall c, ~ call_statement g_s2 c) /\ In (mk 22 KGroup 1 15 31 [g_s3; g_s4]) (n_kids g_s2) /\
  open_path g_env (mk 22 KGroup 1 15 31 [g_s3; g_s4]) g_s3 /\ is_stmt g_s3 /\ in_file g_env g_root g_s2.
Proof.
  split; [intros c (l & e & r & rm & ct & d & H & K & _); inversion H; subst; discriminate|].
  split; [right; left; reflexivity|]. split; [eapply op_kid; [right; left; reflexivity|left; reflexivity|constructor]|].
  split; [eexists _, _, _, _; reflexivity|]. left. eapply wi_kid; [left; reflexivity|]. eapply wi_kid; [left; reflexivity|].
  eapply wi_kid; [right; left; reflexivity|constructor].
Qed.

(** Call statements are exempt: in [run(|| { a(); b = 1; }); last();], the call statement and both inner statements are
    candidates. *)
Definition c_inner1 := x_stmt 5 1 9 13 (x_call 6 1 9 12 "a" []).
Definition c_inner2 := mk 9 (KStmt true false false false) 1 14 20 [x_ex 10 1 14 19].
Definition c_outer := x_stmt 1 1 0 24 (x_call 2 1 0 23 "run" [mk 4 KExpr 1 4 22 [c_inner1; c_inner2]]).
Definition c_root := mk 0 KGroup 1 0 99 [x_test 20 "t" [c_outer; d_s4]].
Theorem C32_call_refuted : exists E root st s k m t, parsed E root /\ result E root st /\ statements_apart E root /\
  in_file E root s /\ is_stmt s /\ In k (n_kids s) /\ open_path E k m /\ is_stmt m /\
  candidate st Statement (n_span s) t /\ candidate st Statement (n_span m) t.
Proof.
  exists d_env, c_root, (st_of d_env c_root), c_outer, (x_call 2 1 0 23 "run" [mk 4 KExpr 1 4 22 [c_inner1; c_inner2]]), c_inner2, (s2t "t").
  split; [split; [vm_compute; reflexivity|intros x f fs H; discriminate]|].
  split; [exists 9%nat; vm_compute; reflexivity|].
  split. { intros s s' Hs Hs'. apply (apartb_ok (nodes c_root)); [vm_compute; reflexivity| |];
    match goal with H : in_file _ _ ?x |- In ?x _ => destruct H as [H|(y & f & fs & Hy & _)]; [apply within_nodes; exact H|discriminate] end. }
  split; [left; eapply wi_kid; [left; reflexivity|]; eapply wi_kid; [left; reflexivity|]; eapply wi_kid; [left; reflexivity|constructor]|].
  split; [eexists _, _, _, _; reflexivity|]. split; [left; reflexivity|].
  split.
  { eapply op_kid; [|right; left; reflexivity|].
    - right; right; left. split; [left; eexists _, _; reflexivity|]. right. split.
      + intros [(x & K & _)|(_ & [H|(b & p & Hm & _)])]; [discriminate| |].
        * inversion H as [c f Hno Hn Hi|c b p x Hm|c b p x Hm|c b p Hm]; subst; [cbn in Hn; inversion Hn; subst; discriminate| | |];
            destruct Hm as (_ & callee & args & Hk & Hf & Hp); cbn in Hk; inversion Hk; subst; inversion Hf; subst; try congruence; discriminate.
        * destruct Hm as (_ & callee & args & Hk & Hf & Hp); cbn in Hk; inversion Hk; subst; inversion Hf; subst; try congruence; discriminate.
      + intros (b & p & (_ & callee & args & Hk & Hf & Hp) & _); cbn in Hk; inversion Hk; subst; inversion Hf; subst; try congruence; discriminate.
    - eapply op_kid; [right; right; right; split; [reflexivity|left; reflexivity]|right; left; reflexivity|constructor]. }
  split; [eexists _, _, _, _; reflexivity|]. split; apply lists_dec; vm_compute; reflexivity.
Qed.
Print Assumptions C32_call_refuted.

(** ** C33: completeness *)
(** Every removable leaf or call statement of a test is a candidate of that test. *)
Theorem C33_statements_of_tests : forall E root st tn t s, parsed E root -> result E root st ->
  file_test E root tn t -> in_body E tn s -> removable_leaf s \/ removable_call E s ->
  (forall l, last_statement tn = Some l -> same E l s = false) -> v_skip E (n_span s) = false ->
  candidate st Statement (n_span s) t.
Proof. intros E root st tn t s HP HR. apply (test_statement_listed E root st HP HR). Qed.
Print Assumptions C33_statements_of_tests.

(** Every method call of a test that is not ignored is a candidate of that test, unless it is the call of the last (or of
    an unremovable) statement. *)
Theorem C33_method_calls_of_tests : forall E root st tn t c b p sp, parsed E root -> result E root st ->
  file_test E root tn t -> in_body E tn c -> seen_call c -> method_call c b p ->
  ~ ignored_call E c -> v_ign_met E (dotted p) = false -> (forall f, ~ local_call E c f) ->
  (forall s, within tn s -> call_statement s c -> removable s = true /\ forall l, last_statement tn = Some l -> same E l s = false) ->
  method_span E (n_span c) (n_span b) = Some sp -> v_skip E sp = false ->
  candidate st MethodCall sp t.
Proof.
  intros E root st tn t c b p sp HP HR Hft (k & Hk & Ho) Hs Hm Hni Hnm Hno Hkp Hsp Hsk.
  destruct (history_of E root st HP HR) as (H & HH & _ & HX). eapply test_yields; [exact HH|exact HX|exact Hft|].
  eapply method_yields; try eassumption.
  - intros (b' & p' & Hm' & Hi). destruct (method_call_det _ _ _ _ _ Hm Hm') as [-> ->]. congruence.
  - intros s Hws Hcs [Hr|(l & Hl & Hsame)]; destruct (Hkp s Hws Hcs) as [K1 K2]; [congruence|]. rewrite (K2 l Hl) in Hsame. discriminate.
Qed.
Print Assumptions C33_method_calls_of_tests.

(** The statements of a local function that a test calls directly are candidates of that test. *)
Theorem C33_statements_of_called_functions : forall E root st tn t c f s, parsed E root -> result E root st ->
  functions_apart E -> file_test E root tn t -> in_body E tn c -> seen_call c -> local_call E c f ->
  in_body E f s -> removable_leaf s \/ removable_call E s -> v_skip E (n_span s) = false ->
  candidate st Statement (n_span s) t.
Proof.
  intros E root st tn t c f s HP HR FA Hft Hb Hs Hl Hbs Hrm Hsk. destruct (history_of E root st HP HR) as (H & HH & HC & HX).
  destruct (direct_walked E root H tn t c f HH HC Hft Hb Hs Hl) as (b & g & H1 & H2 & H3 & H4 & H5 & x & fs & H6).
  destruct (local_call_walkable E c f Hl) as (y & gs & Hy). assert (f = g) by (eapply FA; eassumption). subst g.
  eapply function_yields; try eassumption. eapply walkable_in_file; exact H6.
Qed.
Print Assumptions C33_statements_of_called_functions.

(** If local functions are called from tests only (in Go nothing else is walked; in Foundry, also the initial values of state variables), the statements of every local
    function that some test reaches are candidates. *)
Theorem C33_statements_of_reached_functions : forall E root st f s, parsed E root -> result E root st ->
  functions_apart E -> calls_in_tests_only E root -> reached E root f ->
  in_body E f s -> removable_leaf s \/ removable_call E s -> v_skip E (n_span s) = false ->
  exists t, candidate st Statement (n_span s) t.
Proof.
  intros E root st f s HP HR FA HO Hf Hbs Hrm Hsk. destruct (history_of E root st HP HR) as (H & HH & HC & HX).
  destruct (reached_walked E root H HH HC FA HO f Hf) as (b & t & H1 & H2 & H3 & H4). exists t.
  eapply function_yields; try eassumption.
  assert (Hw : exists x fs, v_walkable E x = f :: fs) by (inversion Hf; eapply local_call_walkable; eassumption).
  destruct Hw as (x & fs & Hx). eapply walkable_in_file; exact Hx.
Qed.
Print Assumptions C33_statements_of_reached_functions.

(** The method calls of a local function likewise. *)
Lemma function_method H E st b g c base p sp t : explains E H st -> In b H -> b_nodes b = n_kids g -> In t (b_tests b) ->
  in_body E g c -> seen_call c -> method_call c base p -> ~ ignored_call E c -> v_ign_met E (dotted p) = false -> (forall f, ~ local_call E c f) ->
  (forall s, within g s -> call_statement s c -> removable s = true) ->
  method_span E (n_span c) (n_span base) = Some sp -> v_skip E sp = false -> candidate st MethodCall sp t.
Proof.
  intros (X & _) Hb Hn Ht (k & Hk & Ho) Hs Hm Hni Hnm Hno Hkp Hsp Hsk. apply X. exists b. split; [exact Hb|]. left. split; [exact Ht|]. rewrite Hn.
  eapply method_yields; try eassumption.
  - intros (b' & p' & Hm' & Hi). destruct (method_call_det _ _ _ _ _ Hm Hm') as [-> ->]. congruence.
  - intros s Hws Hcs [Hr|(l & Hl & _)]; [|discriminate]. specialize (Hkp s Hws Hcs). congruence.
Qed.
Theorem C33_method_calls_of_called_functions : forall E root st tn t c0 f c base p sp, parsed E root -> result E root st ->
  functions_apart E -> file_test E root tn t -> in_body E tn c0 -> seen_call c0 -> local_call E c0 f ->
  in_body E f c -> seen_call c -> method_call c base p -> ~ ignored_call E c -> v_ign_met E (dotted p) = false -> (forall f, ~ local_call E c f) ->
  (forall s, within f s -> call_statement s c -> removable s = true) ->
  method_span E (n_span c) (n_span base) = Some sp -> v_skip E sp = false -> candidate st MethodCall sp t.
Proof.
  intros E root st tn t c0 f c base p sp HP HR FA Hft Hb Hs Hl Hbc. destruct (history_of E root st HP HR) as (H & HH & HC & HX).
  destruct (direct_walked E root H tn t c0 f HH HC Hft Hb Hs Hl) as (b & g & H1 & H2 & H3 & H4 & H5 & x & fs & H6).
  destruct (local_call_walkable E c0 f Hl) as (y & gs & Hy). assert (f = g) by (eapply FA; eassumption). subst g.
  intros. eapply function_method; eassumption.
Qed.
Print Assumptions C33_method_calls_of_called_functions.
Theorem C33_method_calls_of_reached_functions : forall E root st f c base p sp, parsed E root -> result E root st ->
  functions_apart E -> calls_in_tests_only E root -> reached E root f ->
  in_body E f c -> seen_call c -> method_call c base p -> ~ ignored_call E c -> v_ign_met E (dotted p) = false -> (forall f, ~ local_call E c f) ->
  (forall s, within f s -> call_statement s c -> removable s = true) ->
  method_span E (n_span c) (n_span base) = Some sp -> v_skip E sp = false -> exists t, candidate st MethodCall sp t.
Proof.
  intros E root st f c base p sp HP HR FA HO Hf Hbc. destruct (history_of E root st HP HR) as (H & HH & HC & HX).
  destruct (reached_walked E root H HH HC FA HO f Hf) as (b & t & H1 & H2 & H3 & H4). intros. exists t.
  assert (Hw : exists x fs, v_walkable E x = f :: fs) by (inversion Hf; eapply local_call_walkable; eassumption).
  destruct Hw as (x & fs & Hx). eapply function_method; eassumption.
Qed.
Print Assumptions C33_method_calls_of_reached_functions.

(** Exactly: the candidates are what the bodies walked yield (S_Walk, S_Visitor). *)
Theorem C33_exact : forall E root st, parsed E root -> result E root st ->
  exists H, walk_history E root H /\ complete E H /\
    (forall k sp t, candidate st k sp t <-> exists b, In b H /\ body_yields E b k sp t) /\
    (forall t, In t (s_tset st) <-> exists b tn, In b H /\ finds_test E b tn t).
Proof.
  intros E root st HP HR. destruct (history_of E root st HP HR) as (H & HH & HC & (X & Y & _)). exists H. auto.
Qed.
Print Assumptions C33_exact.

Example C33_nonvacuous :
  file_test g_env g_root g_test (s2t "TestT") /\ in_body g_env g_test g_s4 /\ removable_leaf g_s4 /\
  in_body g_env g_test g_s3 /\ removable_call g_env g_s3 /\ same g_env g_s7 g_s3 = false /\
  functions_apart g_env /\ calls_in_tests_only g_env g_root /\ reached g_env g_root g_h /\ in_body g_env g_h g_h1.
Proof.
  assert (NL : forall c a b i x, In x ["g"; "k"] -> c = x_call i 1 a b x [] \/ c = x_call i 1 a b x [x_ex 34 1 22 23] -> (forall f, ~ local_call g_env c f) /\ ~ ignored_call g_env c).
  { intros c a b i x Hx Hc. split.
    - intros f (callee & args & y & fs & H1 & H2 & H3). destruct Hc; subst c; cbn in H1; inversion H1; subst; cbn in H2; inversion H2; subst; destruct Hx as [<-|[<-|[]]]; discriminate.
    - assert (Hnm : forall b0 p, ~ method_call c b0 p).
      { intros b0 p (_ & callee & args & Hk & Hf & Hp). destruct Hc; subst c; cbn in Hk; inversion Hk; subst; inversion Hf; subst; try congruence; discriminate. }
      intros [(y & K & _)|(_ & [H|(b0 & p & Hm & _)])]; [destruct Hc; subst c; discriminate| |exact (Hnm _ _ Hm)].
      inversion H as [c0 f0 Hno Hn Hi|c0 b0 p y Hm|c0 b0 p y Hm|c0 b0 p Hm]; subst; try (exact (Hnm _ _ Hm)).
      destruct Hc; subst c; cbn in Hn; inversion Hn; subst; destruct Hx as [<-|[<-|[]]]; discriminate. }
  split. { split; [eapply tp_kid; [right; right; right; left; reflexivity|left; reflexivity|constructor]|]. split; [eexists; reflexivity|reflexivity]. }
  assert (OB : forall s, open_path g_env (mk 2 KGroup 1 0 0 [g_s1; g_s2; g_s5; g_s6; g_s7]) s -> in_body g_env g_test s) by (intros s H; eexists; split; [left; reflexivity|exact H]).
  assert (O2 : forall s, In s [g_s3; g_s4] -> in_body g_env g_test s).
  { intros s Hs. apply OB. eapply op_kid; [right; left; reflexivity|right; left; reflexivity|].
    eapply op_kid; [left; eexists _, _, _, _; reflexivity|right; left; reflexivity|].
    eapply op_kid; [right; left; reflexivity|exact Hs|constructor]. }
  split; [apply O2; right; left; reflexivity|].
  split. { split; [eexists _, _, _, _; reflexivity|]. split; [intros c (l & e & r & rm & ct & d & H & K & _); inversion H; subst; discriminate|].
    split; [reflexivity|]. split; [reflexivity|]. split; [reflexivity|]. intros k m [<-|[]] Hm Hs. apply within_nodes in Hm. destruct Hm as [<-|[]]. destruct Hs as (? & ? & ? & ? & K). discriminate. }
  split; [apply O2; left; reflexivity|].
  split. { split; [reflexivity|]. exists (x_call 31 1 20 24 "g" [x_ex 34 1 22 23]). split; [eexists _, _, _, _, _, _; split; [reflexivity|split; [reflexivity|apply pf_call; left; eexists _, _; reflexivity]]|].
    destruct (NL (x_call 31 1 20 24 "g" [x_ex 34 1 22 23]) 20%nat 24%nat 31%nat "g") as [A B]; [left; reflexivity|right; reflexivity|]. auto. }
  split; [reflexivity|].
  split. { intros x y f g fs gs H1 H2 _. apply g_walk in H1. apply g_walk in H2. congruence. }
  split. { intros c f Hp Hs. assert (Hw : In c [g_root; g_test]).
    { inversion Hp as [|n k m K Hk Hp']; subst; [left; reflexivity|]. destruct Hk as [<-|[]].
      inversion Hp' as [|n k m K' Hk' Hp'']; subst; [right; left; reflexivity|].
      exfalso. destruct K' as [(? & ? & ? & ? & K')|[(? & ? & K')|[(? & K')|[K'|(_ & [K'|[(? & K')|[K'|(? & K')]]])]]]]; discriminate. }
    destruct Hs as (x & K). destruct Hw as [<-|[<-|[]]]; discriminate. }
  split. { eapply (re_test _ _ g_test (s2t "TestT") (x_call 61 1 38 41 "h" [])).
    - split; [eapply tp_kid; [right; right; right; left; reflexivity|left; reflexivity|constructor]|]. split; [eexists; reflexivity|reflexivity].
    - apply OB. eapply op_kid; [right; left; reflexivity|right; right; right; left; reflexivity|].
      eapply op_kid; [left; eexists _, _, _, _; reflexivity|left; reflexivity|constructor].
    - eexists. reflexivity.
    - eexists _, _, (s2t "h"), []. split; [reflexivity|]. split; reflexivity. }
  eexists. split; [left; reflexivity|constructor].
Qed.

(** Rust compares statements by structure only: in [inc(); inc();] the first statement equals the last one, and is not a
    candidate. *)
Definition i_s1 := x_stmt 1 1 0 6 (x_call 2 1 0 5 "inc" []).
Definition i_s2 := x_stmt 4 1 7 13 (x_call 5 1 7 12 "inc" []).
Definition i_test := x_test 20 "t" [i_s1; i_s2].
Definition i_root := mk 0 KGroup 1 0 99 [i_test].
Theorem C33_equal_to_last_refuted : exists E root st tn t s l, parsed E root /\ result E root st /\
  file_test E root tn t /\ in_body E tn s /\ removable s = true /\ (exists c, call_statement s c) /\
  last_statement tn = Some l /\ n_span l <> n_span s /\ s <> l /\ v_skip E (n_span s) = false /\
  (forall x, v_ign_fun E x = false /\ v_ign_met E x = false /\ v_walkable E x = []) /\
  forall t', ~ candidate st Statement (n_span s) t'.
Proof.
  exists (x_env fw_rust [] [] false (fun _ => []) g_ct), i_root, (st_of (x_env fw_rust [] [] false (fun _ => []) g_ct) i_root), i_test, (s2t "t"), i_s1, i_s2.
  split; [split; [vm_compute; reflexivity|intros x f fs H; discriminate]|].
  split; [exists 9%nat; vm_compute; reflexivity|].
  split. { split; [eapply tp_kid; [right; right; right; left; reflexivity|left; reflexivity|constructor]|]. split; [eexists; reflexivity|reflexivity]. }
  split. { eexists. split; [left; reflexivity|]. eapply op_kid; [right; left; reflexivity|left; reflexivity|constructor]. }
  split; [reflexivity|]. split. { eexists. eexists _, _, _, _, _, _. split; [reflexivity|]. split; [reflexivity|]. apply pf_call. left. eexists _, _. reflexivity. }
  split; [reflexivity|]. split; [discriminate|]. split; [discriminate|]. split; [reflexivity|].
  split; [intros x; repeat split; reflexivity|].
  apply lists_none. vm_compute. reflexivity.
Qed.
Print Assumptions C33_equal_to_last_refuted.

(** A local function also called outside of tests may be walked on behalf of no test:
    [it("t", () => { g(); last(); }); before(() => { f(); });] with [g() { f(); }] and [f() { k(); }]: the test reaches
    [f] through [g], but [k();] is not a candidate. *)
Definition o_g1 := x_stmt 40 1 30 33 (x_call 41 1 30 33 "f" []).
Definition o_g := mk 44 KGroup 1 30 34 [o_g1].
Definition o_f1 := x_stmt 50 1 40 44 (x_call 51 1 40 43 "k" []).
Definition o_f := mk 54 KGroup 1 40 45 [o_f1].
Definition o_wk (x : text) : list node := if text_eqb x (s2t "f") then [o_f] else if text_eqb x (s2t "g") then [o_g] else [].
Definition o_env := x_env fw_ts [] [] false o_wk g_ct.
Definition o_test := x_test 20 "t" [x_stmt 1 1 0 4 (x_call 2 1 0 3 "g" []); d_s4].
Definition o_root := mk 0 KGroup 1 0 99 [o_test; x_stmt 60 1 25 29 (x_call 61 1 25 28 "f" [])].
Lemma o_walk x f fs : v_walkable o_env x = f :: fs -> f = o_f \/ f = o_g.
Proof. cbn. unfold o_wk. destruct (text_eqb x (s2t "f")); [intros H; inversion H; auto|]. destruct (text_eqb x (s2t "g")); [intros H; inversion H; auto|discriminate]. Qed.
Theorem C33_called_outside_tests_refuted : exists E root st f s, parsed E root /\ result E root st /\ functions_apart E /\
  reached E root f /\ in_body E f s /\ removable_call E s /\ v_skip E (n_span s) = false /\
  forall t, ~ candidate st Statement (n_span s) t.
Proof.
  exists o_env, o_root, (st_of o_env o_root), o_f, o_f1.
  split; [split; [vm_compute; reflexivity|intros x f fs H; apply o_walk in H; destruct H; subst; vm_compute; reflexivity]|].
  split; [exists 9%nat; vm_compute; reflexivity|].
  split. { intros x y f g fs gs H1 H2 Hs. apply o_walk in H1. apply o_walk in H2. destruct H1, H2; subst; try reflexivity; discriminate. }
  split. { eapply (re_fun _ _ o_g (x_call 41 1 30 33 "f" [])).
    - eapply (re_test _ _ o_test (s2t "t") (x_call 2 1 0 3 "g" [])).
      + split; [eapply tp_kid; [right; right; right; left; reflexivity|left; reflexivity|constructor]|]. split; [eexists; reflexivity|reflexivity].
      + eexists. split; [left; reflexivity|]. eapply op_kid; [right; left; reflexivity|left; reflexivity|].
        eapply op_kid; [left; eexists _, _, _, _; reflexivity|left; reflexivity|constructor].
      + eexists. reflexivity.
      + eexists _, _, (s2t "g"), []. split; [reflexivity|]. split; reflexivity.
    - eexists. split; [left; reflexivity|]. eapply op_kid; [left; eexists _, _, _, _; reflexivity|left; reflexivity|constructor].
    - eexists. reflexivity.
    - eexists _, _, (s2t "f"), []. split; [reflexivity|]. split; reflexivity. }
  split. { eexists. split; [left; reflexivity|constructor]. }
  split. { split; [reflexivity|]. eexists. split; [eexists _, _, _, _, _, _; split; [reflexivity|split; [reflexivity|apply pf_call; left; eexists _, _; reflexivity]]|].
    assert (Hnm : forall b0 p, ~ method_call (x_call 51 1 40 43 "k" []) b0 p).
    { intros b0 p (_ & callee & args & Hk & Hf & Hp). cbn in Hk; inversion Hk; subst; inversion Hf; subst; try congruence; discriminate. }
    split.
    - intros [(y & K & _)|(_ & [H|(b0 & p & Hm & _)])]; [discriminate| |exact (Hnm _ _ Hm)].
      inversion H as [c0 f0 Hno Hn Hi|c0 b0 p y Hm|c0 b0 p y Hm|c0 b0 p Hm]; subst; try (exact (Hnm _ _ Hm)). discriminate.
    - intros f (callee & args & y & fs & H1 & H2 & H3). cbn in H1; inversion H1; subst; cbn in H2; inversion H2; subst; discriminate. }
  split; [reflexivity|].
  apply lists_none. vm_compute. reflexivity.
Qed.
Print Assumptions C33_called_outside_tests_refuted.

(** ** C34: the tests of a candidate *)
(** Every candidate has at least one test, and none twice. *)
Theorem C34_tests_nonempty : forall E root st sp ts, result E root st ->
  In (sp, ts) (stm_statement (s_maps st)) \/ In (sp, ts) (stm_method (s_maps st)) -> ts <> [] /\ NoDup ts.
Proof.
  intros E root st sp ts (fuel & Hv) Hin. destruct (visit_maps_ok E fuel root st Hv) as [[_ H1] [_ H2]].
  destruct Hin as [Hin|Hin]; [destruct (H1 _ _ Hin) as [Hn Hs]|destruct (H2 _ _ Hin) as [Hn Hs]]; (split; [exact Hn|exact Hs]).
Qed.
Print Assumptions C34_tests_nonempty.

(** Each of the tests contains the candidate, or calls a local function that contains it (directly or through other local
    functions). *)
Theorem C34_tests_reach : forall E root st k sp t, parsed E root -> result E root st -> functions_apart E ->
  candidate st k sp t -> exists m, source E m k sp /\ runs E root t m.
Proof.
  intros E root st k sp t HP HR FA HC. destruct (candidate_runs E root st HP HR k sp t FA HC) as (n & L & R & Hn & Hy).
  destruct (yields_source E L R (n_kids n) k sp Hy) as (kk & m & x & ctx & Hk & Hs & _ & _ & Hw).
  exists m. split; [exact Hs|]. assert (Hnm : within n m) by (eapply wi_kid; eassumption). destruct Hn as [Hn|Hn]; [left|right]; eauto.
Qed.
Print Assumptions C34_tests_reach.

Example C34_nonvacuous : functions_apart g_env /\ candidate g_st Statement (n_span g_h1) (s2t "TestT").
Proof. split; [intros x y f g fs gs H1 H2 _; apply g_walk in H1; apply g_walk in H2; congruence|]. apply lists_dec. vm_compute. reflexivity. Qed.

(** Rust does not tell functions with the same body apart: with [fn f() { k(); }], [fn g() { k(); }], a test [t1] calling
    [f] and a test [t2] calling [g], the statement of [f] is a candidate of [t2], and that of [g] is no candidate. *)
Definition w_f1 := x_stmt 50 1 40 44 (x_call 51 1 40 43 "k" []).
Definition w_f := mk 54 KGroup 1 40 45 [w_f1].
Definition w_g1 := x_stmt 60 1 50 54 (x_call 61 1 50 53 "k" []).
Definition w_g := mk 64 KGroup 1 50 55 [w_g1].
Definition w_wk (x : text) : list node := if text_eqb x (s2t "f") then [w_f] else if text_eqb x (s2t "g") then [w_g] else [].
Definition w_env := x_env fw_rust [] [] false w_wk g_ct.
Definition w_t1 := x_test 10 "t1" [x_stmt 1 1 0 4 (x_call 2 1 0 3 "f" []); d_s4].
Definition w_t2 := x_test 20 "t2" [x_stmt 30 1 21 25 (x_call 31 1 21 24 "g" []); x_stmt 34 1 26 30 (x_call 35 1 26 30 "last2" [])].
Definition w_root := mk 0 KGroup 1 0 99 [w_t1; w_t2].
Lemma w_walk x f fs : v_walkable w_env x = f :: fs -> (x = s2t "f" /\ f = w_f) \/ (x = s2t "g" /\ f = w_g).
Proof.
  cbn. unfold w_wk. destruct (text_eqb x (s2t "f")) eqn:H1; [apply text_eqb_eq in H1; intros H; inversion H; auto|].
  destruct (text_eqb x (s2t "g")) eqn:H2; [apply text_eqb_eq in H2; intros H; inversion H; auto|discriminate].
Qed.
Lemma w_in_file n : in_file w_env w_root n -> In n (nodes w_root ++ nodes w_f ++ nodes w_g).
Proof.
  intros [H|(x & f & fs & Hx & H)]; apply in_or_app; [left; apply within_nodes; exact H|right].
  apply in_or_app. apply w_walk in Hx. destruct Hx as [[_ ->]|[_ ->]]; [left|right]; apply within_nodes; exact H.
Qed.
(** The local functions that the call nodes of a list name. *)
Definition w_calls (l : list node) : list node :=
  flat_map (fun c => match n_kind c, n_kids c with KCall _ _, callee :: _ => match expr_name w_env callee with Some x => w_wk x | None => [] end | _, _ => [] end) l.
Lemma w_mentions n f : mentions w_env n f -> In f (w_calls (nodes n)).
Proof.
  intros (c & callee & args & x & fs & Hw & (h & y & K) & Hk & Hn & Hx). unfold w_calls. apply in_flat_map. exists c. split; [apply within_nodes; exact Hw|].
  rewrite K, Hk, Hn. cbn in Hx. rewrite Hx. left. reflexivity.
Qed.
Theorem C34_same_body_refuted : exists E root st k sp t, parsed E root /\ result E root st /\
  candidate st k sp t /\ forall m, source E m k sp -> ~ runs E root t m.
Proof.
  exists w_env, w_root, (st_of w_env w_root), Statement, (n_span w_f1), (s2t "t2").
  split; [split; [vm_compute; reflexivity|intros x f fs H; apply w_walk in H; destruct H as [[_ ->]|[_ ->]]; vm_compute; reflexivity]|].
  split; [exists 9%nat; vm_compute; reflexivity|]. split; [apply lists_dec; vm_compute; reflexivity|].
  assert (Ht : forall tn, test_named w_env w_root tn (s2t "t2") -> tn = w_t2).
  { intros tn (Hin & (i & K) & _). apply w_in_file in Hin.
    assert (A : In tn (filter (fun n => match n_kind n with KTest t _ => text_eqb t (s2t "t2") | _ => false end) (nodes w_root ++ nodes w_f ++ nodes w_g))) by (apply filter_In; split; [exact Hin|rewrite K; reflexivity]).
    vm_compute in A. destruct A as [A|[]]. symmetry. exact A. }
  assert (Hc : forall f, test_calls w_env w_root (s2t "t2") f -> f = w_g).
  { intros f Hf. induction Hf as [tn f Hn Hm|g f Hg IH Hm].
    - rewrite (Ht tn Hn) in Hm. apply w_mentions in Hm. vm_compute in Hm. destruct Hm as [Hm|[]]. symmetry. exact Hm.
    - subst g. apply w_mentions in Hm. vm_compute in Hm. destruct Hm. }
  intros m (Hm & Hsp) [(tn & Hn & Hw)|(f & Hf & Hw)].
  - rewrite (Ht tn Hn) in Hw. apply within_nodes in Hw.
    assert (A : In m (filter (fun n => match span_compare (n_span n) (n_span w_f1) with Eq => true | _ => false end) (nodes w_t2))) by (apply filter_In; split; [exact Hw|rewrite (proj2 (L_Span.span_compare_eq _ _) Hsp); reflexivity]).
    vm_compute in A. exact A.
  - rewrite (Hc f Hf) in Hw. apply within_nodes in Hw.
    assert (A : In m (filter (fun n => match span_compare (n_span n) (n_span w_f1) with Eq => true | _ => false end) (nodes w_g))) by (apply filter_In; split; [exact Hw|rewrite (proj2 (L_Span.span_compare_eq _ _) Hsp); reflexivity]).
    vm_compute in A. exact A.
Qed.
Print Assumptions C34_same_body_refuted.

(** ** C35: local functions *)
(** [s_ret] are the local functions walked, one entry for each walk of a body ([local_loop]). None is walked twice, and
    each is called from the file or from another walked function. *)
Theorem C35_walked_once : forall E root st, parsed E root -> result E root st ->
  NoDup (s_ret st) /\
  (forall i j f g, nth_error (s_ret st) i = Some f -> nth_error (s_ret st) j = Some g -> same E f g = true -> i = j) /\
  (forall f, In f (s_ret st) -> called E root f).
Proof.
  intros E root st HP HR. destruct (history_of E root st HP HR) as (H & HH & HC & (X & Y & Z)). rewrite Z.
  pose proof (history_distinct E root H HH) as HD.
  split; [apply (distinct_nodup E); exact HD|]. split; [|apply (history_called E root H HH)].
  clear - HD. induction (done H) as [|x l IH]; intros i j f g Hi Hj Hs; [destruct i; discriminate|]. cbn [distinct] in HD. destruct HD as [H1 H2].
  destruct i as [|i], j as [|j]; cbn [nth_error] in Hi, Hj; [reflexivity| | |f_equal; eapply IH; eassumption].
  - inversion Hi; subst x. apply nth_error_In in Hj. rewrite (H1 g Hj) in Hs. discriminate.
  - inversion Hj; subst x. apply nth_error_In in Hi. rewrite same_sym in Hs. rewrite (H1 f Hi) in Hs. discriminate.
Qed.
Print Assumptions C35_walked_once.

(** The walk ends: with finitely many local functions [F], at most [length F] of them are walked, and the result does
    not depend on the bound. *)
Theorem C35_walk_ends : forall E root F, well_formed E root = true ->
  (forall x f fs, v_walkable E x = f :: fs -> well_formed E f = true /\ In f F) ->
  exists r, r <> LOutOfFuel /\ forall fuel, length F <= fuel -> visit_file E fuel root = r.
Proof.
  intros E root F W HF. pose proof (visit_terminates E F (length F) root W HF (le_n _)) as HT.
  exists (visit_file E (length F) root). split; [exact HT|]. intros fuel Hf. eapply visit_more; [reflexivity|exact HT|exact Hf].
Qed.
Print Assumptions C35_walk_ends.

(** [g_h] calls itself. *)
Example C35_nonvacuous : mentions g_env g_h g_h /\ s_ret g_st = [g_h] /\
  (forall x f fs, v_walkable g_env x = f :: fs -> well_formed g_env f = true /\ In f [g_h]).
Proof.
  split; [|split; [vm_compute; reflexivity|intros x f fs H; apply g_walk in H; subst f; split; [vm_compute; reflexivity|left; reflexivity]]].
  exists (x_call 85 1 64 67 "h" []), (x_id 86 1 64 65 "h"), [], (s2t "h"), []. 
  split; [eapply wi_kid; [right; left; reflexivity|]; eapply wi_kid; [left; reflexivity|constructor]|].
  split; [eexists _, _; reflexivity|]. split; [reflexivity|]. split; reflexivity.
Qed.

(** ** C36: the walker's assertions *)
Theorem C36_no_panic : forall E fuel root, parsed E root -> flat_tests root -> spans_ok E root ->
  (forall x f fs, v_walkable E x = f :: fs -> no_test f /\ spans_ok E f) ->
  visit_file E fuel root <> LPanic.
Proof.
  intros E fuel root [W WF] FT SO HF. apply visit_no_panic; auto. intros x g fs Hx. destruct (HF x g fs Hx). split; [eapply WF; exact Hx|auto].
Qed.
Print Assumptions C36_no_panic.

Lemma no_test_dec n : forallb (fun m => match n_kind m with KTest _ _ => false | _ => true end) (nodes n) = true -> no_test n.
Proof. intros H m t b Hm K. apply within_nodes in Hm. rewrite forallb_forall in H. specialize (H m Hm). rewrite K in H. discriminate. Qed.
Example C36_nonvacuous : parsed g_env g_root /\ flat_tests g_root /\ spans_ok g_env g_root /\ no_test g_h /\ spans_ok g_env g_h.
Proof.
  assert (SO : forall n, In n [g_root; g_h] -> spans_ok g_env n).
  { intros n Hn c b p Hc Hm. apply within_nodes in Hc.
    destruct (callee_is_named_field c) as [[x b0]|] eqn:Hnf; [|exfalso; exact (named_field_none c Hnf b p Hm)].
    assert (A : In c (filter (fun c => negb (is_none (callee_is_named_field c))) (nodes n))) by (apply filter_In; split; [exact Hc|rewrite Hnf; reflexivity]).
    destruct Hn as [<-|[<-|[]]].
    - assert (B : c = x_meth 51 1 37 (x_id 53 1 32 33 "o") "m" []) by (cbn in A; destruct A as [A|[]]; symmetry; exact A). clear A. subst c.
      assert (Hm' : method_call (x_meth 51 1 37 (x_id 53 1 32 33 "o") "m" []) (x_id 53 1 32 33 "o") [s2t "m"]).
      { split; [eexists _, _; reflexivity|]. eexists _, _. split; [reflexivity|]. split; [|discriminate].
        apply (fp_field _ (s2t "m") _ _ _ []); [reflexivity|]. apply fp_base. intros y K. discriminate. }
      destruct (method_call_det _ _ _ _ _ Hm Hm') as [-> _]. 
      assert (E : method_span g_env (n_span (x_meth 51 1 37 (x_id 53 1 32 33 "o") "m" [])) (n_span (x_id 53 1 32 33 "o")) = Some (xsp 1 33 37)) by (vm_compute; reflexivity).
      rewrite E. discriminate.
    - exfalso. cbn in A. exact A. }
  split; [exact g_parsed|]. split; [|split; [apply SO; left; reflexivity|split; [apply no_test_dec; vm_compute; reflexivity|apply SO; right; left; reflexivity]]].
  intros m t b k Hm K Hk. apply within_nodes in Hm.
  assert (A : In m (filter (fun n => match n_kind n with KTest _ _ => true | _ => false end) (nodes g_root))) by (apply filter_In; split; [exact Hm|rewrite K; reflexivity]).
  vm_compute in A. destruct A as [<-|[]]. destruct Hk as [<-|[]]. apply no_test_dec. vm_compute. reflexivity.
Qed.

(** Not on every file: a Solidity statement [foo().x;]; TypeScript's [await it("m", () => {});]; a test inside a test. *)
Theorem C36_panics_refuted :
  visit_file (x_env fw_foundry [] [] false (fun _ => []) g_ct) 9
    (mk 0 KGroup 1 0 99 [x_test 20 "t" [x_stmt 1 1 0 8 (mk 2 (KField (Some (s2t "x"))) 1 0 7 [x_call 3 1 0 5 "foo" []]); d_s4]]) = LPanic /\
  visit_file (x_env fw_ts [] [] false (fun _ => []) g_ct) 9
    (mk 0 KGroup 1 0 99 [x_stmt 1 1 0 28 (mk 2 KAwait 1 0 27 [mk 3 (KCall true (Some (s2t "it"))) 1 6 27 [x_id 4 1 6 8 "it"]])]) = LPanic /\
  visit_file (x_env fw_rust [] [] false (fun _ => []) g_ct) 9
    (mk 0 KGroup 1 0 99 [x_test 20 "t" [mk 1 (KStmt true false true false) 1 0 8 [x_test 30 "u" [d_s3]]; d_s4]]) = LPanic.
Proof. repeat split; vm_compute; reflexivity. Qed.
Print Assumptions C36_panics_refuted.

(** ** C37: method calls that are statements *)
(** A statement [x.foo();] of a test yields two candidates: the statement, and the method call. (README.md:264-266 says
    that such a method call is not removed.) *)
Theorem C37_both_candidates : forall E root st tn t s c b p sp, parsed E root -> result E root st ->
  file_test E root tn t -> in_body E tn s -> in_body E tn c -> call_statement s c ->
  (forall s', within tn s' -> call_statement s' c -> s' = s) ->
  seen_call c -> method_call c b p -> ~ ignored_call E c -> v_ign_met E (dotted p) = false -> (forall f, ~ local_call E c f) ->
  removable s = true -> (forall l, last_statement tn = Some l -> same E l s = false) ->
  method_span E (n_span c) (n_span b) = Some sp -> v_skip E sp = false -> v_skip E (n_span s) = false ->
  candidate st Statement (n_span s) t /\ candidate st MethodCall sp t.
Proof.
  intros E root st tn t s c b p sp HP HR Hft Hbs Hbc Hcs Hu Hsc Hm Hni Hnm Hno Hr HL Hsp Hsk Hsk'. split.
  - eapply C33_statements_of_tests; try eassumption. right. split; [exact Hr|]. exists c. auto.
  - eapply C33_method_calls_of_tests; try eassumption. intros s' Hw Hc. rewrite (Hu s' Hw Hc). auto.
Qed.
Print Assumptions C37_both_candidates.

(** As in [g_root] above ([o.m();]). *)
Theorem C37_primary_effect_refuted : exists E root st s c b p sp t, parsed E root /\ result E root st /\
  statements_apart E root /\ in_file E root s /\ call_statement s c /\ method_call c b p /\
  method_span E (n_span c) (n_span b) = Some sp /\
  candidate st Statement (n_span s) t /\ candidate st MethodCall sp t.
Proof.
  exists g_env, g_root, g_st, g_s5, (x_meth 51 1 37 (x_id 53 1 32 33 "o") "m" []), (x_id 53 1 32 33 "o"), [s2t "m"], (xsp 1 33 37), (s2t "TestT").
  split; [exact g_parsed|]. split; [exact g_result|]. split; [exact g_apart|].
  split; [left; eapply wi_kid; [left; reflexivity|]; eapply wi_kid; [left; reflexivity|]; eapply wi_kid; [right; right; left; reflexivity|constructor]|].
  split; [eexists _, _, _, _, _, _; split; [reflexivity|split; [reflexivity|apply pf_call; left; eexists _, _; reflexivity]]|].
  split. { split; [eexists _, _; reflexivity|]. eexists _, _. split; [reflexivity|]. split; [|discriminate].
    apply (fp_field _ (s2t "m") _ _ _ []); [reflexivity|]. apply fp_base. intros x K. discriminate. }
  split; [vm_compute; reflexivity|]. split; apply lists_dec; vm_compute; reflexivity.
Qed.
Print Assumptions C37_primary_effect_refuted.

(** ** C38: arguments of ignored calls *)
(** No candidate is inside the arguments of an ignored call, macro call or method call, unless that call is the call of the
    last statement of the test or of a statement that cannot be removed, or goes to a local function. *)
Theorem C38_arguments_left_alone : forall E root st k sp t, parsed E root -> result E root st ->
  NoDup (ids root) -> (forall x f fs, v_walkable E x = f :: fs -> n_kind f = KGroup /\ NoDup (ids f)) ->
  v_visit_args E = false -> candidate st k sp t ->
  exists n L m, body_of E root t n L /\ within n m /\ source E m k sp /\
    forall c, within n c -> seen_call c \/ is_macro c -> ignored_call E c \/ ignored_method E c ->
      (forall f, ~ local_call E c f) ->
      (forall s, within n s -> call_statement s c -> removable s = true /\ forall l, L = Some l -> same E l s = false) ->
      ~ in_arguments c m.
Proof.
  intros E root st k sp t HP HR ND NDF HV HC. destruct (arguments_closed E root st HP HR k sp t ND NDF HC) as (n & L & m & H1 & H2 & H3 & H4).
  exists n, L, m. split; [exact H1|]. split; [exact H2|]. split; [exact H3|]. intros c Hw Hs Hi Hno Hk. apply H4; auto.
Qed.
Print Assumptions C38_arguments_left_alone.

(** [f(x.m()); last();] with [f] ignored, and then [f(x.m());] as the last statement. *)
Definition a_arg := x_meth 5 1 7 (x_ex 7 1 2 3) "m" [].
Definition a_call := x_call 2 1 0 8 "f" [a_arg].
Definition a_s := x_stmt 1 1 0 9 a_call.
Definition a_env := x_env fw_ts ["f"] [] false (fun _ => []) g_ct.
Definition a_root := mk 0 KGroup 1 0 99 [x_test 20 "t" [a_s; mk 30 (KStmt true false false false) 1 10 14 []; d_s4]].
Definition a_last := mk 0 KGroup 1 0 99 [x_test 20 "t" [d_s4; a_s]].
Lemma a_ignored : ignored_call a_env a_call.
Proof.
  right. split; [eexists _, _; reflexivity|]. left. eapply (ri_function _ _ (s2t "f")); [|reflexivity|reflexivity].
  intros b0 p (_ & callee & args & Hk & Hf & Hp). cbn in Hk; inversion Hk; subst; inversion Hf; subst; try congruence; discriminate.
Qed.
Example C38_nonvacuous : parsed a_env a_root /\ result a_env a_root (st_of a_env a_root) /\ NoDup (ids a_root) /\
  ignored_call a_env a_call /\ in_arguments a_call a_arg /\
  cands (st_of a_env a_root) = [(Statement, 10, 14, [s2t "t"])]%nat.
Proof.
  split; [split; [vm_compute; reflexivity|intros x f fs H; discriminate]|]. split; [exists 9%nat; vm_compute; reflexivity|].
  split; [cbv; repeat (constructor; [cbn; intuition discriminate|]); constructor|]. split; [exact a_ignored|].
  split; [|vm_compute; reflexivity]. exists a_arg. split; [constructor|]. right. eexists _, _. split; [reflexivity|left; reflexivity].
Qed.
Theorem C38_last_statement_refuted : exists E root st c m sp t, parsed E root /\ result E root st /\ v_visit_args E = false /\
  within root c /\ seen_call c /\ ignored_call E c /\ in_arguments c m /\ source E m MethodCall sp /\ candidate st MethodCall sp t.
Proof.
  exists a_env, a_last, (st_of a_env a_last), a_call, a_arg, (xsp 1 3 7), (s2t "t").
  split; [split; [vm_compute; reflexivity|intros x f fs H; discriminate]|]. split; [exists 9%nat; vm_compute; reflexivity|].
  split; [reflexivity|].
  split; [eapply wi_kid; [left; reflexivity|]; eapply wi_kid; [left; reflexivity|]; eapply wi_kid; [right; left; reflexivity|]; eapply wi_kid; [left; reflexivity|constructor]|].
  split; [eexists; reflexivity|]. split; [exact a_ignored|].
  split; [exists a_arg; split; [constructor|]; right; eexists _, _; split; [reflexivity|left; reflexivity]|].
  split; [|apply lists_dec; vm_compute; reflexivity].
  exists (x_ex 7 1 2 3), [s2t "m"]. split; [|vm_compute; reflexivity].
  split; [eexists _, _; reflexivity|]. eexists _, _. split; [reflexivity|]. split; [|discriminate].
  apply (fp_field _ (s2t "m") _ _ _ []); [reflexivity|]. apply fp_base. intros x K. discriminate.
Qed.
Print Assumptions C38_last_statement_refuted.
