(** C79: where statements of a Solidity file are looked for. *)
From Verif Require Import Base M_Text M_Span M_Run M_Visitor S_Visitor S_Walk S_Candidates M_Foundry P_Visitor P_Foundry P_Sol S_Foundry S_Sol M_Solang S_Solang.

(** ** Expressions and statements, back *)
Lemma pt_call e i sp f a : to_expr e = ECall i sp f a -> exists l g args, e = XCall l g args /\ f = to_expr g /\ a = map to_expr args /\ i = l_id l /\ sp = l_span l.
Proof.
  destruct e as [l n|l b n|l g args|l g o|l g args|o l b|o l b c|l b c|l c b d|l b o|l b o o'|l ps|l es|l|l es]; cbn [to_expr]; intros H; try discriminate.
  - inversion H; subst. exists l, g, args. auto 6.
  - destruct b; discriminate.
Qed.
Lemma pt_member e i sp b n : to_expr e = EMember i sp b n -> exists l c, e = XMember l c n /\ b = to_expr c.
Proof.
  destruct e as [l m|l c m|l g args|l g o|l g args|o l c|o l c d|l c d|l c d d'|l c o|l c o o'|l ps|l es|l|l es]; cbn [to_expr]; intros H; try discriminate.
  - inversion H; subst. eauto.
  - destruct c; discriminate.
Qed.
Lemma pt_variable e i sp n : to_expr e = EVar i sp n -> exists l, e = XVariable l n /\ i = l_id l /\ sp = l_span l.
Proof.
  destruct e as [l m|l c m|l g args|l g o|l g args|o l c|o l c d|l c d|l c d d'|l c o|l c o o'|l ps|l es|l|l es]; cbn [to_expr]; intros H; try discriminate.
  - inversion H; subst. eauto.
  - destruct c; discriminate.
Qed.
Lemma pt_assign e i sp ns r : to_expr e = EAssignList i sp ns r -> exists l l' ps r', e = XAssign l (XList l' ps) r' /\ ns = map named_param ps /\ r = to_expr r'.
Proof.
  destruct e as [l m|l c m|l g args|l g o|l g args|o l c|o l c d|l c d|l c d d'|l c o|l c o o'|l ps|l es|l|l es]; cbn [to_expr]; intros H; try discriminate.
  destruct c; try discriminate. inversion H; subst. eexists _, _, _, _. eauto.
Qed.
Lemma to_stmt_id s : stmt_id (to_stmt s) = l_id (stmt_loc s).
Proof. destruct s; reflexivity. Qed.
Lemma to_stmt_span s : stmt_span (to_stmt s) = l_span (stmt_loc s).
Proof. destruct s; reflexivity. Qed.
Lemma pt_block s i sp l : to_stmt s = SBlock i sp l -> exists lc u ss, s = TBlock lc u ss /\ l = map to_stmt ss /\ i = l_id lc /\ sp = l_span lc.
Proof. destruct s; cbn [to_stmt]; unfold at_loc; intros H; try discriminate. inversion H; subst. eexists _, _, _. eauto. Qed.
Lemma block_iff s : is_block s <-> ~ proper (to_stmt s).
Proof.
  split.
  - intros (l & u & ss & ->) (k & i & sp & parts & H). discriminate.
  - intros H. destruct s; try (exfalso; apply H; eexists _, _, _, _; reflexivity). eexists _, _, _. reflexivity.
Qed.
Lemma pt_expression s i sp parts : to_stmt s = SStmt SKExpr i sp parts -> exists l e, s = TExpression l e /\ parts = [PExpr (to_expr e)] /\ i = l_id l /\ sp = l_span l.
Proof. destruct s; cbn [to_stmt]; unfold at_loc; intros H; try discriminate. inversion H; subst. eexists _, _. eauto. Qed.

Lemma cheatcode_iff s : prefix_cheatcode (to_stmt s) <-> cheatcode s.
Proof.
  split.
  - intros (i & sp & i1 & sp1 & i2 & sp2 & i3 & sp3 & m & args & H & Hm). apply pt_expression in H as (l & e & -> & H & _ & _). injection H as H.
    symmetry in H. apply pt_call in H as (l1 & g & args' & -> & Hg & _). symmetry in Hg. apply pt_member in Hg as (l2 & c & -> & Hc).
    symmetry in Hc. apply pt_variable in Hc as (l3 & -> & _). eexists _, _, _, _, _, _. split; [reflexivity|exact Hm].
  - intros (l & l1 & l2 & l3 & m & args & -> & Hm). eexists _, _, _, _, _, _, _, _, _, _. split; [reflexivity|exact Hm].
Qed.

Lemma in_olist {A} (x : A) o : In x (olist o) <-> o = Some x.
Proof. destruct o as [a|]; cbn; [|split; [tauto|discriminate]]. split; [intros [->|[]]; reflexivity|intros H; injection H; auto]. Qed.
Lemma no_stmt l y : ~ In (PStmt y) (map pe l).
Proof. intros H. apply in_map_iff in H as (e & H & _). discriminate. Qed.
Lemma no_stmt_named (l : list (text * pexpr)) y : ~ In (PStmt y) (map (fun a => pe (snd a)) l).
Proof. intros H. apply in_map_iff in H as (e & H & _). discriminate. Qed.

(** The statements among the parts of a statement. *)
Lemma branch_part s x : branch s x -> exists k parts, to_stmt s = at_loc k (stmt_loc s) parts /\ In (PStmt (to_stmt x)) parts.
Proof.
  intros H. destruct H; cbn [to_stmt stmt_loc]; eexists _, _; (split; [reflexivity|]).
  - right. left. reflexivity.
  - right. right. left. reflexivity.
  - right. left. reflexivity.
  - left. reflexivity.
  - left. reflexivity.
  - rewrite !in_app_iff. do 3 right. left. reflexivity.
  - right. rewrite !in_app_iff. left. right. left. reflexivity.
  - right. apply in_or_app. right. apply in_flat_map. exists c. split; [assumption|]. destruct c; apply in_or_app; right; left; reflexivity.
Qed.
Lemma part_branch s k i sp parts y : to_stmt s = SStmt k i sp parts -> In (PStmt y) parts -> exists x, branch s x /\ y = to_stmt x.
Proof.
  intros H I. destruct s as [l u ss|l|l args|l c a o|l c a|l e|l t n o|l o c n b|l a c|l|l|l o|l es|l args|l e|l e r cs|l]; cbn [to_stmt] in H; unfold at_loc in H; try discriminate;
    inversion H; subst; clear H; cbn [In app] in I; unfold pe in I;
    try solve [destruct I as [I|[]]; discriminate]; try solve [destruct I].
  - destruct (no_stmt_named _ _ I).
  - destruct I as [I|[I|I]]; [discriminate|injection I as <-; eexists; split; [constructor|reflexivity]|].
    destruct o as [x|]; [|destruct I]. destruct I as [I|[]]. injection I as <-. eexists. split; [apply br_else|reflexivity].
  - destruct I as [I|[I|[]]]; [discriminate|injection I as <-]. eexists. split; [constructor|reflexivity].
  - destruct I as [I|I]; [discriminate|]. destruct (no_stmt _ _ I).
  - rewrite !in_app_iff in I. destruct I as [I|[I|[I|I]]]; [|destruct (no_stmt _ _ I)|destruct (no_stmt _ _ I)|].
    + destruct o as [x|]; [|destruct I]. destruct I as [I|[]]. injection I as <-. eexists. split; [constructor|reflexivity].
    + destruct b as [x|]; [|destruct I]. destruct I as [I|[]]. injection I as <-. eexists. split; [apply br_for_body|reflexivity].
  - destruct I as [I|[I|[]]]; [injection I as <-|discriminate]. eexists. split; [constructor|reflexivity].
  - destruct (no_stmt _ _ I).
  - destruct (no_stmt _ _ I).
  - destruct (no_stmt_named _ _ I).
  - destruct I as [I|I]; [discriminate|]. apply in_app_or in I as [I|I].
    + destruct r as [[ps x]|]; [|destruct I]. apply in_app_or in I as [I|[I|[]]]; [destruct (no_stmt _ _ I)|]. injection I as <-. eexists. split; [constructor|reflexivity].
    + apply in_flat_map in I as (c & Hc & I). exists (catch_body c). split; [constructor; exact Hc|].
      destruct c as [o x|n p x]; apply in_app_or in I as [I|[I|[]]]; try destruct (no_stmt _ _ I); injection I as <-; reflexivity.
Qed.

(** Nothing that is in a body is missed, and nothing else is looked at. *)
Theorem C79_positions : forall b x, inside (to_stmt b) x <-> exists s, below b s /\ x = to_stmt s.
Proof.
  intros b x. split.
  - intros H. remember (to_stmt b) as r eqn:R. revert b R. induction H as [r|i sp l y s Hy _ IH|k i sp parts y s Hy _ IH]; intros b R.
    + exists b. split; [constructor|exact R].
    + symmetry in R. apply pt_block in R as (lc & u & ss & -> & -> & _). apply in_map_iff in Hy as (z & <- & Hz). destruct (IH z eq_refl) as (s' & Hs & ->).
      exists s'. split; [eapply be_block; eassumption|reflexivity].
    + symmetry in R. destruct (part_branch _ _ _ _ _ _ R Hy) as (z & Hz & ->). destruct (IH z eq_refl) as (s' & Hs & ->). exists s'. split; [eapply be_branch; eassumption|reflexivity].
  - intros (s & H & ->). induction H as [s|l u ss x s Hx _ IH|a x s Hx _ IH].
    + constructor.
    + cbn [to_stmt]. eapply in_block; [apply in_map; exact Hx|exact IH].
    + destruct (branch_part _ _ Hx) as (k & parts & -> & Hp). eapply in_part; eassumption.
Qed.
Lemma map_split {A B} (f : A -> B) l a b c : map f l = a ++ b :: c -> exists a' b' c', l = a' ++ b' :: c' /\ map f a' = a /\ f b' = b /\ map f c' = c.
Proof.
  revert a. induction l as [|x l IH]; intros [|y a] H; try discriminate; cbn in H; inversion H; subst.
  - exists [], x, l. auto.
  - destruct (IH _ H2) as (a' & b' & c' & -> & <- & <- & <-). exists (x :: a'), b', c'. auto.
Qed.
Lemma last_cheat_pt pre : (forall p c, pre = p ++ [c] -> ~ cheatcode c) <-> (forall p c, map to_stmt pre = p ++ [c] -> ~ prefix_cheatcode c).
Proof.
  split; intros H p c Q.
  - apply map_split in Q as (a & b & c' & -> & _ & <- & Hc). destruct c'; [|discriminate]. rewrite cheatcode_iff. apply (H a b). reflexivity.
  - rewrite <- cheatcode_iff. apply (H (map to_stmt p)). subst pre. rewrite map_app. reflexivity.
Qed.
(** The same without what comes after a cheatcode. *)
Theorem C79_reached : forall b x, exposed (to_stmt b) x <-> exists s, reached b s /\ x = to_stmt s.
Proof.
  intros b x. split.
  - intros H. remember (to_stmt b) as r eqn:R. revert b R. induction H as [r|i sp pre y post s Hy _ IH|k i sp parts y s Hy _ IH]; intros b R.
    + exists b. split; [constructor|exact R].
    + symmetry in R. apply pt_block in R as (lc & u & ss & -> & R & _). symmetry in R. apply map_split in R as (a & z & c & -> & <- & <- & <-).
      destruct (IH z eq_refl) as (s' & Hs & ->). exists s'. split; [apply re_block; [apply last_cheat_pt; exact Hy|exact Hs]|reflexivity].
    + symmetry in R. destruct (part_branch _ _ _ _ _ _ R Hy) as (z & Hz & ->). destruct (IH z eq_refl) as (s' & Hs & ->). exists s'. split; [eapply re_branch; eassumption|reflexivity].
  - intros (s & H & ->). induction H as [s|l u pre x post s Hx _ IH|a x s Hx _ IH].
    + constructor.
    + cbn [to_stmt]. rewrite map_app. cbn [map]. apply ex_block; [apply last_cheat_pt; exact Hx|exact IH].
    + destruct (branch_part _ _ Hx) as (k & parts & -> & Hp). eapply ex_part; eassumption.
Qed.
Print Assumptions C79_positions.
Print Assumptions C79_reached.

(** ** The functions *)
Lemma decl_no_fun d g : ~ In (IFun g) (decl_items d).
Proof. unfold decl_items. intros H. apply in_map_iff in H as (e & H & _). discriminate. Qed.
Lemma functions_in items g : In g (functions items) <-> In (IFun g) items.
Proof.
  unfold functions. rewrite in_flat_map. split.
  - intros ([f|e] & H & I); [destruct I as [<-|[]]; exact H|destruct I].
  - intros H. exists (IFun g). split; [exact H|left; reflexivity].
Qed.
Theorem C79_functions : forall u g, In g (functions (to_items u)) <-> exists f, function_of u f /\ g = to_fun f.
Proof.
  intros u g. rewrite functions_in. unfold to_items. rewrite in_flat_map. split.
  - intros ([c|f|d] & Hp & I); cbn [part_items] in I.
    + unfold contract_items in I. apply in_app_or in I as [I|I]; [apply in_map_iff in I as (e & I & _); discriminate|]. apply in_flat_map in I as ([f|d] & Hk & I); cbn [cpart_items] in I.
      * destruct I as [I|[]]. injection I as <-. exists f. split; [right; exists c; auto|reflexivity].
      * destruct (decl_no_fun _ _ I).
    + destruct I as [I|[]]. injection I as <-. exists f. split; [left; exact Hp|reflexivity].
    + destruct (decl_no_fun _ _ I).
  - intros (f & [H|(c & H & Hk)] & ->).
    + exists (UFun f). split; [exact H|left; reflexivity].
    + exists (UContract c). split; [exact H|]. unfold part_items, contract_items. apply in_or_app. right. apply in_flat_map. exists (KFun f). split; [exact Hk|left; reflexivity].
Qed.
Lemma pure_iff f : is_pure f = false <-> ~ In (AMutability MPure) (pf_attrs f).
Proof.
  unfold is_pure. split.
  - intros H I. assert (T : existsb (fun a => match a with AMutability MPure => true | _ => false end) (pf_attrs f) = true) by (apply existsb_exists; exists (AMutability MPure); auto). congruence.
  - intros H. destruct (existsb _ (pf_attrs f)) eqn:T; [|reflexivity]. apply existsb_exists in T as ([v|[]|n a|] & I & Q); try discriminate. contradiction.
Qed.
(** Which functions are tests. *)
Theorem C79_tests : forall u g t, sol_test (to_items u) g t <-> exists f, test_of u f t /\ g = to_fun f.
Proof.
  intros u g t. unfold sol_test, test_function. rewrite C79_functions. split.
  - intros ((f & Hf & ->) & H1 & H2 & H3 & i & sp & l & H4). exists f. split; [|reflexivity]. split; [exact Hf|]. split; [exact H1|]. split; [exact H2|].
    split; [apply pure_iff; exact H3|]. cbn [to_fun f_body] in H4. destruct (pf_body f) as [b|]; [|discriminate]. injection H4 as H4. apply pt_block in H4 as (lc & v & ss & -> & _).
    eexists. split; [reflexivity|eexists _, _, _; reflexivity].
  - intros (f & (Hf & H1 & H2 & H3 & b & Hb & (l & v & ss & ->)) & ->). split; [exists f; auto|]. split; [exact H1|]. split; [exact H2|]. split; [apply pure_iff; exact H3|].
    cbn [to_fun f_body]. rewrite Hb. eexists _, _, _. reflexivity.
Qed.
Print Assumptions C79_functions.
Print Assumptions C79_tests.

(** ** Candidates *)
Lemma kept_iff s : sol_kept (to_stmt s) <-> kept s.
Proof.
  split.
  - intros (k & i & sp & parts & H & [(N1 & N2)|(-> & i' & sp' & ns & r & P & I)]).
    + destruct s; cbn [to_stmt] in H; unfold at_loc in H; try discriminate; inversion H; subst; try constructor; congruence.
    + apply pt_expression in H as (l & e & -> & Q & _). rewrite Q in P. injection P as P. apply pt_assign in P as (l1 & l2 & ps & r' & -> & -> & _).
      apply in_map_iff in I as (o & I & Ho). destruct o as [[a t [n|]]|]; try discriminate. econstructor. exact Ho.
  - intros H. destruct H; eexists _, _, _, _; (split; [reflexivity|]); try solve [left; split; discriminate].
    right. split; [reflexivity|]. eexists _, _, _, _. split; [reflexivity|]. apply in_map_iff. eexists. split; [|eassumption]. reflexivity.
Qed.
Lemma call_iff s : (exists c, sol_call_statement (to_stmt s) c) <-> call_statement s.
Proof.
  split.
  - intros (c & (i & sp & f & a & ->) & i' & sp' & parts & H). apply pt_expression in H as (l & e & -> & Q & _). injection Q as Q _. symmetry in Q. apply pt_call in Q as (l1 & g & args & -> & _).
    eexists _, _, _, _. reflexivity.
  - intros (l & l1 & f & args & ->). eexists. split; [eexists _, _, _, _; reflexivity|]. eexists _, _, _. reflexivity.
Qed.
Lemma plain_iff s : plain s -> sol_plain (to_stmt s).
Proof.
  intros (H1 & H2 & H3 & H4). split; [destruct s; try (eexists _, _, _, _; reflexivity); exfalso; apply H1; eexists _, _, _; reflexivity|].
  split; [rewrite kept_iff; exact H2|]. split; [intros c Hc; apply H3, call_iff; exists c; exact Hc|].
  intros k i sp parts x s' Q I Hi. destruct (part_branch _ _ _ _ _ _ Q I) as (y & Hy & ->). apply C79_positions in Hi as (z & Hz & ->). apply block_iff. exact (H4 y z Hy Hz).
Qed.
Lemma last_iff f u : sol_last (to_fun f) u <-> exists s, last_of f s /\ u = to_stmt s.
Proof.
  split.
  - intros (i & sp & pre & H & L). cbn [to_fun f_body] in H. destruct (pf_body f) as [b|] eqn:B; [|discriminate]. injection H as H. apply pt_block in H as (l & v & ss & -> & Q & _).
    symmetry in Q. apply map_split in Q as (a & s & c & -> & <- & <- & Hc). destruct c; [|discriminate]. exists s. split; [|reflexivity]. exists l, v, a. split; [exact B|apply last_cheat_pt; exact L].
  - intros (s & (l & v & pre & B & L) & ->). exists (l_id l), (l_span l), (map to_stmt pre). cbn [to_fun f_body]. rewrite B. cbn [option_map to_stmt]. rewrite map_app. split; [reflexivity|apply last_cheat_pt; exact L].
Qed.

(** A statement of a test, wherever it stands in it, is a candidate for the test, unless it is the last, comes after a cheatcode, is kept, is a
    call that is ignored or of a function that is entered, or has statements in it. *)
Theorem C79_statements_of_tests : forall E u walkable st t f b s, no_member_statement (to_items u) -> result (sol_env E (to_items u) walkable) (file_node (to_items u)) st ->
  test_of u f t -> v_ign_test E t = false -> pf_body f = Some b -> reached b s -> plain s \/ sol_removable_call E (to_items u) walkable (to_stmt s) ->
  (forall r, last_of f r -> l_id (stmt_loc r) <> l_id (stmt_loc s)) -> v_skip E (l_span (stmt_loc s)) = false -> candidate st Statement (l_span (stmt_loc s)) t.
Proof.
  intros E u walkable st t f b s NM R Ht Hi Hb Hs Hp Hl Hk. rewrite <- to_stmt_span in *.
  apply (C69_statements_of_tests E (to_items u) walkable st t (to_fun f) (to_stmt b) (to_stmt s) NM R).
  - apply C79_tests. exists f. auto.
  - exact Hi.
  - cbn [to_fun f_body]. rewrite Hb. reflexivity.
  - apply C79_reached. exists s. auto.
  - destruct Hp as [Hp|Hp]; [left; apply plain_iff; exact Hp|right; exact Hp].
  - intros r Hr. apply last_iff in Hr as (r' & Hr & ->). rewrite !to_stmt_id. exact (Hl _ Hr).
  - exact Hk.
Qed.
Print Assumptions C79_statements_of_tests.
(** Every statement that is a candidate stands in some function of the file that is a test or may be entered; it is not kept, not a block, and
    is a call or has no statements in it outside of those after cheatcodes. *)
Theorem C79_statement_candidates : forall E u walkable st sp t, no_member_statement (to_items u) -> NoDup (map f_id (functions (to_items u))) ->
  result (sol_env E (to_items u) walkable) (file_node (to_items u)) st -> candidate st Statement sp t ->
  exists f b s, function_of u f /\ pf_body f = Some b /\ reached b s /\ l_span (stmt_loc s) = sp /\ ~ is_block s /\ ~ kept s /\
    (call_statement s \/ forall x y, branch s x -> reached x y -> is_block y) /\
    (test_of u f t \/ (exists n, pf_name f = Some n /\ walkable n = true) /\ ~ In (AMutability MPure) (pf_attrs f)).
Proof.
  intros E u walkable st sp t NM ND R C. destruct (C69_statement_candidates E (to_items u) walkable st sp t NM ND R C) as (_ & _ & s0 & Hc & Hsp & Hk & Hcase).
  destruct Hc as (g & b0 & Hb & Hex & Hpr & Hcode).
  assert (G : exists f, g = to_fun f /\ function_of u f /\ (test_of u f t \/ (exists n, pf_name f = Some n /\ walkable n = true) /\ ~ In (AMutability MPure) (pf_attrs f))).
  { destruct Hcode as [Hcall|(Ht & _)].
    - assert (L : exists c, sol_local_call (to_items u) walkable c g) by (destruct Hcall; eauto). destruct L as (c & i & sp' & x & _ & W & pre & post & F & Nm & Pu & _).
      assert (I : In g (functions (to_items u))) by (rewrite F; apply in_elt). apply C79_functions in I as (f & Hf & ->). exists f. split; [reflexivity|]. split; [exact Hf|].
      right. split; [exists x; split; [exact Nm|exact W]|apply pure_iff; exact Pu].
    - apply C79_tests in Ht as (f & Ht & ->). exists f. split; [reflexivity|]. split; [exact (proj1 Ht)|left; exact Ht]. }
  destruct G as (f & -> & Hf & Hor). cbn [to_fun f_body] in Hb. destruct (pf_body f) as [b|] eqn:B; [|discriminate]. injection Hb as <-.
  apply C79_reached in Hex as (s & Hs & ->). exists f, b, s. split; [exact Hf|]. split; [exact B|]. split; [exact Hs|]. rewrite to_stmt_span in Hsp. split; [exact Hsp|].
  split; [rewrite block_iff; tauto|]. split; [rewrite <- kept_iff; exact Hk|]. split; [|exact Hor].
  destruct Hcase as [(c & Hc & _)|(_ & Hn)]; [left; apply call_iff; exists c; exact Hc|right]. intros x y Hx Hy.
  destruct (branch_part _ _ Hx) as (k & parts & Q & Hp). apply block_iff. unfold at_loc in Q. rewrite Hsp in Q. eapply Hn; [exact Q|exact Hp|]. apply C79_reached. exists y. auto.
Qed.
Print Assumptions C79_statement_candidates.

(** ** An example, and what is not so *)
Definition pl (i a b : nat) : loc := Loc i (xsp 1 a b).
Definition p_var (i a : nat) (x : string) : pexpr := XVariable (pl i a (a + 1)) (s2t x).
Definition p_asg (i a : nat) (x : string) : pstmt := TExpression (pl i a (a + 6)) (XAssign (pl (i + 1) a (a + 5)) (p_var (i + 2) a x) (XLiteral (pl (i + 3) (a + 4) (a + 5)))).
(** The source, and its tree. *)
Definition p_text : text := s2t "contract C is B(1) { uint w = t(); modifier testM() { x = 1; _; } function testA(uint n) public mod(n) { if (c) { a = 1; } else b = 2; for (i = 0; c; i++) { a = 3; } try t() returns (uint r) { a = 4; } catch Error(string memory e) { a = 5; } catch { a = 6; } assembly { let q := 1 } cb({v: 1}); do { a = 7; } while (c); while (c) {} uint v; z = 0; } }".
(** [if (c) { a = 1; } else b = 2;] *)
Definition p_if : pstmt := TIf (pl 1 105 134) (p_var 2 109 "c") (TBlock (pl 3 112 122) false [(p_asg 4 114 "a")]) (Some (p_asg 8 128 "b")).
(** [for (i = 0; c; i++) { a = 3; }] *)
Definition p_for : pstmt := TFor (pl 12 135 165) (Some (p_asg 13 140 "i")) (Some (p_var 17 147 "c")) (Some (XUnary UPostIncrement (pl 18 150 153) (p_var 19 150 "i")))
  (Some (TBlock (pl 20 155 165) false [(p_asg 21 157 "a")])).
(** [try t() returns (uint r) { a = 4; } catch Error(string memory e) { a = 5; } catch { a = 6; }] *)
Definition p_t : pexpr := XCall (pl 25 170 173) (p_var 26 170 "t") [].
Definition p_asg6 : pstmt := (p_asg 27 250 "a").
Definition p_catch : pstmt := TBlock (pl 31 248 258) true [p_asg6].
Definition p_try : pstmt := TTry (pl 32 166 258) p_t (Some ([Some (PParam None (XType (pl 33 183 187) []) (Some (s2t "r")))], TBlock (pl 34 191 201) false [(p_asg 35 193 "a")]))
  [CNamed (s2t "Error") (PParam None (XType (pl 39 214 220) []) (Some (s2t "e"))) (TBlock (pl 40 231 241) false [(p_asg 41 233 "a")]); CSimple None p_catch].
(** [assembly { .. }], [cb({v: 1});], [do { a = 7; } while (c);], [while (c) {}], [uint v;], [z = 0;] *)
Definition p_asm : pstmt := TAssembly (pl 45 259 282).
Definition p_named : pstmt := TExpression (pl 46 283 294) (XNamedCall (pl 47 283 293) (XVariable (pl 48 283 285) (s2t "cb")) [(s2t "v", XLiteral (pl 49 290 291))]).
Definition p_do : pstmt := TDoWhile (pl 50 295 319) (TBlock (pl 51 298 308) false [(p_asg 52 300 "a")]) (p_var 56 316 "c").
Definition p_while : pstmt := TWhile (pl 57 320 332) (p_var 58 327 "c") (TBlock (pl 59 330 332) false []).
Definition p_decl : pstmt := TVariable (pl 60 333 340) (XType (pl 61 333 337) []) (Some (s2t "v")) None.
Definition p_last : pstmt := (p_asg 62 341 "z").
Definition p_body : pstmt := TBlock (pl 66 103 349) false [p_if; p_for; p_try; p_asm; p_named; p_do; p_while; p_decl; p_last].
Definition p_test : pfun := PFun (pl 67 66 349) TFunction (Some (s2t "testA")) [Some (PParam None (XType (pl 68 81 85) []) (Some (s2t "n")))]
  [AVisibility VPublic; AModifier (s2t "mod") (Some [p_var 69 100 "n"])] [] (Some p_body).
(** [modifier testM() { x = 1; _; }] *)
Definition p_mod_1 : pstmt := (p_asg 70 54 "x").
Definition p_mod_2 : pstmt := TExpression (pl 74 61 63) (p_var 75 61 "_").
Definition p_mod_body : pstmt := TBlock (pl 76 52 65) false [p_mod_1; p_mod_2].
Definition p_mod : pfun := PFun (pl 77 35 65) TModifier (Some (s2t "testM")) [] [] [] (Some p_mod_body).
Definition p_unit : punit := [UDecl DNothing; UContract (PContract (Some (s2t "C")) [(s2t "B", Some [XLiteral (pl 78 16 17)])]
  [KDecl (DVariable (XType (pl 79 21 25) []) (Some (XCall (pl 80 30 33) (p_var 81 30 "t") []))); KFun p_mod; KFun p_test])].
Definition p_env0 := x_env fw_foundry ["cb"%string] [] false (fun _ => []) p_text.
Definition p_walk : text -> bool := fun _ => false.
Definition p_st := st_of (sol_env p_env0 (to_items p_unit) p_walk) (file_node (to_items p_unit)).
Example p_cands : map (fun c => match c with (k, a, b, ts) => (k, firstn (b - a) (skipn a p_text), ts) end) (cands p_st) =
  map (fun x => (Statement, s2t x, [s2t "testM"])) ["x = 1;"%string] ++
  map (fun x => (Statement, s2t x, [s2t "testA"])) ["a = 1;"; "b = 2;"; "i = 0;"; "a = 3;"; "a = 4;"; "a = 5;"; "a = 6;"; "assembly { let q := 1 }"; "cb({v: 1});"; "a = 7;"; "while (c) {}"]%string.
Proof. vm_compute. reflexivity. Qed.
Lemma p_facts : no_member_statement (to_items p_unit) /\ NoDup (map f_id (functions (to_items p_unit))) /\ result (sol_env p_env0 (to_items p_unit) p_walk) (file_node (to_items p_unit)) p_st.
Proof.
  split; [apply no_member_checked; vm_compute; reflexivity|]. split; [|exists 9%nat; vm_compute; reflexivity].
  vm_compute. repeat (constructor; [cbn [In]; intros H; repeat (destruct H as [H|H]; [discriminate H|]); exact H|]). constructor.
Qed.
Lemma p_asg_plain i a x : plain (p_asg i a x).
Proof.
  split; [intros (l & u & ss & H); discriminate|]. split; [intros H; inversion H|]. split; [intros (l & l1 & f & args & H); discriminate|]. intros y z H. inversion H.
Qed.
(** The hypotheses of C79_statements_of_tests, for [a = 6;] in the second [catch]. *)
Example C79_nonvacuous : test_of p_unit p_test (s2t "testA") /\ pf_body p_test = Some p_body /\ reached p_body p_asg6 /\ plain p_asg6 /\
  (forall r, last_of p_test r -> l_id (stmt_loc r) <> l_id (stmt_loc p_asg6)).
Proof.
  split. { split; [right; eexists; split; [right; left; reflexivity|right; right; left; reflexivity]|]. split; [reflexivity|]. split; [exists (s2t "A"); reflexivity|].
           split; [intros [H|[H|[]]]; discriminate|]. exists p_body. split; [reflexivity|]. eexists _, _, _. reflexivity. }
  split; [reflexivity|]. split.
  { apply (re_block _ _ [p_if; p_for] p_try [p_asm; p_named; p_do; p_while; p_decl; p_last]).
    - intros p c Q (l & l1 & l2 & l3 & m & args & -> & _). destruct p as [|? [|? [|? p]]]; inversion Q.
    - eapply re_branch; [apply (br_catch _ _ _ _ (CSimple None p_catch)); right; left; reflexivity|].
      apply (re_block _ _ [] p_asg6 []); [intros p c Q; destruct p; discriminate|constructor]. }
  split; [apply p_asg_plain|]. intros r (l & u & pre & H & _). cbn [p_test pf_body] in H. injection H as _ _ H.
  destruct (app_inj_tail [p_if; p_for; p_try; p_asm; p_named; p_do; p_while; p_decl] pre p_last r H) as [_ <-]. discriminate.
Qed.
(** Refuted: that only functions are tests. A [modifier] whose name begins with [test] is taken for one. *)
Theorem C79_modifier_refuted : exists E u walkable st f t s, no_member_statement (to_items u) /\ NoDup (map f_id (functions (to_items u))) /\
  result (sol_env E (to_items u) walkable) (file_node (to_items u)) st /\ function_of u f /\ pf_ty f = TModifier /\ pf_name f = Some t /\
  (exists b, pf_body f = Some b /\ reached b s) /\ candidate st Statement (l_span (stmt_loc s)) t.
Proof.
  destruct p_facts as (F1 & F2 & F3). exists p_env0, p_unit, p_walk, p_st, p_mod, (s2t "testM"), p_mod_1. split; [exact F1|]. split; [exact F2|]. split; [exact F3|].
  split; [right; eexists; split; [right; left; reflexivity|right; left; reflexivity]|]. split; [reflexivity|]. split; [reflexivity|]. split.
  - exists p_mod_body. split; [reflexivity|]. apply (re_block _ _ [] p_mod_1 [p_mod_2]); [intros p c Q; destruct p; discriminate|constructor].
  - apply lists_dec. vm_compute. reflexivity.
Qed.
(** Refuted: that a call of a function listed in [ignored_functions] is never a candidate: a call with named arguments is not seen as a call. *)
Theorem C79_named_arguments_refuted : exists E u walkable st f t b l l1 l2 x args, no_member_statement (to_items u) /\ NoDup (map f_id (functions (to_items u))) /\
  result (sol_env E (to_items u) walkable) (file_node (to_items u)) st /\ test_of u f t /\ pf_body f = Some b /\
  reached b (TExpression l (XNamedCall l1 (XVariable l2 x) args)) /\ v_ign_fun E x = true /\ candidate st Statement (l_span l) t.
Proof.
  destruct p_facts as (F1 & F2 & F3). exists p_env0, p_unit, p_walk, p_st, p_test, (s2t "testA"), p_body. eexists _, _, _, _, _. split; [exact F1|]. split; [exact F2|]. split; [exact F3|].
  split; [apply C79_nonvacuous|]. split; [reflexivity|]. split.
  - apply (re_block _ _ [p_if; p_for; p_try; p_asm] p_named [p_do; p_while; p_decl; p_last]); [|constructor].
    intros p c Q (l & l1 & l2 & l3 & m & args & -> & _). destruct p as [|? [|? [|? [|? [|? p]]]]]; inversion Q.
  - split; [vm_compute; reflexivity|]. apply lists_dec. vm_compute. reflexivity.
Qed.
Print Assumptions C79_modifier_refuted.
Print Assumptions C79_named_arguments_refuted.
