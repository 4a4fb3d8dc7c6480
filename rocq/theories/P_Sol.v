(** Property theorems C69: which Solidity functions are tests, and which tests a candidate belongs to. *)
From Verif Require Import Base M_Text M_Rewriter M_Span M_Run M_Visitor S_Visitor S_Walk S_Candidates L_Visitor L_VisitorFacts L_Candidates
  P_Visitor M_Directives M_Foundry S_Foundry P_Foundry L_Tree S_Sol.
Local Open Scope list_scope.

(** ** Expressions *)
Lemma e_call c : is_call (expr_node c) <-> sol_call c.
Proof.
  split.
  - intros (h & x & K). destruct c as [| |i sp f args| | |]; try discriminate K. exists i, sp, f, args. reflexivity.
  - intros (i & sp & f & args & ->). eexists _, _. reflexivity.
Qed.
Lemma e_ident c x : n_kind (expr_node c) = KIdent x <-> exists i sp, c = EVar i sp x.
Proof.
  split.
  - intros K. destruct c; try discriminate K. inversion K; subst. eauto.
  - intros (i & sp & ->). reflexivity.
Qed.
Lemma e_no_macro c x : n_kind (expr_node c) <> KMacro x.
Proof. destruct c; discriminate. Qed.
Lemma e_span e : n_span (expr_node e) = expr_span e.
Proof. destruct e; reflexivity. Qed.
Lemma e_id e : n_id (expr_node e) = S (expr_id e).
Proof. destruct e; reflexivity. Qed.

Lemma e_members e : forall n p, field_path (expr_node e) n p <-> exists base, sol_members e base p /\ n = expr_node base.
Proof.
  assert (B : forall e, (forall i sp b x, e <> EMember i sp b x) -> forall n p, field_path (expr_node e) n p <-> exists base, sol_members e base p /\ n = expr_node base).
  { clear e. intros e He n p. split.
    - intros H. inversion H as [e0 Hno|l x b r base q Hl Hf Q1]; subst.
      + exists e. split; [constructor; exact He|reflexivity].
      + exfalso. destruct e; cbn in Q1; inversion Q1; subst; try discriminate Hl. eapply He. reflexivity.
    - intros (base & H & ->). inversion H; subst; [|exfalso; eapply He; reflexivity]. constructor. intros x K. destruct base; try discriminate K. eapply He. reflexivity. }
  induction e as [i sp n|i sp b n IH|i sp c args _ _|i sp c opts _ _|i sp ns r _|i sp ks _] using sexpr_ind'; try (apply B; discriminate).
  intros m p. split.
  - intros H. inversion H as [e0 Hno|l x b0 r base q Hl Hf]; subst; [exfalso; eapply Hno; reflexivity|].
    cbn in Hl. inversion Hl; subst. destruct (proj1 (IH m q) Hf) as (base & H1 & H2). exists base. split; [constructor; exact H1|exact H2].
  - intros (base & H & ->). inversion H as [e He|i0 sp0 b0 x0 base0 p0 Hb]; subst; [exfalso; eapply He; reflexivity|].
    cbn [expr_node nd]. econstructor; [reflexivity|]. apply IH. eauto.
Qed.
Lemma callee_unique f g h : callee_of f g -> callee_of f h -> g = h.
Proof.
  intros H. revert h. induction H as [c Hc|i sp c o c' H IH]; intros h Hh; inversion Hh; subst; try reflexivity; try (exfalso; eapply Hc; reflexivity); [|auto].
  exfalso. eapply H0. reflexivity.
Qed.
Lemma callee_exists f : exists g, callee_of f g.
Proof.
  induction f as [i sp n|i sp b n _|i sp c args _ _|i sp c opts IH _|i sp ns r _|i sp ks _] using sexpr_ind'; try (eexists; apply co_plain; discriminate).
  destruct IH as (g & H). exists g. apply co_options. exact H.
Qed.
Lemma callee_not_block f g : callee_of f g -> forall i sp h o, g <> ECallBlock i sp h o.
Proof. intros H. induction H as [c Hc|]; auto. Qed.
Lemma callee_node_other p g : (forall i sp f args, g <> ECall i sp f args) -> (forall i sp h o, g <> ECallBlock i sp h o) -> callee_node p g = expr_node g.
Proof. intros H1 H2. destruct g; try reflexivity; exfalso; [eapply H1|eapply H2]; reflexivity. Qed.
Lemma callee_node_plain g : (forall i sp h o, g <> ECallBlock i sp h o) -> callee_node false g = expr_node g.
Proof. intros H. destruct g; try reflexivity. exfalso; eapply H; reflexivity. Qed.

Lemma e_method c n p : method_call (expr_node c) n p <-> exists base, sol_method c base p /\ n = expr_node base.
Proof.
  split.
  - intros (Hc & callee & args & Hk & Hp & Hne). apply e_call in Hc. destruct Hc as (i & sp & f & args' & ->). cbn [expr_node nd n_kids] in Hk. inversion Hk; subst callee args. clear Hk.
    destruct (callee_exists f) as (g & Hg). rewrite (callee_of_node f g Hg) in Hp.
    assert (N : callee_node (match f with ECallBlock _ _ _ _ => true | _ => false end) g = expr_node g).
    { apply callee_node_other; [|eapply callee_not_block; exact Hg]. intros i0 sp0 f0 args0 ->. destruct f; cbn in Hp; inversion Hp; subst; try contradiction; discriminate. }
    rewrite N in Hp. apply e_members in Hp. destruct Hp as (base & H1 & H2). exists base. split; [|exact H2]. exists g. split; [exists i, sp, f, args'; auto|auto].
  - intros (base & (g & (i & sp & f & args & -> & Hg) & Hm & Hne) & ->). split; [eexists _, _; reflexivity|]. eexists _, _. split; [reflexivity|]. split; [|exact Hne].
    rewrite (callee_of_node f g Hg), callee_node_other; [|intros i0 sp0 f0 args0 ->; inversion Hm; subst; contradiction|eapply callee_not_block; exact Hg].
    apply e_members. eauto.
Qed.
Lemma sol_method_call c base p : sol_method c base p -> sol_call c.
Proof. intros (g & (i & sp & f & args & -> & _) & _). eexists _, _, _, _. reflexivity. Qed.
Lemma sol_members_fun e b p : sol_members e b p -> forall b' p', sol_members e b' p' -> b = b' /\ p = p'.
Proof.
  intros H. induction H as [e He|i sp b x base p H IH]; intros b' p' H'; inversion H'; subst.
  - auto.
  - exfalso. eapply He. reflexivity.
  - exfalso. eapply H0. reflexivity.
  - match goal with K : sol_members b b' _ |- _ => destruct (IH _ _ K) as [-> ->] end. auto.
Qed.

Section Env.
Context (E : venv) (items : list sitem) (walkable : text -> bool).
Notation ENV := (sol_env E items walkable).
Notation FILE := (file_node items).

Lemma v_root t : sol_root_ignored E t -> root_ignored ENV (expr_node t).
Proof.
  intros H. induction H as [i sp i' sp' x args H|c i sp p x Hm H|c b p Hm Hb _ IH].
  - eapply ri_function; [|reflexivity|exact H]. intros b p Hm. apply e_method in Hm. destruct Hm as (base & (g & (i0 & sp0 & f & args0 & Q & Hg) & Hm & Hne) & _). inversion Q; subst.
    inversion Hg; subst. inversion Hm; subst. contradiction.
  - eapply ri_path; [apply e_method; eauto|reflexivity|exact H].
  - eapply ri_chain; [apply e_method; eauto|apply e_call; exact Hb|exact IH].
Qed.
Lemma v_root_inv n : root_ignored ENV n -> forall t, n = expr_node t -> sol_root_ignored E t.
Proof.
  intros H. induction H as [c f Hn Hc Hi|c b p x Hm K Hi|c b p x Hm K Hi|c b p Hm Hb _ IH]; intros t ->.
  - destruct t as [| |i sp g args| | |]; try discriminate Hc. cbn in Hc. destruct g as [i' sp' x| | | | |]; try discriminate Hc. cbn in Hc. inversion Hc; subst. constructor. exact Hi.
  - apply e_method in Hm. destruct Hm as (base & Hm & ->). apply e_ident in K. destruct K as (i & sp & ->). eapply si_path; [exact Hm|exact Hi].
  - apply e_method in Hm. destruct Hm as (base & Hm & ->). destruct (e_no_macro base x K).
  - apply e_method in Hm. destruct Hm as (base & Hm & ->). eapply si_chain; [exact Hm|apply e_call; exact Hb|apply IH; reflexivity].
Qed.
Lemma v_ignored_method t : ignored_method ENV (expr_node t) <-> sol_ignored_method E t.
Proof.
  split; intros (b & p & Hm & Hi).
  - apply e_method in Hm. destruct Hm as (base & Hm & ->). exists base, p. auto.
  - exists (expr_node b), p. split; [apply e_method; eauto|exact Hi].
Qed.
Lemma v_ignored_call t : sol_call t -> (ignored_call ENV (expr_node t) <-> sol_ignored_call E t).
Proof.
  intros Hc. split.
  - intros [(x & K & _)|(_ & [H|(b & p & Hm & Hb & Hi)])]; [destruct (e_no_macro t x K)|left; eapply v_root_inv; [exact H|reflexivity]|right].
    apply e_method in Hm. destruct Hm as (base & Hm & ->). exists base, p. split; [exact Hm|]. split; [rewrite <- e_call; exact Hb|exact Hi].
  - intros H. right. split; [apply e_call; exact Hc|]. destruct H as [H|(b & p & Hm & Hb & Hi)]; [left; apply v_root; exact H|right].
    exists (expr_node b), p. split; [apply e_method; eauto|]. split; [rewrite e_call; exact Hb|exact Hi].
Qed.

Lemma local_first l x : (forall g gs, filter (fun f => match f_name f with Some n => text_eqb n x | None => false end && negb (f_pure f)) l = g :: gs <->
  exists pre post, l = pre ++ g :: post /\ f_name g = Some x /\ f_pure g = false /\ (forall h, In h pre -> f_name h = Some x -> f_pure h = true) /\
    gs = filter (fun f => match f_name f with Some n => text_eqb n x | None => false end && negb (f_pure f)) post).
Proof.
  set (q := fun f => _ && _).
  assert (Q : forall f, q f = true <-> f_name f = Some x /\ f_pure f = false).
  { intros f. unfold q. destruct (f_name f) as [n|]; cbn [andb].
    - rewrite Bool.andb_true_iff, text_eqb_eq, Bool.negb_true_iff. split; intros [H1 H2]; (split; [congruence|exact H2]).
    - split; [discriminate|intros [H _]; discriminate]. }
  assert (Q' : forall f, q f = false -> f_name f = Some x -> f_pure f = true).
  { intros f H H1. destruct (f_pure f) eqn:Hp; [reflexivity|]. rewrite (proj2 (Q f) (conj H1 Hp)) in H. discriminate. }
  induction l as [|a l IH]; intros g gs; cbn [filter].
  - split; [discriminate|]. intros (pre & post & H & _). destruct pre; discriminate.
  - destruct (q a) eqn:Ha.
    + split.
      * intros H. inversion H; subst. exists [], l. destruct (proj1 (Q g) Ha). split; [reflexivity|]. split; [assumption|]. split; [assumption|]. split; [intros h []|reflexivity].
      * intros (pre & post & H & H1 & H2 & H3 & ->). destruct pre as [|b pre]; cbn in H; inversion H; subst; [reflexivity|].
        exfalso. apply Q in Ha. destruct Ha as [A1 A2]. rewrite (H3 b (or_introl eq_refl) A1) in A2. discriminate.
    + rewrite IH. split.
      * intros (pre & post & -> & H1 & H2 & H3 & ->). exists (a :: pre), post. split; [reflexivity|]. split; [exact H1|]. split; [exact H2|]. split; [|reflexivity].
        intros h [<-|Hh] Hn; [exact (Q' a Ha Hn)|exact (H3 h Hh Hn)].
      * intros (pre & post & H & H1 & H2 & H3 & ->). destruct pre as [|b pre]; cbn in H; inversion H; subst.
        -- exfalso. rewrite (proj2 (Q g) (conj H1 H2)) in Ha. discriminate.
        -- exists pre, post. split; [reflexivity|]. split; [exact H1|]. split; [exact H2|]. split; [|reflexivity]. intros h Hh. apply H3. right. exact Hh.
Qed.
Lemma env_walkable x n gs : v_walkable ENV x = n :: gs -> exists g, walkable x = true /\ sol_local items x g /\ n = local_node g.
Proof.
  cbn [sol_env v_walkable]. destruct (walkable x) eqn:Hw; [|discriminate]. intros H. destruct (local_functions items x) as [|g gs'] eqn:Hl; [discriminate|]. inversion H; subst.
  exists g. split; [reflexivity|]. split; [|reflexivity]. unfold local_functions in Hl. apply local_first in Hl. destruct Hl as (pre & post & H1 & H2 & H3 & H4 & _). exists pre, post. auto.
Qed.
Lemma walkable_env x g : walkable x = true -> sol_local items x g -> exists gs, v_walkable ENV x = local_node g :: gs.
Proof.
  intros Hw (pre & post & H1 & H2 & H3 & H4). cbn [sol_env v_walkable]. rewrite Hw.
  assert (Hl : exists gs, local_functions items x = g :: gs) by (eexists; apply local_first; exists pre, post; eauto 8).
  destruct Hl as (gs & ->). eexists. reflexivity.
Qed.
Lemma sol_local_in x g : sol_local items x g -> In g (functions items).
Proof. intros (pre & post & -> & _). apply in_or_app. right. left. reflexivity. Qed.

Lemma e_name g x p : (forall i sp h o, g <> ECallBlock i sp h o) -> (expr_name ENV (callee_node p g) = Some x <-> exists i sp, g = EVar i sp x).
Proof.
  intros Hb. split.
  - intros H. destruct g; try discriminate H; [inversion H; subst; eauto|destruct p; discriminate H|exfalso; eapply Hb; reflexivity].
  - intros (i & sp & ->). reflexivity.
Qed.
Lemma v_local_call c n : sol_call c -> (local_call ENV (expr_node c) n <-> exists g, sol_local_call items walkable c g /\ n = local_node g).
Proof.
  intros (i & sp & f & args & ->). destruct (callee_exists f) as (h & Hh). pose proof (callee_not_block f h Hh) as Nb. split.
  - intros (callee & args' & x & fs & Hk & Hn & Hw). cbn [expr_node nd n_kids] in Hk. inversion Hk; subst callee args'. rewrite (callee_of_node f h Hh) in Hn.
    apply e_name in Hn; [|exact Nb]. destruct Hn as (i2 & sp2 & ->). destruct (env_walkable x n fs Hw) as (g & H1 & H2 & ->). exists g. split; [|reflexivity].
    exists i2, sp2, x. split; [exists i, sp, f, args; auto|auto].
  - intros (g & (i2 & sp2 & x & (i3 & sp3 & f' & args' & Q & Hc) & Hw & Hl) & ->). inversion Q; subst. destruct (walkable_env x g Hw Hl) as (gs & Hgs).
    exists (callee_node false f'), (map expr_node args'), x, gs. split; [reflexivity|]. split; [|exact Hgs]. rewrite (callee_of_node f' _ Hc). apply e_name; [discriminate|]. eauto.
Qed.

(** ** Tests and called functions *)
Lemma stmt_no_test b : no_test (stmt_node b).
Proof.
  intros m t i. revert m. induction b as [i0 sp0 l IH|k0 i0 sp0 parts IH] using sstmt_ind'; intros m Hw Hk; (destruct (within_inv _ _ Hw) as [->|(z & Hz & Hwz)]; [discriminate|]); cbn [stmt_node nd n_kids] in Hz.
  - apply filter_in in Hz. destruct Hz as [->|(pre & y & post & -> & -> & _)]; [destruct (within_inv _ _ Hwz) as [->|(w & [] & _)]; discriminate|].
    rewrite Forall_forall in IH. eapply (IH y); [apply in_or_app; right; left; reflexivity|exact Hwz|exact Hk].
  - apply in_map_iff in Hz. destruct Hz as ([e|y] & <- & Hi); cbn [part_node] in Hwz; [exact (proj1 (proj2 (proj1 (expr_within e) m Hwz)) t i Hk)|exact (IH y Hi m Hwz Hk)].
Qed.
Lemma kids_no_test f k : In k (fun_kids f) -> no_test k.
Proof.
  intros Hk. unfold fun_kids in Hk. apply in_app_or in Hk. destruct Hk as [Hk|Hk].
  - apply in_map_iff in Hk. destruct Hk as (a & <- & _). intros m t i Hm. exact (proj1 (proj2 (proj1 (expr_within a) m Hm)) t i).
  - destruct (f_body f); [|destruct Hk]. destruct Hk as [<-|[]]. apply stmt_no_test.
Qed.
Lemma local_no_test f : no_test (local_node f).
Proof. intros m t i Hm. destruct (within_inv _ _ Hm) as [->|(k & Hk & Hw)]; [discriminate|]. exact (kids_no_test f k Hk m t i Hw). Qed.
Lemma file_tests n t i : within FILE n -> n_kind n = KTest t i -> exists f, In f (functions items) /\ test_name f = Some t /\ n = item_node (IFun f) /\ n_kids n = fun_kids f.
Proof.
  intros Hw Hk. destruct (within_inv _ _ Hw) as [->|(k & Hkk & Hw')]; [discriminate|]. cbn [file_node nd n_kids] in Hkk. apply in_map_iff in Hkk. destruct Hkk as ([f|e] & <- & Hi).
  - cbn [item_node] in Hw'. destruct (test_name f) as [t'|] eqn:Ht.
    + destruct (within_inv _ _ Hw') as [->|(k & Hkk & Hw'')].
      * exists f. inversion Hk; subst. split; [apply functions_in; exact Hi|]. split; [exact Ht|]. cbn [item_node]. rewrite Ht. auto.
      * exfalso. exact (kids_no_test f k Hkk n t i Hw'' Hk).
    + destruct (within_inv _ _ Hw') as [->|(k & [] & _)]. discriminate.
  - exfalso. exact (proj1 (proj2 (proj1 (expr_within e) n Hw')) t i Hk).
Qed.
Lemma sol_named n t : test_named ENV FILE n t -> v_ign_test E t = false /\ exists f, sol_test items f t /\ n = item_node (IFun f) /\ n_kids n = fun_kids f.
Proof.
  intros (Hin & (i & Hk) & Hi). split; [exact Hi|]. destruct Hin as [Hin|(x & g & gs & Hx & Hin)].
  - destruct (file_tests n t i Hin Hk) as (f & Hf & Ht & H1 & H2). exists f. split; [split; [exact Hf|apply test_name_spec; exact Ht]|auto].
  - exfalso. destruct (env_walkable x g gs Hx) as (f & _ & _ & ->). exact (local_no_test f n t i Hin Hk).
Qed.
Lemma sol_file_test f t : sol_test items f t -> v_ign_test E t = false -> file_test ENV FILE (item_node (IFun f)) t.
Proof.
  intros (Hf & Ht) Hi. apply test_name_spec in Ht. split; [|split; [|exact Hi]].
  - eapply tp_kid; [right; right; right; left; reflexivity| |constructor]. cbn [file_node nd n_kids]. apply in_map. apply functions_inv. exact Hf.
  - cbn [item_node]. rewrite Ht. eexists. reflexivity.
Qed.
(** A call in a function. *)
Lemma fun_calls f m : In f (functions items) -> (exists k, In k (fun_kids f) /\ within k m) -> is_call m -> exists c, m = expr_node c /\ sol_call c /\ sol_expr_of f c.
Proof.
  intros Hf Hk Hm. destruct (fun_within items f m Hf Hk (or_intror Hm)) as [->|[(b' & s & _ & _ & (k' & i' & sp' & parts' & ->) & ->)|(i & sp1 & c & args & -> & Hw)]].
  - exfalso. destruct Hm as (h & x & H). discriminate.
  - exfalso. destruct Hm as (h & x & H). discriminate.
  - exists (ECall i sp1 c args). split; [reflexivity|]. split; [eexists _, _, _, _; reflexivity|exact Hw].
Qed.
Lemma fun_mentions f n : In f (functions items) -> (exists k, In k (fun_kids f) /\ mentions ENV k n) -> exists c g, sol_expr_of f c /\ sol_local_call items walkable c g /\ n = local_node g.
Proof.
  intros Hf (k & Hk & c & callee & args & x & fs & Hw & Hc & Hkk & Hn & Hx). destruct (fun_calls f c Hf (ex_intro _ k (conj Hk Hw)) Hc) as (c' & -> & Hc' & He).
  destruct (proj1 (v_local_call c' n Hc')) as (g & Hg & ->); [exists callee, args, x, fs; auto|]. exists c', g. auto.
Qed.
Lemma mentions_kids n g : ~ is_call n -> mentions ENV n g -> exists k, In k (n_kids n) /\ mentions ENV k g.
Proof.
  intros Hn (c & callee & args & x & fs & Hw & Hc & H). destruct (within_inv _ _ Hw) as [->|(k & Hk & Hw')]; [contradiction|]. exists k. split; [exact Hk|]. exists c, callee, args, x, fs. auto.
Qed.
Lemma sol_called t n : test_calls ENV FILE t n -> v_ign_test E t = false /\ exists g, sol_calls items walkable t g /\ In g (functions items) /\ n = local_node g.
Proof.
  intros H. induction H as [tn f Ht Hm|g f _ (Hi & g' & Hg & Hg2 & ->) Hm].
  - destruct (sol_named tn t Ht) as (Hi & f' & Hf & Hn & Hk). split; [exact Hi|]. apply mentions_kids in Hm; [|destruct Ht as (_ & (i & K) & _); intros (h & x & K'); congruence].
    rewrite Hk in Hm. destruct (fun_mentions f' f (proj1 Hf) Hm) as (c & g & H1 & H2 & ->). exists g. split; [eapply sc_test; eassumption|]. split; [|reflexivity].
    destruct H2 as (i & sp & x & _ & _ & Hl). eapply sol_local_in. exact Hl.
  - split; [exact Hi|]. apply mentions_kids in Hm; [|intros (h & x & K'); discriminate]. destruct (fun_mentions g' f Hg2 Hm) as (c & h & H1 & H2 & ->).
    exists h. split; [eapply sc_fun; eassumption|]. split; [|reflexivity]. destruct H2 as (i & sp & x & _ & _ & Hl). eapply sol_local_in. exact Hl.
Qed.
Lemma sol_functions_apart : NoDup (map f_id (functions items)) -> functions_apart ENV.
Proof.
  intros HD x y f g fs gs Hx Hy Hs. destruct (walkable_inv E items walkable x f fs Hx) as (f' & Hf & -> & _). destruct (walkable_inv E items walkable y g gs Hy) as (g' & Hg & -> & _).
  unfold same in Hs. cbn [sol_env v_fw fw_foundry fw_structural] in Hs. apply Nat.eqb_eq in Hs. unfold n_id, local_node in Hs; cbn in Hs. inversion Hs as [Hid].
  f_equal. clear - HD Hf Hg Hid. induction (functions items) as [|z l IH]; [destruct Hf|]. cbn [map] in HD. inversion HD as [|a b Hn Hd]; subst.
  destruct Hf as [->|Hf], Hg as [->|Hg]; auto; exfalso; apply Hn; [rewrite Hid|rewrite <- Hid]; apply in_map; assumption.
Qed.
End Env.

(** The tests found are the functions whose names start with [test], that are not [pure], have a body, and whose names the configuration does not ignore. *)
Theorem C69_tests : forall E items walkable st, no_member_statement items -> result (sol_env E items walkable) (file_node items) st ->
  forall t, In t (s_tset st) <-> v_ign_test E t = false /\ exists f, In f (functions items) /\ test_function f t.
Proof.
  intros E items walkable st HN HR t. pose proof (sol_parsed E items walkable HN) as HP. split.
  - intros H. destruct (in_named _ _ _ HP HR t H) as (n & Hn). destruct (sol_named E items walkable n t Hn) as (Hi & f & Hf & _). split; [exact Hi|]. exists f. exact Hf.
  - intros (Hi & f & Hf). exact (file_test_in _ _ _ HP HR t _ (sol_file_test E items walkable f t Hf Hi)).
Qed.
Print Assumptions C69_tests.

(** ** Origins *)
Lemma s_call_statement s n : proper s -> (call_statement (stmt_node s) n ->
  (exists c, sol_call_statement s c /\ n = expr_node c) \/ exists k i sp e parts, s = SStmt k i sp (PExpr e :: parts) /\ member_of_call e = true).
Proof.
  intros (k & i & sp & parts & ->) (l & e & r & rm & ct & d & H & K & P). cbn [stmt_node nd] in H. inversion H as [[Hl Hks]]. subst l. cbn in K. inversion K as [[K1 K2 K3 K4]].
  destruct parts as [|p parts]; [discriminate|]. cbn [map] in Hks. inversion Hks; subst e. destruct k; try discriminate K4. destruct p as [e|x].
  - cbn [part_node] in P. destruct e as [i0 sp0 n0|i0 sp0 b0 n0|i0 sp0 f args|i0 sp0 c0 o0|i0 sp0 ns r0|i0 sp0 ks].
    + inversion P as [c0 [(h & x & Hk)|(x & Hk)]|l0 b0 r1 c0 Hk|l0 x b0 r1 c0 Hk]; subst; discriminate.
    + right. exists SKExpr, i, sp, (EMember i0 sp0 b0 n0), parts. split; [reflexivity|].
      assert (Hh : head_is_call (expr_node (EMember i0 sp0 b0 n0)) = true).
      { clear - P. induction P as [c0 [(h & x & K)|(x & K)]|l b r c0 K _ IH|l x b r c0 K _ IH].
        - destruct c0 as [l ks]. unfold n_kind in K; cbn in K. cbn [head_is_call]. rewrite K. reflexivity.
        - destruct c0 as [l ks]. unfold n_kind in K; cbn in K. cbn [head_is_call]. rewrite K. reflexivity.
        - cbn [head_is_call]. rewrite K. exact IH.
        - cbn [head_is_call]. rewrite K. exact IH. }
      rewrite head_call_expr in Hh. exact Hh.
    + left. exists (ECall i0 sp0 f args). split; [split; [eexists _, _, _, _; reflexivity|eexists _, _, _; reflexivity]|].
      inversion P as [c0 _|l0 b0 r1 c0 Hk|l0 x b0 r1 c0 Hk]; subst; [reflexivity|discriminate|discriminate].
    + inversion P as [c1 [(h & x & Hk)|(x & Hk)]|l0 b0 r1 c1 Hk|l0 x b0 r1 c1 Hk]; subst; discriminate.
    + inversion P as [c0 [(h & x & Hk)|(x & Hk)]|l0 b0 r1 c0 Hk|l0 x b0 r1 c0 Hk]; subst; discriminate.
    + inversion P as [c0 [(h & x & Hk)|(x & Hk)]|l0 b0 r1 c0 Hk|l0 x b0 r1 c0 Hk]; subst; discriminate.
  - cbn [part_node] in P. destruct x as [i0 sp0 l0|k0 i0 sp0 parts0]; inversion P as [c0 [(h & x & Hk)|(x & Hk)]|l1 b0 r1 c0 Hk|l1 x b0 r1 c0 Hk]; subst; discriminate.
Qed.
Lemma call_s_statement s c : sol_call_statement s c -> call_statement (stmt_node s) (expr_node c).
Proof.
  intros (Hc & i & sp & parts & ->). eexists _, _, _, _, _, _. split; [reflexivity|]. split; [reflexivity|]. apply pf_call. left. apply e_call. exact Hc.
Qed.
Lemma kept_s s : proper s -> (sol_kept s <-> control (stmt_node s) = true \/ declaration (stmt_node s) = true).
Proof.
  intros (k & i & sp & parts & ->). unfold control, declaration. cbn [stmt_node nd n_kind n_lab l_kind]. split.
  - intros (k' & i' & sp' & parts' & Q & [(H1 & H2)|(-> & i1 & sp1 & named & rhs & -> & Hn)]); inversion Q; subst.
    + destruct k'; auto; contradiction.
    + right. cbn [sol_declaration]. apply existsb_exists. exists true. auto.
  - intros H. exists k, i, sp, parts. split; [reflexivity|]. destruct k; try (left; split; discriminate); [|destruct H; discriminate].
    right. split; [reflexivity|]. destruct H as [H|H]; [discriminate|]. cbn [sol_declaration] in H.
    destruct parts as [|[e|x] [|q r]]; try discriminate; [|destruct e; discriminate]. destruct e as [| | | |i1 sp1 named rhs|]; try discriminate.
    apply existsb_exists in H. destruct H as (b & Hb & ->). exists i1, sp1, named, rhs. auto.
Qed.
Lemma s_span s : n_span (stmt_node s) = stmt_span s.
Proof. destruct s; reflexivity. Qed.
Lemma s_id s : n_id (stmt_node s) = S (stmt_id s).
Proof. destruct s; reflexivity. Qed.
Lemma last_s f t u : test_name f = Some t -> sol_last f u -> last_statement (item_node (IFun f)) = Some (stmt_node u).
Proof.
  intros Ht (i & sp & pre & Hb & Hpre). cbn [item_node]. rewrite Ht. unfold last_statement, nd, n_kind; cbn [n_lab l_kind n_kids].
  unfold test_statements, fun_kids. rewrite Hb, nth_error_app2 by (rewrite map_length; apply le_n). rewrite map_length, Nat.sub_diag. cbn [nth_error].
  cbn [stmt_node nd n_kids]. unfold last_of.
  assert (X : forall pre prev, (pre = [] -> prev = false) -> (forall p c, pre = p ++ [c] -> is_prefix_cheatcode c = false) ->
    exists ys, filter_from is_prefix_cheatcode faux_continue stmt_node prev (pre ++ [u]) = ys ++ [stmt_node u]).
  { clear. induction pre as [|a pre IH]; intros prev H0 Hc.
    - rewrite (H0 eq_refl). exists []. reflexivity.
    - cbn [app filter_from]. destruct (IH (is_prefix_cheatcode a)) as (ys & Hys).
      + intros ->. exact (Hc [] a eq_refl).
      + intros p c ->. exact (Hc (a :: p) c eq_refl).
      + rewrite Hys. eexists (_ :: ys). reflexivity. }
  destruct (X pre false) as (ys & Hys); [reflexivity| |].
  - intros p c Hp. destruct (is_prefix_cheatcode c) eqn:Hc; [|reflexivity]. apply prefix_spec in Hc. destruct (Hpre p c Hp Hc).
  - rewrite Hys, rev_app_distr. reflexivity.
Qed.
Lemma last_inv f t y : test_name f = Some t -> last_statement (item_node (IFun f)) = Some y -> y = faux_continue \/ exists u, sol_last f u /\ y = stmt_node u.
Proof.
  intros Ht Hy. destruct (proj1 (test_name_spec f t) Ht) as (_ & _ & _ & i & sp & l & Hb).
  destruct (exists_last (l := l)) as (pre & u & El).
  - intros ->. revert Hy. cbn [item_node]. rewrite Ht. unfold last_statement, nd, n_kind; cbn [n_lab l_kind n_kids].
    unfold test_statements, fun_kids. rewrite Hb, nth_error_app2 by (rewrite map_length; apply le_n). rewrite map_length, Nat.sub_diag. discriminate.
  - subst l. destruct (filter_last is_prefix_cheatcode faux_continue stmt_node pre false u) as (z & Hz & Hzc).
    assert (Ey : y = z).
    { revert Hy. cbn [item_node]. rewrite Ht. unfold last_statement, nd, n_kind; cbn [n_lab l_kind n_kids].
      unfold test_statements, fun_kids. rewrite Hb, nth_error_app2 by (rewrite map_length; apply le_n). rewrite map_length, Nat.sub_diag. cbn [nth_error stmt_node nd n_kids].
      unfold last_of. rewrite Hz, rev_app_distr. cbn [rev app]. intros H. inversion H. reflexivity. }
    subst z. destruct Hzc as [->| ->]; [left; reflexivity|].
    destruct pre as [|a pre] using rev_ind; [right; exists u; split; [|reflexivity]; exists i, sp, []; split; [exact Hb|]; intros p c Q; destruct p; discriminate|].
    destruct (is_prefix_cheatcode a) eqn:Pa.
    + left. clear IHpre. rewrite <- app_assoc in Hz. cbn [app] in Hz.
      assert (X : forall l prev, exists ys, filter_from is_prefix_cheatcode faux_continue stmt_node prev (l ++ [a; u]) = ys ++ [faux_continue]).
      { clear - Pa. induction l as [|w l IH]; intros prev; cbn [app filter_from]; [rewrite Pa; eexists [_]; reflexivity|]. destruct (IH (is_prefix_cheatcode w)) as (ys & ->). eexists (_ :: ys). reflexivity. }
      destruct (X pre false) as (ys & Hys). rewrite Hys in Hz. apply (f_equal (@rev node)) in Hz. rewrite !rev_app_distr in Hz. cbn in Hz. inversion Hz. reflexivity.
    + right. exists u. split; [|reflexivity]. exists i, sp, (pre ++ [a]). split; [exact Hb|]. intros p c Q Hc. apply app_inj_tail in Q. destruct Q as [_ ->]. apply prefix_spec in Hc. congruence.
Qed.

(** A statement that is a candidate of the test [t] is a statement that [t] runs, and not its last. It is not a declaration, [break], [continue], [emit],
    [return] or [revert], and nothing it is inside of directly follows a cheatcode. It is a call that is not ignored, or else has no statement inside of it. *)
Theorem C69_statement_candidates : forall E items walkable st sp t, no_member_statement items -> NoDup (map f_id (functions items)) ->
  result (sol_env E items walkable) (file_node items) st -> candidate st Statement sp t ->
  v_skip E sp = false /\ v_ign_test E t = false /\
  exists s, sol_code items walkable t s /\ stmt_span s = sp /\ ~ sol_kept s /\
    ((exists c, sol_call_statement s c /\ ~ sol_ignored_call E c) \/
     ((forall c, ~ sol_call_statement s c) /\
      forall k i parts x s', s = SStmt k i sp parts -> In (PStmt x) parts -> exposed x s' -> ~ proper s')).
Proof.
  intros E items walkable st sp t HN HD HR HC. pose proof (sol_parsed E items walkable HN) as HP. pose proof (sol_functions_apart E items walkable HD) as FA.
  destruct (candidate_runs_last _ _ _ HP HR Statement sp t FA HC) as (n & L & R & Hn & Hy).
  apply yields_statement in Hy. destruct Hy as (k & m & Hk & Hw & Hs & Hsk & (His & Hkp & Hcase)). split; [exact Hsk|].
  assert (Hnf : m <> faux_continue).
  { intros ->. destruct Hcase as [(_ & H & _)|(c & (l & e & r & rm & ct & d & H & _) & _)]; discriminate. }
  assert (O : v_ign_test E t = false /\ exists f b s, m = stmt_node s /\ In f (functions items) /\ f_body f = Some b /\ exposed b s /\ proper s /\
     (sol_calls items walkable t f \/ sol_test items f t /\ forall u, sol_last f u -> stmt_id u <> stmt_id s)).
  { destruct Hn as [(Hn & ->)|(Hn & ->)].
    - destruct (sol_named E items walkable n t Hn) as (Hi & f & Hf & -> & Hkids). split; [exact Hi|]. rewrite Hkids in Hk.
      destruct (fun_within items f m (proj1 Hf) (ex_intro _ k (conj Hk Hw)) (or_introl His)) as [H|[(b & s & H1 & H2 & H3 & ->)|(i & sp1 & c & args & -> & _)]]; [contradiction| |exfalso; destruct His as (a & b & c' & d & H); discriminate].
      exists f, b, s. split; [reflexivity|]. split; [exact (proj1 Hf)|]. split; [exact H1|]. split; [exact H2|]. split; [exact H3|]. right. split; [exact Hf|].
      intros u Hu Hid. apply Hkp. right. exists (stmt_node u). split; [eapply last_s; [apply test_name_spec; exact (proj2 Hf)|exact Hu]|].
      unfold same. cbn [sol_env v_fw fw_foundry fw_structural]. rewrite !s_id, Hid. apply Nat.eqb_refl.
    - destruct (sol_called E items walkable t n Hn) as (Hi & f & Hf & Hf2 & ->). split; [exact Hi|]. cbn [local_node nd n_kids] in Hk.
      destruct (fun_within items f m Hf2 (ex_intro _ k (conj Hk Hw)) (or_introl His)) as [H|[(b & s & H1 & H2 & H3 & ->)|(i & sp1 & c & args & -> & _)]]; [contradiction| |exfalso; destruct His as (a & b & c' & d & H); discriminate].
      exists f, b, s. auto 8. }
  destruct O as (Hi & f & b & s & -> & Hf & Hb & Hex & Hpr & Hwho). split; [exact Hi|]. rewrite s_span in Hs.
  assert (Hcs : forall n, call_statement (stmt_node s) n -> exists c, sol_call_statement s c /\ n = expr_node c).
  { intros c Hc. destruct (s_call_statement s c Hpr Hc) as [H|(k0 & i0 & sp0 & e & parts & -> & Hm)]; [exact H|].
    rewrite (HN f b _ k0 i0 sp0 e parts Hf Hb (exposed_inside _ _ Hex) eq_refl) in Hm. discriminate. }
  exists s. split; [exists f, b; auto|]. split; [exact Hs|]. split.
  - rewrite (kept_s s Hpr). destruct Hcase as [(_ & H1 & H2 & _)|(n0 & Hc & _)]; [rewrite H1, H2; intros [H|H]; discriminate|].
    destruct (Hcs n0 Hc) as (c & ((ic & spc & fc & argsc & ->) & i & sp' & parts & ->) & ->). unfold control, declaration. cbn. intros [H|H]; [discriminate|]. destruct parts; discriminate H.
  - destruct Hcase as [(H1 & _ & _ & H2)|(n0 & Hc & Hni & _)].
    + right. split; [intros c Hc; exact (H1 _ (call_s_statement s c Hc))|]. intros k0 i0 parts x s' -> Hx Hex' Hp.
      refine (leaf_open _ L R _ His H2 (stmt_node x) (stmt_node s') _ (exposed_open _ x s' Hex') _).
      * cbn [stmt_node nd n_kids]. change (stmt_node x) with (part_node (PStmt x)). apply in_map. exact Hx.
      * destruct Hp as (k1 & i1 & sp1 & parts1 & ->). eexists _, _, _, _. reflexivity.
    + left. destruct (Hcs n0 Hc) as (c & Hc' & ->). exists c. split; [exact Hc'|]. rewrite <- (v_ignored_call E items walkable c (proj1 Hc')). exact Hni.
Qed.
Print Assumptions C69_statement_candidates.

(** A method call that is a candidate of [t] is a call [base.p1...pn(..)] in a function that [t] runs, in a statement that is not protected or in a modifier's
    arguments; it is not ignored; the candidate is what follows [base]. *)
Theorem C69_method_candidates : forall E items walkable st sp t, no_member_statement items -> NoDup (map f_id (functions items)) ->
  result (sol_env E items walkable) (file_node items) st -> candidate st MethodCall sp t ->
  v_skip E sp = false /\ v_ign_test E t = false /\
  exists f c base p, (sol_test items f t \/ sol_calls items walkable t f) /\ sol_expr_of f c /\ sol_method c base p /\
    method_span E (expr_span c) (expr_span base) = Some sp /\ ~ sol_ignored_call E c /\ ~ sol_ignored_method E c.
Proof.
  intros E items walkable st sp t HN HD HR HC. pose proof (sol_parsed E items walkable HN) as HP. pose proof (sol_functions_apart E items walkable HD) as FA.
  destruct (candidate_runs_last _ _ _ HP HR MethodCall sp t FA HC) as (n & L & R & Hn & Hy).
  apply yields_method in Hy. destruct Hy as (k & m & ctx & Hk & Hv & Hsk & ((x & Kx) & Hni & Hnm & B & p & Hm & Hsp) & _). split; [exact Hsk|].
  assert (Hc : is_call m) by (eexists _, _; exact Kx). apply visits_within in Hv.
  assert (O : v_ign_test E t = false /\ exists f c, m = expr_node c /\ sol_call c /\ sol_expr_of f c /\ (sol_test items f t \/ sol_calls items walkable t f)).
  { destruct Hn as [(Hn & _)|(Hn & _)].
    - destruct (sol_named E items walkable n t Hn) as (Hi & f & Hf & -> & Hkids). split; [exact Hi|]. rewrite Hkids in Hk.
      destruct (fun_calls items f m (proj1 Hf) (ex_intro _ k (conj Hk Hv)) Hc) as (c & -> & H1 & H2). exists f, c. auto.
    - destruct (sol_called E items walkable t n Hn) as (Hi & f & Hf & Hf2 & ->). split; [exact Hi|].
      destruct (fun_calls items f m Hf2 (ex_intro _ k (conj Hk Hv)) Hc) as (c & -> & H1 & H2). exists f, c. auto. }
  destruct O as (Hi & f & c & -> & Cc & He & Hf). split; [exact Hi|]. apply e_method in Hm. destruct Hm as (base & Hm & ->). rewrite !e_span in Hsp.
  exists f, c, base, p. split; [exact Hf|]. split; [exact He|]. split; [exact Hm|]. split; [exact Hsp|].
  rewrite <- (v_ignored_call E items walkable c Cc), <- (v_ignored_method E items walkable c). auto.
Qed.
Print Assumptions C69_method_candidates.

(** ** What is listed *)
Section Listed.
Context (E : venv) (items : list sitem) (walkable : text -> bool).
Notation ENV := (sol_env E items walkable).
Lemma v_in e c : sol_in E e c -> open_path ENV (expr_node e) (expr_node c).
Proof.
  intros H. induction H as [e|i sp f args k e Ho Hk Hb _ IH|i sp f args e Hb _ IH]; [constructor| |].
  2:{ eapply op_callee; [apply e_call; eexists _, _, _, _; reflexivity|reflexivity| |exact IH]. cbn [expr_node nd n_kids]. rewrite callee_node_plain by exact Hb. reflexivity. }
  assert (Hc : sol_call (ECall i sp f args)) by (eexists _, _, _, _; reflexivity).
  eapply op_kid; [right; right; left; split; [left; apply e_call; exact Hc|]| |exact IH].
  - rewrite (v_ignored_call E items walkable _ Hc), (v_ignored_method E items walkable). exact Ho.
  - cbn [expr_node nd n_kids]. destruct Hk as [<-|Hk]; [left; apply callee_node_plain; intros i' sp' g o; apply Hb; reflexivity|right; apply in_map; exact Hk].
Qed.
Lemma open_trans n m k : open_path ENV n m -> open_path ENV m k -> open_path ENV n k.
Proof. intros H. induction H as [|n k0 m H1 H2 _ IH|n k0 r m H1 H2 H3 _ IH]; intros Hk; [exact Hk|eapply op_kid; [exact H1|exact H2|exact (IH Hk)]|eapply op_callee; [exact H1|exact H2|exact H3|exact (IH Hk)]]. Qed.
Lemma kids_body f b n : f_body f = Some b -> open_path ENV (stmt_node b) n -> exists k, In k (fun_kids f) /\ open_path ENV k n.
Proof. intros Hb H. exists (stmt_node b). split; [|exact H]. unfold fun_kids. rewrite Hb. apply in_or_app. right. left. reflexivity. Qed.
Lemma v_part b k i sp parts e c : exposed b (SStmt k i sp parts) -> In (PExpr e) parts -> sol_in E e c -> open_path ENV (stmt_node b) (expr_node c).
Proof.
  intros Hex Hp Hin. eapply open_trans; [apply exposed_open; exact Hex|]. eapply op_kid; [left; eexists _, _, _, _; reflexivity| |apply v_in; exact Hin].
  cbn [stmt_node nd n_kids]. change (expr_node e) with (part_node (PExpr e)). apply in_map. exact Hp.
Qed.
Lemma v_removable s : sol_removable_call E items walkable s -> removable_call ENV (stmt_node s).
Proof.
  intros (i & sp & c & -> & Cc & Hi & Hl). split; [reflexivity|]. exists (expr_node c). split; [|split].
  - apply call_s_statement. split; [exact Cc|]. eexists _, _, _. reflexivity.
  - rewrite (v_ignored_call E items walkable c Cc). exact Hi.
  - intros f Hf. apply (v_local_call E items walkable c f Cc) in Hf. destruct Hf as (g & Hg & _). exact (Hl g Hg).
Qed.
Lemma v_plain f b s : no_member_statement items -> In f (functions items) -> f_body f = Some b -> exposed b s -> sol_plain s -> removable_leaf (stmt_node s).
Proof.
  intros HN Hf Hb Hex (Hp & Hk & Hc & Hin). 
  assert (NC : forall c, ~ call_statement (stmt_node s) c).
  { intros c Q. destruct (s_call_statement s c Hp Q) as [(c' & H & _)|(k0 & i0 & sp0 & e & parts & -> & Hm)]; [exact (Hc c' H)|].
    rewrite (HN f b _ k0 i0 sp0 e parts Hf Hb (exposed_inside _ _ Hex) eq_refl) in Hm. discriminate. }
  rewrite (kept_s s Hp) in Hk. destruct Hp as (k & i & sp & parts & ->).
  (* the rest does not depend on the kind *)
  assert (Q : removable_leaf (stmt_node (SStmt SKOther i sp parts))).
  { apply leaf_statement_sol. exists SKOther, i, sp, parts. split; [reflexivity|]. split; [left; reflexivity|]. intros x s' Hx Hs. eapply Hin; [reflexivity|exact Hx|exact Hs]. }
  split; [eexists _, _, _, _; reflexivity|]. split; [exact NC|]. split; [reflexivity|]. split; [|split].
  - destruct (control (stmt_node (SStmt k i sp parts))); [exfalso; auto|reflexivity].
  - destruct (declaration (stmt_node (SStmt k i sp parts))); [exfalso; auto|reflexivity].
  - destruct Q as (_ & _ & _ & _ & _ & Q). exact Q.
Qed.
End Listed.

(** Every other removable statement of a test is a candidate of that test, unless it is the last one, or a directive skips it. *)
Theorem C69_statements_of_tests : forall E items walkable st t f b s, no_member_statement items -> result (sol_env E items walkable) (file_node items) st ->
  sol_test items f t -> v_ign_test E t = false -> f_body f = Some b -> exposed b s -> sol_plain s \/ sol_removable_call E items walkable s ->
  (forall u, sol_last f u -> stmt_id u <> stmt_id s) -> v_skip E (stmt_span s) = false -> candidate st Statement (stmt_span s) t.
Proof.
  intros E items walkable st t f b s HN HR Hf Hi Hb Hex Hrm Hl Hsk. pose proof (sol_parsed E items walkable HN) as HP. rewrite <- s_span in *.
  assert (Ht : test_name f = Some t) by (apply test_name_spec; exact (proj2 Hf)).
  eapply (C33_statements_of_tests (sol_env E items walkable) (file_node items) st (item_node (IFun f)) t (stmt_node s)); [exact HP|exact HR|apply sol_file_test; assumption| | | |exact Hsk].
  - destruct (kids_body E items walkable f b _ Hb (exposed_open _ b s Hex)) as (k & Hk & Ho). exists k. split; [|exact Ho]. cbn [item_node]. rewrite Ht. exact Hk.
  - destruct Hrm as [Hrm|Hrm]; [left; eapply v_plain; eauto; exact (proj1 Hf)|right; apply v_removable; exact Hrm].
  - intros y Hy. unfold same. cbn [sol_env v_fw fw_foundry fw_structural]. rewrite s_id.
    destruct (last_inv f t y Ht Hy) as [->|(u & Hu & ->)]; [reflexivity|]. rewrite s_id. apply Nat.eqb_neq. intros Q. injection Q. exact (Hl u Hu).
Qed.
Print Assumptions C69_statements_of_tests.

(** Every method call of a test that is not ignored is a candidate of that test, unless it makes up the last statement. *)
Theorem C69_method_calls_of_tests : forall E items walkable st t f b k i sp0 parts e c base p sp, no_member_statement items ->
  result (sol_env E items walkable) (file_node items) st -> sol_test items f t -> v_ign_test E t = false ->
  f_body f = Some b -> exposed b (SStmt k i sp0 parts) -> In (PExpr e) parts -> sol_in E e c -> sol_method c base p ->
  ~ sol_ignored_call E c -> v_ign_met E (dotted p) = false ->
  (forall s u c', exposed b s -> sol_call_statement s c' -> expr_id c' = expr_id c -> sol_last f u -> stmt_id u <> stmt_id s) ->
  method_span E (expr_span c) (expr_span base) = Some sp -> v_skip E sp = false -> candidate st MethodCall sp t.
Proof.
  intros E items walkable st t f b k i sp0 parts e c base p sp HN HR Hf Hi Hb Hex Hpe Hin Hm Hnc Hnm Hst Hsp Hsk. pose proof (sol_parsed E items walkable HN) as HP.
  assert (Ht : test_name f = Some t) by (apply test_name_spec; exact (proj2 Hf)). pose proof (sol_method_call _ _ _ Hm) as Hc.
  eapply (C33_method_calls_of_tests (sol_env E items walkable) (file_node items) st (item_node (IFun f)) t (expr_node c));
    [exact HP|exact HR|apply sol_file_test; assumption| | |apply e_method; eauto|rewrite v_ignored_call; assumption|exact Hnm| | | |exact Hsk].
  - destruct (kids_body E items walkable f b _ Hb (v_part E items walkable b k i sp0 parts e c Hex Hpe Hin)) as (x & Hx & Ho). exists x. split; [|exact Ho]. cbn [item_node]. rewrite Ht. exact Hx.
  - destruct Hc as (i0 & sp1 & f0 & args & ->). eexists. reflexivity.
  - intros g Hg. apply (v_local_call E items walkable c g Hc) in Hg. destruct Hg as (h & (i2 & sp2 & x & (i3 & sp3 & f3 & args3 & -> & H3) & _) & _).
    destruct Hm as (g' & (i4 & sp4 & f4 & args4 & Q & H4) & Hm & Hne). inversion Q; subst. rewrite <- (callee_unique _ _ _ H3 H4) in Hm. inversion Hm; subst. contradiction.
  - intros s Hs Hcs. assert (Ss : is_stmt s) by (eapply call_statement_stmt; exact Hcs).
    destruct (within_inv _ _ Hs) as [->|(x & Hx & Hw)]; [exfalso; cbn [item_node] in Ss; rewrite Ht in Ss; destruct Ss as (a1 & a2 & a3 & a4 & Q); discriminate|].
    cbn [item_node] in Hx. rewrite Ht in Hx. cbn [nd n_kids] in Hx.
    destruct (fun_within items f s (proj1 Hf) (ex_intro _ x (conj Hx Hw)) (or_introl Ss)) as [->|[(b' & s' & H1 & H2 & H3 & ->)|(i1 & sp1 & f1 & args & -> & _)]].
    + destruct Hcs as (l & e0 & r & rm & ct & d & H & _). discriminate.
    + rewrite Hb in H1. inversion H1; subst b'. destruct (s_call_statement s' _ H3 Hcs) as [(c' & Hc' & Eq)|(k0 & i0 & sp1 & e0 & parts0 & -> & Hmc)].
      * split; [destruct H3 as (k0 & i0 & sp1 & parts0 & ->); reflexivity|]. intros l Hl. unfold same. cbn [sol_env v_fw fw_foundry fw_structural]. rewrite s_id.
        destruct (last_inv f t l Ht Hl) as [->|(u & Hu & ->)]; [reflexivity|]. rewrite s_id. apply Nat.eqb_neq. intros Q. injection Q. apply (Hst s' u c' H2 Hc'); [|exact Hu].
        apply (f_equal n_id) in Eq. rewrite !e_id in Eq. injection Eq. auto.
      * exfalso. rewrite (HN f b _ k0 i0 sp1 e0 parts0 (proj1 Hf) Hb (exposed_inside _ _ H2) eq_refl) in Hmc. discriminate.
    + exfalso. destruct Ss as (a1 & a2 & a3 & a4 & Q). discriminate.
  - rewrite !e_span. exact Hsp.
Qed.
Print Assumptions C69_method_calls_of_tests.

(** The removable statements of a function of the file that a test calls, from a call statement or an argument of one, are candidates of that test. *)
Theorem C69_statements_of_called_functions : forall E items walkable st t f b k i sp0 parts e c g h s, no_member_statement items -> NoDup (map f_id (functions items)) ->
  result (sol_env E items walkable) (file_node items) st -> sol_test items f t -> v_ign_test E t = false ->
  f_body f = Some b -> exposed b (SStmt k i sp0 parts) -> In (PExpr e) parts -> sol_in E e c -> sol_local_call items walkable c g ->
  f_body g = Some h -> exposed h s -> sol_plain s \/ sol_removable_call E items walkable s -> v_skip E (stmt_span s) = false ->
  candidate st Statement (stmt_span s) t.
Proof.
  intros E items walkable st t f b k i sp0 parts e c g h s HN HD HR Hf Hi Hb Hex Hpe Hin Hl Hh Hexs Hrm Hsk. pose proof (sol_parsed E items walkable HN) as HP. rewrite <- s_span in *.
  assert (Ht : test_name f = Some t) by (apply test_name_spec; exact (proj2 Hf)).
  assert (Hc : sol_call c) by (destruct Hl as (i1 & sp1 & x & (i2 & sp2 & f2 & args & -> & _) & _); eexists _, _, _, _; reflexivity).
  eapply (C33_statements_of_called_functions _ _ _ (item_node (IFun f)) t (expr_node c) (local_node g));
    [exact HP|exact HR|apply sol_functions_apart; exact HD|apply sol_file_test; assumption| | |apply v_local_call; eauto| | |exact Hsk].
  - destruct (kids_body E items walkable f b _ Hb (v_part E items walkable b k i sp0 parts e c Hex Hpe Hin)) as (x & Hx & Ho). exists x. split; [|exact Ho]. cbn [item_node]. rewrite Ht. exact Hx.
  - destruct Hc as (i0 & sp1 & f0 & args & ->). eexists. reflexivity.
  - destruct (kids_body E items walkable g h _ Hh (exposed_open _ h s Hexs)) as (x & Hx & Ho). exists x. auto.
  - destruct Hrm as [Hrm|Hrm]; [left|right; apply v_removable; exact Hrm]. eapply v_plain; [exact HN| |exact Hh|exact Hexs|exact Hrm].
    destruct Hl as (i1 & sp1 & x & _ & _ & Hl). eapply sol_local_in. exact Hl.
Qed.
Print Assumptions C69_statements_of_called_functions.

Section Entered.
Context (E : venv) (items : list sitem) (walkable : text -> bool).
Notation ENV := (sol_env E items walkable).
Notation FILE := (file_node items).
Lemma sol_seen c : sol_call c -> seen_call (expr_node c).
Proof. intros (i0 & sp1 & f0 & args & ->). eexists. reflexivity. Qed.
Lemma sol_local_call_call c g : sol_local_call items walkable c g -> sol_call c /\ In g (functions items).
Proof.
  intros (i1 & sp1 & x & (i2 & sp2 & f2 & args & -> & _) & _ & Hl). split; [eexists _, _, _, _; reflexivity|eapply sol_local_in; exact Hl].
Qed.
Lemma sol_tests_only : sol_calls_in_functions items walkable -> calls_in_tests_only ENV FILE.
Proof.
  intros HO m f Hp Hs Hl. inversion Hp as [n|n h m0 _ Hh Hw]; subst; [destruct Hs as (x & K); discriminate|].
  cbn [file_node nd n_kids] in Hh. apply in_map_iff in Hh. destruct Hh as ([g|e] & <- & Hi).
  - cbn [item_node] in Hw. destruct (test_name g) as [t|] eqn:Ht.
    + inversion Hw as [n|n h m0 Hkd _ _]; subst; [destruct Hs as (x & K); discriminate|].
      destruct Hkd as [(? & ? & ? & ? & X)|[(? & ? & X)|[(? & X)|[X|(_ & [X|[(? & X)|[X|(? & X)]]])]]]]; discriminate.
    + inversion Hw as [n|n h m0 _ Hh _]; subst; [destruct Hs as (x & K); discriminate|destruct Hh].
  - cbn [item_node] in Hw. apply test_within in Hw. assert (Hm : is_call m) by (destruct Hs as (x & K); eexists _, _; exact K).
    destruct (proj1 (expr_within e) m Hw) as (_ & _ & HX).
    destruct (HX Hm) as (i & sp & c & args & Hse & ->).
    apply (v_local_call E items walkable (ECall i sp c args) f) in Hl; [|eexists _, _, _, _; reflexivity]. destruct Hl as (g & Hg & _). exact (HO e _ g Hi Hse Hg).
Qed.
Lemma sol_fun_open f b k i sp0 parts e c : f_body f = Some b -> exposed b (SStmt k i sp0 parts) -> In (PExpr e) parts -> sol_in E e c ->
  exists x, In x (fun_kids f) /\ open_path ENV x (expr_node c).
Proof. intros Hb Hex Hpe Hin. exact (kids_body E items walkable f b _ Hb (v_part E items walkable b k i sp0 parts e c Hex Hpe Hin)). Qed.
Lemma sol_entered_reached g : sol_entered E items walkable g -> In g (functions items) /\ reached ENV FILE (local_node g).
Proof.
  induction 1 as [t f g Hf Hi (b & k & i & sp & parts & e & c & H1 & H2 & H3 & H4 & H5)|f g _ (IH1 & IH2) (b & k & i & sp & parts & e & c & H1 & H2 & H3 & H4 & H5)];
    destruct (sol_local_call_call c g H5) as (Hc & Hg); (split; [exact Hg|]); destruct (sol_fun_open f b k i sp parts e c H1 H2 H3 H4) as (x & Hx & Ho).
  - assert (Ht : test_name f = Some t) by (apply test_name_spec; exact (proj2 Hf)).
    eapply re_test; [apply sol_file_test; eassumption| |apply sol_seen; exact Hc|apply v_local_call; eauto]. exists x. split; [|exact Ho]. cbn [item_node]. rewrite Ht. exact Hx.
  - eapply re_fun; [exact IH2| |apply sol_seen; exact Hc|apply v_local_call; eauto]. exists x. auto.
Qed.
Lemma sol_method_hyps g h k i sp0 parts e c base p sp : In g (functions items) -> f_body g = Some h -> exposed h (SStmt k i sp0 parts) -> In (PExpr e) parts -> sol_in E e c -> sol_method c base p ->
  ~ sol_ignored_call E c -> method_span E (expr_span c) (expr_span base) = Some sp ->
  in_body ENV (local_node g) (expr_node c) /\ seen_call (expr_node c) /\ method_call (expr_node c) (expr_node base) p /\ ~ ignored_call ENV (expr_node c) /\
  (forall f, ~ local_call ENV (expr_node c) f) /\ (forall s, within (local_node g) s -> call_statement s (expr_node c) -> removable s = true) /\
  method_span ENV (n_span (expr_node c)) (n_span (expr_node base)) = Some sp.
Proof.
  intros Hg Hh Hex' Hpe' Hin' Hm Hnc Hsp. pose proof (sol_method_call _ _ _ Hm) as Hc.
  split; [destruct (sol_fun_open g h k i sp0 parts e c Hh Hex' Hpe' Hin') as (x & Hx & Ho); exists x; auto|].
  split; [apply sol_seen; exact Hc|]. split; [apply e_method; eauto|]. split; [rewrite v_ignored_call; assumption|]. split; [|split].
  - intros g2 Hg2. apply (v_local_call E items walkable c g2 Hc) in Hg2. destruct Hg2 as (h2 & (i2 & sp2 & x & (i3 & sp3 & f3 & args3 & -> & H3) & _) & _).
    destruct Hm as (g' & (i4 & sp4 & f4 & args4 & Q & H4) & Hm & Hne). inversion Q; subst. rewrite <- (callee_unique _ _ _ H3 H4) in Hm. inversion Hm; subst. contradiction.
  - intros s Hs Hcs. assert (Ss : is_stmt s) by (eapply call_statement_stmt; exact Hcs).
    destruct (within_inv _ _ Hs) as [->|(x & Hx & Hw)]; [exfalso; destruct Ss as (a1 & a2 & a3 & a4 & Q); discriminate|].
    destruct (fun_within items g s Hg (ex_intro _ x (conj Hx Hw)) (or_introl Ss)) as [->|[(b' & s' & H1 & H2 & H3 & ->)|(i1 & sp1 & f1 & args & -> & _)]].
    + destruct Hcs as (l & e0 & r & rm & ct & d & H & _). discriminate.
    + destruct H3 as (k0 & i0 & sp1 & parts0 & ->). reflexivity.
    + exfalso. destruct Ss as (a1 & a2 & a3 & a4 & Q). discriminate.
  - rewrite !e_span. exact Hsp.
Qed.
End Entered.

(** And the method calls of such a function. *)
Theorem C69_method_calls_of_called_functions : forall E items walkable st t f g h k i sp0 parts e c base p sp, no_member_statement items ->
  NoDup (map f_id (functions items)) -> result (sol_env E items walkable) (file_node items) st -> sol_test items f t -> v_ign_test E t = false ->
  sol_enters E items walkable f g -> f_body g = Some h -> exposed h (SStmt k i sp0 parts) -> In (PExpr e) parts -> sol_in E e c -> sol_method c base p ->
  ~ sol_ignored_call E c -> v_ign_met E (dotted p) = false ->
  method_span E (expr_span c) (expr_span base) = Some sp -> v_skip E sp = false -> candidate st MethodCall sp t.
Proof.
  intros E items walkable st t f g h k i sp0 parts e c base p sp HN HD HR Hf Hi (b & k0 & i0 & sp1 & parts0 & e0 & c0 & H1 & H2 & H3 & H4 & H5) Hh Hex Hpe Hin Hm Hnc Hnm Hsp Hsk.
  destruct (sol_local_call_call items walkable c0 g H5) as (Hc & Hg). assert (Ht : test_name f = Some t) by (apply test_name_spec; exact (proj2 Hf)).
  destruct (sol_method_hyps E items walkable g h k i sp0 parts e c base p sp Hg Hh Hex Hpe Hin Hm Hnc Hsp) as (B1 & B2 & B3 & B4 & B5 & B6 & B7).
  eapply (C33_method_calls_of_called_functions _ _ _ (item_node (IFun f)) t (expr_node c0) (local_node g) (expr_node c));
    [apply sol_parsed; exact HN|exact HR|apply sol_functions_apart; exact HD|apply sol_file_test; assumption| |apply sol_seen; exact Hc|apply v_local_call; eauto|exact B1|exact B2|exact B3|exact B4|exact Hnm|exact B5|exact B6|exact B7|exact Hsk].
  destruct (sol_fun_open E items walkable f b k0 i0 sp1 parts0 e0 c0 H1 H2 H3 H4) as (x & Hx & Ho). exists x. split; [|exact Ho]. cbn [item_node]. rewrite Ht. exact Hx.
Qed.
Print Assumptions C69_method_calls_of_called_functions.

(** In Solidity, if functions of the file are not called in initial values: every statement of every function that is entered, from a test or from another
    such function, is a candidate, if it is plain or a call that is neither ignored nor of a function of the file. *)
Theorem C78_foundry_statements : forall E items walkable st g h s, no_member_statement items -> NoDup (map f_id (functions items)) ->
  result (sol_env E items walkable) (file_node items) st -> sol_calls_in_functions items walkable -> sol_entered E items walkable g ->
  f_body g = Some h -> exposed h s -> sol_plain s \/ sol_removable_call E items walkable s -> v_skip E (stmt_span s) = false ->
  exists t, candidate st Statement (stmt_span s) t.
Proof.
  intros E items walkable st g h s HN HD HR HO He Hh Hex Hrm Hsk. destruct (sol_entered_reached _ _ _ _ He) as (Hg & Hr). rewrite <- s_span in *.
  eapply C33_statements_of_reached_functions; [apply sol_parsed; exact HN|exact HR|apply sol_functions_apart; exact HD|apply sol_tests_only; exact HO|exact Hr| | |exact Hsk].
  - destruct (kids_body E items walkable g h _ Hh (exposed_open _ h s Hex)) as (x & Hx & Ho). exists x. auto.
  - destruct Hrm as [Hrm|Hrm]; [left; eapply v_plain; eassumption|right; apply v_removable; exact Hrm].
Qed.
Print Assumptions C78_foundry_statements.
(** And every method call of such a function that is not ignored. *)
Theorem C78_foundry_method_calls : forall E items walkable st g h k i sp0 parts e c base p sp, no_member_statement items -> NoDup (map f_id (functions items)) ->
  result (sol_env E items walkable) (file_node items) st -> sol_calls_in_functions items walkable -> sol_entered E items walkable g ->
  f_body g = Some h -> exposed h (SStmt k i sp0 parts) -> In (PExpr e) parts -> sol_in E e c -> sol_method c base p ->
  ~ sol_ignored_call E c -> v_ign_met E (dotted p) = false ->
  method_span E (expr_span c) (expr_span base) = Some sp -> v_skip E sp = false -> exists t, candidate st MethodCall sp t.
Proof.
  intros E items walkable st g h k i sp0 parts e c base p sp HN HD HR HO He Hh Hex Hpe Hin Hm Hnc Hnm Hsp Hsk. destruct (sol_entered_reached _ _ _ _ He) as (Hg & Hr).
  destruct (sol_method_hyps E items walkable g h k i sp0 parts e c base p sp Hg Hh Hex Hpe Hin Hm Hnc Hsp) as (B1 & B2 & B3 & B4 & B5 & B6 & B7).
  eapply C33_method_calls_of_reached_functions; [apply sol_parsed; exact HN|exact HR|apply sol_functions_apart; exact HD|apply sol_tests_only; exact HO|exact Hr|exact B1|exact B2|exact B3|exact B4|exact Hnm|exact B5|exact B6|exact B7|exact Hsk].
Qed.
Print Assumptions C78_foundry_method_calls.

(** Expressions of a file. *)
Definition sol_file_expr (items : list sitem) (c : sexpr) : Prop :=
  (exists e, In (IInit e) items /\ subexpr e c) \/ exists f, In f (functions items) /\ sol_expr_of f c.
(** The walk of a file does not panic, provided the places of the method calls can be computed (and there is no statement [f().x;]). *)
Theorem C69_no_panic : forall E items walkable fuel, no_member_statement items ->
  (forall c base p, sol_file_expr items c -> sol_method c base p -> method_span E (expr_span c) (expr_span base) <> None) ->
  visit_file (sol_env E items walkable) fuel (file_node items) <> LPanic.
Proof.
  intros E items walkable fuel HN HS. pose proof (sol_parsed E items walkable HN) as HP.
  assert (SF : forall f k c b p, In f (functions items) -> In k (fun_kids f) -> within k c -> method_call c b p -> method_span (sol_env E items walkable) (n_span c) (n_span b) <> None).
  { intros f k c b p Hf Hk Hw Hm. destruct (fun_calls items f c Hf (ex_intro _ k (conj Hk Hw)) (proj1 Hm)) as (c' & -> & Cc & He). apply e_method in Hm. destruct Hm as (base & Hm & ->).
    rewrite !e_span. apply (HS c' base p); [right; eauto|exact Hm]. }
  apply C36_no_panic; [exact HP| | |].
  - intros m t i k Hm K Hk. destruct (file_tests items m t i Hm K) as (f & Hf & _ & _ & Hkids). rewrite Hkids in Hk. eapply kids_no_test. exact Hk.
  - intros c b p Hw Hm. destruct (within_inv _ _ Hw) as [->|(k & Hk & Hw')]; [destruct Hm as [(h & x & Q) _]; discriminate|]. cbn [file_node nd n_kids] in Hk.
    apply in_map_iff in Hk. destruct Hk as ([f|e] & <- & Hi); cbn [item_node] in Hw'.
    + destruct (test_name f) as [t|].
      * destruct (within_inv _ _ Hw') as [->|(k & Hk & Hw'')]; [destruct Hm as [(h & x & Q) _]; discriminate|]. apply (SF f k c b p); auto. apply functions_in. exact Hi.
      * destruct (within_inv _ _ Hw') as [->|(k & [] & _)]. destruct Hm as [(h & x & Q) _]; discriminate.
    + destruct (proj2 (proj2 (proj1 (expr_within e) c Hw')) (proj1 Hm)) as (i & sp & f & args & Hs & ->). apply e_method in Hm. destruct Hm as (base & Hm & ->).
      rewrite !e_span. apply (HS _ base p); [left; eauto|exact Hm].
  - intros x f gs Hx. destruct (env_walkable E items walkable x f gs Hx) as (g & _ & Hg & ->). split; [apply local_no_test|].
    intros c b p Hw Hm. destruct (within_inv _ _ Hw) as [->|(k & Hk & Hw')]; [destruct Hm as [(h & y & Q) _]; discriminate|]. apply (SF g k c b p); auto. eapply sol_local_in. exact Hg.
Qed.
Print Assumptions C69_no_panic.

(** The walk of a file ends, with a result if the above holds. *)
Theorem C69_result : forall E items walkable, no_member_statement items ->
  (forall c base p, sol_file_expr items c -> sol_method c base p -> method_span E (expr_span c) (expr_span base) <> None) ->
  exists st, result (sol_env E items walkable) (file_node items) st.
Proof.
  intros E items walkable HN HS. destruct (sol_parsed E items walkable HN) as [W WF].
  destruct (C35_walk_ends (sol_env E items walkable) (file_node items) (map local_node (functions items)) W) as (r & Hr & HF).
  { intros x f gs Hx. split; [eapply WF; exact Hx|]. destruct (env_walkable E items walkable x f gs Hx) as (g & _ & Hg & ->). apply in_map. eapply sol_local_in. exact Hg. }
  specialize (HF _ (le_n _)). pose proof (C69_no_panic E items walkable (length (map local_node (functions items))) HN HS) as HP.
  destruct r as [st| |]; [exists st; eexists; exact HF| |congruence]. congruence.
Qed.
Print Assumptions C69_result.

(** ** Examples *)
Local Open Scope string_scope.
Fixpoint all_stmts (s : sstmt) : list sstmt :=
  s :: match s with SBlock _ _ l => flat_map all_stmts l | SStmt _ _ _ ps => flat_map part_stmts ps end
with part_stmts (p : spart) : list sstmt := match p with PExpr _ => [] | PStmt s => all_stmts s end.
Lemma inside_all b s : inside b s -> In s (all_stmts b).
Proof.
  intros H. induction H as [s|i sp l x s Hx _ IH|k i sp parts x s Hx _ IH].
  - destruct s; left; reflexivity.
  - cbn [all_stmts]. right. apply in_flat_map. exists x. auto.
  - cbn [all_stmts]. right. apply in_flat_map. exists (PStmt x). auto.
Qed.
Definition no_member_check (items : list sitem) : bool :=
  forallb (fun f => match f_body f with
    | Some b => forallb (fun s => match s with SStmt _ _ _ (PExpr e :: _) => negb (member_of_call e) | _ => true end) (all_stmts b)
    | None => true end) (functions items).
Lemma no_member_checked items : no_member_check items = true -> no_member_statement items.
Proof.
  intros H f b s k i sp e parts Hf Hb Hin ->. unfold no_member_check in H. rewrite forallb_forall in H. specialize (H f Hf). rewrite Hb in H.
  rewrite forallb_forall in H. specialize (H _ (inside_all _ _ Hin)). apply Bool.negb_true_iff. exact H.
Qed.

(** contract T { function testB() public { h(k2()); c.m(); vm.prank(); c.f(); x = 1; cb{value: 1}(); last(); }
    function testPure() public pure { g(); }  function h(uint x) public { c.n(); inner(); }  function inner() internal pure {..} function inner() internal { z(); } } *)
Definition g_s1 := f_stmt 1 0 8 (f_call 2 0 7 "h" [f_call 4 2 6 "k2" []]).
Definition g_s2 := f_stmt 10 9 15 (f_meth 11 9 14 "c" "m").
Definition g_s3 := f_stmt 15 16 27 (f_meth 16 16 26 "vm" "prank").
Definition g_s4 := f_stmt 20 28 34 (f_meth 21 28 33 "c" "f").
Definition g_s5 := f_stmt 25 35 41 (EOther 26 (xsp 1 35 40) [f_var 27 35 36 "x"]).
Definition g_s6e := ECall 31 (xsp 1 42 58) (ECallBlock 32 (xsp 1 42 56) (f_var 33 42 44 "cb") []) [].
Definition g_s6 := f_stmt 30 42 59 g_s6e.
Definition g_s7 := f_stmt 35 60 67 (f_call 36 60 66 "last" []).
Definition g_body := SBlock 40 (xsp 1 0 70) [g_s1; g_s2; g_s3; g_s4; g_s5; g_s6; g_s7].
Definition g_testB := SFun 41 (xsp 1 0 70) (Some (s2t "testB")) false [] (Some g_body).
Definition g_pure := SFun 42 (xsp 1 71 90) (Some (s2t "testPure")) true [] (Some (SBlock 43 (xsp 1 71 90) [f_stmt 44 80 84 (f_call 45 80 83 "g" [])])).
Definition g_h1 := f_stmt 50 100 106 (f_meth 51 100 105 "c" "n").
Definition g_h2 := f_stmt 55 107 115 (f_call 56 107 114 "inner" []).
Definition g_hbody := SBlock 60 (xsp 1 91 120) [g_h1; g_h2].
Definition g_h := SFun 61 (xsp 1 91 120) (Some (s2t "h")) false [] (Some g_hbody).
Definition g_inner0 := SFun 62 (xsp 1 121 130) (Some (s2t "inner")) true [] (Some (SBlock 63 (xsp 1 121 130) [])).
Definition g_z := f_stmt 70 140 144 (f_call 71 140 143 "z" []).
Definition g_inner := SFun 75 (xsp 1 131 150) (Some (s2t "inner")) false [] (Some (SBlock 76 (xsp 1 131 150) [g_z])).
Definition g_items := [IFun g_testB; IFun g_pure; IFun g_h; IFun g_inner0; IFun g_inner].
Definition g_env0 := x_env fw_foundry ["cb"] [] false (fun _ => []) (repeat 97%N 300).
Definition g_walk : text -> bool := fun _ => true.
Definition g_env := sol_env g_env0 g_items g_walk.
Definition g_st := st_of g_env (file_node g_items).
Example g_no_member : no_member_statement g_items.
Proof. apply no_member_checked. vm_compute. reflexivity. Qed.
Example g_ids : NoDup (map f_id (functions g_items)).
Proof. vm_compute. repeat (constructor; [cbn [In]; intros H; repeat (destruct H as [H|H]; [discriminate H|]); exact H|]). constructor. Qed.
Example g_result : result g_env (file_node g_items) g_st.
Proof. exists 9%nat. vm_compute. reflexivity. Qed.
Example g_tests : s_tset g_st = [s2t "testB"].
Proof. vm_compute. reflexivity. Qed.
(** [cb{value: 1}();] is a candidate although the function [cb] is ignored: see C69_options_refuted. *)
Example g_cands : cands g_st =
  [(Statement, 9, 15, [s2t "testB"]); (Statement, 16, 27, [s2t "testB"]); (Statement, 35, 41, [s2t "testB"]); (Statement, 42, 59, [s2t "testB"]);
   (Statement, 100, 106, [s2t "testB"]); (Statement, 140, 144, [s2t "testB"]);
   (MethodCall, 10, 14, [s2t "testB"]); (MethodCall, 18, 26, [s2t "testB"]); (MethodCall, 101, 105, [s2t "testB"])]%nat.
Proof. vm_compute. reflexivity. Qed.
Lemma g_test : sol_test g_items g_testB (s2t "testB").
Proof. split; [left; reflexivity|]. apply test_name_spec. vm_compute. reflexivity. Qed.
Lemma g_last u : sol_last g_testB u -> u = g_s7.
Proof.
  intros (i & sp & pre & H & _). cbn [g_testB f_body] in H. unfold g_body in H. inversion H as [[H1 H2 H3]].
  change [g_s1; g_s2; g_s3; g_s4; g_s5; g_s6; g_s7] with ([g_s1; g_s2; g_s3; g_s4; g_s5; g_s6] ++ [g_s7])%list in H3. apply app_inj_tail in H3. destruct H3 as [_ H3]. symmetry. exact H3.
Qed.
Lemma last_no_cheat (l : list sstmt) a : is_prefix_cheatcode a = false -> forall p c, (l ++ [a] = p ++ [c])%list -> ~ prefix_cheatcode c.
Proof. intros Ha p c Hp Hc. apply app_inj_tail in Hp. destruct Hp as [_ <-]. apply prefix_spec in Hc. congruence. Qed.
Example C69_nonvacuous_tests : exposed g_body g_s5 /\ exposed g_body g_s2 /\ sol_plain g_s5 /\ sol_removable_call g_env0 g_items g_walk g_s2 /\
  (forall u, sol_last g_testB u -> stmt_id u <> stmt_id g_s5 /\ stmt_id u <> stmt_id g_s2) /\
  (exists c base p, sol_in g_env0 (f_meth 11 9 14 "c" "m") c /\ sol_method c base p /\ ~ sol_ignored_call g_env0 c /\ v_ign_met g_env0 (dotted p) = false /\
    (forall s u c', exposed g_body s -> sol_call_statement s c' -> expr_id c' = expr_id c -> sol_last g_testB u -> stmt_id u <> stmt_id s) /\
    method_span g_env0 (expr_span c) (expr_span base) <> None).
Proof.
  assert (NI : ~ sol_ignored_call g_env0 (f_meth 11 9 14 "c" "m")).
  { assert (M : forall b p, sol_method (f_meth 11 9 14 "c" "m") b p -> b = f_var 13 9 10 "c" /\ p = [s2t "m"]).
    { intros b p (g & (i0 & sp0 & f0 & args0 & Q & Hc) & Hm & _). inversion Q; subst. inversion Hc; subst.
      refine (sol_members_fun _ b p Hm (f_var 13 9 10 "c") ([] ++ [s2t "m"])%list _). constructor. constructor. discriminate. }
    intros [H|(b & p & Hm & _ & Hi)].
    - inversion H as [|c0 i sp p x Hm Hi|c0 b p Hm (i & sp & f0 & a & Hb)]; subst; destruct (M _ _ Hm) as [Q1 Q2]; [|discriminate Q1].
      inversion Q1; subst. vm_compute in Hi. destruct Hi; discriminate.
    - destruct (M _ _ Hm) as [_ ->]. vm_compute in Hi. discriminate. }
  split. { apply (ex_block 40 (xsp 1 0 70) [g_s1; g_s2; g_s3; g_s4] g_s5 [g_s6; g_s7]); [|constructor]. exact (last_no_cheat [g_s1; g_s2; g_s3] g_s4 eq_refl). }
  split. { apply (ex_block 40 (xsp 1 0 70) [g_s1] g_s2 [g_s3; g_s4; g_s5; g_s6; g_s7]); [|constructor]. exact (last_no_cheat [] g_s1 eq_refl). }
  split. { split; [eexists _, _, _, _; reflexivity|]. split; [rewrite kept_s by (eexists _, _, _, _; reflexivity); vm_compute; intros [H|H]; discriminate|].
    split.
    - intros c ((a1 & a2 & a3 & a4 & ->) & i & sp & parts & Q). discriminate.
    - intros k i sp parts x s' Q Hx. unfold g_s5, f_stmt in Q. inversion Q; subst. destruct Hx as [H|[]]. discriminate H. }
  split. { exists 10%nat, (xsp 1 9 15), (f_meth 11 9 14 "c" "m"). split; [reflexivity|]. split; [eexists _, _, _, _; reflexivity|]. split; [exact NI|].
    intros g (i & sp & x & (i1 & sp1 & f1 & a1 & Q & Hc) & _). inversion Q; subst. inversion Hc. }
  split. { intros u Hu. rewrite (g_last u Hu). split; discriminate. }
  exists (f_meth 11 9 14 "c" "m"), (f_var 13 9 10 "c"), [s2t "m"]. split; [constructor|]. split.
  { eexists. split; [eexists _, _, _, _; split; [reflexivity|apply co_plain; discriminate]|]. split; [|discriminate]. apply (sm_member _ _ _ _ _ []). constructor. discriminate. }
  split; [exact NI|]. split; [reflexivity|]. split; [|vm_compute; discriminate].
  intros s u c' Hs (Hc & i & sp & parts & ->) Hid Hu. rewrite (g_last u Hu). pose proof (inside_all _ _ (exposed_inside _ _ Hs)) as Hin.
  change (all_stmts g_body) with [g_body; g_s1; g_s2; g_s3; g_s4; g_s5; g_s6; g_s7] in Hin. cbn [In] in Hin.
  repeat (destruct Hin as [Hin|Hin]; [inversion Hin; subst; first [discriminate Hid | cbn; discriminate]|]). destruct Hin.
Qed.
Example C69_nonvacuous_called : sol_in g_env0 (f_call 2 0 7 "h" [f_call 4 2 6 "k2" []]) (f_call 2 0 7 "h" [f_call 4 2 6 "k2" []]) /\
  sol_local_call g_items g_walk (f_call 2 0 7 "h" [f_call 4 2 6 "k2" []]) g_h /\ exposed g_hbody g_h1 /\
  sol_local_call g_items g_walk (f_call 56 107 114 "inner" []) g_inner /\ sol_calls g_items g_walk (s2t "testB") g_inner /\ sol_code g_items g_walk (s2t "testB") g_z.
Proof.
  assert (L1 : sol_local_call g_items g_walk (f_call 2 0 7 "h" [f_call 4 2 6 "k2" []]) g_h).
  { exists 3%nat, (xsp 1 0 1), (s2t "h"). split; [eexists _, _, _, _; split; [reflexivity|apply co_plain; discriminate]|]. split; [reflexivity|].
    exists [g_testB; g_pure], [g_inner0; g_inner]. split; [reflexivity|]. split; [reflexivity|]. split; [reflexivity|]. intros h [<-|[<-|[]]] Q; vm_compute in Q; discriminate. }
  assert (L2 : sol_local_call g_items g_walk (f_call 56 107 114 "inner" []) g_inner).
  { exists 57%nat, (xsp 1 107 112), (s2t "inner"). split; [eexists _, _, _, _; split; [reflexivity|apply co_plain; discriminate]|]. split; [reflexivity|].
    exists [g_testB; g_pure; g_h; g_inner0], []. split; [reflexivity|]. split; [reflexivity|]. split; [reflexivity|]. intros h [<-|[<-|[<-|[<-|[]]]]] Q; vm_compute in Q; try discriminate; reflexivity. }
  assert (E1 : exposed g_body g_s1) by (apply (ex_block 40 (xsp 1 0 70) [] g_s1 [g_s2; g_s3; g_s4; g_s5; g_s6; g_s7]); [intros p c Q; destruct p; discriminate|constructor]).
  assert (E2 : exposed g_hbody g_h2) by (apply (ex_block _ _ [g_h1] g_h2 []); [exact (last_no_cheat [] g_h1 eq_refl)|constructor]).
  assert (C : sol_calls g_items g_walk (s2t "testB") g_inner).
  { eapply sc_fun; [eapply sc_test; [exact g_test| |exact L1]| |exact L2].
    - right. exists g_body, g_s1. split; [reflexivity|]. split; [exact E1|]. eexists _, _, _, _, _. split; [reflexivity|]. split; [left; reflexivity|constructor].
    - right. exists g_hbody, g_h2. split; [reflexivity|]. split; [exact E2|]. eexists _, _, _, _, _. split; [reflexivity|]. split; [left; reflexivity|constructor]. }
  split; [constructor|]. split; [exact L1|]. split; [apply (ex_block _ _ [] g_h1 [g_h2]); [intros p c Q; destruct p; discriminate|constructor]|]. split; [exact L2|]. split; [exact C|].
  exists g_inner, (SBlock 76 (xsp 1 131 150) [g_z]). split; [reflexivity|]. split; [apply (ex_block _ _ [] g_z []); [intros p c Q; destruct p; discriminate|constructor]|].
  split; [eexists _, _, _, _; reflexivity|left; exact C].
Qed.

(** The hypotheses of C78_foundry_statements, for [z();] in [inner], which is called from [h], which the test calls; and of [C78_foundry_method_calls], for the
    method call of [h]. *)
Example C78_foundry_nonvacuous : sol_calls_in_functions g_items g_walk /\ sol_entered g_env0 g_items g_walk g_h /\ sol_entered g_env0 g_items g_walk g_inner /\
  (exists h, f_body g_inner = Some h /\ exposed h g_z /\ sol_removable_call g_env0 g_items g_walk g_z) /\
  (exists k i sp parts e, g_h1 = SStmt k i sp parts /\ In (PExpr e) parts /\ exists base p, sol_method e base p /\ v_ign_met g_env0 (dotted p) = false).
Proof.
  destruct C69_nonvacuous_called as (_ & L1 & E0 & L2 & _).
  assert (E1 : exposed g_body g_s1) by (apply (ex_block 40 (xsp 1 0 70) [] g_s1 [g_s2; g_s3; g_s4; g_s5; g_s6; g_s7]); [intros p c Q; destruct p; discriminate|constructor]).
  assert (E2 : exposed g_hbody g_h2) by (apply (ex_block _ _ [g_h1] g_h2 []); [exact (last_no_cheat [] g_h1 eq_refl)|constructor]).
  assert (H1 : sol_entered g_env0 g_items g_walk g_h).
  { eapply sd_test; [exact g_test|reflexivity|]. exists g_body. eexists _, _, _, _, _, _. split; [reflexivity|]. split; [exact E1|]. split; [left; reflexivity|]. split; [constructor|exact L1]. }
  split; [intros e c g [H|[H|[H|[H|[H|[]]]]]]; discriminate|]. split; [exact H1|]. split; [|split].
  - eapply sd_call; [exact H1|]. exists g_hbody. eexists _, _, _, _, _, _. split; [reflexivity|]. split; [exact E2|]. split; [left; reflexivity|]. split; [constructor|exact L2].
  - exists (SBlock 76 (xsp 1 131 150) [g_z]). split; [reflexivity|]. split; [apply (ex_block _ _ [] g_z []); [intros p c Q; destruct p; discriminate|constructor]|].
    eexists _, _, (f_call 71 140 143 "z" []). split; [reflexivity|]. split; [eexists _, _, _, _; reflexivity|]. split.
    + intros [H|(b & p & (g & (i & sp & f & a & Q & Hc) & Hm & Np) & _)].
      * inversion H as [|c0 i sp p x (g & (i1 & sp1 & f1 & a1 & Q & Hc) & Hm & Np) Hi|c0 b p (g & (i1 & sp1 & f1 & a1 & Q & Hc) & Hm & Np) Hb]; subst; [discriminate| |]; inversion Q; subst; inversion Hc; subst; inversion Hm; subst; destruct (Np eq_refl).
      * inversion Q; subst; inversion Hc; subst; inversion Hm; subst; destruct (Np eq_refl).
    + intros g (i & sp & x & (i1 & sp1 & f1 & a1 & Q & Hc) & W & pre & post & F & Nm & _). inversion Q; subst. inversion Hc; subst.
      assert (Hg : In g (functions g_items)) by (rewrite F; apply in_elt). cbn in Hg. repeat (destruct Hg as [<-|Hg]; [discriminate|]). destruct Hg.
  - eexists _, _, _, _, _. split; [reflexivity|]. split; [left; reflexivity|]. exists (f_var 53 100 101 "c"), [s2t "n"]. split; [|reflexivity].
    eexists. split; [eexists _, _, _, _; split; [reflexivity|apply co_plain; discriminate]|]. split; [|discriminate].
    apply (sm_member _ _ _ _ _ []). constructor. discriminate.
Qed.

(** Refuted: that a call of a function listed in [ignored_functions] is never a candidate. With call options, as in [cb{value: 1}();], the name is not looked at. *)
Theorem C69_options_refuted : exists E items walkable st f t b s c i sp x,
  no_member_statement items /\ NoDup (map f_id (functions items)) /\ result (sol_env E items walkable) (file_node items) st /\ sol_test items f t /\
  f_body f = Some b /\ exposed b s /\ sol_call_statement s c /\ sol_call_of c (EVar i sp x) /\ v_ign_fun E x = true /\ candidate st Statement (stmt_span s) t.
Proof.
  exists g_env0, g_items, g_walk, g_st, g_testB, (s2t "testB"), g_body, g_s6, g_s6e, 33%nat, (xsp 1 42 44), (s2t "cb").
  split; [exact g_no_member|]. split; [exact g_ids|]. split; [exact g_result|]. split; [exact g_test|]. split; [reflexivity|]. split.
  { apply (ex_block 40 (xsp 1 0 70) [g_s1; g_s2; g_s3; g_s4; g_s5] g_s6 [g_s7]); [|constructor]. exact (last_no_cheat [g_s1; g_s2; g_s3; g_s4] g_s5 eq_refl). }
  split. { split; [eexists _, _, _, _; reflexivity|]. eexists _, _, _. reflexivity. }
  split. { eexists _, _, _, _. split; [reflexivity|]. apply co_options, co_plain. discriminate. }
  split; [vm_compute; reflexivity|].
  apply lists_dec. vm_compute. reflexivity.
Qed.
Print Assumptions C69_options_refuted.
