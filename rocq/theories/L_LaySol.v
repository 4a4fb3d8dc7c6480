(** The trees of Solidity files are drawn from their syntax trees (see [L_Layout]). *)
From Verif Require L_LayTree.
From Verif Require Import Base M_Text S_Text M_Rewriter M_Span M_Run M_Visitor S_Visitor S_Walk M_Parsing M_Foundry S_Foundry P_Foundry S_Placed S_Layout L_Layout M_Lang S_Lang.

Definition faux (n : node) : Prop := n = faux_continue.
Lemma nd_real i k sp ns : ~ faux (nd i k sp ns).
Proof. unfold faux, faux_continue, nd. intros E. injection E as E. discriminate. Qed.
Definition real_node (n : node) : Prop := exists i k sp ns, n = nd i k sp ns.
Lemma real_not_faux n : real_node n -> ~ faux n.
Proof. intros (i & k & sp & ns & ->). apply nd_real. Qed.
Lemma expr_real e : real_node (expr_node e).
Proof. destruct e; cbn [expr_node]; eexists _, _, _, _; reflexivity. Qed.
Lemma callee_real e : forall q, real_node (callee_node q e).
Proof.
  induction e as [i sp n|i sp b n IH|i sp c args IHc IHa|i sp c opts IHc IHo|i sp ns r IH|i sp ks IH] using sexpr_ind'; intros q; cbn [callee_node]; try (eexists _, _, _, _; reflexivity).
  - destruct q; eexists _, _, _, _; reflexivity.
  - apply IHc.
Qed.
Lemma place i k sp ns t : (forall a b c d, k <> KStmt a b c d) -> sp = g_span t -> (forall n, In n ns -> real_node n /\ exists u, part t u /\ drawn faux n u) -> drawn faux (nd i k sp ns) t.
Proof.
  intros NK -> H. constructor.
  - reflexivity.
  - intros (r & c & d & e & K & _). destruct (NK _ _ _ _ K).
  - intros n I. apply (H n I).
  - intros _. split; [apply nd_real|intros h I; apply real_not_faux, (H h I)].
Qed.
Lemma place_group i sp ns t : sp = g_span t -> (forall n, In n ns -> exists u, part t u /\ drawn faux n u) -> drawn faux (nd i KGroup sp ns) t.
Proof.
  intros -> H. constructor.
  - reflexivity.
  - intros (r & c & d & e & K & _). discriminate K.
  - exact H.
  - intros [(h & x & K)|(x & K)]; discriminate K.
Qed.
Lemma expr_drawn e : drawn faux (expr_node e) (expr_geo e) /\ forall q, exists u, part (expr_geo e) u /\ drawn faux (callee_node q e) u.
Proof.
  assert (KS : forall l t, Forall (fun e => drawn faux (expr_node e) (expr_geo e) /\ forall q, exists u, part (expr_geo e) u /\ drawn faux (callee_node q e) u) l ->
     incl (map expr_geo l) (g_kids t) -> forall n, In n (map expr_node l) -> real_node n /\ exists u, part t u /\ drawn faux n u).
  { intros l t F IC n I. apply in_map_iff in I as (x & <- & I). split; [apply expr_real|]. rewrite Forall_forall in F. exists (expr_geo x). split; [|apply (F x I)].
    eapply part_kid; [apply IC, in_map; exact I|constructor]. }
  assert (ONE : forall b t, drawn faux (expr_node b) (expr_geo b) -> In (expr_geo b) (g_kids t) -> forall n, In n [expr_node b] -> real_node n /\ exists u, part t u /\ drawn faux n u).
  { intros b t D I n [<-|[]]. split; [apply expr_real|]. exists (expr_geo b). split; [eapply part_kid; [exact I|constructor]|exact D]. }
  assert (SELF : forall t n, drawn faux n t -> exists u, part t u /\ drawn faux n u) by (intros t n D; exists t; split; [constructor|exact D]).
  induction e as [i sp n|i sp b n IH|i sp c args IHc IHa|i sp c opts IHc IHo|i sp ns r IH|i sp ks IH] using sexpr_ind'; cbn [expr_node callee_node expr_geo].
  - assert (D : drawn faux (nd i (KIdent n) sp []) (Geo sp false [])) by (apply place; [discriminate|reflexivity|intros x []]). split; [exact D|intros q; apply SELF, D].
  - destruct IH as [IH _]. assert (D : drawn faux (nd i (KField (Some n)) sp [expr_node b]) (Geo sp false [expr_geo b])) by (apply place; [discriminate|reflexivity|apply ONE; [exact IH|left; reflexivity]]).
    split; [exact D|intros q; apply SELF, D].
  - destruct IHc as [_ IHc]. assert (D : drawn faux (nd i (KCall false (sol_call_name c)) sp (callee_node false c :: map expr_node args)) (Geo sp false (expr_geo c :: map expr_geo args))).
    { apply place; [discriminate|reflexivity|]. intros x [<-|I].
      - split; [apply callee_real|]. destruct (IHc false) as (u & P & Du). exists u. split; [eapply part_kid; [left; reflexivity|exact P]|exact Du].
      - apply (KS args); [exact IHa|intros y J; right; exact J|exact I]. }
    split; [exact D|]. intros q. destruct q; [|apply SELF, D]. apply SELF. apply place; [discriminate|reflexivity|intros x []].
  - destruct IHc as [IHe IHc]. split.
    + apply place; [discriminate|reflexivity|]. intros x [<-|I].
      * split; [apply expr_real|]. exists (expr_geo c). split; [eapply part_kid; [left; reflexivity|constructor]|exact IHe].
      * apply (KS opts); [exact IHo|intros y J; right; exact J|exact I].
    + intros q. destruct (IHc true) as (u & P & Du). exists u. split; [eapply part_kid; [left; reflexivity|exact P]|exact Du].
  - destruct IH as [IH _]. assert (D : drawn faux (nd i KExpr sp [expr_node r]) (Geo sp false [expr_geo r])) by (apply place; [discriminate|reflexivity|apply ONE; [exact IH|left; reflexivity]]).
    split; [exact D|intros q; apply SELF, D].
  - assert (D : drawn faux (nd i KExpr sp (map expr_node ks)) (Geo sp false (map expr_geo ks))) by (apply place; [discriminate|reflexivity|apply (KS ks); [exact IH|apply incl_refl]]).
    split; [exact D|intros q; apply SELF, D].
Qed.
Lemma faux_drawn t : drawn faux faux_continue t.
Proof.
  constructor.
  - intros N. destruct N. reflexivity.
  - intros (r & c & d & e & K & H). injection K as <- <- <- <-. destruct H; discriminate.
  - intros k [].
  - intros [(h & x & K)|(x & K)]; discriminate K.
Qed.
Lemma stmt_node_drawn s : drawn faux (stmt_node s) (stmt_geo s).
Proof.
  induction s as [i sp l IH|k i sp parts IH] using sstmt_ind'.
  - rewrite Forall_forall in IH. cbn [stmt_node stmt_geo]. apply place_group; [reflexivity|]. intros n I. apply filter_in in I as [->|(pre & s & post & El & -> & _)].
    + exists (Geo sp false (map stmt_geo l)). split; [constructor|apply faux_drawn].
    + assert (Is : In s l) by (rewrite El; apply in_or_app; right; left; reflexivity). exists (stmt_geo s). split; [|exact (IH s Is)]. eapply part_kid; [apply in_map; exact Is|constructor].
  - assert (PD : forall x, In x parts -> drawn faux (part_node x) (part_geo x)).
    { intros [e|s] I; [apply expr_drawn|exact (IH s I)]. }
    cbn [stmt_node stmt_geo]. constructor.
    + reflexivity.
    + intros _. split; [apply nd_real|reflexivity].
    + intros n I. cbn [nd n_kids] in I. apply in_map_iff in I as (x & <- & I). exists (part_geo x). split; [|exact (PD x I)]. eapply part_kid; [apply in_map; exact I|constructor].
    + intros [(h & x & K)|(x & K)]; discriminate K.
Qed.
Lemma fun_kids_drawn f n : In n (fun_kids f) -> exists u, part (item_geo (IFun f)) u /\ drawn faux n u.
Proof.
  unfold fun_kids. intros I. apply in_app_or in I as [I|I].
  - apply in_map_iff in I as (e & <- & I). exists (expr_geo e). split; [|apply expr_drawn]. eapply part_kid; [|constructor]. cbn [item_geo g_kids]. apply in_or_app. left. apply in_map. exact I.
  - destruct (f_body f) as [s|] eqn:B; [|destruct I]. destruct I as [<-|[]]. exists (stmt_geo s). split; [|apply stmt_node_drawn].
    eapply part_kid; [|constructor]. cbn [item_geo g_kids]. rewrite B. apply in_or_app. right. left. reflexivity.
Qed.
Lemma fun_kids_formed E items f : v_fw E = fw_foundry -> no_member_statement items -> In f (functions items) -> forallb (well_formed E) (fun_kids f) = true.
Proof.
  intros HE HN Hf. unfold fun_kids. rewrite forallb_app. apply andb_true_intro. split.
  - apply forallb_forall. intros x Hx. apply in_map_iff in Hx. destruct Hx as (a & <- & _). apply expr_wf.
  - destruct (f_body f) as [b|] eqn:Hb; [|reflexivity]. cbn [forallb]. rewrite stmt_wf; [reflexivity|exact HE|].
    intros k i sp e parts Hin. eapply HN; try eassumption. reflexivity.
Qed.
Lemma sol_proper p contents items : placed p contents (map item_geo items) -> no_member_statement items -> proper fw_foundry p contents (sol_pfile items).
Proof.
  intros PL HN. apply (drawn_proper faux p contents (map item_geo items) fw_foundry (sol_pfile items) PL).
  - intros E HE. split.
    + cbn [sol_pfile pf_root file_node nd well_formed l_kind andb]. apply forallb_forall. intros x Hx. apply in_map_iff in Hx. destruct Hx as (i & <- & Hi).
      destruct i as [f|e]; cbn [item_node]; [|apply expr_wf]. destruct (test_name f); [|reflexivity].
      cbn [nd well_formed l_kind andb]. apply (fun_kids_formed E items f HE HN). apply functions_in. exact Hi.
    + intros name l g I J. destruct (L_LayTree.in_by_name _ _ _ _ _ _ I J) as (h & If & -> & _). apply filter_In in If as [If _].
      cbn [local_node nd well_formed l_kind andb]. exact (fun_kids_formed E items h HE HN If).
  - right. split; [intros (r & c & d & e & K & _); discriminate K|]. split; [intros (h & x & K); discriminate K|].
    intros n I. cbn [sol_pfile pf_root file_node nd n_kids] in I. apply in_map_iff in I as (i & <- & I). exists (item_geo i).
    split; [exists (item_geo i); split; [apply in_map; exact I|constructor]|]. destruct i as [f|e]; [|apply expr_drawn]. cbn [item_node].
    destruct (test_name f) as [t|].
    + constructor; [reflexivity|intros (r & c & d & e & K & _); discriminate K|intros n J; exact (fun_kids_drawn f n J)|intros [(h & x & K)|(x & K)]; discriminate K].
    + apply place_group; [reflexivity|intros n []].
  - intros name l g I J. left. destruct (L_LayTree.in_by_name _ _ _ _ _ _ I J) as (f & If & -> & _). apply filter_In in If as [If _]. apply functions_inv in If.
    exists (item_geo (IFun f)). split; [exists (item_geo (IFun f)); split; [apply in_map; exact If|constructor]|]. unfold local_node. apply place_group; [reflexivity|].
    intros n K. exact (fun_kids_drawn f n K).
Qed.
