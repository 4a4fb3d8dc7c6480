(** The trees of TypeScript files are drawn from their syntax trees (see [L_Layout]). *)
From Verif Require Import Base M_Text S_Text M_Rewriter M_Span M_Run M_Visitor S_Visitor S_Walk M_Parsing M_Swc S_Swc L_Swc P_Swc S_Placed S_Layout L_Layout M_Lang S_Lang L_LayTree.

Lemma swc_geo_span t : g_span (swc_geo t) = j_span (j_info t). Proof. destruct t; reflexivity. Qed.
Lemma swc_geo_part t u : In u (j_parts t) -> part (swc_geo t) (swc_geo u).
Proof. destruct t as [a k l]. intros I. eapply part_kid; [|constructor]. cbn. apply in_map. exact I. Qed.
Lemma js_geo_part t u : js_part t u -> part (swc_geo t) (swc_geo u).
Proof. induction 1 as [t|a k l t u I _ IH]; [constructor|]. eapply part_trans; [exact (swc_geo_part (Swc a k l) t I)|exact IH]. Qed.
(** A node without statements of its own, standing where [t] does. *)
Lemma place_drawn i k x sp ns t : (forall a b c d, k <> KStmt a b c d) -> sp = g_span t -> (forall n, In n ns -> exists u, part t u /\ drawn none n u) -> drawn none (Node (Label i k x sp) ns) t.
Proof.
  intros NK -> H. constructor.
  - reflexivity.
  - intros (r & c & d & e & K & _). destruct (NK _ _ _ _ K).
  - exact H.
  - intros _. split; [intros []|intros h _ []].
Qed.
Lemma stmt_drawn i k x sp ns t : g_stmt t = true -> sp = g_span t -> (forall n, In n ns -> exists u, part t u /\ drawn none n u) -> drawn none (Node (Label i k x sp) ns) t.
Proof.
  intros S1 -> H. constructor.
  - reflexivity.
  - intros _. split; [intros []|exact S1].
  - exact H.
  - intros _. split; [intros []|intros h _ []].
Qed.
Lemma drawn_kid n t k : drawn none n t -> In k (n_kids n) -> exists u, part t u /\ drawn none k u.
Proof. intros D I. inversion D as [n0 t0 _ _ K _]; subst. exact (K k I). Qed.
Lemma drawn_kid_kid n t k h : drawn none n t -> In k (n_kids n) -> In h (n_kids k) -> exists u, part t u /\ drawn none h u.
Proof. intros D I J. destruct (drawn_kid n t k D I) as (u & P & Du). destruct (drawn_kid k u h Du J) as (v & Q & Dv). exists v. split; [exact (part_trans _ _ _ P Q)|exact Dv]. Qed.
Lemma jr_drawn t : drawn none (jr t) (swc_geo t).
Proof.
  induction t as [a k l IH] using swc_ind'. rewrite Forall_forall in IH. set (t := Swc a k l).
  assert (KD : forall n, In n (map jr l) -> exists u, part (swc_geo t) u /\ drawn none n u).
  { intros n I. apply in_map_iff in I as (u & <- & I). exists (swc_geo u). split; [exact (swc_geo_part t u I)|exact (IH u I)]. }
  assert (NO : forall n, In n [] -> exists u, part (swc_geo t) u /\ drawn none n u) by (intros n []).
  assert (P : forall kd ns, (forall a b c d, kd <> KStmt a b c d) -> (forall n, In n ns -> exists u, part (swc_geo t) u /\ drawn none n u) ->
     drawn none (Node (Label (2 * j_id a) kd [] (j_span a)) ns) (swc_geo t)) by (intros kd ns N H; apply place_drawn; [exact N|reflexivity|exact H]).
  unfold t at 1. cbn [jr]. destruct k as [s| |q| |x|v|b| |name|].
  - destruct s; try (apply stmt_drawn; [reflexivity|reflexivity|exact KD]). destruct l as [|e r]; [apply P; [discriminate|exact NO]|].
    destruct (it_call e) as [m|] eqn:IC; [|apply stmt_drawn; [reflexivity|reflexivity|exact KD]]. cbn [map].
    apply P; [discriminate|]. intros n I. unfold test_kids in I.
    assert (De : drawn none (jr e) (swc_geo e)) by (apply IH; left; reflexivity). assert (Pe : part (swc_geo t) (swc_geo e)) by (apply swc_geo_part; left; reflexivity).
    destruct (n_kids (jr e)) as [|f [|s [|g [|]]]] eqn:NK; try contradiction. destruct (rev (n_kids g)) as [|b pre] eqn:RV; [contradiction|].
    assert (KK : forall h, In h (n_kids (jr e)) -> exists u, part (swc_geo t) u /\ drawn none h u).
    { intros h J. destruct (drawn_kid _ _ h De J) as (u & Q & Du). exists u. split; [exact (part_trans _ _ _ Pe Q)|exact Du]. }
    assert (KG : forall h, In h (n_kids g) -> exists u, part (swc_geo t) u /\ drawn none h u).
    { intros h J. destruct (drawn_kid_kid _ _ g h De) as (u & Q & Du); [rewrite NK; right; right; left; reflexivity|exact J|]. exists u. split; [exact (part_trans _ _ _ Pe Q)|exact Du]. }
    destruct I as [<-|[<-|[]]].
    + exists (swc_geo t). split; [constructor|]. apply place_drawn; [discriminate|reflexivity|]. intros h [<-|[<-|J]].
      * apply KK. rewrite NK. left; reflexivity.
      * apply KK. rewrite NK. right; left; reflexivity.
      * apply KG. apply in_rev. rewrite RV. right. apply in_rev. exact J.
    + apply KG. apply in_rev. rewrite RV. left; reflexivity.
  - destruct l as [|e r]; apply P; try discriminate; [exact NO|exact KD].
  - destruct l as [|e r]; apply P; try discriminate; [exact NO|exact KD].
  - destruct l as [|e r]; apply P; try discriminate; [exact NO|exact KD].
  - apply P; [discriminate|exact KD].
  - apply P; [discriminate|exact KD].
  - apply P; [discriminate|exact KD].
  - apply P; [discriminate|exact KD].
  - apply P; [discriminate|exact KD].
  - apply P; [discriminate|exact KD].
Qed.
Lemma beyond_part t u : beyond_functions t u -> js_part t u.
Proof. induction 1 as [t|t p u _ I _ IH]; [constructor|]. destruct t as [a k l]. econstructor; [exact I|exact IH]. Qed.
Lemma js_proper p contents t : placed p contents [swc_geo t] -> js_regular t -> proper fw_ts p contents (js_pfile t).
Proof.
  intros PL RG. apply (drawn_proper none p contents [swc_geo t] fw_ts (js_pfile t) PL).
  - intros E HE. assert (X : fw_expr_kids (v_fw E) = true) by (rewrite HE; reflexivity). split; [apply (j_wf E t); [exact X|exact RG|constructor]|].
    intros name l g I J. destruct (in_by_name _ _ _ _ _ _ I J) as ([n f] & If & -> & _). apply (j_wf E t); [exact X|exact RG|].
    apply js_funs_spec in If. apply beyond_part. exact (proj1 If).
  - left. exists (swc_geo t). split; [apply singleton_among; constructor|apply jr_drawn].
  - intros name l g I J. left. destruct (in_by_name _ _ _ _ _ _ I J) as ([n f] & If & -> & _). exists (swc_geo f). split; [|apply jr_drawn]. apply singleton_among.
    apply js_funs_spec in If. apply js_geo_part, beyond_part. exact (proj1 If).
Qed.
