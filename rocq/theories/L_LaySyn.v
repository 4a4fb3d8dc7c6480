(** The trees of Rust files are drawn from their syntax trees (see [L_Layout]). *)
From Verif Require Import Base M_Text S_Text M_Rewriter M_Span M_Run M_Visitor S_Visitor S_Walk M_Parsing M_Syn L_Syn S_Placed S_Layout L_Layout M_Lang S_Lang L_LayTree.

Section Rust.
Context (fs : option (list text)) (listed : text -> bool).
Notation tn := (tr fs listed).

Lemma syn_geo_span t : g_span (syn_geo t) = x_span (x_info t). Proof. destruct t; reflexivity. Qed.
Lemma syn_geo_part t u : In u (x_parts t) -> part (syn_geo t) (syn_geo u).
Proof. destruct t as [a k l]. intros I. eapply part_kid; [|constructor]. cbn. apply in_map. exact I. Qed.
Lemma tr_drawn t : forall c cal, drawn none (tn c cal t) (syn_geo t).
Proof.
  induction t as [a k l IH] using syn_ind'. intros c cal. rewrite Forall_forall in IH. constructor.
  - intros _. rewrite tr_span, syn_geo_span. reflexivity.
  - intros (r & c0 & d & e & K & _). split; [intros []|]. assert (S1 : is_stmt (tn c cal (Syn a k l))) by (exists r, c0, d, e; exact K).
    apply v_stmt in S1. cbn [syn_geo g_stmt]. destruct S1 as [H|[H|[[x H]|(s & e0 & r0 & H & _)]]]; cbn [x_kind] in H; rewrite H; reflexivity.
  - intros h I. destruct (tr_kids fs listed c cal _ h I) as [(cl & u & Iu & ->)|V].
    + exists (syn_geo u). split; [exact (syn_geo_part (Syn a k l) u Iu)|]. exact (IH u Iu _ _).
    + exists (syn_geo (Syn a k l)). split; [constructor|]. destruct V as [(x & b & r & _ & Hp & ->)|(q & _ & ->)]; constructor; unfold virt.
      * intros _. rewrite syn_geo_span. reflexivity.
      * intros (r0 & c0 & d & e & K & _). discriminate K.
      * intros y [<-|[]]. exists (syn_geo b). cbn [x_parts] in Hp. subst l. split; [apply syn_geo_part; left; reflexivity|]. apply IH. left; reflexivity.
      * intros _. split; [intros []|intros y _ []].
      * intros _. rewrite syn_geo_span. reflexivity.
      * intros (r0 & c0 & d & e & K & _). discriminate K.
      * intros y [].
      * intros _. split; [intros []|intros y _ []].
  - intros _. split; [intros []|intros h _ []].
Qed.
Lemma local_part t : forall n b, In (n, b) (local_funs t) -> part (syn_geo t) (syn_geo b).
Proof.
  induction t as [a k l IH] using syn_ind'. intros n b. rewrite Forall_forall in IH.
  assert (F : forall name, In (n, b) (fun_of name l) -> part (syn_geo (Syn a k l)) (syn_geo b)).
  { intros name I. unfold fun_of in I. destruct l as [|h [|b' r]]; try contradiction. destruct I as [I|[]]. injection I as _ <-. apply syn_geo_part. right. left. reflexivity. }
  assert (D : In (n, b) (flat_map local_funs l) -> part (syn_geo (Syn a k l)) (syn_geo b)).
  { intros I. apply in_flat_map in I as (u & Iu & I). eapply part_trans; [exact (syn_geo_part (Syn a k l) u Iu)|]. exact (IH u Iu n b I). }
  cbn [local_funs]. destruct k; try exact D; [destruct (is_test attrs); [intros []|]|]; apply F.
Qed.
Lemma rs_proper p contents t : placed p contents [syn_geo t] -> proper fw_rust p contents (rs_pfile fs listed t).
Proof.
  intros PL. apply (drawn_proper none p contents [syn_geo t] fw_rust (rs_pfile fs listed t) PL).
  - intros E HE. assert (X : fw_expr_kids (v_fw E) = true) by (rewrite HE; reflexivity). split; [apply tr_wf; exact X|].
    intros name l g I J. destruct (in_by_name _ _ _ _ _ _ I J) as (h & _ & -> & _). apply tr_wf. exact X.
  - left. exists (syn_geo t). split; [apply singleton_among; constructor|apply tr_drawn].
  - intros name l g I J. left. destruct (in_by_name _ _ _ _ _ _ I J) as ([n b] & If & -> & _). exists (syn_geo b). split; [|apply tr_drawn]. apply singleton_among. exact (local_part t n b If).
Qed.
End Rust.
