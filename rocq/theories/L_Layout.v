(** Lemmas on [S_Layout]. *)
From Verif Require Import Base M_Text S_Text L_Text M_Rewriter M_Span S_Span L_Span M_Run M_Visitor S_Visitor S_Walk M_Parsing S_Placed S_Layout.

Lemma lc_le_refl a : lc_le a a. Proof. left; reflexivity. Qed.
Lemma lc_le_trans a b c : lc_le a b -> lc_le b c -> lc_le a c.
Proof. intros [->|H] [->|H']; [left; reflexivity|right; exact H'|right; exact H|right; exact (lc_lt_trans _ _ _ H H')]. Qed.
Lemma lc_lt_irrefl a : ~ lc_lt a a.
Proof. unfold lc_lt. lia. Qed.
Lemma lc_le_lt a b : lc_le a b -> ~ lc_lt b a.
Proof. intros [->|H] L; [exact (lc_lt_irrefl _ L)|exact (lc_lt_irrefl _ (lc_lt_trans _ _ _ H L))]. Qed.
Lemma part_trans t u v : part t u -> part u v -> part t v.
Proof. induction 1 as [t|t k u I _ IH]; [auto|]. intros H. eapply part_kid; [exact I|exact (IH H)]. Qed.
Lemma part_step t u k : part t u -> In k (g_kids u) -> part t k.
Proof. intros H I. eapply part_trans; [exact H|]. eapply part_kid; [exact I|constructor]. Qed.
Lemma among_step l t u : part_among l t -> part t u -> part_among l u.
Proof. intros (r & I & P) H. exists r. split; [exact I|exact (part_trans _ _ _ P H)]. Qed.

(** Two members of a list: the same, or at different places. *)
Lemma two_places {A} (l : list A) a b : In a l -> In b l -> a = b \/
  (exists l1 l2 l3, l = l1 ++ a :: l2 ++ b :: l3) \/ (exists l1 l2 l3, l = l1 ++ b :: l2 ++ a :: l3).
Proof.
  induction l as [|x l IH]; [intros []|]. intros [->|IA] [->|IB].
  - left; reflexivity.
  - right; left. apply in_split in IB as (l1 & l2 & ->). exists [], l1, l2. reflexivity.
  - right; right. apply in_split in IA as (l1 & l2 & ->). exists [], l1, l2. reflexivity.
  - destruct (IH IA IB) as [->|[(l1 & l2 & l3 & ->)|(l1 & l2 & l3 & ->)]]; [left; reflexivity|right; left|right; right]; exists (x :: l1), l2, l3; reflexivity.
Qed.

Section Placed.
Context (p : path) (contents : text) (roots : list geo).
Hypothesis PL : placed p contents roots.

Lemma part_inside t u : part_among roots t -> part t u ->
  lc_le (sp_start (g_span t)) (sp_start (g_span u)) /\ lc_le (sp_end (g_span u)) (sp_end (g_span t)).
Proof.
  intros A H. induction H as [t|t k u I _ IH]; [split; apply lc_le_refl|].
  assert (Ak : part_among roots k) by (eapply among_step; [exact A|]; eapply part_kid; [exact I|constructor]).
  destruct (IH Ak) as [I1 I2]. destruct (pl_inside _ _ _ PL t k A I) as [J1 J2].
  split; [exact (lc_le_trans _ _ _ J1 I1)|exact (lc_le_trans _ _ _ I2 J2)].
Qed.
Definition fits (a b : span) : Prop := a = b \/ disjoint a b \/ nested_in a b \/ nested_in b a.
Lemma fits_sym a b : fits a b -> fits b a.
Proof. unfold fits, disjoint. intuition. Qed.
Lemma disjoint_parts k k' s s' : part_among roots k -> part_among roots k' -> part k s -> part k' s' ->
  disjoint (g_span k) (g_span k') -> disjoint (g_span s) (g_span s').
Proof.
  intros A A' H H' D. destruct (part_inside k s A H) as [I1 I2], (part_inside k' s' A' H') as [J1 J2]. unfold disjoint in *.
  destruct D as [D|D]; [left|right]; eauto using lc_le_trans.
Qed.
Lemma apart_fits l : apart l -> (forall k, In k l -> part_among roots k) ->
  (forall k, In k l -> forall s s', part k s -> part k s' -> g_stmt s = true -> g_stmt s' = true -> fits (g_span s) (g_span s')) ->
  forall k k' s s', In k l -> In k' l -> part k s -> part k' s' -> g_stmt s = true -> g_stmt s' = true -> fits (g_span s) (g_span s').
Proof.
  intros AP AM IH k k' s s' Ik Ik' H H' S1 S2. destruct (two_places l k k' Ik Ik') as [->|[(l1 & l2 & l3 & E)|(l1 & l2 & l3 & E)]].
  - exact (IH k' Ik' s s' H H' S1 S2).
  - right; left. apply (disjoint_parts k k' s s' (AM k Ik) (AM k' Ik') H H'). exact (AP _ _ _ _ _ _ _ E H S1 H' S2).
  - apply fits_sym. right; left. apply (disjoint_parts k' k s' s (AM k' Ik') (AM k Ik) H' H). exact (AP _ _ _ _ _ _ _ E H' S2 H S1).
Qed.
Fixpoint g_size (t : geo) : nat := match t with Geo _ _ l => S (list_sum (map g_size l)) end.
Lemma g_size_kid t k : In k (g_kids t) -> (g_size k < g_size t)%nat.
Proof.
  destruct t as [sp b l]. cbn [g_kids g_size]. induction l as [|x l IH]; [intros []|]. cbn [map list_sum fold_right]. unfold list_sum in *.
  intros [->|I]; [lia|specialize (IH I); lia].
Qed.
Lemma part_fits n : forall t, (g_size t < n)%nat -> part_among roots t -> forall s s', part t s -> part t s' -> g_stmt s = true -> g_stmt s' = true ->
  fits (g_span s) (g_span s').
Proof.
  induction n as [|n IH]; [intros; lia|]. intros t L A s s' H H' S1 S2.
  assert (W : forall s s', g_stmt s = true -> g_stmt s' = true -> part t s' -> forall k, t = s -> In k (g_kids t) -> part k s' -> nested_in (g_span s') (g_span s)).
  { clear s s' H H' S1 S2. intros s s' S1 S2 H' k -> I P. split; [exact (pl_first _ _ _ PL s k s' A S1 I P S2)|apply (part_inside s s' A H')]. }
  inversion H as [t0|t0 k u I P]; subst.
  - inversion H' as [t0|t0 k u I P]; subst; [left; reflexivity|]. right; right; right. exact (W s s' S1 S2 H' k eq_refl I P).
  - inversion H' as [t0|t0 k' u' I' P']; subst.
    + right; right; left. exact (W s' s S2 S1 H k eq_refl I P).
    + assert (AM : forall k, In k (g_kids t) -> part_among roots k) by (intros x Ix; eapply among_step; [exact A|]; eapply part_kid; [exact Ix|constructor]).
      refine (apart_fits (g_kids t) (pl_kids _ _ _ PL t A) AM _ k k' s s' I I' P P' S1 S2).
      intros x Ix. apply IH; [|exact (AM x Ix)]. pose proof (g_size_kid t x Ix). lia.
Qed.
(** Any two statements of the file are the same, disjoint or nested. *)
Lemma statements_fit s s' : part_among roots s -> part_among roots s' -> g_stmt s = true -> g_stmt s' = true -> fits (g_span s) (g_span s').
Proof.
  intros (r & I & P) (r' & I' & P') S1 S2.
  refine (apart_fits roots (pl_roots _ _ _ PL) _ _ r r' s s' I I' P P' S1 S2).
  - intros k Ik. exists k. split; [exact Ik|constructor].
  - intros k Ik. apply (part_fits (S (g_size k))); [lia|]. exists k. split; [exact Ik|constructor].
Qed.

(** From the end of a node to the end of one around it. *)
Lemma pos_lt (a b : text) : b <> [] -> lc_lt (pos a) (pos (a ++ b)).
Proof. intros N. unfold pos. rewrite advance_app. apply advance_lt, N. Qed.
Lemma tail_piece t u : part_among roots t -> part t u ->
  exists before mid after, between contents (sp_end (g_span u)) (sp_end (g_span t)) before mid after.
Proof.
  intros A H. assert (Au : part_among roots u) by exact (among_step _ _ _ A H).
  destruct (pl_piece _ _ _ PL t A) as (_ & b1 & m1 & a1 & (E1 & _ & Q1) & _).
  destruct (pl_piece _ _ _ PL u Au) as (_ & b2 & m2 & a2 & (E2 & _ & Q2) & _).
  destruct (part_inside t u A H) as [_ LE]. rewrite app_assoc in E1, E2. rewrite <- Q1, <- Q2 in LE |- *.
  assert (Q : exists m, b1 ++ m1 = (b2 ++ m2) ++ m).
  { revert LE E1. rewrite E2. generalize (b2 ++ m2) as x, (b1 ++ m1) as y. intros x y LE E.
    apply app_eq_app in E as (l & [[-> _]|[-> _]]).
    - destruct l as [|c l]; [exists []; rewrite !app_nil_r; reflexivity|]. destruct (lc_le_lt _ _ LE). apply pos_lt. discriminate.
    - exists l. reflexivity. }
  destruct Q as [m Q]. exists (b2 ++ m2), m, a1. unfold between. rewrite <- Q. split; [|split; reflexivity].
  rewrite E1, Q, <- app_assoc. reflexivity.
Qed.
End Placed.

(** ** Trees drawn from syntax trees *)

(** The tree [n] that the visitor walks shows the syntax tree [t]: its nodes are where nodes of [t] are, statements of [n] where
    statements of [t] are.  [out] are nodes which have no place. *)
Inductive drawn (out : node -> Prop) : node -> geo -> Prop :=
| draw n t : (~ out n -> n_span n = g_span t) -> (eligible n -> ~ out n /\ g_stmt t = true) ->
    (forall k, In k (n_kids n) -> exists u, part t u /\ drawn out k u) ->
    (is_call n \/ (exists x, n_kind n = KField x) -> ~ out n /\ forall k, In k (n_kids n) -> ~ out k) ->
    drawn out n t.

Section Drawn.
Context (out : node -> Prop) (p : path) (contents : text) (roots : list geo) (fw : M_Visitor.framework) (f : pfile).
Hypothesis PL : placed p contents roots.
Definition drawn_in (n : node) : Prop := exists t, part_among roots t /\ drawn out n t.

Lemma drawn_within n m : drawn_in n -> within n m -> drawn_in m.
Proof.
  intros D W. induction W as [n|n k m I _ IH]; [exact D|]. apply IH. destruct D as (t & A & D). inversion D as [n0 t0 _ _ K _]; subst.
  destruct (K k I) as (u & P & Du). exists u. split; [exact (among_step _ _ _ A P)|exact Du].
Qed.
Lemma drawn_base e t b names : drawn out e t -> ~ out e -> field_path e b names -> ~ out b /\ exists u, part t u /\ drawn out b u.
Proof.
  intros D NO FP. revert t D NO. induction FP as [e N|l x b r base q K _ IH]; intros t D NO; [split; [exact NO|exists t; split; [constructor|exact D]]|].
  inversion D as [n0 t0 _ _ KD KF]; subst. destruct (KD b (or_introl eq_refl)) as (u & P & Du).
  destruct KF as [_ KO]; [right; exists (Some x); exact K|]. destruct (IH u Du (KO b (or_introl eq_refl))) as (NB & v & P' & Dv).
  split; [exact NB|]. exists v. split; [exact (part_trans _ _ _ P P')|exact Dv].
Qed.
Lemma drawn_proper :
  (forall E, v_fw E = fw -> well_formed E (pf_root f) = true /\ forall name fs g, In (name, fs) (pf_locals f) -> In g fs -> well_formed E g = true) ->
  drawn_in (pf_root f) \/ (~ eligible (pf_root f) /\ ~ is_call (pf_root f) /\ forall k, In k (n_kids (pf_root f)) -> drawn_in k) ->
  (forall name fs g, In (name, fs) (pf_locals f) -> In g fs -> drawn_in g \/ (~ eligible g /\ ~ is_call g /\ forall k, In k (n_kids g) -> drawn_in k)) ->
  proper fw p contents f.
Proof.
  intros WF DR DL.
  assert (X : forall r n, drawn_in r \/ (~ eligible r /\ ~ is_call r /\ forall k, In k (n_kids r) -> drawn_in k) -> within r n ->
     drawn_in n \/ (~ eligible n /\ ~ is_call n)).
  { intros r n [D|(N1 & N2 & D)] W; [left; exact (drawn_within _ _ D W)|]. inversion W as [r0|r0 k m I W']; subst; [right; split; assumption|].
    left. exact (drawn_within _ _ (D k I) W'). }
  assert (Y : forall n, part_of f n -> drawn_in n \/ (~ eligible n /\ ~ is_call n)).
  { intros n [W|(name & fs & g & I1 & I2 & W)]; [exact (X _ _ DR W)|exact (X _ _ (DL _ _ _ I1 I2) W)]. }
  assert (Z : forall s, part_of f s -> eligible s -> exists t, part_among roots t /\ n_span s = g_span t /\ g_stmt t = true).
  { intros s P EL. destruct (Y s P) as [(t & A & D)|[N _]]; [|contradiction]. inversion D as [n0 t0 SP ST _ _]; subst. destruct (ST EL) as [NO S1].
    exists t. split; [exact A|]. split; [exact (SP NO)|exact S1]. }
  constructor.
  - exact WF.
  - intros s P EL. destruct (Z s P EL) as (t & A & -> & S1). destruct (pl_piece _ _ _ PL t A) as (H & b & m & a & B & N). split; [exact H|].
    exists b, m, a. split; [exact B|exact (N S1)].
  - intros s s' P P' EL EL'. destruct (Z s P EL) as (t & A & -> & S1), (Z s' P' EL') as (t' & A' & -> & S2). exact (statements_fit _ _ _ PL t t' A A' S1 S2).
  - intros c b names P MC. destruct MC as (IC & callee & args & K & FP & NE). destruct (Y c P) as [(t & A & D)|[_ N]]; [|contradiction].
    inversion D as [n0 t0 SP _ KD KO]; subst. destruct (KO (or_introl IC)) as [NO KO']. rewrite (SP NO).
    assert (Ic : In callee (n_kids c)) by (rewrite K; left; reflexivity). destruct (KD callee Ic) as (u & Pu & Du).
    destruct (drawn_base callee u b names Du (KO' callee Ic) FP) as (NB & v & Pv & Dv). inversion Dv as [n1 t1 SB _ _ _]; subst. rewrite (SB NB).
    split; [exact (proj1 (pl_piece _ _ _ PL t A))|]. apply (tail_piece _ _ _ PL t v A). exact (part_trans _ _ _ Pu Pv).
Qed.
End Drawn.
