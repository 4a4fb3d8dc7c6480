(** Walking a syntax tree with a bounded cursor: C40. *)
From Verif Require Import Base M_Text M_Rewriter M_Span M_Run M_Visitor S_Visitor S_Walk L_Visitor M_Cursor P_Visitor.

(** ** Specification *)

(** The nodes of a tree in preorder are [nodes] (P_Visitor): the node, then its children's, from left to right.
    [distinct t]: no two nodes of the tree are identified. *)
Definition distinct (t : node) : Prop := NoDup (map n_id (nodes t)).

Section Spec.
Context {St : Type} (look : node -> St -> St) (matched : node -> bool)
        (enter : node -> St -> option (St * bool)) (leave : node -> St -> option St).

(** The visit of a subtree by recursion: a node is looked at; if it is a statement or call it is entered, its children
    are visited if so wished, and it is left; otherwise its children are visited. *)
Definition each (f : node -> St -> option St) : list node -> St -> option St :=
  fix go l s := match l with [] => Some s | k :: r => match f k s with Some s => go r s | None => None end end.
Fixpoint visit (n : node) (s : St) {struct n} : option St :=
  match n with
  | Node l ks =>
    let s := look n s in
    if matched n then
      match enter n s with
      | None => None
      | Some (s, w) =>
        match (if w then each visit ks s else Some s) with
        | None => None
        | Some s => leave n s
        end
      end
    else each visit ks s
  end.

(** Statements and calls have children. *)
Definition solid (t : node) : Prop := forall n, within t n -> matched n = true -> n_kids n <> [].
End Spec.

(** ** Identities *)
Definition ids (n : node) : list nat := map n_id (nodes n).
Lemma ids_node l ks : ids (Node l ks) = l_id l :: flat_map ids ks.
Proof.
  unfold ids. cbn [nodes map]. f_equal. induction ks as [|k ks IH]; cbn [flat_map]; [reflexivity|]. rewrite map_app, IH. reflexivity.
Qed.
Lemma ids_self n : In (n_id n) (ids n).
Proof. destruct n as [l ks]. rewrite ids_node. left. reflexivity. Qed.

Fixpoint plug (n : node) (ctx : list frame) : node :=
  match ctx with
  | [] => n
  | Frame l bs rs :: up => plug (Node l (rev bs ++ n :: rs)) up
  end.

Lemma NoDup_app_l {A} (a b : list A) : NoDup (a ++ b) -> NoDup a.
Proof. induction a as [|x a IH]; intros H; [constructor|]. inversion H; subst. constructor; [rewrite in_app_iff in *; tauto|auto]. Qed.
Lemma NoDup_app_r {A} (a b : list A) : NoDup (a ++ b) -> NoDup b.
Proof. induction a as [|x a IH]; intros H; [exact H|]. inversion H; auto. Qed.
Lemma NoDup_app_disj {A} (a b : list A) x : NoDup (a ++ b) -> In x a -> ~ In x b.
Proof.
  induction a as [|y a IH]; intros H I; [destruct I|]. inversion H as [|? ? N H']; subst. destruct I as [->|I]; [rewrite in_app_iff in N; tauto|auto].
Qed.

Lemma plug_distinct n ctx : NoDup (ids (plug n ctx)) -> NoDup (ids n).
Proof.
  revert n. induction ctx as [|[l bs rs] up IH]; intros n H; [exact H|]. cbn [plug] in H. apply IH in H.
  rewrite ids_node in H. inversion H as [|? ? _ H']; subst. rewrite flat_map_app in H'. apply NoDup_app_r in H'. cbn [flat_map] in H'. exact (NoDup_app_l _ _ H').
Qed.
Lemma kid_distinct l bs k rs : NoDup (ids (Node l (bs ++ k :: rs))) ->
  ~ In (l_id l) (ids k) /\ (forall r, In r rs -> forall x, In x (ids k) -> n_id r <> x) /\ (forall x, In x (ids k) -> x <> l_id l).
Proof.
  rewrite ids_node. intros H. inversion H as [|? ? N H']; subst. rewrite flat_map_app in N, H'. cbn [flat_map] in N, H'.
  rewrite !in_app_iff in N. split; [tauto|]. split; [|intros x I ->; tauto].
  intros r Ir x I E. apply NoDup_app_r in H'. apply (NoDup_app_disj _ _ x H' I). apply in_flat_map. exists r. split; [exact Ir|]. rewrite <- E. apply ids_self.
Qed.

(** After skipping [n], the cursor is not in [n]. *)
Lemma skip_leaves ctx : forall n bounds b, NoDup (ids (plug n ctx)) -> skip_loop n ctx bounds = Some b -> b_exhausted b = false ->
  ~ In (n_id (c_node (b_cursor b))) (ids n).
Proof.
  induction ctx as [|[l bs rs] up IH]; intros n bounds b D H X.
  - cbn in H. destruct bounds; [|discriminate]. injection H as <-. discriminate.
  - cbn [skip_loop goto_next_sibling c_ctx c_node] in H. cbn [plug] in D. pose proof (plug_distinct _ _ D) as D'.
    destruct (kid_distinct l (rev bs) n rs D') as [K1 [K2 K3]].
    destruct rs as [|r rs].
    + destruct (at_current_bound bounds _); [injection H as <-; discriminate|].
      specialize (IH _ _ _ D H X). intros I. apply IH. rewrite ids_node, flat_map_app. right. apply in_app_iff. right. cbn [flat_map]. apply in_app_iff. left. exact I.
    + injection H as <-. cbn [b_cursor c_node]. intros I. exact (K2 r (or_introl eq_refl) _ I eq_refl).
Qed.

Section Walk.
Context {St : Type} (look : node -> St -> St) (matched : node -> bool)
        (enter : node -> St -> option (St * bool)) (leave : node -> St -> option St).
Notation walk_loop := (walk_loop look matched enter leave).
Notation visit := (visit look matched enter leave).

(** With enough fuel the loop gives [r]. *)
Definition gives (b : bounded) (s : St) (r : outcome_of) : Prop := exists k, forall f, (k <= f)%nat -> walk_loop f b s = r.
(** Skipping [n] and going on gives [r]. *)
Definition skip_gives (n : node) (ctx : list frame) (bounds : list node) (s : St) (r : outcome_of) : Prop :=
  match skip_loop n ctx bounds with Some b => gives b s r | None => r = WPanic end.

Lemma walk_node : forall n, solid matched n -> forall ctx bounds s r,
  NoDup (ids (plug n ctx)) -> (forall b bs, bounds = b :: bs -> ~ In (n_id b) (ids n)) ->
  (match visit n s with None => r = WPanic | Some s' => skip_gives n ctx bounds s' r end) ->
  gives (Bounded (Cursor n ctx) bounds false) s r.
Proof.
  induction n as [l ks IH] using node_ind'. intros Sol ctx bounds s r D NB H.
  assert (Kids : forall bds ks' bs s r, (exists pre, ks = pre ++ ks' /\ pre = rev bs) -> ks' <> [] ->
     (bds = bounds \/ bds = Node l ks :: bounds) ->
     (match each visit ks' s with
      | None => r = WPanic
      | Some s' =>
        match bds with
        | b :: _ => if same_node b (Node l ks) then gives (Bounded (Cursor (Node l ks) ctx) bds true) s' r else skip_gives (Node l ks) ctx bds s' r
        | [] => skip_gives (Node l ks) ctx bds s' r
        end
      end) ->
     match ks' with [] => True | k :: rs => gives (Bounded (Cursor k (Frame l bs rs :: ctx)) bds false) s r end).
  { intros bds. induction ks' as [|k rs IHk]; intros bs s0 r0 [pre [Eks Epre]] _ B H0; [exact I|].
    assert (D1 : NoDup (ids (Node l (rev bs ++ k :: rs)))) by (rewrite <- Epre, <- Eks; eapply plug_distinct; exact D).
    destruct (kid_distinct _ _ _ _ D1) as [K1 [K2 K3]].
    apply Forall_forall with (x := k) in IH; [|rewrite Eks; apply in_app_iff; right; left; reflexivity].
    apply IH.
    - intros m W. apply Sol. apply wi_kid with k; [|exact W]. cbn [n_kids]. rewrite Eks. apply in_app_iff. right. left. reflexivity.
    - cbn [plug]. rewrite <- Epre, <- Eks. exact D.
    - intros b bs' Eb. destruct B as [B|B].
      + rewrite Eb in B. intros I. apply (NB b bs' (eq_sym B)). rewrite ids_node, Eks, flat_map_app. right. apply in_app_iff. right. cbn [flat_map]. apply in_app_iff. left. exact I.
      + rewrite B in Eb. injection Eb as <- _. cbn [n_id n_lab]. exact K1.
    - cbn [each] in H0. destruct (visit k s0) as [s1|]; [|exact H0]. unfold skip_gives. cbn [skip_loop goto_next_sibling c_ctx c_node].
      destruct rs as [|k' rs].
      + cbn [each] in H0. rewrite <- Epre, <- Eks. destruct bds as [|b bds']; cbn [at_current_bound]; [exact H0|].
        destruct (same_node b (Node l ks)); exact H0.
      + apply (IHk (k :: bs) s1 r0); [|discriminate|exact B|exact H0]. exists (pre ++ [k]). cbn [rev]. rewrite <- Epre, <- app_assoc. auto. }
  cbn [P_Cursor.visit] in H.
  assert (Go : forall s' r', skip_gives (Node l ks) ctx bounds s' r' ->
     exists k, forall f, (k <= f)%nat ->
       match skip_loop (Node l ks) ctx bounds with
       | None => r' = WPanic
       | Some b => match current_node b with
                   | Some m => if same_node (Node l ks) m then WPanic else walk_loop f b s'
                   | None => walk_loop f b s'
                   end = r'
       end).
  { intros s' r' G. unfold skip_gives in G. destruct (skip_loop (Node l ks) ctx bounds) as [b|] eqn:Sk; [|exists 0%nat; auto].
    destruct G as [k G]. exists k. intros f F. specialize (G f F). unfold current_node. destruct (b_exhausted b) eqn:X; [exact G|].
    pose proof (skip_leaves _ _ _ _ D Sk X) as N. unfold same_node.
    destruct (Nat.eqb_spec (n_id (Node l ks)) (n_id (c_node (b_cursor b)))) as [E|_]; [|exact G]. destruct N. rewrite <- E. apply ids_self. }
  destruct (matched (Node l ks)) eqn:M.
  - destruct (enter (Node l ks) (look (Node l ks) s)) as [[s1 w]|] eqn:En.
    2:{ exists 1%nat. intros [|f] F; [lia|]. cbn [M_Cursor.walk_loop current_node b_exhausted b_cursor c_node]. rewrite M, En. symmetry. exact H. }
    destruct w.
    + assert (NK : ks <> []) by exact (Sol (Node l ks) (wi_here _) M).
      destruct ks as [|k0 ks0]; [congruence|]. clear NK.
      set (inner := match each visit (k0 :: ks0) s1 with
                    | None => WPanic
                    | Some s2 => match skip_loop (Node l (k0 :: ks0)) ctx bounds with Some b => WDone b s2 | None => WPanic end
                    end).
      assert (Gi : gives (Bounded (Cursor k0 (Frame l [] ks0 :: ctx)) (Node l (k0 :: ks0) :: bounds) false) s1 inner).
      { apply (Kids (Node l (k0 :: ks0) :: bounds) (k0 :: ks0) [] s1 inner); [exists []; auto|discriminate|auto|].
        unfold inner. destruct (each visit (k0 :: ks0) s1) as [s2|]; [|reflexivity]. unfold same_node. rewrite Nat.eqb_refl.
        exists 1%nat. intros [|f] F; [lia|]. cbn [M_Cursor.walk_loop current_node b_exhausted]. unfold bc_pop. cbn [b_bounds b_cursor c_node c_ctx].
        assert (Cl : climb (Node l (k0 :: ks0)) ctx (Node l (k0 :: ks0)) = Some (Cursor (Node l (k0 :: ks0)) ctx)).
        { destruct ctx; cbn [climb]; unfold same_node; rewrite Nat.eqb_refl; reflexivity. }
        rewrite Cl. unfold bc_skip. cbn [b_bounds b_cursor c_node c_ctx]. destruct (skip_loop _ _ _); reflexivity. }
      destruct Gi as [ki Gi]. unfold inner in Gi.
      assert (Step : forall f, walk_loop (S f) (Bounded (Cursor (Node l (k0 :: ks0)) ctx) bounds false) s =
        match walk_loop f (Bounded (Cursor k0 (Frame l [] ks0 :: ctx)) (Node l (k0 :: ks0) :: bounds) false) s1 with
        | WDone b s2 => match leave (Node l (k0 :: ks0)) s2 with
                        | Some s3 => match current_node b with
                                     | Some m => if same_node (Node l (k0 :: ks0)) m then WPanic else walk_loop f b s3
                                     | None => walk_loop f b s3 end
                        | None => WPanic end
        | x => x end).
      { intros f. cbn [M_Cursor.walk_loop current_node b_exhausted b_cursor c_node]. rewrite M, En. unfold bc_push, bc_next.
        cbn [b_exhausted b_cursor c_node c_ctx b_bounds goto_first_child]. destruct (walk_loop f _ s1); reflexivity. }
      destruct (each visit (k0 :: ks0) s1) as [s2|].
      2:{ exists (S ki). intros [|f] F; [lia|]. rewrite Step, (Gi f) by lia. symmetry. exact H. }
      destruct (leave (Node l (k0 :: ks0)) s2) as [s3|] eqn:Lv.
      2:{ exists (S ki). intros [|f] F; [lia|]. rewrite Step, (Gi f) by lia. destruct (skip_loop _ _ _); [rewrite Lv|]; symmetry; exact H. }
      destruct (Go s3 r H) as [kg Gg]. exists (S (ki + kg)). intros [|f] F; [lia|]. rewrite Step, (Gi f) by lia. specialize (Gg f ltac:(lia)).
      destruct (skip_loop (Node l (k0 :: ks0)) ctx bounds); [rewrite Lv; exact Gg|symmetry; exact Gg].
    + assert (Step : forall f, walk_loop (S f) (Bounded (Cursor (Node l ks) ctx) bounds false) s =
        match skip_loop (Node l ks) ctx bounds with
        | Some b => match leave (Node l ks) s1 with
                        | Some s3 => match current_node b with
                                     | Some m => if same_node (Node l ks) m then WPanic else walk_loop f b s3
                                     | None => walk_loop f b s3 end
                        | None => WPanic end
        | None => WPanic end).
      { intros f. cbn [M_Cursor.walk_loop current_node b_exhausted b_cursor c_node]. rewrite M, En. unfold bc_skip. cbn [b_cursor c_node c_ctx b_bounds].
        destruct (skip_loop (Node l ks) ctx bounds); reflexivity. }
      destruct (leave (Node l ks) s1) as [s3|] eqn:Lv.
      2:{ exists 1%nat. intros [|f] F; [lia|]. rewrite Step. destruct (skip_loop _ _ _); symmetry; exact H. }
      destruct (Go s3 r H) as [kg Gg]. exists (S kg). intros [|f] F; [lia|]. rewrite Step. specialize (Gg f ltac:(lia)).
      destruct (skip_loop (Node l ks) ctx bounds); [exact Gg|symmetry; exact Gg].
  - destruct ks as [|k0 ks0].
    + cbn [each] in H. destruct (Go _ _ H) as [kg Gg]. exists (S kg). intros [|f] F; [lia|]. specialize (Gg f ltac:(lia)).
      cbn [M_Cursor.walk_loop current_node b_exhausted b_cursor c_node]. rewrite M. unfold bc_next, bc_skip. cbn [goto_first_child b_cursor c_node c_ctx b_bounds].
      destruct (skip_loop (Node l []) ctx bounds); [exact Gg|symmetry; exact Gg].
    + assert (G : gives (Bounded (Cursor k0 (Frame l [] ks0 :: ctx)) bounds false) (look (Node l (k0 :: ks0)) s) r).
      { apply (Kids bounds (k0 :: ks0) [] _ r); [exists []; auto|discriminate|auto|].
        destruct (each visit (k0 :: ks0) _) as [s1|]; [|exact H]. destruct bounds as [|b bs]; [exact H|].
        unfold same_node. destruct (Nat.eqb_spec (n_id b) (n_id (Node l (k0 :: ks0)))) as [E|_]; [|exact H].
        destruct (NB b bs eq_refl). rewrite E. apply ids_self. }
      destruct G as [k G]. exists (S k). intros [|f] F; [lia|].
      cbn [M_Cursor.walk_loop current_node b_exhausted b_cursor c_node]. rewrite M. unfold bc_next. cbn [goto_first_child b_cursor c_node c_ctx b_bounds b_exhausted].
      unfold current_node. cbn [b_exhausted b_cursor c_node].
      assert (Nk : same_node (Node l (k0 :: ks0)) k0 = false).
      { unfold same_node. apply Nat.eqb_neq. destruct (kid_distinct l [] k0 ks0 (plug_distinct _ _ D)) as [K1 [_ K3]]. intros E.
        apply (K3 (n_id k0)); [apply ids_self|]. rewrite <- E. reflexivity. }
      rewrite Nk. apply G. lia.
Qed.

Notation walk_nodes := (walk_nodes look matched enter leave).

Lemma walk_kids l all : NoDup (ids (Node l all)) -> forall ks bs s, all = rev bs ++ ks -> (forall k, In k ks -> solid matched k) ->
  match ks with
  | [] => True
  | k :: rs => gives (Bounded (Cursor k [Frame l bs rs]) [Node l all] false) s
      (match each visit ks s with Some s' => WDone (Bounded (Cursor (Node l all) []) [] true) s' | None => WPanic end)
  end.
Proof.
  intros D. induction ks as [|k rs IH]; intros bs s E Sol; [exact I|].
  assert (D1 : NoDup (ids (Node l (rev bs ++ k :: rs)))) by (rewrite <- E; exact D).
  destruct (kid_distinct _ _ _ _ D1) as [K1 [K2 K3]].
  apply walk_node; [apply Sol; left; reflexivity|exact D1| |].
  - intros b bs' Eb. injection Eb as <- _. exact K1.
  - cbn [each]. destruct (visit k s) as [s1|]; [|reflexivity]. unfold skip_gives. cbn [skip_loop goto_next_sibling c_ctx c_node].
    destruct rs as [|k' rs].
    + cbn [each at_current_bound]. rewrite <- E. unfold same_node. rewrite Nat.eqb_refl. exists 1%nat. intros [|f] F; [lia|].
      cbn [M_Cursor.walk_loop current_node b_exhausted]. unfold bc_pop. cbn [b_bounds b_cursor c_node c_ctx climb]. unfold same_node. rewrite Nat.eqb_refl. reflexivity.
    + apply (IH (k :: bs) s1); [cbn [rev]; rewrite <- app_assoc; exact E|]. intros k1 I1. apply Sol. right. exact I1.
Qed.

(** ** C40 *)

(** The walk with the cursor over the subtree of [t] is the visit of [t]'s children by recursion, and it ends with the
    cursor back at [t], exhausted; provided [t], and the statements and calls below it, have children. *)
Theorem C40_walk : forall t s, distinct t -> n_kids t <> [] -> (forall k, In k (n_kids t) -> solid matched k) ->
  exists enough, forall fuel, (enough <= fuel)%nat ->
    walk_nodes fuel (bc_new t) s =
    match each visit (n_kids t) s with
    | Some s' => WDone (Bounded (Cursor t []) [] true) s'
    | None => WPanic
    end.
Proof.
  intros [l ks] s D NK Sol. cbn [n_kids] in *. destruct ks as [|k ks]; [congruence|].
  destruct (walk_kids l (k :: ks) D (k :: ks) [] s eq_refl Sol) as [n G]. exists n. intros f F. exact (G f F).
Qed.

(** A statement or call without children that the visitor asks to walk is never left: whatever the rest of the tree,
    the walk of it does not come to an end normally. *)
Lemma skip_not_exhausted ctx : forall n b bs r, n_kids b = [] -> NoDup (ids (plug n ctx)) -> In b (nodes (plug n ctx)) ->
  skip_loop n ctx (b :: bs) = Some r -> b_exhausted r = false /\ b_bounds r = b :: bs /\ plug (c_node (b_cursor r)) (c_ctx (b_cursor r)) = plug n ctx.
Proof.
  induction ctx as [|[l bfr aft] up IH]; intros n b bs r Nb D Ib H.
  - cbn in H. discriminate.
  - cbn [skip_loop goto_next_sibling c_ctx c_node] in H. destruct aft as [|k aft].
    + cbn [at_current_bound] in H. destruct (same_node b _) eqn:E.
      * exfalso. unfold same_node in E. apply Nat.eqb_eq in E.
        assert (X : b = Node l (rev bfr ++ [n])); [|subst b; cbn [n_kids] in Nb; destruct (rev bfr); discriminate].
        assert (U : forall t, NoDup (ids t) -> forall x y, In x (nodes t) -> In y (nodes t) -> n_id x = n_id y -> x = y).
        { intros t. unfold ids. generalize (nodes t). induction l0 as [|z l0 IHl]; intros Nd x y Ix Iy Exy; [destruct Ix|].
          cbn [map] in Nd. inversion Nd as [|? ? Nz Nd']; subst. destruct Ix as [->|Ix], Iy as [->|Iy]; auto.
          - destruct Nz. rewrite Exy. apply in_map, Iy.
          - destruct Nz. rewrite <- Exy. apply in_map, Ix. }
        eapply U; [exact D|exact Ib| |exact E]. cbn [plug].
        clear. generalize (Node l (rev bfr ++ [n])). induction up as [|[l' b' a'] up IHu]; intros m; cbn [plug]; [destruct m; left; reflexivity|].
        specialize (IHu (Node l' (rev b' ++ m :: a'))).
        assert (G : forall up p q, In q (nodes p) -> In q (nodes (plug p up))).
        { clear. induction up as [|[l2 b2 a2] up IHu]; intros p q I; cbn [plug]; [exact I|]. apply IHu. cbn [nodes]. right.
          rewrite flat_map_app. apply in_app_iff. right. cbn [flat_map]. apply in_app_iff. left. exact I. }
        apply G. cbn [nodes]. right. rewrite flat_map_app. apply in_app_iff. right. cbn [flat_map]. apply in_app_iff. left. destruct m; left; reflexivity.
      * exact (IH _ b bs r Nb D Ib H).
    + injection H as <-. cbn [b_exhausted b_bounds b_cursor c_node c_ctx plug rev]. split; [reflexivity|]. split; [reflexivity|].
      rewrite <- app_assoc. reflexivity.
Qed.

Lemma skip_pres ctx : forall n bds r, skip_loop n ctx bds = Some r -> b_bounds r = bds /\ plug (c_node (b_cursor r)) (c_ctx (b_cursor r)) = plug n ctx.
Proof.
  induction ctx as [|[l bfr aft] up IH]; intros n bds r H.
  - cbn in H. destruct bds; [|discriminate]. injection H as <-. auto.
  - cbn [skip_loop goto_next_sibling c_ctx c_node] in H. destruct aft as [|k aft].
    + destruct (at_current_bound bds _); [injection H as <-; auto|]. exact (IH _ _ _ H).
    + injection H as <-. cbn [b_bounds b_cursor c_node c_ctx plug rev]. rewrite <- app_assoc. auto.
Qed.
Lemma climb_pres ctx : forall n b c, climb n ctx b = Some c -> plug (c_node c) (c_ctx c) = plug n ctx.
Proof.
  induction ctx as [|[l bfr aft] up IH]; intros n b c H; cbn [climb] in H; destruct (same_node n b); try discriminate; try (injection H as <-; reflexivity).
  exact (IH _ _ _ H).
Qed.
Definition whole (b : bounded) : node := plug (c_node (b_cursor b)) (c_ctx (b_cursor b)).
Lemma next_pres b b' : bc_next b = Some b' -> b_bounds b' = b_bounds b /\ whole b' = whole b.
Proof.
  unfold bc_next, whole. destruct b as [[[l ks] ctx] bds e]. cbn [goto_first_child b_cursor c_node c_ctx b_bounds b_exhausted].
  destruct ks as [|k ks]; [|intros H; injection H as <-; auto]. intros H. apply skip_pres in H. exact H.
Qed.

Lemma loop_pres : forall f b s b' s' x bds, b_bounds b = x :: bds -> walk_loop f b s = WDone b' s' ->
  exists n ctx, plug n ctx = whole b /\ skip_loop n ctx bds = Some b'.
Proof.
  induction f as [|f IH]; intros b s b' s' x bds Eb H; [discriminate|]. cbn [M_Cursor.walk_loop] in H.
  destruct (current_node b) as [n|] eqn:Cn.
  - assert (Go : forall b1 s1, b_bounds b1 = x :: bds -> whole b1 = whole b ->
      (match current_node b1 with Some m => if same_node n m then WPanic else walk_loop f b1 s1 | None => walk_loop f b1 s1 end) = WDone b' s' ->
      exists n ctx, plug n ctx = whole b /\ skip_loop n ctx bds = Some b').
    { intros b1 s1 E1 W1 G. rewrite <- W1. destruct (current_node b1); [destruct (same_node n n0); [discriminate|]|]; eapply IH; eassumption. }
    destruct (matched n).
    + destruct (enter n (look n s)) as [[s1 w]|]; [|discriminate]. destruct w.
      * destruct (bc_push b) as [b1|] eqn:Pu; [|discriminate]. unfold bc_push in Pu. destruct (b_exhausted b); [discriminate|]. injection Pu as <-.
        destruct (bc_next _) as [b2|] eqn:Nx; [|discriminate]. apply next_pres in Nx as [N1 N2]. cbn [b_bounds] in N1.
        destruct (walk_loop f b2 s1) as [b3 s3| |] eqn:W; try discriminate.
        destruct (IH _ _ _ _ _ _ N1 W) as [n' [ctx' [P Q]]]. apply skip_pres in Q as [Q1 Q2].
        destruct (leave n s3) as [s4|]; [|discriminate]. apply (Go b3 s4); [rewrite Q1; exact Eb| |exact H].
        unfold whole at 1. rewrite Q2, P, N2. reflexivity.
      * destruct (bc_skip b) as [b1|] eqn:Sk; [|discriminate]. apply skip_pres in Sk as [Q1 Q2].
        destruct (leave n s1) as [s4|]; [|discriminate]. apply (Go b1 s4); [rewrite Q1; exact Eb|exact Q2|exact H].
    + destruct (bc_next b) as [b1|] eqn:Nx; [|discriminate]. apply next_pres in Nx as [N1 N2]. apply (Go b1 (look n s)); [rewrite N1; exact Eb|exact N2|exact H].
  - unfold bc_pop in H. rewrite Eb in H. destruct (climb _ _ x) as [c|] eqn:Cl; [|discriminate]. apply climb_pres in Cl.
    unfold bc_skip in H. cbn [b_cursor b_bounds] in H. destruct (skip_loop (c_node c) (c_ctx c) bds) as [r|] eqn:Sk; [|discriminate]. injection H as <- <-.
    exists (c_node c), (c_ctx c). auto.
Qed.

Lemma never_done c : n_kids c = [] -> forall f b s b' s' bds, b_bounds b = c :: bds -> b_exhausted b = false -> NoDup (ids (whole b)) -> In c (nodes (whole b)) ->
  walk_loop f b s <> WDone b' s'.
Proof.
  intros Nc. induction f as [|f IH]; intros b s b' s' bds Eb X D Ic H; [discriminate|]. cbn [M_Cursor.walk_loop] in H.
  unfold current_node in H at 1. rewrite X in H. set (n := c_node (b_cursor b)) in *.
  assert (Go : forall b1 s1, b_bounds b1 = c :: bds -> b_exhausted b1 = false -> whole b1 = whole b ->
      (match current_node b1 with Some m => if same_node n m then WPanic else walk_loop f b1 s1 | None => walk_loop f b1 s1 end) <> WDone b' s').
  { intros b1 s1 E1 X1 W1 G. rewrite <- W1 in D, Ic.
    destruct (current_node b1); [destruct (same_node n n0); [discriminate|]|]; exact (IH _ _ _ _ _ E1 X1 D Ic G). }
  assert (Sk : forall n ctx b1, plug n ctx = whole b -> skip_loop n ctx (c :: bds) = Some b1 -> b_bounds b1 = c :: bds /\ b_exhausted b1 = false /\ whole b1 = whole b).
  { intros n1 ctx b1 P K. rewrite <- P in D, Ic. destruct (skip_not_exhausted ctx n1 c bds b1 Nc D Ic K) as [K1 [K2 K3]]. rewrite <- P. auto. }
  assert (Nx : forall b1, bc_next b = Some b1 -> b_bounds b1 = c :: bds /\ b_exhausted b1 = false /\ whole b1 = whole b).
  { intros b1 N. pose proof (next_pres _ _ N) as [N1 N2]. unfold bc_next in N. destruct (goto_first_child (b_cursor b)); [injection N as <-; auto|].
    unfold bc_skip in N. rewrite Eb in N. eapply Sk; [reflexivity|exact N]. }
  destruct (matched n).
  - destruct (enter n (look n s)) as [[s1 w]|]; [|discriminate]. destruct w.
    + unfold bc_push in H. rewrite X in H. destruct (bc_next _) as [b2|] eqn:N; [|discriminate]. apply next_pres in N as [N1 N2]. cbn [b_bounds] in N1.
      destruct (walk_loop f b2 s1) as [b3 s3| |] eqn:W; try discriminate.
      destruct (loop_pres _ _ _ _ _ _ _ N1 W) as [n' [ctx' [P Q]]]. rewrite Eb in Q. rewrite N2 in P. destruct (Sk _ _ _ P Q) as [Q1 [Q2 Q3]].
      destruct (leave n s3) as [s4|]; [|discriminate]. exact (Go b3 s4 Q1 Q2 Q3 H).
    + unfold bc_skip in H. rewrite Eb in H. destruct (skip_loop _ _ (c :: bds)) as [b1|] eqn:K; [|discriminate].
      destruct (Sk _ _ _ eq_refl K) as [Q1 [Q2 Q3]]. destruct (leave n s1) as [s4|]; [|discriminate]. exact (Go b1 s4 Q1 Q2 Q3 H).
  - destruct (bc_next b) as [b1|] eqn:N; [|discriminate]. destruct (Nx b1 eq_refl) as [Q1 [Q2 Q3]]. exact (Go b1 (look n s) Q1 Q2 Q3 H).
Qed.

Lemma in_plug up : forall p q, In q (nodes p) -> In q (nodes (plug p up)).
Proof.
  induction up as [|[l2 b2 a2] up IHu]; intros p q I; cbn [plug]; [exact I|]. apply IHu. cbn [nodes]. right.
  rewrite flat_map_app. apply in_app_iff. right. cbn [flat_map]. apply in_app_iff. left. exact I.
Qed.

(** The condition on statements and calls is needed: once the walk has come to one without children that the visitor
    wants walked, it does not end normally, whatever the rest of the tree and the visitor. *)
Theorem C40_childless_never_ends : forall c ctx bounds s s1, distinct (plug c ctx) -> n_kids c = [] -> matched c = true ->
  enter c (look c s) = Some (s1, true) ->
  forall fuel b' s', walk_loop fuel (Bounded (Cursor c ctx) bounds false) s <> WDone b' s'.
Proof.
  intros c ctx bounds s s1 D Nc M En [|f] b' s' H; [discriminate|]. cbn [M_Cursor.walk_loop current_node b_exhausted b_cursor c_node] in H. rewrite M, En in H.
  unfold bc_push, bc_next, bc_skip in H. cbn [b_exhausted b_cursor c_node c_ctx b_bounds] in H. unfold goto_first_child in H. cbn [c_node] in H.
  assert (Ic : In c (nodes (plug c ctx))) by (apply in_plug; destruct c; left; reflexivity).
  destruct c as [l ks]. cbn [n_kids] in Nc. subst ks.
  destruct (skip_loop (Node l []) ctx (Node l [] :: bounds)) as [b1|] eqn:K; [|discriminate].
  destruct (skip_not_exhausted ctx (Node l []) (Node l []) bounds b1 eq_refl D Ic K) as [K1 [K2 K3]].
  destruct (walk_loop f b1 s1) as [b3 s3| |] eqn:W; try discriminate.
  apply (never_done (Node l []) eq_refl f b1 s1 b3 s3 bounds K2 K1) in W; [exact W| |]; unfold whole; rewrite K3; assumption.
Qed.
End Walk.
Print Assumptions C40_walk.
Print Assumptions C40_childless_never_ends.

(** ** Instances *)

Lemma each_all {St} (f : node -> St -> option St) g ks : (forall k s, In k ks -> f k s = Some (g k s)) -> forall s,
  each f ks s = Some (fold_left (fun s k => g k s) ks s).
Proof.
  induction ks as [|k ks IH]; intros H s; cbn [each fold_left]; [reflexivity|]. rewrite H by (left; reflexivity). apply IH.
  intros k' s' I. apply H. right. exact I.
Qed.

(** Every node below [t] is looked at exactly once, in preorder, and no other node, if nothing is skipped. *)
Theorem C40_once_each_in_preorder : forall matched t, distinct t -> n_kids t <> [] -> (forall k, In k (n_kids t) -> solid matched k) ->
  exists enough, forall fuel, (enough <= fuel)%nat ->
    walk_nodes (fun n seen => seen ++ [n]) matched (fun _ s => Some (s, true)) (fun _ s => Some s) fuel (bc_new t) [] =
    WDone (Bounded (Cursor t []) [] true) (flat_map nodes (n_kids t)).
Proof.
  intros matched t D NK Sol. destruct (C40_walk (fun n seen => seen ++ [n]) matched (fun _ s => Some (s, true)) (fun _ s => Some s) t [] D NK Sol) as [k H].
  exists k. intros f F. rewrite (H f F). clear.
  set (v := visit _ _ _ _).
  assert (V : forall n s, v n s = Some (s ++ nodes n)).
  { assert (E : forall ks, Forall (fun n => forall s, v n s = Some (s ++ nodes n)) ks -> forall s, each v ks s = Some (s ++ flat_map nodes ks)).
    { intros ks F. induction F as [|k ks K F IH]; intros s; cbn [each flat_map]; [rewrite app_nil_r; reflexivity|]. rewrite K, IH, app_assoc. reflexivity. }
    induction n as [l ks IH] using node_ind'. intros s. unfold v. cbn [visit]. fold v.
    destruct (matched (Node l ks)); rewrite (E ks IH); cbn [nodes]; rewrite <- app_assoc; reflexivity. }
  rewrite (each_all v (fun n s => s ++ nodes n)) by auto.
  assert (G : forall ks s, fold_left (fun s k => s ++ nodes k) ks s = s ++ flat_map nodes ks).
  { induction ks as [|k' ks IH]; intros s; cbn [fold_left flat_map]; [rewrite app_nil_r; reflexivity|]. rewrite IH, app_assoc. reflexivity. }
  rewrite G. reflexivity.
Qed.
Print Assumptions C40_once_each_in_preorder.

(** Go and PHP: the walk with the cursor over the body of a test or local function is the walk that the theorems
    C29-C38 are about. *)
Definition no_items (t : node) : Prop := forall n, within t n -> match n_kind n with KTest _ _ | KMacro _ | KCall true _ => False | _ => True end.
Theorem C40_go_and_php : forall E body st, v_fw E = fw_go \/ v_fw E = fw_php ->
  distinct body -> no_items body -> n_kids body <> [] -> (forall k, In k (n_kids body) -> solid ts_matched k) ->
  exists enough, forall fuel, (enough <= fuel)%nat ->
    ts_walk E fuel body st =
    match fold_kids (walk E) (n_kids body) st with
    | Some st' => WDone (Bounded (Cursor body []) [] true) st'
    | None => WPanic
    end.
Proof.
  intros E body st Fw D NI NK Sol.
  destruct (C40_walk (fun _ st => st) ts_matched (ts_enter E) (ts_leave E) body st D NK Sol) as [k H]. exists k. intros f F. unfold ts_walk. rewrite (H f F).
  set (v := visit _ _ _ _).
  assert (Fx : fw_expr_kids (v_fw E) = true /\ fw_skip_whole (v_fw E) = true) by (destruct Fw as [-> | ->]; split; reflexivity).
  assert (EF : forall ks, Forall (fun n => no_items n -> forall s, v n s = walk E n s) ks -> (forall n, In n ks -> no_items n) -> forall s, each v ks s = fold_kids (walk E) ks s).
  { intros ks F1. induction F1 as [|n ks Kn F1 IH]; intros NI1 s; cbn [each fold_kids]; [reflexivity|]. rewrite Kn by (apply NI1; left; reflexivity).
    destruct (walk E n s); cbn [obind]; [apply IH; intros m I; apply NI1; right; exact I|reflexivity]. }
  assert (V : forall n, no_items n -> forall s, v n s = walk E n s).
  { induction n as [l ks IH] using node_ind'. intros NI1 s.
    assert (NIk : forall n, In n ks -> no_items n) by (intros n I m W; apply NI1; eapply wi_kid; [exact I|exact W]).
    specialize (EF ks IH NIk). pose proof (NI1 _ (wi_here _)) as K. unfold n_kind in K. cbn [n_lab] in K.
    unfold v. cbn [visit]. fold v. unfold ts_matched, ts_enter, ts_leave, n_kind. cbn [n_lab walk]. destruct Fx as [Fx1 Fx2]. rewrite Fx1, Fx2.
    destruct (l_kind l) as [r c d e| |o|h nm|nm|nm|nm bi| |]; try contradiction; try apply EF.
    - destruct (visit_statement (Node l ks) s) as [s1|]; cbn [obind]; [|reflexivity]. rewrite EF. destruct (fold_kids (walk E) ks s1); reflexivity.
    - destruct h; [contradiction|]. destruct (visit_call E (Node l ks) s) as [[s1 w]|]; cbn [obind]; [|reflexivity].
      destruct w; [rewrite EF; destruct (fold_kids (walk E) ks s1); reflexivity|reflexivity]. }
  assert (EB : each v (n_kids body) st = fold_kids (walk E) (n_kids body) st).
  { apply EF; [apply Forall_forall; intros n _; apply V|]. intros n I m W. apply NI. eapply wi_kid; eassumption. }
  rewrite EB. reflexivity.
Qed.
Print Assumptions C40_go_and_php.

(** ** The hypotheses are met: Go's example tree of P_Visitor *)
Definition g_body : node := match n_kids g_test with b :: _ => b | [] => g_test end.
Example g_body_distinct : distinct g_body.
Proof. unfold distinct. change (NoDup (map n_id (nodes g_body))). set (l := map _ _). vm_compute in l. subst l. repeat (constructor; [cbn; intuition lia|]). constructor. Qed.
Example g_body_solid : n_kids g_body <> [] /\ (forall k, In k (n_kids g_body) -> solid ts_matched k) /\ no_items g_body.
Proof.
  split; [discriminate|].
  assert (A : forall n, In n (nodes g_body) -> (ts_matched n = true -> n_kids n <> []) /\ match n_kind n with KTest _ _ | KMacro _ | KCall true _ => False | _ => True end).
  { intros n I. vm_compute in I. repeat (destruct I as [<-|I]; [split; [discriminate|exact Logic.I]|]). destruct I. }
  split; [|intros n W; apply within_nodes in W; apply (A n W)]. intros k Ik n W. apply (A n). apply within_nodes. eapply wi_kid; eassumption.
Qed.

(** A Go body [{ switch .. { fallthrough }; f() }] where the statement [fallthrough] is a single token: the walk
    panics, although the visit by recursion does not. *)
Definition z_body : node := mk 1 KGroup 1 0 20 [mk 2 (KStmt true true false false) 1 0 11 []; x_stmt 3 1 12 16 (x_call 4 1 12 15 "f" [])].
Theorem C40_childless_refuted : exists E body st st', distinct body /\ no_items body /\ n_kids body <> [] /\
  fold_kids (walk E) (n_kids body) st = Some st' /\
  exists enough, forall fuel, (enough <= fuel)%nat -> ts_walk E fuel body st = WPanic.
Proof.
  exists g_env, z_body, init_vst. eexists. split; [unfold distinct; cbn; repeat (constructor; [cbn; intuition lia|]); constructor|].
  split. { intros n W. apply within_nodes in W. vm_compute in W. repeat (destruct W as [<-|W]; [exact Logic.I|]). destruct W. }
  split; [discriminate|]. split; [vm_compute; reflexivity|]. exists 10%nat. intros f F. do 10 (destruct f as [|f]; [lia|]). vm_compute. reflexivity.
Qed.
Print Assumptions C40_childless_refuted.
