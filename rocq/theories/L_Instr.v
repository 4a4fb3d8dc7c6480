(** Lemmas about instrumentation. *)
From Verif Require Import Base M_Text S_Text L_Text M_Rewriter M_Span S_Span L_Span M_Instr S_Instr.
From Coq Require Import Sorting.Permutation Sorting.Sorted.

(** Text with insertions [ins o] before the character at offset [o]. *)
Fixpoint weave {A} (inj : char -> A) (ins : nat -> list A) (o : nat) (t : text) : list A :=
  ins o ++ match t with
           | [] => []
           | c :: r => inj c :: weave inj ins (S o) r
           end.

Lemma weave_ext {A} (inj : char -> A) f g t : forall o,
  (forall k, o <= k <= o + length t -> f k = g k) -> weave inj f o t = weave inj g o t.
Proof.
  induction t as [|c r IH]; intros o H; cbn.
  - rewrite H; [reflexivity|cbn; lia].
  - rewrite H by (cbn; lia). do 2 f_equal. apply IH. intros k Hk. apply H. cbn; lia.
Qed.

Lemma weave_nil {A} (inj : char -> A) f t : forall o,
  (forall k, o <= k <= o + length t -> f k = []) -> weave inj f o t = map inj t.
Proof.
  induction t as [|c r IH]; intros o H; cbn.
  - rewrite H; [reflexivity|cbn; lia].
  - rewrite H by (cbn; lia). cbn. f_equal. apply IH. intros k Hk. apply H. cbn; lia.
Qed.

Lemma weave_app {A} (inj : char -> A) f a b : forall o,
  (forall k, o <= k < o + length a -> f k = []) ->
  weave inj f o (a ++ b) = map inj a ++ weave inj f (o + length a) b.
Proof.
  induction a as [|c r IH]; intros o H; cbn.
  - now rewrite Nat.add_0_r.
  - rewrite H by (cbn; lia). cbn. f_equal. rewrite IH; [f_equal; f_equal; lia|].
    intros k Hk. apply H. cbn; lia.
Qed.

Lemma weave_head {A} (inj : char -> A) f g v o t :
  f o = v ++ g o -> (forall k, o < k -> f k = g k) -> weave inj f o t = v ++ weave inj g o t.
Proof.
  intros H0 H. destruct t as [|c r]; cbn; rewrite H0, <- app_assoc; [reflexivity|].
  do 2 f_equal. f_equal. apply weave_ext. intros k Hk. apply H; lia.
Qed.

Definition at_ofs (file : text) (p : line_column) (o : nat) : bool :=
  match char_offset file p with Some x => x =? o | None => false end.


Lemma char_offset_inj file p q o : char_offset file p = Some o -> char_offset file q = Some o -> p = q.
Proof.
  intros Hp Hq. apply char_offset_iff in Hp as [_ Hp], Hq as [_ Hq]. congruence.
Qed.

Lemma char_offset_lt file p q a b :
  char_offset file p = Some a -> char_offset file q = Some b -> (a < b <-> lc_lt p q).
Proof.
  assert (H : forall p q a b, char_offset file p = Some a -> char_offset file q = Some b -> a < b -> lc_lt p q).
  { intros p' q' a' b' Hp Hq L. apply char_offset_iff in Hp as [Ha Hp], Hq as [Hb Hq]. subst p' q'.
    replace (firstn b' file) with (firstn a' file ++ slice file a' b').
    2:{ apply slices; lia. }
    unfold pos. rewrite advance_app. apply advance_lt.
    intros E. apply (f_equal (@length _)) in E. unfold slice in E.
    rewrite firstn_length, skipn_length in E. cbn in E. lia. }
  intros Hp Hq. split; [eapply H; eassumption|].
  intros L. destruct (Nat.lt_trichotomy a b) as [T|[T|T]]; [exact T| |].
  - subst b. rewrite (char_offset_inj _ _ _ _ Hp Hq) in L. unfold lc_lt in L; lia.
  - specialize (H _ _ _ _ Hq Hp T). unfold lc_lt in *; lia.
Qed.

(** ** The insertion map *)

Definition ins_of {A} (file : text) (m : list (line_column * list (list A))) (o : nat) : list A :=
  flat_map (fun e => if at_ofs file (fst e) o then concat (snd e) else []) m.

Definition valid_key (file : text) (p : line_column) := exists o, char_offset file p = Some o.

Definition map_ok {A} (file : text) (m : list (line_column * A)) : Prop :=
  StronglySorted (fun a b => lc_lt (fst a) (fst b)) m /\ Forall (fun e => valid_key file (fst e)) m.

Lemma at_ofs_true file p o : at_ofs file p o = true <-> char_offset file p = Some o.
Proof.
  unfold at_ofs. destruct (char_offset file p) as [x|]; [|split; discriminate].
  rewrite Nat.eqb_eq. split; congruence.
Qed.

Lemma at_ofs_lt file p q o : valid_key file q -> lc_lt p q -> at_ofs file p o = true -> at_ofs file q o = false.
Proof.
  intros [x Hx] L H. apply at_ofs_true in H.
  destruct (at_ofs file q o) eqn:E; [|reflexivity]. apply at_ofs_true in E.
  rewrite (char_offset_inj _ _ _ _ H E) in L. unfold lc_lt in L; lia.
Qed.

Lemma map_push_keys {V} k (v : V) m e : In e (map_push k v m) ->
  fst e = k \/ exists vs, In (fst e, vs) m.
Proof.
  induction m as [|[k' vs] m IH]; cbn.
  - intros [<-|[]]; now left.
  - pose proof (lc_compare_spec k k') as S. destruct (lc_compare k k'); cbn.
    + intros [<-|H]; [now left|]. right. exists (snd e). right. destruct e; exact H.
    + intros [<-|[<-|H]]; [now left| |].
      * right. exists vs. now left.
      * right. exists (snd e). right. destruct e; exact H.
    + intros [<-|H]; [right; exists vs; now left|].
      destruct (IH H) as [->|[w Hw]]; [now left|right; exists w; now right].
Qed.

Lemma map_push_ok {V} file k (v : V) m : valid_key file k -> map_ok file m -> map_ok file (map_push k v m).
Proof.
  intros Hk [S V']. split.
  - induction m as [|[k' vs] m IH]; cbn.
    + repeat constructor.
    + inversion S as [|? ? S1 S2]; subst. inversion V' as [|? ? V1 V2]; subst.
      pose proof (lc_compare_spec k k') as C. destruct (lc_compare k k').
      * subst k'. constructor; [exact S1|exact S2].
      * constructor; [constructor; assumption|]. constructor; [exact C|].
        rewrite Forall_forall in *. intros x Hx. eapply lc_lt_trans; [exact C|]. exact (S2 x Hx).
      * constructor; [apply IH; assumption|]. rewrite Forall_forall in *. intros x Hx.
        destruct (map_push_keys _ _ _ _ Hx) as [E|[w Hw]]; cbn in *.
        -- rewrite E. exact C.
        -- exact (S2 _ Hw).
  - rewrite Forall_forall in *. intros x Hx.
    destruct (map_push_keys _ _ _ _ Hx) as [->|[w Hw]]; [exact Hk|]. exact (V' _ Hw).
Qed.

Lemma ins_of_gt {A} file k (m : list (line_column * list (list A))) o :
  Forall (fun e => lc_lt k (fst e)) m -> Forall (fun e => valid_key file (fst e)) m ->
  at_ofs file k o = true -> ins_of file m o = [].
Proof.
  intros H1 H2 H. unfold ins_of. induction m as [|[k' vs] m IH]; [reflexivity|].
  inversion H1; inversion H2; subst. cbn in *. rewrite (at_ofs_lt file k k' o); auto.
Qed.

Lemma map_push_ins {A} file k (v : list A) m o : valid_key file k -> map_ok file m ->
  ins_of file (map_push k v m) o = ins_of file m o ++ (if at_ofs file k o then v else []).
Proof.
  intros Hk [S V]. induction m as [|[k' vs] m IH]; cbn.
  - rewrite !app_nil_r. destruct (at_ofs file k o); reflexivity.
  - inversion S as [|? ? S1 S2]; subst. inversion V as [|? ? V1 V2]; subst. cbn in *.
    pose proof (lc_compare_spec k k') as C. destruct (lc_compare k k'); cbn.
    + subst k'. destruct (at_ofs file k o) eqn:E.
      * fold (ins_of file m o). rewrite (ins_of_gt file k m o); auto.
        rewrite concat_app. cbn. now rewrite !app_nil_r.
      * now rewrite !app_nil_r.
    + destruct (at_ofs file k o) eqn:E.
      * rewrite (at_ofs_lt file k k' o); auto. cbn. fold (ins_of file m o).
        rewrite (ins_of_gt file k m o); auto; [cbn; now rewrite !app_nil_r|].
        rewrite Forall_forall in *. intros x Hx. eapply lc_lt_trans; [exact C|exact (S2 x Hx)].
      * cbn. now rewrite app_nil_r.
    + fold (ins_of file (map_push k v m) o). fold (ins_of file m o). rewrite IH by assumption.
      now rewrite app_assoc.
Qed.

Definition ins_spans {A} (file : text) (prefix : span -> list A) (suffix : list A)
  (spans : list span) (o : nat) : list A :=
  flat_map (fun s => (if at_ofs file (sp_start s) o then prefix s else []) ++
                     (if at_ofs file (sp_end s) o then suffix else [])) spans.

Lemma insertion_map_spec {A} file (prefix : span -> list A) suffix spans : forall m,
  map_ok file m -> Forall (fun s => valid_key file (sp_start s) /\ valid_key file (sp_end s)) spans ->
  map_ok file (insertion_map prefix suffix spans m) /\
  (forall o, ins_of file (insertion_map prefix suffix spans m) o
             = ins_of file m o ++ ins_spans file prefix suffix spans o) /\
  (forall e, In e (insertion_map prefix suffix spans m) ->
     (exists vs, In (fst e, vs) m) \/ exists s, In s spans /\ (fst e = sp_start s \/ fst e = sp_end s)).
Proof.
  induction spans as [|s r IH]; intros m Hm Hs; cbn [insertion_map].
  - split; [exact Hm|]. split; [intros; cbn; now rewrite app_nil_r|].
    intros e He. left. exists (snd e). destruct e; exact He.
  - inversion Hs as [|? ? [K1 K2] Hr]; subst.
    pose proof (map_push_ok file _ (prefix s) m K1 Hm) as M1.
    pose proof (map_push_ok file _ suffix _ K2 M1) as M2.
    destruct (IH _ M2 Hr) as (I1 & I2 & I3). split; [exact I1|]. split.
    + intros o. rewrite I2, map_push_ins, map_push_ins by assumption.
      cbn. now rewrite <- !app_assoc.
    + intros e He. destruct (I3 e He) as [[vs H]|(s' & H1 & H2)].
      * destruct (map_push_keys _ _ _ _ H) as [E|[w Hw]]; cbn in *; [right; exists s; tauto|].
        destruct (map_push_keys _ _ _ _ Hw) as [E|[w' Hw']]; cbn in *; [right; exists s; tauto|].
        left. exists w'. exact Hw'.
      * right. exists s'. split; [now right|exact H2].
Qed.

(** ** The rewriter loop *)

Lemma skipn_add {A} (l : list A) : forall a b, skipn b (skipn a l) = skipn (a + b) l.
Proof.
  induction l as [|x l IH]; intros a b; [now rewrite !skipn_nil|].
  destruct a; cbn; [reflexivity|apply IH].
Qed.

Lemma skipn_slice (file : text) a o : a <= o -> o <= length file ->
  skipn a file = slice file a o ++ skipn o file.
Proof.
  intros H1 H2. unfold slice. rewrite <- (firstn_skipn (o - a) (skipn a file)) at 1.
  f_equal. rewrite skipn_add. f_equal; lia.
Qed.

Lemma slice_length (file : text) a o : a <= o -> o <= length file -> length (slice file a o) = o - a.
Proof. intros. unfold slice. rewrite firstn_length, skipn_length. lia. Qed.

Lemma insert_all_spec {A} (inj : char -> A) file p o vs : forall r,
  char_offset file p = Some o -> rw_original r = file -> rw_at r <= o -> vs <> [] ->
  exists r', insert_all inj r p vs = Some r' /\ rw_original r' = file /\ rw_at r' = o /\
    rw_out r' = rw_out r ++ map inj (slice file (rw_at r) o) ++ concat vs.
Proof.
  induction vs as [|v vs IH]; intros r Hp Ho Ha Hv; [congruence|].
  cbn [insert_all]. unfold sf_insert, rw_rewrite. rewrite Ho, Hp.
  destruct (Nat.leb_spec (rw_at r) o); [|lia]. rewrite Nat.leb_refl. cbn [andb].
  destruct vs as [|w vs].
  - eexists. split; [reflexivity|]. cbn. rewrite app_nil_r. auto.
  - edestruct IH as (r' & E & E1 & E2 & E3); cycle 4.
    + exists r'. split; [exact E|]. split; [exact E1|]. split; [exact E2|].
      rewrite E3. cbn [rw_out rw_at]. unfold slice at 2. rewrite Nat.sub_diag. cbn.
      now rewrite <- !app_assoc.
    + exact Hp.
    + reflexivity.
    + cbn; lia.
    + discriminate.
Qed.

Lemma apply_map_spec {A} (inj : char -> A) file m : forall r,
  map_ok file m -> Forall (fun e => snd e <> []) m ->
  rw_original r = file -> rw_at r <= length file ->
  (forall e o, In e m -> char_offset file (fst e) = Some o -> rw_at r <= o) ->
  exists r', apply_map inj r m = Some r' /\
    rw_contents inj r' = rw_out r ++ weave inj (ins_of file m) (rw_at r) (skipn (rw_at r) file).
Proof.
  induction m as [|[p vs] m IH]; intros r [S V] Hn Ho Hl Ha; cbn [apply_map].
  - exists r. split; [reflexivity|]. unfold rw_contents. rewrite Ho. f_equal.
    symmetry. apply weave_nil. reflexivity.
  - inversion S as [|? ? S1 S2]; subst. inversion V as [|? ? V1 V2]; subst. inversion Hn; subst.
    destruct V1 as [o Hp]. cbn in Hp.
    assert (Hao : rw_at r <= o) by (apply (Ha (p, vs) o); [now left|exact Hp]).
    assert (Hol : o <= length (rw_original r)) by (apply char_offset_iff in Hp; tauto).
    destruct (insert_all_spec inj _ p o vs r Hp eq_refl Hao H1) as (r1 & E & E1 & E2 & E3).
    rewrite E. destruct (IH r1) as (r' & F1 & F2); try assumption.
    { split; assumption. }
    { now rewrite E2. }
    { intros e o' He Hoff. rewrite E2. rewrite Forall_forall in S2. specialize (S2 e He). cbn in S2.
      apply (char_offset_lt _ _ _ _ _ Hp Hoff) in S2. lia. }
    exists r'. split; [exact F1|]. rewrite F2, E3, E2.
    rewrite (skipn_slice (rw_original r) (rw_at r) o Hao Hol).
    rewrite weave_app; rewrite ?slice_length by assumption.
    + replace (rw_at r + (o - rw_at r)) with o by lia.
      rewrite <- !app_assoc. f_equal. f_equal. symmetry. apply weave_head.
      * cbn. replace (at_ofs (rw_original r) p o) with true by (symmetry; now apply at_ofs_true). reflexivity.
      * intros k Hk. cbn. replace (at_ofs (rw_original r) p k) with false; [reflexivity|].
        symmetry. unfold at_ofs. rewrite Hp. apply Nat.eqb_neq. lia.
    + intros k Hk. unfold ins_of.
      assert (G : forall e, In e ((p, vs) :: m) -> at_ofs (rw_original r) (fst e) k = false).
      { intros e He. destruct (at_ofs (rw_original r) (fst e) k) eqn:B; [|reflexivity].
        apply at_ofs_true in B. exfalso. destruct He as [<-|He].
        - cbn in B. rewrite Hp in B. injection B as B. lia.
        - rewrite Forall_forall in S2. specialize (S2 e He). cbn in S2.
          apply (char_offset_lt _ _ _ _ _ Hp B) in S2. lia. }
      clear - G. induction ((p, vs) :: m) as [|e l IHl]; [reflexivity|].
      cbn. rewrite G by now left. cbn. apply IHl. intros; apply G; now right.
Qed.

(** ** The meaning of the woven text *)

Section Meaning.
Context (so eo : span -> nat) (id : span -> text) (env : text).

Definition off (s : span) : bool := text_eqb (id s) env.
Definition sins (spans : list span) (o : nat) : list sym :=
  flat_map (fun s => (if so s =? o then [Guard (id s)] else []) ++ (if eo s =? o then [End] else [])) spans.
Definition covered (spans : list span) (o : nat) : bool :=
  existsb (fun s => (so s <=? o) && (o <? eo s) && off s) spans.
Fixpoint keep (spans : list span) (o : nat) (t : text) : text :=
  match t with
  | [] => []
  | c :: r => if covered spans o then keep spans (S o) r else c :: keep spans (S o) r
  end.

Context (spans : list span).
Hypothesis Hne : forall s, In s spans -> so s < eo s.
Hypothesis Hasc : StronglySorted (fun a b => so a < so b) spans.
Hypothesis Hlam : forall a b, In a spans -> In b spans -> so a < so b -> eo a <= so b \/ eo b <= eo a.

Lemma sins_shape o l :
  (forall s, In s l -> so s < eo s) -> StronglySorted (fun a b => so a < so b) l ->
  sins l o = repeat End (length (filter (fun s => eo s =? o) l))
             ++ map (fun s => Guard (id s)) (filter (fun s => so s =? o) l).
Proof.
  intros Hn Ha. induction l as [|a l IH]; [reflexivity|].
  inversion Ha as [|? ? A1 A2]; subst. cbn [sins flat_map filter].
  fold (sins l o). rewrite IH by (auto; intros; apply Hn; now right).
  destruct (Nat.eqb_spec (so a) o) as [E|E].
  - destruct (Nat.eqb_spec (eo a) o) as [F|F].
    { specialize (Hn a (or_introl eq_refl)). lia. }
    assert (N : filter (fun s => eo s =? o) l = []).
    { clear IH Ha A1. assert (G : forall s, In s l -> o < eo s).
      { intros s Hs. rewrite Forall_forall in A2. specialize (A2 s Hs).
        specialize (Hn s (or_intror Hs)). lia. }
      clear A2 Hn. induction l as [|s l IH]; [reflexivity|]. cbn.
      destruct (Nat.eqb_spec (eo s) o) as [K|K]; [specialize (G s (or_introl eq_refl)); lia|].
      apply IH. intros; apply G; now right. }
    rewrite N. reflexivity.
  - destruct (Nat.eqb_spec (eo a) o) as [F|F]; reflexivity.
Qed.

Lemma starts_le_one o l : StronglySorted (fun a b => so a < so b) l ->
  filter (fun s => so s =? o) l = [] \/ exists s, In s l /\ so s = o /\ filter (fun s => so s =? o) l = [s].
Proof.
  intros Ha. induction l as [|a l IH]; [now left|]. inversion Ha as [|? ? A1 A2]; subst. cbn.
  destruct (Nat.eqb_spec (so a) o) as [E|E].
  - right. exists a. split; [now left|]. split; [exact E|]. f_equal.
    clear - A2 E. induction l as [|s l IH]; [reflexivity|]. inversion A2; subst. cbn.
    destruct (Nat.eqb_spec (so s) (so a)); [lia|]. apply IH. assumption.
  - destruct (IH A1) as [H|(s & H1 & H2 & H3)]; [now left|right].
    exists s. split; [now right|]. auto.
Qed.

(** Invariant: the stack holds the open candidates, innermost (smallest end) on top. *)
Definition open_at (o : nat) (st : list span) : Prop :=
  NoDup st /\ StronglySorted (fun a b => eo a <= eo b) st /\
  forall s, In s st <-> In s spans /\ so s < o /\ o <= eo s.

Lemma spans_nodup : NoDup spans.
Proof.
  clear Hne Hlam. induction spans as [|a l IH]; [constructor|].
  inversion Hasc as [|? ? A1 A2]; subst. constructor; [|auto].
  intros H. rewrite Forall_forall in A2. specialize (A2 a H). lia.
Qed.

Lemma sorted_split o st : StronglySorted (fun a b => eo a <= eo b) st -> (forall s, In s st -> o <= eo s) ->
  exists a b, st = a ++ b /\ a = filter (fun s => eo s =? o) st /\ (forall s, In s b -> o < eo s) /\
              (forall s, In s a -> eo s = o) /\ StronglySorted (fun a b => eo a <= eo b) b.
Proof.
  induction st as [|x st IH]; intros Hs Hg.
  - exists [], []. repeat split; try constructor; intros s [].
  - inversion Hs as [|? ? S1 S2]; subst. cbn. destruct (Nat.eqb_spec (eo x) o) as [E|E].
    + destruct IH as (a & b & E1 & E2 & E3 & E4 & E5); [exact S1|intros; apply Hg; now right|].
      exists (x :: a), b. rewrite <- E2, E1. repeat split; auto.
      intros s [<-|H]; auto.
    + exists [], (x :: st). repeat split; auto.
      * assert (G : forall s, In s st -> o < eo s).
        { intros s H. rewrite Forall_forall in S2. specialize (S2 s H).
          specialize (Hg x (or_introl eq_refl)). lia. }
        clear - G. induction st as [|y st IH]; [reflexivity|]. cbn.
        destruct (Nat.eqb_spec (eo y) o) as [K|K]; [specialize (G y (or_introl eq_refl)); lia|].
        apply IH. intros; apply G; now right.
      * intros s [<-|H].
        -- specialize (Hg x (or_introl eq_refl)). lia.
        -- rewrite Forall_forall in S2. specialize (S2 s H). specialize (Hg x (or_introl eq_refl)). lia.
      * intros s [].
Qed.

Lemma eval_ends a : forall (st : list bool) k rest,
  length a = k -> eval env (map off a ++ st) (repeat End k ++ rest) = eval env st rest.
Proof.
  induction a as [|x a IH]; intros st k rest H; cbn in H; subst k; [reflexivity|].
  cbn. now apply IH.
Qed.

Lemma NoDup_app_r {A} (a b : list A) : NoDup (a ++ b) -> NoDup b.
Proof. induction a as [|x a IH]; cbn; [auto|]. intros H. inversion H; auto. Qed.

Lemma step_ins o st rest : open_at o st ->
  exists st', open_at (S o) st' /\
    eval env (map off st) (sins spans o ++ rest) = eval env (map off st') rest.
Proof.
  intros (N & S & M). rewrite sins_shape by assumption.
  destruct (sorted_split o st S) as (a & b & E1 & E2 & E3 & E4 & E5).
  { intros s Hs. apply M in Hs. tauto. }
  assert (La : length a = length (filter (fun s => eo s =? o) spans)).
  { rewrite E2. apply Permutation_length. apply NoDup_Permutation.
    - apply NoDup_filter, N.
    - apply NoDup_filter, spans_nodup.
    - intros s. rewrite !filter_In, M, Nat.eqb_eq. split; [tauto|].
      intros [H1 H2]. pose proof (Hne s H1). split; [|exact H2]. split; [exact H1|]. lia. }
  rewrite <- app_assoc. rewrite E1, map_app, eval_ends by exact La.
  assert (Nb : NoDup b) by (rewrite E1 in N; eapply NoDup_app_r; exact N).
  assert (Mb : forall s, In s b <-> In s spans /\ so s < o /\ o < eo s).
  { intros s. split.
    - intros Hs. assert (Hs' : In s st) by (rewrite E1; apply in_or_app; now right).
      apply M in Hs'. pose proof (E3 s Hs). tauto.
    - intros (H1 & H2 & H3). assert (Hs : In s st) by (apply M; repeat split; [exact H1|exact H2|lia]).
      rewrite E1 in Hs. apply in_app_or in Hs as [Hs|Hs]; [|exact Hs]. pose proof (E4 s Hs). lia. }
  destruct (starts_le_one o spans Hasc) as [F|(s & F1 & F2 & F3)].
  - rewrite F. cbn. exists b. split; [|reflexivity]. split; [exact Nb|]. split; [exact E5|].
    intros s. rewrite Mb. split; [intros (H1 & H2 & H3); repeat split; auto; lia|].
    intros (H1 & H2 & H3). split; [exact H1|]. split; [|lia].
    destruct (Nat.eq_dec (so s) o) as [K|K]; [|lia].
    assert (X : In s (filter (fun s => so s =? o) spans)) by (apply filter_In; split; [exact H1|now apply Nat.eqb_eq]).
    rewrite F in X. destruct X.
  - rewrite F3. cbn. exists (s :: b). split; [|reflexivity]. split; [|split].
    + constructor; [|exact Nb]. rewrite Mb. lia.
    + constructor; [exact E5|]. apply Forall_forall. intros x Hx. apply Mb in Hx as (H1 & H2 & H3).
      destruct (Hlam x s H1 F1); lia.
    + intros x. cbn. rewrite Mb. split.
      * intros [<-|(H1 & H2 & H3)]; [pose proof (Hne s F1)|]; repeat split; auto; lia.
      * intros (H1 & H2 & H3). destruct (Nat.eq_dec (so x) o) as [K|K].
        -- left. assert (X : In x (filter (fun s => so s =? o) spans)) by (apply filter_In; split; [exact H1|now apply Nat.eqb_eq]).
           rewrite F3 in X. destruct X as [X|[]]; exact X.
        -- right. repeat split; auto; lia.
Qed.

Lemma existsb_open o st : open_at (S o) st -> existsb (fun b => b) (map off st) = covered spans o.
Proof.
  intros (_ & _ & M). apply eq_true_iff_eq. unfold covered.
  rewrite !existsb_exists. split.
  - intros (x & H1 & H2). subst x. apply in_map_iff in H1 as (s & H3 & H4).
    apply M in H4 as (H4 & H5 & H6). exists s. split; [exact H4|]. rewrite H3.
    rewrite !andb_true_iff, Nat.leb_le, Nat.ltb_lt. repeat split; lia.
  - intros (s & H1 & H2). rewrite !andb_true_iff, Nat.leb_le, Nat.ltb_lt in H2.
    destruct H2 as ((H2 & H3) & H4). exists true. split; [|reflexivity].
    apply in_map_iff. exists s. split; [exact H4|]. apply M. repeat split; auto; lia.
Qed.

Lemma eval_weave t : forall o st, open_at o st -> (forall s, In s spans -> eo s <= o + length t) ->
  eval env (map off st) (weave Ch (sins spans) o t) = Some (keep spans o t).
Proof.
  induction t as [|c r IH]; intros o st Ho Hend; cbn [weave keep].
  - destruct (step_ins o st [] Ho) as (st' & Ho' & ->).
    destruct st' as [|s st']; [reflexivity|]. exfalso.
    destruct Ho' as (_ & _ & M). destruct (M s) as [M1 _].
    destruct (M1 (or_introl eq_refl)) as (H1 & H2 & H3). specialize (Hend s H1). cbn in Hend. lia.
  - destruct (step_ins o st (Ch c :: weave Ch (sins spans) (S o) r) Ho) as (st' & Ho' & ->).
    cbn [eval]. rewrite IH; [|exact Ho'|intros s Hs; specialize (Hend s Hs); cbn in Hend; lia].
    rewrite (existsb_open o st' Ho'). destruct (covered spans o); reflexivity.
Qed.

End Meaning.

Lemma keep_none so eo id env spans t : (forall s, In s spans -> id s <> env) ->
  forall o, keep so eo id env spans o t = t.
Proof.
  intros H. assert (C : forall o, covered so eo id env spans o = false).
  { intros o. unfold covered. destruct (existsb _ spans) eqn:E; [|reflexivity].
    apply existsb_exists in E as (s & H1 & H2). apply andb_true_iff in H2 as [_ H2].
    apply text_eqb_eq in H2. exfalso. exact (H s H1 H2). }
  induction t as [|c r IH]; intros o; cbn; [reflexivity|]. rewrite C. f_equal. apply IH.
Qed.

Lemma keep_outside so eo id env spans t : forall o,
  (forall k, o <= k < o + length t -> covered so eo id env spans k = false) ->
  keep so eo id env spans o t = t.
Proof.
  induction t as [|c r IH]; intros o H; cbn; [reflexivity|].
  rewrite H by (cbn; lia). f_equal. apply IH. intros; apply H; cbn; lia.
Qed.

Lemma keep_inside so eo id env spans t : forall o,
  (forall k, o <= k < o + length t -> covered so eo id env spans k = true) ->
  keep so eo id env spans o t = [].
Proof.
  induction t as [|c r IH]; intros o H; cbn; [reflexivity|].
  rewrite H by (cbn; lia). apply IH. intros; apply H; cbn; lia.
Qed.

Lemma keep_app so eo id env spans a b : forall o,
  keep so eo id env spans o (a ++ b) = keep so eo id env spans o a ++ keep so eo id env spans (o + length a) b.
Proof.
  induction a as [|c r IH]; intros o; cbn; [now rewrite Nat.add_0_r|].
  rewrite IH. replace (S o + length r) with (o + S (length r)) by lia.
  destruct (covered so eo id env spans o); reflexivity.
Qed.

(** ** Putting it together *)

Definition ofs (file : text) (p : line_column) : nat :=
  match char_offset file p with Some o => o | None => 0 end.

Definition instrument_sym (hash16 : text -> text) (extra : option (line_column * text))
  (contents : text) (spans : list span) : option (list sym) :=
  instrument Ch (option_map (fun e => (fst e, [Extra (snd e)])) extra)
    (fun s => [Guard (span_id hash16 s)]) [End] contents spans.

Definition extra_ok (file : text) (extra : option (line_column * text)) (spans : list span) : Prop :=
  match extra with
  | None => True
  | Some (p, _) => valid_key file p /\ forall s, In s spans -> lc_le p (sp_start s)
  end.

Lemma layout_spec file spans : layout file spans ->
  Forall (fun s => valid_key file (sp_start s) /\ valid_key file (sp_end s)) spans /\
  (forall s, In s spans -> ofs file (sp_start s) < ofs file (sp_end s) /\ ofs file (sp_end s) <= length file) /\
  StronglySorted (fun a b => ofs file (sp_start a) < ofs file (sp_start b)) spans /\
  (forall a b, In a spans -> In b spans -> ofs file (sp_start a) < ofs file (sp_start b) ->
     ofs file (sp_end a) <= ofs file (sp_start b) \/ ofs file (sp_end b) <= ofs file (sp_end a)).
Proof.
  intros (L1 & L2 & L3).
  assert (K : forall s, In s spans -> valid_key file (sp_start s) /\ valid_key file (sp_end s)).
  { intros s Hs. destruct (L1 s Hs) as (b & m & a & B & _).
    destruct (between_char_offsets _ _ _ _ _ _ B) as [B1 B2]. split; eexists; eassumption. }
  assert (O : forall p, valid_key file p -> char_offset file p = Some (ofs file p)).
  { intros p [o H]. unfold ofs. now rewrite H. }
  assert (LT : forall p q, valid_key file p -> valid_key file q -> lc_lt p q -> ofs file p < ofs file q).
  { intros p q Hp Hq L. apply (char_offset_lt _ _ _ _ _ (O p Hp) (O q Hq)). exact L. }
  assert (LE : forall p q, valid_key file p -> valid_key file q -> lc_le p q -> ofs file p <= ofs file q).
  { intros p q Hp Hq [->|L]; [lia|]. specialize (LT p q Hp Hq L). lia. }
  assert (SS : StronglySorted (fun a b => lc_lt (sp_start a) (sp_start b)) spans).
  { clear - L2. revert L2. induction spans as [|x l IH]; intros L2; [constructor|]. constructor.
    - apply IH. intros l1 a l2 b l3 E. apply (L2 (x :: l1) a l2 b l3). rewrite E. reflexivity.
    - apply Forall_forall. intros y Hy. apply in_split in Hy as (l2 & l3 & ->).
      apply (L2 [] x l2 y l3). reflexivity. }
  split; [apply Forall_forall; exact K|]. split; [|split].
  - intros s Hs. destruct (L1 s Hs) as (b & m & a & B & Hm).
    destruct (between_char_offsets _ _ _ _ _ _ B) as [B1 B2]. unfold ofs. rewrite B1, B2.
    destruct B as (E & _). subst file. rewrite !app_length. destruct m; [congruence|cbn; lia].
  - assert (G : forall l, (forall s, In s l -> In s spans) ->
      StronglySorted (fun a b => lc_lt (sp_start a) (sp_start b)) l ->
      StronglySorted (fun a b => ofs file (sp_start a) < ofs file (sp_start b)) l).
    { induction l as [|x l IH]; intros Hi Hs; [constructor|]. inversion Hs as [|? ? S1 S2]; subst.
      constructor; [apply IH; [intros; apply Hi; now right|exact S1]|].
      rewrite Forall_forall in *. intros y Hy. apply LT; [apply K, Hi; now left|apply K, Hi; now right|].
      apply S2, Hy. }
    apply G; auto.
  - intros a b Ha Hb Hab.
    assert (P : exists l1 l2 l3, spans = l1 ++ a :: l2 ++ b :: l3).
    { apply in_split in Ha as (l1 & l2 & E). rewrite E in Hb.
      apply in_app_or in Hb as [Hb|[Hb|Hb]].
      - exfalso. apply in_split in Hb as (k1 & k2 & ->).
        assert (X : lc_lt (sp_start b) (sp_start a)).
        { apply (L2 k1 b k2 a l2). rewrite E, <- app_assoc. reflexivity. }
        assert (Y : In a spans) by (rewrite E; apply in_or_app; right; now left).
        assert (Z : In b spans) by (rewrite E; apply in_or_app; left; apply in_or_app; right; now left).
        apply LT in X; [lia|apply K, Z|apply K, Y].
      - subst b. lia.
      - apply in_split in Hb as (k1 & k2 & ->). exists l1, k1, k2. exact E. }
    destruct P as (l1 & l2 & l3 & P). destruct (L3 _ _ _ _ _ P) as [X|X].
    + left. apply LE; [apply K, Ha|apply K, Hb|exact X].
    + right. apply LE; [apply K, Hb|apply K, Ha|exact X].
Qed.

Lemma map_push_nonnil {V} k (v : V) m : Forall (fun e => snd e <> []) m ->
  Forall (fun e => snd e <> []) (map_push k v m).
Proof.
  induction m as [|[k' vs] m IH]; intros H; cbn.
  - constructor; [discriminate|constructor].
  - inversion H as [|? ? H1 H2]; subst. destruct (lc_compare k k').
    + constructor; [|exact H2]. cbn. intros E. apply app_eq_nil in E as [_ E]. discriminate.
    + constructor; [discriminate|exact H].
    + constructor; [exact H1|]. apply IH. exact H2.
Qed.

Lemma insertion_map_nonnil {A} (prefix : span -> list A) suffix spans : forall m,
  Forall (fun e => snd e <> []) m -> Forall (fun e => snd e <> []) (insertion_map prefix suffix spans m).
Proof.
  induction spans as [|s r IH]; intros m H; cbn; [exact H|].
  apply IH. now do 2 apply map_push_nonnil.
Qed.

Lemma instrument_weave {A} (inj : char -> A) extra prefix suffix file spans :
  layout file spans ->
  match extra with
  | None => True
  | Some (p, _) => valid_key file p /\ forall s, In s spans -> lc_le p (sp_start s)
  end ->
  instrument inj extra prefix suffix file spans =
  Some (match extra with
        | None => weave inj (ins_spans file prefix suffix spans) 0 file
        | Some (p, t) => map inj (firstn (ofs file p) file) ++ t
                         ++ weave inj (ins_spans file prefix suffix spans) (ofs file p) (skipn (ofs file p) file)
        end).
Proof.
  intros L X. destruct (layout_spec _ _ L) as (L1 & L2 & L3 & L4).
  destruct (insertion_map_spec file prefix suffix spans []) as (I1 & I2 & I3);
    [split; constructor|exact L1|].
  pose proof (insertion_map_nonnil prefix suffix spans [] (Forall_nil _)) as I4.
  unfold instrument. destruct extra as [[p t]|].
  - destruct X as [[o Hp] X]. unfold sf_insert, rw_rewrite. cbn [rw_original rw_new rw_at].
    rewrite Hp, Nat.leb_refl. cbn [Nat.leb andb].
    assert (Hol : o <= length file) by (apply char_offset_iff in Hp; tauto).
    match goal with |- context [apply_map inj ?r ?m] =>
      destruct (apply_map_spec inj file m r) as (r' & E1 & E2) end; try assumption.
    + reflexivity.
    + intros e k He Hk. cbn [rw_at].
      destruct (I3 e He) as [[vs []]|(s & Hs & Hes)].
      assert (Q : lc_le p (fst e)).
      { destruct Hes as [->| ->]; [exact (X s Hs)|].
        destruct (proj1 L s Hs) as (b & m & a & (B0 & B1 & B2) & Hm).
        assert (Y : lc_lt (sp_start s) (sp_end s)).
        { rewrite <- B1, <- B2. unfold pos. rewrite advance_app. now apply advance_lt. }
        destruct (X s Hs) as [->|Z]; [right; exact Y|right; eapply lc_lt_trans; eassumption]. }
      destruct Q as [Q|Q].
      * rewrite <- Q, Hp in Hk. injection Hk as ->. lia.
      * apply (char_offset_lt _ _ _ _ _ Hp Hk) in Q. lia.
    + rewrite E1, E2. f_equal. cbn [rw_out rw_at rw_new app]. unfold ofs. rewrite Hp.
      rewrite slice_0, <- !app_assoc. f_equal. f_equal.
      apply weave_ext. intros k _. apply I2.
  - match goal with |- context [apply_map inj ?r ?m] =>
      destruct (apply_map_spec inj file m r) as (r' & E1 & E2) end; try assumption.
    + reflexivity.
    + cbn; lia.
    + intros e k He Hk. cbn; lia.
    + rewrite E1, E2. f_equal. cbn [rw_out rw_at rw_new app skipn]. apply weave_ext. intros k _. apply I2.
Qed.

(** Running the algorithm on characters is running it on symbols and rendering. *)
Lemma render_app l a b : render l (a ++ b) = render l a ++ render l b.
Proof. apply flat_map_app. Qed.

Lemma render_ch l t : render l (map Ch t) = t.
Proof. induction t as [|c r IH]; cbn; [reflexivity|]. unfold render in IH. now rewrite IH. Qed.

Lemma render_weave l f g t : forall o, (forall k, f k = render l (g k)) ->
  weave (fun c => c) f o t = render l (weave Ch g o t).
Proof.
  induction t as [|c r IH]; intros o H; cbn [weave]; rewrite render_app, H.
  - reflexivity.
  - f_equal. cbn. f_equal. apply IH, H.
Qed.

Lemma guard_written l id : guard_text l id = opening l (not_removing id).
Proof. destruct l; cbn; repeat (rewrite <- ?app_assoc; cbn); reflexivity. Qed.
Lemma not_removing_holds id vars : holds vars (not_removing id) <-> vars (s2t "NECESSIST_REMOVAL"%string) <> id.
Proof. reflexivity. Qed.
Lemma render_guard l id : render l [Guard id] = guard_text l id.
Proof. unfold render. cbn [flat_map render1]. now rewrite guard_written, app_nil_r. Qed.
Lemma render_end l : render l [End] = end_text.
Proof. reflexivity. Qed.

Lemma ins_spans_render hash16 l file spans o :
  ins_spans file (fun s => guard_text l (span_id hash16 s)) end_text spans o =
  render l (ins_spans file (fun s => [Guard (span_id hash16 s)]) [End] spans o).
Proof.
  induction spans as [|s r IH]; [reflexivity|]. cbn [ins_spans flat_map].
  rewrite render_app. f_equal; [|exact IH].
  rewrite render_app. f_equal.
  - destruct (at_ofs file (sp_start s) o); [now rewrite render_guard|reflexivity].
  - destruct (at_ofs file (sp_end s) o); [now rewrite render_end|reflexivity].
Qed.

Lemma map_id_text (t : text) : map (fun c => c) t = t.
Proof. apply map_id. Qed.

Lemma instrument_render hash16 l extra file spans : layout file spans -> extra_ok file extra spans ->
  exists xs, instrument_sym hash16 extra file spans = Some xs /\
             instrument_text hash16 l extra file spans = Some (render l xs).
Proof.
  intros L X. unfold instrument_sym, instrument_text.
  rewrite (instrument_weave (fun c => c)); [|exact L|exact X].
  rewrite (instrument_weave Ch); [|exact L|destruct extra as [[p t]|]; exact X].
  destruct extra as [[p t]|]; cbn; eexists; (split; [reflexivity|]); f_equal.
  - rewrite !render_app, render_ch, map_id_text. f_equal.
    cbn. f_equal. apply render_weave. intros k. apply ins_spans_render.
  - apply render_weave. intros k. apply ins_spans_render.
Qed.

(** Source characters are untouched. *)
Lemma chars_of_app a b : chars_of (a ++ b) = chars_of a ++ chars_of b.
Proof. induction a as [|x a IH]; cbn; [reflexivity|]. destruct x; cbn; now rewrite IH. Qed.

Lemma chars_of_ins file hash16 spans o :
  chars_of (ins_spans file (fun s => [Guard (span_id hash16 s)]) [End] spans o) = [].
Proof.
  induction spans as [|s r IH]; [reflexivity|]. cbn [ins_spans flat_map].
  rewrite !chars_of_app. destruct (at_ofs file (sp_start s) o), (at_ofs file (sp_end s) o); cbn; exact IH.
Qed.

Lemma chars_of_ch t : chars_of (map Ch t) = t.
Proof. induction t as [|c r IH]; cbn; [reflexivity|now rewrite IH]. Qed.

Lemma chars_of_weave f t : forall o, (forall k, chars_of (f k) = []) -> chars_of (weave Ch f o t) = t.
Proof.
  induction t as [|c r IH]; intros o H; cbn [weave]; rewrite chars_of_app, H; cbn; [reflexivity|].
  f_equal. apply IH, H.
Qed.

Lemma ins_sins file hash16 spans o :
  Forall (fun s => valid_key file (sp_start s) /\ valid_key file (sp_end s)) spans ->
  ins_spans file (fun s => [Guard (span_id hash16 s)]) [End] spans o =
  sins (fun s => ofs file (sp_start s)) (fun s => ofs file (sp_end s)) (span_id hash16) spans o.
Proof.
  intros H. unfold ins_spans, sins.
  induction H as [|s r [[a Ha] [b Hb]] H IH]; [reflexivity|]. cbn [flat_map].
  rewrite IH. unfold at_ofs, ofs. rewrite Ha, Hb. reflexivity.
Qed.

Lemma eval_ch_extra env t x rest : eval env [] (map Ch t ++ Extra x :: rest) = 
  match eval env [] rest with Some r => Some (t ++ r) | None => None end.
Proof.
  induction t as [|c r IH]; cbn; [destruct (eval env [] rest); reflexivity|].
  rewrite IH. destruct (eval env [] rest); reflexivity.
Qed.

Lemma instrument_eval hash16 extra file spans env : layout file spans -> extra_ok file extra spans ->
  exists xs, instrument_sym hash16 extra file spans = Some xs /\ chars_of xs = file /\
    eval env [] xs = Some (keep (fun s => ofs file (sp_start s)) (fun s => ofs file (sp_end s))
                                (span_id hash16) env spans 0 file).
Proof.
  intros L X. destruct (layout_spec _ _ L) as (L1 & L2 & L3 & L4). unfold instrument_sym.
  rewrite (instrument_weave Ch); [|exact L|destruct extra as [[p t]|]; exact X].
  assert (EXT : forall o t, weave Ch (ins_spans file (fun s => [Guard (span_id hash16 s)]) [End] spans) o t =
     weave Ch (sins (fun s => ofs file (sp_start s)) (fun s => ofs file (sp_end s)) (span_id hash16) spans) o t).
  { intros o t. apply weave_ext. intros k _. now apply ins_sins. }
  set (so := fun s => ofs file (sp_start s)) in *. set (eo := fun s => ofs file (sp_end s)) in *.
  destruct extra as [[p t]|]; cbn [option_map fst snd].
  - destruct X as [[o Hp] X].
    assert (Hol : o <= length file) by (apply char_offset_iff in Hp; tauto).
    eexists. split; [reflexivity|]. split.
    + rewrite !chars_of_app, chars_of_ch, chars_of_weave by (intros; apply chars_of_ins).
      cbn. apply firstn_skipn.
    + rewrite EXT. cbn [app]. rewrite eval_ch_extra.
      assert (Hofs : ofs file p = o) by (unfold ofs; now rewrite Hp). rewrite Hofs.
      assert (B : forall s, In s spans -> o <= so s).
      { intros s Hs. rewrite Forall_forall in L1. destruct (proj1 (L1 s Hs)) as [k Hk].
        unfold so, ofs. rewrite Hk. destruct (X s Hs) as [Q|Q].
        - rewrite <- Q, Hp in Hk. injection Hk as ->. lia.
        - apply (char_offset_lt _ _ _ _ _ Hp Hk) in Q. lia. }
      change (@nil bool) with (map (off (span_id hash16) env) []).
      rewrite eval_weave; try assumption.
      * f_equal. rewrite <- (firstn_skipn o file) at 3. rewrite keep_app, firstn_length.
        replace (0 + Nat.min o (length file)) with o by lia. f_equal.
        symmetry. apply keep_outside. intros k Hk. rewrite firstn_length in Hk.
        unfold covered. destruct (existsb _ spans) eqn:E; [|reflexivity].
        apply existsb_exists in E as (s & H1 & H2).
        rewrite !andb_true_iff, Nat.leb_le in H2. specialize (B s H1). lia.
      * intros s Hs. apply (L2 s Hs).
      * split; [constructor|]. split; [constructor|]. intros s. split; [intros []|].
        intros (H1 & H2 & _). specialize (B s H1). lia.
      * intros s Hs. rewrite skipn_length. destruct (L2 s Hs) as [_ Q]. unfold eo in *. lia.
  - eexists. split; [reflexivity|]. split.
    + apply chars_of_weave. intros; apply chars_of_ins.
    + rewrite EXT. change (@nil bool) with (map (off (span_id hash16) env) []).
      apply eval_weave; try assumption.
      * intros s Hs. apply (L2 s Hs).
      * split; [constructor|]. split; [constructor|]. intros s. split; [intros []|]. lia.
      * intros s Hs. destruct (L2 s Hs) as [_ Q]. exact Q.
Qed.

Lemma keep_one hash16 file spans s before mid after :
  (forall x, In x spans -> span_id hash16 x = span_id hash16 s -> x = s) -> In s spans ->
  between file (sp_start s) (sp_end s) before mid after ->
  keep (fun s => ofs file (sp_start s)) (fun s => ofs file (sp_end s)) (span_id hash16)
       (span_id hash16 s) spans 0 file = before ++ after.
Proof.
  intros U Hs B. destruct (between_char_offsets _ _ _ _ _ _ B) as [B1 B2].
  assert (C : forall k, covered (fun s => ofs file (sp_start s)) (fun s => ofs file (sp_end s)) (span_id hash16)
       (span_id hash16 s) spans k = (length before <=? k) && (k <? length (before ++ mid))).
  { intros k. apply eq_true_iff_eq. unfold covered. rewrite existsb_exists. split.
    - intros (x & H1 & H2). rewrite !andb_true_iff in H2. destruct H2 as [H2 H3].
      apply text_eqb_eq in H3. rewrite (U x H1 H3) in H2. unfold ofs in H2. rewrite B1, B2 in H2.
      rewrite andb_true_iff. exact H2.
    - intros H. exists s. split; [exact Hs|]. unfold off. rewrite text_eqb_refl, andb_true_r.
      unfold ofs. rewrite B1, B2. exact H. }
  destruct B as (-> & _ & _).
  replace (keep _ _ _ _ _ _ _) with
    (keep (fun s0 => ofs (before ++ mid ++ after) (sp_start s0)) (fun s0 => ofs (before ++ mid ++ after) (sp_end s0))
      (span_id hash16) (span_id hash16 s) spans 0 (before ++ mid ++ after)) by reflexivity.
  rewrite !keep_app. f_equal.
  - apply keep_outside. intros k Hk. rewrite C.
    destruct (Nat.leb_spec (length before) k); [lia|reflexivity].
  - rewrite keep_inside.
    + cbn [app]. apply keep_outside. intros k Hk. rewrite C, app_length.
      destruct (Nat.ltb_spec k (length before + length mid)); [lia|apply andb_false_r].
    + intros k Hk. rewrite C, app_length.
      destruct (Nat.leb_spec (length before) k), (Nat.ltb_spec k (length before + length mid)); try lia; reflexivity.
Qed.

Lemma extra_before_ok file extra spans : extra_before file extra spans -> extra_ok file extra spans.
Proof.
  destruct extra as [[p t]|]; [|auto]. intros [(b & a & -> & <-) H]. split; [|exact H].
  exists (length b). apply char_offset_complete.
Qed.

Lemma instrument_equiv hash16 l extra file spans :
  layout file spans -> extra_before file extra spans ->
  exists xs, instrument_text hash16 l extra file spans = Some (render l xs) /\ chars_of xs = file /\
    (forall env, (forall s, In s spans -> span_id hash16 s <> env) -> eval env [] xs = Some file) /\
    (forall s before mid after, In s spans ->
       (forall s', In s' spans -> span_id hash16 s' = span_id hash16 s -> s' = s) ->
       between file (sp_start s) (sp_end s) before mid after ->
       eval (span_id hash16 s) [] xs = Some (before ++ after)).
Proof.
  intros L X. apply extra_before_ok in X.
  destruct (instrument_render hash16 l extra file spans L X) as (xs & E1 & E2).
  exists xs. split; [exact E2|]. split; [|split].
  - destruct (instrument_eval hash16 extra file spans [] L X) as (ys & F1 & F2 & _). congruence.
  - intros env He. destruct (instrument_eval hash16 extra file spans env L X) as (ys & F1 & _ & F3).
    replace xs with ys by congruence. rewrite F3. f_equal. now apply keep_none.
  - intros s before mid after Hs U B.
    destruct (instrument_eval hash16 extra file spans (span_id hash16 s) L X) as (ys & F1 & _ & F3).
    replace xs with ys by congruence. rewrite F3. f_equal. eapply keep_one; eassumption.
Qed.
