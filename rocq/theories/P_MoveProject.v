(** C87 for a whole project, and an example. *)
From Verif Require Import Base M_Text S_Text L_Text M_Rewriter M_Span S_Span L_Span M_Run S_Run L_Run M_Visitor S_Visitor S_Walk M_Directives S_Directives L_Directives
  P_Directives M_Output M_Config L_Config M_Options M_Parsing P_Parsing S_Placed P_Visitor P_Config S_Move L_MoveText P_Move.
From Coq Require Import List Lia PeanoNat Sorted.
Local Open Scope list_scope.

Section Project.
Context (alphanumeric : char -> bool) (fw : M_Visitor.framework) (own : builtin) (parse_file : path -> text -> option pfile) (denied : warning -> bool).
Context (root : path) (read read' : path -> option text) (is_dir is_file : path -> bool) (walk_dir : path -> list (option path)).
Notation visit_one := (visit_one alphanumeric fw parse_file denied).
Notation parse r := (parse alphanumeric fw own parse_file denied root r is_dir is_file walk_dir).
Notation gives r := (contributes_ok alphanumeric fw parse_file denied root r).

(** A file with the comment [// necessist: skip] put in. *)
Definition with_directive (p : path) (contents contents' : text) (n : nat) (f : pfile) : Prop :=
  scalars contents' /\ (exists l, put_in contents contents' n l /\ skip_comment alphanumeric l) /\
  parse_file p contents = Some f /\ parse_file p contents' = Some (moved_file (lower_span n) f) /\ proper fw p contents f /\ off_chains contents f n.
(** The candidates of the file at [p] are [g] of what they were. *)
Definition change (p : path) (g : span_test_maps -> span_test_maps) (m : files_map) : files_map :=
  map (fun e => if path_eqb (fst e) p then (fst e, g (snd e)) else e) m.

Lemma none_put c p contents contents' n f ws : with_directive p contents contents' n f ->
  visit_one c p contents = (ws, Ok None) -> exists ws', visit_one c p contents' = (ws', Ok None).
Proof.
  intros (SC & (l & PI & SK) & PF & PF' & _ & _) V. unfold M_Parsing.visit_one in *.
  destruct (collect alphanumeric denied contents) as [dws [d|e|]] eqn:CD; [|congruence|congruence].
  destruct (put_collect alphanumeric denied _ _ _ _ PI (conj (skip_no_code _ _ SK) (or_introl SK)) SC dws d CD) as (dws' & d' & CD' & SF'). rewrite CD', SF'.
  destruct (d_skip_file d); [eauto|]. exfalso. rewrite PF in V. destruct (visit_file _ _ _) as [st| |]; [|congruence|congruence].
  destruct (s_warn st); [congruence|]. destruct (denied _); congruence.
Qed.

Lemma change_keys p g m : map fst (change p g m) = map fst m.
Proof. unfold change. rewrite map_map. apply map_ext. intros [q x]. cbn. destruct (path_eqb q p); reflexivity. Qed.
Lemma change_sorted p g m : StronglySorted by_path m -> StronglySorted by_path (change p g m).
Proof.
  intros S1. induction S1 as [|[q x] m S1 IH F]; [constructor|]. cbn [change map]. constructor; [exact IH|]. apply Forall_forall. intros [r y] I.
  apply (in_map fst) in I. fold (change p g m) in I. rewrite change_keys in I. apply in_map_iff in I as ([r' y'] & Q & I). cbn in Q. subst r'.
  rewrite Forall_forall in F. specialize (F _ I). unfold by_path in *. cbn [fst] in *. destruct (path_eqb q p); exact F.
Qed.

(** C87: a comment [// necessist: skip] put into one source file of a project hides, of this file's candidates, those whose code
    begins on the line it is put above.  The file's other candidates are what they were, one line further down if they are below;
    those of the other files are what they were; and no test goes missing. *)
Theorem C87_project : forall cfg sf ws k m p contents contents' n f,
  parse read cfg sf = (ws, Ok (k, m)) -> read (root ++ p) = Some contents -> read' (root ++ p) = Some contents' ->
  (forall q, q <> root ++ p -> read' q = read q) -> with_directive p contents contents' n f ->
  exists ws' hidden, parse read' cfg sf = (ws', Ok (k, change p (moved_maps (lower_span n) hidden) m)) /\
    forall x s, In (p, x) m -> In s (spans x) -> (hidden s = true <-> begins_on contents s n).
Proof.
  intros cfg sf ws k m p contents contents' n f H R R' RQ WD.
  destruct (parse_ok_config _ _ _ _ _ _ _ _ _ _ _ _ _ _ _ H) as [c C].
  destruct (parse_spec alphanumeric fw own parse_file denied root read is_dir is_file walk_dir cfg sf c C) as (ws0 & r0 & P0 & I0 & A0).
  rewrite H in P0. injection P0 as <- <-. destruct (A0 k m eq_refl) as (S0 & M0 & rs & RS & T0). cbn [ps_map ps_tests] in *. clear A0.
  destruct (proj1 I0 (ex_intro _ k (ex_intro _ m eq_refl))) as [WK G].
  destruct (parse_spec alphanumeric fw own parse_file denied root read' is_dir is_file walk_dir cfg sf c C) as (ws1 & r1 & P1 & I1 & A1).
  assert (OT : forall q r, q <> root ++ p -> (gives read' c q r <-> gives read c q r)).
  { intros q r N. split; intros (q' & t & w & -> & Rd & V); exists q', t, w; rewrite RQ in * by exact N; auto. }
  (* what the changed file gives *)
  assert (CH : exists hidden, (forall r, gives read c (root ++ p) r -> gives read' c (root ++ p) (option_map (fun y => (fst y, moved_maps (lower_span n) hidden (snd y))) r)) /\
     forall t x, gives read c (root ++ p) (Some (t, x)) -> forall s, In s (spans x) -> (hidden s = true <-> begins_on contents s n)).
  { destruct (visit_one c p contents) as [w [[[t x]|]| |]] eqn:V.
    - destruct WD as (SC & (l & PI & SK) & PF & PF' & PR & OC).
      destruct (C87_skip_comment alphanumeric fw parse_file denied c p contents contents' n l f w t x SC PI SK PF PF' PR OC V) as (w' & hidden & V' & HS).
      exists hidden. assert (D : forall r, gives read c (root ++ p) r -> r = Some (t, x)).
      { intros r (q & t' & w'' & Q & Rd & V2). apply app_inv_head in Q. subst q. congruence. }
      split; [intros r Gr; rewrite (D r Gr); exists p, contents', w'; auto|]. intros t' x' Gr. specialize (D _ Gr). injection D as -> ->. exact HS.
    - exists (fun _ => false). assert (D : forall r, gives read c (root ++ p) r -> r = None).
      { intros r (q & t' & w'' & Q & Rd & V2). apply app_inv_head in Q. subst q. congruence. }
      split; [intros r Gr; rewrite (D r Gr)|intros t' x' Gr; specialize (D _ Gr); discriminate].
      destruct (none_put c p contents contents' n f w WD V) as (w' & V'). exists p, contents', w'. auto.
    - exists (fun _ => false). assert (D : forall r, gives read c (root ++ p) r -> False).
      { intros r (q & t' & w'' & Q & Rd & V2). apply app_inv_head in Q. subst q. congruence. }
      split; [intros r Gr|intros t' x' Gr]; destruct (D _ Gr).
    - exists (fun _ => false). assert (D : forall r, gives read c (root ++ p) r -> False).
      { intros r (q & t' & w'' & Q & Rd & V2). apply app_inv_head in Q. subst q. congruence. }
      split; [intros r Gr|intros t' x' Gr]; destruct (D _ Gr). }
  destruct CH as (hidden & CH & HS). exists ws1, hidden.
  set (g := fun q (r : contribution) => if path_eqb q (root ++ p) then option_map (fun y => (fst y, moved_maps (lower_span n) hidden (snd y))) r else r).
  assert (GG : forall q r, gives read c q r -> gives read' c q (g q r)).
  { intros q r Gr. unfold g. destruct (path_eqb q (root ++ p)) eqn:Q; [apply path_eqb_eq in Q; subst q; apply CH, Gr|]. apply OT; [|exact Gr]. apply path_eqb_neq. exact Q. }
  assert (GT : forall q r, tests_of (g q r) = tests_of r) by (intros q [[t x]|]; unfold g; destruct (path_eqb q _); reflexivity).
  destruct (proj2 I1) as (k' & m' & ->). { split; [exact WK|]. intros q I. destruct (G q I) as [r Gr]. exists (g q r). apply GG, Gr. }
  destruct (A1 k' m' eq_refl) as (S1 & M1 & rs' & RS' & T1). cbn [ps_map ps_tests] in *. clear A1 I1 I0.
  assert (k' = k) as ->.
  { rewrite T1, T0. f_equal. clear -RS RS' GG GT. revert rs' RS'. induction RS as [|q r fs rs Gr RS IH]; intros rs' RS'; inversion RS' as [|? r' ? rs1 Gr' RS1]; subst; [reflexivity|].
    cbn [map]. f_equal; [|apply IH, RS1]. rewrite (contributes_det _ _ _ _ _ _ _ _ _ _ Gr' (GG _ _ Gr)). apply GT. }
  assert (m' = change p (moved_maps (lower_span n) hidden) m) as ->.
  { apply sorted_ext; [exact S1|apply change_sorted, S0|]. intros [q x]. rewrite M1. unfold change. rewrite in_map_iff. split.
    - intros (t & I & Gx). destruct (G _ I) as [r Gr]. pose proof (contributes_det _ _ _ _ _ _ _ _ _ _ Gx (GG _ _ Gr)) as Q. unfold g in Q.
      destruct (path_eqb (root ++ q) (root ++ p)) eqn:E.
      + apply path_eqb_eq in E. apply app_inv_head in E. subst q. destruct r as [[t0 x0]|]; [|discriminate]. injection Q as -> ->.
        exists (p, x0). cbn [fst snd]. rewrite path_eqb_refl. split; [reflexivity|]. apply M0. eauto.
      + subst r. exists (q, x). cbn [fst snd]. destruct (path_eqb q p) eqn:E'; [apply path_eqb_eq in E'; subst q; rewrite path_eqb_refl in E; discriminate|].
        split; [reflexivity|]. apply M0. eauto.
    - intros ([q0 x0] & Q & I). apply M0 in I as (t & I & Gr). cbn [fst snd] in Q. pose proof (GG _ _ Gr) as Gx. unfold g in Gx.
      destruct (path_eqb q0 p) eqn:E.
      + apply path_eqb_eq in E. subst q0. injection Q as <- <-. rewrite path_eqb_refl in Gx. cbn in Gx. exists t. auto.
      + injection Q as <- <-. destruct (path_eqb (root ++ q0) (root ++ p)) eqn:E'; [apply path_eqb_eq in E'; apply app_inv_head in E'; subst q0; rewrite path_eqb_refl in E; discriminate|]. exists t. auto. }
  split; [exact P1|]. intros x s I Is. apply M0 in I as (t & _ & Gr). exact (HS t x Gr s Is).
Qed.
End Project.
Print Assumptions C87_project.

(** ** An example *)
Definition mv_path : path := [s2t "t.rs"].
Definition mv_text : text := s2t "a();" ++ [NL] ++ s2t "x.m();" ++ [NL] ++ s2t "c();" ++ [NL].
Definition mv_line : text := s2t "  // necessist: skip (slow)".
Definition mv_text' : text := s2t "a();" ++ [NL] ++ mv_line ++ [CR; NL] ++ s2t "x.m();" ++ [NL] ++ s2t "c();" ++ [NL].
Definition mv_node (i : nat) (k : nkind) (la a lb b : nat) (ks : list node) : node := Node (Label i k [] (Span mv_path (LC la a) (LC lb b))) ks.
Definition mv_tree : node :=
  mv_node 1 KGroup 1 0 3 4 [mv_node 2 (KTest (s2t "T1") 0) 1 0 3 4 [mv_node 13 KGroup 1 0 3 4
    [mv_node 3 (KStmt true false false true) 1 0 1 4 [mv_node 4 (KCall false (Some (s2t "a"))) 1 0 1 3 [mv_node 9 (KIdent (s2t "a")) 1 0 1 1 []]];
     mv_node 7 (KStmt true false false true) 2 0 2 6
       [mv_node 8 (KCall false (Some (s2t "m"))) 2 0 2 5 [mv_node 5 (KField (Some (s2t "m"))) 2 0 2 3 [mv_node 6 (KIdent (s2t "x")) 2 0 2 1 []]]];
     mv_node 10 (KStmt true false false true) 3 0 3 4 [mv_node 11 (KCall false (Some (s2t "c"))) 3 0 3 3 [mv_node 12 (KIdent (s2t "c")) 3 0 3 1 []]]]]].
Definition mv_file : pfile := PFile mv_tree [].
Definition mv_parser (p : path) (contents : text) : option pfile :=
  if text_eqb contents mv_text then Some mv_file else if text_eqb contents mv_text' then Some (moved_file (lower_span 2) mv_file) else None.
Definition mv_config : compiled := Compiled [] [] [] DNone [] false [].

Lemma mv_parts n : part_of mv_file n -> In n (nodes mv_tree).
Proof. intros [H|(name & fs & g & [] & _)]. apply within_nodes. exact H. Qed.
Lemma mv_proper : proper fw_rust mv_path mv_text mv_file.
Proof.
  constructor; cbn [mv_file pf_root pf_locals].
  - intros E HE. split; [reflexivity|intros name fs g []].
  - intros s P (r & c & d & e & K & _). apply mv_parts in P. cbn in P.
    repeat (destruct P as [<-|P]; [try discriminate K|]); try destruct P; (split; [reflexivity|]).
    + exists [], (s2t "a();"), ([NL] ++ s2t "x.m();" ++ [NL] ++ s2t "c();" ++ [NL]). split; [repeat split|discriminate].
    + exists (s2t "a();" ++ [NL]), (s2t "x.m();"), ([NL] ++ s2t "c();" ++ [NL]). split; [repeat split|discriminate].
    + exists (s2t "a();" ++ [NL] ++ s2t "x.m();" ++ [NL]), (s2t "c();"), [NL]. split; [repeat split|discriminate].
  - intros s s' P P' (r & c & d & e & K & _) (r' & c' & d' & e' & K' & _). apply mv_parts in P, P'. cbn in P, P'.
    repeat (destruct P as [<-|P]; [try discriminate K|]); try destruct P;
    (repeat (destruct P' as [<-|P']; [try discriminate K'|]); try destruct P'); try (left; reflexivity);
    right; left; unfold disjoint, lc_le, lc_lt; cbn; lia.
  - intros c b names P MC. apply mv_parts in P. cbn in P. destruct MC as ((h & x & K) & callee & args & Hk & FP & NE).
    repeat (destruct P as [<-|P]; [try discriminate K|]); try destruct P; cbn in Hk; injection Hk as <- <-.
    + inversion FP; subst. congruence.
    + split; [reflexivity|]. inversion FP as [|l0 x0 b0 r0 base0 p0 K0 FP0]; subst; [congruence|]. inversion FP0 as [|l1 x1 b1 r1 base1 p1 K1 FP1]; subst.
      exists (s2t "a();" ++ [NL] ++ s2t "x"), (s2t ".m()"), (s2t ";" ++ [NL] ++ s2t "c();" ++ [NL]). repeat split.
    + inversion FP; subst. congruence.
Qed.
Lemma mv_off_chains : off_chains mv_text mv_file 2.
Proof.
  intros c b names before m1 rest P MC _ Q1 Q2. apply mv_parts in P. cbn in P. destruct MC as ((h & x & K) & callee & args & Hk & FP & NE).
  assert (Z : sp_end (n_span b) = LC 2 1).
  { repeat (destruct P as [<-|P]; [try discriminate K|]); try destruct P; cbn in Hk; injection Hk as <- <-.
    + inversion FP; subst. congruence.
    + inversion FP as [|l0 x0 b0 r0 base0 p0 K0 FP0]; subst; [congruence|]. inversion FP0 as [|l1 x1 b1 r1 base1 p1 K1 FP1]; subst. reflexivity.
    + inversion FP; subst. congruence. }
  destruct m1 as [|y m1]; [left; reflexivity|exfalso]. pose proof (advance_lt (pos before) (y :: m1) ltac:(discriminate)) as L.
  unfold pos in Q2. rewrite advance_app in Q2. change (advance (LC 1 0) before) with (pos before) in Q2. rewrite Q2, Q1, Z in L. unfold lc_lt in L. cbn in L. lia.
Qed.
(** The directive hides the statement [x.m();] and the method call [.m()] in it, and no others. *)
Example C87_nonvacuous :
  with_directive ascii_alphanumeric fw_rust mv_parser mv_path mv_text mv_text' 2 mv_file /\
  (exists ws, visit_one ascii_alphanumeric fw_rust mv_parser (fun _ => false) mv_config mv_path mv_text =
    (ws, Ok (Some ([s2t "T1"], STM [(Span mv_path (LC 1 0) (LC 1 4), [s2t "T1"]); (Span mv_path (LC 2 0) (LC 2 6), [s2t "T1"])] [(Span mv_path (LC 2 1) (LC 2 5), [s2t "T1"])])))) /\
  (exists ws, visit_one ascii_alphanumeric fw_rust mv_parser (fun _ => false) mv_config mv_path mv_text' =
    (ws, Ok (Some ([s2t "T1"], STM [(Span mv_path (LC 1 0) (LC 1 4), [s2t "T1"])] [])))) /\
  begins_on mv_text (Span mv_path (LC 2 1) (LC 2 5)) 2 /\ ~ begins_on mv_text (Span mv_path (LC 1 0) (LC 1 4)) 2.
Proof.
  assert (SC : scalars mv_text) by (apply Forall_forall; intros x I; repeat (destruct I as [<-|I]; [reflexivity|]); destruct I).
  split.
  { split; [apply Forall_forall; intros x I; repeat (destruct I as [<-|I]; [reflexivity|]); destruct I|]. split.
    - exists mv_line. split.
      + exists (s2t "a();" ++ [NL]), (s2t "x.m();" ++ [NL] ++ s2t "c();" ++ [NL]), [CR; NL]. split; [reflexivity|]. split; [reflexivity|]. split; [right; exists (s2t "a();"); reflexivity|].
        split; [|split; [right; reflexivity|reflexivity]]. intros I. repeat (destruct I as [I|I]; [discriminate I|]). destruct I.
      + apply is_skip_spec. reflexivity.
    - split; [reflexivity|]. split; [reflexivity|]. split; [exact mv_proper|exact mv_off_chains]. }
  split; [eexists; vm_compute; reflexivity|]. split; [eexists; vm_compute; reflexivity|]. split.
  - exists (s2t "a();" ++ [NL] ++ s2t "x"), (s2t ".m()"), (s2t ";" ++ [NL] ++ s2t "c();" ++ [NL]), 0. split; [repeat split|]. split; [|reflexivity].
    apply code_offset_spec. reflexivity.
  - intros (before & mid & after & k & B & CO & Q). cbn [sp_start line] in Q. assert (k = 1) as -> by lia.
    assert (mid = s2t "a();").
    { assert (B2 : S_Text.between mv_text (LC 1 0) (LC 1 4) [] (s2t "a();") ([NL] ++ s2t "x.m();" ++ [NL] ++ s2t "c();" ++ [NL])) by (repeat split).
      pose proof (source_text_complete mv_text (Span mv_path (LC 1 0) (LC 1 4)) _ _ _ SC B) as T1.
      pose proof (source_text_complete mv_text (Span mv_path (LC 1 0) (LC 1 4)) _ _ _ SC B2) as T2. congruence. }
    subst mid. apply code_offset_spec in CO. vm_compute in CO. discriminate.
Qed.
