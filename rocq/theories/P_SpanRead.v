(** Property theorem C02: exactly which texts are read as which span. *)
From Verif Require Import Base M_Text M_Span L_Span M_Options S_Cli P_Cli S_SpanRead.
From Coq Require Import List Lia.
Local Open Scope N_scope.
Local Open Scope list_scope.

Lemma free_iff (d : char) b (t : text) : s2t b = [d] -> (free_of b t <-> ~ In d t).
Proof. intros E. unfold free_of. rewrite E. split; [intros H I; exact (H d I eq_refl)|]. intros H c I Q. inversion Q. subst c. contradiction. Qed.
Lemma relative_iff t p : relative t p <-> (match t with c :: _ => c =? SLASH | [] => false end) = false /\ p = path_components t.
Proof.
  unfold relative. split.
  - intros [A (pieces & -> & S1 & K)]. split.
    + destruct (separated (s2t "/") pieces) as [|c r] eqn:E; [reflexivity|]. destruct (N.eqb_spec c SLASH) as [->|]; [|reflexivity]. destruct (A r eq_refl).
    + apply named_filter in K. unfold path_components. destruct pieces as [|x l]; [exact K|]. rewrite split_separated by (try discriminate; intros y Y C; exact (S1 y SLASH Y C eq_refl)). exact K.
  - intros [A ->]. split; [intros r ->; discriminate A|]. destruct (split_pieces t [] (fun x => x)) as (x & r & E1 & E2 & E3). cbn [rev app] in E2. exists (x :: r). split; [exact E2|].
    split; [intros y c Y C Q; inversion Q; subst c; exact (E3 y Y C)|]. apply named_filter. unfold path_components. f_equal. exact E1.
Qed.
Lemma writes_iff t n : writes t n <-> parse_usize t = Some (N.of_nat n).
Proof. unfold writes. symmetry. apply seconds_iff. Qed.
Lemma newline_iff t : no_newline t <-> existsb (fun c => c =? NL) t = false.
Proof.
  unfold no_newline. split.
  - intros H. destruct (existsb (fun c => c =? NL) t) eqn:E; [|reflexivity]. apply existsb_exists in E as (c & I & Q). apply N.eqb_eq in Q. subst c. contradiction.
  - intros H I. rewrite (proj2 (existsb_exists _ t)) in H; [discriminate|]. exists NL. split; [exact I|apply N.eqb_refl].
Qed.

(** C02: a text is read as a span exactly if it is the way that span may be written and the file is there. *)
Theorem C02_reads : forall file_exists s sp,
  parse_span file_exists s = Ok sp <-> written s sp /\ file_exists (sp_path sp) = true.
Proof.
  intros ex s sp. split.
  - unfold parse_span. destruct (split_at COLON s) as [[path r1]|] eqn:E1; [|discriminate]. destruct (split_at COLON r1) as [[sl r2]|] eqn:E2; [|discriminate].
    destruct (split_at DASH r2) as [[sc r3]|] eqn:E3; [|discriminate]. destruct (split_at COLON r3) as [[el ec]|] eqn:E4; [|discriminate].
    apply split_at_sound in E1 as [-> F1], E2 as [-> F2], E3 as [-> F3], E4 as [-> F4].
    destruct (existsb (fun c => c =? NL) ec) eqn:NLE; [discriminate|]. destruct (parse_usize sl) as [a|] eqn:P1; [|discriminate]. destruct (parse_usize sc) as [b|] eqn:P2; [|discriminate].
    destruct (parse_usize el) as [c|] eqn:P3; [|discriminate]. destruct (parse_usize ec) as [d|] eqn:P4; [|discriminate].
    destruct (match path with x :: _ => x =? SLASH | [] => false end) eqn:AB; [discriminate|]. destruct (ex (path_components path)) eqn:X; [|discriminate].
    destruct ((b =? 0) || (d =? 0)) eqn:Z; [discriminate|]. apply Bool.orb_false_iff in Z as [Z1 Z2]. apply N.eqb_neq in Z1, Z2. intros H. injection H as <-. cbn [sp_path sp_start sp_end line column].
    split; [|exact X]. exists path, sl, sc, el, ec. split; [reflexivity|]. rewrite !(free_iff COLON ":") by reflexivity. rewrite (free_iff DASH "-") by reflexivity.
    split; [exact F1|]. split; [exact F2|]. split; [exact F3|]. split; [exact F4|]. split; [apply newline_iff, NLE|]. split; [apply relative_iff; auto|].
    cbn [sp_start sp_end line column]. rewrite !writes_iff, P1, P2, P3, P4. repeat split; f_equal; lia.
  - intros [(path & sl & sc & el & ec & -> & F1 & F2 & F3 & F4 & NLE & R & W1 & W2 & W3 & W4) X].
    rewrite !(free_iff COLON ":") in F1, F2, F4 by reflexivity. rewrite (free_iff DASH "-") in F3 by reflexivity. apply newline_iff in NLE. apply relative_iff in R as [AB R]. apply writes_iff in W1, W2, W3, W4.
    unfold parse_span. rewrite (split_at_app COLON path _ F1 : split_at COLON (path ++ s2t ":" ++ _) = _). rewrite (split_at_app COLON sl _ F2 : split_at COLON (sl ++ s2t ":" ++ _) = _).
    rewrite (split_at_app DASH sc _ F3 : split_at DASH (sc ++ s2t "-" ++ _) = _). rewrite (split_at_app COLON el _ F4 : split_at COLON (el ++ s2t ":" ++ _) = _).
    rewrite NLE, W1, W2, W3, W4, AB, <- R, X. destruct (N.eqb_spec (N.of_nat (column (sp_start sp) + 1)) 0); [lia|]. destruct (N.eqb_spec (N.of_nat (column (sp_end sp) + 1)) 0); [lia|]. cbn [orb].
    destruct sp as [p [l1 c1] [l2 c2]]. cbn [sp_path sp_start sp_end line column] in *. do 2 f_equal; f_equal; lia.
Qed.
Print Assumptions C02_reads.

(** A path that is not in its shortest form, and a number with a sign and zeros in front. *)
Example C02_reads_example : exists sp, parse_span (fun _ => true) (s2t "./a//b.rs:+007:1-8:02") = Ok sp /\ sp_path sp = [s2t "a"; s2t "b.rs"] /\ sp_start sp = LC 7 0 /\ sp_end sp = LC 8 1.
Proof. eexists. vm_compute. repeat split; reflexivity. Qed.
