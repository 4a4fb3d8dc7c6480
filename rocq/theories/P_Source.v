(** C77: the candidates of a project, whichever the framework, are what the rules of its language say they are. *)
From Verif Require Import Base M_Text S_Text L_Text M_Rewriter M_Span S_Span L_Span P_Text M_Instr S_Instr P_Instr M_Run S_Run L_Run P_Run
  M_Exec S_Exec L_Exec P_Exec M_Output L_Output M_Sqlite P_Sqlite M_Options P_Options M_Config L_Config P_Config M_Main P_Main P_EndToEnd
  M_Visitor S_Visitor S_Walk S_Candidates L_Visitor P_Visitor M_Directives S_Directives P_Directives M_Parsing P_Parsing M_Find M_Project S_Placed P_Placed P_Project
  S_Layout L_Layout M_Lang S_Lang L_LayTree L_LaySyn L_LaySwc L_LaySol L_Laid P_Lang L_Ext S_Source.
From Verif Require M_Skill P_Skill P_GoTree P_Php P_Syn P_Swc P_Sol M_Solang S_Solang P_Solang S_SolangCalls P_SolangCalls S_Swc S_Foundry.

Lemma lookup_by_name {A} (nm : A -> text) (view : A -> node) (l : list A) name :
  lookup_local (by_name nm view l) name = map view (filter (fun h => text_eqb (nm h) name) l).
Proof.
  unfold lookup_local, by_name.
  assert (G : forall r, (forall x, In x r -> In x l) -> (forall x, In x l -> In x r \/ text_eqb (nm x) name = false) ->
    match find (fun e : text * list node => text_eqb (fst e) name) (map (fun f => (nm f, map view (filter (fun h => text_eqb (nm h) (nm f)) l))) r) with
    | Some (_, fs) => fs | None => [] end = map view (filter (fun h => text_eqb (nm h) name) l)).
  { induction r as [|a r IH]; intros I C; cbn [map find fst].
    - assert (Z : filter (fun h => text_eqb (nm h) name) l = []).
      { clear I. induction l as [|x k IHk]; [reflexivity|]. cbn [filter]. destruct (C x (or_introl eq_refl)) as [[]| ->]. apply IHk. intros y J. apply C. right. exact J. }
      rewrite Z. reflexivity.
    - destruct (text_eqb (nm a) name) eqn:Q; [apply text_eqb_eq in Q; rewrite Q; reflexivity|].
      apply IH; [intros x J; apply I; right; exact J|]. intros x J. destruct (C x J) as [[->|K]|K]; auto. }
  apply G; auto.
Qed.
Lemma filter_twice {A} (p q : A -> bool) l : filter p (filter q l) = filter (fun x => q x && p x) l.
Proof. induction l as [|x l IH]; [reflexivity|]. cbn [filter]. destruct (q x); cbn [filter andb]; [destruct (p x); rewrite IH; reflexivity|exact IH]. Qed.

Section File.
Context (alphanumeric : char -> bool) (AL : forall x, alphanumeric x = true -> is_meta x = false).
Context (fw : M_Visitor.framework) (own : builtin) (parse_file : path -> text -> option pfile) (denied : warning -> bool).
Context (root : path) (read : path -> option text) (is_dir is_file : path -> bool) (walk_dir : path -> list (option path)).
Notation parse := (parse alphanumeric fw own parse_file denied root read is_dir is_file walk_dir).

(** What the walk over a file that contributes candidates was. *)
Lemma file_walk cfg sf ws n m p x : parse cfg sf = (ws, Ok (n, m)) -> In (p, x) m ->
  exists c contents dws d f st, compile_config alphanumeric denied own cfg = Ok c /\ read (root ++ p) = Some contents /\
    collect alphanumeric denied contents = (dws, Ok d) /\ parse_file p contents = Some f /\
    visit_file (file_env fw c d contents f) (enough f) (pf_root f) = LDone st /\ x = s_maps st.
Proof.
  intros H I. destruct (parse_ok_config _ _ _ _ _ _ _ _ _ _ _ _ _ _ _ H) as [c C].
  destruct (parse_spec alphanumeric fw own parse_file denied root read is_dir is_file walk_dir cfg sf c C) as [ws0 [r [P [_ A]]]]. rewrite H in P. injection P as <- <-.
  destruct (A n m eq_refl) as [_ [M _]]. cbn [ps_map] in M. apply M in I. destruct I as [t [V [p' [contents [ws1 [E [R K]]]]]]].
  apply app_inv_head in E. subst p'. unfold M_Parsing.visit_one in K.
  destruct (collect alphanumeric denied contents) as [dws [d|w|]] eqn:D; try discriminate.
  destruct (d_skip_file d) eqn:SF; [discriminate|]. destruct (parse_file p contents) as [f|] eqn:PF; [|destruct (denied WParsingFailed); discriminate].
  destruct (visit_file (file_env fw c d contents f) (enough f) (pf_root f)) as [st| |] eqn:VF; try discriminate.
  exists c, contents, dws, d, f, st. repeat (split; [assumption|]).
  destruct (s_warn st); [|destruct (denied WLocalFunctionAmbiguous)]; try discriminate; injection K as _ _ <-; reflexivity.
Qed.
End File.

(** A removed method call: what is left of the call without its receiver. *)
Lemma rest_of_call_spec E call base sp : scalars (v_contents E) -> method_span E call base = Some sp ->
  (exists before mid after, between (v_contents E) (sp_start sp) (sp_end sp) before mid after) -> rest_of_call (v_contents E) call base sp.
Proof.
  intros SC H (b0 & m0 & a0 & B0). unfold method_span in H.
  destruct (span_trim_start (v_contents E) (with_start call (sp_end base))) as [s| |] eqn:Q; try discriminate. injection H as ->.
  assert (T : exists t, source_text (v_contents E) (with_start call (sp_end base)) = Ok t).
  { unfold span_trim_start in Q. destruct (source_text (v_contents E) (with_start call (sp_end base))) as [t| |] eqn:S; [eauto| |discriminate].
    injection Q as <-. exists m0. rewrite <- S. apply C03_source_text_exact; [exact SC|]. exists b0, a0. exact B0. }
  destruct T as [t T]. apply (C03_source_text_exact _ _ _ SC) in T as (b & a & B).
  destruct (C42_trim_start _ _ _ _ _ SC B) as (s' & ws & rest & Q' & P & _ & -> & F & R & B' & _).
  rewrite Q in Q'. injection Q' as <-. split; [exact P|]. exists b, ws, rest, a. auto.
Qed.

Lemma trim_unique (ws rest ws' rest' : text) : ws ++ rest = ws' ++ rest' ->
  Forall (fun c => is_whitespace c = true) ws -> Forall (fun c => is_whitespace c = true) ws' ->
  (rest = [] \/ exists x r, rest = x :: r /\ is_whitespace x = false) -> (rest' = [] \/ exists x r, rest' = x :: r /\ is_whitespace x = false) ->
  ws = ws' /\ rest = rest'.
Proof.
  intros E F F' R R'. revert ws' E F'. induction F as [|c ws C _ IH]; intros ws' E F'.
  - destruct F' as [|c' ws' C' F']; [split; [reflexivity|exact E]|]. cbn [app] in E. destruct R as [->|(x & r & -> & X)]; [discriminate|]. injection E as -> _. congruence.
  - destruct F' as [|c' ws' C' F'].
    + cbn [app] in E. destruct R' as [->|(x & r & -> & X)]; [discriminate|]. injection E as -> _. congruence.
    + cbn [app] in E. injection E as -> E. destruct (IH ws' E F') as [-> ->]. split; reflexivity.
Qed.
Lemma rest_of_call_complete E call base sp : scalars (v_contents E) -> rest_of_call (v_contents E) call base sp -> method_span E call base = Some sp.
Proof.
  intros SC (P & b & ws & rest & a & B & F & R & B').
  destruct (C42_trim_start _ (with_start call (sp_end base)) _ _ _ SC B) as (s' & ws' & rest' & Q & P' & E' & EQ & F' & R' & B'' & _).
  destruct (trim_unique _ _ _ _ EQ F F' R R') as [<- <-]. unfold method_span. rewrite Q. f_equal.
  destruct s' as [sp1 st1 en1], sp as [sp2 st2 en2]. destruct B' as (_ & X1 & X2), B'' as (_ & Y1 & Y2). cbn [sp_path sp_start sp_end with_start] in *. congruence.
Qed.

Section Lang.
Context (alphanumeric : char -> bool) (AL : forall x, alphanumeric x = true -> is_meta x = false) (denied : warning -> bool) (ps : parsers).

Lemma rules_env f cfg c dws d contents t : compile_config alphanumeric denied (builtin_of f) cfg = Ok c -> collect alphanumeric denied contents = (dws, Ok d) ->
  rules alphanumeric f cfg contents (file_env (visitor_of f) c d contents t) (any_match_b (c_walkable c)).
Proof.
  intros C D. destruct (in_force_env alphanumeric (visitor_of f) (builtin_of f) denied cfg c dws d contents t AL C D). constructor; try assumption.
  intros name. destruct (proj2 (C27_effective alphanumeric AL denied (builtin_of f) cfg) c name C) as [_ [_ [_ [W _]]]]. rewrite any_match_b_spec. exact W.
Qed.
(** The walk over a file, in each language. *)
Definition walked (f : M_Options.framework) (cfg : toml) (p : path) (contents : text) (m : span_test_maps) : Prop :=
  exists E walkable st, rules alphanumeric f cfg contents E walkable /\ m = s_maps st /\
    match f with
    | Go => exists root, ps_go ps p contents = Some root /\ result (M_Tree.go_env E root walkable) (M_Tree.go_file root) st
    | Php => exists root, ps_php ps p contents = Some root /\ result (M_Tree.php_env E) (M_Tree.php_file root) st
    | Rust => exists root, ps_rust ps p contents = Some root /\
        result (M_Syn.rs_env (ps_module ps p) (ps_listed ps p) E root walkable) (M_Syn.rs_file (ps_module ps p) (ps_listed ps p) root) st
    | Anchor | Hardhat | Vitest => exists root, ps_ts ps p contents = Some root /\ result (M_Swc.js_env E root walkable) (M_Swc.js_file root) st
    | Foundry => exists items, ps_sol ps p contents = Some items /\ result (M_Foundry.sol_env E items walkable) (M_Foundry.file_node items) st
    end.
Lemma walked_spec f cfg c dws d p contents t st : compile_config alphanumeric denied (builtin_of f) cfg = Ok c -> collect alphanumeric denied contents = (dws, Ok d) ->
  parser_of ps f p contents = Some t -> visit_file (file_env (visitor_of f) c d contents t) (enough t) (pf_root t) = LDone st -> walked f cfg p contents (s_maps st).
Proof.
  intros C D P V. exists (file_env (visitor_of f) c d contents t), (any_match_b (c_walkable c)), st. split; [eapply rules_env; eassumption|]. split; [reflexivity|].
  assert (JS : ps_ts ps p contents = None \/ exists x, ps_ts ps p contents = Some x /\ (option_map js_pfile (ps_ts ps p contents) = Some t ->
     visit_file (file_env fw_ts c d contents t) (enough t) (pf_root t) = LDone st ->
     exists root, Some x = Some root /\ result (M_Swc.js_env (file_env fw_ts c d contents t) root (any_match_b (c_walkable c))) (M_Swc.js_file root) st)).
  { destruct (ps_ts ps p contents) as [x|]; [right; exists x; split; [reflexivity|]|left; reflexivity]. intros H V'. injection H as <-. exists x. split; [reflexivity|].
    exists (enough (js_pfile x)). rewrite <- V'. symmetry. unfold M_Swc.js_env, file_env. cbn [v_ign_fun v_ign_mac v_ign_met v_ign_test v_visit_args v_disamb v_skip v_contents pf_locals js_pfile pf_root].
    apply visit_ext. intros name. rewrite lookup_by_name. reflexivity. }
  destruct f; cbn [parser_of visitor_of] in *.
  - destruct JS as [Z|(x & Z & JS)]; rewrite Z in *; [discriminate|]. exact (JS P V).
  - destruct (ps_sol ps p contents) as [x|]; [|discriminate]. injection P as <-. exists x. split; [reflexivity|]. exists (enough (sol_pfile x)). rewrite <- V. symmetry.
    unfold M_Foundry.sol_env, file_env. cbn [v_ign_fun v_ign_mac v_ign_met v_ign_test v_visit_args v_disamb v_skip v_contents pf_locals sol_pfile pf_root].
    apply visit_ext. intros name. rewrite lookup_by_name. unfold M_Foundry.local_functions. destruct (any_match_b (c_walkable c) name); [|reflexivity].
    f_equal. rewrite filter_twice. apply filter_ext. intros h. unfold sol_named. destruct (M_Foundry.f_name h) as [y|]; [apply andb_comm|reflexivity].
  - destruct (ps_go ps p contents) as [x|]; [|discriminate]. injection P as <-. exists x. split; [reflexivity|]. exists (enough (go_pfile x)). rewrite <- V. symmetry.
    unfold M_Tree.go_env, file_env. cbn [v_ign_fun v_ign_mac v_ign_met v_ign_test v_visit_args v_disamb v_skip v_contents pf_locals go_pfile pf_root].
    apply visit_ext. intros name. rewrite lookup_by_name. reflexivity.
  - destruct JS as [Z|(x & Z & JS)]; rewrite Z in *; [discriminate|]. exact (JS P V).
  - destruct (ps_php ps p contents) as [x|]; [|discriminate]. injection P as <-. exists x. split; [reflexivity|]. exists (enough (php_pfile x)). rewrite <- V. symmetry.
    unfold M_Tree.php_env, file_env. cbn [v_ign_fun v_ign_mac v_ign_met v_ign_test v_visit_args v_disamb v_skip v_contents pf_locals php_pfile pf_root].
    apply visit_ext. intros name. destruct (any_match_b (c_walkable c) name); reflexivity.
  - destruct (ps_rust ps p contents) as [x|]; [|discriminate]. injection P as <-. exists x. split; [reflexivity|]. exists (enough (rs_pfile (ps_module ps p) (ps_listed ps p) x)).
    rewrite <- V. symmetry.
    unfold M_Syn.rs_env, file_env. cbn [v_ign_fun v_ign_mac v_ign_met v_ign_test v_visit_args v_disamb v_skip v_contents pf_locals rs_pfile pf_root].
    apply visit_ext. intros name. rewrite lookup_by_name. reflexivity.
  - destruct JS as [Z|(x & Z & JS)]; rewrite Z in *; [discriminate|]. exact (JS P V).
Qed.

(** The walk of a file gives what the rules say. *)
Lemma walked_sound f cfg p contents m k sp t : parsers_place ps -> parsers_distinct ps -> scalars contents -> walked f cfg p contents m -> lists m k sp t ->
  (exists before mid after, between contents (sp_start sp) (sp_end sp) before mid after) -> is_candidate alphanumeric ps f cfg p contents k sp t.
Proof.
  intros PL PD SC (E & walkable & st & RU & -> & W) L B. exists E, walkable. split; [exact RU|].
  assert (CE : v_contents E = contents) by apply RU.
  assert (REST : forall call base, method_span E call base = Some sp -> rest_of_call (v_contents E) call base sp).
  { intros call base H. apply rest_of_call_spec; rewrite ?CE; assumption. }
  destruct PL as [_ _ _ PT PSo], PD as [DG DP DR DT DS].
  assert (JS : forall root, ps_ts ps p contents = Some root -> result (M_Swc.js_env E root walkable) (M_Swc.js_file root) st ->
    v_skip E sp = false /\ v_ign_test E t = false /\ exists root, ps_ts ps p contents = Some root /\ js_found E walkable sp t root k).
  { intros root Q R. destruct (PT _ _ _ SC Q) as [_ RG]. destruct k; cbn [js_found].
    - destruct (P_Swc.C68_statement_candidates E root walkable st sp t RG (DT _ _ _ Q) R L) as (A1 & A2 & A3). split; [exact A1|]. split; [exact A2|]. exists root. split; [exact Q|exact A3].
    - destruct (P_Swc.C68_method_candidates E root walkable st sp t RG (DT _ _ _ Q) R L) as (A1 & A2 & n & c & base & q & A3 & A4 & A5 & A6 & A7).
      split; [exact A1|]. split; [exact A2|]. exists root. split; [exact Q|]. exists n, c, base, q. repeat (split; [solve [auto]|]). exact A7. }
  destruct f.
  - destruct W as (root & Q & R). exact (JS root Q R).
  - destruct W as (items & Q & R). destruct (PSo _ _ _ SC Q) as [_ NM]. destruct k; cbn [sol_found].
    + destruct (P_Sol.C69_statement_candidates E items walkable st sp t NM (DS _ _ _ Q) R L) as (A1 & A2 & A3). split; [exact A1|]. split; [exact A2|]. exists items. split; [exact Q|exact A3].
    + destruct (P_Sol.C69_method_candidates E items walkable st sp t NM (DS _ _ _ Q) R L) as (A1 & A2 & g & c & base & q & A3 & A4 & A5 & A6 & A7).
      split; [exact A1|]. split; [exact A2|]. exists items. split; [exact Q|]. exists g, c, base, q. repeat (split; [solve [auto]|]). exact A7.
  - destruct W as (root & Q & R). destruct k; cbn [go_found].
    + destruct (P_GoTree.C64_statement_candidates E root walkable st sp t R (DG _ _ _ Q) L) as (A1 & A2 & A3). split; [exact A1|]. split; [exact A2|]. exists root. split; [exact Q|exact A3].
    + destruct (P_GoTree.C64_method_candidates E root walkable st sp t R (DG _ _ _ Q) L) as (A1 & A2 & b & c & base & q & A3 & A4 & A5 & A6 & A7).
      split; [exact A1|]. split; [exact A2|]. exists root. split; [exact Q|]. exists b, c, base, q. repeat (split; [solve [auto]|]). exact A7.
  - destruct W as (root & Q & R). exact (JS root Q R).
  - destruct W as (root & Q & R). destruct k; cbn [php_found].
    + destruct (P_Php.C65_statement_candidates E root st sp t R (DP _ _ _ Q) L) as (A1 & A2 & A3). split; [exact A1|]. split; [exact A2|]. exists root. split; [exact Q|exact A3].
    + destruct (P_Php.C65_method_candidates E root st sp t R L) as (A1 & A2 & b & c & base & q & A3 & A4 & A5 & A6 & A7).
      split; [exact A1|]. split; [exact A2|]. exists root. split; [exact Q|]. exists b, c, base, q. repeat (split; [solve [auto]|]). exact A7.
  - destruct W as (root & Q & R). destruct k; cbn [rs_found].
    + destruct (P_Syn.C67_statement_candidates _ _ E root walkable st sp t R (proj1 (DR _ _ _ Q)) L) as (A1 & A2 & A3). split; [exact A1|]. split; [exact A2|]. exists root. split; [exact Q|exact A3].
    + destruct (P_Syn.C67_method_candidates _ _ E root walkable st sp t R (proj1 (DR _ _ _ Q)) L) as (A1 & A2 & b & c & base & q & A3 & A4 & A5 & A6 & A7).
      split; [exact A1|]. split; [exact A2|]. exists root. split; [exact Q|]. exists b, c, base, q. repeat (split; [solve [auto]|]). exact A7.
  - destruct W as (root & Q & R). exact (JS root Q R).
Qed.

(** And what the rules require is there. *)
Lemma walked_complete f cfg p contents m k sp t : parsers_place ps -> parsers_distinct ps -> scalars contents -> walked f cfg p contents m ->
  must_be_candidate alphanumeric ps f cfg p contents k sp t -> lists m k sp t.
Proof.
  intros PL PD SC (E & walkable & st & RU & -> & W) MC. destruct (MC E walkable RU) as (SK & IG & M). clear MC.
  assert (CE : v_contents E = contents) by apply RU. rewrite <- CE in SC.
  assert (REST : forall call base, rest_of_call (v_contents E) call base sp -> method_span E call base = Some sp) by (intros call base; apply rest_of_call_complete; exact SC).
  destruct PL as [_ _ _ PT PSo], PD as [DG DP DR DT DS]. rewrite CE in SC.
  assert (JS : forall root, ps_ts ps p contents = Some root -> result (M_Swc.js_env E root walkable) (M_Swc.js_file root) st -> js_required E walkable sp t root k ->
     candidate st k sp t).
  { intros root Q R H. destruct (PT _ _ _ SC Q) as [_ RG]. pose proof (DT _ _ _ Q) as AP. destruct k; cbn [js_required] in H.
    - destruct H as (g & b & u & H1 & <- & H2 & [(H3 & H4 & H5)|(c & e & x & h & H3 & H4 & H5 & H6 & H7 & H8 & H9 & H10)]).
      + exact (P_Swc.C68_statements_of_tests E root walkable st t g b u RG AP R H1 H3 IG H4 H2 H5 SK).
      + exact (P_Swc.C68_statements_of_called_functions E root walkable st t g b c e x h u RG AP R H1 IG H3 H4 H5 H6 H7 H8 H9 H10 H2 SK).
    - destruct H as (g & b & c & base & q & H1 & H4 & H5 & H6 & [(H2 & H3 & H7)|(c' & h & H2 & H3 & H7)] & H8).
      + exact (P_Swc.C68_method_calls_of_tests E root walkable st t g b c base q sp RG AP R H1 H2 IG H3 H4 H5 H6 H7 (REST _ _ H8) SK).
      + exact (P_Swc.C68_method_calls_of_called_functions E root walkable st t g b c' h c base q sp RG AP R H1 IG H2 H3 H7 H4 H5 H6 (REST _ _ H8) SK). }
  destruct f.
  - destruct W as (root & Q & R), M as (root' & Q' & H). rewrite Q in Q'. injection Q' as <-. exact (JS root Q R H).
  - destruct W as (items & Q & R), M as (items' & Q' & H). rewrite Q in Q'. injection Q' as <-. destruct (PSo _ _ _ SC Q) as [_ NM]. pose proof (DS _ _ _ Q) as AP. destruct k; cbn [sol_required] in H.
    + destruct H as (g & b & s & H1 & H2 & <- & H3 & [(H4 & H5)|(k' & i & sp0 & parts & e & c & h & b' & H4 & H5 & H6 & H7 & H8 & H9)]).
      * exact (P_Sol.C69_statements_of_tests E items walkable st t g b s NM R H1 IG H2 H4 H3 H5 SK).
      * exact (P_Sol.C69_statements_of_called_functions E items walkable st t g b k' i sp0 parts e c h b' s NM AP R H1 IG H2 H4 H5 H6 H7 H8 H9 H3 SK).
    + destruct H as (g & h & b & k' & i & sp0 & parts & e & c & base & q & H1 & H2 & H3 & H4 & H5 & H6 & H7 & H8 & [(-> & H9)|H9] & H10).
      * exact (P_Sol.C69_method_calls_of_tests E items walkable st t g b k' i sp0 parts e c base q sp NM R H1 IG H2 H3 H4 H5 H6 H7 H8 H9 (REST _ _ H10) SK).
      * exact (P_Sol.C69_method_calls_of_called_functions E items walkable st t g h b k' i sp0 parts e c base q sp NM AP R H1 IG H9 H2 H3 H4 H5 H6 H7 H8 (REST _ _ H10) SK).
  - destruct W as (root & Q & R), M as (root' & Q' & H). rewrite Q in Q'. injection Q' as <-. pose proof (DG _ _ _ Q) as AP. destruct k; cbn [go_required] in H.
    + destruct H as (b & u & H1 & <- & H2 & [(H3 & H4 & H5)|(c & e & x & b' & H3 & H4 & H5 & H6 & H7 & H8 & H9 & H10)]).
      * exact (P_GoTree.C64_statements_of_tests E root walkable st t b u R AP H1 IG H3 H2 H4 H5 SK).
      * exact (P_GoTree.C64_statements_of_called_functions E root walkable st t b c e x b' u R AP H1 IG H3 H4 H5 H6 H7 H8 H9 H10 H2 SK).
    + destruct H as (b & c & base & q & H1 & H3 & H4 & H5 & [(H2 & H6)|(b' & H2 & H6)] & H7).
      * exact (P_GoTree.C64_method_calls_of_tests E root walkable st t b c base q sp R AP H1 IG H2 H3 H4 H5 H6 (REST _ _ H7) SK).
      * exact (P_GoTree.C64_method_calls_of_called_functions E root walkable st t b b' c base q sp R AP H1 IG H2 H6 H3 H4 H5 (REST _ _ H7) SK).
  - destruct W as (root & Q & R), M as (root' & Q' & H). rewrite Q in Q'. injection Q' as <-. exact (JS root Q R H).
  - destruct W as (root & Q & R), M as (root' & Q' & H). rewrite Q in Q'. injection Q' as <-. pose proof (DP _ _ _ Q) as AP. destruct k; cbn [php_required] in H.
    + destruct H as (b & u & H1 & <- & H2 & H3 & H4). exact (P_Php.C65_statements_of_tests E root st t b u R AP H1 IG H2 H3 H4 SK).
    + destruct H as (b & c & base & q & H1 & H2 & H3 & H4 & H5 & H6 & H7).
      exact (P_Php.C65_method_calls_of_tests E root st t b c base q sp R AP H1 IG H2 H3 H4 H5 H6 (REST _ _ H7) SK).
  - destruct W as (root & Q & R), M as (root' & Q' & H). rewrite Q in Q'. injection Q' as <-. destruct (DR _ _ _ Q) as [BA PA]. destruct k; cbn [rs_required] in H.
    + destruct H as (g & u & H1 & <- & H2 & [((b & H3) & H4 & H5)|(c & x & b & H3 & H4 & H5 & H6 & H7 & H8 & H9 & H10)]).
      * exact (P_Syn.C67_statements_of_tests _ _ E root walkable st t g b u R H1 H3 IG H4 H2 H5 SK).
      * exact (P_Syn.C67_statements_of_called_functions _ _ E root walkable st t g c x b u R BA H1 IG H3 H4 H5 H6 H7 H8 H9 H10 H2 SK).
    + destruct H as (g & c & base & q & H1 & H4 & H5 & H6 & H7 & [((b & H2) & H3 & H8)|(b & H2 & H3 & H8)] & H9).
      * exact (P_Syn.C67_method_calls_of_tests _ _ E root walkable st t g b c base q sp R PA H1 H2 IG H3 H4 H5 H6 H7 H8 (REST _ _ H9) SK).
      * exact (P_Syn.C67_method_calls_of_called_functions _ _ E root walkable st t g b c base q sp R BA PA H1 IG H2 H3 H4 H5 H6 H7 H8 (REST _ _ H9) SK).
  - destruct W as (root & Q & R), M as (root' & Q' & H). rewrite Q in Q'. injection Q' as <-. exact (JS root Q R H).
Qed.
(** And what is inherited from the functions that are entered. *)
Lemma walked_found f cfg p contents m k sp : parsers_place ps -> parsers_distinct ps -> scalars contents -> walked f cfg p contents m ->
  must_be_found alphanumeric ps f cfg p contents k sp -> exists t, lists m k sp t.
Proof.
  intros PL PD SC (E & walkable & st & RU & -> & W) MC. destruct (MC E walkable RU) as (SK & M). clear MC.
  assert (CE : v_contents E = contents) by apply RU. rewrite <- CE in SC.
  assert (REST : forall call base, rest_of_call (v_contents E) call base sp -> method_span E call base = Some sp) by (intros call base; apply rest_of_call_complete; exact SC).
  destruct PL as [_ _ _ PT PSo], PD as [DG DP DR DT DS]. rewrite CE in SC. destruct f; try solve [destruct M].
  - destruct W as (items & Q & R), M as (items' & Q' & HO & g & b & HE & HB & H). rewrite Q in Q'. injection Q' as <-. destruct (PSo _ _ _ SC Q) as [_ NM]. pose proof (DS _ _ _ Q) as AP. destruct k.
    + destruct H as (s & H1 & H2 & <-). exact (P_Sol.C78_foundry_statements E items walkable st g b s NM AP R HO HE HB H1 H2 SK).
    + destruct H as (k' & i & sp0 & parts & e & c & base & q & H1 & H2 & H3 & H4 & H5 & H6 & H7).
      exact (P_Sol.C78_foundry_method_calls E items walkable st g b k' i sp0 parts e c base q sp NM AP R HO HE HB H1 H2 H3 H4 H5 H6 (REST _ _ H7) SK).
  - destruct W as (root & Q & R), M as (root' & Q' & b & HE & H). rewrite Q in Q'. injection Q' as <-. pose proof (DG _ _ _ Q) as AP. destruct k.
    + destruct H as (u & H1 & H2 & <-). exact (P_GoTree.C78_go_statements E root walkable st b u R AP HE H1 H2 SK).
    + destruct H as (c & base & q & H1 & H2 & H3 & H4 & H5). exact (P_GoTree.C78_go_method_calls E root walkable st b c base q sp R AP HE H1 H2 H3 H4 (REST _ _ H5) SK).
  - destruct W as (root & Q & R), M as (root' & Q' & HO & b & HE & H). rewrite Q in Q'. injection Q' as <-. destruct (DR _ _ _ Q) as [BA PA]. destruct k.
    + destruct H as (u & H1 & H2 & <-). exact (P_Syn.C78_rust_statements _ _ E root walkable st b u R BA HO HE H1 H2 SK).
    + destruct H as (c & base & q & H1 & H2 & H3 & H4 & H5 & H6 & H7). exact (P_Syn.C78_rust_method_calls _ _ E root walkable st b c base q sp R BA PA HO HE H1 H2 H3 H4 H5 H6 (REST _ _ H7) SK).
Qed.
End Lang.

(** The parts of [prepared], with the framework and the configuration. *)
Definition prepared_with (g : setting) (o : options) (sel : option M_Options.framework) (k : disk) (f : M_Options.framework) (c : toml)
    (files : list (path * span_test_maps)) : Prop :=
  acceptable o /\
  (match k_config k with None => c = toml_default | Some t => g_toml g t = Some c end) /\
  choose_framework (g_exists g) sel = Ok f /\
  exists root paths n, M_Main.g_root g (op_root o) = Some root /\
    Forall2 (fun p q => exists full, means root p full /\ g_canon g full = Some q /\ P_Options.within root q) (op_source_files o) paths /\
    g_parse g f c paths (k_src k) = Ok (n, files).

Section Invocations.
Context {V : Type} (yaml : text -> option M_Skill.header) (semver : text -> option V) (vcmp : V -> V -> comparison)
        (vshow : V -> text) (pshow : path -> text) (builtin_skill : text) (builtin_version : V)
        (hash16 : text -> text) (default_toml : text).
Notation invoke := (necessist yaml semver vcmp vshow pshow builtin_skill builtin_version hash16 default_toml).
Context (alphanumeric : char -> bool) (denied : warning -> bool) (ps : parsers).
Context (anchor : finder) (ignored : path -> bool) (root : path) (tree : entry).
Notation reads := (reads_with alphanumeric denied (parser_of ps) anchor ignored root tree).
Context (g : setting) (AL : forall x, alphanumeric x = true -> is_meta x = false) (RW : reads g) (PL : parsers_place ps) (PD : parsers_distinct ps).

Lemma parsed_walk f c paths src n files p m : g_parse g f c paths src = Ok (n, files) -> In (p, m) files -> scalars (src p) /\ walked alphanumeric ps f c p (src p) m.
Proof.
  intros H I. rewrite RW in H. unfold project_parse in H.
  destruct (parse alphanumeric (visitor_of f) (builtin_of f) (parser_of ps f) denied root (read_source root src)
    (fs_is_dir root tree) (fs_is_file root tree) (walk_dir ignored root tree (finder_of anchor f)) c paths) as [ws r] eqn:P.
  cbn [snd] in H. destruct r as [[n' m']| |]; try discriminate. injection H as -> ->.
  destruct (file_walk _ _ _ _ _ _ _ _ _ _ _ _ _ _ _ _ _ P I) as (cc & contents & dws & d & t & st & H1 & H2 & H3 & H4 & H5 & ->).
  apply read_source_inv in H2 as [-> SC]. split; [exact SC|]. eapply walked_spec; eassumption.
Qed.
Lemma prepared_parts o sel k files : prepared g o sel k files -> exists f c, prepared_with g o sel k f c files.
Proof.
  intros (A & r & c & f & paths & n & H1 & _ & (_ & H2) & H3 & _ & H4 & H5). exists f, c. split; [exact A|].
  split; [destruct (k_config k); [exact (proj2 H2)|exact H2]|]. split; [exact H3|]. exists r, paths, n. auto.
Qed.

(** Only what the rules of the language say is a candidate. *)
Theorem C77_sound : forall o sel k f c files, prepared g o sel k files -> prepared_with g o sel k f c files ->
  forall p m kd sp t, In (p, m) files -> lists m kd sp t -> is_candidate alphanumeric ps f c p (k_src k p) kd sp t.
Proof.
  intros o sel k f c files P (_ & _ & _ & r & paths & n & _ & _ & H) p m kd sp t I L.
  destruct (parsed_walk _ _ _ _ _ _ _ _ H I) as [SC W]. apply (walked_sound alphanumeric ps f c p (k_src k p) m kd sp t PL PD SC W L).
  destruct (C76_invocation alphanumeric denied ps anchor ignored root tree g AL RW PL) as [_ B].
  destruct (B o sel k files P p m I) as (_ & _ & D). destruct L as (ts & J & _).
  assert (X : In (Cand sp kd ts) (stm_iter m)).
  { unfold stm_iter. apply in_or_app. destruct kd; [left|right]; apply in_map_iff; exists (sp, ts); split; auto. }
  exact (proj2 (D _ X)).
Qed.
(** All that the rules of the language require is a candidate. *)
Theorem C77_complete : forall o sel k f c files, prepared_with g o sel k f c files ->
  forall p m kd sp t, In (p, m) files -> must_be_candidate alphanumeric ps f c p (k_src k p) kd sp t -> lists m kd sp t.
Proof.
  intros o sel k f c files (_ & _ & _ & r & paths & n & _ & _ & H) p m kd sp t I MC.
  destruct (parsed_walk _ _ _ _ _ _ _ _ H I) as [SC W]. exact (walked_complete alphanumeric ps f c p (k_src k p) m kd sp t PL PD SC W MC).
Qed.
(** All that the rules require in the functions that are entered is a candidate, for some test. *)
Theorem C78_invocation : forall o sel k f c files, prepared_with g o sel k f c files ->
  forall p m kd sp, In (p, m) files -> must_be_found alphanumeric ps f c p (k_src k p) kd sp -> exists t, lists m kd sp t.
Proof.
  intros o sel k f c files (_ & _ & _ & r & paths & n & _ & _ & H) p m kd sp I MC.
  destruct (parsed_walk _ _ _ _ _ _ _ _ H I) as [SC W]. exact (walked_found alphanumeric ps f c p (k_src k p) m kd sp PL PD SC W MC).
Qed.
(** C79, in an invocation: with the trees that solang gives. *)
Theorem C79_invocation : forall solang, (forall p contents, ps_sol ps p contents = option_map M_Solang.to_items (solang p contents)) ->
  forall o sel k c files, prepared_with g o sel k Foundry c files ->
  forall p m u f b s t, In (p, m) files -> solang p (k_src k p) = Some u ->
  S_Solang.test_of u f t -> ~ In t (t_tests c) -> M_Solang.pf_body f = Some b -> S_Solang.reached b s -> S_Solang.plain s ->
  (forall r, S_Solang.last_of f r -> M_Solang.l_id (S_Solang.stmt_loc r) <> M_Solang.l_id (S_Solang.stmt_loc s)) ->
  let sp := M_Solang.l_span (S_Solang.stmt_loc s) in
  (exists before mid after, between (k_src k p) (sp_start sp) (sp_end sp) before mid after /\
    forall i l, code_offset mid i -> line_at (k_src k p) (line (sp_start sp) + i - 1) l -> ~ skip_comment alphanumeric l) ->
  lists m Statement sp t.
Proof.
  intros solang SO o sel k c files PW p m u f b s t I Q Ht Hi Hb Hs Hp Hl sp (before & mid & after & B & NS). subst sp.
  assert (SC : scalars (k_src k p)) by (destruct PW as (_ & _ & _ & r & paths & n & _ & _ & H); exact (proj1 (parsed_walk _ _ _ _ _ _ _ _ H I))).
  apply (C77_complete _ _ _ _ _ _ PW p m Statement _ t I). intros E walkable RU. split; [|split].
  - destruct (v_skip E _) eqn:Vk; [|reflexivity]. exfalso. apply (ru_skip _ _ _ _ _ _ RU SC _ _ _ _ B) in Vk. destruct Vk as (i & l & H1 & H2 & H3). exact (NS i l H1 H2 H3).
  - destruct (v_ign_test E t) eqn:Vk; [|reflexivity]. exfalso. apply Hi, (ru_tests _ _ _ _ _ _ RU). exact Vk.
  - exists (M_Solang.to_items u). split; [rewrite SO, Q; reflexivity|]. exists (M_Solang.to_fun f), (M_Solang.to_stmt b), (M_Solang.to_stmt s).
    split; [apply P_Solang.C79_tests; exists f; auto|]. split; [cbn; rewrite Hb; reflexivity|]. split; [apply P_Solang.to_stmt_span|]. split; [left; apply P_Solang.plain_iff; exact Hp|].
    left. split; [apply P_Solang.C79_reached; exists s; auto|]. intros r Hr. apply P_Solang.last_iff in Hr as (r' & Hr & ->). rewrite !P_Solang.to_stmt_id. exact (Hl _ Hr).
Qed.
(** The same for method calls of Solidity tests. *)
Theorem C80_invocation : forall solang, (forall p contents, ps_sol ps p contents = option_map M_Solang.to_items (solang p contents)) ->
  forall o sel k c files, prepared_with g o sel k Foundry c files ->
  forall p m u f b s e x base q t sp, In (p, m) files -> solang p (k_src k p) = Some u ->
  S_Solang.test_of u f t -> ~ In t (t_tests c) -> M_Solang.pf_body f = Some b -> S_Solang.reached b s -> S_SolangCalls.operand s e -> S_SolangCalls.method x base q ->
  (forall E walkable, rules alphanumeric Foundry c (k_src k p) E walkable ->
     S_SolangCalls.open_among E e x /\ ~ S_SolangCalls.ignored E x /\ ~ S_SolangCalls.method_ignored E x) ->
  (forall l x' r, S_Solang.reached b (M_Solang.TExpression l x') -> M_Solang.l_id (S_SolangCalls.expr_loc x') = M_Solang.l_id (S_SolangCalls.expr_loc x) ->
     S_Solang.last_of f r -> M_Solang.l_id (S_Solang.stmt_loc r) <> M_Solang.l_id l) ->
  rest_of_call (k_src k p) (M_Solang.l_span (S_SolangCalls.expr_loc x)) (M_Solang.l_span (S_SolangCalls.expr_loc base)) sp ->
  (exists before mid after, between (k_src k p) (sp_start sp) (sp_end sp) before mid after /\
    forall i l, code_offset mid i -> line_at (k_src k p) (line (sp_start sp) + i - 1) l -> ~ skip_comment alphanumeric l) ->
  lists m MethodCall sp t.
Proof.
  intros solang SO o sel k c files PW p m u f b s e x base q t sp I Q Ht Hi Hb Hs He Hm Hfree Hl Hsp (before & mid & after & B & NS).
  assert (SC : scalars (k_src k p)) by (destruct PW as (_ & _ & _ & r & paths & n & _ & _ & H); exact (proj1 (parsed_walk _ _ _ _ _ _ _ _ H I))).
  apply (C77_complete _ _ _ _ _ _ PW p m MethodCall _ t I). intros E walkable RU. destruct (Hfree E walkable RU) as (Ho & Hn1 & Hn2). split; [|split].
  - destruct (v_skip E _) eqn:Vk; [|reflexivity]. exfalso. apply (ru_skip _ _ _ _ _ _ RU SC _ _ _ _ B) in Vk. destruct Vk as (i & l & H1 & H2 & H3). exact (NS i l H1 H2 H3).
  - destruct (v_ign_test E t) eqn:Vk; [|reflexivity]. exfalso. apply Hi, (ru_tests _ _ _ _ _ _ RU). exact Vk.
  - exists (M_Solang.to_items u). split; [rewrite SO, Q; reflexivity|].
    destruct (P_SolangCalls.operand_part _ _ He) as (k' & i & sp0 & parts & Qs & Ip).
    exists (M_Solang.to_fun f), (M_Solang.to_fun f), (M_Solang.to_stmt b), k', i, sp0, parts, (M_Solang.to_expr e), (M_Solang.to_expr x), (M_Solang.to_expr base), q.
    split; [apply P_Solang.C79_tests; exists f; auto|]. split; [cbn; rewrite Hb; reflexivity|]. split; [apply P_Solang.C79_reached; eauto|]. split; [exact Ip|].
    split; [apply P_SolangCalls.open_in; [exact Ho|]; destruct Hm as (h & Hh & _); exact (P_SolangCalls.calls_is_call _ _ Hh)|].
    split; [apply P_SolangCalls.method_iff; eauto|]. split; [rewrite P_SolangCalls.ign_iff; exact Hn1|].
    split; [destruct (v_ign_met E (dotted q)) eqn:Vm; [|reflexivity]; exfalso; apply Hn2; exists base, q; auto|]. split.
    + left. split; [reflexivity|]. intros s' r' c' Hs' (Cc & i' & sp' & parts' & Q') Hid Hr. apply P_Solang.C79_reached in Hs' as (s1 & Hs1 & ->).
      apply P_Solang.pt_expression in Q' as (l & e1 & -> & Q' & _). injection Q' as Q' _. subst c'. apply P_Solang.last_iff in Hr as (r & Hr & ->).
      rewrite !P_Solang.to_stmt_id. rewrite !P_SolangCalls.to_expr_id in Hid. exact (Hl l e1 r Hs1 Hid Hr).
    + rewrite !P_SolangCalls.to_expr_span. rewrite (ru_contents _ _ _ _ _ _ RU). exact Hsp.
Qed.
(** So every removal recorded or reported is, for each test that it was tried with, a candidate by those rules. *)
Theorem C77_row : forall o sel k x, In (EInsert x) (a_trace (invoke g o sel k)) \/ In (EConsole x) (a_trace (invoke g o sel k)) ->
  exists f c files cand, prepared g o sel k files /\ prepared_with g o sel k f c files /\ In cand (all_cands files) /\ rm_span x = c_span cand /\
    M_Run.c_tests cand <> [] /\
    forall t, In t (M_Run.c_tests cand) ->
      is_candidate alphanumeric ps f c (sp_path (rm_span x)) (k_src k (sp_path (rm_span x))) (c_kind cand) (rm_span x) t.
Proof.
  intros o sel k x HX.
  assert (T : a_trace (invoke g o sel k) <> []) by (intros E; rewrite E in HX; destruct HX as [[]|[]]).
  destruct (trace_is_run yaml semver vcmp vshow pshow builtin_skill builtin_version hash16 default_toml g o sel k T) as [files [db [P [_ E]]]]. rewrite E in HX. clear T E.
  destruct (C76_invocation alphanumeric denied ps anchor ignored root tree g AL RW PL) as [PW _].
  assert (PO : paths_ok files). { destruct P as (_ & r & c0 & f0 & paths & n & _ & _ & _ & _ & _ & _ & GP). exact (PW _ _ _ _ _ _ GP). }
  destruct (C13_outcome_justified hash16 (k_src k) (oracle_of g o) files (k_src k) db PO x) as [cand [Hc [R1 _]]]; [tauto|].
  destruct (prepared_parts o sel k files P) as (f & c & PP). exists f, c, files, cand. split; [exact P|]. split; [exact PP|]. split; [exact Hc|]. split; [exact R1|].
  unfold all_cands in Hc. apply in_flat_map in Hc as [[p m] [I J]]. cbn [snd] in J. rewrite R1. rewrite (PO p m cand I J).
  assert (L : In (c_span cand, M_Run.c_tests cand) (match c_kind cand with Statement => stm_statement m | MethodCall => stm_method m end)).
  { unfold stm_iter in J. apply in_app_or in J as [J|J]; apply in_map_iff in J as ([s ts] & <- & J); exact J. }
  split.
  - destruct PP as (_ & _ & _ & r & paths & n & _ & _ & H). destruct (parsed_walk _ _ _ _ _ _ _ _ H I) as [_ (E & w & st & _ & -> & R)].
    assert (M : exists E' root', result E' root' st) by (destruct f; destruct R as (z & _ & R); eauto). destruct M as (E' & root' & M).
    apply (C34_tests_nonempty E' root' st (c_span cand) (M_Run.c_tests cand) M). destruct (c_kind cand); [left|right]; exact L.
  - intros t It. apply (C77_sound o sel k f c files P PP p m (c_kind cand) (c_span cand) t I). exists (M_Run.c_tests cand). split; [exact L|exact It].
Qed.
End Invocations.
Print Assumptions C77_sound.
Print Assumptions C77_complete.
Print Assumptions C77_row.
Print Assumptions C78_invocation.
Print Assumptions C79_invocation.
Print Assumptions C80_invocation.

(** ** An example: the Rust file of C67, in an invocation. *)
Lemma ex_distinct : parsers_distinct ex_parsers.
Proof.
  constructor; cbn [ex_parsers ps_go ps_php ps_rust ps_ts ps_sol]; intros p contents t H; apply reads_one_inv in H as (-> & -> & ->).
  - apply P_GoTree.C64_nonvacuous.
  - exact P_Php.php_ex_ids.
  - split; [exact P_Syn.rs_ex_bodies|exact P_Syn.rs_ex_apart].
  - apply P_Swc.C68_nonvacuous.
  - exact P_Sol.g_ids.
Qed.
Definition s_setting : setting :=
  Setting (Env false true (Some ex_root) ex_root) (Some P_Skill.ex_home) P_Skill.ex_sys u_components
    (fun _ => Some ex_root) (fun _ => true) true true None (fun _ => Some toml_default)
    (fun n => Some (text_eqb n (s2t "Cargo.toml"))) (fun _ => true) (fun p => Some p)
    (project_parse ascii_alphanumeric (fun _ => false) (parser_of ex_parsers) find_anchor_mocha (fun _ => false) ex_root r_entry)
    all_ok (fun _ => true) true ex_o (fun _ => []).
Definition s_start : disk := Disk (fun p => if path_eqb p ex_path then P_Syn.rs_ex_text else []) None None (P_Skill.ex_files None None).
Lemma s_required : must_be_candidate ascii_alphanumeric ex_parsers Rust toml_default xp P_Syn.rs_ex_text Statement (M_Syn.x_span (M_Syn.x_info P_Syn.rs_v)) (s2t "c::a").
Proof.
  intros E walkable RU. split; [|split].
  - destruct (v_skip E (M_Syn.x_span (M_Syn.x_info P_Syn.rs_v))) eqn:S; [|reflexivity]. exfalso.
    assert (SC : scalars P_Syn.rs_ex_text) by (apply Forall_forall; intros c I; revert c I; apply forallb_forall; vm_compute; reflexivity).
    assert (B : exists before mid after, between P_Syn.rs_ex_text (LC 2 40) (LC 2 46) before mid after).
    { exists (firstn 48 P_Syn.rs_ex_text), (firstn 6 (skipn 48 P_Syn.rs_ex_text)), (skipn 54 P_Syn.rs_ex_text). repeat split; vm_compute; reflexivity. }
    destruct B as (before & mid & after & B). apply (ru_skip _ _ _ _ _ _ RU SC (M_Syn.x_span (M_Syn.x_info P_Syn.rs_v)) _ _ _ B) in S.
    assert (D : collect ascii_alphanumeric (fun _ => false) P_Syn.rs_ex_text = ([], Ok (Directives false []))) by (vm_compute; reflexivity).
    destruct (C28_skip_iff ascii_alphanumeric (fun _ => false) P_Syn.rs_ex_text [] _ (M_Syn.x_span (M_Syn.x_info P_Syn.rs_v)) before mid after SC D B) as (b & Q & I).
    apply I in S. subst b. vm_compute in Q. discriminate.
  - destruct (v_ign_test E (s2t "c::a")) eqn:S; [|reflexivity]. exfalso. apply (ru_tests _ _ _ _ _ _ RU) in S. destruct S.
  - exists P_Syn.rs_ex. split; [reflexivity|]. cbn [rs_required]. exists P_Syn.rs_a, P_Syn.rs_v.
    destruct P_Syn.C67_nonvacuous as (_ & _ & _ & _ & T & _ & HB & _ & _ & (_ & PS & LA) & _). split; [exact T|]. split; [reflexivity|].
    split; [left; exact PS|]. left. split; [exists P_Syn.rs_a_body; exact HB|]. split; [|exact LA].
    assert (ST : forall t p u, S_Syn.enters t -> M_Syn.x_kind t <> M_Syn.XCall -> (forall m, M_Syn.x_kind t <> M_Syn.XMethod m) -> In p (M_Syn.x_parts t) ->
      S_Syn.rs_in E p u -> S_Syn.rs_in E t u).
    { intros t p u H1 H2 H3 H4 H5. eapply S_Syn.ri_part; [exact H1| |exact H4|exact H5]. intros [(x & Q & _)|(m & r & Q & _)]; exfalso; [exact (H2 Q)|exact (H3 _ Q)]. }
    assert (EN : forall a k l, (match k with M_Syn.XFn _ _ | M_Syn.XMacro _ | M_Syn.XMacroStmt _ => false | _ => true end) = true -> S_Syn.enters (M_Syn.Syn a k l)).
    { intros a k l H. repeat split; intros; destruct k; discriminate. }
    exists P_Syn.rs_a_body. split; [right; left; reflexivity|].
    apply (ST _ P_Syn.rs_blk); [apply EN; reflexivity|discriminate|discriminate|do 4 right; left; reflexivity|].
    apply (ST _ P_Syn.rs_blk_e); [apply EN; reflexivity|discriminate|discriminate|left; reflexivity|].
    apply (ST _ P_Syn.rs_blk_b); [apply EN; reflexivity|discriminate|discriminate|left; reflexivity|].
    apply (ST _ P_Syn.rs_v); [apply EN; reflexivity|discriminate|discriminate|left; reflexivity|]. constructor.
Qed.
Example C77_nonvacuous :
  reads_with ascii_alphanumeric (fun _ => false) (parser_of ex_parsers) find_anchor_mocha (fun _ => false) ex_root r_entry s_setting /\
  parsers_place ex_parsers /\ parsers_distinct ex_parsers /\ (forall x, ascii_alphanumeric x = true -> is_meta x = false) /\
  must_be_candidate ascii_alphanumeric ex_parsers Rust toml_default xp P_Syn.rs_ex_text Statement (M_Syn.x_span (M_Syn.x_info P_Syn.rs_v)) (s2t "c::a") /\
  map rm_text (inserts (a_trace (ex_invoke s_setting plain s_start))) =
    map s2t ["g(x);"; "x.m();"; "h();"; "v = 2;"; "r!();"; ".m()"]%string.
Proof.
  split; [intros f c ps src; reflexivity|]. split; [apply C76_nonvacuous|]. split; [exact ex_distinct|]. split; [exact ascii_literal|]. split; [exact s_required|].
  vm_compute. reflexivity.
Qed.

(** In the same file, with [walkable_functions = ["h"]]: [p();] in [h], which the test [a] calls. *)
Definition s_cfg : toml := Toml [] [] [] None [] None [s2t "h"].
Example C78_invocation_nonvacuous : must_be_found ascii_alphanumeric ex_parsers Rust s_cfg xp P_Syn.rs_ex_text Statement (M_Syn.x_span (M_Syn.x_info P_Syn.rs_p)).
Proof.
  intros E walkable RU. split.
  - destruct (v_skip E (M_Syn.x_span (M_Syn.x_info P_Syn.rs_p))) eqn:S; [|reflexivity]. exfalso.
    assert (SC : scalars P_Syn.rs_ex_text) by (apply Forall_forall; intros c I; revert c I; apply forallb_forall; vm_compute; reflexivity).
    assert (B : exists before mid after, between P_Syn.rs_ex_text (LC 3 9) (LC 3 13) before mid after).
    { exists (firstn 94 P_Syn.rs_ex_text), (firstn 4 (skipn 94 P_Syn.rs_ex_text)), (skipn 98 P_Syn.rs_ex_text). repeat split; vm_compute; reflexivity. }
    destruct B as (before & mid & after & B). apply (ru_skip _ _ _ _ _ _ RU SC (M_Syn.x_span (M_Syn.x_info P_Syn.rs_p)) _ _ _ B) in S.
    assert (D : collect ascii_alphanumeric (fun _ => false) P_Syn.rs_ex_text = ([], Ok (Directives false []))) by (vm_compute; reflexivity).
    destruct (C28_skip_iff ascii_alphanumeric (fun _ => false) P_Syn.rs_ex_text [] _ (M_Syn.x_span (M_Syn.x_info P_Syn.rs_p)) before mid after SC D B) as (b & Q & I).
    apply I in S. subst b. vm_compute in Q. discriminate.
  - exists P_Syn.rs_ex. split; [reflexivity|]. split; [apply P_Syn.rs_ex_only|]. exists P_Syn.rs_hf_body.
    assert (ST : forall t p u, S_Syn.enters t -> M_Syn.x_kind t <> M_Syn.XCall -> (forall m, M_Syn.x_kind t <> M_Syn.XMethod m) -> In p (M_Syn.x_parts t) ->
      S_Syn.rs_in E p u -> S_Syn.rs_in E t u).
    { intros t p u H1 H2 H3 H4 H5. eapply S_Syn.ri_part; [exact H1| |exact H4|exact H5]. intros [(x & Q & _)|(m & r & Q & _)]; exfalso; [exact (H2 Q)|exact (H3 _ Q)]. }
    assert (EN : forall a k l, (match k with M_Syn.XFn _ _ | M_Syn.XMacro _ | M_Syn.XMacroStmt _ => false | _ => true end) = true -> S_Syn.enters (M_Syn.Syn a k l)).
    { intros a k l H. repeat split; intros; destruct k; discriminate. }
    destruct P_Syn.C67_nonvacuous as (_ & _ & _ & _ & H2 & _ & _ & _ & _ & _ & _ & _ & _ & H4 & H5 & H6 & H7 & _ & _).
    split; [|exists P_Syn.rs_p; split; [|split; [|reflexivity]]].
    + eapply S_Syn.rd_test; [exact H2| |].
      * destruct (v_ign_test E (s2t "c::a")) eqn:S; [|reflexivity]. exfalso. apply (ru_tests _ _ _ _ _ _ RU) in S. destruct S.
      * exists P_Syn.rs_h_call, (s2t "h"). split; [|split; [exact H4|split; [exact H5|split; [|split; [exact H6|split; [exact H7|reflexivity]]]]]].
        -- exists P_Syn.rs_a_body. split; [right; left; reflexivity|].
           apply (ST _ P_Syn.rs_h); [apply EN; reflexivity|discriminate|discriminate|do 3 right; left; reflexivity|].
           apply (ST _ P_Syn.rs_h_call); [apply EN; reflexivity|discriminate|discriminate|left; reflexivity|constructor].
        -- apply (ru_walkable _ _ _ _ _ _ RU). exists (s2t "h"). split; [left; reflexivity|]. apply g_char; [discriminate|constructor].
    + exists P_Syn.rs_p. split; [left; reflexivity|constructor].
    + assert (CL : S_Syn.rs_call P_Syn.rs_p_call) by (left; exists P_Syn.rs_p_call_f; split; [reflexivity|eexists; reflexivity]).
      assert (NM : forall b q, ~ S_Syn.rs_method P_Syn.rs_p_call b q).
      { intros b q [(f & (K & a & P) & Hf & Np)|(m & r & q' & (K & _) & _)]; [|discriminate]. injection P as <- <-. inversion Hf as [e Hn|e x b0 base0 q0 (Kf & _) _]; subst; [destruct (Np eq_refl)|discriminate]. }
      right. left. exists P_Syn.rs_p_call. split; [exists true, P_Syn.rs_p_call, []; split; [reflexivity|split; [reflexivity|]]; constructor; left; exact CL|].
      split; [intros (e & r & Q & _); discriminate|]. split.
      * left. split; [exact CL|]. intros [H|(b & q & Hm & _)]; [|exact (NM _ _ Hm)].
        inversion H as [c f q i s0 (K & a & P) _ Kf IG|c b q x Hm _ _|c b q Hm _ _]; subst; [|exact (NM _ _ Hm)|exact (NM _ _ Hm)].
        injection P as <- <-. injection Kf as <- <- <-. apply (ru_functions _ _ _ _ _ _ RU) in IG.
        destruct (compile_config ascii_alphanumeric (fun _ => false) (builtin_of Rust) s_cfg) as [c0| |] eqn:C; [|vm_compute in C; discriminate|vm_compute in C; discriminate].
        assert (F : exists c0', compile_config ascii_alphanumeric (fun _ => false) (builtin_of Rust) s_cfg = Ok c0' /\ any_match_b (c_functions c0') (s2t "p") = false)
          by (eexists; split; [vm_compute; reflexivity|vm_compute; reflexivity]).
        destruct F as (c1 & C1 & F). rewrite C in C1. injection C1 as <-.
        destruct (proj2 (C27_effective ascii_alphanumeric ascii_literal (fun _ => false) (builtin_of Rust) s_cfg) c0 (s2t "p") C) as [W _].
        assert (X : any_match_b (c_functions c0) (s2t "p") = true); [|congruence]. apply any_match_b_spec. apply W. destruct IG as (q & [(qs & Q & I)|I] & G); exists q; (split; [|exact G]); [left; rewrite Q; exact I|right; exact I].
      * intros b (x & Hx & _ & L). apply P_Syn.rs_ex_local in L as [L _].
        pose proof (P_Syn.rs_ex_callee P_Syn.rs_p_call P_Syn.rs_p_call_f (s2t "p") x [] Hx eq_refl eq_refl) as Q. rewrite L in Q. discriminate.
Qed.

(** C79 in an invocation: the Solidity file of [P_Solang]. *)
Definition s_solang : path -> text -> option M_Solang.punit := reads_one P_Solang.p_text P_Solang.p_unit.
Definition s_parsers : parsers :=
  Parsers (ps_go ex_parsers) (ps_php ex_parsers) (ps_rust ex_parsers) (ps_module ex_parsers) (ps_listed ex_parsers) (ps_ts ex_parsers)
    (fun p contents => option_map M_Solang.to_items (s_solang p contents)).
Definition s_sol_setting : setting :=
  Setting (Env false true (Some ex_root) ex_root) (Some P_Skill.ex_home) P_Skill.ex_sys u_components
    (fun _ => Some ex_root) (fun _ => true) true true None (fun _ => Some toml_default)
    (fun n => Some (text_eqb n (s2t "foundry.toml"))) (fun _ => true) (fun p => Some p)
    (project_parse ascii_alphanumeric (fun _ => false) (parser_of s_parsers) find_anchor_mocha (fun _ => false) ex_root r_entry)
    all_ok (fun _ => true) true ex_o (fun _ => []).
Definition s_sol_start : disk := Disk (fun p => if path_eqb p ex_path then P_Solang.p_text else []) None None (P_Skill.ex_files None None).
(** [necessist t.rs], naming the file. *)
Definition s_named : options :=
  Options [] None false [] false false false false false false false false false false None None false false [UPath false ex_path] [].
Example C79_invocation_nonvacuous :
  reads_with ascii_alphanumeric (fun _ => false) (parser_of s_parsers) find_anchor_mocha (fun _ => false) ex_root r_entry s_sol_setting /\
  parsers_place s_parsers /\ parsers_distinct s_parsers /\ (forall p contents, ps_sol s_parsers p contents = option_map M_Solang.to_items (s_solang p contents)) /\
  map rm_text (inserts (a_trace (ex_invoke s_sol_setting s_named s_sol_start))) =
    map s2t ["x = 1;"; "a = 1;"; "b = 2;"; "i = 0;"; "a = 3;"; "a = 4;"; "a = 5;"; "a = 6;"; "assembly { let q := 1 }"; "cb({v: 1});"; "a = 7;"; "while (c) {}"]%string.
Proof.
  split; [intros f c ps src; reflexivity|].
  destruct (proj1 (proj2 C77_nonvacuous)) as [PG PP PR PT _]. destruct ex_distinct as [DG DP DR DT _].
  assert (RO : forall p contents items, ps_sol s_parsers p contents = Some items -> p = xp /\ contents = P_Solang.p_text /\ items = M_Solang.to_items P_Solang.p_unit).
  { intros p contents items H. cbn [s_parsers ps_sol] in H. unfold s_solang in H. destruct (reads_one P_Solang.p_text P_Solang.p_unit p contents) as [u|] eqn:Q; [|discriminate].
    apply reads_one_inv in Q as (-> & -> & ->). injection H as <-. auto. }
  split; [|split; [|split; [reflexivity|vm_compute; reflexivity]]].
  - constructor; [exact PG|exact PP|exact PR|exact PT|]. intros p contents items _ H. apply RO in H as (-> & -> & ->). split; [apply laid_spec; vm_compute; reflexivity|apply P_Solang.p_facts].
  - constructor; [exact DG|exact DP|exact DR|exact DT|]. intros p contents items H. apply RO in H as (_ & _ & ->). apply P_Solang.p_facts.
Qed.

(** The hypothesis of C80_invocation about the rules, for [a.x()] in [n.o{v: 1}(a.x());] and the default configuration. *)
Example C80_invocation_nonvacuous : forall E walkable, rules ascii_alphanumeric Foundry toml_default P_SolangCalls.q_text E walkable ->
  S_SolangCalls.open_among E P_SolangCalls.q_o P_SolangCalls.q_x /\ ~ S_SolangCalls.ignored E P_SolangCalls.q_x /\ ~ S_SolangCalls.method_ignored E P_SolangCalls.q_x.
Proof.
  intros E walkable RU.
  assert (F : exists c, compile_config ascii_alphanumeric (fun _ => false) (builtin_of Foundry) toml_default = Ok c /\
    any_match_b (c_functions c) (s2t "a.x") = false /\ any_match_b (c_functions c) (s2t "n.o") = false /\ any_match_b (c_methods c) (s2t "x") = false /\ any_match_b (c_methods c) (s2t "o") = false)
    by (eexists; split; [vm_compute; reflexivity|repeat split; vm_compute; reflexivity]).
  destruct F as (c & C & F1 & F2 & F3 & F4).
  assert (NF : forall n, any_match_b (c_functions c) n = false -> v_ign_fun E n = false).
  { intros n H. destruct (v_ign_fun E n) eqn:Q; [|reflexivity]. exfalso. apply (ru_functions _ _ _ _ _ _ RU) in Q.
    destruct (proj2 (C27_effective ascii_alphanumeric ascii_literal (fun _ => false) (builtin_of Foundry) toml_default) c n C) as (W & _).
    assert (X : any_match_b (c_functions c) n = true); [|congruence]. apply any_match_b_spec, W. destruct Q as (q & [(qs & Q & I)|I] & G); exists q; (split; [|exact G]); [left; rewrite Q; exact I|right; exact I]. }
  assert (NG : forall n, any_match_b (c_methods c) n = false -> v_ign_met E n = false).
  { intros n H. destruct (v_ign_met E n) eqn:Q; [|reflexivity]. exfalso. apply (ru_methods _ _ _ _ _ _ RU) in Q.
    destruct (proj2 (C27_effective ascii_alphanumeric ascii_literal (fun _ => false) (builtin_of Foundry) toml_default) c n C) as (_ & _ & W & _).
    assert (X : any_match_b (c_methods c) n = true); [|congruence]. apply any_match_b_spec, W. destruct Q as (q & [(qs & Q & I)|I] & G); exists q; (split; [|exact G]); [left; rewrite Q; exact I|right; exact I]. }
  assert (D : v_disamb E = DNone) by (rewrite (ru_disambiguation _ _ _ _ _ _ RU); reflexivity).
  assert (N1 : ~ S_SolangCalls.ignored E P_SolangCalls.q_x).
  { eapply P_SolangCalls.not_ignored; [exact D|discriminate|apply P_SolangCalls.q_member|apply NF; exact F1|apply NG; exact F3]. }
  assert (N2 : ~ S_SolangCalls.ignored E P_SolangCalls.q_o).
  { eapply P_SolangCalls.not_ignored; [exact D|discriminate|apply P_SolangCalls.q_o_method|apply NF; exact F2|apply NG; exact F4]. }
  split; [|split; [exact N1|]].
  - eapply S_SolangCalls.oa_argument; [right; split; [exact N2|]|left; reflexivity|constructor].
    intros (b & q & Hm & Hq). destruct (P_SolangCalls.method_unique _ _ _ _ _ P_SolangCalls.q_o_method Hm) as [_ <-]. rewrite P_SolangCalls.dotted_one in Hq. rewrite (NG _ F4) in Hq. discriminate.
  - intros (b & q & Hm & Hq). destruct (P_SolangCalls.method_unique _ _ _ _ _ (P_SolangCalls.q_member _ _ _ _ _ _) Hm) as [_ <-]. rewrite P_SolangCalls.dotted_one in Hq. rewrite (NG _ F3) in Hq. discriminate.
Qed.
