(** Candidates in terms of the source files of the project: the rules of C64, C65, C67, C68 and C69, for whichever framework is
    used, with the user's configuration and the skip comments. *)
From Verif Require Import Base M_Text S_Text M_Rewriter M_Span M_Run S_Run M_Options M_Config P_Config M_Visitor S_Visitor M_Directives S_Directives M_Lang.
From Verif Require M_Tree S_Tree M_Syn S_Syn M_Swc S_Swc M_Foundry S_Foundry S_Sol.

Section Spec.
Context (alphanumeric : char -> bool) (ps : parsers).

(** [E] and [walkable] are what the framework's own lists, the user's configuration [cfg] and the comments in the file say. *)
Record rules (f : M_Options.framework) (cfg : toml) (contents : text) (E : venv) (walkable : text -> bool) : Prop := {
  ru_contents : v_contents E = contents;
  ru_functions : forall name, v_ign_fun E name = true <->
    exists q, ((exists qs, b_functions (builtin_of f) = Some qs /\ In q qs) \/ In q (t_functions cfg)) /\ glob q name;
  ru_macros : forall name, v_ign_mac E name = true <->
    exists q, ((exists qs, b_macros (builtin_of f) = Some qs /\ In q qs) \/ In q (t_macros cfg)) /\ glob q name;
  ru_methods : forall name, v_ign_met E name = true <->
    exists q, ((exists qs, b_methods (builtin_of f) = Some qs /\ In q qs) \/ In q (t_methods cfg)) /\ method_glob q name;
  ru_tests : forall name, v_ign_test E name = true <-> In name (t_tests cfg);
  ru_arguments : v_visit_args E = true <-> t_visit_args cfg = Some true;
  ru_disambiguation : v_disamb E = match t_disambiguation cfg with Some d => d | None => DNone end;
  ru_walkable : forall name, walkable name = true <-> exists q, In q (t_walkable cfg) /\ glob q name;
  ru_skip : scalars contents -> forall sp before mid after, between contents (sp_start sp) (sp_end sp) before mid after ->
    (v_skip E sp = true <-> exists k l, code_offset mid k /\ line_at contents (line (sp_start sp) + k - 1) l /\ skip_comment alphanumeric l)
}.

(** [sp] is what is left of the method call [call] without the receiver [base], and without the space after it. *)
Definition rest_of_call (contents : text) (call base sp : span) : Prop :=
  sp_path sp = sp_path call /\
  exists before blank rest after, between contents (sp_end base) (sp_end call) before (blank ++ rest) after /\
    Forall (fun c => is_whitespace c = true) blank /\ (rest = [] \/ exists x r, rest = x :: r /\ is_whitespace x = false) /\
    between contents (sp_start sp) (sp_end sp) (before ++ blank) rest after.

(** What a candidate for the test [t] is, in each language. *)
Section Languages.
Context (E : venv) (walkable : text -> bool) (sp : span) (t : text).
Definition go_found (root : M_Tree.tree) (k : kind) : Prop :=
  match k with
  | Statement =>
    exists b u, (exists f x, In (f, x) (M_Tree.t_kids b) /\ S_Tree.inside x u) /\ M_Tree.t_stmt (M_Tree.t_info u) = true /\ M_Tree.t_span (M_Tree.t_info u) = sp /\
      ~ S_Tree.go_kept_kind (M_Tree.kind_of u) /\
      ((S_Tree.go_test root t b /\ ~ S_Tree.go_last b u) \/ (S_Tree.go_runs root walkable t b /\ exists x, S_Tree.go_local root x b)) /\
      ((exists c, S_Tree.go_call_statement u c /\ ~ S_Tree.go_ignored_call E c) \/
       ((forall c, ~ S_Tree.go_call_statement u c) /\
        forall f x v, In (f, x) (M_Tree.t_kids u) -> S_Tree.reaches (S_Tree.go_open E) x v -> M_Tree.t_stmt (M_Tree.t_info v) = false))
  | MethodCall =>
    exists b c base q, (exists f x, In (f, x) (M_Tree.t_kids b) /\ S_Tree.inside x c) /\ S_Tree.go_method c base q /\
      rest_of_call (v_contents E) (M_Tree.t_span (M_Tree.t_info c)) (M_Tree.t_span (M_Tree.t_info base)) sp /\
      ~ S_Tree.go_ignored_call E c /\ ~ S_Tree.go_ignored_method E c /\
      (S_Tree.go_test root t b \/ (S_Tree.go_runs root walkable t b /\ exists x, S_Tree.go_local root x b))
  end.
Definition php_found (root : M_Tree.tree) (k : kind) : Prop :=
  match k with
  | Statement =>
    exists b u, S_Tree.php_test root t b /\ S_Tree.php_stmt_in b u /\ M_Tree.t_span (M_Tree.t_info u) = sp /\ ~ S_Tree.php_last b u /\ ~ S_Tree.php_kept u /\
      ((exists c, S_Tree.php_call_statement u c /\ ~ S_Tree.php_ignored_call E c) \/
       ((forall c, ~ S_Tree.php_call_statement u c) /\ forall v, ~ S_Tree.php_statement_of E u v))
  | MethodCall =>
    exists b c base q, S_Tree.php_test root t b /\ S_Tree.inside b c /\ S_Tree.php_method c base q /\
      rest_of_call (v_contents E) (M_Tree.t_span (M_Tree.t_info c)) (M_Tree.t_span (M_Tree.t_info base)) sp /\
      ~ S_Tree.php_ignored_call E c /\ ~ S_Tree.php_ignored_method E c
  end.
Definition rs_found (fs : option (list text)) (listed : text -> bool) (root : M_Syn.syn) (k : kind) : Prop :=
  match k with
  | Statement =>
    exists n u, S_Syn.rs_code fs listed root walkable t n u /\ S_Syn.rs_stmt u /\ M_Syn.x_span (M_Syn.x_info u) = sp /\ ~ S_Syn.rs_kept u /\ ~ S_Syn.block_value u /\
      ((exists c, S_Syn.rs_call_statement u c /\ S_Syn.rs_call c /\ ~ S_Syn.rs_ignored_call E c) \/
       (exists c q, S_Syn.rs_call_statement u c /\ S_Syn.rs_macro c q /\ v_ign_mac E q = false) \/
       (exists q, S_Syn.rs_macro_statement u q /\ v_ign_mac E q = false) \/
       ((forall c, ~ S_Syn.rs_call_statement u c) /\ (forall q, ~ S_Syn.rs_macro_statement u q) /\
        forall x v, In x (M_Syn.x_parts u) -> S_Syn.enters u -> S_Syn.rs_in E x v -> ~ S_Syn.rs_stmt v))
  | MethodCall =>
    exists n c base q, S_Syn.rs_within n c /\ (S_Syn.rs_test_somewhere fs listed root n t \/ (S_Syn.rs_runs fs listed root walkable t n /\ exists x, S_Syn.rs_local root x n)) /\
      S_Syn.rs_method c base q /\ rest_of_call (v_contents E) (M_Syn.x_span (M_Syn.x_info c)) (M_Syn.x_span (M_Syn.x_info base)) sp /\
      ~ S_Syn.rs_ignored_call E c /\ ~ S_Syn.rs_ignored_method E c
  end.
Definition js_found (root : M_Swc.swc) (k : kind) : Prop :=
  match k with
  | Statement =>
    exists n u, S_Swc.js_code root walkable t n u /\ S_Swc.js_stmt u /\ M_Swc.j_span (M_Swc.j_info u) = sp /\ ~ S_Swc.js_kept u /\
      ((exists c, S_Swc.js_call_statement u c /\ ~ S_Swc.js_ignored_call E c) \/
       ((forall c, ~ S_Swc.js_call_statement u c) /\ forall x v, In x (M_Swc.j_parts u) -> S_Swc.js_in E x v -> ~ S_Swc.js_stmt v))
  | MethodCall =>
    exists n c base q, S_Swc.js_part n c /\ ((exists b, S_Swc.js_some_test root n t b) \/ (S_Swc.js_runs root walkable t n /\ exists x, S_Swc.js_local root x n)) /\
      S_Swc.js_method c base q /\ rest_of_call (v_contents E) (M_Swc.j_span (M_Swc.j_info c)) (M_Swc.j_span (M_Swc.j_info base)) sp /\
      ~ S_Swc.js_ignored_call E c /\ ~ S_Swc.js_ignored_method E c
  end.
Definition sol_found (items : list M_Foundry.sitem) (k : kind) : Prop :=
  match k with
  | Statement =>
    exists s, S_Sol.sol_code items walkable t s /\ S_Foundry.stmt_span s = sp /\ ~ S_Sol.sol_kept s /\
      ((exists c, S_Sol.sol_call_statement s c /\ ~ S_Sol.sol_ignored_call E c) \/
       ((forall c, ~ S_Sol.sol_call_statement s c) /\
        forall k i parts x s', s = M_Foundry.SStmt k i sp parts -> In (M_Foundry.PStmt x) parts -> S_Foundry.exposed x s' -> ~ S_Foundry.proper s'))
  | MethodCall =>
    exists f c base q, (S_Sol.sol_test items f t \/ S_Sol.sol_calls items walkable t f) /\ S_Sol.sol_expr_of f c /\ S_Sol.sol_method c base q /\
      rest_of_call (v_contents E) (M_Foundry.expr_span c) (M_Foundry.expr_span base) sp /\ ~ S_Sol.sol_ignored_call E c /\ ~ S_Sol.sol_ignored_method E c
  end.
End Languages.

(** [sp] is a candidate of kind [k] for the test [t] in the file [p], which reads [contents]. *)
Definition is_candidate (f : M_Options.framework) (cfg : toml) (p : path) (contents : text) (k : kind) (sp : span) (t : text) : Prop :=
  exists E walkable, rules f cfg contents E walkable /\ v_skip E sp = false /\ v_ign_test E t = false /\
    match f with
    | Go => exists root, ps_go ps p contents = Some root /\ go_found E walkable sp t root k
    | Php => exists root, ps_php ps p contents = Some root /\ php_found E sp t root k
    | Rust => exists root, ps_rust ps p contents = Some root /\ rs_found E walkable sp t (ps_module ps p) (ps_listed ps p) root k
    | Anchor | Hardhat | Vitest => exists root, ps_ts ps p contents = Some root /\ js_found E walkable sp t root k
    | Foundry => exists items, ps_sol ps p contents = Some items /\ sol_found E walkable sp t items k
    end.

(** The nodes of a tree have identities of their own; no two functions of a Rust file have the same text. *)
Record parsers_distinct : Prop := {
  pd_go : forall p contents t, ps_go ps p contents = Some t -> NoDup (S_Tree.tree_ids t);
  pd_php : forall p contents t, ps_php ps p contents = Some t -> NoDup (S_Tree.tree_ids t);
  pd_rust : forall p contents t, ps_rust ps p contents = Some t -> S_Syn.bodies_apart t /\ S_Syn.places_apart t;
  pd_ts : forall p contents t, ps_ts ps p contents = Some t -> S_Swc.js_apart t;
  pd_sol : forall p contents t, ps_sol ps p contents = Some t -> NoDup (map M_Foundry.f_id (M_Foundry.functions t))
}.

(** What must be a candidate for the test [t]: the statements of the test that are no calls and have no statements in them, or are
    calls that are not ignored and not of a function that is entered, except the last; those of the functions that it calls
    directly, if the configuration says that they are to be entered; and the method calls, of the test and of those functions,
    that are not ignored. *)
Section Required.
Context (E : venv) (walkable : text -> bool) (sp : span) (t : text).
Definition go_required (root : M_Tree.tree) (k : kind) : Prop :=
  match k with
  | Statement =>
    exists b u, S_Tree.go_test root t b /\ M_Tree.t_span (M_Tree.t_info u) = sp /\
      (S_Tree.go_plain_statement u \/ S_Tree.go_removable_call E root walkable u) /\
      ((S_Tree.go_in E b u /\ ~ S_Tree.go_last b u /\ M_Tree.kind_of u <> s2t "statement_list") \/
       (exists c f x b', S_Tree.go_in E b c /\ S_Tree.go_call c /\ M_Tree.child (s2t "function") c = Some f /\ S_Tree.go_identifier f x /\ walkable x = true /\
          S_Tree.go_local root x b' /\ (forall b'', S_Tree.go_local root x b'' -> b'' = b') /\ S_Tree.go_in E b' u))
  | MethodCall =>
    exists b c base q, S_Tree.go_test root t b /\ S_Tree.go_method c base q /\ ~ S_Tree.go_ignored_call E c /\ ~ S_Tree.go_ignored_method E c /\
      ((S_Tree.go_in E b c /\ forall u, S_Tree.go_last b u -> ~ S_Tree.go_call_statement u c) \/
       (exists b', S_Tree.go_enters E root walkable b b' /\ S_Tree.go_in E b' c)) /\
      rest_of_call (v_contents E) (M_Tree.t_span (M_Tree.t_info c)) (M_Tree.t_span (M_Tree.t_info base)) sp
  end.
Definition php_required (root : M_Tree.tree) (k : kind) : Prop :=
  match k with
  | Statement =>
    exists b u, S_Tree.php_test root t b /\ M_Tree.t_span (M_Tree.t_info u) = sp /\ S_Tree.php_statement_of E b u /\
      (S_Tree.php_plain_statement u \/ S_Tree.php_removable_call E u) /\ ~ S_Tree.php_last b u
  | MethodCall =>
    exists b c base q, S_Tree.php_test root t b /\ S_Tree.php_part_of E b c /\ S_Tree.php_method c base q /\ ~ S_Tree.php_ignored_call E c /\ ~ S_Tree.php_ignored_method E c /\
      (forall u, S_Tree.php_last b u -> ~ S_Tree.php_call_statement u c) /\
      rest_of_call (v_contents E) (M_Tree.t_span (M_Tree.t_info c)) (M_Tree.t_span (M_Tree.t_info base)) sp
  end.
Definition rs_required (fs : option (list text)) (listed : text -> bool) (root : M_Syn.syn) (k : kind) : Prop :=
  match k with
  | Statement =>
    exists f u, S_Syn.rs_test fs listed root f t /\ M_Syn.x_span (M_Syn.x_info u) = sp /\
      (S_Syn.rs_plain_statement u \/ S_Syn.rs_removable_call E root walkable u) /\
      ((exists b, S_Syn.has_body f b) /\ S_Syn.rs_part E f u /\ (forall l, S_Syn.rs_last f l -> M_Syn.tokens l <> M_Syn.tokens u) \/
       (exists c x b, S_Syn.rs_part E f c /\ S_Syn.rs_call c /\ S_Syn.callee_name c x /\ walkable x = true /\
          S_Syn.rs_local root x b /\ (forall b', S_Syn.rs_local root x b' -> b' = b) /\ M_Syn.x_kind b = M_Syn.XPart /\ S_Syn.rs_part E b u))
  | MethodCall =>
    exists f c base q, S_Syn.rs_test fs listed root f t /\ S_Syn.rs_method c base q /\
      ~ S_Syn.rs_ignored_call E c /\ v_ign_met E (dotted q) = false /\ (forall g, ~ S_Syn.rs_local_call root walkable c g) /\
      (((exists b, S_Syn.has_body f b) /\ S_Syn.rs_part E f c /\
        forall u, S_Syn.part_of f u -> S_Syn.rs_call_statement u c -> ~ S_Syn.block_value u /\ forall l, S_Syn.rs_last f l -> M_Syn.tokens l <> M_Syn.tokens u) \/
       (exists b, S_Syn.rs_enters E root walkable f b /\ S_Syn.rs_part E b c /\ forall u, S_Syn.part_of b u -> S_Syn.rs_call_statement u c -> ~ S_Syn.block_value u)) /\
      rest_of_call (v_contents E) (M_Syn.x_span (M_Syn.x_info c)) (M_Syn.x_span (M_Syn.x_info base)) sp
  end.
Definition js_required (root : M_Swc.swc) (k : kind) : Prop :=
  match k with
  | Statement =>
    exists f b u, S_Swc.js_test root f t b /\ M_Swc.j_span (M_Swc.j_info u) = sp /\
      (S_Swc.js_plain_statement u \/ S_Swc.js_removable_call E root walkable u) /\
      ((M_Swc.j_kind b = M_Swc.JPart /\ S_Swc.js_in E b u /\ ~ S_Swc.js_last b u) \/
       (exists c g x h, S_Swc.js_in E b c /\ S_Swc.js_call_of c g /\ M_Swc.j_kind g = M_Swc.JIdent x /\ walkable x = true /\ (forall m b', ~ S_Swc.it_expr c m b') /\
          S_Swc.js_local root x h /\ (forall h', S_Swc.js_local root x h' -> h' = h) /\ S_Swc.js_below E h u))
  | MethodCall =>
    exists f b c base q, S_Swc.js_test root f t b /\ S_Swc.js_method c base q /\
      ~ S_Swc.js_ignored_call E c /\ v_ign_met E (dotted q) = false /\
      ((M_Swc.j_kind b = M_Swc.JPart /\ S_Swc.js_in E b c /\ forall u, S_Swc.js_last b u -> ~ S_Swc.js_call_statement u c) \/
       (exists c' h, S_Swc.js_in E b c' /\ S_Swc.js_enters root walkable c' h /\ S_Swc.js_below E h c)) /\
      rest_of_call (v_contents E) (M_Swc.j_span (M_Swc.j_info c)) (M_Swc.j_span (M_Swc.j_info base)) sp
  end.
Definition sol_required (items : list M_Foundry.sitem) (k : kind) : Prop :=
  match k with
  | Statement =>
    exists f b s, S_Sol.sol_test items f t /\ M_Foundry.f_body f = Some b /\ S_Foundry.stmt_span s = sp /\
      (S_Sol.sol_plain s \/ S_Sol.sol_removable_call E items walkable s) /\
      ((S_Foundry.exposed b s /\ forall u, S_Sol.sol_last f u -> S_Foundry.stmt_id u <> S_Foundry.stmt_id s) \/
       (exists k' i sp0 parts e c g h, S_Foundry.exposed b (M_Foundry.SStmt k' i sp0 parts) /\ In (M_Foundry.PExpr e) parts /\ S_Sol.sol_in E e c /\
          S_Sol.sol_local_call items walkable c g /\ M_Foundry.f_body g = Some h /\ S_Foundry.exposed h s))
  | MethodCall =>
    exists f g b k' i sp0 parts e c base q, S_Sol.sol_test items f t /\ M_Foundry.f_body g = Some b /\ S_Foundry.exposed b (M_Foundry.SStmt k' i sp0 parts) /\
      In (M_Foundry.PExpr e) parts /\ S_Sol.sol_in E e c /\ S_Sol.sol_method c base q /\ ~ S_Sol.sol_ignored_call E c /\ v_ign_met E (dotted q) = false /\
      ((g = f /\ forall s u c', S_Foundry.exposed b s -> S_Sol.sol_call_statement s c' -> M_Foundry.expr_id c' = M_Foundry.expr_id c -> S_Sol.sol_last f u -> S_Foundry.stmt_id u <> S_Foundry.stmt_id s) \/
       S_Sol.sol_enters E items walkable f g) /\
      rest_of_call (v_contents E) (M_Foundry.expr_span c) (M_Foundry.expr_span base) sp
  end.
End Required.
Definition must_be_candidate (f : M_Options.framework) (cfg : toml) (p : path) (contents : text) (k : kind) (sp : span) (t : text) : Prop :=
  forall E walkable, rules f cfg contents E walkable -> v_skip E sp = false /\ v_ign_test E t = false /\
    match f with
    | Go => exists root, ps_go ps p contents = Some root /\ go_required E walkable sp t root k
    | Php => exists root, ps_php ps p contents = Some root /\ php_required E sp t root k
    | Rust => exists root, ps_rust ps p contents = Some root /\ rs_required E walkable sp t (ps_module ps p) (ps_listed ps p) root k
    | Anchor | Hardhat | Vitest => exists root, ps_ts ps p contents = Some root /\ js_required E walkable sp t root k
    | Foundry => exists items, ps_sol ps p contents = Some items /\ sol_required E walkable sp t items k
    end.
(** What must be a candidate for some test: the statements and the method calls of the functions that are entered from tests, through any
    number of calls. In Go, Rust and Foundry projects; no function is entered in PHP, and for TypeScript it does not hold. *)
Section Entered.
Context (E : venv) (walkable : text -> bool) (sp : span).
Definition go_inherited (root : M_Tree.tree) (k : kind) : Prop :=
  exists b, S_Tree.go_entered E root walkable b /\
  match k with
  | Statement => exists u, S_Tree.go_in E b u /\ (S_Tree.go_plain_statement u \/ S_Tree.go_removable_call E root walkable u) /\ M_Tree.t_span (M_Tree.t_info u) = sp
  | MethodCall => exists c base q, S_Tree.go_in E b c /\ S_Tree.go_method c base q /\ ~ S_Tree.go_ignored_call E c /\ ~ S_Tree.go_ignored_method E c /\
      rest_of_call (v_contents E) (M_Tree.t_span (M_Tree.t_info c)) (M_Tree.t_span (M_Tree.t_info base)) sp
  end.
Definition rs_inherited (fs : option (list text)) (listed : text -> bool) (root : M_Syn.syn) (k : kind) : Prop :=
  S_Syn.rs_calls_in_tests root walkable /\ exists b, S_Syn.rs_entered fs listed E root walkable b /\
  match k with
  | Statement => exists u, S_Syn.rs_part E b u /\ (S_Syn.rs_plain_statement u \/ S_Syn.rs_removable_call E root walkable u) /\ M_Syn.x_span (M_Syn.x_info u) = sp
  | MethodCall => exists c base q, S_Syn.rs_part E b c /\ S_Syn.rs_method c base q /\ ~ S_Syn.rs_ignored_call E c /\ v_ign_met E (dotted q) = false /\
      (forall g, ~ S_Syn.rs_local_call root walkable c g) /\ (forall u, S_Syn.part_of b u -> S_Syn.rs_call_statement u c -> ~ S_Syn.block_value u) /\
      rest_of_call (v_contents E) (M_Syn.x_span (M_Syn.x_info c)) (M_Syn.x_span (M_Syn.x_info base)) sp
  end.
Definition sol_inherited (items : list M_Foundry.sitem) (k : kind) : Prop :=
  S_Sol.sol_calls_in_functions items walkable /\ exists g b, S_Sol.sol_entered E items walkable g /\ M_Foundry.f_body g = Some b /\
  match k with
  | Statement => exists s, S_Foundry.exposed b s /\ (S_Sol.sol_plain s \/ S_Sol.sol_removable_call E items walkable s) /\ S_Foundry.stmt_span s = sp
  | MethodCall => exists k' i sp0 parts e c base q, S_Foundry.exposed b (M_Foundry.SStmt k' i sp0 parts) /\ In (M_Foundry.PExpr e) parts /\ S_Sol.sol_in E e c /\
      S_Sol.sol_method c base q /\ ~ S_Sol.sol_ignored_call E c /\ v_ign_met E (dotted q) = false /\
      rest_of_call (v_contents E) (M_Foundry.expr_span c) (M_Foundry.expr_span base) sp
  end.
End Entered.
Definition must_be_found (f : M_Options.framework) (cfg : toml) (p : path) (contents : text) (k : kind) (sp : span) : Prop :=
  forall E walkable, rules f cfg contents E walkable -> v_skip E sp = false /\
    match f with
    | Go => exists root, ps_go ps p contents = Some root /\ go_inherited E walkable sp root k
    | Rust => exists root, ps_rust ps p contents = Some root /\ rs_inherited E walkable sp (ps_module ps p) (ps_listed ps p) root k
    | Foundry => exists items, ps_sol ps p contents = Some items /\ sol_inherited E walkable sp items k
    | Php | Anchor | Hardhat | Vitest => False
    end.
End Spec.
