(** Model of backends/src/generic_visitor.rs and of the traversals that drive it:
    backends/src/rust/visitor.rs, go/visitor.rs, php/visitor.rs,
    ts/inner/visitor.rs, foundry/visitor/mod.rs.

    The five parsers' syntax trees are represented by one rose tree, whose nodes are
    what the framework tells the generic visitor through [ParseLow]
    (backends/src/parsing.rs:88-300): statements, awaits, fields, calls, macro calls,
    names, tests, and everything else.  Producing the tree from the source text is the
    work of the external parsers and of the [ParseLow] classification functions; it
    is not modelled. *)
From Verif Require Import Base M_Text M_Rewriter M_Span M_Run.

(** What a node is, as answered by the [ParseLow] functions.

    - [KStmt removable control decl isexpr]: a statement, with the answers of
      [statement_is_removable], [statement_is_control], [statement_is_declaration], and
      whether [statement_is_expression] is [Some] (then the expression is the first
      child);
    - [KAwait]: first child = [await_arg];
    - [KField name]: first child = [field_base], [name] = [Field::name];
    - [KCall hidden name]: first child = [call_callee], the others are the arguments;
      [name] = [Call::name]; [hidden] marks TypeScript's [it("..", ..)] calls outside
      statement position, whose [visit_call] is bypassed (ts/inner/visitor.rs:108-112).
      A Rust method call is a call whose callee is a field on the receiver
      (rust/mod.rs:582-605, [Field::MethodCall]);
    - [KMacro name];
    - [KIdent name]: an expression that is just a name ([Expression::name] is [Some]);
    - [KTest name body]: a test; [body] is the index of the child whose children are
      [test_statements];
    - [KExpr]: any other expression; [KGroup]: any other construct (blocks, items). *)
Inductive nkind :=
| KStmt (removable control decl isexpr : bool)
| KAwait
| KField (name : option text)
| KCall (hidden : bool) (name : option text)
| KMacro (name : text)
| KIdent (name : text)
| KTest (name : text) (body : nat)
| KExpr
| KGroup.

(** [l_id] is the node's identity (its address in the tree); [l_text] stands for the
    tokens that belong to the node itself. *)
Record label := Label { l_id : nat; l_kind : nkind; l_text : text; l_span : span }.

Inductive node := Node (lab : label) (kids : list node).

Definition n_lab (n : node) : label := match n with Node l _ => l end.
Definition n_kids (n : node) : list node := match n with Node _ k => k end.
Definition n_kind (n : node) : nkind := l_kind (n_lab n).
Definition n_span (n : node) : span := l_span (n_lab n).
Definition n_id (n : node) : nat := l_id (n_lab n).

Definition otext_eqb (a b : option text) : bool :=
  match a, b with
  | None, None => true
  | Some x, Some y => text_eqb x y
  | _, _ => false
  end.

Definition nkind_eqb (a b : nkind) : bool :=
  match a, b with
  | KStmt r c d e, KStmt r' c' d' e' =>
    Bool.eqb r r' && Bool.eqb c c' && Bool.eqb d d' && Bool.eqb e e'
  | KAwait, KAwait => true
  | KField x, KField y => otext_eqb x y
  | KCall h x, KCall h' y => Bool.eqb h h' && otext_eqb x y
  | KMacro x, KMacro y => text_eqb x y
  | KIdent x, KIdent y => text_eqb x y
  | KTest x i, KTest y j => text_eqb x y && (i =? j)%nat
  | KExpr, KExpr => true
  | KGroup, KGroup => true
  | _, _ => false
  end.

(** Structural equality, which ignores positions: [PartialEq] of [syn] types
    (backends/Cargo.toml:67, feature ["extra-traits"]). *)
Fixpoint shape_eqb (a b : node) {struct a} : bool :=
  match a, b with
  | Node l ks, Node l' ks' =>
    nkind_eqb (l_kind l) (l_kind l') && text_eqb (l_text l) (l_text l') &&
    (fix go (xs ys : list node) : bool :=
       match xs, ys with
       | [], [] => true
       | x :: xs', y :: ys' => shape_eqb x y && go xs' ys'
       | _, _ => false
       end) ks ks'
  end.

(** How a framework's traversal and types differ.

    - [fw_expr_kids]: the traversal descends into expressions that are not calls.  True
      for Rust (syn's default visitors), TypeScript (ts/inner/visitor.rs:133), Go and PHP
      (they walk every syntax node); false for Foundry (foundry/visitor/mod.rs:147-172).
    - [fw_skip_whole]: when [visit_call] returns false, the callee is skipped as well.
      True for Go and PHP ([cursor.skip()], go/visitor.rs:209-219); false for Rust
      (rust/visitor.rs:194, 238), TypeScript (ts/inner/visitor.rs:125), Foundry
      (foundry/visitor/mod.rs:163).
    - [fw_names_all]: [Expression::name] also names calls, fields and macro calls
      (rust/mod.rs:225-235).
    - [fw_structural]: the [==] of statements and local functions is structural and
      ignores positions (rust/mod.rs:203-204, [&syn::Block], [&syn::Stmt]).  For the
      others it distinguishes any two nodes of a file: tree-sitter nodes compare by
      identity, swc and solang nodes include their locations. *)
Record framework := Framework {
  fw_expr_kids : bool;
  fw_skip_whole : bool;
  fw_names_all : bool;
  fw_structural : bool
}.
Definition fw_rust := Framework true false true true.
Definition fw_ts := Framework true false false false.
Definition fw_go := Framework true true false false.
Definition fw_php := Framework true true false false.
Definition fw_foundry := Framework false false false false.

(** core/src/config.rs:64-70 [IgnoredPathDisambiguation]. *)
Inductive disambiguation := DNone | DFunction | DMethod.

(** What the visitor reads: the compiled configuration (core/src/config.rs:15-54), the
    walkable functions (backends/src/parsing.rs:420-424), the skip directives
    (backends/src/directives.rs:61-65), and the file contents (for [trim_start]). *)
Record venv := VEnv {
  v_fw : framework;
  v_ign_fun : text -> bool;
  v_ign_mac : text -> bool;
  v_ign_met : text -> bool;
  v_ign_test : text -> bool;
  v_visit_args : bool;
  v_disamb : disambiguation;
  v_walkable : text -> list node;
  v_skip : span -> bool;
  v_contents : text
}.

(** generic_visitor.rs:36-76, the mutable fields of [GenericVisitor]. *)
Record vst := VSt {
  s_tests : list text;
  s_last : option node;
  s_leaves : nat;
  s_before : list nat;
  s_call : option node;
  s_tset : list text;
  s_maps : span_test_maps;
  s_pend : list (node * list text);
  s_ret : list node;
  s_warn : list text
}.
Definition set_tests x s := VSt x (s_last s) (s_leaves s) (s_before s) (s_call s) (s_tset s) (s_maps s) (s_pend s) (s_ret s) (s_warn s).
Definition set_last x s := VSt (s_tests s) x (s_leaves s) (s_before s) (s_call s) (s_tset s) (s_maps s) (s_pend s) (s_ret s) (s_warn s).
Definition set_leaves x s := VSt (s_tests s) (s_last s) x (s_before s) (s_call s) (s_tset s) (s_maps s) (s_pend s) (s_ret s) (s_warn s).
Definition set_before x s := VSt (s_tests s) (s_last s) (s_leaves s) x (s_call s) (s_tset s) (s_maps s) (s_pend s) (s_ret s) (s_warn s).
Definition set_call x s := VSt (s_tests s) (s_last s) (s_leaves s) (s_before s) x (s_tset s) (s_maps s) (s_pend s) (s_ret s) (s_warn s).
Definition set_tset x s := VSt (s_tests s) (s_last s) (s_leaves s) (s_before s) (s_call s) x (s_maps s) (s_pend s) (s_ret s) (s_warn s).
Definition set_maps x s := VSt (s_tests s) (s_last s) (s_leaves s) (s_before s) (s_call s) (s_tset s) x (s_pend s) (s_ret s) (s_warn s).
Definition set_pend x s := VSt (s_tests s) (s_last s) (s_leaves s) (s_before s) (s_call s) (s_tset s) (s_maps s) x (s_ret s) (s_warn s).
Definition set_ret x s := VSt (s_tests s) (s_last s) (s_leaves s) (s_before s) (s_call s) (s_tset s) (s_maps s) (s_pend s) x (s_warn s).
Definition set_warn x s := VSt (s_tests s) (s_last s) (s_leaves s) (s_before s) (s_call s) (s_tset s) (s_maps s) (s_pend s) (s_ret s) x.

(** [BTreeSet<String>::insert]: sorted, duplicate-free. *)
Fixpoint set_add (t : text) (l : list text) : list text :=
  match l with
  | [] => [t]
  | x :: r =>
    match text_compare t x with
    | Lt => t :: l
    | Eq => l
    | Gt => x :: set_add t r
    end
  end.
(** [BTreeSet::extend]. *)
Definition set_adds (ts l : list text) : list text := fold_left (fun l t => set_add t l) ts l.

(** [IndexSet<String>::insert]: duplicate-free, in insertion order. *)
Definition iset_add (t : text) (l : list text) : list text := if mem_text t l then l else l ++ [t].
(** [IndexSet::extend]. *)
Definition iset_adds (ts l : list text) : list text := fold_left (fun l t => iset_add t l) ts l.

(** [BTreeMap<Span, IndexSet<String>>::entry(span).or_default()] (core/src/framework/mod.rs:58)
    extended with names (generic_visitor.rs:424-427, parsing.rs:490-497). *)
Fixpoint map_add (s : span) (ts : list text) (m : list (span * list text)) : list (span * list text) :=
  match m with
  | [] => [(s, iset_adds ts [])]
  | (s', ts') :: r =>
    match span_compare s s' with
    | Lt => (s, iset_adds ts []) :: m
    | Eq => (s', iset_adds ts ts') :: r
    | Gt => (s', ts') :: map_add s ts r
    end
  end.

(** The panicking state monad of the visitor: [None] is a failed assertion or another
    panic. *)
Definition obind {A B} (o : option A) (f : A -> option B) : option B :=
  match o with Some a => f a | None => None end.
Notation "'do' x <- e1 ; e2" := (obind e1 (fun x => e2)) (at level 200, x pattern, e1 at level 100, e2 at level 200).

Definition guard (b : bool) : option unit := if b then Some tt else None.
Definition is_none {A} (o : option A) : bool := match o with None => true | _ => false end.
Definition is_nil {A} (l : list A) : bool := match l with [] => true | _ => false end.

Section Visitor.
Context (E : venv).

(** [==] on statements and local functions. *)
Definition same (a b : node) : bool :=
  if fw_structural (v_fw E) then shape_eqb a b else (n_id a =? n_id b)%nat.

(** [MaybeNamed for Expression] (rust/mod.rs:225-235, go/mod.rs:186-198,
    ts/inner/mod.rs:232-240, foundry/mod.rs:121-129). *)
Definition expr_name (e : node) : option text :=
  match n_kind e with
  | KIdent n => Some n
  | KCall _ n => if fw_names_all (v_fw E) then n else None
  | KField n => if fw_names_all (v_fw E) then n else None
  | KMacro n => if fw_names_all (v_fw E) then Some n else None
  | _ => None
  end.

(** [Call::name]. *)
Definition call_name (c : node) : option text :=
  match n_kind c with KCall _ n => n | _ => None end.

Definition ignored_function (n : option text) : bool :=
  match n with Some x => v_ign_fun E x | None => false end.

(** generic_visitor.rs:378-407 [statement_is_call], the loop. *)
Fixpoint head_is_call (e : node) : bool :=
  match e with
  | Node l ks =>
    match l_kind l with
    | KAwait | KField _ => match ks with b :: _ => head_is_call b | [] => false end
    | KCall _ _ | KMacro _ => true
    | _ => false
    end
  end.
(** generic_visitor.rs:378-385. *)
Definition statement_is_call (s : node) : bool :=
  match n_kind s, n_kids s with
  | KStmt _ _ _ true, e :: _ => head_is_call e
  | _, _ => false
  end.

Definition removable (s : node) : bool := match n_kind s with KStmt r _ _ _ => r | _ => false end.
Definition control (s : node) : bool := match n_kind s with KStmt _ c _ _ => c | _ => false end.
Definition declaration (s : node) : bool := match n_kind s with KStmt _ _ d _ => d | _ => false end.

(** generic_visitor.rs:371-376 [is_last_statement_in_test]. *)
Definition is_last (st : vst) (s : node) : bool :=
  match s_last st with Some l => same l s | None => false end.

(** generic_visitor.rs:415-428 [register_span]. *)
Definition register_span (sp : span) (k : kind) (st : vst) : option vst :=
  do _ <- guard (negb (is_nil (s_tests st)));
  if v_skip E sp then Some st
  else
    let m := s_maps st in
    Some (set_maps
      (match k with
       | Statement => STM (map_add sp (s_tests st) (stm_statement m)) (stm_method m)
       | MethodCall => STM (stm_statement m) (map_add sp (s_tests st) (stm_method m))
       end) st).

(** generic_visitor.rs:100-132 [visit_maybe_macro_call!]: returns whether to descend into
    the arguments. *)
Definition visit_maybe_macro_call (sp : span) (ign_call is_method ign_method : bool) (st : vst)
  : option (vst * bool) :=
  let statement := s_call st in
  let st := set_call None st in
  if negb (is_nil (s_tests st)) &&
     match statement with
     | None => true
     | Some s => removable s && negb (is_last st s)
     end
  then
    do st <- match statement with
             | Some s => if negb ign_call then register_span (n_span s) Statement st else Some st
             | None => Some st
             end;
    do st <- (if negb ign_call && is_method && negb ign_method
              then register_span sp MethodCall st else Some st);
    Some (st, (negb ign_call && negb ign_method) || v_visit_args E)
  else Some (st, true).

(** generic_visitor.rs:78-84 [CallInfo]. *)
Record call_info := CI { ci_span : span; ci_method : bool; ci_ignored : bool; ci_nested : bool }.

Definition DOT1 : text := [46%N].
(** [path.join(".")]. *)
Fixpoint join_dots (p : list text) : text :=
  match p with
  | [] => []
  | [x] => x
  | x :: r => x ++ DOT1 ++ join_dots r
  end.

(** generic_visitor.rs:549-551: the span of a method call. *)
Definition method_span (call_span base_span : span) : option span :=
  match span_trim_start (v_contents E) (with_start call_span (sp_end base_span)) with
  | Ok s => Some s
  | _ => None
  end.

(** generic_visitor.rs:549-558, the fall-through of [call_info_inner]. *)
Definition method_info (call_span base_span : span) (path : list text) (recursed : bool) : option call_info :=
  do sp <- method_span call_span base_span;
  Some (CI sp true (v_ign_met E (join_dots path)) recursed).

(** generic_visitor.rs:466-559 [call_info_inner], entered with the base of the field
    whose name is the last element of [path].  The while loop (479-483) and the
    recursive call (495-503) both go to a subexpression. *)
Fixpoint call_info_inner (innermost recursed : bool) (call_span : span) (path : list text) (base : node)
  : option call_info :=
  match base with
  | Node l ks =>
    match l_kind l with
    | KField (Some n) =>
      match ks with
      | b :: _ => call_info_inner innermost recursed call_span (n :: path) b
      | [] => None
      end
    | KCall _ name =>
      if innermost then
        match ks with
        | Node lc (b :: _) :: _ =>
          match l_kind lc with
          | KField (Some n) => call_info_inner innermost true (l_span l) [n] b
          | _ => Some (CI (l_span l) false (ignored_function name) true)
          end
        | _ => Some (CI (l_span l) false (ignored_function name) true)
        end
      else method_info call_span (l_span l) path recursed
    | KMacro name =>
      if innermost then Some (CI (l_span l) false (v_ign_mac E name) recursed)
      else method_info call_span (l_span l) path recursed
    | KIdent name =>
      if innermost then
        let as_function := v_ign_fun E (name ++ DOT1 ++ join_dots path) in
        let as_method := v_ign_met E (join_dots path) in
        Some (CI call_span false
                (match v_disamb E with
                 | DNone => as_function || as_method
                 | DFunction => as_function
                 | DMethod => as_method
                 end) recursed)
      else method_info call_span (l_span l) path recursed
    | _ => method_info call_span (l_span l) path recursed
    end
  end.

(** generic_visitor.rs:590-603 [callee_is_named_field], with [field_base] of the result. *)
Definition callee_is_named_field (c : node) : option (text * node) :=
  match n_kids c with
  | Node l (b :: _) :: _ =>
    match l_kind l with KField (Some n) => Some (n, b) | _ => None end
  | _ => None
  end.

(** generic_visitor.rs:576-588 [callee_is_walkable_function] and 274-281: the local
    function a call goes to, if it is still to be walked; with whether the name is
    ambiguous. *)
Definition walk_target (ret : list node) (c : node) : option (text * bool * node) :=
  match n_kids c with
  | callee :: _ =>
    match expr_name callee with
    | Some name =>
      match v_walkable E name with
      | f :: r => if existsb (same f) ret then None else Some (name, negb (is_nil r), f)
      | [] => None
      end
    | None => None
    end
  | [] => None
  end.

(** [IndexMap::entry(f).or_default().extend(tests)] (generic_visitor.rs:286-289). *)
Fixpoint pend_add (f : node) (ts : list text) (l : list (node * list text)) : list (node * list text) :=
  match l with
  | [] => [(f, set_adds ts [])]
  | (g, us) :: r => if same f g then (g, set_adds ts us) :: r else (g, us) :: pend_add f ts r
  end.

(** generic_visitor.rs:268-327 [visit_call]. *)
Definition visit_call (c : node) (st : vst) : option (vst * bool) :=
  match walk_target (s_ret st) c with
  | Some (name, ambiguous, f) =>
    let st := if ambiguous then set_warn (set_add name (s_warn st)) st else st in
    let st := set_pend (pend_add f (s_tests st) (s_pend st)) st in
    Some (set_call None st, true)
  | None =>
    match callee_is_named_field c with
    | Some (name, base) =>
      do inner <- call_info_inner true false (n_span c) [name] base;
      do ci <- call_info_inner false false (n_span c) [name] base;
      do _ <- guard (ci_method ci);
      visit_maybe_macro_call (ci_span ci)
        ((negb (ci_method inner) && ci_ignored inner) || (negb (ci_nested inner) && ci_ignored ci))
        true (ci_ignored ci) st
    | None =>
      visit_maybe_macro_call (n_span c) (ignored_function (call_name c)) false false st
    end
  end.

(** generic_visitor.rs:341-357 [visit_macro_call]. *)
Definition visit_macro_call (name : text) (sp : span) (st : vst) : option (vst * bool) :=
  visit_maybe_macro_call sp (v_ign_mac E name) false false st.

(** generic_visitor.rs:216-230 [visit_statement]. *)
Definition visit_statement (s : node) (st : vst) : option vst :=
  let st := set_before (s_leaves st :: s_before st) st in
  if statement_is_call s then
    do _ <- guard (is_none (s_call st));
    Some (set_call (Some s) st)
  else Some st.

(** generic_visitor.rs:232-264 [visit_statement_post]. *)
Definition visit_statement_post (s : node) (st : vst) : option vst :=
  do _ <- guard (is_none (s_call st));
  match s_before st with
  | [] => None
  | n_before :: rest =>
    let st := set_before rest st in
    if negb (n_before =? s_leaves st)%nat then Some st
    else
      let st := set_leaves (S (s_leaves st)) st in
      if negb (is_nil (s_tests st)) && removable s && negb (is_last st s) &&
         negb (statement_is_call s) && negb (control s) && negb (declaration s)
      then register_span (n_span s) Statement st
      else Some st
  end.

(** [ParseLow::test_statements]. *)
Definition test_statements (body : nat) (kids : list node) : list node :=
  match nth_error kids body with Some b => n_kids b | None => [] end.
Definition last_of (l : list node) : option node :=
  match rev l with x :: _ => Some x | [] => None end.

(** generic_visitor.rs:174-196 [visit_test]. *)
Definition visit_test (name : text) (statements : list node) (st : vst) : option (vst * bool) :=
  if v_ign_test E name then Some (st, false)
  else
    let st := set_tset (set_add name (s_tset st)) st in
    do _ <- guard (is_nil (s_tests st));
    let st := set_tests [name] st in
    do _ <- guard (is_none (s_last st));
    Some (set_last (last_of statements) st, true).

(** generic_visitor.rs:198-214 [visit_test_post]. The [debug_assert!] is modelled as an
    assertion. *)
Definition visit_test_post (name : text) (st : vst) : option vst :=
  let st := set_last None st in
  match s_tests st with
  | [] => do _ <- guard (v_ign_test E name); Some st
  | [n] => do _ <- guard (text_eqb n name); Some (set_tests [] st)
  | _ => None
  end.

Definition fold_kids (w : node -> vst -> option vst) : list node -> vst -> option vst :=
  fix go (l : list node) (st : vst) : option vst :=
    match l with
    | [] => Some st
    | k :: r => do st <- w k st; go r st
    end.

(** The traversals (see [framework]). *)
Fixpoint walk (n : node) (st : vst) {struct n} : option vst :=
  match n with
  | Node l ks =>
    match l_kind l with
    | KStmt _ _ _ _ =>
      do st <- visit_statement n st;
      do st <- fold_kids walk ks st;
      visit_statement_post n st
    | KCall true _ => fold_kids walk ks st
    | KCall false _ =>
      do (st, w) <- visit_call n st;
      if w then fold_kids walk ks st
      else if fw_skip_whole (v_fw E) then Some st
      else match ks with callee :: _ => walk callee st | [] => Some st end
    | KMacro name =>
      do (st, w) <- visit_macro_call name (l_span l) st;
      if w then fold_kids walk ks st else Some st
    | KTest name body =>
      do (st, w) <- visit_test name (test_statements body ks) st;
      do st <- (if w then fold_kids walk ks st else Some st);
      visit_test_post name st
    | KAwait | KField _ | KIdent _ | KExpr =>
      if fw_expr_kids (v_fw E) then fold_kids walk ks st else Some st
    | KGroup => fold_kids walk ks st
    end
  end.

(** generic_visitor.rs:139-146 [next_local_function]: pops the most recent entry. *)
Definition next_local_function (st : vst) : option (node * vst) :=
  match rev (s_pend st) with
  | [] => None
  | (f, ts) :: r => Some (f, set_tests ts (set_ret (f :: s_ret st) (set_pend (rev r) st)))
  end.

(** The loop over local functions (rust/visitor.rs:58-60, go/visitor.rs:82-84,
    ts/inner/visitor.rs:41-43, foundry/visitor/mod.rs:68-70), with a step bound that is
    proved never to be reached. *)
Inductive loop_result := LDone (st : vst) | LPanic | LOutOfFuel.
Fixpoint local_loop (fuel : nat) (st : vst) : loop_result :=
  match next_local_function st with
  | None => LDone st
  | Some (f, st') =>
    match fuel with
    | O => LOutOfFuel
    | S fuel' =>
      match fold_kids walk (n_kids f) st' with
      | None => LPanic
      | Some st'' => local_loop fuel' st''
      end
    end
  end.

(** parsing.rs:426-443: the initial visitor. *)
Definition init_vst : vst := VSt [] None 0 [] None [] (STM [] []) [] [] [].

(** [visit] of each framework and [results] (generic_visitor.rs:154-171). [fuel] bounds
    the number of local functions walked. *)
Definition visit_file (fuel : nat) (root : node) : loop_result :=
  match walk root init_vst with
  | None => LPanic
  | Some st => local_loop fuel st
  end.

End Visitor.
