(** Vocabulary for the Go and PHP properties. *)
From Verif Require Import Base M_Text M_Span M_Run M_Visitor S_Visitor M_Tree.

(** [u] is [t] or occurs in it. *)
Inductive inside : tree -> tree -> Prop :=
| is_here t : inside t t
| is_kid a ks f k u : In (f, k) ks -> inside k u -> inside (Tree a ks) u.
(** [u] occurs in [t], and nothing between [t] and [u] (both included but for [u]) is forbidden. *)
Inductive reaches (ok : tree -> Prop) : tree -> tree -> Prop :=
| rc_here t : reaches ok t t
| rc_kid a ks f k u : ok (Tree a ks) -> In (f, k) ks -> reaches ok k u -> reaches ok (Tree a ks) u.

(** The declaration [d] of a function with name [n] and body [b]. *)
Definition declares (K N B : text) (d : tree) (n : text) (b : tree) : Prop :=
  kind_of d = K /\ child (s2t "body") d = Some b /\ kind_of b = B /\
  exists x, child (s2t "name") d = Some x /\ kind_of x = N /\ t_text (t_info x) = n.

(** ** Go *)
(** A function declaration of the file. *)
Definition go_function (root : tree) (n : text) (b : tree) : Prop :=
  exists d, inside root d /\ declares (s2t "function_declaration") (s2t "identifier") (s2t "block") d n b.
Definition go_test (root : tree) (n : text) (b : tree) : Prop :=
  go_function root n b /\ (exists r, n = s2t "Test" ++ r) /\ n <> s2t "TestMain".
Definition go_local (root : tree) (n : text) (b : tree) : Prop :=
  go_function root n b /\ ~ exists r, n = s2t "Test" ++ r.

(** The test [t] runs the body [b]: it is its own, or that of a function that is called by name from a body it runs. *)
Inductive go_runs (root : tree) (walkable : text -> bool) (t : text) : tree -> Prop :=
| gr_test b : go_test root t b -> go_runs root walkable t b
| gr_call b c f b' : go_runs root walkable t b -> inside b c -> kind_of c = s2t "call_expression" ->
    child (s2t "function") c = Some f -> kind_of f = s2t "identifier" ->
    walkable (t_text (t_info f)) = true -> go_local root (t_text (t_info f)) b' -> go_runs root walkable t b'.

(** The kinds of statements that are never removed. *)
Definition go_kept_kind (k : text) : Prop :=
  In k (map s2t ["break_statement"; "continue_statement"; "defer_statement"; "return_statement";
                 "const_declaration"; "short_var_declaration"; "type_declaration"; "var_declaration"]%string).

(** The statements at the top level of a body, in order. *)
Definition go_top (b u : tree) : Prop :=
  exists f l f', In (f, l) (t_kids b) /\ kind_of l = s2t "statement_list" /\ In (f', u) (t_kids l) /\ t_stmt (t_info u) = true.

(** No two nodes of the file have the same identity. *)
Fixpoint tree_ids (t : tree) : list nat := match t with Tree a ks => t_id a :: flat_map (fun fk => tree_ids (snd fk)) ks end.

(** ** PHP *)
Definition php_test (root : tree) (n : text) (b : tree) : Prop :=
  (exists d, inside root d /\ declares (s2t "method_declaration") (s2t "name") (s2t "compound_statement") d n b) /\
  exists r, n = s2t "test" ++ r.
(** A statement of a block in braces. *)
Definition php_stmt_in (b u : tree) : Prop :=
  exists p f, inside b p /\ kind_of p = s2t "compound_statement" /\ In (f, u) (t_kids p) /\
    t_named (t_info u) = true /\ t_extra (t_info u) = false.
Definition php_kept (u : tree) : Prop :=
  In (kind_of u) (map s2t ["return_statement"; "break_statement"; "continue_statement";
                           "function_definition"; "class_declaration"; "function_static_declaration"; "global_declaration"]%string) \/
  (kind_of u = s2t "expression_statement" /\
   exists pre f e post, t_kids u = pre ++ (f, e) :: post /\ kind_of e = s2t "throw_expression" /\ t_named (t_info e) = true /\
     forall x, In x pre -> t_named (t_info (snd x)) = false).

(** ** More about Go *)
(** The top-level statements of a body, in order; the last of them. *)
Definition go_tops (b : tree) : list tree :=
  flat_map (fun fk => if text_eqb (kind_of (snd fk)) (s2t "statement_list")
                      then filter (fun u => t_stmt (t_info u)) (map snd (t_kids (snd fk))) else []) (t_kids b).
Definition go_last (b u : tree) : Prop := exists pre, go_tops b = pre ++ [u].

(** The call of a function or method. *)
Definition go_call (c : tree) : Prop :=
  kind_of c = s2t "call_expression" /\ t_stmt (t_info c) = false /\ exists f, child (s2t "function") c = Some f.
Definition go_identifier (e : tree) (x : text) : Prop :=
  kind_of e = s2t "identifier" /\ t_stmt (t_info e) = false /\ t_text (t_info e) = x.
(** [e] is [b.x]. *)
Definition go_selector (e b : tree) : Prop :=
  kind_of e = s2t "selector_expression" /\ t_stmt (t_info e) = false /\ child (s2t "operand") e = Some b.
Definition go_selects (e : tree) (x : text) (b : tree) : Prop :=
  go_selector e b /\ exists f, child (s2t "field") e = Some f /\ t_text (t_info f) = x.
(** [e] is [base.p1...pn], and [base] is not itself [b.x]. *)
Inductive go_path : tree -> tree -> list text -> Prop :=
| gp_base e : (forall x b, ~ go_selects e x b) -> go_path e e []
| gp_select e x b base p : go_selects e x b -> go_path b base p -> go_path e base (p ++ [x]).
(** The method call [base.p1...pn(..)], n at least one. *)
Definition go_method (c base : tree) (p : list text) : Prop :=
  go_call c /\ exists f, child (s2t "function") c = Some f /\ go_path f base p /\ p <> [].
(** The expression of the statement [u] is [e]. *)
Definition go_expression (u e : tree) : Prop :=
  t_stmt (t_info u) = true /\ kind_of u = s2t "expression_statement" /\
  exists pre f post, t_kids u = pre ++ (f, e) :: post /\ t_expr (t_info e) = true /\ forall x, In x pre -> t_expr (t_info (snd x)) = false.
(** The statement [u] consists of the call [c], possibly followed by selectors. *)
Inductive go_performs : tree -> tree -> Prop :=
| gf_call c : go_call c -> go_performs c c
| gf_select e b c : go_selector e b -> go_performs b c -> go_performs e c.
Definition go_call_statement (u c : tree) : Prop := exists e, go_expression u e /\ go_performs e c.

Section Ignored.
Context (E : venv).
(** Calls that the configuration (or the back end) ignores: of an ignored function [f(..)], [x.p(..)] where [x.p] is an
    ignored function or [p] an ignored method, and method calls on the result of such a call. *)
Inductive go_root_ignored : tree -> Prop :=
| gi_function c f : go_call c -> child (s2t "function") c = Some f -> (forall b p, ~ go_method c b p) ->
    v_ign_fun E (t_text (t_info f)) = true -> go_root_ignored c
| gi_path c b p x : go_method c b p -> go_identifier b x ->
    (match v_disamb E with
     | DNone => v_ign_fun E (x ++ s2t "." ++ dotted p) = true \/ v_ign_met E (dotted p) = true
     | DFunction => v_ign_fun E (x ++ s2t "." ++ dotted p) = true
     | DMethod => v_ign_met E (dotted p) = true
     end) -> go_root_ignored c
| gi_chain c b p : go_method c b p -> go_call b -> go_root_ignored b -> go_root_ignored c.
Definition go_ignored_method (c : tree) : Prop := exists b p, go_method c b p /\ v_ign_met E (dotted p) = true.
Definition go_ignored_call (c : tree) : Prop :=
  go_root_ignored c \/ exists b p, go_method c b p /\ ~ go_call b /\ v_ign_met E (dotted p) = true.
(** Not an ignored call, unless the arguments of those are to be looked at, too. *)
Definition go_open (n : tree) : Prop :=
  go_call n -> v_visit_args E = true \/ (~ go_ignored_call n /\ ~ go_ignored_method n).
End Ignored.

(** The call [c] is of the function of the file with the body [b]. *)
Definition go_local_call (root : tree) (walkable : text -> bool) (c b : tree) : Prop :=
  go_call c /\ exists f x, child (s2t "function") c = Some f /\ go_identifier f x /\ walkable x = true /\ go_local root x b.
(** A statement in the body [b] (not [b] itself), outside of the arguments of ignored calls. *)
Definition go_in (E : venv) (b u : tree) : Prop := exists f k, In (f, k) (t_kids b) /\ reaches (go_open E) k u.

(** A statement that is not a call, and not of a kind that is kept, and has no statement inside. *)
Definition go_plain_statement (u : tree) : Prop :=
  t_stmt (t_info u) = true /\ ~ go_kept_kind (kind_of u) /\ (forall c, ~ go_call_statement u c) /\
  forall f k v, In (f, k) (t_kids u) -> inside k v -> t_stmt (t_info v) = false.
(** A call as a statement; the call is not ignored, and not of a function of the file. *)
Definition go_removable_call (E : venv) (root : tree) (walkable : text -> bool) (u : tree) : Prop :=
  exists c, go_call_statement u c /\ ~ go_ignored_call E c /\ forall b, ~ go_local_call root walkable c b.

(** [b'] is the body of the only function of the file with its name; it is called by that name in [b], and such calls are followed. *)
Definition go_enters (E : venv) (root : tree) (walkable : text -> bool) (b b' : tree) : Prop :=
  exists c f x, go_in E b c /\ go_call c /\ child (s2t "function") c = Some f /\ go_identifier f x /\ walkable x = true /\
    go_local root x b' /\ forall b'', go_local root x b'' -> b'' = b'.
(** Bodies of functions that are entered from a test that is not ignored, or from such a body. *)
Inductive go_entered (E : venv) (root : tree) (walkable : text -> bool) : tree -> Prop :=
| gd_test t b b' : go_test root t b -> v_ign_test E t = false -> go_enters E root walkable b b' -> go_entered E root walkable b'
| gd_call b b' : go_entered E root walkable b -> go_enters E root walkable b b' -> go_entered E root walkable b'.

(** ** More about PHP *)
Definition php_method_call_kind (k : text) : Prop :=
  In k (map s2t ["member_call_expression"; "nullsafe_member_call_expression"; "scoped_call_expression"]%string).
Definition php_access_kind (k : text) : Prop :=
  In k (map s2t ["member_access_expression"; "nullsafe_member_access_expression"; "scoped_property_access_expression"]%string).
(** What a method is called on, or a property is taken from: [b] in [b->x], [b?->x] or [b::x]. *)
Definition php_object (e b : tree) : Prop :=
  (In (kind_of e) (map s2t ["scoped_call_expression"; "scoped_property_access_expression"]%string) /\ child (s2t "scope") e = Some b) \/
  (~ In (kind_of e) (map s2t ["scoped_call_expression"; "scoped_property_access_expression"]%string) /\ child (s2t "object") e = Some b).
Definition php_name (e : tree) (x : text) : Prop := exists f, child (s2t "name") e = Some f /\ t_text (t_info f) = x.
(** The call of a function, or of a method. *)
Definition php_function_call (c f : tree) : Prop := kind_of c = s2t "function_call_expression" /\ child (s2t "function") c = Some f.
Definition php_call (c : tree) : Prop :=
  (exists f, php_function_call c f) \/ (php_method_call_kind (kind_of c) /\ exists b, php_object c b).
(** A name, possibly with a namespace (not a variable). *)
Definition php_identifier (e : tree) (x : text) : Prop := In (kind_of e) (map s2t ["name"; "qualified_name"]%string) /\ t_text (t_info e) = x.
(** [e] is the property [b->x], [b?->x] or [b::x]. *)
Definition php_access (e b : tree) : Prop := php_access_kind (kind_of e) /\ php_object e b.
(** [e] is [base->p1...->pn], and [base] is not itself a property. *)
Inductive php_path : tree -> tree -> list text -> Prop :=
| pp_base e : (forall x b, ~ (php_access e b /\ php_name e x)) -> php_path e e []
| pp_access e x b base p : php_access e b -> php_name e x -> php_path b base p -> php_path e base (p ++ [x]).
(** The method call [base->p1...->pn(..)], n at least one. *)
Definition php_method (c base : tree) (p : list text) : Prop :=
  (exists f, php_function_call c f /\ php_path f base p /\ p <> []) \/
  (exists b x q, php_method_call_kind (kind_of c) /\ php_object c b /\ php_name c x /\ php_path b base q /\ p = q ++ [x]).
(** The expression of the statement [u] is [e]. *)
Definition php_expression (u e : tree) : Prop :=
  kind_of u = s2t "expression_statement" /\
  exists pre f post, t_kids u = pre ++ (f, e) :: post /\ t_named (t_info e) = true /\ forall x, In x pre -> t_named (t_info (snd x)) = false.
(** The statement [u] consists of the call [c], possibly followed by properties. *)
Inductive php_performs : tree -> tree -> Prop :=
| ph_call c : php_call c -> php_performs c c
| ph_access e b c : php_access e b -> php_performs b c -> php_performs e c.
Definition php_call_statement (u c : tree) : Prop := exists e, php_expression u e /\ php_performs e c.

Section PhpIgnored.
Context (E : venv).
Inductive php_root_ignored : tree -> Prop :=
| hi_function c f : php_function_call c f -> (forall b p, ~ php_method c b p) ->
    v_ign_fun E (t_text (t_info f)) = true -> php_root_ignored c
| hi_path c b p x : php_method c b p -> php_identifier b x ->
    (match v_disamb E with
     | DNone => v_ign_fun E (x ++ s2t "." ++ dotted p) = true \/ v_ign_met E (dotted p) = true
     | DFunction => v_ign_fun E (x ++ s2t "." ++ dotted p) = true
     | DMethod => v_ign_met E (dotted p) = true
     end) -> php_root_ignored c
| hi_chain c b p : php_method c b p -> php_call b -> php_root_ignored b -> php_root_ignored c.
Definition php_ignored_method (c : tree) : Prop := exists b p, php_method c b p /\ v_ign_met E (dotted p) = true.
Definition php_ignored_call (c : tree) : Prop :=
  php_root_ignored c \/ exists b p, php_method c b p /\ ~ php_call b /\ v_ign_met E (dotted p) = true.
Definition php_open (n : tree) : Prop :=
  php_call n -> v_visit_args E = true \/ (~ php_ignored_call n /\ ~ php_ignored_method n).
(** A statement of a block in braces in the body [b], outside of the arguments of ignored calls; a part of a statement there. *)
Definition php_statement_of (b u : tree) : Prop :=
  exists q f, reaches php_open b q /\ php_open q /\ kind_of q = s2t "compound_statement" /\ In (f, u) (t_kids q) /\
    t_named (t_info u) = true /\ t_extra (t_info u) = false.
Definition php_part_of (b c : tree) : Prop :=
  exists q f, reaches php_open b q /\ php_open q /\ kind_of q <> s2t "compound_statement" /\ In (f, c) (t_kids q).
End PhpIgnored.

(** The top-level statements of a body, in order; the last of them. *)
Definition php_tops (b : tree) : list tree := filter (fun u => t_named (t_info u) && negb (t_extra (t_info u))) (map snd (t_kids b)).
Definition php_last (b u : tree) : Prop := exists pre, php_tops b = pre ++ [u].
(** A statement that is not a call, and not of a kind that is kept, and has no statement of a block inside. *)
Definition php_plain_statement (u : tree) : Prop :=
  ~ php_kept u /\ (forall c, ~ php_call_statement u c) /\ forall v, ~ php_stmt_in u v.
(** A call as a statement; the call is not ignored. *)
Definition php_removable_call (E : venv) (u : tree) : Prop := exists c, php_call_statement u c /\ ~ php_ignored_call E c.
