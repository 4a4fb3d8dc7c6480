(** Vocabulary for the calls in Solidity syntax (C80): where they are, what they call, and which are ignored. *)
From Verif Require Import Base M_Text M_Span M_Visitor S_Visitor M_Solang S_Solang.

Definition expr_loc (e : pexpr) : loc :=
  match e with
  | XVariable l _ | XMember l _ _ | XCall l _ _ | XCallBlock l _ _ | XNamedCall l _ _ | XUnary _ l _ | XBinary _ l _ _ | XAssign l _ _ | XConditional l _ _ _
  | XSubscript l _ _ | XSlice l _ _ _ | XList l _ | XArray l _ | XLiteral l | XType l _ => l
  end.
(** The expression [e] stands directly in the parameter list: a type, or the value of an annotation. *)
Definition in_parameters (ps : list (option pparam)) (e : pexpr) : Prop :=
  exists a ty n, In (Some (PParam a ty n)) ps /\ (a = Some e \/ e = ty).
(** The expression [e] stands directly in the statement [s]. *)
Inductive operand : pstmt -> pexpr -> Prop :=
| or_expression l e : operand (TExpression l e) e
| or_if l e x o : operand (TIf l e x o) e
| or_while l e x : operand (TWhile l e x) e
| or_do l x e : operand (TDoWhile l x e) e
| or_for_condition l i e n b : operand (TFor l i (Some e) n b) e
| or_for_next l i c e b : operand (TFor l i c (Some e) b) e
| or_type l e n o : operand (TVariable l e n o) e
| or_value l ty n e : operand (TVariable l ty n (Some e)) e
| or_return l e : operand (TReturn l (Some e)) e
| or_revert l es e : In e es -> operand (TRevert l es) e
| or_revert_named l args n e : In (n, e) args -> operand (TRevertNamed l args) e
| or_emit l e : operand (TEmit l e) e
| or_try l e r cs : operand (TTry l e r cs) e
| or_returns l e0 ps x cs e : in_parameters ps e -> operand (TTry l e0 (Some (ps, x)) cs) e
| or_catch l e0 r cs o x e : In (CSimple o x) cs -> in_parameters [o] e -> operand (TTry l e0 r cs) e
| or_catch_named l e0 r cs n p x e : In (CNamed n p x) cs -> in_parameters [Some p] e -> operand (TTry l e0 r cs) e
| or_argument l args n e : In (n, e) args -> operand (TArgs l args) e.
(** The expression [e] stands directly in the head of the function [f]. *)
Definition in_head (f : pfun) (e : pexpr) : Prop :=
  in_parameters (pf_params f) e \/ in_parameters (pf_returns f) e \/ exists n es, In (AModifier n (Some es)) (pf_attrs f) /\ In e es.

(** [x{..}]. *)
Definition with_options (e : pexpr) : Prop := exists l g o, e = XCallBlock l g o.
(** [e] is [g{..}..{..}]. *)
Inductive stripped : pexpr -> pexpr -> Prop :=
| sp_plain e : ~ with_options e -> stripped e e
| sp_options l e o g : stripped e g -> stripped (XCallBlock l e o) g.
(** [e] is [base.p1...pn]; [base] is not a member. *)
Inductive dotted_path : pexpr -> pexpr -> list text -> Prop :=
| dp_base e : (forall l b x, e <> XMember l b x) -> dotted_path e e []
| dp_member l b x base p : dotted_path b base p -> dotted_path (XMember l b x) base (p ++ [x]).
Definition is_call (e : pexpr) : Prop := exists l f args, e = XCall l f args.
(** [c] is [g(..)], possibly with options. *)
Definition calls (c g : pexpr) : Prop := exists l f args, c = XCall l f args /\ stripped f g.
(** The method call [base.p1...pn(..)], n at least one. *)
Definition method (c base : pexpr) (p : list text) : Prop := exists g, calls c g /\ dotted_path g base p /\ p <> [].

(** The expression [c] is [e], its callee (if that has no options), an argument, an argument's argument, and so on. *)
Inductive among : pexpr -> pexpr -> Prop :=
| am_here e : among e e
| am_callee l f args c : ~ with_options f -> among f c -> among (XCall l f args) c
| am_argument l f args a c : In a args -> among a c -> among (XCall l f args) c.
(** [c] is in the function [f], at a place that is looked at. *)
Definition place (f : pfun) (c : pexpr) : Prop :=
  (exists e, in_head f e /\ among e c) \/ exists b s e, pf_body f = Some b /\ reached b s /\ operand s e /\ among e c.

Section Ignored.
Context (E : venv).
(** Calls that the configuration ignores: of a function [f] or [x.f], of methods, and method calls on the result of such a call. *)
Inductive root_ignored : pexpr -> Prop :=
| ri_function l l' x args : v_ign_fun E x = true -> root_ignored (XCall l (XVariable l' x) args)
| ri_path c l x p : method c (XVariable l x) p ->
    (match v_disamb E with
     | DNone => v_ign_fun E (x ++ s2t "." ++ dotted p) = true \/ v_ign_met E (dotted p) = true
     | DFunction => v_ign_fun E (x ++ s2t "." ++ dotted p) = true
     | DMethod => v_ign_met E (dotted p) = true
     end) -> root_ignored c
| ri_chain c b p : method c b p -> is_call b -> root_ignored b -> root_ignored c.
Definition method_ignored (c : pexpr) : Prop := exists b p, method c b p /\ v_ign_met E (dotted p) = true.
Definition ignored (c : pexpr) : Prop := root_ignored c \/ exists b p, method c b p /\ ~ is_call b /\ v_ign_met E (dotted p) = true.
(** As [among], but not through the arguments of ignored calls, unless those are to be looked at, too. *)
Inductive open_among : pexpr -> pexpr -> Prop :=
| oa_here e : open_among e e
| oa_callee l f args c : ~ with_options f -> open_among f c -> open_among (XCall l f args) c
| oa_argument l f args a c : v_visit_args E = true \/ (~ ignored (XCall l f args) /\ ~ method_ignored (XCall l f args)) ->
    In a args -> open_among a c -> open_among (XCall l f args) c.
End Ignored.

(** The functions of the file, in order. *)
Definition functions_of (u : punit) : list pfun :=
  flat_map (fun p => match p with UContract c => flat_map (fun k => match k with KFun f => [f] | KDecl _ => [] end) (pc_parts c) | UFun f => [f] | UDecl _ => [] end) u.
(** [g] is the first function of the file with that name that is not [pure]: what a call [x(..)] is taken to call. *)
Definition first_named (u : punit) (x : text) (g : pfun) : Prop :=
  exists pre post, functions_of u = pre ++ g :: post /\ pf_name g = Some x /\ ~ In (AMutability MPure) (pf_attrs g) /\
    forall h, In h pre -> pf_name h = Some x -> In (AMutability MPure) (pf_attrs h).
(** The call [c] names the function [g] of the file, which the configuration allows to search. *)
Definition calls_function (u : punit) (walkable : text -> bool) (c : pexpr) (g : pfun) : Prop :=
  exists l x, calls c (XVariable l x) /\ walkable x = true /\ first_named u x g.
(** A call in the body of [f] names the function [g]. *)
Definition function_calls (E : venv) (u : punit) (walkable : text -> bool) (f g : pfun) : Prop :=
  exists b s e c, pf_body f = Some b /\ reached b s /\ operand s e /\ open_among E e c /\ calls_function u walkable c g.
(** A statement that is a call, not ignored, and not of a function that is searched. *)
Definition removable_call (E : venv) (u : punit) (walkable : text -> bool) (s : pstmt) : Prop :=
  exists l c, s = TExpression l c /\ is_call c /\ ~ ignored E c /\ forall g, ~ calls_function u walkable c g.
