(** Specification for C85: two configurations, the second of which has more patterns of what is to be ignored. *)
From Verif Require Import Base M_Text M_Rewriter M_Span M_Run M_Visitor S_Visitor S_Walk M_Config.
From Coq Require Import List.
Local Open Scope list_scope.

(** The second configuration differs in having more ignored functions, macros, methods and tests.  No local functions are walked, which is the default. *)
Record more_ignored (cfg cfg' : toml) : Prop := More {
  mo_functions : incl (t_functions cfg) (t_functions cfg');
  mo_macros : incl (t_macros cfg) (t_macros cfg');
  mo_methods : incl (t_methods cfg) (t_methods cfg');
  mo_tests : incl (t_tests cfg) (t_tests cfg');
  mo_disambiguation : t_disambiguation cfg' = t_disambiguation cfg;
  mo_arguments : t_visit_args cfg' = t_visit_args cfg;
  mo_no_walkable : t_walkable cfg = [] /\ t_walkable cfg' = []
}.
(** The same of what the walk over a file goes by. *)
Record ignores_more (E E' : venv) : Prop := IMore {
  im_framework : v_fw E' = v_fw E;
  im_contents : v_contents E' = v_contents E;
  im_skip : forall sp, v_skip E' sp = v_skip E sp;
  im_disambiguation : v_disamb E' = v_disamb E;
  im_arguments : v_visit_args E' = v_visit_args E;
  im_no_walkable : forall x, v_walkable E x = [] /\ v_walkable E' x = [];
  im_functions : forall x, v_ign_fun E x = true -> v_ign_fun E' x = true;
  im_macros : forall x, v_ign_mac E x = true -> v_ign_mac E' x = true;
  im_methods : forall x, v_ign_met E x = true -> v_ign_met E' x = true
}.

(** [m] is in [n] and not [n] itself. *)
Definition strictly_within (n m : node) : Prop := exists k, In k (n_kids n) /\ within k m.
(** A call that is ignored with the second configuration and not with the first. *)
Definition newly_ignored (E E' : venv) (c : node) : Prop :=
  (is_call c \/ is_macro c) /\ (ignored_call E' c \/ ignored_method E' c) /\ ~ (ignored_call E c \/ ignored_method E c).
(** [sp] is the place of a statement that contains a newly ignored call, among whose parts there is a statement. *)
Definition around_newly_ignored (E E' : venv) (root : node) (sp : span) : Prop :=
  exists s c m, within root s /\ is_stmt s /\ n_span s = sp /\ strictly_within s c /\ newly_ignored E E' c /\ strictly_within c m /\ is_stmt m.
