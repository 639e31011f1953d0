(** Property theorems: cost functions that arrive over time (C17) and decision spaces (C18). *)
From Verif Require Import NumLemmas CostSpec CostProofs.
Local Open Scope Z_scope.

(** C17: at every time exactly one registration counts, or none applies. *)
Theorem registrations_determine_answer :
  forall (X C D : Type) (hist : list (Z * single_fn X C D)) (t : Z),
  (exists s f, answers hist t s f /\ forall s' f', answers hist t s' f' -> s' = s /\ f' = f)
  \/ unanswered hist t.
Proof. exact @answers_total. Qed.
Print Assumptions registrations_determine_answer.

(** C17, C18: after any history of registrations a cost function evaluated at [t] returns
    the samples of the registration that counts; it panics if there are none, or several
    although [t] is the time of registration. *)
Theorem cost_function_uses_latest :
  forall (X C D : Type) (hist : list (Z * single_fn X C D)) (t s : Z) (f : single_fn X C D) (x : X),
  answers hist t s f ->
  call_predictive (of_history hist) t x =
  match f t x with
  | Ok rs => if (length rs =? 0)%nat || ((t =? s) && negb (length rs =? 1)%nat) then Panic else Ok rs
  | Err e => Err e
  | Panic => Panic
  end.
Proof. exact @call_predictive_answers. Qed.
Print Assumptions cost_function_uses_latest.

(** C17: without an applicable registration (in particular for [t < 1]) every call panics. *)
Theorem cost_function_without_registration :
  forall (X C D : Type) (vmerge : C -> C -> outcome C) (hist : list (Z * single_fn X C D)) (t : Z) (x : X),
  unanswered hist t ->
  call_predictive (of_history hist) t x = Panic /\
  call_certain (of_history hist) t x = Panic /\
  call_mean vmerge (of_history hist) t x = Panic.
Proof. exact @calls_unanswered. Qed.
Print Assumptions cost_function_without_registration.

(** C17: registering information for a later time changes no earlier cost. *)
Theorem later_information_keeps_earlier_costs :
  forall (X C D : Type) (vmerge : C -> C -> outcome C) (hist : list (Z * single_fn X C D))
         (s : Z) (f : single_fn X C D) (t : Z) (x : X),
  t < s ->
  call_predictive (cf_add (of_history hist) s f) t x = call_predictive (of_history hist) t x /\
  call_certain (cf_add (of_history hist) s f) t x = call_certain (of_history hist) t x /\
  call_mean vmerge (cf_add (of_history hist) s f) t x = call_mean vmerge (of_history hist) t x.
Proof. exact @calls_later. Qed.
Print Assumptions later_information_keeps_earlier_costs.

(** C18: the certain cost is defined exactly when there is a single sample. *)
Theorem certain_cost_iff_single_sample :
  forall (X C D : Type) (hist : list (Z * single_fn X C D)) (t : Z) (x : X) (c : cost C D),
  call_certain (of_history hist) t x = Ok c <-> call_predictive (of_history hist) t x = Ok [c].
Proof. exact @call_certain_predictive. Qed.
Print Assumptions certain_cost_iff_single_sample.

(** C18: the mean cost is the average of the samples, infinite iff one of them is. *)
Theorem mean_cost_is_average :
  forall (X C D : Type) (vmerge : C -> C -> outcome C) (hist : list (Z * single_fn X C D))
         (t : Z) (x : X) (c : cost C D),
  call_mean vmerge (of_history hist) t x = Ok c ->
  exists rs, call_predictive (of_history hist) t x = Ok rs /\
    is_average (map c_cost rs) (c_cost c) /\
    vertical_reduce vmerge (map c_out rs) = Ok (c_out c).
Proof. exact @call_mean_average. Qed.
Print Assumptions mean_cost_is_average.

(** C18: inside the decision space the hitting cost is charged ... *)
Theorem hit_cost_inside :
  forall (T : Type) (v : value T) (C D : Type) (vmerge : C -> C -> outcome C) (outside : D)
         (p : gssco T C D) (t : Z) (x : list T),
  (v_toQ v (v_zero v) == 0)%Q -> in_box v (g_bounds p) x ->
  gssco_hit v vmerge outside p t x = call_mean vmerge (g_cost p) t x.
Proof. exact @gssco_hit_inside. Qed.
Print Assumptions hit_cost_inside.

(** C18: ... outside it the cost is infinite and the output says why ... *)
Theorem hit_cost_outside :
  forall (T : Type) (v : value T) (C D : Type) (vmerge : C -> C -> outcome C) (outside : D)
         (p : gssco T C D) (t : Z) (x : list T),
  (v_toQ v (v_zero v) == 0)%Q -> length x = length (g_bounds p) -> ~ in_box v (g_bounds p) x ->
  gssco_hit v vmerge outside p t x = Ok (mkCost Inf (MFailure outside)).
Proof. exact @gssco_hit_outside. Qed.
Print Assumptions hit_cost_outside.

(** C18: ... and a configuration of another dimension panics. *)
Theorem hit_cost_wrong_dimension :
  forall (T : Type) (v : value T) (C D : Type) (vmerge : C -> C -> outcome C) (outside : D)
         (p : gssco T C D) (t : Z) (x : list T),
  length x <> length (g_bounds p) -> gssco_hit v vmerge outside p t x = Panic.
Proof. exact @gssco_hit_wrong_dim. Qed.
Print Assumptions hit_cost_wrong_dimension.

(** C18: the same for SCO with lower and upper bounds. *)
Theorem sco_hit_cost_inside :
  forall (T : Type) (v : value T) (C D : Type) (vmerge : C -> C -> outcome C) (outside : D)
         (p : gsco T C D) (t : Z) (x : list T),
  in_box2 v (o_bounds p) x ->
  gsco_hit v vmerge outside p t x = call_mean vmerge (o_cost p) t x.
Proof. exact @gsco_hit_inside. Qed.
Print Assumptions sco_hit_cost_inside.

Theorem sco_hit_cost_outside :
  forall (T : Type) (v : value T) (C D : Type) (vmerge : C -> C -> outcome C) (outside : D)
         (p : gsco T C D) (t : Z) (x : list T),
  length x = length (o_bounds p) -> ~ in_box2 v (o_bounds p) x ->
  gsco_hit v vmerge outside p t x = Ok (mkCost Inf (MFailure outside)).
Proof. exact @gsco_hit_outside. Qed.
Print Assumptions sco_hit_cost_outside.

Theorem scalar_decision_space :
  forall (T : Type) (v : value T) (u x : T),
  within_scalar v u x = true <-> (0 <= v_toQ v x <= v_toQ v u)%Q.
Proof. exact @within_scalar_spec. Qed.
Print Assumptions scalar_decision_space.

(** C09: objectives of problems with a norm have no inverted form; asking for it is refused. *)
Theorem sco_inverted_refused :
  forall (T C D : Type) (v : value T) (vmerge : C -> C -> outcome C) (merge : C -> C -> C) (outside : D)
         (s : split) (p : gsco T C D) (xs : list (list T)) (default : list T) (alpha : Q) (t_end : Z)
         (c : cost C D),
  1 <= t_end -> objective_o merge s (gsco_problem v vmerge outside p) xs default alpha true t_end <> Ok c.
Proof. exact @gsco_inverted_refused. Qed.
Print Assumptions sco_inverted_refused.
