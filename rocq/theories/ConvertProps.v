(** Property theorems: conversions (C12, C14, C15), shifting time (C16) and raw encodings (C19). *)
From Verif Require Import NumLemmas CostSpec ConvertSpec ConvertProofs ConvertObjective ConvertCosts.
From Verif Require Import ProblemModel.
Local Open Scope Z_scope.

(** C12: the objective of [p.into_sco()] equals the objective of [p], including panics and
    outputs, for every schedule of configurations of the right dimension. *)
Theorem into_sco_keeps_objective :
  forall (T C D : Type) (v : value T) (vmerge : C -> C -> outcome C) (merge : C -> C -> C)
         (outside : D) (p : gssco T C D) (xs : list (list T)) (s : split),
  lawful v -> length (g_switching p) = Z.to_nat (g_d p) ->
  Forall (fun x => length x = Z.to_nat (g_d p)) xs ->
  outcome_rel cost_eq
    (objective_o merge s (gsco_problem v vmerge outside (into_sco v vmerge outside p)) xs (gzero v (g_d p)) 1 false (g_tend p))
    (objective_o merge s (gssco_problem v vmerge outside p) xs (gzero v (g_d p)) 1 false (g_tend p)).
Proof. exact @into_sco_objective. Qed.
Print Assumptions into_sco_keeps_objective.

(** C14: the relaxation agrees with the original cost function on the integers ... *)
Theorem relaxation_on_integers :
  forall (C D : Type) (vmerge : C -> C -> outcome C) (cf : cost_fn (list Z) C D) (t : Z),
  1 <= t -> forall (z : Z) (x : Q), (x == inject_Z z)%Q ->
  call_certain (cf_into_f vmerge cf) t [x] = call_certain cf t [z].
Proof. exact @into_f_at_integer. Qed.
Print Assumptions relaxation_on_integers.

(** C14: ... is linear between two neighbouring integers of finite cost ... *)
Theorem relaxation_is_piecewise_linear :
  forall (C D : Type) (vmerge : C -> C -> outcome C) (cf : cost_fn (list Z) C D) (t : Z),
  1 <= t -> (forall a b, exists c, vmerge a b = Ok c) ->
  forall (m : Z) (x : Q) (a b : cost C D) (qa qb : Q),
  (inject_Z m <= x)%Q -> (x <= inject_Z (m + 1))%Q ->
  call_certain cf t [m] = Ok a -> call_certain cf t [m + 1] = Ok b ->
  c_cost a = Fin qa -> c_cost b = Fin qb ->
  exists c q, call_certain (cf_into_f vmerge cf) t [x] = Ok c /\ c_cost c = Fin q /\
    (q == (inject_Z (m + 1) - x) * qa + (x - inject_Z m) * qb)%Q.
Proof. exact @into_f_linear. Qed.
Print Assumptions relaxation_is_piecewise_linear.

(** C14: ... is infinite strictly between two integers one of which has infinite cost ... *)
Theorem relaxation_infinite :
  forall (C D : Type) (vmerge : C -> C -> outcome C) (cf : cost_fn (list Z) C D) (t : Z),
  1 <= t -> (forall a b, exists c, vmerge a b = Ok c) ->
  forall (m : Z) (x : Q) (a b : cost C D),
  (inject_Z m < x)%Q -> (x < inject_Z (m + 1))%Q ->
  call_certain cf t [m] = Ok a -> call_certain cf t [m + 1] = Ok b ->
  (c_cost a = Inf \/ c_cost b = Inf) ->
  exists c, call_certain (cf_into_f vmerge cf) t [x] = Ok c /\ c_cost c = Inf.
Proof. exact @into_f_infinite. Qed.
Print Assumptions relaxation_infinite.

(** C14: ... lies between the values of the neighbours ... *)
Theorem relaxation_between_neighbours :
  forall (C D : Type) (vmerge : C -> C -> outcome C) (cf : cost_fn (list Z) C D) (t : Z),
  1 <= t -> (forall a b, exists c, vmerge a b = Ok c) ->
  forall (m : Z) (x : Q) (a b : cost C D) (qa qb lo hi : Q),
  (inject_Z m <= x)%Q -> (x <= inject_Z (m + 1))%Q ->
  call_certain cf t [m] = Ok a -> call_certain cf t [m + 1] = Ok b ->
  c_cost a = Fin qa -> c_cost b = Fin qb ->
  (lo <= qa)%Q -> (lo <= qb)%Q -> (qa <= hi)%Q -> (qb <= hi)%Q ->
  exists c q, call_certain (cf_into_f vmerge cf) t [x] = Ok c /\ c_cost c = Fin q /\ (lo <= q <= hi)%Q.
Proof. exact @into_f_neighbours. Qed.
Print Assumptions relaxation_between_neighbours.

(** C14: ... is convex when the original is ... *)
Theorem relaxation_is_convex :
  forall (C D : Type) (vmerge : C -> C -> outcome C) (cf : cost_fn (list Z) C D) (t : Z),
  1 <= t -> (forall a b, exists c, vmerge a b = Ok c) ->
  forall (M : Z) (g : Z -> ext),
  (forall z, 0 <= z <= M -> exists c, call_certain cf t [z] = Ok c /\ c_cost c = g z) ->
  convex_on M g ->
  convex_on_Q M (fun x => number (call_certain (cf_into_f vmerge cf) t [x])).
Proof. exact @into_f_convex. Qed.
Print Assumptions relaxation_is_convex.

(** C14: ... exists in one dimension only ... *)
Theorem relaxation_one_dimensional :
  forall (C D : Type) (vmerge : C -> C -> outcome C) (cf : cost_fn (list Z) C D) (t : Z),
  1 <= t -> forall x : list Q, length x <> 1%nat ->
  call_certain (cf_into_f vmerge cf) t x = Panic.
Proof. exact @into_f_dim. Qed.
Print Assumptions relaxation_one_dimensional.

(** C14: ... and discretising it gives back bounds and costs. *)
Theorem relax_then_discretise :
  forall (C D : Type) (vmerge : C -> C -> outcome C) (outside : D) (p : gssco Z C D) (t z : Z) (c : cost C D),
  1 <= t -> length (g_bounds p) = 1%nat ->
  call_predictive (g_cost p) t [z] = Ok [c] ->
  g_bounds (ssco_into_i (ssco_into_f vmerge p)) = g_bounds p /\
  outcome_rel cost_eq (gssco_hit valZ vmerge outside (ssco_into_i (ssco_into_f vmerge p)) t [z])
                      (gssco_hit valZ vmerge outside p t [z]).
Proof. exact @ssco_round_trip. Qed.
Print Assumptions relax_then_discretise.

(** C14: ... and gives back dimension, horizon, bounds and switching costs. *)
Theorem relax_then_discretise_fields :
  forall (C D : Type) (vmerge : C -> C -> outcome C) (p : gssco Z C D),
  g_d (ssco_into_i (ssco_into_f vmerge p)) = g_d p /\ g_tend (ssco_into_i (ssco_into_f vmerge p)) = g_tend p /\
  g_bounds (ssco_into_i (ssco_into_f vmerge p)) = g_bounds p /\ g_switching (ssco_into_i (ssco_into_f vmerge p)) = g_switching p.
Proof. exact @ssco_back. Qed.
Print Assumptions relax_then_discretise_fields.

(** C14: an integral schedule has the same total cost (including panics and outputs) in a
    one-dimensional integral problem with certain costs and in its relaxation ... *)
Theorem relaxation_keeps_total_cost :
  forall (C D : Type) (vmerge : C -> C -> outcome C) (merge : C -> C -> C) (outside : D) (p : gssco Z C D)
         (xs : list (list Z)) (x0 : list Z) (s : split) (alpha : Q) (inverted : bool) (t_end : Z),
  length x0 = 1%nat -> Forall (fun x => length x = 1%nat) xs ->
  (forall t x rs, 1 <= t -> x = x0 \/ In x xs -> call_predictive (g_cost p) t x = Ok rs -> length rs = 1%nat) ->
  outcome_rel cost_eq
    (objective_o merge s (gssco_problem valQ vmerge outside (ssco_into_f vmerge p)) (schedule_to xs) (config_to x0) alpha inverted t_end)
    (objective_o merge s (gssco_problem valZ vmerge outside p) xs x0 alpha inverted t_end).
Proof. exact @relaxed_objective. Qed.
Print Assumptions relaxation_keeps_total_cost.

(** C14: ... and in a fractional problem of any dimension and its discretisation. *)
Theorem discretisation_keeps_total_cost :
  forall (C D : Type) (vmerge : C -> C -> outcome C) (merge : C -> C -> C) (outside : D) (p : gssco Q C D)
         (xs : list (list Z)) (x0 : list Z) (s : split) (alpha : Q) (inverted : bool) (t_end : Z),
  (forall t x rs, 1 <= t -> x = x0 \/ In x xs -> call_predictive (g_cost p) t (config_to x) = Ok rs -> length rs = 1%nat) ->
  outcome_rel cost_eq
    (objective_o merge s (gssco_problem valZ vmerge outside (ssco_into_i p)) xs x0 alpha inverted t_end)
    (objective_o merge s (gssco_problem valQ vmerge outside p) (schedule_to xs) (config_to x0) alpha inverted t_end).
Proof. exact @discretised_objective. Qed.
Print Assumptions discretisation_keeps_total_cost.

(** C15: [to_i] gives the least integral schedule above a fractional one ... *)
Theorem to_i_is_least_above :
  forall xs : list (list Q),
  Forall2 config_below xs (schedule_to_i xs) /\
  forall zs, Forall2 config_below xs zs -> Forall2 configs_le (schedule_to_i xs) zs.
Proof. exact to_i_least. Qed.
Print Assumptions to_i_is_least_above.

(** C15: ... [floor] the greatest configuration below ... *)
Theorem floor_is_greatest_below :
  forall x : list Q,
  config_above x (config_floor x) /\ forall z, config_above x z -> configs_le z (config_floor x).
Proof. exact (fun x => conj (config_above_floor x) (config_floor_greatest x)). Qed.
Print Assumptions floor_is_greatest_below.

(** C15: ... both stay within integral bounds ... *)
Theorem rounding_keeps_bounds :
  forall (bounds : list Z) (x : list Q), in_box valQ (config_to bounds) x ->
  feasible_config bounds (config_ceil x) /\ feasible_config bounds (config_floor x).
Proof. exact in_box_rounded. Qed.
Print Assumptions rounding_keeps_bounds.

Theorem to_i_keeps_feasibility :
  forall (t_end : Z) (bounds : list Z) (xs : list (list Q)),
  Z.of_nat (length xs) = t_end -> Forall (in_box valQ (config_to bounds)) xs ->
  feasible_schedule t_end bounds (schedule_to_i xs).
Proof. exact to_i_feasible. Qed.
Print Assumptions to_i_keeps_feasibility.

(** C15: ... and integral schedules survive. *)
Theorem to_then_to_i :
  forall xs : list (list Z), schedule_to_i (schedule_to xs) = xs.
Proof. exact to_i_to. Qed.
Print Assumptions to_then_to_i.

(** C16: [reset(t0)] charges at [t] what the original charges at [t0 + t], provided the
    first slot is certain; otherwise it panics. *)
Theorem reset_shifts_costs :
  forall (X C D : Type) (vmerge : C -> C -> outcome C) (cf : cost_fn X C D) (t0 t : Z) (x : X),
  1 <= t -> 1 <= t0 + t ->
  (t = 1 -> forall rs, call_predictive cf (t0 + 1) x = Ok rs -> length rs = 1%nat) ->
  call_predictive (cf_reset cf t0) t x = call_predictive cf (t0 + t) x /\
  call_certain (cf_reset cf t0) t x = call_certain cf (t0 + t) x /\
  call_mean vmerge (cf_reset cf t0) t x = call_mean vmerge cf (t0 + t) x.
Proof. exact @reset_same. Qed.
Print Assumptions reset_shifts_costs.

Theorem reset_requires_certainty :
  forall (X C D : Type) (cf : cost_fn X C D) (t0 : Z) (x : X) (rs : list (cost C D)),
  0 <= t0 -> call_predictive cf (t0 + 1) x = Ok rs -> length rs <> 1%nat ->
  call_predictive (cf_reset cf t0) 1 x = Panic.
Proof. exact @reset_uncertain. Qed.
Print Assumptions reset_requires_certainty.

(** C16: nested resets add up. *)
Theorem nested_resets :
  forall (X C D : Type) (cf : cost_fn X C D) (a b t : Z) (x : X),
  0 <= a -> 0 <= b -> 1 <= t ->
  call_predictive (cf_reset (cf_reset cf a) b) t x = call_predictive (cf_reset cf (a + b)) t x.
Proof. exact @reset_nested. Qed.
Print Assumptions nested_resets.

(** C16: the objective is the objective of the first [t0] slots plus that of the reset
    problem on the rest of the schedule, started at the configuration of slot [t0]. *)
Theorem objective_splits_at_reset :
  forall (T C D : Type) (v : value T) (vmerge : C -> C -> outcome C) (merge : C -> C -> C) (outside : D)
         (p : gssco T C D) (xs : list (list T)) (x0 : list T) (alpha : Q) (inverted : bool) (t0 : Z)
         (s s1 s2 : split),
  0 <= t0 <= g_tend p -> g_tend p <= Z.of_nat (length xs) ->
  (t0 < g_tend p -> forall rs, call_predictive (g_cost p) (t0 + 1) (get_or xs x0 (t0 + 1)) = Ok rs -> length rs = 1%nat) ->
  match objective_o merge s (gssco_problem v vmerge outside p) xs x0 alpha inverted (g_tend p),
        objective_o merge s1 (gssco_problem v vmerge outside p) xs x0 alpha inverted t0,
        objective_o merge s2 (gssco_problem v vmerge outside (ssco_reset p t0)) (schedule_skip xs t0)
          (get_or xs x0 t0) alpha inverted (g_tend (ssco_reset p t0)) with
  | Ok c, Ok c1, Ok c2 => eeq (c_cost c) (eadd (c_cost c1) (c_cost c2))
  | Ok _, _, _ => False
  | _, Ok _, Ok _ => False
  | _, _, _ => True
  end.
Proof. exact @reset_split. Qed.
Print Assumptions objective_splits_at_reset.

(** C19: reading a flattened schedule gives the schedule ... *)
Theorem from_raw_reads_flattened :
  forall (A : Type) (d : Z) (xs : list (list A)), 0 <= d ->
  Forall (fun x => Z.of_nat (length x) = d) xs ->
  from_raw d (Z.of_nat (length xs)) (flatten xs) = Ok xs.
Proof. exact @from_raw_flatten. Qed.
Print Assumptions from_raw_reads_flattened.

(** C19: ... whatever is read flattens to the encoding ... *)
Theorem from_raw_inverts :
  forall (A : Type) (d w : Z) (l : list A) (xs : list (list A)), from_raw d w l = Ok xs ->
  flatten xs = l /\ Z.of_nat (length xs) = w /\ Forall (fun x => Z.of_nat (length x) = d) xs.
Proof. exact @from_raw_ok. Qed.
Print Assumptions from_raw_inverts.

(** C19: ... an encoding of another length panics ... *)
Theorem from_raw_rejects :
  forall (A : Type) (d w : Z) (l : list A), Z.of_nat (length l) <> d * w -> from_raw d w l = Panic.
Proof. exact @from_raw_wrong. Qed.
Print Assumptions from_raw_rejects.

(** C19: ... and [build_raw] encodes the repeated configuration. *)
Theorem build_raw_repeats :
  forall (A : Type) (w : Z) (x : list A), 0 <= w ->
  build_raw w x = Ok (flatten (repeat x (Z.to_nat w))).
Proof. exact @build_raw_spec. Qed.
Print Assumptions build_raw_repeats.
