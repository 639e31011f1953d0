(** Specification used by the theorems about solving offline problems. *)
From Verif Require Export OfflineModel ObjectiveSpec LoadSpec ApproxRatioSpec.
From Verif Require Import CostModel.
Local Open Scope Z_scope.

(** The hitting cost of every feasible configuration in every slot can be computed ... *)
Definition evaluable {C D} (hit : Z -> list Z -> outcome (cost C D)) (t_end : Z) (bounds : list Z) : Prop :=
  forall t x, 1 <= t <= t_end -> feasible_config bounds x -> exists c, hit t x = Ok c.

(** ... and using all servers is possible in every slot. *)
Definition capacity_suffices {C D} (hit : Z -> list Z -> outcome (cost C D)) (t_end : Z) (bounds : list Z) : Prop :=
  forall t, 1 <= t <= t_end -> exists c, hit t bounds = Ok c /\ is_fin (c_cost c).

(** [xs] is a feasible schedule whose (finite) objective is at most that of every feasible
    schedule satisfying [P]. *)
Definition cheapest_among {C D} (P : list (list Z) -> Prop) (objective : list (list Z) -> outcome (cost C D))
    (t_end : Z) (bounds : list Z) (xs : list (list Z)) : Prop :=
  feasible_schedule t_end bounds xs /\
  exists c, objective xs = Ok c /\ is_fin (c_cost c) /\
    forall ys, feasible_schedule t_end bounds ys -> P ys ->
      exists c', objective ys = Ok c' /\ ele (c_cost c) (c_cost c').
Definition cheapest {C D} := @cheapest_among C D (fun _ => True).

(** Likewise, up to the factor [r]. *)
Definition cheapest_within_among {C D} (r : Q) (P : list (list Z) -> Prop) (objective : list (list Z) -> outcome (cost C D))
    (t_end : Z) (bounds : list Z) (xs : list (list Z)) : Prop :=
  feasible_schedule t_end bounds xs /\
  exists c, objective xs = Ok c /\ is_fin (c_cost c) /\
    forall ys, feasible_schedule t_end bounds ys -> P ys ->
      exists c', objective ys = Ok c' /\ ele (c_cost c) (escale r (c_cost c')).
Definition cheapest_within {C D} (r : Q) := @cheapest_within_among C D r (fun _ => True).

(** The alpha-unfair objective functions of an instance (src/problem.rs:124-140). *)
Definition ssco_objective {C D} (merge : C -> C -> C) vmerge (outside : D) (s : split) (p : gssco Z C D) (alpha : Q)
    (xs : list (list Z)) : outcome (cost C D) :=
  objective_o merge s (gssco_problem valZ vmerge outside p) xs (repeat 0 (Z.to_nat (g_d p))) alpha false (g_tend p).
Definition sblo_objective_fn minimize (s : split) (p : gsblo Z) (alpha : Q) (xs : list (list Z))
    : outcome (cost dc_success dc_failure) :=
  objective_o dc_hmerge s (sblo_problem valZ minimize p) xs (repeat 0 (Z.to_nat (b_d p))) alpha false (b_tend p).
Definition slo_objective_fn (s : split) (p : gslo Z) (alpha : Q) (xs : list (list Z))
    : outcome (cost unit dc_failure) :=
  objective_o (fun _ _ => tt) s (slo_problem valZ p) xs (repeat 0 (Z.to_nat (l_d p))) alpha false (l_tend p).

(** The servers of [xs] suffice for the load of every slot. *)
Definition covers (p : gslo Z) (xs : list (list Z)) : Prop :=
  forall i x l, nth_error xs i = Some x -> nth_error (l_load p) i = Some l ->
    (inject_Z l <= Qsum (map inject_Z x))%Q.

(** The numerical solver finds an assignment of finite cost for every configuration of [xs]. *)
Definition assignable minimize (p : gslo Z) (xs : list (list Z)) : Prop :=
  forall i x, nth_error xs i = Some x ->
    exists c, sblo_hit valZ minimize (into_sblo p) (Z.of_nat i + 1) x = Ok c /\ is_fin (c_cost c).

(** Raising the levels by a factor of at most [r] raises the hitting cost by a factor of at most [r]. *)
Definition scales_at_most {C D} (r : Q) (hit : Z -> list Z -> outcome (cost C D)) (t_end : Z) (bounds : list Z) : Prop :=
  forall t x y c c', 1 <= t <= t_end -> feasible_config bounds x -> feasible_config bounds y -> raised r x y ->
    hit t x = Ok c -> hit t y = Ok c' -> ele (c_cost c') (escale r (c_cost c)).

(** The cost of a server can be computed for every load, is not negative, and does not decrease
    when the server has more to do. *)
Definition regular_costs (p : gsblo Z) : Prop :=
  Z.of_nat (length (b_cost p)) = b_d p /\
  forall f t, In f (b_cost p) -> 1 <= t <= b_tend p ->
    (forall l, (0 <= l)%Q -> exists c, call_mean unit_vmerge f t l = Ok c /\ ele (Fin 0) (c_cost c)) /\
    (forall l l' c c', (0 <= l)%Q -> (l <= l')%Q -> call_mean unit_vmerge f t l = Ok c ->
       call_mean unit_vmerge f t l' = Ok c' -> ele (c_cost c) (c_cost c')).

(** The hitting costs are those of the best division of the load (as stored, i.e. after rounding). *)
Definition assigns_best minimize (p : gsblo Z) : Prop :=
  forall t x l c, 1 <= t <= b_tend p -> feasible_config (b_bounds p) x -> access (b_load p) t = Some l ->
    sblo_hit valZ minimize p t x = Ok c ->
    let cost zs := objective_value (sblo_objective valZ p t x [inject_Z l] (new_fractions zs (length x) 1)) in
    let allowed zs := distribution (length x) (map apply_precision zs) in
    (exists zs o, allowed zs /\ cost zs = Some o /\ eeq o (c_cost c)) /\
    (forall zs o, allowed zs -> cost zs = Some o -> ele (c_cost c) o).

(** The answers of the numerical solver are within the bounds it is given. *)
Definition solver_in_bounds
    (minimize : (list Q -> outcome ext) -> list (Q * Q) -> list Q -> list (list Q -> outcome Q) -> option (list Q * ext))
    : Prop :=
  forall f bs init cs zs c, minimize f bs init cs = Some (zs, c) ->
    Forall2 (fun b z => fst b <= z <= snd b)%Q bs zs.

(** Schedules which keep the same configuration for all slots, and the objective of the one keeping [x]. *)
Definition constant (t_end : Z) (xs : list (list Z)) : Prop := exists x, xs = repeat x (Z.to_nat t_end).
Definition static_value {C D} (objective : list (list Z) -> outcome (cost C D)) (t_end : Z) (x : list Z) : ext :=
  match objective (repeat x (Z.to_nat t_end)) with Ok c => c_cost c | _ => Inf end.
