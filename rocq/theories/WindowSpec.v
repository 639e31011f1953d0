(** Specification used by the theorems about optimising over windows of time slots with NLopt. *)
From Verif Require Export OptimizeSpec HorizonRunSpec OfflineSpec OneTypeSpec.
From Verif Require Import CostModel.
Local Open Scope Z_scope.

(** The value of a schedule does not depend on how its rationals are written. *)
Definition respects_rows {A} (eq : A -> A -> Prop) (F : list (list Q) -> A) : Prop :=
  forall xs ys, Forall2 (Forall2 Qeq) xs ys -> eq (F xs) (F ys).

(** A schedule of [t_end] configurations within the bounds whose entries are multiples of 0.01. *)
Definition grid_schedule (t_end : Z) (bounds : list (Q * Q)) (xs : list (list Q)) : Prop :=
  Z.of_nat (length xs) = t_end /\ Forall (grid bounds) xs.

(** The alpha-unfair objective function of an instance of SCO. *)
Definition sco_objective {T C D} (v : value T) (merge : C -> C -> C) vmerge (outside : D) (s : split) (p : gsco T C D)
    (alpha : Q) (xs : list (list T)) : outcome (cost C D) :=
  objective_o merge s (gsco_problem v vmerge outside p) xs (repeat (v_zero v) (Z.to_nat (o_d p))) alpha false (o_tend p).

(** The movement of a schedule which starts at the zero configuration. *)
Definition sco_movement {C D} (p : gsco Q C D) (xs : list (list Q)) : Q :=
  movement_of (fun x => match o_norm p x with Ok q => q | _ => 0%Q end) (length (o_bounds p)) xs.

(** Hitting costs and norm of an instance can be computed within its bounds, and do not depend
    on how rationals are written. *)
Record computable {C D} (vmerge : C -> C -> outcome C) (p : gsco Q C D) : Prop := {
  cp_hit : forall t x, 1 <= t <= o_tend p -> in_boxQ (o_bounds p) x -> exists c, call_mean vmerge (o_cost p) t x = Ok c;
  cp_hit_eq : forall t x y, 1 <= t <= o_tend p -> in_boxQ (o_bounds p) x -> Forall2 Qeq x y ->
    eeq (cost_of (call_mean vmerge (o_cost p) t x)) (cost_of (call_mean vmerge (o_cost p) t y));
  cp_norm : forall x, length x = length (o_bounds p) -> exists q, o_norm p x = Ok q;
  cp_norm_eq : forall x y q q', length x = length (o_bounds p) -> Forall2 Qeq x y -> o_norm p x = Ok q -> o_norm p y = Ok q' -> (q == q')%Q
}.

(** Likewise for the hitting costs of an instance of SSCO. *)
Record fractional_costs {C D} vmerge (outside : D) (p : gssco Q C D) : Prop := {
  fc_hit : forall t x, 1 <= t <= g_tend p -> within_bounds (g_bounds p) x -> exists c, gssco_hit valQ vmerge outside p t x = Ok c;
  fc_eq : forall t x y, 1 <= t <= g_tend p -> within_bounds (g_bounds p) x -> Forall2 Qeq x y ->
    eeq (cost_of (gssco_hit valQ vmerge outside p t x)) (cost_of (gssco_hit valQ vmerge outside p t y))
}.

(** The integral instance [p] and the fractional instance [q] describe the same problem. *)
Record same_problem {C D} vmerge (outside : D) (p : gssco Z C D) (q : gssco Q C D) : Prop := {
  sp_dimension : g_d q = g_d p;
  sp_slots : g_tend q = g_tend p;
  sp_bounds : g_bounds q = map inject_Z (g_bounds p);
  sp_switching : g_switching q = g_switching p;
  sp_costs : forall t x, 1 <= t <= g_tend p -> feasible_config (g_bounds p) x ->
    eeq (cost_of (gssco_hit valQ vmerge outside q t (map inject_Z x))) (cost_of (gssco_hit valZ vmerge outside p t x))
}.
