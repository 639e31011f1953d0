(** Specification used by the theorems about capacity provisioning with NLopt. *)
From Coq Require Import Qabs.
From Verif Require Export ObjectiveSpec CapacitySpec OptimizeSpec.
From Verif Require Import CapacityModel.
From Verif Require Import CostModel.
Local Open Scope Z_scope.

(** The optimiser answers a point of the box with entries in [P] at which [g] is minimal among
    the points of the box with entries in [P]. *)
Definition exact_on (P : Q -> Prop) (minimizer : (list Q -> outcome ext) -> list (Q * Q) -> outcome (list Q))
    (g : list Q -> outcome ext) (bs : list (Q * Q)) : Prop :=
  exists xs c, minimizer g bs = Ok xs /\ in_boxQ bs xs /\ Forall P xs /\ g xs = Ok c /\
    forall ys c', in_boxQ bs ys -> Forall P ys -> g ys = Ok c' -> ele c c'.

(** [n] numbers of servers between 0 and [m] with entries in [P]. *)
Definition servers_on (P : Q -> Prop) (m : Q) (n : Z) (xs : list Q) : Prop := servers_ok m n xs /\ Forall P xs.

(** An optimum is suspected to pass through the bounds of a slot: they are less than 0.1 apart
    and in the next slot the lower bound rises or the upper bound falls. *)
Definition suspected (bs : list (bounds_memory Q)) : Prop :=
  exists before b b' after, bs = before ++ b :: b' :: after /\
    (Qabs (bm_lower b - bm_upper b) < 1 # 10)%Q /\ (bm_upper b' < bm_upper b \/ bm_lower b < bm_lower b')%Q.

(** The hitting costs of an instance are certain and given by [f]. *)
Definition certain_costs {C D} (vmerge : C -> C -> outcome C) (p : gssco Q C D) (m : Q) (f : Z -> Q -> ext) : Prop :=
  forall t x, 1 <= t <= g_tend p -> (0 <= x <= m)%Q ->
    (exists c, call_mean vmerge (g_cost p) t [x] = Ok c /\ eeq (c_cost c) (f t x)) /\
    (forall rs, call_predictive (g_cost p) t [x] = Ok rs -> length rs = 1%nat).
