(** Specification used by the theorems about data centres with servers of one type. *)
From Verif Require Export DataCenterModel DataCenterSpec CapacitySpec OfflineSpec.
From Verif Require Import CostModel.
Local Open Scope Z_scope.

(** The power of a server is a convex function of its utilisation. *)
Definition convex_power (power : Q -> Q) : Prop :=
  forall a b c, (0 <= a)%Q -> (a <= b)%Q -> (b <= c)%Q ->
    ((c - a) * power b <= (c - b) * power a + (b - a) * power c)%Q.

(** A data centre with one location, [l], and one type of servers, [st], whose power is convex and
    not negative; delays do not earn money. *)
Record one_type (powf : Q -> Q -> Q) (m : data_center) (price : location -> Z -> Q) (power : server_type -> Q -> Q)
    (revenue : job_type -> Q * Q) (l : location) (st : server_type) : Prop := mkOneType {
  ot_described : described powf m price power revenue;
  ot_location : dc_locations m = [l];
  ot_type : dc_server_types m = [st];
  ot_convex : convex_power (power st);
  ot_power : forall s, (0 <= s)%Q -> (0 <= power st s)%Q;
  ot_revenue : forall jt, In jt (dc_job_types m) -> (0 <= fst (revenue jt))%Q
}.

(** The loads of a slot: one for every pair of a source and a job type, none of them negative. *)
Definition profile (m : data_center) (lambda : list Q) : Prop :=
  length lambda = dc_e m /\ Forall (fun q => 0 <= q)%Q lambda.

(** The part of the loads the costs are computed for: of every load its share in the total load.
    This is all of it if there is one source and one job type ([counted_single] in
    OneTypeCosts.v), but not otherwise (C39, finding 2 in DESIGN.md). *)
Definition counted (lambda : list Q) : list Q := map (fun q => q * (q / Qsum lambda))%Q lambda.

(** What [x] active servers cost in slot [t]. *)
Definition active_cost (m : data_center) price power revenue (l : location) (st : server_type) (t : Z) (loads : list Q) (x : Q) : Q :=
  (price l t * type_energy m power st x loads + type_revenue m revenue t l st x loads)%Q.

(** A minimisation problem without variables is answered by evaluating its objective
    (NLopt returns at once in this case). *)
Definition trivial_exact
    (minimize : (list Q -> outcome ext) -> list (Q * Q) -> list Q -> list (list Q -> outcome Q) -> option (list Q * ext))
    : Prop :=
  forall f cs c, f [] = Ok c -> minimize f [] [] cs = Some ([], c).

(** The cost reported by a computation, infinite if there is none. *)
Definition cost_of {C D} (r : outcome (cost C D)) : ext := match r with Ok c => c_cost c | _ => Inf end.

(** A fractional schedule of [t_end] slots with at most [m] servers. *)
Definition feasible_1dQ (t_end : Z) (m : Q) (xs : list (list Q)) : Prop :=
  Z.of_nat (length xs) = t_end /\ Forall (fun x => exists y, x = [y] /\ 0 <= y <= m)%Q xs.

(** [xs] is such a schedule, and none has a smaller objective. *)
Definition cheapest_1dQ {C D} (objective : list (list Q) -> outcome (cost C D)) (t_end : Z) (m : Q) (xs : list (list Q)) : Prop :=
  feasible_1dQ t_end m xs /\
  exists c, objective xs = Ok c /\ is_fin (c_cost c) /\
    forall ys, feasible_1dQ t_end m ys -> exists c', objective ys = Ok c' /\ ele (c_cost c) (c_cost c').

(** The instance an online algorithm faces: [cap] servers with switching cost [beta], and the
    load profile [loads t] in slot [t]. *)
Definition load_stream (powf : Q -> Q -> Q) (m : data_center) minimize (cap : Z) (beta : Q) (loads : Z -> list Q)
    : ssco dc_success dc_failure :=
  mkSSCO 1 1 [cap] [beta]
    (fun t x => match apply_loads valZ minimize (dc_d m) (dc_e m) (dc_objective_of powf m valZ) (loads t) t x with
                | Ok c => c
                | _ => outside_cost OutsideDecisionSpace
                end).

(** The objective of a fractional schedule of one kind of servers. *)
Definition objective_1dQ {C D} (merge : C -> C -> C) vmerge (outside : D) (s : split) (p : gssco Q C D) (alpha : Q)
    (xs : list (list Q)) : outcome (cost C D) :=
  objective_o merge s (gssco_problem valQ vmerge outside p) xs [0%Q] alpha false (g_tend p).
