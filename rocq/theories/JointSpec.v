(** Specification used by the theorems about data centres with several types of servers:
    configurations and the division of the load are optimised together. *)
From Verif Require Export JointModel OneTypeSpec OptimizeSpec ObjectiveSpec.
From Verif Require Import CostModel.
Local Open Scope Z_scope.

(** A division of the load of a slot among [n] types of servers, in hundredths. *)
Definition division (n : nat) (ss : list Q) : Prop :=
  length ss = n /\ Forall (fun s => hundredths s /\ 0 <= s)%Q ss /\ (Qsum ss == 1)%Q.

(** [x] active servers of the types of [m] can process the load [q] divided by [ss]. *)
Definition processes (m : data_center) (x : list Z) (q : Q) (ss : list Q) : Prop :=
  forall k st, nth_error (dc_server_types m) k = Some st ->
    supported m st (inject_Z (nth k x 0)) [(q * nth k ss 0)%Q].

(** What they cost in slot [t]: energy and lost revenue, summed over the types. *)
Definition running_cost (m : data_center) price power revenue (l : location) (t : Z) (x : list Z) (q : Q) (ss : list Q) : Q :=
  Qsum (map (fun k => match nth_error (dc_server_types m) k with
                      | Some st => active_cost m price power revenue l st t [(q * nth k ss 0)%Q] (inject_Z (nth k x 0))
                      | None => 0%Q
                      end) (seq 0 (length (dc_server_types m)))).

(** Its two parts. *)
Definition energy_part (m : data_center) price power (l : location) (t : Z) (x : list Z) (q : Q) (ss : list Q) : Q :=
  (price l t * Qsum (map (fun k => match nth_error (dc_server_types m) k with
                                   | Some st => type_energy m power st (inject_Z (nth k x 0%Z)) [q * nth k ss 0]
                                   | None => 0
                                   end) (seq 0 (length (dc_server_types m)))))%Q.
Definition revenue_part (m : data_center) revenue (l : location) (t : Z) (x : list Z) (q : Q) (ss : list Q) : Q :=
  Qsum (map (fun k => match nth_error (dc_server_types m) k with
                      | Some st => type_revenue m revenue t l st (inject_Z (nth k x 0%Z)) [(q * nth k ss 0)%Q]
                      | None => 0%Q
                      end) (seq 0 (length (dc_server_types m)))).
(** A part summed over the slots of a plan. *)
Fixpoint over_slots (f : Z -> list Z -> Q -> list Q -> Q) (t : Z) (loads : list Q) (plan : list (list Z * list Q)) : Q :=
  match loads, plan with
  | q :: loads', (x, ss) :: plan' => (f t x q ss + over_slots f (t + 1) loads' plan')%Q
  | _, _ => 0%Q
  end.

(** The cost of operating a data centre from slot [t] on: a plan gives for every slot the active
    servers of every type and the division of the load; switching is weighted by [alpha]. *)
Fixpoint operating_cost (m : data_center) price power revenue (l : location) (betas : list Q) (alpha : Q) (t : Z) (prev : list Z)
    (loads : list Q) (plan : list (list Z * list Q)) : Q :=
  match loads, plan with
  | q :: loads', (x, ss) :: plan' =>
      (running_cost m price power revenue l t x q ss + alpha * power_up betas prev x
       + operating_cost m price power revenue l betas alpha (t + 1) x loads' plan')%Q
  | _, _ => 0%Q
  end.

(** A plan within the capacities [caps] which processes all loads. *)
Definition operable (m : data_center) (caps : list Z) (loads : list Q) (plan : list (list Z * list Q)) : Prop :=
  Forall2 (fun q xs => feasible_config caps (fst xs) /\ division (length (dc_server_types m)) (snd xs) /\
                       processes m (fst xs) q (snd xs)) loads plan.

(** A data centre with one location, one source and one job type, and the given capacities and
    switching costs of its types of servers. *)
Record center (powf : Q -> Q -> Q) (m : data_center) (price : location -> Z -> Q) (power : server_type -> Q -> Q)
    (revenue : job_type -> Q * Q) (l : location) (caps : list Z) (betas : list Q) : Prop := mkCenter {
  ct_described : described powf m price power revenue;
  ct_location : dc_locations m = [l];
  ct_source : length (dc_sources m) = 1%nat;
  ct_job_type : length (dc_job_types m) = 1%nat;
  ct_types : dc_server_types m <> [];
  ct_power : forall st a b, In st (dc_server_types m) -> (a == b)%Q -> (power st a == power st b)%Q;
  ct_caps : Forall2 (fun st c => lookup (lo_m l) (st_key st) = Ok c /\ 0 < c) (dc_server_types m) caps;
  ct_betas : Forall2 (fun st b => exists s, lookup (dc_switching m) (st_key st) = Ok s /\ b = switching_cost_of s /\ (0 < b)%Q)
                     (dc_server_types m) betas
}.

(** All servers together can process the load [q]. *)
Definition manageable (m : data_center) (caps : list Z) (q : Q) : Prop :=
  exists ss, division (length (dc_server_types m)) ss /\ processes m caps q ss.

(** An ideal optimiser which evaluates its objective only where the constraints are satisfied: if
    there is such a point, its answer is one, and none has a smaller value. *)
Definition careful_nlopt (nlopt : nl_problem -> outcome nl_result) : Prop :=
  forall a f bounds cs x0, supports a cs ->
  aligned bounds -> in_boxQ bounds x0 ->
  (forall g, In g (f :: cs) -> forall x, g x = g (map apply_precision x)) ->
  (forall g, In g cs -> forall x, in_boxQ bounds x -> exists v, g x = Ok v) ->
  (forall x, in_boxQ bounds x -> satisfies cs x 0 -> exists v, f x = Ok v) ->
  (exists z, in_boxQ bounds z /\ satisfies cs z 0) ->
  exists s v y,
    nlopt (mkNL a Minimize f (map (fun b => (Num (fst b), Num (snd b))) bounds) cs x0) = Ok (NlOk s v y) /\
    s <> MaxEvalReached /\ s <> MaxTimeReached /\
    in_boxQ bounds y /\ satisfies cs y 0 /\ f y = Ok v /\
    forall z w, in_boxQ bounds z -> satisfies cs z 0 -> f z = Ok w -> num_le v w.

(** An optimiser whose time is up (or which has used all its evaluations) when it has reached the point [y]. *)
Definition out_of_time (s : success_state) (y : list Q) (problem : nl_problem) : outcome nl_result :=
  do v <- nl_objective problem y; Ok (NlOk s v y).
