(** Specification used by the theorems about lazy budgeting for SLO. *)
From Verif Require Export BudgetModel GraphSearchSpec.
Local Open Scope Z_scope.

(** A list whose entries do not increase. *)
Definition non_increasing (l : list Z) : Prop :=
  forall i j a b, (i <= j)%nat -> nth_error l i = Some a -> nth_error l j = Some b -> b <= a.

(** The lanes of a configuration: first the servers of the last type, ..., then those of
    the first type (types are numbered from [k]). *)
Fixpoint lanes_of (k : Z) (x : list Z) : list Z :=
  match x with
  | [] => []
  | j :: r => lanes_of (k + 1) r ++ repeat k (Z.to_nat j)
  end.

(** Instances of SLO: server types ordered by decreasing (positive) operating costs and
    non-decreasing switching costs. *)
Record slo_instance (p : gslo Z) : Prop := {
  si_d : 0 < l_d p;
  si_bounds : Z.of_nat (length (l_bounds p)) = l_d p;
  si_switching : Z.of_nat (length (l_switching p)) = l_d p;
  si_hitting : Z.of_nat (length (l_hitting p)) = l_d p;
  si_bounds_pos : Forall (fun u => 0 < u) (l_bounds p);
  si_switching_pos : Forall (fun b => 0 <= b)%Q (l_switching p);
  si_hitting_pos : Forall (fun c => 0 < c)%Q (l_hitting p);
  si_switching_order : forall i j a b, (i <= j)%nat ->
    nth_error (l_switching p) i = Some a -> nth_error (l_switching p) j = Some b -> (a <= b)%Q;
  si_hitting_order : forall i j a b, (i <= j)%nat ->
    nth_error (l_hitting p) i = Some a -> nth_error (l_hitting p) j = Some b -> (b <= a)%Q
}.

(** The numerical solver reports the value of the objective at its answer. *)
Definition solver_reports
    (minimize : (list Q -> outcome ext) -> list (Q * Q) -> list Q -> list (list Q -> outcome Q) -> option (list Q * ext))
    : Prop :=
  forall f bs init cs z c, minimize f bs init cs = Some (z, c) -> f z = Ok c.

(** Evaluating the hitting costs of the SBLO image of [p] succeeds with costs equal to those of
    [hit] inside the decision space, and full capacity has a finite cost. *)
Definition evaluates minimize (p : gslo Z) (hit : Z -> list Z -> cost dc_success dc_failure) : Prop :=
  (forall t x, 1 <= t <= Z.of_nat (length (l_load p)) -> feasible_config (l_bounds p) x ->
     exists c, sblo_hit valZ minimize (into_sblo p) t x = Ok c /\ eeq (c_cost c) (c_cost (hit t x))) /\
  (forall t, 1 <= t <= Z.of_nat (length (l_load p)) -> is_fin (c_cost (hit t (l_bounds p)))).

(** A schedule of the slots 1..t of least cost (hitting costs of the converted problem plus
    switching costs). *)
Definition optimal_slots (p : gslo Z) (hit : Z -> list Z -> cost dc_success dc_failure) (t : Z)
    (xs : list (list Z)) : Prop :=
  let cost := total_cost (fun u x => c_cost (hit u x)) (switching (l_switching p) false) 1 1 (zero_config (l_d p)) in
  feasible_schedule t (l_bounds p) xs /\ is_fin (cost xs) /\
  forall ys, feasible_schedule t (l_bounds p) ys -> ele (cost xs) (cost ys).

(** Slots a server of type [k] stays active without being needed: floor(beta_k / c_k), times
    [gamma] in the randomised variant; 0 for an inactive lane. *)
Definition idle_slots (p : gslo Z) (gamma : Q) (randomized : bool) (k : Z) : Z :=
  if k =? 0 then 0
  else Qfloor ((if randomized then gamma else 1) * nth (Z.to_nat (k - 1)) (l_switching p) 0
               / nth (Z.to_nat (k - 1)) (l_hitting p) 1)%Q.

(** Number of occurrences. *)
Definition count (l : list Z) (k : Z) : Z := Z.of_nat (count_occ Z.eq_dec l k).
