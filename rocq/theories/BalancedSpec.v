(** Specification used by the theorems about lazy budgeting for SBLO. *)
From Verif Require Export BalancedModel GraphSearchSpec VerifySpec.
From Verif Require Export BudgetSpec.
From Verif Require Export CostModel.
Local Open Scope Z_scope.

(** The numerical solver only depends on the values of the objective. *)
Definition solver_extensional
    (minimize : (list Q -> outcome ext) -> list (Q * Q) -> list Q -> list (list Q -> outcome Q) -> option (list Q * ext))
    : Prop :=
  forall f g bs init cs, (forall z, f z = g z) -> minimize f bs init cs = minimize g bs init cs.

(** Idle cost of a server of dimension [k] (from 0) at slot [u], and over the slots a+1..b. *)
Definition idle (p : gsblo Z) (k : nat) (u : Z) : ext :=
  match nth_error (b_cost p) k with
  | Some f => match call_certain f u 0%Q with Ok c => c_cost c | _ => Inf end
  | None => Inf
  end.
Definition esum (l : list ext) : ext := fold_right eadd (Fin 0) l.
Definition idle_over (p : gsblo Z) (k : nat) (a b : Z) : ext := esum (map (idle p k) (zrange (a + 1) b)).

(** Hitting cost of a configuration. *)
Definition hitting minimize (p : gsblo Z) (u : Z) (x : list Z) : ext :=
  match sblo_hit valZ minimize p u x with Ok c => c_cost c | _ => Inf end.

(** SBLO instances whose costs up to slot [T] can be evaluated: non-negative idle costs,
    a hitting cost for every configuration, finite at full capacity. *)
Record balanced_instance minimize (p : gsblo Z) (T : Z) : Prop := {
  bi_form : well_formed_base valZ (b_d p) T (b_bounds p) (b_switching p);
  bi_loads : well_formed_loads valZ T (b_load p);
  bi_costs : Z.of_nat (length (b_cost p)) = b_d p;
  bi_idle : forall k f u, nth_error (b_cost p) k = Some f -> 1 <= u <= T ->
    exists c, call_certain f u 0%Q = Ok c /\ ele (Fin 0) (c_cost c);
  bi_hit : forall u x, 1 <= u <= T -> feasible_config (b_bounds p) x ->
    exists c, sblo_hit valZ minimize p u x = Ok c;
  bi_full : forall u, 1 <= u <= T -> is_fin (hitting minimize p u (b_bounds p))
}.

(** A schedule of the slots 1..u of least cost. *)
Definition optimal_prefix minimize (p : gsblo Z) (u : Z) (xs : list (list Z)) : Prop :=
  let cost := total_cost (hitting minimize p) (switching (b_switching p) false) 1 1 (zero_config (b_d p)) in
  feasible_schedule u (b_bounds p) xs /\ is_fin (cost xs) /\
  forall ys, feasible_schedule u (b_bounds p) ys -> ele (cost xs) (cost ys).

(** Entry of dimension [k] (from 0) at slot [u] (from 1). *)
Definition entry (l : list (list Z)) (u : Z) (k : nat) : Z := nth k (nth (Z.to_nat (u - 1)) l []) 0.

(** Servers of dimension [k] powered up before slot [u] ([ups]: how many at each slot) whose
    idle costs since then, up to and including slot [u], do not exceed the switching cost. *)
Definition kept (p : gsblo Z) (ups : list (list Z)) (u : Z) (k : nat) (beta : Q) : Z :=
  zsum (map (fun s => entry ups s k) (filter (fun s => eleb (idle_over p k s u) (Fin beta)) (zrange 1 (u - 1)))).

(** The idle costs of a server powered up at slot [s] first exceed its switching cost at [u]. *)
Definition expires (p : gsblo Z) (k : nat) (beta : Q) (s u : Z) : Prop :=
  s < u /\ elt (Fin beta) (idle_over p k s u) /\ forall v, s < v < u -> ele (idle_over p k s v) (Fin beta).

(** Servers powered down at slot [u]: [down] selects the slots they were powered up at. *)
Definition powered_down (ups : list (list Z)) (down : Z -> bool) (u : Z) (k : nat) : Z :=
  zsum (map (fun s => entry ups s k) (filter down (zrange 1 u))).

(** At slot [u] these servers stay active and others are powered up only as needed to reach
    [opt]. *)
Definition lazy_choice (p : gsblo Z) (ups xs : list (list Z)) (u : Z) (opt : list Z) : Prop :=
  forall k beta, nth_error (b_switching p) k = Some beta ->
    exists o, nth_error opt k = Some o /\
      entry xs u k = Z.max o (kept p ups u k beta) /\
      entry ups u k = Z.max 0 (o - kept p ups u k beta).

(** A schedule [xs] of the slots 1..T behaves lazily: [ups] tells how many servers it powers
    up, and at each slot it follows the last configuration of an optimal schedule so far. *)
Definition lazy_schedule minimize (p : gsblo Z) (T : Z) (ups xs : list (list Z)) : Prop :=
  feasible_schedule T (b_bounds p) xs /\
  Z.of_nat (length ups) = T /\ Forall (fun r => Z.of_nat (length r) = b_d p) ups /\
  forall u, 1 <= u <= T -> exists opts opt,
    optimal_prefix minimize p u (opts ++ [opt]) /\ lazy_choice p ups xs u opt.

(** The slots the sub-slots 1, 2, ... belong to, when slot [t] is divided into [n t]. *)
Definition sub_slots (n : Z -> Z) (T : Z) : list Z :=
  flat_map (fun t => repeat t (Z.to_nat (n t))) (zrange 1 T).

(** The instance of the sub-slots of the slots 1..T: same loads, costs divided evenly. *)
Definition sub_problem (p : gsblo Z) (n : Z -> Z) (T : Z) : gsblo Z :=
  let slots := sub_slots n T in
  mkGSBLO (b_d p) (Z.of_nat (length slots)) (b_bounds p) (b_switching p)
    (map (fun f => cf_new 1 (certain (fun u z =>
       match access slots u with
       | Some t => do c <- call_certain f t z; Ok (mkCost (escale (1 / inject_Z (n t)) (c_cost c)) (c_out c))
       | None => Panic
       end))) (b_cost p))
    (map (fun t => match access (b_load p) t with Some l => l | None => 0 end) slots).

(** [u] is the first slot in a..b at which the schedule [xs] has least hitting cost. *)
Definition first_least_slot minimize (p : gsblo Z) (xs : list (list Z)) (a b u : Z) : Prop :=
  let c v := hitting minimize p v (nth (Z.to_nat (v - 1)) xs []) in
  a <= u <= b /\
  (forall v, a <= v < u -> elt (c u) (c v)) /\
  (forall v, u < v <= b -> ele (c u) (c v)).
