(** Theorems about lazy budgeting for SBLO (C30, C31, C32). *)
From Verif Require Import NumLemmas StreamSpec BalancedModel BalancedSpec BalancedSearch BalancedProofs BalancedRun BalancedSlots BalancedCount.
From Verif Require Import CostModel ProblemModel.
Local Open Scope Z_scope.

(** C30: streamed over the slots of an instance, algorithm B does not fail; at every slot it
    respects the bounds and has at least as many servers of each type as the last
    configuration of an optimal schedule up to this slot. *)
Theorem algb_above_optimum :
  forall minimize sched (p : gsblo Z) T,
  solver_extensional minimize -> balanced_instance minimize p T -> 1 <= T ->
  exists o xs m,
    offline_stream (sblo_ops minimize) (alg_b minimize sched) (fun _ => algb_default) T (mkOnline (sblo_at p 1) 0)
      = Some (o, xs, Ok (Some m)) /\
    feasible_schedule T (b_bounds p) xs /\
    forall u, 1 <= u <= T -> exists opts opt,
      optimal_prefix minimize p u (opts ++ [opt]) /\ Z.of_nat (length opt) = b_d p /\
      forall k j, nth_error opt k = Some j -> j <= entry xs u k.
Proof. exact algb_above. Qed.
Print Assumptions algb_above_optimum.

(** C31: the servers of type [k] active at slot [u] are those powered up at a slot [s <= u]
    whose idle costs at the slots s+1..u do not exceed the switching cost; servers are
    powered up only as needed to reach the optimal schedule. *)
Theorem algb_lazy :
  forall minimize sched (p : gsblo Z) T,
  solver_extensional minimize -> balanced_instance minimize p T -> 1 <= T ->
  exists o xs m,
    offline_stream (sblo_ops minimize) (alg_b minimize sched) (fun _ => algb_default) T (mkOnline (sblo_at p 1) 0)
      = Some (o, xs, Ok (Some m)) /\
    lazy_schedule minimize p T (ab_init m) xs /\
    forall u k beta, 1 <= u <= T -> nth_error (b_switching p) k = Some beta ->
      entry xs u k =
        zsum (map (fun s => entry (ab_init m) s k)
          (filter (fun s => eleb (idle_over p k s u) (Fin beta)) (zrange 1 u))).
Proof. exact algb_lazy_run. Qed.
Print Assumptions algb_lazy.

(** C31: from one slot to the next, the servers powered down are exactly those whose idle
    costs exceed the switching cost for the first time. *)
Theorem algb_powers_down :
  forall minimize sched (p : gsblo Z) T,
  solver_extensional minimize -> balanced_instance minimize p T -> 1 <= T ->
  exists o xs m,
    offline_stream (sblo_ops minimize) (alg_b minimize sched) (fun _ => algb_default) T (mkOnline (sblo_at p 1) 0)
      = Some (o, xs, Ok (Some m)) /\
    forall u k beta, 1 <= u <= T -> nth_error (b_switching p) k = Some beta ->
      exists down : Z -> bool,
        (forall s, 1 <= s <= u -> (down s = true <-> expires p k beta s u)) /\
        entry xs u k = (if u =? 1 then 0 else entry xs (u - 1) k) + entry (ab_init m) u k
                       - powered_down (ab_init m) down u k.
Proof. exact algb_balance. Qed.
Print Assumptions algb_powers_down.

(** C31: servers powered up at slot [s] are powered down at most once. *)
Theorem powered_down_once :
  forall minimize (p : gsblo Z) T k beta s u v,
  balanced_instance minimize p T -> Z.of_nat k < b_d p -> 0 <= s -> u <= T -> v <= T ->
  expires p k beta s u -> expires p k beta s v -> u = v.
Proof. exact expires_unique. Qed.
Print Assumptions powered_down_once.

(** C32: a run over the slots 1..T does not fail; its configurations respect the bounds; the
    sub-slots are numbered contiguously and algorithm B runs on them; the configuration at
    slot [t] is that of the first sub-slot of [t] of least hitting cost. *)
Theorem sblo_lb_sub_slots :
  forall minimize sched (p : gsblo Z) epsilon T n,
  solver_extensional minimize -> 1 <= T ->
  (forall t, 1 <= t <= T -> determine_sub_time_slots p t epsilon = Ok (n t) /\ 0 < n t) ->
  T <= Z.of_nat (length (b_load p)) ->
  let last_sub_slot t := Z.of_nat (length (sub_slots n t)) in
  let q := sub_problem p n T in
  balanced_instance minimize q (last_sub_slot T) ->
  exists xs m ups, sblo_run minimize sched epsilon p (Z.to_nat T) = Ok (xs, Some m) /\
    feasible_schedule T (b_bounds p) xs /\
    bm_load m = b_load q /\ lazy_schedule minimize q (last_sub_slot T) ups (bm_xs m) /\
    forall t, 1 <= t <= T -> exists u,
      first_least_slot minimize q (bm_xs m) (last_sub_slot (t - 1) + 1) (last_sub_slot t) u /\
      nth_error xs (Z.to_nat (t - 1)) = nth_error (bm_xs m) (Z.to_nat (u - 1)).
Proof. exact lb_run_spec. Qed.
Print Assumptions sblo_lb_sub_slots.

(** C32: sub-slots are numbered contiguously: slot [t] has the [n t] sub-slots following those
    of the slots before. *)
Theorem sub_slot_numbers :
  forall n T t u, (forall s, 1 <= s <= T -> 0 <= n s) -> 1 <= t <= T ->
  (access (sub_slots n T) u = Some t <->
   Z.of_nat (length (sub_slots n (t - 1))) < u <= Z.of_nat (length (sub_slots n (t - 1))) + n t).
Proof. exact sub_slot_range. Qed.
Print Assumptions sub_slot_numbers.

(** C32: the cost of a sub-slot is an even share of the cost of its slot, and these shares
    sum up to the cost of the slot. *)
Theorem sub_slot_costs :
  forall (p : gsblo Z) n T t k f z c,
  (forall s, 1 <= s <= T -> 0 < n s) -> 1 <= t <= T ->
  nth_error (b_cost p) k = Some f -> call_certain f t z = Ok c ->
  exists g c', nth_error (b_cost (sub_problem p n T)) k = Some g /\
    (forall u, access (sub_slots n T) u = Some t -> call_certain g u z = Ok c') /\
    c_out c' = c_out c /\
    eeq (esum (repeat (c_cost c') (Z.to_nat (n t)))) (c_cost c).
Proof. exact sub_slot_cost_sum. Qed.
Print Assumptions sub_slot_costs.

(** C32: the number of sub-slots is the least such that the idle cost of a sub-slot is at most
    [epsilon / d] of the switching cost in every dimension. *)
Theorem sub_slot_number :
  forall (p : gsblo Z) t epsilon n,
  (0 < epsilon)%Q -> 0 < b_d p -> Forall (fun b => 0 < b)%Q (b_switching p) ->
  determine_sub_time_slots p t epsilon = Ok n ->
  (forall k beta, nth_error (b_switching p) k = Some beta -> Z.of_nat k < b_d p ->
     exists l, eeq (idle p k t) (Fin l) /\ (inject_Z (b_d p) * l <= inject_Z n * (epsilon * beta))%Q) /\
  (exists k beta l, Z.of_nat k < b_d p /\ nth_error (b_switching p) k = Some beta /\ eeq (idle p k t) (Fin l) /\
     (inject_Z (n - 1) * (epsilon * beta) < inject_Z (b_d p) * l)%Q).
Proof. exact sub_slot_count. Qed.
Print Assumptions sub_slot_number.

(** C32: with finite idle costs one of which is positive, there is at least one sub-slot. *)
Theorem sub_slot_number_positive :
  forall (p : gsblo Z) t epsilon,
  (0 < epsilon)%Q -> 0 < b_d p ->
  b_d p <= Z.of_nat (length (b_switching p)) -> Forall (fun b => 0 < b)%Q (b_switching p) ->
  b_d p <= Z.of_nat (length (b_cost p)) ->
  (forall k f, nth_error (b_cost p) k = Some f ->
     exists c l, call_certain f t 0%Q = Ok c /\ c_cost c = Fin l /\ (0 <= l)%Q) ->
  (exists k, Z.of_nat k < b_d p /\ elt (Fin 0) (idle p k t)) ->
  exists n, determine_sub_time_slots p t epsilon = Ok n /\ 0 < n.
Proof. exact sub_slot_count_pos. Qed.
Print Assumptions sub_slot_number_positive.

(** C32: prediction windows are rejected. *)
Theorem sblo_lb_window :
  forall minimize sched epsilon o t xs m,
  on_w o <> 0 -> sblo_lb minimize sched epsilon o t xs m = Err UnsupportedPredictionWindow.
Proof. exact sblo_lb_rejects. Qed.
Print Assumptions sblo_lb_window.
