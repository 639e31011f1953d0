(** Property theorems: capacity provisioning (C23, C24, C25, C26, C50). *)
From Verif Require Import ObjectiveSpec CapacitySpec CapacityModel CapacityProofs CapacityWindow CapacityBrcp ProblemModel.
Local Open Scope Z_scope.

(** C23: one step of LCP, for any number type and any bound functions: the new value is
    the previous one if it lies between the two bounds and the nearest bound otherwise;
    exactly one pair of bounds is appended to the memory. *)
Theorem lcp_step_lazy :
  forall (T : Type) (v : value T) (o : bounded_online T) (t : Z) (xs : list (list T))
         (bounds : list (bounds_memory T)) (x : list T) (bounds' : list (bounds_memory T)),
  lcp v o t xs bounds = Ok (x, bounds') ->
  exists prev y l u,
    now_value v xs = Ok prev /\ x = [y] /\ bounds' = bounds ++ [mkBM l u] /\
    Z.of_nat (length bounds') = t /\
    (exists s c, find_initial_time v bounds = Ok (s, c) /\
       bo_lower o (bo_w o) (bo_tend o) s c = Ok l /\ bo_upper o (bo_w o) (bo_tend o) s c = Ok u) /\
    (y = prev \/ y = l \/ y = u) /\
    ((v_toQ v l <= v_toQ v u)%Q -> nearestQ (v_toQ v l) (v_toQ v u) (v_toQ v prev) (v_toQ v y)).
Proof. exact @lcp_is_lazy. Qed.
Print Assumptions lcp_step_lazy.

(** C23: a memory that is out of sync, and other dimensions, are rejected. *)
Theorem lcp_step_rejects :
  forall (T : Type) (v : value T) (o : bounded_online T) (t : Z) (xs : list (list T))
         (bounds : list (bounds_memory T)),
  (bo_d o <> 1 -> lcp v o t xs bounds = Err UnsupportedProblemDimension) /\
  (bo_d o = 1 -> t - 1 <> Z.of_nat (length bounds) -> lcp v o t xs bounds = Err OnlineOutOfDateMemory).
Proof. exact @lcp_rejects. Qed.
Print Assumptions lcp_step_rejects.

(** C23: integral runs of any length and prediction window succeed, stay within the bound
    of the problem, and move only to the nearest of the recorded bounds. *)
Theorem lcp_runs_lazily :
  forall (C D : Type) (outside : D) (p : ssco C D) (m : Z) (beta : Q) (w : Z),
  s_d p = 1 -> s_bounds p = [m] -> s_switching p = [beta] ->
  capacity_costs (fun t x => c_cost (s_hit p t x)) m beta -> 0 <= w ->
  forall n : nat, exists zs mem,
    integral_lcp outside p w n = Ok (map (fun z => [z]) zs, mem) /\
    let bs := match mem with Some b => b | None => [] end in
    length bs = n /\ feasible_schedule (Z.of_nat n) [m] (map (fun z => [z]) zs) /\
    forall i b z, nth_error bs i = Some b -> nth_error zs i = Some z -> bm_lower b <= bm_upper b ->
      nearest (bm_lower b) (bm_upper b) (last (firstn i zs) 0) z.
Proof. exact @lcp_window_run. Qed.
Print Assumptions lcp_runs_lazily.

(** C24: the restart point is slot 0 with the zero configuration, or a recorded slot whose
    two bounds coincide (up to 0.1) and are left afterwards; it is the latest such slot. *)
Theorem lcp_restart_point :
  forall (T : Type) (v : value T) (bounds : list (bounds_memory T)),
  exists s c, find_initial_time v bounds = Ok (s, c) /\ 0 <= s /\
    (s = 0 -> c = v_zero v) /\
    (0 < s -> exists b next,
       nth_error bounds (Z.to_nat (s - 1)) = Some b /\ nth_error bounds (Z.to_nat s) = Some next /\
       c = bm_upper b /\ (Qabs.Qabs (v_toQ v (v_sub v (bm_lower b) (bm_upper b))) < 1 # 10)%Q /\
       ((v_toQ v (bm_upper next) < v_toQ v (bm_upper b))%Q \/ (v_toQ v (bm_lower b) < v_toQ v (bm_lower next))%Q)) /\
    (forall s' b next, s < s' -> nth_error bounds (Z.to_nat (s' - 1)) = Some b ->
       nth_error bounds (Z.to_nat s') = Some next ->
       (Qabs.Qabs (v_toQ v (v_sub v (bm_lower b) (bm_upper b))) < 1 # 10)%Q ->
       (v_toQ v (bm_upper b) <= v_toQ v (bm_upper next))%Q /\ (v_toQ v (bm_lower next) <= v_toQ v (bm_lower b))%Q).
Proof. exact @restart_point. Qed.
Print Assumptions lcp_restart_point.

(** C24: restarting from a slot where both bounds coincide is sound: the bound computed
    from there still is the end of an optimal schedule of the whole prefix. *)
Theorem lcp_restart_sound :
  forall (C D : Type) (outside : D) (p : ssco C D) (m : Z) (beta : Q),
  s_d p = 1 -> s_bounds p = [m] -> s_switching p = [beta] ->
  let hit := fun (t : Z) (x : list Z) => c_cost (s_hit p t x) in
  capacity_costs hit m beta ->
  forall inverted s c, 0 <= s < s_tend p ->
  ends_optimally hit m beta false s c -> ends_optimally hit m beta true s c ->
  exists z, find_bound_i outside p 1 inverted 0 (s_tend p) s c = Ok z /\
    ends_optimally hit m beta inverted (s_tend p) z.
Proof. exact @restart_sound. Qed.
Print Assumptions lcp_restart_sound.

(** C25: the integral bounds lie on optimal schedules of the slots known so far (powering
    up is charged for the lower, powering down for the upper bound). *)
Theorem lcp_bounds_on_optima :
  forall (C D : Type) (outside : D) (p : ssco C D) (m : Z) (beta : Q),
  s_d p = 1 -> s_bounds p = [m] -> s_switching p = [beta] ->
  let hit := fun (t : Z) (x : list Z) => c_cost (s_hit p t x) in
  capacity_costs hit m beta ->
  forall (inverted : bool) (w t : Z), 0 <= w -> 1 <= t <= s_tend p ->
  exists z xs, (if inverted then upper_bound_i outside p w t 0 0 else lower_bound_i outside p w t 0 0) = Ok z /\
    optimal_prefix hit m beta inverted (s_tend p + w) xs /\
    nth_error xs (Z.to_nat (t - 1)) = Some [z].
Proof. exact @bounds_on_optima. Qed.
Print Assumptions lcp_bounds_on_optima.

(** C25: any optimal ends are ordered. *)
Theorem lcp_bounds_ordered :
  forall (hit : Z -> list Z -> ext) (m : Z) (beta : Q), capacity_costs hit m beta -> (0 < beta)%Q ->
  forall n l u, ends_optimally hit m beta false n l -> ends_optimally hit m beta true n u -> l <= u.
Proof. exact optimal_ends_ordered. Qed.
Print Assumptions lcp_bounds_ordered.

(** C23, C24, C25 along whole runs (no prediction window): the bounds recorded in slot i
    are ends of optimal schedules of the slots 1..i although they were computed from
    restart points. *)
Theorem lcp_run_bounds :
  forall (C D : Type) (outside : D) (p : ssco C D) (m : Z) (beta : Q),
  s_d p = 1 -> s_bounds p = [m] -> s_switching p = [beta] ->
  let hit := fun (t : Z) (x : list Z) => c_cost (s_hit p t x) in
  capacity_costs hit m beta ->
  forall n : nat, exists zs bs,
    integral_lcp outside p 0 n = Ok (map (fun z => [z]) zs, match n with O => None | _ => Some bs end) /\
    length bs = n /\ feasible_schedule (Z.of_nat n) [m] (map (fun z => [z]) zs) /\
    forall i, (i < n)%nat -> exists b z,
      nth_error bs i = Some b /\ nth_error zs i = Some z /\
      ends_optimally hit m beta false (Z.of_nat i + 1) (bm_lower b) /\
      ends_optimally hit m beta true (Z.of_nat i + 1) (bm_upper b) /\
      ((0 < beta)%Q -> bm_lower b <= bm_upper b /\
                       nearest (bm_lower b) (bm_upper b) (last (firstn i zs) 0) z).
Proof. exact @lcp_run. Qed.
Print Assumptions lcp_run_bounds.

(** C50: integral LCP costs at most three times any offline schedule. *)
Theorem lcp_three_competitive :
  forall (C D : Type) (outside : D) (p : ssco C D) (m : Z) (beta : Q),
  s_d p = 1 -> s_bounds p = [m] -> s_switching p = [beta] ->
  let hit := fun (t : Z) (x : list Z) => c_cost (s_hit p t x) in
  capacity_costs hit m beta ->
  forall (n : nat) ys, feasible_schedule (Z.of_nat n) [m] ys ->
  exists xs mem, integral_lcp outside p 0 n = Ok (xs, mem) /\
    feasible_schedule (Z.of_nat n) [m] xs /\
    ele (total_cost hit (switching [beta] false) 1 1 [0] xs)
        (escale 3 (total_cost hit (switching [beta] false) 1 1 [0] ys)).
Proof. exact @lcp_competitive. Qed.
Print Assumptions lcp_three_competitive.

(** C26: brcp returns one configuration per slot, each the point of its slot's bounds
    nearest to its successor (to 0 in the last slot). *)
Theorem brcp_backward_lazy :
  forall (C D : Type) (vmerge : C -> C -> outcome C) (merge : C -> C -> C) (outside : D) (sched : split)
         (minimizer : (list Q -> outcome ext) -> list (Q * Q) -> outcome (list Q))
         (p : gssco Q C D) (alpha : Q) xs bs,
  let bound := find_bound_f vmerge merge outside sched minimizer in
  brcp vmerge merge outside sched minimizer p false alpha None = Ok (xs, bs) ->
  exists ys, xs = map (fun y => [y]) ys /\ length ys = Z.to_nat (g_tend p) /\ length bs = Z.to_nat (g_tend p) /\
    forall i b, nth_error bs i = Some b ->
      bound p alpha false 0 (Z.of_nat i + 1) 0 0%Q = Ok (bm_lower b) /\
      bound p alpha true 0 (Z.of_nat i + 1) 0 0%Q = Ok (bm_upper b) /\
      ((bm_lower b <= bm_upper b)%Q ->
       exists y, nth_error ys i = Some y /\ nearestQ (bm_lower b) (bm_upper b) (nth (S i) ys 0%Q) y).
Proof. exact @brcp_projection. Qed.
Print Assumptions brcp_backward_lazy.

(** C26: if the optimiser answers exact minimisers to the calls made, brcp is an optimal
    offline algorithm for certain convex costs. *)
Theorem brcp_optimal :
  forall (C D : Type) (vmerge : C -> C -> outcome C) (merge : C -> C -> C) (outside : D) (sched : split)
         (minimizer : (list Q -> outcome ext) -> list (Q * Q) -> outcome (list Q))
         (p : gssco Q C D) (m beta alpha : Q) (f : Z -> Q -> ext),
  g_d p = 1 -> g_bounds p = [m] -> g_switching p = [beta] -> 0 <= g_tend p -> (0 <= alpha)%Q ->
  capacity_costsQ m f beta ->
  (forall t x, 1 <= t <= g_tend p -> (0 <= x <= m)%Q ->
     (exists c, call_mean vmerge (g_cost p) t [x] = Ok c /\ eeq (c_cost c) (f t x)) /\
     (forall rs, call_predictive (g_cost p) t [x] = Ok rs -> length rs = 1%nat)) ->
  (forall inv n, (1 <= n)%nat -> Z.of_nat n <= g_tend p ->
     exact_answer minimizer
       (bound_objective vmerge merge outside sched (gssco_extend (ssco_reset p 0) 0) alpha inv 0 (Z.of_nat n) 0)
       (repeat (0%Q, m) n)) ->
  exists ys bs,
    brcp vmerge merge outside sched minimizer p false alpha None = Ok (map (fun y => [y]) ys, bs) /\
    servers_ok m (g_tend p) ys /\
    forall zs, servers_ok m (g_tend p) zs ->
      ele (servers_cost f beta alpha false ys) (servers_cost f beta alpha false zs).
Proof. exact @brcp_is_optimal. Qed.
Print Assumptions brcp_optimal.

(** C26: unsupported options. *)
Theorem brcp_rejects :
  forall (C D : Type) (vmerge : C -> C -> outcome C) (merge : C -> C -> C) (outside : D) (sched : split)
         (minimizer : (list Q -> outcome ext) -> list (Q * Q) -> outcome (list Q))
         (p : gssco Q C D) (inverted : bool) (alpha : Q) (l : option Q),
  (inverted = true -> brcp vmerge merge outside sched minimizer p inverted alpha l = Err UnsupportedInvertedCost) /\
  (inverted = false -> l <> None ->
     brcp vmerge merge outside sched minimizer p inverted alpha l = Err UnsupportedLConstrainedMovement) /\
  (inverted = false -> l = None -> g_d p <> 1 ->
     brcp vmerge merge outside sched minimizer p inverted alpha l = Err UnsupportedProblemDimension).
Proof. exact @brcp_unsupported. Qed.
Print Assumptions brcp_rejects.
