(** Property C92: costs computed in floating-point arithmetic are right up to rounding. *)
From Verif Require Import GraphSearchModel GraphSearchSpec FloatModel FloatSpec FloatRound FloatProofs FloatPick
  FloatSearch FloatInteger.
From Coq Require Import Qabs.
From Verif Require Import ProblemModel.
Local Open Scope Z_scope.

(** The rounding of the model is the one of IEEE 754: the result is a number of the format, and no
    number of the format is closer. *)
Theorem binary64_is_nearest :
  forall q y : Q, (0 <= q)%Q -> binary64_number y ->
  binary64_number (binary64 q) /\ (Qabs (binary64 q - q) <= Qabs (y - q))%Q.
Proof. exact (fun q y Hq Hy => conj (binary64_in q Hq) (binary64_closest q y Hq Hy)). Qed.
Print Assumptions binary64_is_nearest.

(** Sums of numbers, and products that do not underflow, have a relative error of at most 2^-53;
    the theorems below hold for every rounding of this kind. *)
Theorem binary64_rounds : rounds binary64 binary64_number (Qpower 2 (-53)) (Qpower 2 (-1022)).
Proof. exact binary64_rounds_proof. Qed.
Print Assumptions binary64_rounds.

(** However the work is divided, the objective function computes the cost of the schedule up to one
    rounding per slot and dimension (and one more); it is infinite iff the cost is. *)
Theorem float_objective_accurate :
  forall (rnd : Q -> Q) (F : Q -> Prop) (u small : Q), rounds rnd F u small ->
  forall (C D : Type) (merge : C -> C -> C) (outside : D) (s : split) (p : ssco C D)
         (xs : list (list Z)) (alpha : Q) (inverted : bool),
  (0 <= alpha)%Q -> representable_instance F small alpha p -> Z.of_nat (length xs) = s_tend p ->
  up_to_rounding u (s_tend p + Z.of_nat (length (s_switching p)) + 1)
    (schedule_cost p alpha inverted xs)
    (c_cost (f_objective_with_default rnd merge outside s p xs (zero_config (s_d p)) alpha inverted (s_tend p))).
Proof. exact @float_objective_proof. Qed.
Print Assumptions float_objective_accurate.

(** The search over all integral schedules returns a feasible schedule; the cost it reports is the cost
    of that schedule up to rounding, and at most the cost of every feasible schedule up to rounding. *)
Theorem float_search_nd_optimal :
  forall (C D : Type) (outside : D) (rnd : Q -> Q) (F : Q -> Prop) (u small : Q)
         (sched : Z -> vertice -> split) (p : ssco C D) (inverted : bool) (alpha : Q),
  rounds rnd F u small -> representable_instance F small alpha p ->
  searchable p -> (0 <= alpha)%Q ->
  let n := search_roundings (s_tend p) (fold_right Z.add 0 (s_bounds p)) inverted in
  exists path cache,
    f_optimal_graph_search rnd outside sched p None inverted alpha None = Ok (path, cache) /\
    feasible_schedule (s_tend p) (s_bounds p) (gp_xs path) /\
    is_fin (gp_cost path) /\
    up_to_rounding u n (schedule_cost p alpha false (gp_xs path)) (gp_cost path) /\
    forall ys, feasible_schedule (s_tend p) (s_bounds p) ys ->
      at_most_rounding u n (gp_cost path) (schedule_cost p alpha false ys).
Proof. exact @f_optimal_graph_search_correct. Qed.
Print Assumptions float_search_nd_optimal.

(** The same on every value grid. *)
Theorem float_search_nd_grid_optimal :
  forall (C D : Type) (outside : D) (rnd : Q -> Q) (F : Q -> Prop) (u small : Q)
         (sched : Z -> vertice -> split) (p : ssco C D) (vs : gvalues) (inverted : bool) (alpha : Q),
  rounds rnd F u small -> representable_instance F small alpha p ->
  searchable p -> grid_for vs (s_bounds p) -> (0 <= alpha)%Q ->
  let n := search_roundings (s_tend p) (Z.of_nat (list_sum (v_bound vs))) inverted in
  exists path cache,
    f_graph_search rnd outside sched p vs None inverted alpha None = Ok (path, cache) /\
    allowed_schedule (s_tend p) (v_values vs) (s_bounds p) (gp_xs path) /\
    is_fin (gp_cost path) /\
    up_to_rounding u n (schedule_cost p alpha false (gp_xs path)) (gp_cost path) /\
    forall ys, allowed_schedule (s_tend p) (v_values vs) (s_bounds p) ys ->
      at_most_rounding u n (gp_cost path) (schedule_cost p alpha false ys).
Proof. exact @f_graph_search_correct. Qed.
Print Assumptions float_search_nd_grid_optimal.

(** [n] roundings change a cost by a factor between [1 - n u] and [1 / (1 - n u)]. *)
Theorem rounding_factors :
  forall (u : Q) (n : Z), (0 <= u)%Q -> (u < 1)%Q -> 0 <= n ->
  (1 - inject_Z n * u <= Qpower (1 - u) n)%Q /\ (Qpower (1 + u) n * (1 - inject_Z n * u) <= 1)%Q.
Proof. exact relative_error. Qed.
Print Assumptions rounding_factors.

(** Whatever the rounding, the search does not depend on the division of work (C07) ... *)
Theorem float_search_independent_of_schedule :
  forall (C D : Type) (outside : D) (rnd : Q -> Q) (sched1 sched2 : Z -> vertice -> split)
         (p : ssco C D) (vs : gvalues) (cache : option gcache) (inverted : bool) (alpha : Q) (l : option Q),
  f_graph_search rnd outside sched1 p vs cache inverted alpha l
  = f_graph_search rnd outside sched2 p vs cache inverted alpha l.
Proof. exact @f_graph_search_sched. Qed.
Print Assumptions float_search_independent_of_schedule.

(** ... and resuming from a cache gives exactly the result of solving from scratch (C06). *)
Theorem float_search_resume :
  forall (C D : Type) (outside : D) (rnd : Q -> Q) (sched1 sched2 sched3 : Z -> vertice -> split)
         (p1 p2 : ssco C D) (inverted : bool) (alpha : Q) (path1 : gpath) (cache1 : gcache),
  s_d p1 = s_d p2 -> s_bounds p1 = s_bounds p2 -> s_switching p1 = s_switching p2 ->
  0 <= s_tend p1 <= s_tend p2 ->
  (forall t x, 1 <= t <= s_tend p1 -> c_cost (s_hit p1 t x) = c_cost (s_hit p2 t x)) ->
  f_optimal_graph_search rnd outside sched1 p1 None inverted alpha None = Ok (path1, cache1) ->
  f_optimal_graph_search rnd outside sched2 p2 (Some cache1) inverted alpha None
  = f_optimal_graph_search rnd outside sched3 p2 None inverted alpha None.
Proof. exact @f_optimal_resume. Qed.
Print Assumptions float_search_resume.

(** Without rounding these are the functions of the exact model. *)
Theorem float_search_without_rounding :
  @f_graph_search (fun q => q) = @graph_search /\
  @f_optimal_graph_search (fun q => q) = @optimal_graph_search.
Proof. exact (conj eq_refl eq_refl). Qed.
Print Assumptions float_search_without_rounding.

Theorem float_objective_without_rounding :
  forall (C D : Type) (merge : C -> C -> C) (outside : D) (s : split) (p : ssco C D)
         (xs : list (list Z)) (default : list Z) (alpha : Q) (inverted : bool) (t_end : Z),
  eeq (c_cost (f_objective_with_default (fun q => q) merge outside s p xs default alpha inverted t_end))
      (c_cost (objective_with_default merge s (ssco_problem outside p) xs default alpha inverted t_end)).
Proof. exact @f_objective_id. Qed.
Print Assumptions float_objective_without_rounding.

(** With integral costs the objective is exact, hence independent of the division of the work (C08), as long
    as the sums are below the limit [L] up to which all integers are numbers of the format. *)
Theorem float_objective_integers :
  forall (C D : Type) (merge : C -> C -> C) (outside : D) (rnd : Q -> Q) (F : Q -> Prop) (u small : Q) (L : Z),
  rounds rnd F u small -> (forall k, 0 <= k <= L -> F (inject_Z k)) ->
  forall (s : split) (p : ssco C D) (xs : list (list Z)) (inverted : bool) (a B : Z) (bs : list Z),
  s_d p = Z.of_nat (length (s_bounds p)) -> Forall (fun m => 0 <= m) (s_bounds p) ->
  s_switching p = map inject_Z bs -> Forall (fun b => 0 <= b) bs -> 0 <= a -> 0 <= B ->
  feasible_schedule (s_tend p) (s_bounds p) xs ->
  (forall t x, 1 <= t <= s_tend p -> feasible_config (s_bounds p) x ->
     match c_cost (s_hit p t x) with Fin q => exists c, 0 <= c <= B /\ (q == inject_Z c)%Q | Inf => True end) ->
  let S := fold_right Z.add 0 (map (fun e => fst e * snd e) (combine bs (s_bounds p))) in
  S <= L -> a * S <= L -> s_tend p * (B + a * S) <= L ->
  eeq (c_cost (f_objective_with_default rnd merge outside s p xs (zero_config (s_d p)) (inject_Z a) inverted (s_tend p)))
      (schedule_cost p (inject_Z a) inverted xs).
Proof. exact @f_objective_int. Qed.
Print Assumptions float_objective_integers.

(** With integral costs the multi-dimensional search returns a schedule of least cost, no matter how it
    rounds, as long as the optimum is small in comparison with the precision: [2 n u (c + 1) < 1]. *)
Theorem float_search_nd_integers :
  forall (C D : Type) (outside : D) (rnd : Q -> Q) (F : Q -> Prop) (u small : Q)
         (sched : Z -> vertice -> split) (p : ssco C D) (inverted : bool) (a : Z) (bs : list Z)
         (zs : list (list Z)) (c : Z),
  rounds rnd F u small -> representable_instance F small (inject_Z a) p -> searchable p -> 0 <= a ->
  s_switching p = map inject_Z bs ->
  (forall t x, inside (s_bounds p) x = true -> match c_cost (s_hit p t x) with Fin q => exists k, 0 <= k /\ (q == inject_Z k)%Q | Inf => True end) ->
  let n := search_roundings (s_tend p) (fold_right Z.add 0 (s_bounds p)) inverted in
  feasible_schedule (s_tend p) (s_bounds p) zs -> eeq (schedule_cost p (inject_Z a) false zs) (Fin (inject_Z c)) ->
  (2 * inject_Z n * u * (inject_Z c + 1) < 1)%Q ->
  exists path cache,
    f_optimal_graph_search rnd outside sched p None inverted (inject_Z a) None = Ok (path, cache) /\
    feasible_schedule (s_tend p) (s_bounds p) (gp_xs path) /\
    forall ys, feasible_schedule (s_tend p) (s_bounds p) ys ->
      ele (schedule_cost p (inject_Z a) false (gp_xs path)) (schedule_cost p (inject_Z a) false ys).
Proof. exact @f_search_nd_integral. Qed.
Print Assumptions float_search_nd_integers.
