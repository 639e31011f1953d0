(** Property C93: the one-dimensional graph search in floating-point arithmetic. *)
From Verif Require Import ObjectiveSpec Search1DModel GraphSearchSpec FloatModel FloatSpec Float1DModel Float1DTop Float1DExact.
From Verif Require Import ProblemModel.
Local Open Scope Z_scope.

(** The search returns a feasible schedule (of the padded instance [q] if the bound is no power of two,
    C03).  The cost it reports is the cost of that schedule up to rounding, and at most the cost, up to
    rounding, of every schedule that uses multiples of a quarter of the bound only; refinements never
    make it worse. *)
Theorem float_search_1d_accurate :
  forall (C D : Type) (outside : D) (rnd : Q -> Q) (F : Q -> Prop) (u small : Q), rounds rnd F u small ->
  forall (p : ssco C D) (x_start : Z) (inverted : bool) (alpha beta : Q) (m0 : Z),
  s_d p = 1 -> s_bounds p = [m0] -> s_switching p = [beta] -> 0 <= s_tend p -> 0 <= m0 -> (0 <= alpha)%Q ->
  representable_instance F small alpha p ->
  let q := if is_pow_of_2 m0 then p else f_make_pow_of_2 rnd outside p m0 in
  let m := if is_pow_of_2 m0 then m0 else padded_bound m0 in
  let J := total_cost (fun t x => c_cost (ssco_hit_cost outside q t x)) (switching [beta] inverted) alpha 1 [x_start] in
  let coarse := fun ys => Z.of_nat (length ys) = s_tend p /\
                          Forall (fun y => exists e, 0 <= e <= 4 /\ y = [e * m / 4]) ys in
  let n := s_tend p + 3 in
  (exists ys, coarse ys /\ is_fin (J ys)) ->
  exists r,
    f_optimal_graph_search_1d rnd outside p x_start inverted alpha None = Ok r /\
    is_fin (pa_cost r) /\
    let xs := map (fun j => [j]) (pa_xs r) in
    feasible_schedule (s_tend p) [m] xs /\
    up_to_rounding u n (J xs) (pa_cost r) /\
    forall ys, coarse ys -> at_most_rounding u n (pa_cost r) (J ys).
Proof. exact @f_search_1d_proof. Qed.
Print Assumptions float_search_1d_accurate.

(** For the bounds 1, 2 and 4 the reported cost is at most the cost of every schedule up to rounding,
    whether the costs are convex or not.  For larger bounds this fails
    ([float_search_1d_near_optimal_refuted]). *)
Theorem float_search_1d_near_optimal_partial :
  forall (C D : Type) (outside : D) (rnd : Q -> Q) (F : Q -> Prop) (u small : Q), rounds rnd F u small ->
  forall (p : ssco C D) (x_start : Z) (inverted : bool) (alpha beta : Q) (m : Z),
  s_d p = 1 -> s_bounds p = [m] -> s_switching p = [beta] -> 0 <= s_tend p -> (m = 1 \/ m = 2 \/ m = 4) ->
  (0 <= alpha)%Q -> representable_instance F small alpha p ->
  let J := total_cost (fun t x => c_cost (s_hit p t x)) (switching [beta] inverted) alpha 1 [x_start] in
  let n := s_tend p + 3 in
  (exists ys, feasible_schedule (s_tend p) [m] ys /\ is_fin (J ys)) ->
  exists r,
    f_optimal_graph_search_1d rnd outside p x_start inverted alpha None = Ok r /\
    is_fin (pa_cost r) /\
    let xs := map (fun j => [j]) (pa_xs r) in
    feasible_schedule (s_tend p) [m] xs /\
    up_to_rounding u n (J xs) (pa_cost r) /\
    forall ys, feasible_schedule (s_tend p) [m] ys -> at_most_rounding u n (pa_cost r) (J ys).
Proof. exact @f_search_1d_small. Qed.
Print Assumptions float_search_1d_near_optimal_partial.

(** Without rounding this is the search of the exact model. *)
Theorem float_search_1d_without_rounding :
  forall (C D : Type) (outside : D) (p : ssco C D) (x_start : Z) (inverted : bool) (alpha : Q) (l : option Q),
  match f_optimal_graph_search_1d (fun q => q) outside p x_start inverted alpha l,
        optimal_graph_search_1d outside p x_start inverted alpha l with
  | Ok r, Ok r' => pa_xs r = pa_xs r' /\ eeq (pa_cost r) (pa_cost r')
  | Err e, Err e' => e = e'
  | Panic, Panic => True
  | _, _ => False
  end.
Proof. exact @f_search_1d_id. Qed.
Print Assumptions float_search_1d_without_rounding.

(** With integral costs nothing is rounded as long as the sums [T (B + a b m)] are below the limit [L] up to
    which all integers are numbers of the format; then the result is optimal (C01). *)
Theorem float_search_1d_integers :
  forall (C D : Type) (outside : D) (rnd : Q -> Q) (F : Q -> Prop) (u small : Q) (L : Z),
  rounds rnd F u small -> (forall k, 0 <= k <= L -> F (inject_Z k)) ->
  forall (p : ssco C D) (x_start : Z) (inverted : bool) (a b m B : Z),
  s_d p = 1 -> s_bounds p = [m] -> s_switching p = [inject_Z b] -> 0 <= s_tend p ->
  (exists k, 0 <= k /\ m = 2 ^ k) -> 0 <= x_start <= m -> 0 <= a -> 0 <= b -> 0 <= B ->
  (forall t j, 1 <= t <= s_tend p -> 0 <= j <= m ->
     match c_cost (s_hit p t [j]) with Fin q => exists c, 0 <= c <= B /\ (q == inject_Z c)%Q | Inf => True end) ->
  b * m <= L -> s_tend p * (B + a * b * m) <= L ->
  (forall t, 1 <= t <= s_tend p -> convex_on m (fun j => c_cost (s_hit p t [j]))) ->
  (forall t, 1 <= t <= s_tend p -> is_fin (c_cost (s_hit p t [m]))) ->
  let J := total_cost (fun t x => c_cost (s_hit p t x)) (switching [inject_Z b] inverted) (inject_Z a) 1 [x_start] in
  exists r,
    f_optimal_graph_search_1d rnd outside p x_start inverted (inject_Z a) None = Ok r /\
    is_fin (pa_cost r) /\
    let xs := map (fun j => [j]) (pa_xs r) in
    feasible_schedule (s_tend p) [m] xs /\
    eeq (pa_cost r) (J xs) /\
    forall ys, feasible_schedule (s_tend p) [m] ys -> ele (pa_cost r) (J ys).
Proof. exact @f_search_1d_integral. Qed.
Print Assumptions float_search_1d_integers.

(** In double precision, [L] is 2^53. *)
Theorem binary64_keeps_integers :
  forall k : Z, 0 <= k <= 2 ^ 53 -> binary64_number (inject_Z k).
Proof. exact binary64_integers. Qed.
Print Assumptions binary64_keeps_integers.
