(** Property theorems: objective functions (C08, C09) and combined outputs (C46, generic part). *)
From Coq Require Import Setoid Morphisms.
From Verif Require Import ProblemModel ObjectiveSpec OutputSpec ObjectiveProofs.
Local Open Scope Z_scope.

(** C09: the objective of a schedule with one configuration per slot is the textbook
    formula, for every division of the parallel sum, scaling [alpha], direction and
    start configuration. *)
Theorem objective_is_textbook_formula :
  forall (C D : Type) (merge : C -> C -> C) (outside : D) (s : split) (p : ssco C D)
         (xs : list (list Z)) (x0 : list Z) (alpha : Q) (inverted : bool),
  Z.of_nat (length xs) = s_tend p ->
  eeq (c_cost (objective_with_default merge s (ssco_problem outside p) xs x0 alpha inverted (s_tend p)))
      (total_cost (restricted (s_bounds p) (fun t x => c_cost (s_hit p t x)))
                  (switching (s_switching p) inverted) alpha 1 x0 xs).
Proof. exact @objective_exact_spec. Qed.
Print Assumptions objective_is_textbook_formula.

(** C09: schedules that are too short are continued with the default configuration,
    configurations beyond the horizon are ignored. *)
Theorem objective_of_any_schedule :
  forall (C D : Type) (merge : C -> C -> C) (outside : D) (s : split) (p : ssco C D)
         (xs : list (list Z)) (x0 : list Z) (alpha : Q) (inverted : bool) (t_end : Z),
  0 <= t_end <= s_tend p ->
  eeq (c_cost (objective_with_default merge s (ssco_problem outside p) xs x0 alpha inverted t_end))
      (total_cost (restricted (s_bounds p) (fun t x => c_cost (s_hit p t x)))
                  (switching (s_switching p) inverted) alpha 1 x0
                  (firstn (Z.to_nat t_end) (xs ++ repeat x0 (Z.to_nat t_end)))).
Proof. exact @ssco_objective_spec. Qed.
Print Assumptions objective_of_any_schedule.

(** C09: the three public objective functions start from the zero configuration and use
    alpha = 1 and powering up, alpha = 1 and powering down, the given alpha and powering
    up, respectively. *)
Theorem public_objective_functions :
  forall (C D : Type) (merge : C -> C -> C) (outside : D) (s : split) (p : ssco C D)
         (xs : list (list Z)) (alpha : Q),
  Z.of_nat (length xs) = s_tend p ->
  let J := fun alpha inverted =>
    total_cost (restricted (s_bounds p) (fun t x => c_cost (s_hit p t x)))
               (switching (s_switching p) inverted) alpha 1 (zero_config (s_d p)) xs in
  let P := ssco_problem outside p in
  eeq (c_cost (objective_function merge s P (zero_config (s_d p)) xs)) (J 1%Q false) /\
  eeq (c_cost (inverted_objective_function merge s P (zero_config (s_d p)) xs)) (J 1%Q true) /\
  eeq (c_cost (alpha_unfair_objective_function merge s P (zero_config (s_d p)) xs alpha)) (J alpha false).
Proof. exact @objective_functions_spec. Qed.
Print Assumptions public_objective_functions.

(** C09: powering up and powering down differ by the weighted difference of the final
    and the initial configuration. *)
Theorem movement_directions_differ_by_endpoints :
  forall (C D : Type) (outside : D) (s s' : split) (p : ssco C D) (xs : list (list Z)),
  Z.of_nat (length xs) = s_tend p ->
  Z.of_nat (length (s_switching p)) = s_d p ->
  Forall (fun x => length x = length (s_switching p)) xs ->
  exists up down,
    eeq (total_movement s (ssco_problem outside p) (zero_config (s_d p)) xs false) (Fin up) /\
    eeq (total_movement s' (ssco_problem outside p) (zero_config (s_d p)) xs true) (Fin down) /\
    (up - down == weighted (s_switching p) (last xs (zero_config (s_d p))))%Q /\
    (up == total_switching (switching (s_switching p) false) (zero_config (s_d p)) xs)%Q /\
    (down == total_switching (switching (s_switching p) true) (zero_config (s_d p)) xs)%Q.
Proof. exact @movement_directions. Qed.
Print Assumptions movement_directions_differ_by_endpoints.

(** C08: the value does not depend on how the parallel sum is divided, and the outputs
    are those of the slots combined in time order, when merging successes is
    associative up to [R]. *)
Theorem objective_independent_of_schedule :
  forall (X C D : Type) (merge : C -> C -> C) (R : C -> C -> Prop),
  Equivalence R -> Proper (R ==> R ==> R) merge ->
  (forall a b c, R (merge a (merge b c)) (merge (merge a b) c)) ->
  forall (s s' : split) (p : problem X C D) (xs : list X) (x0 : X) (alpha : Q) (inverted : bool) (t_end : Z),
  let J s := objective_with_default merge s p xs x0 alpha inverted t_end in
  eeq (c_cost (J s)) (c_cost (J s')) /\
  same_output R (c_out (J s)) (c_out (J s')) /\
  same_output R (c_out (J s))
    (combined merge
       (map (fun t => if p_tend p <? t then MNone else c_out (p_hit p t (get_or xs x0 t)))
            (zrange 1 t_end))).
Proof. exact @objective_independent. Qed.
Print Assumptions objective_independent_of_schedule.

Theorem movement_independent_of_schedule :
  forall (X C D : Type) (s s' : split) (p : problem X C D) (zero : X) (xs : list X) (inverted : bool),
  eeq (total_movement s p zero xs inverted) (total_movement s' p zero xs inverted).
Proof. exact @movement_independent. Qed.
Print Assumptions movement_independent_of_schedule.

(** C46: reducing a non-empty list of outputs gives the first failure, otherwise the
    successes merged from left to right, otherwise no output; it panics on an empty list. *)
Theorem combined_outputs :
  forall (C D : Type) (merge : C -> C -> C) (l : list (model_output C D)),
  reduce_outputs merge l = if is_nil l then Panic else Ok (combined merge l).
Proof. exact @reduce_combined. Qed.
Print Assumptions combined_outputs.

(** C46: combining is associative (when merging successes is) and the empty output is
    neutral. *)
Theorem combining_is_associative :
  forall (C D : Type) (merge : C -> C -> C) (R : C -> C -> Prop),
  Equivalence R ->
  (forall a b c, R (merge a (merge b c)) (merge (merge a b) c)) ->
  forall a b c : model_output C D,
  same_output R (merge_output merge a (merge_output merge b c))
                (merge_output merge (merge_output merge a b) c) /\
  merge_output merge MNone a = a /\ merge_output merge a MNone = a.
Proof. exact @merge_output_monoid. Qed.
Print Assumptions combining_is_associative.
