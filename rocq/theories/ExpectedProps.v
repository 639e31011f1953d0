(** Theorems about the expected cost of randomised rounding (C80). *)
From Verif Require Import NumLemmas RandomizedModel RandomizedSpec ExpectedSpec ExpectedProofs ExpectedCosts.
From Verif Require Import ProblemModel CostModel.
Local Open Scope Z_scope.

(** C80: a run of randomised rounding on a relaxation which does not look at the previous
    configurations rounds the answers of the relaxation one after the other, whatever the
    samples; the answers do not depend on the samples. *)
Theorem randomized_rounds_answers :
  forall C D M (vmerge : C -> C -> outcome C)
    (execute : online (gssco Q C D) -> list (list Q) -> option M -> outcome (list Q * option M))
    (relax : online (gssco Q C D) -> option M -> outcome (list Q * option M)),
  (forall q xs m, Z.of_nat (length xs) + 1 = g_tend (on_p q) -> execute q xs m = relax q m) ->
  forall merge outside s (draw : Z -> Q) o xs m',
  chooses (ssco_ops valZ merge vmerge outside s) (fun o t => randomized vmerge execute (draw t) o t)
    (fun _ => rand_default) o [] None xs m' ->
  exists ys, answers vmerge relax (on_p o) 1 None (length xs) = Ok ys /\ Forall (fun y => y <> []) ys /\
    xs = configs_1 (roundings draw 1 0 0 (map (hd 0%Q) ys)).
Proof. exact @whole_run_rounds. Qed.
Print Assumptions randomized_rounds_answers.

(** C80: the schedules resulting from fractional values have a distribution (their weights are
    not negative and add up to one), which is unique up to the order of its entries ... *)
Theorem randomized_schedules :
  forall ys, exists mu, rounded 0 0 ys mu /\ Forall (fun e => (0 <= fst e)%Q) mu /\ (Qsum (map fst mu) == 1)%Q /\
    forall mu', rounded 0 0 ys mu' -> forall g : list Z -> Q,
      (Qsum (map (fun e => fst e * g (snd e)) mu) == Qsum (map (fun e => fst e * g (snd e)) mu'))%Q.
Proof. exact schedules_distribution. Qed.
Print Assumptions randomized_schedules.

(** C80: ... and the expected cost of the rounded schedule equals the cost of the fractional
    schedule in the relaxed problem, if the cost of all numbers of servers is finite; missing:
    steps down across or from an integer to a fractional value (randomized_cost_refuted). *)
Theorem randomized_expected_cost_partial :
  forall C D (vmerge : C -> C -> outcome C) (merge : C -> C -> C) (outside : D) (p : gssco Z C D) u b h,
  (forall x y, exists c, vmerge x y = Ok c) ->
  g_bounds p = [u] -> g_switching p = [b] ->
  (forall t z, 1 <= t <= g_tend p -> 0 <= z <= u ->
     exists o, call_predictive (g_cost p) t [z] = Ok [mkCost (Fin (h t z)) o]) ->
  forall s s' alpha ys mu,
  Z.of_nat (length ys) = g_tend p -> Forall (fun y => (0 <= y <= inject_Z u)%Q) ys ->
  gentle_trajectory 0 ys -> rounded 0 0 ys mu ->
  exists c q,
    objective_o merge s (gssco_problem valQ vmerge outside (ssco_into_f vmerge p)) (configs_1 ys) [0%Q] alpha false (g_tend p) = Ok c /\
    c_cost c = Fin q /\
    has_expectation (fun xs => objective_o merge s' (gssco_problem valZ vmerge outside p) (configs_1 xs) [0] alpha false (g_tend p)) mu q.
Proof. exact @rounding_expectation. Qed.
Print Assumptions randomized_expected_cost_partial.

(** C80 fails for other steps: the expected cost can exceed every multiple of the fractional
    cost. *)
Theorem randomized_cost_refuted :
  forall K : Q, exists (p : gssco Z unit unit) ys mu c q e,
  g_bounds p = [2] /\ g_switching p = [1%Q] /\
  (forall t z, 1 <= t <= g_tend p -> 0 <= z <= 2 ->
     exists h, (0 <= h)%Q /\ call_predictive (g_cost p) t [z] = Ok [mkCost (Fin h) MNone]) /\
  Z.of_nat (length ys) = g_tend p /\ Forall (fun y => (0 <= y <= inject_Z 2)%Q) ys /\ rounded 0 0 ys mu /\
  objective_o (fun _ _ => tt) Leaf (gssco_problem valQ (fun _ _ => Ok tt) tt (ssco_into_f (fun _ _ => Ok tt) p)) (configs_1 ys) [0%Q] 1 false (g_tend p) = Ok c /\
  c_cost c = Fin q /\
  has_expectation (fun xs => objective_o (fun _ _ => tt) Leaf (gssco_problem valZ (fun _ _ => Ok tt) tt p) (configs_1 xs) [0] 1 false (g_tend p)) mu e /\
  (0 < q)%Q /\ (K * q < e)%Q.
Proof. exact steep_cost. Qed.
Print Assumptions randomized_cost_refuted.
