(** Theorems about randomised rounding (C33, C34). *)
From Verif Require Import NumLemmas RandomizedModel RandomizedSpec RandomizedProofs.
From Verif Require Import CostModel ProblemModel.
Local Open Scope Z_scope.

(** C33: whatever the relaxation returns and whatever the sample, a step returns the floor or
    the ceiling of the fractional value it keeps in its memory. *)
Theorem randomized_neighbour :
  forall C D M (vmerge : C -> C -> outcome C)
    (execute : online (gssco Q C D) -> list (list Q) -> option M -> outcome (list Q * option M)) r o t xs m x m',
  randomized vmerge execute r o t xs m = Ok (x, m') ->
  exists y rm j, execute (mkOnline (ssco_into_f vmerge (on_p o)) 0) (schedule_to xs) (rm_relax m) = Ok (y, rm) /\
    m' = Some (mkRM y rm) /\ x = [j] /\
    (exists y0 ys, y = y0 :: ys /\ (j = Qfloor y0 \/ j = Qceiling y0)) /\
    g_d (on_p o) = 1 /\ on_w o = 0.
Proof. exact @randomized_ok. Qed.
Print Assumptions randomized_neighbour.

(** C33: hence, if the relaxation respects the (integral) bound, so do all configurations of
    a run, for every sequence of samples. *)
Theorem randomized_feasible :
  forall C D M (vmerge : C -> C -> outcome C)
    (execute : online (gssco Q C D) -> list (list Q) -> option M -> outcome (list Q * option M))
    merge outside s (draw : Z -> Q) u o,
  g_bounds (on_p o) = [u] ->
  (forall t q xs m y m', execute (mkOnline (ssco_into_f vmerge q) 0) xs m = Ok (y, m') -> q = g_at (on_p o) t ->
     exists y0, y = [y0] /\ (0 <= y0 <= inject_Z u)%Q) ->
  forall xs m ys m',
  chooses (ssco_ops valZ merge vmerge outside s) (fun o t => randomized vmerge execute (draw t) o t)
    (fun _ => rand_default) o xs m ys m' ->
  Forall (feasible_config (g_bounds (on_p o))) ys.
Proof. exact @randomized_run. Qed.
Print Assumptions randomized_feasible.

(** C34: in a step from [prev_y] to [y], if the previous integral value is distributed as a
    rounding of [prev_y] with expectation [prev_y], then the next one is distributed as a
    rounding of [y] with expectation [y]; missing: steps from [prev_y] down across or from an
    integer to a fractional [y] (see randomized_biased_refuted). *)
Theorem randomized_unbiased_partial :
  forall prev_y y up mu,
  step_probabilities prev_y y up -> rounding mu prev_y -> gentle prev_y y -> rounding (after up y mu) y.
Proof. exact step_rounding. Qed.
Print Assumptions randomized_unbiased_partial.

(** C34: hence along trajectories of such steps. *)
Theorem randomized_trajectory_partial :
  forall ys mu, evolves 0 [(1%Q, 0)] ys mu -> gentle_trajectory 0 ys -> rounding mu (last ys 0%Q).
Proof. exact trajectory_rounding. Qed.
Print Assumptions randomized_trajectory_partial.

(** The probabilities of a step, and hence the distributions along a trajectory, exist and are
    unique. *)
Theorem randomized_probability :
  forall x prev_y y, exists q, has_probability (fun r => next x prev_y y r = Qceiling y) q /\
    forall q', has_probability (fun r => next x prev_y y r = Qceiling y) q' -> (q' == q)%Q.
Proof. exact step_probability_unique. Qed.
Print Assumptions randomized_probability.

Theorem randomized_distribution :
  forall ys prev_y mu, exists mu', evolves prev_y mu ys mu'.
Proof. exact evolves_exists. Qed.
Print Assumptions randomized_distribution.

(** C34 fails in all other steps: the result is always the floor, so its expectation is less
    than [y], whatever the distribution of the previous value. *)
Theorem randomized_biased_refuted :
  forall prev_y y up mu,
  ~ gentle prev_y y -> step_probabilities prev_y y up -> rounding mu prev_y ->
  (forall x r, next x prev_y y r = Qfloor y) /\
  (mean_of (after up y mu) == inject_Z (Qfloor y))%Q /\ (inject_Z (Qfloor y) < y)%Q.
Proof. exact steep_biased. Qed.
Print Assumptions randomized_biased_refuted.
