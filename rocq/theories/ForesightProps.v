(** Online algorithms do not look into the future: in every slot their configuration only depends on
    the costs and loads up to the end of the prediction window.  Theorems only. *)
From Verif Require Import WindowModel GridCapModel SessionModel BalancedSpec ForesightSpec ForesightModel
  ForesightDescent ForesightWindow ForesightRelax ForesightBudget.
From Verif Require OfflineModel.
From Verif Require Import ProblemModel CostModel.
Local Open Scope Z_scope.

(** Lazy capacity provisioning, for integral and fractional instances. *)
Theorem lcp_unforeseeing :
  forall {C D : Type} (vmerge : C -> C -> outcome C) (merge : C -> C -> C) (outside : D) (s : split),
  unforeseeing (ssco_ops valZ merge vmerge outside s) agree (lcp_ssco vmerge outside) (@lcp_memory C D).
Proof. exact @lcp_blind. Qed.
Print Assumptions lcp_unforeseeing.

Theorem fractional_lcp_unforeseeing :
  forall {C D : Type} (vmerge : C -> C -> outcome C) (merge : C -> C -> C) (outside : D) nlopt, observes_nlopt nlopt ->
  forall (s sched : split),
  unforeseeing (ssco_ops valQ merge vmerge outside s) agree
    (lcp_fractional vmerge merge outside sched (point_minimize nlopt)) (@lcp_no_bounds C D).
Proof. exact @lcp_fractional_unforeseeing. Qed.
Print Assumptions fractional_lcp_unforeseeing.

(** Memoryless algorithm and probabilistic algorithm. *)
Theorem memoryless_unforeseeing :
  forall {C D : Type} (vmerge : C -> C -> outcome C) (merge : C -> C -> C) (outside : D) nlopt (s : split), observes_nlopt nlopt ->
  unforeseeing (ssco_ops valQ merge vmerge outside s) agree (memoryless vmerge outside nlopt) (fun _ => tt).
Proof. exact @memoryless_blind. Qed.
Print Assumptions memoryless_unforeseeing.

Theorem probabilistic_unforeseeing :
  forall {C D : Type} (vmerge : C -> C -> outcome C) (merge : C -> C -> C) (outside : D) nlopt brent diff1 diff2 quadrature (fuel : nat),
  observes_nlopt nlopt -> observes_brent brent -> observes_diff diff1 -> observes_diff diff2 -> observes_quadrature quadrature ->
  forall (s : split) (options : breakpoints),
  unforeseeing (ssco_ops valQ merge vmerge outside s) agree
    (probabilistic nlopt brent diff1 diff2 quadrature fuel options) (fun _ => prob_default).
Proof. exact @probabilistic_blind. Qed.
Print Assumptions probabilistic_unforeseeing.

(** Randomised rounding with either relaxation, for all samples drawn ([r t] and [bias t] in slot [t]). *)
Theorem randomized_unforeseeing :
  forall {C D : Type} (vmerge : C -> C -> outcome C) (merge : C -> C -> C) (outside : D) nlopt brent diff1 diff2 quadrature (fuel : nat),
  observes_nlopt nlopt -> observes_brent brent -> observes_diff diff1 -> observes_diff diff2 -> observes_quadrature quadrature ->
  forall (s : split) (r : Z -> Q),
  unforeseeing (ssco_ops valZ merge vmerge outside s) agree
    (randomized_probabilistic vmerge nlopt brent diff1 diff2 quadrature fuel r) (fun _ => rand_default).
Proof. exact @randomized_probabilistic_unforeseeing. Qed.
Print Assumptions randomized_unforeseeing.

Theorem randomized_greedy_unforeseeing :
  forall {C D : Type} (vmerge : C -> C -> outcome C) (merge : C -> C -> C) (outside : D) nlopt, observes_nlopt nlopt ->
  forall (s : split) (r bias : Z -> Q),
  unforeseeing (ssco_ops valZ merge vmerge outside s) agree
    (randomized_rbg vmerge outside nlopt r bias) (fun _ => rand_default).
Proof. exact @randomized_rbg_unforeseeing. Qed.
Print Assumptions randomized_greedy_unforeseeing.

(** Balanced descent (its three variants and the greedy and regularised ones), gradient descent and
    the randomly biased greedy algorithm. *)
Theorem descent_unforeseeing :
  forall {C D : Type} (vmerge : C -> C -> outcome C) (merge : C -> C -> C) (outside : D) nlopt brent (eps : Q) (sqrt : Q -> Q) (s : split),
  observes_nlopt nlopt -> observes_brent brent ->
  let streams_blindly alg := unforeseeing (sco_ops valQ merge vmerge outside s) (@agree_sco Q C D) alg (fun _ => tt) in
  (forall l h, streams_blindly (obd nlopt eps l h)) /\
  (forall beta h, streams_blindly (pobd vmerge outside nlopt brent eps beta h)) /\
  (forall eta h, streams_blindly (dobd vmerge outside nlopt brent eps eta h)) /\
  (forall m mu gamma h, streams_blindly (gobd vmerge outside nlopt brent eps sqrt m mu gamma h)) /\
  (forall m alpha beta, streams_blindly (robd vmerge outside nlopt sqrt m alpha beta)) /\
  (forall eta, streams_blindly (ogd vmerge outside nlopt eps sqrt eta)).
Proof. exact @descents_unforeseeing. Qed.
Print Assumptions descent_unforeseeing.

Theorem rbg_unforeseeing :
  forall {C D : Type} (vmerge : C -> C -> outcome C) (merge : C -> C -> C) (outside : D) nlopt (s : split), observes_nlopt nlopt ->
  forall (theta : Q) (bias : Z -> Q),
  unforeseeing (sco_ops valQ merge vmerge outside s) (@agree_sco Q C D) (rbg vmerge outside nlopt theta) (fun o => bias (o_tend (on_p o))).
Proof. exact @rbg_blind. Qed.
Print Assumptions rbg_unforeseeing.

(** Horizon control. *)
Theorem rhc_unforeseeing :
  forall {C D : Type} (vmerge : C -> C -> outcome C) (merge : C -> C -> C) (outside : D) nlopt, observes_nlopt nlopt ->
  forall (s : split) (sched : list Q -> split),
  unforeseeing (ssco_ops valQ merge vmerge outside s) (@agree Q C D) (rhc_alg vmerge merge outside sched (window_minimize nlopt)) (fun _ => tt).
Proof. exact @rhc_blind. Qed.
Print Assumptions rhc_unforeseeing.

Theorem afhc_unforeseeing :
  forall {C D : Type} (vmerge : C -> C -> outcome C) (merge : C -> C -> C) (outside : D) nlopt, observes_nlopt nlopt ->
  forall (s : split) (sched : list Q -> split),
  unforeseeing (ssco_ops valQ merge vmerge outside s) (@agree Q C D) (afhc_alg vmerge merge outside sched (window_minimize nlopt)) (@afhc_dflt C D).
Proof. exact @afhc_blind. Qed.
Print Assumptions afhc_unforeseeing.

(** Lazy budgeting for SLO (deterministic and randomised) and SBLO. *)
Theorem slo_lazy_budgeting_unforeseeing :
  forall minimize sched, solver_extensional minimize -> forall (s : split) (randomized : bool) (gamma : Q),
  unforeseeing (OfflineModel.slo_ops s) agree_slo (slo_online minimize sched randomized) (slo_start gamma).
Proof. exact slo_unforeseeing. Qed.
Print Assumptions slo_lazy_budgeting_unforeseeing.

Theorem sblo_lazy_budgeting_unforeseeing :
  forall minimize sched, solver_extensional minimize -> forall (epsilon : Q),
  unforeseeing (sblo_ops minimize) agree_sblo (sblo_lb minimize sched epsilon) sblo_start.
Proof. exact sblo_unforeseeing. Qed.
Print Assumptions sblo_lazy_budgeting_unforeseeing.
