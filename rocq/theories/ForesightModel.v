(** Online algorithms in the form used for streaming: fractional lazy capacity provisioning,
    randomised rounding with its two relaxations, and lazy budgeting for SLO.  No proofs. *)
From Verif Require Export StreamModel CapacityModel BudgetModel BalancedModel ProbabilisticModel RandomizedModel.
From Verif Require Export CostModel.
Local Open Scope Z_scope.

Section Fractional.
  Context {C D : Type}.
  Variable vmerge : C -> C -> outcome C.
  Variable merge : C -> C -> C.
  Variable outside : D.
  Variable sched : split.
  Variable minimizer : (list Q -> outcome ext) -> list (Q * Q) -> outcome (list Q).

  (** lazy_capacity_provisioning.rs:35-68 -- [lcp] on fractional instances as an online algorithm
      (the steps are those of [fractional_lcp] in GridCapModel.v). *)
  Definition lcp_fractional (o : online (gssco Q C D)) (t : Z) (xs : list (list Q)) (bounds : list (bounds_memory Q))
      : outcome (list Q * option (list (bounds_memory Q))) :=
    do r <- lcp valQ (mkBO (g_d (on_p o)) (g_tend (on_p o)) (on_w o)
                        (lower_bound_f vmerge merge outside sched minimizer (on_p o))
                        (upper_bound_f vmerge merge outside sched minimizer (on_p o))) t xs bounds;
    Ok (fst r, Some (snd r)).

  (** lazy_capacity_provisioning.rs:19-23 -- [Memory::default]. *)
  Definition lcp_no_bounds (_ : online (gssco Q C D)) : list (bounds_memory Q) := [].
End Fractional.

Section Relaxations.
  Context {C D : Type}.
  Variable vmerge : C -> C -> outcome C.
  Variable outside : D.
  Variable nlopt : nl_problem -> outcome nl_result.
  Variable brent : Q * Q -> (Q -> outcome fnum) -> outcome Q.
  Variable diff1 diff2 : (Q -> outcome fnum) -> Q -> outcome (option fnum).
  Variable quadrature : density -> point -> point -> Q.
  Variable fuel : nat.

  (** randomized.rs:79-101 -- [execute] with the probabilistic algorithm on a grid of size 1. *)
  Definition execute_probabilistic (o : online (gssco Q C D)) (xs : list (list Q)) (m : option prob_memory)
      : outcome (list Q * option prob_memory) :=
    alg_next (probabilistic nlopt brent diff1 diff2 quadrature fuel (br_grid 1)) (fun _ => prob_default) o xs m.

  (** randomized.rs:102-123 -- [execute] with the randomly biased greedy algorithm ([theta] is 1 by
      randomly_biased_greedy.rs:36-40); [bias] is the number drawn by its [Memory::default]
      (randomly_biased_greedy.rs:21-27). *)
  Definition execute_rbg (bias : Q) (o : online (gssco Q C D)) (xs : list (list Q)) (m : option Q)
      : outcome (list Q * option Q) :=
    alg_next (rbg vmerge outside nlopt 1) (fun _ => bias) (mkOnline (into_sco valQ vmerge outside (on_p o)) (on_w o)) xs m.

  (** randomized.rs:128-154 -- [randomized] with either relaxation; the samples and biases drawn in
      slot [t] are [r t] and [bias t]. *)
  Definition randomized_probabilistic (r : Z -> Q) (o : online (gssco Z C D)) (t : Z) (xs : list (list Z)) (m : rand_memory prob_memory)
      : outcome (list Z * option (rand_memory prob_memory)) :=
    randomized vmerge execute_probabilistic (r t) o t xs m.
  Definition randomized_rbg (r bias : Z -> Q) (o : online (gssco Z C D)) (t : Z) (xs : list (list Z)) (m : rand_memory Q)
      : outcome (list Z * option (rand_memory Q)) :=
    randomized vmerge (execute_rbg (bias t)) (r t) o t xs m.
End Relaxations.

Section Budget.
  Variable minimize :
    (list Q -> outcome ext) -> list (Q * Q) -> list Q -> list (list Q -> outcome Q) -> option (list Q * ext).
  Variable sched : Z -> Z -> vertice -> split.

  (** smoothed_load_optimization.rs:85-157 -- [lb] as an online algorithm.  The search evaluates the
      hitting costs of all configurations at all slots that are not cached; it panics if one of the
      evaluations does. *)
  Definition slo_online (randomized : bool) (o : online (gslo Z)) (t : Z) (_ : list (list Z)) (m : slo_memory)
      : outcome (list Z * option slo_memory) :=
    let hit := balanced_hit minimize (into_sblo (on_p o)) in
    let from := match sm_cache m with Some c => ca_t c + 1 | None => 1 end in
    if negb (on_w o =? 0) then Err UnsupportedPredictionWindow
    else if forallb (fun t => forallb (fun x => is_ok (hit t x)) (all_configs (l_bounds (on_p o)))) (zrange from (l_tend (on_p o))) then
      do r <- slo_lb minimize (fun t x => evaluated (hit t x)) sched (on_w o) (on_p o) t m randomized;
      Ok (fst r, Some (snd r))
    else Panic.
  (** smoothed_load_optimization.rs:36-58 -- [Memory::default] with the number [gamma] drawn. *)
  Definition slo_start (gamma : Q) (o : online (gslo Z)) : slo_memory := slo_default (on_p o) gamma.

  (** smoothed_balanced_load_optimization.rs:51-60 -- [Memory::default]. *)
  Definition sblo_start (o : online (gsblo Z)) : sblo_memory := sblo_default (b_d (on_p o)).
End Budget.
