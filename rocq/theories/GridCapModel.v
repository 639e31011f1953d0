(** Model of capacity provisioning for fractional instances with the way this library calls
    NLopt, and of lazy capacity provisioning for fractional instances.  No proofs. *)
From Verif Require Export OptimizeModel CapacityModel.
From Verif Require Export CostModel.
Local Open Scope Z_scope.

(** src/numerics/convex_optimization.rs:60-65 -- [find_minimizer], as called by
    src/algorithms/capacity_provisioning.rs:162: the objective is turned into a float, only the
    argument is used. *)
Definition point_minimize (nlopt : nl_problem -> outcome nl_result) (g : list Q -> outcome ext) (bounds : list (Q * Q))
    : outcome (list Q) :=
  do r <- find_minimizer nlopt (fun x => do v <- g x; Ok (num_of v)) bounds;
  Ok (fst r).

Section FractionalLcp.
  Context {C D : Type}.
  Variable vmerge : C -> C -> outcome C.
  Variable merge : C -> C -> C.
  Variable outside : D.
  Variable sched : split.
  Variable minimizer : (list Q -> outcome ext) -> list (Q * Q) -> outcome (list Q).

  (** src/algorithms/online/uni_dimensional/lazy_capacity_provisioning.rs:35-68 with the bounds
      of src/algorithms/capacity_provisioning.rs:80-108: the instance at time [t] is [p] with
      horizon [t] (as arranged by src/streaming/utils.rs). *)
  Definition fractional_online (p : gssco Q C D) (w t : Z) : bounded_online Q :=
    let p' := mkGSSCO (g_d p) t (g_bounds p) (g_switching p) (g_cost p) in
    mkBO (g_d p') (g_tend p') w (lower_bound_f vmerge merge outside sched minimizer p')
      (upper_bound_f vmerge merge outside sched minimizer p').

  (** The first [n] slots of a run. *)
  Definition fractional_lcp (p : gssco Q C D) (w : Z) (n : nat)
      : outcome (list (list Q) * option (list (bounds_memory Q))) :=
    lcp_steps valQ (fractional_online p w) n [] None.
End FractionalLcp.
