(** Model of solving one-dimensional offline problems: src/streaming/offline.rs:24-58 with the
    algorithms of src/algorithms/offline/uni_dimensional, as called by
    src/bindings/data_center/offline.rs:46-85.  No proofs. *)
From Verif Require Export OfflineModel Search1DModel CapacityModel.
From Verif Require Export CostModel.
Local Open Scope Z_scope.

Section Solvers.
  Context {C D : Type}.
  Variable vmerge : C -> C -> outcome C.
  Variable outside : D.

  (** optimal_graph_search.rs:42-79 (1-d) with default options ([x_start] = 0), returning the
      schedule (offline/graph_search.rs:31-35).  The search evaluates some of the hitting costs; here it
      panics if the evaluation of any of them does. *)
  Definition search_1d_ssco (o : offline_options) (p : gssco Z C D) : outcome (list (list Z)) :=
    do r <- optimal_graph_search_1d outside (search_view vmerge outside p) 0 (fo_inverted o) (fo_alpha o) (fo_l o);
    do _ <- omap (fun t => omap (gssco_hit valZ vmerge outside p t) (configs_of (map (zrange 0) (g_bounds p)))) (zrange 1 (g_tend p));
    Ok (map (fun j => [j]) (pa_xs r)).

  (** capacity_provisioning.rs:22-49 -- [brcp], returning the schedule. *)
  Variable merge : C -> C -> C.
  Variable sched : split.
  Variable minimizer : (list Q -> outcome ext) -> list (Q * Q) -> outcome (list Q).
  Definition brcp_ssco (o : offline_options) (p : gssco Q C D) : outcome (list (list Q)) :=
    do r <- brcp vmerge merge outside sched minimizer p (fo_inverted o) (fo_alpha o) (fo_l o); Ok (fst r).
End Solvers.
