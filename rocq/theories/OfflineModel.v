(** Model of the way offline problems are solved: src/algorithms/offline/mod.rs (options),
    src/bindings/data_center/offline.rs (solvers of SSCO, SBLO and SLO instances), together with
    [offline_solve] (StreamModel.v, src/streaming/offline.rs:24-58).  No proofs. *)
From Verif Require Export GraphSearchModel ApproxSearchModel StaticModel StreamModel.
From Verif Require Export CostModel.
Local Open Scope Z_scope.

(** src/algorithms/offline/mod.rs:58-71 -- [OfflineOptions]. *)
Record offline_options : Type := mkOffOpts {
  fo_inverted : bool;
  fo_alpha : Q;
  fo_l : option Q
}.

(** offline/mod.rs:72-80 -- [Default]. *)
Definition default_options : offline_options := mkOffOpts false 1 None.
(** offline/mod.rs:82-87, 89-94, 96-101 -- [inverted], [alpha_unfair], [l_constrained]. *)
Definition inverted_options : offline_options := mkOffOpts true 1 None.
Definition alpha_unfair (alpha : Q) : offline_options := mkOffOpts false alpha None.
Definition l_constrained (l : Q) : offline_options := mkOffOpts false 1 (Some l).

(** approx_graph_search.rs:22-28 -- the default value of [gamma]. *)
Definition default_gamma : Q := 11 # 10.

(** All configurations with the entry of dimension [k] taken from the [k]-th list. *)
Fixpoint configs_of (axes : list (list Z)) : list (list Z) :=
  match axes with
  | [] => [[]]
  | a :: r => flat_map (fun j => map (cons j) (configs_of r)) a
  end.

Section Solvers.
  Context {C D : Type}.
  Variable vmerge : C -> C -> outcome C.
  Variable outside : D.
  (** The divisions of work rayon chooses during the search. *)
  Variable sched : Z -> vertice -> split.

  (** The instance as the search sees it.  A panic of the hitting cost is replaced by an
      infinite cost here; [searched] below makes it a panic of the search. *)
  Definition search_view (p : gssco Z C D) : ssco C D :=
    mkSSCO (g_d p) (g_tend p) (g_bounds p) (g_switching p)
      (fun t x => match call_mean vmerge (g_cost p) t x with
                  | Ok c => c
                  | _ => outside_cost outside
                  end).

  (** The result of a search over the values [axes]: the search evaluates the hitting cost of
      every configuration with these values in every slot (graph_search.rs:303-316), so it
      panics if one of the evaluations does.  A search that fails for another reason does so
      in any case. *)
  Definition searched (p : gssco Z C D) (axes : list (list Z)) (r : outcome (gpath * gcache))
      : outcome (list (list Z)) :=
    do r' <- r;
    do _ <- omap (fun t => omap (gssco_hit valZ vmerge outside p t) (configs_of axes)) (zrange 1 (g_tend p));
    Ok (gp_xs (fst r')).

  (** optimal_graph_search.rs:27-43 -- without cache, returning the schedule
      ([OfflineResult::xs], offline/graph_search.rs:16-20). *)
  Definition optimal_search_ssco (o : offline_options) (p : gssco Z C D) : outcome (list (list Z)) :=
    searched p (map (zrange 0) (g_bounds p))
      (optimal_graph_search outside sched (search_view p) None (fo_inverted o) (fo_alpha o) (fo_l o)).

  (** approx_graph_search.rs:47-60; running out of [fuel] counts as a panic. *)
  Definition approx_search_ssco (fuel : nat) (gamma : Q) (o : offline_options) (p : gssco Z C D)
      : outcome (list (list Z)) :=
    match build_values fuel (g_bounds p) gamma with
    | Some (Ok values) =>
        searched p (map (fun u => filter (fun j => j <=? u) values) (g_bounds p))
          (match approx_graph_search outside sched fuel (search_view p) gamma None
                   (fo_inverted o) (fo_alpha o) (fo_l o) with
           | Some r => r
           | None => Panic
           end)
    | _ => Panic
    end.
End Solvers.

Section LoadSolvers.
  (** The numerical solver (see LoadModel.v). *)
  Variable minimize :
    (list Q -> outcome ext) -> list (Q * Q) -> list Q -> list (list Q -> outcome Q) -> option (list Q * ext).
  Variable sched : Z -> vertice -> split.

  (** bindings/data_center/offline.rs:390-396 -- [optimal_graph_search_sblo]. *)
  Definition optimal_search_sblo (o : offline_options) (p : gsblo Z) : outcome (list (list Z)) :=
    optimal_search_ssco dc_vmerge OutsideDecisionSpace sched o (into_ssco valZ minimize p).
  (** bindings/data_center/offline.rs:398-404 -- [approx_graph_search_sblo]. *)
  Definition approx_search_sblo (fuel : nat) (gamma : Q) (o : offline_options) (p : gsblo Z) : outcome (list (list Z)) :=
    approx_search_ssco dc_vmerge OutsideDecisionSpace sched fuel gamma o (into_ssco valZ minimize p).
  (** bindings/data_center/offline.rs:366-372 -- [optimal_graph_search_slo]. *)
  Definition optimal_search_slo (o : offline_options) (p : gslo Z) : outcome (list (list Z)) :=
    optimal_search_sblo o (into_sblo p).
  (** bindings/data_center/offline.rs:374-380 -- [approx_graph_search_slo]. *)
  Definition approx_search_slo (fuel : nat) (gamma : Q) (o : offline_options) (p : gslo Z) : outcome (list (list Z)) :=
    approx_search_sblo fuel gamma o (into_sblo p).

  (** bindings/data_center/offline.rs:406-412, 382-388 -- [static_integral_sblo] and
      [static_integral_slo]; [splits] are the divisions of work of the objective. *)
  Definition static_integral_sblo (splits : list Z -> split) (o : offline_options) (p : gsblo Z) : outcome (list (list Z)) :=
    static_integral dc_vmerge dc_hmerge OutsideDecisionSpace splits
      (into_sco valZ dc_vmerge OutsideDecisionSpace (into_ssco valZ minimize p))
      (fo_inverted o) (fo_alpha o) (fo_l o).
  Definition static_integral_slo (splits : list Z -> split) (o : offline_options) (p : gslo Z) : outcome (list (list Z)) :=
    static_integral_sblo splits o (into_sblo p).

  (** src/problem.rs:41-76, 344-476, src/verifiers.rs -- the operations used by [offline_solve]
      for SBLO and SLO. *)
  Definition sblo_ops (s : split) : problem_ops (gsblo Z) (list Z) dc_success dc_failure :=
    mkOps b_tend
      (fun p t => mkGSBLO (b_d p) t (b_bounds p) (b_switching p) (b_cost p) (b_load p))
      (verify_sblo valZ)
      (fun p xs => objective_o dc_hmerge s (sblo_problem valZ minimize p) xs (gzero valZ (b_d p)) 1 false (b_tend p)).
  Definition slo_ops (s : split) : problem_ops (gslo Z) (list Z) unit dc_failure :=
    mkOps l_tend
      (fun p t => mkGSLO (l_d p) t (l_bounds p) (l_switching p) (l_hitting p) (l_load p))
      (verify_slo valZ)
      (fun p xs => objective_o (fun _ _ => tt) s (slo_problem valZ p) xs (gzero valZ (l_d p)) 1 false (l_tend p)).
End LoadSolvers.
