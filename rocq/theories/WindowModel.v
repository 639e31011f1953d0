(** Model of the algorithms that optimise over a window of time slots, together with the way
    this library calls NLopt: [OptimizeModel.minimize] as the optimiser of HorizonModel.v, and
    the fractional offline algorithms as they are handed to [offline_solve].  No proofs. *)
From Verif Require Export OptimizeModel HorizonModel HorizonRunModel DescentModel OfflineModel.
From Verif Require Export CostModel.
Local Open Scope Z_scope.

(** src/numerics/convex_optimization.rs:77-84 -- [minimize] without an initial guess, as called by
    offline/multi_dimensional/convex_optimization.rs:75 and horizon_control/mod.rs:52: the
    objective and the constraints are turned into floats, the answer is the argument. *)
Definition window_minimize (nlopt : nl_problem -> outcome nl_result) (g : list Q -> outcome ext) (bounds : list (Q * Q))
    (cs : list (list Q -> outcome Q)) : outcome (list Q) :=
  do r <- minimize nlopt (fun x => do v <- g x; Ok (num_of v)) bounds None
            (map (fun c x => do q <- c x; Ok (Num q)) cs);
  Ok (fst r).

Section Solvers.
  Context {C D : Type}.
  Variable vmerge : C -> C -> outcome C.
  Variable merge : C -> C -> C.
  Variable outside : D.
  Variable nlopt : nl_problem -> outcome nl_result.
  Variable sched : list Q -> split.

  (** src/algorithms/offline/mod.rs:35-56 (the trait [OfflineAlgorithm]),
      offline/multi_dimensional/convex_optimization.rs:24-30 -- [co] with the options of
      [solve]. *)
  Definition co_solver (o : offline_options) (p : gsco Q C D) : outcome (list (list Q)) :=
    co vmerge merge outside sched (window_minimize nlopt) p (fo_inverted o) (fo_alpha o) (fo_l o).

  (** offline/multi_dimensional/static_fractional.rs:16-22 -- likewise [static_fractional]. *)
  Definition static_fractional_solver (o : offline_options) (p : gsco Q C D) : outcome (list (list Q)) :=
    static_fractional vmerge merge outside nlopt sched p (fo_inverted o) (fo_alpha o) (fo_l o).
End Solvers.
