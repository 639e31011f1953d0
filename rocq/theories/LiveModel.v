(** Model of live sessions with lazy budgeting for a data centre with several types of servers:
    src/bindings/data_center/online/multi_dimensional/lazy_budgeting/.  No proofs. *)
From Verif Require Export SessionModel ForesightModel.
From Verif Require OfflineModel.
From Verif Require Export CostModel.
Local Open Scope Z_scope.

Section Live.
  Variable powf : Q -> Q -> Q.
  Variable m : data_center.
  Variable minimize :
    (list Q -> outcome ext) -> list (Q * Q) -> list Q -> list (list Q -> outcome Q) -> option (list Q * ext).
  (** [NumCast::from] of a load (model.rs:783, 813, 873, 900). *)
  Variable cast : Q -> Z.
  Variable s : split.
  Variable sched : Z -> Z -> vertice -> split.

  (** smoothed_balanced_load_optimization.rs:14-72 (bindings) -- [start] and the calls of [next] that
      follow it; [w] is the prediction window, [epsilon] the option of the algorithm. *)
  Definition sblo_session (epsilon : Q) (w : Z) (loads : list (list Q)) (reqs : list (@request (list (list (list Q))))) :=
    do p <- to_sblo powf m (fun z => z) cast loads;
    start (OfflineModel.sblo_ops minimize s) (sblo_lb minimize sched epsilon) sblo_start
      (fun x => x) (fun x => x) (update_sblo cast) w p reqs.

  (** smoothed_load_optimization.rs:13-70 (bindings) -- likewise for SLO; [gamma] is the number drawn
      by [Memory::default]. *)
  Definition slo_session (randomized : bool) (gamma : Q) (w : Z) (loads : list (list Q)) (reqs : list (@request (list (list (list Q))))) :=
    do p <- to_slo powf m (fun z => z) cast loads;
    start (OfflineModel.slo_ops s) (slo_online minimize sched randomized) (slo_start gamma)
      (fun x => x) (fun x => x) (update_slo cast) w p reqs.
End Live.
