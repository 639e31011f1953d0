(** Model of a session with a data centre whose loads arrive one after the other:
    src/model/data_center/model.rs:574-602 (online inputs), 701-721 (updates), and lazy capacity
    provisioning on integral instances, as started by
    src/bindings/data_center/online/uni_dimensional/lazy_capacity_provisioning.  No proofs. *)
From Verif Require Export StreamModel DataCenterModel CapacityModel OfflineModel.
From Verif Require Export CostModel.
Local Open Scope Z_scope.

(** model.rs:583-592 -- [DataCenterOfflineInput::into_online]: one online input for every load
    profile, certain and without a prediction of later slots. *)
Definition into_online (loads : list (list Q)) : list (list (list (list Q))) :=
  map (fun lambda => [into_predicted lambda]) loads.

Section Updates.
  Variable powf : Q -> Q -> Q.
  Variable m : data_center.
  Context {T : Type}.
  Variable v : value T.
  Variable minimize :
    (list Q -> outcome ext) -> list (Q * Q) -> list Q -> list (list Q -> outcome Q) -> option (list Q * ext).
  Variable choose_multiple : nat -> list Q -> nat -> list Q.

  (** model.rs:512-536, 701-721 -- [update] of an SSCO instance generated by the model. *)
  Definition dc_update_ssco (o : online (gssco T dc_success dc_failure)) (loads : list (list (list Q)))
      : outcome (online (gssco T dc_success dc_failure)) :=
    update_ssco (apply_predicted_loads v minimize choose_multiple (dc_d m) (dc_e m) (dc_objective_of powf m v)) o loads.
End Updates.

Section Lazy.
  Context {C D : Type}.
  Variable vmerge : C -> C -> outcome C.
  Variable outside : D.

  (** src/algorithms/capacity_provisioning.rs:202-228 -- [find_bound] (integral) with [alpha = 1],
      on an instance whose costs may panic: like [search_1d_ssco] (Offline1DModel.v) it panics if
      the evaluation of any cost of the reset instance does. *)
  Definition find_bound_ssco (p : gssco Z C D) (inverted : bool) (w t_end t_start x_start : Z) : outcome Z :=
    if g_tend p <? t_end then Panic
    else if negb (g_d p =? 1) then Err UnsupportedProblemDimension
    else if t_end <=? 0 then Ok 0
    else
      let r := ssco_reset p t_start in
      let p' := mkGSSCO (g_d r) (g_tend r + w) (g_bounds r) (g_switching r) (g_cost r) in
      do result <- optimal_graph_search_1d outside (search_view vmerge outside p') x_start inverted 1 None;
      do _ <- omap (fun t => omap (gssco_hit valZ vmerge outside p' t) (configs_of (map (zrange 0) (g_bounds p')))) (zrange 1 (g_tend p'));
      if t_end - t_start <=? 0 then Panic
      else from_option (nth_error (pa_xs result) (Z.to_nat (t_end - t_start) - 1)).

  (** lazy_capacity_provisioning.rs:35-68 -- [lcp] as an online algorithm. *)
  Definition lcp_ssco (o : online (gssco Z C D)) (t : Z) (xs : list (list Z)) (bounds : list (bounds_memory Z))
      : outcome (list Z * option (list (bounds_memory Z))) :=
    do r <- lcp valZ (mkBO (g_d (on_p o)) (g_tend (on_p o)) (on_w o)
                        (find_bound_ssco (on_p o) false) (find_bound_ssco (on_p o) true)) t xs bounds;
    Ok (fst r, Some (snd r)).

  (** lazy_capacity_provisioning.rs:19-23 -- [Memory::default]. *)
  Definition lcp_memory (_ : online (gssco Z C D)) : list (bounds_memory Z) := [].
End Lazy.

Section Session.
  Variable powf : Q -> Q -> Q.
  Variable m : data_center.
  Variable minimize :
    (list Q -> outcome ext) -> list (Q * Q) -> list Q -> list (list Q -> outcome Q) -> option (list Q * ext).
  Variable choose_multiple : nat -> list Q -> nat -> list Q.
  Variable sched : split.

  (** src/bindings/data_center/online/uni_dimensional/lazy_capacity_provisioning/integral.rs:19-74
      -- [start] and the calls of [next] that follow it; [w] is the prediction window. *)
  Definition lcp_session (w : Z) (loads : list (list Q)) (reqs : list (@request (list (list (list Q))))) :=
    do p <- to_ssco powf m valZ (fun z => z) minimize loads;
    start (ssco_ops valZ dc_hmerge dc_vmerge OutsideDecisionSpace sched) (lcp_ssco dc_vmerge OutsideDecisionSpace) lcp_memory
      (fun x => x) (fun x => x) (dc_update_ssco powf m valZ minimize choose_multiple) w p reqs.
End Session.
