(** C86: configurations of several types of servers and the division of the load among them are
    optimised together. *)
From Verif Require Import CostSpec OfflineSpec OfflineModel JointSpec JointEnd JointSlot.
From Verif Require Import ProblemModel CostModel.
Local Open Scope Z_scope.

(** The hitting cost of active servers of several types is the cost of the cheapest division of the
    load, in hundredths, which they can process; it is infinite exactly if there is none. *)
Theorem cheapest_division_partial :
  forall powf m price power revenue l caps betas nlopt t q x,
  center powf m price power revenue l caps betas -> careful_nlopt nlopt -> (0 <= q)%Q -> feasible_config caps x ->
  exists c, apply_loads valZ (load_minimize nlopt) (dc_d m) (dc_e m) (dc_objective_of powf m valZ) [q] t x = Ok c /\
    let splits ss := division (length (dc_server_types m)) ss /\ processes m x q ss in
    (is_fin (c_cost c) <-> exists ss, splits ss) /\
    (is_fin (c_cost c) -> exists ss, splits ss /\ eeq (c_cost c) (Fin (running_cost m price power revenue l t x q ss))) /\
    (forall ss, splits ss -> ele (c_cost c) (Fin (running_cost m price power revenue l t x q ss))).
Proof. exact joint_slot. Qed.
Print Assumptions cheapest_division_partial.

(** Solving the generated instance: the schedule found belongs to a plan (active servers and
    divisions of the load) which processes all loads, the reported cost is what operating the data
    centre by this plan costs, and no other plan is cheaper. Also reported are the costs of energy and
    the revenue lost by this plan and, for every slot with a positive load, its division of the load
    without the last share (the rest of the load). *)
Theorem joint_optimum_partial :
  forall powf m price power revenue l caps betas nlopt loads s sched (o : offline_options),
  center powf m price power revenue l caps betas -> careful_nlopt nlopt ->
  loads <> [] -> Forall (fun q => 0 <= q)%Q loads -> Forall (manageable m caps) loads -> (0 <= fo_alpha o)%Q -> fo_l o = None ->
  let zeros := repeat 0 (length (dc_server_types m)) in
  exists p plan c out,
    to_ssco powf m valZ (fun z => z) (load_minimize nlopt) (map (fun q => [q]) loads) = Ok p /\
    offline_solve (ssco_ops valZ dc_hmerge dc_vmerge OutsideDecisionSpace s) (optimal_search_ssco dc_vmerge OutsideDecisionSpace sched o) p = Ok (map fst plan, c) /\
    operable m caps loads plan /\
    eeq (c_cost c) (Fin (operating_cost m price power revenue l betas 1 1 zeros loads plan)) /\
    (forall plan', operable m caps loads plan' ->
      (operating_cost m price power revenue l betas (fo_alpha o) 1 zeros loads plan <=
       operating_cost m price power revenue l betas (fo_alpha o) 1 zeros loads plan')%Q) /\
    c_out c = MSuccess out /\
    eeq (ds_energy out) (Fin (over_slots (energy_part m price power l) 1 loads plan)) /\
    eeq (ds_revenue out) (Fin (over_slots (revenue_part m revenue l) 1 loads plan)) /\
    Forall2 (fun qs a => (0 < fst qs)%Q -> a = [removelast (snd qs)]) (combine loads (map snd plan)) (ds_assign out).
Proof. exact joint_careful. Qed.
Print Assumptions joint_optimum_partial.

(** For two types of servers the optimiser may also evaluate the objective elsewhere. *)
Theorem joint_optimum_two_types_partial :
  forall powf m price power revenue l caps betas nlopt loads s sched (o : offline_options),
  center powf m price power revenue l caps betas -> length (dc_server_types m) = 2%nat -> exact_nlopt nlopt ->
  loads <> [] -> Forall (fun q => 0 <= q)%Q loads -> Forall (manageable m caps) loads -> (0 <= fo_alpha o)%Q -> fo_l o = None ->
  let zeros := repeat 0 (length (dc_server_types m)) in
  exists p plan c out,
    to_ssco powf m valZ (fun z => z) (load_minimize nlopt) (map (fun q => [q]) loads) = Ok p /\
    offline_solve (ssco_ops valZ dc_hmerge dc_vmerge OutsideDecisionSpace s) (optimal_search_ssco dc_vmerge OutsideDecisionSpace sched o) p = Ok (map fst plan, c) /\
    operable m caps loads plan /\
    eeq (c_cost c) (Fin (operating_cost m price power revenue l betas 1 1 zeros loads plan)) /\
    (forall plan', operable m caps loads plan' ->
      (operating_cost m price power revenue l betas (fo_alpha o) 1 zeros loads plan <=
       operating_cost m price power revenue l betas (fo_alpha o) 1 zeros loads plan')%Q) /\
    c_out c = MSuccess out /\
    eeq (ds_energy out) (Fin (over_slots (energy_part m price power l) 1 loads plan)) /\
    eeq (ds_revenue out) (Fin (over_slots (revenue_part m revenue l) 1 loads plan)) /\
    Forall2 (fun qs a => (0 < fst qs)%Q -> a = [removelast (snd qs)]) (combine loads (map snd plan)) (ds_assign out).
Proof. exact joint_two. Qed.
Print Assumptions joint_optimum_two_types_partial.

(** An optimiser which reaches a limit does not give an approximate cost: load balancing panics
    whenever the point reached is a division which the servers can process. *)
Theorem balancing_timeout_refuted :
  forall powf m price power revenue l caps betas, center powf m price power revenue l caps betas ->
  forall t q x, (0 <= q)%Q -> feasible_config caps x ->
  forall s ss, s = MaxEvalReached \/ s = MaxTimeReached -> division (length (dc_server_types m)) ss -> processes m x q ss ->
  apply_loads valZ (load_minimize (out_of_time s (removelast ss))) (dc_d m) (dc_e m) (dc_objective_of powf m valZ) [q] t x = Panic.
Proof. exact timeout_slot. Qed.
Print Assumptions balancing_timeout_refuted.
