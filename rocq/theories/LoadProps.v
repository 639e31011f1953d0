(** Property theorems: load distributions, SLO and SBLO (C13, C39, C40, C51, C52). *)
From Verif Require Import LoadModel LoadSpec CostSpec ConvertSpec LoadObjective.
From Verif Require Import ProblemModel.
Local Open Scope Z_scope.

(** C13: in the SBLO image of a SLO instance a configuration has an assignment of finite
    cost iff it covers the load; every such assignment costs sum_k c_k x_k, the hitting
    cost of the SLO instance. *)
Theorem into_sblo_keeps_hitting_cost :
  forall (T : Type) (v : value T) (p : gslo T) (t : Z) (x : list T) (l : T),
  1 <= t -> 0 < l_d p -> Z.of_nat (length (l_hitting p)) = l_d p -> Z.of_nat (length x) = l_d p ->
  Forall (fun j => 0 <= v_toQ v j)%Q x -> access (l_load p) t = Some l -> (0 <= v_toQ v l)%Q ->
  let finite zs q := distribution (length x) zs /\
    objective_value (sblo_objective v (into_sblo p) t x [v_toQ v l] (mkFractions zs (length x) 1)) = Some (Fin q) in
  ((exists zs q, finite zs q) <-> (v_toQ v l <= config_total v x)%Q) /\
  (forall zs q, finite zs q -> (q == dot (l_hitting p) (map (v_toQ v) x))%Q /\
     exists q', cost_number (slo_hit v p t x) = Some (Fin q') /\ (q == q')%Q).
Proof. exact @into_sblo_covers. Qed.
Print Assumptions into_sblo_keeps_hitting_cost.

(** C13: the SLO instance itself charges a finite cost iff the load is covered. *)
Theorem slo_cost_finite_iff_covered :
  forall (T : Type) (v : value T) (p : gslo T) (t : Z) (x : list T) (l : T),
  0 < l_d p -> Z.of_nat (length (l_hitting p)) = l_d p -> Z.of_nat (length x) = l_d p ->
  access (l_load p) t = Some l ->
  (exists q, cost_number (slo_hit v p t x) = Some (Fin q)) <-> (v_toQ v l <= config_total v x)%Q.
Proof. exact @slo_finite_iff. Qed.
Print Assumptions slo_cost_finite_iff_covered.

Theorem into_sblo_keeps_movement :
  forall (T : Type) (v : value T) minimize (p : gslo T) (prev x : list T) (inverted : bool),
  op_move (sblo_problem v minimize (into_sblo p)) prev x inverted = op_move (slo_problem v p) prev x inverted.
Proof. exact @into_sblo_movement. Qed.
Print Assumptions into_sblo_keeps_movement.

(** C52: converting a SBLO instance to a SSCO instance keeps the objective of every
    schedule, including outputs, errors and panics, whatever the numerical solver answers. *)
Theorem into_ssco_keeps_objective :
  forall (T : Type) (v : value T) minimize (merge : dc_success -> dc_success -> dc_success) (s : split)
         (p : gsblo T) (xs : list (list T)) (x0 : list T) (alpha : Q) (inverted : bool),
  outcome_rel cost_eq
    (objective_o merge s (gssco_problem v dc_vmerge OutsideDecisionSpace (into_ssco v minimize p)) xs x0 alpha inverted (b_tend p))
    (objective_o merge s (sblo_problem v minimize p) xs x0 alpha inverted (b_tend p)).
Proof. exact @into_ssco_objective. Qed.
Print Assumptions into_ssco_keeps_objective.

(** C39: with one job type every distribution assigns the whole load, in non-negative
    parts. *)
Theorem single_job_type_load_conserved_partial :
  forall (zs : list Q) (d : nat) (L : Q),
  (0 < d)%nat -> distribution d zs -> (0 <= L)%Q ->
  exists assigned, omap (select_loads (mkFractions zs d 1) [L]) (seq 0 d) = Ok assigned /\
    Forall (fun loads => exists q, loads = [q] /\ (0 <= q)%Q) assigned /\
    (Qsum (map (fun loads => nth 0 loads 0%Q) assigned) == L)%Q.
Proof. exact single_load_conserved. Qed.
Print Assumptions single_job_type_load_conserved_partial.

(** C39: in general the code assigns to job type [i] of load [l] only the part
    [l / total] of its load (which is the whole load only if there is no other load). *)
Theorem assigned_load_of_job_type :
  forall (zs : list Q) (d e : nat) (lambda : list Q) (i : nat) (l : Q),
  (0 < d)%nat -> length zs = ((d - 1) * e)%nat -> length lambda = e ->
  (i < e)%nat -> nth_error lambda i = Some l -> (0 < load_total lambda)%Q ->
  exists assigned, omap (select_loads (mkFractions zs d e) lambda) (seq 0 d) = Ok assigned /\
    (Qsum (map (fun loads => nth i loads 0%Q) assigned) == l * (l / load_total lambda))%Q.
Proof. exact assigned_share. Qed.
Print Assumptions assigned_load_of_job_type.

(** C40: sampling answers for every job type a selection of its own samples, all of one
    size; so the i-th "profile" consists of samples of the i-th job type. *)
Theorem sampled_profiles_partial :
  forall (choose : nat -> list Q -> nat -> list Q) (l ps : list (list Q)),
  sample_load_profiles choose l = Ok ps ->
  exists n, length ps = length l /\ Forall (fun zs => n <= length zs)%nat l /\
    forall i zs, nth_error l i = Some zs -> nth_error ps i = Some (choose i zs n).
Proof. exact samples_of_types. Qed.
Print Assumptions sampled_profiles_partial.

(** C40: it succeeds if all job types have equally many samples ... *)
Theorem sampling_equal_sizes :
  forall (choose : nat -> list Q -> nat -> list Q) (l : list (list Q)) (n : nat),
  l <> [] -> Forall (fun zs => length zs = n) l ->
  exists ps, sample_load_profiles choose l = Ok ps.
Proof. exact samples_equal_size. Qed.
Print Assumptions sampling_equal_sizes.

(** C40: ... and panics if a job type has fewer samples than another one (and than the
    maximal sample size). *)
Theorem sampling_different_sizes_refuted :
  forall (choose : nat -> list Q -> nat -> list Q) (l : list (list Q)) (a b : list Q),
  In a l -> In b l -> (length a < length b)%nat -> (length a < max_sample_size)%nat ->
  sample_load_profiles choose l = Panic.
Proof. exact samples_different_size. Qed.
Print Assumptions sampling_different_sizes_refuted.

(** C40: unless the sample size happens to be the number of job types, predicted loads
    panic, for every model, time, configuration and solver. *)
Theorem predicted_loads_refuted :
  forall (T : Type) (v : value T) minimize (choose : nat -> list Q -> nat -> list Q) (d e : nat)
         (objective : objective_fn T) (predicted : list (list (list Q))) (t_start t : Z) (x : list T)
         (profile : list (list Q)) (n : nat),
  (forall i zs m, (m <= length zs)%nat -> length (choose i zs m) = m) ->
  access predicted (t - t_start + 1) = Some profile ->
  profile <> [] -> Forall (fun zs => length zs = n) profile -> n <> e ->
  apply_predicted_loads v minimize choose d e objective predicted t_start t x = Panic.
Proof. exact @predicted_panics. Qed.
Print Assumptions predicted_loads_refuted.

(** C40: if predicted loads have costs in slot [t], these are the costs of serving the profiles
    sampled from the prediction for slot [t], in slot [t]; the first prediction belongs to the slot
    the predictions are registered for. *)
Theorem predicted_loads_apply_to_their_slots :
  forall (T : Type) (v : value T) minimize (choose : nat -> list Q -> nat -> list Q) (d e : nat)
         (objective : objective_fn T) (predicted : list (list (list Q))) (t_start t : Z) (x : list T)
         (cs : list (cost dc_success dc_failure)),
  apply_predicted_loads v minimize choose d e objective predicted t_start t x = Ok cs ->
  t_start <= t /\ exists profile ps, nth_error predicted (Z.to_nat (t - t_start)) = Some profile /\
    sample_load_profiles choose profile = Ok ps /\
    Forall2 (fun lambda c => apply_loads v minimize d e objective lambda t x = Ok c) ps cs.
Proof. exact @predicted_costs. Qed.
Print Assumptions predicted_loads_apply_to_their_slots.

(** C51: the hitting cost charged for a load profile belongs to one assignment: the output
    lists its energy cost, revenue loss and fractions, and the cost is their sum; failures
    are those of that assignment.  This holds for every answer of the numerical solver. *)
Theorem hitting_cost_matches_assignment :
  forall (T : Type) (v : value T) minimize (d e : nat) (objective : objective_fn T) (lambda : list Q)
         (t : Z) (x : list T) (c : cost dc_success dc_failure),
  apply_loads v minimize d e objective lambda t x = Ok c ->
  exists zs, match c_out c with
  | MSuccess s => exists energy revenue,
      objective t x lambda (new_fractions zs d e) = Ok (ROk (energy, revenue)) /\
      s = mkDCS energy revenue [[zs]] /\ eeq (c_cost c) (eadd energy revenue)
  | MFailure f => objective t x lambda (new_fractions zs d e) = Ok (RErr f)
  | MNone => False
  end.
Proof. exact @apply_loads_matches. Qed.
Print Assumptions hitting_cost_matches_assignment.

(** C51: load profiles of the wrong number of job types panic. *)
Theorem wrong_number_of_job_types :
  forall (T : Type) (v : value T) minimize (d e : nat) (objective : objective_fn T) (lambda : list Q) (t : Z) (x : list T),
  length lambda <> e -> apply_loads v minimize d e objective lambda t x = Panic.
Proof. exact @apply_loads_job_types. Qed.
Print Assumptions wrong_number_of_job_types.

(** C51: the cost of slot [t] is that of the load profile of slot [t], the first profile
    belonging to the slot the loads are registered for; other slots are not supported. *)
Theorem loads_apply_to_their_slots :
  forall (T : Type) (v : value T) minimize (d e : nat) (objective : objective_fn T) (loads : list (list Q))
         (t_start t : Z) (x : list T), 1 <= t_start ->
  call_certain (apply_loads_over_time v minimize d e objective loads t_start) t x =
    if t <? t_start then Panic else
    match nth_error loads (Z.to_nat (t - t_start)) with
    | Some lambda => apply_loads v minimize d e objective lambda t x
    | None => Panic
    end.
Proof. exact @loads_over_time. Qed.
Print Assumptions loads_apply_to_their_slots.
