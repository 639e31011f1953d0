(** Property theorems: the data-centre model (C42 - C47, C53). *)
From Coq Require Import Permutation Qminmax.
From Verif Require Import OutputSpec VerifyModel DataCenterModel DataCenterSpec DataCenterParts DataCenterProofs DataCenterInstances CostSpec DataCenterImages.
From Verif Require Import ProblemModel CostModel.
Local Open Scope Z_scope.

(** C42: under the quota model a demand is served from the sources in the order of their unit
    prices, up to their limits. The cost is not the documented one: the energy drawn is added to
    the unit cost instead of multiplied by it (see [quotas_cost_refuted]). *)
Theorem quotas_cost_partial :
  forall models (t : Z) (l : location) (p : ext) sources,
  lookup models (lo_key l) = Ok sources -> Forall (fun s => 0 <= es_limit s t l)%Q sources -> ele (Fin 0) p ->
  exists ordered amounts c,
    Permutation ordered sources /\ cheapest_first t ordered /\
    served_in_order p (map (fun s => es_limit s t l) ordered) amounts /\
    energy_model_cost (EQuotas models) t l p = Ok (Fin c) /\ (c == actual_cost t l ordered amounts)%Q.
Proof. exact quotas_cost. Qed.
Print Assumptions quotas_cost_partial.

(** C42: under the linear model it is the price of the slot times the demand. *)
Theorem linear_energy_cost :
  forall models (t : Z) (l : location) (c : Z -> Q) (p : ext),
  lookup models (lo_key l) = Ok c ->
  energy_model_cost (ELinear models) t l p =
  match p with Fin x => Ok (Fin (c t * x)) | Inf => if Qltb 0 (c t) then Ok Inf else Panic end.
Proof. exact linear_cost. Qed.
Print Assumptions linear_energy_cost.

(** C43: the delay of processor sharing. *)
Theorem average_delay_exact :
  forall delta n d : Q, (0 < delta)%Q ->
  ((n <= 0)%Q \/ (d <= 0)%Q -> average_delay delta n d = Fin 0) /\
  ((0 < n)%Q -> (0 < d)%Q ->
    ((n / delta < 1 / d)%Q -> eeq (average_delay delta n d) (Fin (1 / (1 / d - n / delta)))) /\
    ((1 / d <= n / delta)%Q -> average_delay delta n d = Inf) /\
    ele (Fin d) (average_delay delta n d)).
Proof. exact delay_cases. Qed.
Print Assumptions average_delay_exact.

(** C43: more jobs, longer jobs or shorter slots do not reduce the delay. *)
Theorem average_delay_monotone :
  forall delta delta' n n' d d' : Q, (0 < delta')%Q -> (delta' <= delta)%Q -> (n <= n')%Q -> (d <= d')%Q ->
  ele (average_delay delta n d) (average_delay delta' n' d').
Proof. exact delay_monotone. Qed.
Print Assumptions average_delay_monotone.

(** C44: linear consumption. *)
Theorem linear_consumption_interpolates :
  forall (powf : Q -> Q -> Q) models (st : server_type) (phi_min phi_max delta : Q),
  lookup models (st_key st) = Ok (phi_min, phi_max) ->
  (forall s, exists c, consumption powf (CLinear models) delta st s = Ok c /\
     (c == (1 - s) * (delta * phi_min) + s * (delta * phi_max))%Q) /\
  ((0 <= delta)%Q -> (phi_min <= phi_max)%Q -> forall s s' c c', (s <= s')%Q ->
     consumption powf (CLinear models) delta st s = Ok c ->
     consumption powf (CLinear models) delta st s' = Ok c' -> (c <= c')%Q).
Proof. exact linear_consumption. Qed.
Print Assumptions linear_consumption_interpolates.

(** C44: the simplified model is the linear one with half the energy when idle. *)
Theorem simplified_consumption_is_linear :
  forall (powf : Q -> Q -> Q) models (st : server_type) (phi_max delta s : Q),
  lookup models (st_key st) = Ok phi_max ->
  exists c c', consumption powf (CSimplified models) delta st s = Ok c /\
    consumption powf (CLinear [(st_key st, (phi_max / 2, phi_max)%Q)]) delta st s = Ok c' /\ (c == c')%Q.
Proof. exact simplified_consumption. Qed.
Print Assumptions simplified_consumption_is_linear.

(** C44: the non-linear model is monotone if powers are. *)
Theorem nonlinear_consumption_monotone :
  forall (powf : Q -> Q -> Q) models (st : server_type) (phi_min alpha beta delta : Q),
  lookup models (st_key st) = Ok (phi_min, alpha, beta) ->
  (0 <= delta)%Q -> (0 < beta)%Q -> (forall a b, (0 <= a)%Q -> (a <= b)%Q -> (powf a alpha <= powf b alpha)%Q) ->
  forall s s' c c', (0 <= s)%Q -> (s <= s')%Q -> consumption powf (CNonLinear models) delta st s = Ok c ->
    consumption powf (CNonLinear models) delta st s' = Ok c' -> (c <= c')%Q.
Proof. exact nonlinear_consumption. Qed.
Print Assumptions nonlinear_consumption_monotone.

(** C44: revenue is lost from the minimal detectable delay on. *)
Theorem revenue_loss_linear :
  forall models (jt : job_type) (gamma minimal delay : Q),
  lookup models (jt_key jt) = Ok (gamma, minimal) ->
  exists r, loss models jt delay = Ok r /\
    ((delay <= minimal)%Q -> (r == 0)%Q) /\ ((minimal <= delay)%Q -> (r == gamma * (delay - minimal))%Q).
Proof. exact revenue_linear. Qed.
Print Assumptions revenue_loss_linear.

Theorem revenue_loss_monotone :
  forall models (jt : job_type) (gamma minimal delay delay' r r' : Q),
  lookup models (jt_key jt) = Ok (gamma, minimal) -> (0 <= gamma)%Q -> (delay <= delay')%Q ->
  loss models jt delay = Ok r -> loss models jt delay' = Ok r' -> (0 <= r)%Q /\ (r <= r')%Q.
Proof. exact revenue_monotone. Qed.
Print Assumptions revenue_loss_monotone.

(** C45: normalised switching costs round-trip. *)
Theorem from_normalized_round_trip :
  forall delta xi c phi : Q, ~ (c * delta * phi == 0)%Q ->
  exists r, normalized_switching_cost (from_normalized delta xi c phi) delta = Ok r /\ (r == xi)%Q.
Proof. exact normalized_round_trip. Qed.
Print Assumptions from_normalized_round_trip.

(** C45: switching costs: the energy of toggling and of migrating at full power at the average
    price, wear-and-tear and risk. *)
Theorem switching_cost_components :
  forall price phi_min phi_max epsilon migration wear risk : Q,
  (switching_cost_of (mkSwitching price phi_min phi_max epsilon migration wear risk) ==
   price * epsilon + migration * (price * phi_max) + wear + risk)%Q.
Proof. exact switching_components. Qed.
Print Assumptions switching_cost_components.

(** C45: idling for as many slots as the normalised switching cost says costs as much as
    switching. *)
Theorem normalized_cost_breaks_even :
  forall (c : switching_cost) (slot r : Q), normalized_switching_cost c slot = Ok r ->
  (r * (sw_energy_cost c * (slot * sw_phi_min c)) == switching_cost_of c)%Q.
Proof. exact break_even. Qed.
Print Assumptions normalized_cost_breaks_even.

(** C45: the same for the list of normalised switching costs, one per server type. *)
Theorem normalized_costs_break_even :
  forall (m : list (String.string * switching_cost)) (slot : Q) (types : list server_type) (l : list Q),
  normalized_switching_costs m slot types = Ok l ->
  Forall2 (fun st r => exists c, lookup m (st_key st) = Ok c /\
    (r * (sw_energy_cost c * (slot * sw_phi_min c)) == switching_cost_of c)%Q) types l.
Proof. exact break_even_all. Qed.
Print Assumptions normalized_costs_break_even.

(** C46: combining outputs over time. *)
Theorem data_center_outputs_over_time :
  forall l : list (model_output dc_success dc_failure), l <> [] ->
  match first_failure l with
  | Some f => reduce_outputs dc_hmerge l = Ok (MFailure f)
  | None =>
      match successes l with
      | [] => reduce_outputs dc_hmerge l = Ok MNone
      | ss => exists r, reduce_outputs dc_hmerge l = Ok (MSuccess r) /\
          eeq (ds_energy r) (esum (map ds_energy ss)) /\ eeq (ds_revenue r) (esum (map ds_revenue ss)) /\
          ds_assign r = concat (map ds_assign ss)
      end
  end.
Proof. exact dc_outputs. Qed.
Print Assumptions data_center_outputs_over_time.

Theorem data_center_merge_associative :
  forall a b c : dc_success,
  eeq (ds_energy (dc_hmerge a (dc_hmerge b c))) (ds_energy (dc_hmerge (dc_hmerge a b) c)) /\
  eeq (ds_revenue (dc_hmerge a (dc_hmerge b c))) (ds_revenue (dc_hmerge (dc_hmerge a b) c)) /\
  ds_assign (dc_hmerge a (dc_hmerge b c)) = ds_assign (dc_hmerge (dc_hmerge a b) c).
Proof. exact hmerge_assoc. Qed.
Print Assumptions data_center_merge_associative.

(** C46: combining samples of one slot stays between the samples; for more than two samples it
    is not their mean (see [samples_mean_refuted]). *)
Theorem data_center_samples_partial :
  forall l : list (model_output dc_success dc_failure), l <> [] -> Forall single_slot (successes l) ->
  match first_failure l with
  | Some f => vertical_reduce dc_vmerge l = Ok (MFailure f)
  | None =>
      match successes l with
      | [] => vertical_reduce dc_vmerge l = Ok MNone
      | ss => exists r, vertical_reduce dc_vmerge l = Ok (MSuccess r) /\
          ds_assign r = [concat (concat (map ds_assign ss))] /\
          (forall lo hi, Forall (fun s => ele lo (ds_energy s) /\ ele (ds_energy s) hi) ss ->
             ele lo (ds_energy r) /\ ele (ds_energy r) hi) /\
          (forall lo hi, Forall (fun s => ele lo (ds_revenue s) /\ ele (ds_revenue s) hi) ss ->
             ele lo (ds_revenue r) /\ ele (ds_revenue r) hi)
      end
  end.
Proof. exact samples_combined. Qed.
Print Assumptions data_center_samples_partial.

(** C47: bounds exist if every location gives a capacity for every server type. *)
Theorem bounds_defined :
  forall (m : data_center) (T : Type) (ofZ : Z -> T),
  (forall l st, In l (dc_locations m) -> In st (dc_server_types m) -> exists c, lookup (lo_m l) (st_key st) = Ok c) ->
  exists bounds, generate_bounds m ofZ = Ok bounds.
Proof. exact bounds_exist. Qed.
Print Assumptions bounds_defined.

(** C47: the generated smoothed problem. Its bounds list the capacities; it is accepted exactly
    if there is a single location, at least one server type, and all capacities and switching
    costs are positive (with more locations there are too few switching costs, see
    [two_locations_refuted]). *)
Theorem generated_ssco_partial :
  forall (powf : Q -> Q -> Q) (m : data_center) (T : Type) (v : value T) (ofZ : Z -> T) minimize
         (loads : list (list Q)) (p : gssco T dc_success dc_failure),
  (forall z, v_toQ v (ofZ z) == inject_Z z)%Q -> to_ssco powf m v ofZ minimize loads = Ok p ->
  g_d p = Z.of_nat (length (dc_locations m) * length (dc_server_types m)) /\ g_tend p = Z.of_nat (length loads) /\
  Z.of_nat (length (g_bounds p)) = g_d p /\
  (forall j k l st, nth_error (dc_locations m) j = Some l -> nth_error (dc_server_types m) k = Some st ->
    exists c, lookup (lo_m l) (st_key st) = Ok c /\
      nth_error (g_bounds p) (j * length (dc_server_types m) + k) = Some (ofZ c)) /\
  length (g_switching p) = length (dc_server_types m) /\
  (forall k st, nth_error (dc_server_types m) k = Some st ->
    exists c, lookup (dc_switching m) (st_key st) = Ok c /\ nth_error (g_switching p) k = Some (switching_cost_of c)) /\
  (verify_ssco v p = Ok tt <->
    length (dc_locations m) = 1%nat /\ dc_server_types m <> [] /\ positive_capacities m /\ positive_switching m) /\
  (verify_ssco v p = Ok tt \/ verify_ssco v p = Err Invalid).
Proof. exact ssco_generated. Qed.
Print Assumptions generated_ssco_partial.

(** C47: in slot [t] the generated smoothed problem charges the costs of serving the [t]-th
    load profile under the objective of the model (see C51, C53); there are no other slots. *)
Theorem generated_ssco_costs :
  forall (powf : Q -> Q -> Q) (m : data_center) (T : Type) (v : value T) (ofZ : Z -> T) minimize
         (loads : list (list Q)) (p : gssco T dc_success dc_failure) (t : Z) (x : list T),
  to_ssco powf m v ofZ minimize loads = Ok p ->
  (forall lambda, 1 <= t -> nth_error loads (Z.to_nat (t - 1)) = Some lambda ->
     call_certain (g_cost p) t x =
     apply_loads v minimize (length (dc_locations m) * length (dc_server_types m)) (length (dc_sources m) * length (dc_job_types m))
       (dc_objective_of powf m v) lambda t x) /\
  (t < 1 \/ Z.of_nat (length loads) < t -> call_certain (g_cost p) t x = Panic).
Proof.
  intros powf m T v ofZ minimize loads p t x H. exact (conj (fun lambda => ssco_costs powf m v ofZ minimize loads p t x lambda H)
    (ssco_costs_outside powf m v ofZ minimize loads p t x H)).
Qed.
Print Assumptions generated_ssco_costs.

(** C47: the generated load-balancing problem, for a single location, source and job type. *)
Theorem generated_sblo :
  forall (powf : Q -> Q -> Q) (m : data_center) (T : Type) (v : value T) (ofZ : Z -> T) (cast : Q -> T)
         (loads : list (list Q)) (p : gsblo T),
  (forall z, v_toQ v (ofZ z) == inject_Z z)%Q -> (forall q, 0 <= q -> 0 <= v_toQ v (cast q))%Q ->
  Forall (Forall (fun l => 0 <= l)%Q) loads ->
  to_sblo powf m ofZ cast loads = Ok p ->
  b_d p = Z.of_nat (length (dc_server_types m)) /\ b_tend p = Z.of_nat (length loads) /\
  (forall k st, nth_error (dc_server_types m) k = Some st ->
    exists l c c', dc_locations m = [l] /\ lookup (lo_m l) (st_key st) = Ok c /\ nth_error (b_bounds p) k = Some (ofZ c) /\
      lookup (dc_switching m) (st_key st) = Ok c' /\ nth_error (b_switching p) k = Some (switching_cost_of c')) /\
  Forall2 (fun lambda y => exists q r, lambda = q :: r /\ y = cast q) loads (b_load p) /\
  (verify_sblo v p = Ok tt <-> dc_server_types m <> [] /\ positive_capacities m /\ positive_switching m) /\
  (verify_sblo v p = Ok tt \/ verify_sblo v p = Err Invalid).
Proof. exact sblo_generated. Qed.
Print Assumptions generated_sblo.

(** C47: the cost function of a server type charges the cost of one server in all slots from 1. *)
Theorem generated_sblo_costs :
  forall (powf : Q -> Q -> Q) (m : data_center) (T : Type) (ofZ : Z -> T) (cast : Q -> T)
         (loads : list (list Q)) (p : gsblo T) (k : nat) (st : server_type),
  to_sblo powf m ofZ cast loads = Ok p -> nth_error (dc_server_types m) k = Some st ->
  exists l cf, dc_locations m = [l] /\ length (b_cost p) = length (dc_server_types m) /\ nth_error (b_cost p) k = Some cf /\
    forall t s, call_certain cf t s = if t <? 1 then Panic else server_cost powf m l st t s.
Proof. exact sblo_costs. Qed.
Print Assumptions generated_sblo_costs.

(** C47: the generated general problem has the capacities as bounds and, for a single location, the
    same objective as the smoothed problem generated from the same loads. *)
Theorem generated_sco :
  forall (powf : Q -> Q -> Q) (m : data_center) (T : Type) (v : value T) (ofZ : Z -> T) minimize
         (loads : list (list Q)) (q : gsco T dc_success dc_failure),
  to_sco powf m v ofZ minimize loads = Ok q ->
  exists p, to_ssco powf m v ofZ minimize loads = Ok p /\
    o_d q = Z.of_nat (length (dc_locations m) * length (dc_server_types m)) /\ o_tend q = Z.of_nat (length loads) /\
    o_bounds q = map (fun b => (v_zero v, b)) (g_bounds p) /\
    ((forall z, v_toQ v (ofZ z) == inject_Z z)%Q -> lawful v -> length (dc_locations m) = 1%nat ->
      forall s xs, Forall (fun x => length x = length (dc_server_types m)) xs ->
      outcome_rel cost_eq
        (objective_o dc_hmerge s (gsco_problem v dc_vmerge OutsideDecisionSpace q) xs (repeat (v_zero v) (length (dc_server_types m))) 1 false (o_tend q))
        (objective_o dc_hmerge s (gssco_problem v dc_vmerge OutsideDecisionSpace p) xs (repeat (v_zero v) (length (dc_server_types m))) 1 false (g_tend p))).
Proof. exact @sco_generated. Qed.
Print Assumptions generated_sco.

(** C47: the cost of one server in the load-balancing problem: the price of the energy it
    consumes, infinite beyond its maximal utilisation. *)
Theorem single_server_cost :
  forall (powf : Q -> Q -> Q) (m : data_center) models (l : location) (price : Z -> Q) (st : server_type) (p : Q) (t : Z) (s : Q),
  dc_cost m = ELinear models -> lookup models (lo_key l) = Ok price -> (0 < price t)%Q ->
  consumption powf (dc_consumption m) (dc_delta m) st s = Ok p ->
  server_cost powf m l st t s =
  Ok (mkCost (if Qle_bool s (st_max_utilization st) then Fin (price t * p) else Inf) (MSuccess tt)).
Proof. exact server_cost_linear. Qed.
Print Assumptions single_server_cost.

(** C47: the generated problem with fixed costs. *)
Theorem generated_slo :
  forall (powf : Q -> Q -> Q) (m : data_center) (T : Type) (v : value T) (ofZ : Z -> T) (cast : Q -> T)
         (loads : list (list Q)) (p : gslo T),
  to_slo powf m ofZ cast loads = Ok p ->
  l_d p = Z.of_nat (length (dc_server_types m)) /\ l_tend p = Z.of_nat (length loads) /\
  length (l_bounds p) = length (dc_server_types m) /\ length (l_switching p) = length (dc_server_types m) /\
  length (l_hitting p) = length (dc_server_types m) /\
  (forall k st, nth_error (dc_server_types m) k = Some st ->
    exists l c c' h, dc_locations m = [l] /\ lookup (lo_m l) (st_key st) = Ok c /\ nth_error (l_bounds p) k = Some (ofZ c) /\
      lookup (dc_switching m) (st_key st) = Ok c' /\ nth_error (l_switching p) k = Some (switching_cost_of c') /\
      average_cost powf m l (length loads) st = Ok h /\ nth_error (l_hitting p) k = Some h) /\
  Forall2 (fun lambda y => exists q r, lambda = q :: r /\ y = cast q) loads (l_load p).
Proof. exact slo_generated. Qed.
Print Assumptions generated_slo.

(** C47: its costs are averages of the energy price over the slots 0 .. T-1, not 1 .. T (see
    [average_slots_refuted]), times the consumption at full utilisation. *)
Theorem average_cost_partial :
  forall (powf : Q -> Q -> Q) (m : data_center) models (l : location) (price : Z -> Q) (st : server_type) (p : Q) (n : nat),
  dc_cost m = ELinear models -> lookup models (lo_key l) = Ok price ->
  consumption powf (dc_consumption m) (dc_delta m) st 1 = Ok p -> (0 < n)%nat ->
  exists c, average_cost powf m l n st = Ok c /\
    (c == Qsum (map (fun t => price (Z.of_nat t)) (seq 0 n)) / inject_Z (Z.of_nat n) * p)%Q.
Proof. exact average_linear. Qed.
Print Assumptions average_cost_partial.

(** C53: the objective is finite exactly if the active servers of every type at every location
    can process the jobs assigned to them; it is then the priced energy and the revenue lost. *)
Theorem objective_finite_iff_supported :
  forall (powf : Q -> Q -> Q) (m : data_center) price power revenue (T : Type) (v : value T) (t : Z) (x : list T)
         (lambda : list Q) (zs : fractions) (loads : nat -> list Q),
  described powf m price power revenue -> length x = dc_d m -> Forall (is_nonnegative v) x ->
  (forall k, (k < dc_d m)%nat ->
     select_loads zs lambda k = Ok (loads k) /\ length (loads k) = dc_e m /\ Forall (fun l => 0 <= l)%Q (loads k)) ->
  let active j k := v_toQ v (nth (j * length (dc_server_types m) + k) x (v_zero v)) in
  let served j k := loads (j * length (dc_server_types m) + k)%nat in
  exists o, dc_objective_of powf m v t x lambda zs = Ok o /\
    ((forall j k st, (j < length (dc_locations m))%nat -> nth_error (dc_server_types m) k = Some st ->
        supported m st (active j k) (served j k)) ->
     exists e r, o = ROk (Fin e, Fin r) /\
       (e == over_locations m (fun j l => price l t *
               over_types m (fun j k l st => type_energy m power st (active j k) (served j k)) j))%Q /\
       (r == over_locations m (fun j l =>
               over_types m (fun j k l st => type_revenue m revenue t l st (active j k) (served j k)) j))%Q) /\
    ((exists j k st, (j < length (dc_locations m))%nat /\ nth_error (dc_server_types m) k = Some st /\
        ~ supported m st (active j k) (served j k)) ->
     forall e r, o <> ROk (Fin e, Fin r)).
Proof. exact objective_value. Qed.
Print Assumptions objective_finite_iff_supported.
