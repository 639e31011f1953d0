(** Concrete cases for DataCenterProps.v and behaviours deviating from the expected ones. *)
From Coq Require Import Lia Lqa String Qround.
From Verif Require Import NumLemmas OutputSpec VerifyModel DataCenterModel DataCenterSpec DataCenterInstances DataCenterProps.
From Verif Require Import ProblemModel CostModel.
Local Open Scope Z_scope.

Definition fast : server_type := mkServer "fast" 1%Q.
Definition slow : server_type := mkServer "slow" (9 # 10)%Q.
Definition job : job_type := mkJob "job" (fun st => if String.eqb (st_key st) "fast" then (1 # 4)%Q else (1 # 2)%Q).
Definition here : location := mkLocation "here" [("fast"%string, 2); ("slow"%string, 3)].
Definition there : location := mkLocation "there" [("fast"%string, 4); ("slow"%string, 5)].
Definition client : source := mkSource "client" (fun _ _ => (1 # 10)%Q).
Definition startup : switching_cost := mkSwitching 1 1 2 (1 # 2) 1 0 0.
Definition prices : cost_model := ELinear [("here"%string, fun t => inject_Z (t + 1)); ("there"%string, fun _ => 3%Q)].
Definition centre (locations : list location) : data_center :=
  mkDataCenter 1 locations [fast; slow] [client] [job]
    (CLinear [("fast"%string, (1, 3)%Q); ("slow"%string, (1, 2)%Q)]) prices [("job"%string, (1, 1 # 2)%Q)]
    [("fast"%string, startup); ("slow"%string, startup)].
Definition no_pow (a b : Q) : Q := a.
Definition guess (f : list Q -> outcome ext) (_ : list (Q * Q)) (init : list Q)
    (_ : list (list Q -> outcome Q)) : option (list Q * ext) :=
  match f init with Ok e => Some (init, e) | _ => None end.

(** ** Energy cost *)
Definition solar : energy_source := mkEnergy (fun _ => 0%Q) (fun _ => (1 # 2)%Q) (fun _ _ => 4%Q).
Definition grid : energy_source := mkEnergy (fun _ => 2%Q) (fun _ => 0%Q) (fun _ _ => 10%Q).

Example ex_quotas :
  exists ordered amounts c,
    Permutation.Permutation ordered [grid; solar] /\ cheapest_first 1 ordered /\
    served_in_order (Fin 7) (map (fun s => es_limit s 1 here) ordered) amounts /\
    energy_model_cost (EQuotas [("here"%string, [grid; solar])]) 1 here (Fin 7) = Ok (Fin c) /\ (c == actual_cost 1 here ordered amounts)%Q.
Proof. apply (quotas_cost_partial [("here"%string, [grid; solar])] 1 here (Fin 7) [grid; solar]); [reflexivity| |discriminate]. repeat constructor; discriminate. Qed.

(** Solar energy is drawn first although listed last: 4 units from it, 3 from the grid. *)
Example ex_quotas_value :
  exists c, energy_model_cost (EQuotas [("here"%string, [grid; solar])]) 1 here (Fin 7) = Ok (Fin c) /\ (c == 9)%Q.
Proof. eexists. split; [reflexivity|]. vm_compute. reflexivity. Qed.

(** Three units at a price of two should cost six, but cost five. *)
Theorem quotas_cost_refuted :
  exists (l : location) (s : energy_source) (p c : Q),
    served_in_order (Fin p) [es_limit s 1 l] [p] /\
    energy_model_cost (EQuotas [(lo_key l, [s])]) 1 l (Fin p) = Ok (Fin c) /\
    (c == 5)%Q /\ (documented_cost 1 l [s] [p] == 6)%Q.
Proof.
  exists here, grid, 3%Q. eexists. split; [|split; [reflexivity|split; vm_compute; reflexivity]].
  split; [reflexivity|]. split; [repeat constructor; discriminate|]. split; [intros [|[|i]] [|[|j]]; cbn; intros; try lia; discriminate|]. vm_compute. reflexivity.
Qed.
Print Assumptions quotas_cost_refuted.

(** An infinite demand, which stands for servers loaded beyond their maximal utilisation, has a
    finite cost under the quota model. *)
Theorem quotas_infinite_demand_refuted :
  exists (l : location) (sources : list energy_source) (c : Q),
    energy_model_cost (EQuotas [(lo_key l, sources)]) 1 l Inf = Ok (Fin c) /\
    exists st powf m s, dc_cost m = EQuotas [(lo_key l, sources)] /\ (st_max_utilization st < s)%Q /\
      server_cost powf m l st 1 s = Ok (mkCost (Fin c) (MSuccess tt)).
Proof.
  exists here, [grid; solar]. eexists. split; [reflexivity|].
  exists slow, no_pow, (mkDataCenter 1 [here] [slow] [client] [job] (CLinear [("slow"%string, (1, 2)%Q)]) (EQuotas [("here"%string, [grid; solar])]) [] []), 2%Q.
  split; [reflexivity|]. split; reflexivity.
Qed.
Print Assumptions quotas_infinite_demand_refuted.

(** ** Delay, consumption, revenue, switching costs *)
Example ex_delay : eeq (average_delay 2 3 (1 # 2)) (Fin 2) /\ average_delay 2 4 (1 # 2) = Inf /\ average_delay 2 0 1 = Fin 0.
Proof. repeat split; vm_compute; reflexivity. Qed.
Example ex_delay_applies : ele (average_delay 2 1 (1 # 2)) (average_delay 1 (3 # 2) (1 # 2)).
Proof. apply average_delay_monotone; [reflexivity|discriminate|discriminate|discriminate]. Qed.

Example ex_consumption :
  exists c, consumption no_pow (dc_consumption (centre [here])) 1 fast (1 # 2) = Ok c /\ (c == 2)%Q.
Proof. eexists. split; [reflexivity|]. vm_compute. reflexivity. Qed.
Example ex_nonlinear :
  forall c c', consumption no_pow (CNonLinear [("fast"%string, (1, 1, 2)%Q)]) 1 fast (1 # 2) = Ok c ->
  consumption no_pow (CNonLinear [("fast"%string, (1, 1, 2)%Q)]) 1 fast 1 = Ok c' -> (c <= c')%Q.
Proof.
  intros c c'. apply (nonlinear_consumption_monotone no_pow [("fast"%string, (1, 1, 2)%Q)] fast 1 1 2 1); try reflexivity; try discriminate.
  intros a b _ H. exact H.
Qed.
Example ex_revenue : exists r, loss [("job"%string, (3, 1 # 2)%Q)] job 2 = Ok r /\ (r == 9 # 2)%Q.
Proof. eexists. split; [reflexivity|]. vm_compute. reflexivity. Qed.
Example ex_break_even : exists r, normalized_switching_cost startup 2 = Ok r /\ (r == 5 # 4)%Q /\ (switching_cost_of startup == 5 # 2)%Q.
Proof. eexists. split; [reflexivity|]. split; reflexivity. Qed.
Example ex_round_trip : exists r, normalized_switching_cost (from_normalized 2 3 1 (1 # 2)) 2 = Ok r /\ (r == 3)%Q.
Proof. apply from_normalized_round_trip. intros H. vm_compute in H. discriminate H. Qed.

(** ** Outputs *)
Definition sample (e : Q) : model_output dc_success dc_failure := MSuccess (mkDCS (Fin e) (Fin 0) [[[1%Q]]]).

Example ex_outputs : exists r, reduce_outputs dc_hmerge [sample 1; MNone; sample 2] = Ok (MSuccess r) /\ eeq (ds_energy r) (Fin 3) /\ ds_assign r = [[[1%Q]]; [[1%Q]]].
Proof. eexists. split; [reflexivity|]. split; vm_compute; reflexivity. Qed.
Example ex_failure : reduce_outputs dc_hmerge [sample 1; MFailure (InfiniteDelay 1 2); MFailure (InfiniteDelay 3 4)] = Ok (MFailure (InfiniteDelay 1 2)).
Proof. reflexivity. Qed.
Example ex_samples : Forall single_slot (successes [sample 1; sample 3]) /\
  exists r, vertical_reduce dc_vmerge [sample 1; sample 3] = Ok (MSuccess r) /\ eeq (ds_energy r) (Fin 2).
Proof. split; [repeat constructor|]. eexists. split; [reflexivity|]. vm_compute. reflexivity. Qed.

(** Three samples 0, 0 and 3 do not give their mean 1. *)
Theorem samples_mean_refuted :
  exists samples r, vertical_reduce dc_vmerge (map sample samples) = Ok (MSuccess r) /\
    ~ eeq (ds_energy r) (Fin (Qsum samples / inject_Z (Z.of_nat (List.length samples)))).
Proof. exists [0; 0; 3]%Q. eexists. split; [reflexivity|]. intros H. vm_compute in H. discriminate H. Qed.
Print Assumptions samples_mean_refuted.

(** ** Instances *)
Example ex_single_location : exists p, to_ssco no_pow (centre [here]) valZ (fun z => z) guess [[6%Q]; [2%Q]] = Ok p /\
  verify_ssco valZ p = Ok tt /\ g_bounds p = [2; 3].
Proof. eexists. split; [reflexivity|]. split; reflexivity. Qed.

(** With two locations, the bounds have dimension four, the switching costs dimension two, and
    the instance is rejected. *)
Theorem two_locations_refuted :
  exists (m : data_center) p, to_ssco no_pow m valZ (fun z => z) guess [[6%Q]] = Ok p /\
    positive_capacities m /\ positive_switching m /\
    g_d p = 4 /\ g_bounds p = [2; 3; 4; 5] /\ List.length (g_switching p) = 2%nat /\ verify_ssco valZ p = Err Invalid.
Proof.
  exists (centre [here; there]). eexists. split; [reflexivity|]. split; [|split; [|repeat split; reflexivity]].
  - intros l st c [<-|[<-|[]]] [<-|[<-|[]]] H; cbn in H; injection H as <-; lia.
  - intros st c [<-|[<-|[]]] H; cbn in H; injection H as <-; vm_compute; reflexivity.
Qed.
Print Assumptions two_locations_refuted.

Example ex_sblo : exists p, to_sblo no_pow (centre [here]) (fun z => z) Qround.Qfloor [[6%Q]; [2%Q]] = Ok p /\
  verify_sblo valZ p = Ok tt /\ b_load p = [6; 2] /\ b_bounds p = [2; 3].
Proof. eexists. split; [reflexivity|]. repeat split; reflexivity. Qed.
Example ex_sblo_applies : forall q, (0 <= q)%Q -> (0 <= v_toQ valZ (Qround.Qfloor q))%Q.
Proof. intros q H. cbn. change 0%Q with (inject_Z 0). rewrite <- Zle_Qle. change 0 with (Qround.Qfloor 0). apply Qround.Qfloor_resp_le. exact H. Qed.

Example ex_sblo_costs : exists p cf c, to_sblo no_pow (centre [here]) (fun z => z) Qround.Qfloor [[6%Q]; [2%Q]] = Ok p /\
  nth_error (b_cost p) 1 = Some cf /\ call_certain cf 2 (1 # 2) = Ok c /\ is_fin (c_cost c).
Proof. eexists. eexists. eexists. split; [reflexivity|]. split; [reflexivity|]. split; [vm_compute; reflexivity|exact I]. Qed.
Example ex_sco : exists q, to_sco no_pow (centre [here]) valZ (fun z => z) guess [[6%Q]; [2%Q]] = Ok q /\ verify_sco q = Ok tt /\ o_bounds q = [(0, 2); (0, 3)].
Proof. eexists. split; [reflexivity|]. split; reflexivity. Qed.

(** The average cost leaves out the last slot and counts slot 0: at prices 1, 2, 3 in the slots
    0, 1, 2 the average over two slots is 3/2 instead of 5/2 (times the consumption 3). *)
Theorem average_slots_refuted :
  exists (m : data_center) l price st p c, dc_cost m = ELinear [(lo_key l, price)] /\
    consumption no_pow (dc_consumption m) (dc_delta m) st 1 = Ok p /\
    average_cost no_pow m l 2 st = Ok c /\
    ~ (c == (price 1%Z + price 2%Z) / 2 * p)%Q.
Proof.
  exists (mkDataCenter 1 [here] [fast] [client] [job] (CLinear [("fast"%string, (1, 3)%Q)]) (ELinear [("here"%string, fun t => inject_Z (t + 1))]) [] []), here, (fun t => inject_Z (t + 1)), fast.
  eexists. eexists. split; [reflexivity|]. split; [reflexivity|]. split; [reflexivity|]. intros H. vm_compute in H. discriminate H.
Qed.
Print Assumptions average_slots_refuted.

Example ex_slo : exists p h, to_slo no_pow (centre [here]) (fun z => z) Qround.Qfloor [[6%Q]; [2%Q]] = Ok p /\ l_bounds p = [2; 3] /\ l_load p = [6; 2] /\ l_hitting p = h /\ List.length h = 2%nat.
Proof. eexists. eexists. split; [reflexivity|]. repeat split; reflexivity. Qed.

(** ** The objective *)
Definition flat (locations : list location) : data_center :=
  let m := centre locations in
  mkDataCenter (dc_delta m) (dc_locations m) (dc_server_types m) (dc_sources m) (dc_job_types m) (dc_consumption m)
    (ELinear [("here"%string, fun _ => 2%Q); ("there"%string, fun _ => 3%Q)]) (dc_revenue m) (dc_switching m).
Definition flat_price (l : location) (t : Z) : Q := if String.eqb (lo_key l) "here" then 2%Q else 3%Q.
Definition flat_power (st : server_type) (s : Q) : Q :=
  if String.eqb (st_key st) "fast" then (1 * ((3 - 1) * s + 1))%Q else (1 * ((2 - 1) * s + 1))%Q.

Lemma flat_described : described no_pow (flat [here; there]) flat_price flat_power (fun _ => (1, 1 # 2)%Q).
Proof.
  constructor.
  - reflexivity.
  - eexists. split; [reflexivity|]. intros l [<-|[<-|[]]]; reflexivity.
  - intros l t [<-|[<-|[]]]; reflexivity.
  - intros st s [<-|[<-|[]]]; reflexivity.
  - intros jt [<-|[]]. reflexivity.
  - intros st [<-|[<-|[]]]; discriminate.
  - intros st jt [<-|[<-|[]]] [<-|[]]; discriminate.
Qed.

(** Six jobs, a third on the two fast servers here, none on the slow ones here (one of them is
    active), the rest on the three slow servers there. *)
Definition third : fractions := mkFractions [1 # 3; 0; 0]%Q 4 1.
Definition third_loads (k : nat) : list Q :=
  match select_loads third [6%Q] k with Ok l => l | _ => [] end.

Example ex_objective_applies : exists o,
  dc_objective_of no_pow (flat [here; there]) valZ 1 [2; 1; 0; 3] [6%Q] third = Ok o /\ exists e r, o = ROk (Fin e, Fin r) /\
   (e == 2 * (2 * (1 + 2 * (1 # 4)) + 1) + 3 * (3 * (1 + (2 # 3))))%Q.
Proof.
  destruct (objective_finite_iff_supported no_pow (flat [here; there]) flat_price flat_power (fun _ => (1, 1 # 2)%Q) Z valZ 1 [2; 1; 0; 3] [6%Q] third third_loads) as (o & EO & HS & _).
  - exact flat_described.
  - reflexivity.
  - repeat constructor; discriminate.
  - intros k Hk. destruct k as [|[|[|[|k]]]]; [| | | |exfalso; change (S (S (S (S k))) < 4)%nat in Hk; lia]; (split; [reflexivity|split; [reflexivity|]]); repeat constructor; vm_compute; discriminate.
  - exists o. split; [exact EO|]. destruct HS as (e & r & HO & HE & HR).
    + intros j k st Hj Hk. destruct j as [|[|j]]; [| |exfalso; change (S (S j) < 2)%nat in Hj; lia]; (destruct k as [|[|k]]; [| |destruct k; discriminate Hk]); cbn in Hk; injection Hk as <-.
      * right. repeat split; vm_compute; congruence.
      * left. reflexivity.
      * left. reflexivity.
      * right. repeat split; vm_compute; congruence.
    + exists e, r. split; [exact HO|]. rewrite HE. vm_compute. reflexivity.
Qed.

(** The same load without the slow servers there is not supported. *)
Example ex_objective_unsupported :
  exists f, dc_objective_of no_pow (flat [here; there]) valZ 1 [2; 1; 0; 0] [6%Q] third = Ok (RErr f).
Proof. eexists. vm_compute. reflexivity. Qed.
