(** Model of src/model/data_center/model.rs and src/model/data_center/models/.  No proofs.

    Simplifications: names are strings and hash maps are association lists; the closures given
    by the user are total functions; products that would be NaN or minus infinity panic. *)
From Coq Require String.
From Verif Require Export ConvertModel VerifyModel.
From Verif Require Export CostModel.
Local Open Scope Z_scope.

(** Indexing a hash map: [map[&key]]. *)
Definition lookup {A} (m : list (String.string * A)) (key : String.string) : outcome A :=
  from_option (option_map snd (find (fun kv => String.eqb (fst kv) key) m)).

(** model.rs:38-47 -- [ServerType]. *)
Record server_type : Type := mkServer { st_key : String.string; st_max_utilization : Q }.
(** model.rs:57-65 -- [limit_utilization]. *)
Definition limit_utilization (st : server_type) (s : Q) (f : outcome ext) : outcome ext :=
  if Qle_bool s (st_max_utilization st) then f else Ok Inf.

(** model.rs:77-86 -- [JobType]. *)
Record job_type : Type := mkJob { jt_key : String.string; jt_processing_time_on : server_type -> Q }.

(** model.rs:213-223 -- [Location]. *)
Record location : Type := mkLocation { lo_key : String.string; lo_m : list (String.string * Z) }.

(** model.rs:150-164 -- [Source]. *)
Record source : Type := mkSource { so_key : String.string; so_routing_delay_to : Z -> location -> Q }.

(** ** models/delay.rs *)

(** delay.rs:10-26 -- [average_delay]; dividing by zero gives infinity. *)
Definition average_delay (delta number_of_jobs mean_job_duration : Q) : ext :=
  if Qltb 0 number_of_jobs && Qltb 0 mean_job_duration then
    if Qeq_bool delta 0 then Inf else
    let service_rate := (1 / mean_job_duration)%Q in
    let arrival_rate := (number_of_jobs / delta)%Q in
    if Qltb arrival_rate service_rate then Fin (1 / (service_rate - arrival_rate))%Q else Inf
  else Fin 0.

(** ** models/energy_consumption.rs *)

(** energy_consumption.rs:8-18, 20-76 -- [EnergyConsumptionModel]. *)
Inductive consumption_model : Type :=
| CLinear (models : list (String.string * (Q * Q)))           (* phi_min, phi_max *)
| CSimplified (models : list (String.string * Q))             (* phi_max *)
| CNonLinear (models : list (String.string * (Q * Q * Q))).   (* phi_min, alpha, beta *)

Section Consumption.
  (** [f64::powf], an oracle. *)
  Variable powf : Q -> Q -> Q.

  (** energy_consumption.rs:81-107 -- [consumption]. *)
  Definition consumption (m : consumption_model) (delta : Q) (st : server_type) (s : Q) : outcome Q :=
    match m with
    | CLinear models =>
        do p <- lookup models (st_key st);
        Ok (delta * ((snd p - fst p) * s + fst p))%Q
    | CSimplified models =>
        do phi_max <- lookup models (st_key st);
        Ok (delta * (phi_max * (1 + s) / 2))%Q
    | CNonLinear models =>
        do p <- lookup models (st_key st);
        Ok (delta * (powf s (snd (fst p)) / snd p + fst (fst p)))%Q
    end.
End Consumption.

(** ** models/energy_cost.rs *)

(** energy_cost.rs:11-33 -- [EnergySource]. *)
Record energy_source : Type := mkEnergy {
  es_cost : Z -> Q;
  es_profit : Z -> Q;
  es_limit : Z -> location -> Q
}.
(** energy_cost.rs:72-80 -- [EnergyCostModel]. *)
Inductive cost_model : Type :=
| ELinear (models : list (String.string * (Z -> Q)))
| EQuotas (models : list (String.string * list energy_source)).

(** A finite number times a number that may be infinite. *)
Definition emul (c : Q) (p : ext) : outcome ext :=
  match p with
  | Fin x => Ok (Fin (c * x)%Q)
  | Inf => if Qltb 0 c then Ok Inf else Panic
  end.

(** [sort_by], which is stable, by a rational key. *)
Fixpoint insert_by {A} (key : A -> Q) (x : A) (l : list A) : list A :=
  match l with
  | [] => [x]
  | y :: r => if Qle_bool (key x) (key y) then x :: l else y :: insert_by key x r
  end.
Definition sort_by {A} (key : A -> Q) (l : list A) : list A := fold_right (insert_by key) [] l.

(** energy_cost.rs:149-153 -- the key the sources are sorted by. *)
Definition unit_price (t : Z) (s : energy_source) : Q := (es_cost s t + es_profit s t)%Q.

(** energy_cost.rs:157-161 -- [delta], the energy drawn from a source and the unused energy of
    a source; [p] may be infinite. *)
Definition missing (p : ext) (cum_limit : Q) : ext := match p with Fin x => Fin (qpos (x - cum_limit)) | Inf => Inf end.
Definition drawn (delta : ext) (limit : Q) : Q := match delta with Fin x => Qmin x limit | Inf => limit end.
Definition unused (delta : ext) (limit : Q) : Q := match delta with Fin x => qpos (limit - x) | Inf => 0%Q end.

(** energy_cost.rs:155-164 -- the loop over the sources. *)
Fixpoint quotas_loop (t : Z) (l : location) (p : ext) (sources : list energy_source) (cum_limit result : Q) : Q :=
  match sources with
  | [] => result
  | s :: r =>
      let delta := missing p cum_limit in
      let limit := es_limit s t l in
      quotas_loop t l p r (cum_limit + limit)%Q
        (result + (es_cost s t + drawn delta limit - es_profit s t * unused delta limit))%Q
  end.

(** energy_cost.rs:139-167 -- [cost]. *)
Definition energy_model_cost (m : cost_model) (t : Z) (l : location) (p : ext) : outcome ext :=
  match m with
  | ELinear models => do c <- lookup models (lo_key l); emul (c t) p
  | EQuotas models =>
      do sources <- lookup models (lo_key l);
      Ok (Fin (quotas_loop t l p (sort_by (unit_price t) sources) 0 0))
  end.

(** ** models/revenue_loss.rs *)

(** revenue_loss.rs:9-42 -- [RevenueLossModel]: revenue loss factor and minimal detectable delay. *)
Definition revenue_model : Type := list (String.string * (Q * Q)).
(** revenue_loss.rs:47-54 -- [loss]. *)
Definition loss (m : revenue_model) (jt : job_type) (delay : Q) : outcome Q :=
  do p <- lookup m (jt_key jt);
  Ok (fst p * qpos (delay - snd p))%Q.

(** ** models/switching_cost.rs *)

(** switching_cost.rs:12-36 -- [SwitchingCost]. *)
Record switching_cost : Type := mkSwitching {
  sw_energy_cost : Q; sw_phi_min : Q; sw_phi_max : Q; sw_epsilon : Q; sw_delta : Q; sw_tau : Q; sw_rho : Q
}.
(** switching_cost.rs:38-46 -- [switching_cost]. *)
Definition switching_cost_of (c : switching_cost) : Q :=
  (sw_energy_cost c * (sw_epsilon c + sw_delta c * sw_phi_max c) + sw_tau c + sw_rho c)%Q.
(** switching_cost.rs:48-53 -- [normalized_switching_cost]; dividing by zero is not a number. *)
Definition normalized_switching_cost (c : switching_cost) (delta : Q) : outcome Q :=
  let q := (sw_energy_cost c * delta * sw_phi_min c)%Q in
  if Qeq_bool q 0 then Panic else Ok (switching_cost_of c / q)%Q.
(** switching_cost.rs:55-72 -- [from_normalized]. *)
Definition from_normalized (delta normalized energy_cost phi_min : Q) : switching_cost :=
  mkSwitching energy_cost phi_min 0 0 0 0 (normalized * energy_cost * delta * phi_min).
(** switching_cost.rs:129-135 -- [switching_costs]. *)
Definition switching_costs (m : list (String.string * switching_cost)) (server_types : list server_type) : outcome (list Q) :=
  omap (fun st => do c <- lookup m (st_key st); Ok (switching_cost_of c)) server_types.
(** switching_cost.rs:137-151 -- [normalized_switching_costs]. *)
Definition normalized_switching_costs (m : list (String.string * switching_cost)) (delta : Q) (server_types : list server_type)
    : outcome (list Q) :=
  omap (fun st => do c <- lookup m (st_key st); normalized_switching_cost c delta) server_types.

(** ** model.rs *)

(** model.rs:232-263 -- [DataCenterModel]. *)
Record data_center : Type := mkDataCenter {
  dc_delta : Q;
  dc_locations : list location;
  dc_server_types : list server_type;
  dc_sources : list source;
  dc_job_types : list job_type;
  dc_consumption : consumption_model;
  dc_cost : cost_model;
  dc_revenue : revenue_model;
  dc_switching : list (String.string * switching_cost)
}.

(** model.rs:538-545 -- [d_] and [e_]. *)
Definition dc_d (m : data_center) : nat := (length (dc_locations m) * length (dc_server_types m))%nat.
Definition dc_e (m : data_center) : nat := (length (dc_sources m) * length (dc_job_types m))%nat.

Section DataCenter.
  Variable powf : Q -> Q -> Q.
  Variable m : data_center.

  (** model.rs:296-314 -- [total_sub_jobs]. *)
  Definition total_sub_jobs (st : server_type) (loads : list Q) : outcome Q :=
    do l <- omap (fun il => do si <- parse (length (dc_job_types m)) (fst il);
                            do jt <- index (dc_job_types m) (snd si);
                            Ok (jt_processing_time_on jt st * snd il)%Q)
                 (combine (seq 0 (length loads)) loads);
    Ok (Qsum l).

  Context {T : Type}.
  Variable v : value T.

  (** model.rs:333-367 -- [energy_consumption]; a slot length of zero is not modelled. *)
  Definition energy_consumption (j : nat) (x_ : list T) (lambda : list Q) (zs : fractions) : outcome (result ext) :=
    sum_results eadd
      (map (fun k =>
         let k_ := encode (length (dc_server_types m)) j k in
         do st <- index (dc_server_types m) k;
         do loads <- select_loads zs lambda k_;
         do total_load <- total_sub_jobs st loads;
         do xk <- index x_ k_;
         let x := v_toQ v xk in
         safe_balancing x total_load
           (if Qeq_bool (dc_delta m) 0 then Panic else
            let s := (total_load / (x * dc_delta m))%Q in
            do c <- limit_utilization st s
                      (do c <- consumption powf (dc_consumption m) (dc_delta m) st s; Ok (Fin (x * c)%Q));
            Ok (ROk c)))
         (seq 0 (length (dc_server_types m))))
      (Fin 0).

  (** model.rs:316-331 -- [energy_cost]. *)
  Definition energy_cost (t : Z) (j : nat) (x : list T) (lambda : list Q) (zs : fractions) : outcome (result ext) :=
    rbind (energy_consumption j x lambda zs) (fun p =>
      do l <- index (dc_locations m) j;
      do c <- energy_model_cost (dc_cost m) t l p;
      Ok (ROk c)).

  (** model.rs:369-399 -- [revenue_loss]. *)
  Definition revenue_loss (t : Z) (l : location) (st : server_type) (so : source) (jt : job_type)
      (number_of_jobs mean_job_duration : Q) : outcome (result Q) :=
    match average_delay (dc_delta m) number_of_jobs mean_job_duration with
    | Inf => Ok (RErr (InfiniteDelay number_of_jobs mean_job_duration))
    | Fin d =>
        do r <- loss (dc_revenue m) jt (d + so_routing_delay_to so t l + jt_processing_time_on jt st)%Q;
        Ok (ROk r)
    end.

  (** model.rs:401-444 -- [overall_revenue_loss]. *)
  Definition overall_revenue_loss (t : Z) (l : location) (st : server_type) (x_ : T) (loads : list Q) : outcome (result ext) :=
    let x := v_toQ v x_ in
    do total_load <- total_sub_jobs st loads;
    let number_of_jobs := Qsum loads in
    let mean_job_duration := if Qeq_bool number_of_jobs 0 then 0%Q else (total_load / number_of_jobs)%Q in
    safe_balancing x number_of_jobs
      (sum_results eadd
         (map (fun s =>
            sum_results eadd
              (map (fun i =>
                 do so <- index (dc_sources m) s;
                 do jt <- index (dc_job_types m) i;
                 rbind (revenue_loss t l st so jt (number_of_jobs / x)%Q mean_job_duration) (fun r =>
                   do load <- index loads (encode (length (dc_job_types m)) s i);
                   Ok (ROk (Fin (r * load)%Q))))
                 (seq 0 (length (dc_job_types m))))
              (Fin 0))
            (seq 0 (length (dc_sources m))))
         (Fin 0)).

  (** model.rs:446-479 -- [objective]. *)
  Definition dc_objective_of : objective_fn T := fun t x lambda zs =>
    sum_first obj_add (Fin 0, Fin 0)
      (map (fun j =>
         rbind (energy_cost t j x lambda zs) (fun e =>
         rbind (sum_results eadd
                  (map (fun k =>
                     let k_ := encode (length (dc_server_types m)) j k in
                     do loads <- select_loads zs lambda k_;
                     do l <- index (dc_locations m) j;
                     do st <- index (dc_server_types m) k;
                     do xk <- index x k_;
                     overall_revenue_loss t l st xk loads)
                     (seq 0 (length (dc_server_types m))))
                  (Fin 0)) (fun r =>
         Ok (ROk (e, r)))))
         (seq 0 (length (dc_locations m)))).

  (** [NumCast::from] of an integer and of a load. *)
  Variable ofZ : Z -> T.
  Variable cast : Q -> T.
  (** The numerical solver, as in LoadModel. *)
  Variable minimize :
    (list Q -> outcome ext) -> list (Q * Q) -> list Q -> list (list Q -> outcome Q) -> option (list Q * ext).

  (** model.rs:547-559 -- [generate_bounds]. *)
  Definition generate_bounds : outcome (list T) :=
    omap (fun k_ =>
      do jk <- parse (length (dc_server_types m)) k_;
      do l <- index (dc_locations m) (fst jk);
      do st <- index (dc_server_types m) (snd jk);
      do b <- lookup (lo_m l) (st_key st);
      Ok (ofZ b)) (seq 0 (dc_d m)).

  (** model.rs:676-699 -- [to] for SSCO. *)
  Definition to_ssco (loads : list (list Q)) : outcome (gssco T dc_success dc_failure) :=
    do bounds <- generate_bounds;
    do switching <- switching_costs (dc_switching m) (dc_server_types m);
    Ok (mkGSSCO (Z.of_nat (dc_d m)) (Z.of_nat (length loads)) bounds switching
          (apply_loads_over_time v minimize (dc_d m) (dc_e m) dc_objective_of loads 1)).

  (** model.rs:619-635 -- [to] for SCO. *)
  Definition to_sco (loads : list (list Q)) : outcome (gsco T dc_success dc_failure) :=
    do p <- to_ssco loads; Ok (into_sco v dc_vmerge OutsideDecisionSpace p).

  (** model.rs:742-747, 838-843 -- the assertions of [to] for SBLO and SLO. *)
  Definition single_setting : outcome location :=
    match dc_locations m, dc_sources m, dc_job_types m with
    | [l], [_], [_] => Ok l
    | _, _, _ => Panic
    end.

  (** model.rs:781-784, 871-874 -- the loads of [to] for SBLO and SLO. *)
  Definition single_loads (loads : list (list Q)) : outcome (list T) :=
    omap (fun lambda => do l <- index lambda 0; Ok (cast l)) loads.

  (** model.rs:756-779 -- the cost of one server of a type with load [s]. *)
  Definition server_cost (l : location) (st : server_type) (t : Z) (s : Q) : outcome (cost unit dc_failure) :=
    do p <- limit_utilization st s
              (do p <- consumption powf (dc_consumption m) (dc_delta m) st s; Ok (Fin p));
    do c <- energy_model_cost (dc_cost m) t l p;
    Ok (mkCost c (MSuccess tt)).

  (** model.rs:735-794 -- [to] for SBLO. *)
  Definition to_sblo (loads : list (list Q)) : outcome (gsblo T) :=
    do l <- single_setting;
    do bounds <- generate_bounds;
    do switching <- switching_costs (dc_switching m) (dc_server_types m);
    do load <- single_loads loads;
    Ok (mkGSBLO (Z.of_nat (dc_d m)) (Z.of_nat (length loads)) bounds switching
          (map (fun st => cf_new 1 (certain (server_cost l st))) (dc_server_types m)) load).

  (** model.rs:851-869 -- the cost of one server of a type at full utilisation, averaged. *)
  Definition average_cost (l : location) (t_end : nat) (st : server_type) : outcome Q :=
    do p <- consumption powf (dc_consumption m) (dc_delta m) st 1%Q;
    let at_ t := do c <- energy_model_cost (dc_cost m) t l (Fin p);
                 match c with Fin q => Ok q | Inf => Panic end in
    if (0 <? t_end)%nat then
      do cs <- omap (fun t => at_ (Z.of_nat t)) (seq 0 t_end);
      Ok (Qsum cs / inject_Z (Z.of_nat t_end))%Q
    else at_ 1.

  (** model.rs:830-881 -- [to] for SLO. *)
  Definition to_slo (loads : list (list Q)) : outcome (gslo T) :=
    do l <- single_setting;
    do bounds <- generate_bounds;
    do switching <- switching_costs (dc_switching m) (dc_server_types m);
    do hitting <- omap (average_cost l (length loads)) (dc_server_types m);
    do load <- single_loads loads;
    Ok (mkGSLO (Z.of_nat (dc_d m)) (Z.of_nat (length loads)) bounds switching hitting load).
End DataCenter.
