(** Specification used by the theorems about the data-centre model. *)
From Coq Require Import Permutation Sorted.
From Verif Require Export DataCenterModel VerifySpec.
From Verif Require Export CostModel.
Local Open Scope Z_scope.

(** ** Energy with quotas *)

(** [amounts] serve the demand [p] from sources with the given limits, in order: nothing is drawn
    from a source before the ones in front of it are exhausted, and as much as possible of the
    demand is served. *)
Definition served_in_order (p : ext) (limits amounts : list Q) : Prop :=
  length amounts = length limits /\
  Forall2 (fun a l => 0 <= a <= l)%Q amounts limits /\
  (forall i j li ai aj, (i < j)%nat -> nth_error limits i = Some li -> nth_error amounts i = Some ai ->
     nth_error amounts j = Some aj -> (0 < aj)%Q -> (ai == li)%Q) /\
  eeq (Fin (Qsum amounts)) (match p with Fin x => Fin (Qmin x (Qsum limits)) | Inf => Fin (Qsum limits) end).

(** The documented cost: unit cost times the energy drawn, minus the profit of what is left. *)
Fixpoint documented_cost (t : Z) (l : location) (sources : list energy_source) (amounts : list Q) : Q :=
  match sources, amounts with
  | s :: r, a :: ar => (es_cost s t * a - es_profit s t * (es_limit s t l - a) + documented_cost t l r ar)%Q
  | _, _ => 0%Q
  end.
(** What the code adds up instead: unit cost plus the energy drawn. *)
Fixpoint actual_cost (t : Z) (l : location) (sources : list energy_source) (amounts : list Q) : Q :=
  match sources, amounts with
  | s :: r, a :: ar => (es_cost s t + a - es_profit s t * (es_limit s t l - a) + actual_cost t l r ar)%Q
  | _, _ => 0%Q
  end.

Definition cheapest_first (t : Z) (sources : list energy_source) : Prop :=
  StronglySorted (fun a b => es_cost a t + es_profit a t <= es_cost b t + es_profit b t)%Q sources.

(** ** Outputs *)
Definition esum (l : list ext) : ext := fold_right eadd (Fin 0) l.

(** An output for a single slot. *)
Definition single_slot (s : dc_success) : Prop := length (ds_assign s) = 1%nat.

(** ** The objective *)

(** The work of the jobs [loads] on servers of type [st]: the [i]-th load is of job type
    [i] modulo the number of job types. *)
Definition work (m : data_center) (st : server_type) (loads : list Q) : Q :=
  Qsum (map (fun il => match nth_error (dc_job_types m) (Nat.modulo (fst il) (length (dc_job_types m))) with
                       | Some jt => jt_processing_time_on jt st * snd il
                       | None => 0 end)%Q
            (combine (seq 0 (length loads)) loads)).

(** Servers of one type at one location can process [loads] in a slot of length [delta]. *)
Definition supported (m : data_center) (st : server_type) (x : Q) (loads : list Q) : Prop :=
  (Qsum loads == 0)%Q \/
  ((0 < x)%Q /\ (work m st loads <= st_max_utilization st * (x * dc_delta m))%Q /\ (work m st loads < x * dc_delta m)%Q).

(** Everything [m] refers to by name exists; [price], [power] and [revenue] are what is found. *)
Record described (powf : Q -> Q -> Q) (m : data_center) (price : location -> Z -> Q) (power : server_type -> Q -> Q)
    (revenue : job_type -> Q * Q) : Prop := mkDescribed {
  ds_slot : (0 < dc_delta m)%Q;
  ds_price : exists models, dc_cost m = ELinear models /\
    forall l, In l (dc_locations m) -> lookup models (lo_key l) = Ok (price l);
  ds_price_positive : forall l t, In l (dc_locations m) -> (0 < price l t)%Q;
  ds_power : forall st s, In st (dc_server_types m) -> consumption powf (dc_consumption m) (dc_delta m) st s = Ok (power st s);
  ds_loss : forall jt, In jt (dc_job_types m) -> lookup (dc_revenue m) (jt_key jt) = Ok (revenue jt);
  ds_utilization : forall st, In st (dc_server_types m) -> (0 <= st_max_utilization st)%Q;
  ds_time : forall st jt, In st (dc_server_types m) -> In jt (dc_job_types m) -> (0 <= jt_processing_time_on jt st)%Q
}.

(** Energy used by the servers of type [st]: nothing if none is active, otherwise their number
    times the consumption of one at the common utilisation. *)
Definition type_energy (m : data_center) (power : server_type -> Q -> Q) (st : server_type) (x : Q) (loads : list Q) : Q :=
  if Qle_bool x 0 then 0%Q else (x * power st (work m st loads / (x * dc_delta m)))%Q.

(** Delay of a job on one of [x] servers sharing [loads]. *)
Definition sharing_delay (m : data_center) (st : server_type) (x : Q) (loads : list Q) : Q :=
  if Qle_bool (work m st loads) 0 then 0%Q
  else (1 / (1 / (work m st loads / Qsum loads) - Qsum loads / x / dc_delta m))%Q.

(** Revenue lost on the servers of type [st]: over all sources and job types, the jobs times the
    loss factor times the delay beyond the detectable one. *)
Definition type_revenue (m : data_center) (revenue : job_type -> Q * Q) (t : Z) (l : location) (st : server_type) (x : Q)
    (loads : list Q) : Q :=
  if Qle_bool x 0 then 0%Q else
  Qsum (map (fun s => Qsum (map (fun i =>
    match nth_error (dc_sources m) s, nth_error (dc_job_types m) i, nth_error loads (s * length (dc_job_types m) + i) with
    | Some so, Some jt, Some load =>
        load * (fst (revenue jt) * qpos (sharing_delay m st x loads + so_routing_delay_to so t l + jt_processing_time_on jt st - snd (revenue jt)))
    | _, _, _ => 0
    end)%Q (seq 0 (length (dc_job_types m))))) (seq 0 (length (dc_sources m)))).

(** Sums over all locations and server types; [f j k l st] gets the indices and what they denote. *)
Definition over_types (m : data_center) (f : nat -> nat -> location -> server_type -> Q) (j : nat) : Q :=
  Qsum (map (fun k => match nth_error (dc_locations m) j, nth_error (dc_server_types m) k with
                      | Some l, Some st => f j k l st
                      | _, _ => 0%Q end) (seq 0 (length (dc_server_types m)))).
Definition over_locations (m : data_center) (f : nat -> location -> Q) : Q :=
  Qsum (map (fun j => match nth_error (dc_locations m) j with Some l => f j l | None => 0%Q end) (seq 0 (length (dc_locations m)))).

(** ** Instances *)

(** Capacities and switching costs are positive. *)
Definition positive_capacities (m : data_center) : Prop := forall l st c,
  In l (dc_locations m) -> In st (dc_server_types m) -> lookup (lo_m l) (st_key st) = Ok c -> 0 < c.
Definition positive_switching (m : data_center) : Prop := forall st c,
  In st (dc_server_types m) -> lookup (dc_switching m) (st_key st) = Ok c -> (0 < switching_cost_of c)%Q.
