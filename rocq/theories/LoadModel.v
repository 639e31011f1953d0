(** Model of src/model/data_center/loads.rs, of the outputs and objectives in
    src/model/data_center/mod.rs, of SLO and SBLO (src/problem.rs:352-476) and of their
    conversions (src/convert.rs:221-277).  No proofs. *)
From Verif Require Export CostModel.
Local Open Scope Z_scope.

(** ** src/model/data_center/mod.rs *)

(** data_center/mod.rs:68-83 -- [DataCenterModelOutputFailure]; the name of the server
    type is dropped. *)
Inductive dc_failure : Type :=
| DemandExceedingSupply
| InfiniteDelay (number_of_jobs mean_job_duration : Q)
| LoadToInactiveServer
| OutsideDecisionSpace
| SLOMaxUtilizationExceeded.

(** data_center/mod.rs:14-28 -- [DataCenterModelOutputSuccess]. *)
Record dc_success : Type := mkDCS {
  ds_energy : ext;
  ds_revenue : ext;
  ds_assign : list (list (list Q))
}.

(** data_center/mod.rs:30-37 -- [horizontal_merge]. *)
Definition dc_hmerge (a b : dc_success) : dc_success :=
  mkDCS (eadd (ds_energy a) (ds_energy b)) (eadd (ds_revenue a) (ds_revenue b))
        (ds_assign a ++ ds_assign b).

(** data_center/mod.rs:40-50 -- [vertical_merge]: both must describe a single slot. *)
Definition dc_vmerge (a b : dc_success) : outcome dc_success :=
  match ds_assign a, ds_assign b with
  | [u], [w] =>
      Ok (mkDCS (escale (1 # 2) (eadd (ds_energy a) (ds_energy b)))
                (escale (1 # 2) (eadd (ds_revenue a) (ds_revenue b))) [u ++ w])
  | _, _ => Panic
  end.

(** data_center/mod.rs:134-137 -- [Result<_, DataCenterModelOutputFailure>]. *)
Inductive result (A : Type) : Type :=
| ROk (a : A)
| RErr (f : dc_failure).
Arguments ROk {A} a.
Arguments RErr {A} f.

(** The [?] operator on such results (which may also panic). *)
Definition rbind {A B} (m : outcome (result A)) (k : A -> outcome (result B)) : outcome (result B) :=
  do r <- m; match r with ROk a => k a | RErr f => Ok (RErr f) end.

(** data_center/mod.rs:101-142 -- [DataCenterObjective]: energy cost and revenue loss. *)
Definition dc_objective : Type := (ext * ext)%type.
Definition obj_add (a b : dc_objective) : dc_objective :=
  (eadd (fst a) (fst b), eadd (snd a) (snd b)).
Definition obj_total (a : dc_objective) : ext := eadd (fst a) (snd a).
(** data_center/mod.rs:115-121 -- [DataCenterObjective::failure]. *)
Definition obj_failure : dc_objective := (Inf, Inf).

(** [Iterator::sum::<Result<..>>]: stops at the first error; the elements are summed in
    order starting with the first one (the default if there is none). *)
Fixpoint sum_results {A} (add : A -> A -> A) (l : list (outcome (result A))) (acc : A)
    : outcome (result A) :=
  match l with
  | [] => Ok (ROk acc)
  | m :: r => rbind m (fun a => sum_results add r (add acc a))
  end.
Definition sum_first {A} (add : A -> A -> A) (zero : A) (l : list (outcome (result A)))
    : outcome (result A) :=
  match l with
  | [] => Ok (ROk zero)
  | m :: r => rbind m (fun a => sum_results add r a)
  end.

(** data_center/mod.rs:150-163 -- [safe_balancing]. *)
Definition safe_balancing (x total_load : Q) (f : outcome (result ext)) : outcome (result ext) :=
  if Qltb 0 x then f
  else if Qltb 0 total_load then Ok (RErr LoadToInactiveServer)
  else if Qeq_bool total_load 0 then Ok (ROk (Fin 0)) else Panic.

(** ** src/model/data_center/loads.rs.  A load profile is a vector of rationals. *)

(** loads.rs:64-66 -- [total]. *)
Definition load_total (lambda : list Q) : Q := Qsum lambda.

(** loads.rs:321-331 -- [LoadFractions]. *)
Record fractions : Type := mkFractions { f_zs : list Q; f_d : nat; f_e : nat }.

(** loads.rs:333-355 -- [get]; indexing panics when out of range. *)
Definition get_fraction (z : fractions) (k i : nat) (lambda : list Q) : outcome Q :=
  match f_d z with
  | O => Panic
  | S d' =>
      match Nat.compare k d' with
      | Lt => from_option (nth_error (f_zs z) (k * f_e z + i))
      | Eq =>
          if Qltb 0 (load_total lambda) then
            do li <- from_option (nth_error lambda i);
            do js <- omap (fun j => from_option (nth_error (f_zs z) (j * f_e z + i))) (seq 0 k);
            Ok (li / load_total lambda - Qsum js)%Q
          else Ok 0%Q
      | Gt => Panic
      end
  end.

(** loads.rs:357-363 -- [select_loads]. *)
Definition select_loads (z : fractions) (lambda : list Q) (k : nat) : outcome (list Q) :=
  omap (fun i => do li <- from_option (nth_error lambda i);
                 do g <- get_fraction z k i lambda; Ok (li * g)%Q)
       (seq 0 (f_e z)).

(** loads.rs:365-373 -- [LoadFractions::new]. *)
Definition new_fractions (zs : list Q) (d e : nat) : fractions :=
  mkFractions (map apply_precision zs) d e.

(** What the objective of a model looks like (t, x, lambda, zs). *)
Definition objective_fn (T : Type) : Type :=
  Z -> list T -> list Q -> fractions -> outcome (result dc_objective).

Section ApplyLoads.
  Context {T : Type}.
  Variable v : value T.
  (** The numerical solver (src/numerics/convex_optimization.rs, NLopt), an oracle: given
      the objective, the bounds, the initial guess and the constraints it answers the
      minimiser and the value it found; [None] models its [unwrap] panicking. *)
  Variable minimize :
    (list Q -> outcome ext) -> list (Q * Q) -> list Q -> list (list Q -> outcome Q) -> option (list Q * ext).

  (** loads.rs:535-555 -- the initial guess; [split_last().unwrap()] is only reached with
      a non-empty configuration. *)
  Definition initial_guess (e solver_d : nat) (x : list T) : list Q :=
    let n := length (filter (fun j => Qltb 0 (v_toQ v j)) x) in
    if (n =? 0)%nat
    then repeat (1 / (inject_Z (Z.of_nat solver_d) + inject_Z (Z.of_nat e)))%Q solver_d
    else flat_map (fun j => repeat (if Qeq_bool (v_toQ v j) 0 then 0%Q
                                    else (1 / (inject_Z (Z.of_nat n) * inject_Z (Z.of_nat e)))%Q) e)
                  (removelast x).

  (** loads.rs:486-604 -- [apply_loads].  The length of the initial guess is asserted by
      the solver (convex_optimization.rs:127). *)
  Definition apply_loads (d e : nat) (objective : objective_fn T) (lambda : list Q) (t : Z)
      (x : list T) : outcome (cost dc_success dc_failure) :=
    if negb (e =? length lambda)%nat then Panic else
    if (d * e <? e)%nat then Panic else
    let solver_d := (d * e - e)%nat in
    let init := initial_guess e solver_d x in
    if negb (length init =? solver_d)%nat then Panic else
    do r <- from_option (minimize
      (fun zs => do o <- objective t x lambda (new_fractions zs d e);
                 Ok (obj_total (match o with ROk c => c | RErr _ => obj_failure end)))
      (repeat (0, 1)%Q solver_d) init
      (map (fun i zs => do g <- get_fraction (new_fractions zs d e) (d - 1) i lambda; Ok (- g)%Q)
           (seq 0 e)));
    do o <- objective t x lambda (new_fractions (fst r) d e);
    match o with
    | ROk c =>
        if eleb (snd r) (obj_total c) && eleb (obj_total c) (snd r)
        then Ok (mkCost (snd r) (MSuccess (mkDCS (fst c) (snd c) [[fst r]])))
        else Panic
    | RErr f => Ok (mkCost (snd r) (MFailure f))
    end.

  (** loads.rs:389-427 -- [apply_loads_over_time]; utils.rs:87-90 ([unshift_time]) is inlined. *)
  Definition apply_loads_over_time (d e : nat) (objective : objective_fn T)
      (loads : list (list Q)) (t_start : Z) : cost_fn (list T) dc_success dc_failure :=
    cf_new t_start (certain (fun t x =>
      do lambda <- from_option (access loads (t - t_start + 1));
      apply_loads d e objective lambda t x)).

  (** loads.rs:216-231 -- sample sizes; [min().unwrap()] panics without job types. *)
  Definition smallest_sample_size (l : list (list Q)) : option nat :=
    match map (@length Q) l with [] => None | a :: r => Some (fold_left Nat.min r a) end.
  Definition largest_sample_size (l : list (list Q)) : option nat :=
    match map (@length Q) l with [] => None | a :: r => Some (fold_left Nat.max r a) end.
  (** loads.rs:35 *)
  Definition max_sample_size : nat := Z.to_nat 100.

  (** [choose_multiple]: an oracle choosing [n] of the samples of a job type. *)
  Variable choose_multiple : nat -> list Q -> nat -> list Q.

  (** loads.rs:246-266 -- [sample_load_profiles] (as written: one profile per job type). *)
  Definition sample_load_profiles (l : list (list Q)) : outcome (list (list Q)) :=
    do smallest <- from_option (smallest_sample_size l);
    do largest <- from_option (largest_sample_size l);
    let sample_size := Nat.min (Nat.max smallest max_sample_size) largest in
    omap (fun izs => if (sample_size <=? length (snd izs))%nat
                     then Ok (choose_multiple (fst izs) (snd izs) sample_size) else Panic)
         (combine (seq 0 (length l)) l).

  (** loads.rs:437-468 -- [apply_predicted_loads]; the parallel map keeps the order. *)
  Definition apply_predicted_loads (d e : nat) (objective : objective_fn T)
      (predicted : list (list (list Q))) (t_start : Z) : single_fn (list T) dc_success dc_failure :=
    fun t x =>
      do profile <- from_option (access predicted (t - t_start + 1));
      do samples <- sample_load_profiles profile;
      omap (fun lambda => apply_loads d e objective lambda t x) samples.
End ApplyLoads.

(** loads.rs:76-79 -- [into_predicted_load_profile]. *)
Definition into_predicted (lambda : list Q) : list (list Q) := map (fun z => [z]) lambda.

(** ** SBLO and SLO (src/problem.rs) *)

(** src/problem.rs:352-375 -- [SmoothedBalancedLoadOptimization]. *)
Record gsblo (T : Type) : Type := mkGSBLO {
  b_d : Z;
  b_tend : Z;
  b_bounds : list T;
  b_switching : list Q;
  b_cost : list (cost_fn Q unit dc_failure);
  b_load : list T
}.
Arguments mkGSBLO {T} b_d b_tend b_bounds b_switching b_cost b_load.
Arguments b_d {T} g.
Arguments b_tend {T} g.
Arguments b_bounds {T} g.
Arguments b_switching {T} g.
Arguments b_cost {T} g.
Arguments b_load {T} g.

(** src/problem.rs:427-443 -- [SmoothedLoadOptimization]. *)
Record gslo (T : Type) : Type := mkGSLO {
  l_d : Z;
  l_tend : Z;
  l_bounds : list T;
  l_switching : list Q;
  l_hitting : list Q;
  l_load : list T
}.
Arguments mkGSLO {T} l_d l_tend l_bounds l_switching l_hitting l_load.
Arguments l_d {T} g.
Arguments l_tend {T} g.
Arguments l_bounds {T} g.
Arguments l_switching {T} g.
Arguments l_hitting {T} g.
Arguments l_load {T} g.

Section LoadProblems.
  Context {T : Type}.
  Variable v : value T.
  Variable minimize :
    (list Q -> outcome ext) -> list (Q * Q) -> list Q -> list (list Q -> outcome Q) -> option (list Q * ext).

  (** [unit] values: [FailableCost]; vertical merge of nothing. *)
  Definition unit_vmerge (_ _ : unit) : outcome unit := Ok tt.

  (** src/problem.rs:391-411 -- the closure of [hit_cost] of SBLO; [k] are the dimensions.
      The product with [x > 0] of an infinite cost is infinite. *)
  Definition sblo_objective (p : gsblo T) : objective_fn T :=
    fun t x lambda zs =>
      if negb (b_d p =? Z.of_nat (length x)) then Panic else
      sum_first obj_add (Fin 0, Fin 0)
        (map (fun k =>
           do loads <- select_loads zs lambda k;
           do total_load <- from_option (nth_error loads 0);
           do xk <- from_option (nth_error x k);
           rbind (safe_balancing (v_toQ v xk) total_load
                    (do f <- from_option (nth_error (b_cost p) k);
                     do c <- call_mean unit_vmerge f t (total_load / v_toQ v xk)%Q;
                     Ok (ROk (escale (v_toQ v xk) (c_cost c)))))
                 (fun e => Ok (ROk (e, Fin 0))))
           (seq 0 (Z.to_nat (b_d p)))).

  (** src/problem.rs:377-413 -- [hit_cost] of SBLO. *)
  Definition sblo_hit (p : gsblo T) (t : Z) (x : list T) : outcome (cost dc_success dc_failure) :=
    call_certain_within OutsideDecisionSpace (within_upper v (b_bounds p) x)
      (apply_loads_over_time v minimize (Z.to_nat (b_d p)) 1 (sblo_objective p)
         (map (fun l => [v_toQ v l]) (b_load p)) 1) t x.

  (** src/problem.rs:415-417 -- [movement] of SBLO (and 472-474 of SLO). *)
  Definition sblo_problem (p : gsblo T) : oproblem (list T) dc_success dc_failure :=
    mkOProblem (b_tend p) (sblo_hit p)
      (fun prev_x x inverted => scaled_movement_o (v_toQ v) (b_switching p) x prev_x inverted).

  (** src/config.rs:62-65 -- [total]. *)
  Definition config_total (x : list T) : Q := Qsum (map (v_toQ v) x).

  (** src/problem.rs:450-470 -- [hit_cost] of SLO. *)
  Definition slo_hit (p : gslo T) (t : Z) (x : list T) : outcome (cost unit dc_failure) :=
    do l <- from_option (access (l_load p) t);
    if Qltb (config_total x) (v_toQ v l) then Ok (mkCost Inf (MFailure DemandExceedingSupply))
    else
      do cs <- omap (fun k => do xk <- from_option (nth_error x k);
                              do c <- from_option (nth_error (l_hitting p) k);
                              Ok (c * v_toQ v xk)%Q)
                    (seq 0 (Z.to_nat (l_d p)));
      Ok (mkCost (Fin (Qsum cs)) (MSuccess tt)).

  Definition slo_problem (p : gslo T) : oproblem (list T) unit dc_failure :=
    mkOProblem (l_tend p) (slo_hit p)
      (fun prev_x x inverted => scaled_movement_o (v_toQ v) (l_switching p) x prev_x inverted).

  (** src/convert.rs:252-277 -- [into_sblo]. *)
  Definition into_sblo (p : gslo T) : gsblo T :=
    mkGSBLO (l_d p) (l_tend p) (l_bounds p) (l_switching p)
      (map (fun c => cf_new 1 (certain (fun _ l =>
              Ok (if Qle_bool l 1 then mkCost (Fin c) (MSuccess tt)
                  else mkCost Inf (MFailure SLOMaxUtilizationExceeded)))))
           (l_hitting p))
      (l_load p).

  (** src/convert.rs:221-244 -- [into_ssco]. *)
  Definition into_ssco (p : gsblo T) : gssco T dc_success dc_failure :=
    mkGSSCO (b_d p) (b_tend p) (b_bounds p) (b_switching p)
      (cf_new 1 (certain (fun t x => sblo_hit p t x))).
End LoadProblems.
