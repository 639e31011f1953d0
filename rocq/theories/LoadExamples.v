(** Concrete cases for LoadProps.v and behaviours deviating from the expected ones. *)
From Coq Require Import Lia Lqa.
From Verif Require Import NumLemmas LoadModel LoadSpec CostSpec LoadObjective LoadProps.
From Verif Require Import ProblemModel.
Local Open Scope Z_scope.

Definition ex_slo : gslo Z := mkGSLO 2 2 [2; 3] [1; 2]%Q [2; 1]%Q [3; 0].

(** Load 3 on configuration [2; 3]: half of it on each type costs 2*2 + 1*3. *)
Example ex_assignment :
  distribution 2 [(1 # 2)%Q] /\
  objective_value (sblo_objective valZ (into_sblo ex_slo) 1 [2; 3] [3%Q] (mkFractions [(1 # 2)%Q] 2 1)) = Some (Fin 7).
Proof.
  split; [|vm_compute; reflexivity].
  split; [reflexivity|]. split; [repeat constructor; discriminate|]. cbn. lra.
Qed.

Example ex_into_sblo_applies :
  exists q', cost_number (slo_hit valZ ex_slo 1 [2; 3]) = Some (Fin q') /\ (7 == q')%Q.
Proof.
  destruct (into_sblo_keeps_hitting_cost Z valZ ex_slo 1 [2; 3] 3) as [_ H]; try reflexivity; try lia.
  - repeat constructor; cbn; discriminate.
  - discriminate.
  - destruct (H _ _ ex_assignment) as [_ H']. exact H'.
Qed.

(** A solver that always answers the initial guess and its value. *)
Definition guess_solver (f : list Q -> outcome ext) (_ : list (Q * Q)) (init : list Q)
    (_ : list (list Q -> outcome Q)) : option (list Q * ext) :=
  match f init with Ok e => Some (init, e) | _ => None end.

Example ex_sblo_cost :
  match sblo_hit valZ guess_solver (into_sblo ex_slo) 1 [2; 3] with
  | Ok c => eeq (c_cost c) (Fin 7) /\ exists s, c_out c = MSuccess s /\ ds_assign s = [[[(1 # 2)%Q]]]
  | _ => False
  end.
Proof. vm_compute. split; [reflexivity|]. eexists. split; reflexivity. Qed.

Example ex_conserved :
  exists assigned, omap (select_loads (mkFractions [(1#5); (3#5)]%Q 3 1) [10%Q]) (seq 0 3) = Ok assigned /\
    Forall2 (fun a b => Forall2 Qeq a b) assigned [[2%Q]; [6%Q]; [2%Q]].
Proof. eexists. split; [vm_compute; reflexivity|]. repeat constructor. Qed.

(** Two job types of load 1 each: only half of each load is assigned. *)
Theorem load_conservation_refuted :
  exists zs lambda assigned, length zs = 2%nat /\ lambda = [1; 1]%Q /\
    omap (select_loads (mkFractions zs 2 2) lambda) (seq 0 2) = Ok assigned /\
    (Qsum (map (fun loads => nth 0 loads 0%Q) assigned) == 1 # 2)%Q.
Proof.
  exists [(1#4); (1#4)]%Q, [1; 1]%Q. eexists. split; [reflexivity|]. split; [reflexivity|].
  split; [vm_compute; reflexivity|]. vm_compute. reflexivity.
Qed.

(** Fractions are rounded to hundredths: load 3 on configuration [1; 2] (bounds of this
    size) has no rounded assignment of finite cost, although SLO charges a finite cost. *)
Theorem into_sblo_rounded_refuted :
  cost_number (slo_hit valZ tight_slo 1 [1; 2]) = Some (Fin 4) /\
  forall zs, distribution 2 zs ->
    objective_value (sblo_objective valZ (into_sblo tight_slo) 1 [1; 2] [3%Q] (new_fractions zs 2 1)) = Some Inf.
Proof.
  split; [vm_compute; reflexivity|]. intros zs Hz.
  destruct (tight_infeasible zs Hz) as (o & Ho & ->). exact Ho.
Qed.

(** A certain load of at least two job types, wrapped as a prediction, cannot be used. *)
Theorem certain_load_as_prediction_refuted :
  forall (T : Type) (v : value T) minimize (choose : nat -> list Q -> nat -> list Q) (d : nat)
         (objective : objective_fn T) (lambda : list Q) (t : Z) (x : list T),
  (forall i zs m, (m <= length zs)%nat -> length (choose i zs m) = m) ->
  (2 <= length lambda)%nat ->
  apply_predicted_loads v minimize choose d (length lambda) objective [into_predicted lambda] t t x = Panic.
Proof. exact @certain_prediction_panics. Qed.

(** A selection as required exists. *)
Example ex_choose : forall (i : nat) (zs : list Q) m, (m <= length zs)%nat -> length (firstn m zs) = m.
Proof. intros. apply firstn_length_le. assumption. Qed.

Example ex_sampling : sample_load_profiles (fun _ zs n => firstn n zs) [[1; 2]; [5; 6]]%Q = Ok [[1; 2]; [5; 6]]%Q.
Proof. vm_compute. reflexivity. Qed.

(** One job type with one sample per slot: the second prediction is charged in slot 6. *)
Example ex_predicted :
  exists c, apply_predicted_loads valZ guess_solver (fun _ zs n => firstn n zs) 1 1
    (fun t x lambda _ => Ok (ROk (Fin (inject_Z t * Qsum lambda), Fin 0)))%Q [[[1]]; [[3]]]%Q 5 6 [1] = Ok [c] /\ eeq (c_cost c) (Fin 18).
Proof. eexists. split; vm_compute; reflexivity. Qed.
