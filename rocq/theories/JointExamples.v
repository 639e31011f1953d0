(** Concrete cases for JointProps.v. *)
From Coq Require Import Lia Lqa String.
From Verif Require Import NumLemmas CostSpec ObjectiveSpec OfflineSpec OfflineModel OptimizeBrute OneTypeExamples JointSpec JointSolver JointEnd JointProps.
From Verif Require Import ProblemModel CostModel.
Local Open Scope Z_scope.

(** Two nodes and one faster but more expensive core. *)
Definition core : server_type := mkServer "core" (9 # 10)%Q.
Definition work_job : job_type := mkJob "batch" (fun st => if String.eqb (st_key st) "core" then (1 # 8)%Q else (1 # 4)%Q).
Definition mixed_site : location := mkLocation "site" [("node"%string, 2); ("core"%string, 1)].
Definition mixed : data_center :=
  mkDataCenter 1 [mixed_site] [node; core] [people] [work_job]
    (CLinear [("node"%string, (1, 3)%Q); ("core"%string, (2, 4)%Q)]) (ELinear [("site"%string, fun t => inject_Z (t * t + 1))])
    [("batch"%string, (1, 1 # 2)%Q)]
    [("node"%string, warmup); ("core"%string, warmup)].
Definition mixed_power (st : server_type) (s : Q) : Q :=
  (if String.eqb (st_key st) "core" then 1 * ((4 - 2) * s + 2) else 1 * ((3 - 1) * s + 1))%Q.
Definition warmup_cost : Q := Eval vm_compute in switching_cost_of warmup.

Example mixed_center :
  center no_powf mixed hall_price mixed_power (fun _ => (1, 1 # 2)%Q) mixed_site [2; 1] [warmup_cost; warmup_cost].
Proof.
  constructor; try reflexivity.
  - constructor; cbn.
    + reflexivity.
    + eexists. split; [reflexivity|]. intros l [<-|[]]. reflexivity.
    + intros l t [<-|[]]. unfold hall_price. change 0%Q with (inject_Z 0). rewrite <- Zlt_Qlt. nia.
    + intros st s [<-|[<-|[]]]; reflexivity.
    + intros jt [<-|[]]; reflexivity.
    + intros st [<-|[<-|[]]]; discriminate.
    + intros st jt [<-|[<-|[]]] [<-|[]]; discriminate.
  - discriminate.
  - intros st a b [<-|[<-|[]]] E; unfold mixed_power; cbn; rewrite E; reflexivity.
  - repeat constructor.
  - constructor; [|constructor; [|constructor]]; (eexists; split; [reflexivity|split; reflexivity]).
Qed.

Definition mixed_loads : list Q := [9; 3]%Q.
Definition mixed_options : offline_options := mkOffOpts false 1 None.
Example mixed_manageable : Forall (fun q => 0 <= q)%Q mixed_loads /\ Forall (manageable mixed [2; 1]) mixed_loads.
Proof.
  split; [repeat constructor; discriminate|].
  constructor; [|constructor; [|constructor]]; exists [(1 # 2); (1 # 2)]%Q.
  - split.
    + split; [reflexivity|]. split; [|reflexivity]. repeat constructor; try discriminate; exists 50; reflexivity.
    + intros [|[|k]] st Hk; cbn in Hk; try (injection Hk as <-; right; repeat split; vm_compute; congruence). destruct k; discriminate.
  - split.
    + split; [reflexivity|]. split; [|reflexivity]. repeat constructor; try discriminate; exists 50; reflexivity.
    + intros [|[|k]] st Hk; cbn in Hk; try (injection Hk as <-; right; repeat split; vm_compute; congruence). destruct k; discriminate.
Qed.
Definition mixed_problem : gssco Z dc_success dc_failure :=
  match to_ssco no_powf mixed valZ (fun z => z) (load_minimize brute) (map (fun q => [q]) mixed_loads) with
  | Ok p => p | _ => mkGSSCO 0 0 [] [] (cf_new 1 (certain (fun _ _ => Panic))) end.

Example ex_joint_hypotheses :
  careful_nlopt brute /\ exact_nlopt brute /\ length (dc_server_types mixed) = 2%nat /\ mixed_loads <> [] /\
  (0 <= fo_alpha mixed_options)%Q /\ fo_l mixed_options = None /\ feasible_config [2; 1] [1; 1].
Proof.
  split; [exact brute_careful|]. split; [exact brute_exact|]. split; [reflexivity|]. split; [discriminate|]. split; [discriminate|]. split; [reflexivity|].
  constructor; [lia|constructor; [lia|constructor]].
Qed.

(** The node processes 30 percent of the first load; the core alone processes the second one. *)
Example ex_joint_answer :
  match offline_solve (ssco_ops valZ dc_hmerge dc_vmerge OutsideDecisionSpace Leaf)
          (optimal_search_ssco dc_vmerge OutsideDecisionSpace (fun _ _ => Leaf) mixed_options) mixed_problem with
  | Ok (xs, c) => Some (xs, match c_cost c with Fin q => Qred q | Inf => 0%Q end,
                        match c_out c with MSuccess o => map (map (map Qred)) (ds_assign o) | _ => [] end,
                        match c_out c with MSuccess (mkDCS (Fin e) (Fin r) _) => Some (Qred e, Qred r) | _ => None end)
  | _ => None
  end = Some ([[1%Z; 1%Z]; [0%Z; 1%Z]], 605457 # 17680, [[[3 # 10]]; [[0]]], Some (128 # 5, 64449 # 17680))%Q.
Proof. vm_compute. reflexivity. Qed.

(** The same division, reached when the time is up, is a panic. *)
Example ex_timeout :
  division 2 [3 # 10; 7 # 10]%Q /\ processes mixed [1; 1] 9 [3 # 10; 7 # 10]%Q /\
  apply_loads valZ (load_minimize (out_of_time MaxTimeReached [3 # 10]%Q)) (dc_d mixed) (dc_e mixed) (dc_objective_of no_powf mixed valZ) [9%Q] 1 [1; 1] = Panic.
Proof.
  assert (D : division 2 [3 # 10; 7 # 10]%Q).
  { split; [reflexivity|]. split; [|reflexivity]. constructor; [split; [exists 30; reflexivity|discriminate]|]. constructor; [split; [exists 70; reflexivity|discriminate]|constructor]. }
  assert (P : processes mixed [1; 1] 9 [3 # 10; 7 # 10]%Q).
  { intros [|[|k]] st Hk; cbn in Hk; try (injection Hk as <-; right; repeat split; vm_compute; congruence). destruct k; discriminate. }
  split; [exact D|]. split; [exact P|].
  apply (balancing_timeout_refuted no_powf mixed hall_price mixed_power (fun _ => (1, 1 # 2)%Q) mixed_site [2; 1] [warmup_cost; warmup_cost] mixed_center
           1 9 [1; 1] ltac:(discriminate) ltac:(repeat constructor; lia) MaxTimeReached [3 # 10; 7 # 10]%Q); [right; reflexivity|exact D|exact P].
Qed.
