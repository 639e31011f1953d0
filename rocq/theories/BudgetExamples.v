(** Concrete cases for BudgetProps.v and behaviours deviating from the expected ones. *)
From Coq Require Import Lia Lqa.
From Verif Require Import NumLemmas LoadModel BudgetModel BudgetSpec BudgetLanes BudgetProps LoadExamples.
From Verif Require Import CostModel ProblemModel.
Local Open Scope Z_scope.

(** tests/algorithms/online/multi_dimensional/lazy_budgeting/smoothed_load_optimization.rs *)
Definition lb_slo : gslo Z := mkGSLO 2 1 [1; 1] [1; 2]%Q [2; 1]%Q [1; 2; 0; 2; 1].

Definition lb_hit (t : Z) (x : list Z) : cost dc_success dc_failure :=
  match sblo_hit valZ guess_solver (into_sblo lb_slo) t x with
  | Ok c => c
  | _ => mkCost Inf (MFailure OutsideDecisionSpace)
  end.

Example lb_slo_instance : slo_instance lb_slo.
Proof.
  split; simpl; try lia; try (repeat constructor; simpl; lra || lia || discriminate).
  - intros [|[|[|i]]] [|[|[|j]]] a b Hij Ha Hb; simpl in *; try discriminate; try lia; injection Ha as <-; injection Hb as <-; lra.
  - intros [|[|[|i]]] [|[|[|j]]] a b Hij Ha Hb; simpl in *; try discriminate; try lia; injection Ha as <-; injection Hb as <-; lra.
Qed.

Example guess_reports : solver_reports guess_solver.
Proof.
  intros f bs init cs z c. unfold guess_solver. destruct (f init) as [e| |] eqn:E; try discriminate.
  intros H. assert (z = init) by congruence. assert (e = c) by congruence. subst. exact E.
Qed.

Example lb_evaluates : evaluates guess_solver lb_slo lb_hit.
Proof.
  split.
  - intros t x Ht Hx. simpl in Ht.
    inversion Hx as [|u j ? r Hj Hr]; subst. inversion Hr as [|u' j' ? r' Hj' Hr']; subst. inversion Hr'; subst.
    assert (Et : t = 1 \/ t = 2 \/ t = 3 \/ t = 4 \/ t = 5) by lia.
    assert (Ej : j = 0 \/ j = 1) by lia. assert (Ej' : j' = 0 \/ j' = 1) by lia.
    destruct Ej as [-> | ->]; destruct Ej' as [-> | ->]; destruct Et as [->|[->|[->|[->| ->]]]]; (eexists; split; [vm_compute; reflexivity|vm_compute; exact I || reflexivity]).
  - intros t Ht. simpl in Ht.
    assert (Et : t = 1 \/ t = 2 \/ t = 3 \/ t = 4 \/ t = 5) by lia.
    destruct Et as [->|[->|[->|[->| ->]]]]; vm_compute; exact I.
Qed.

Definition lb_result (r : outcome (list (list Z) * slo_memory)) : option (list (list Z) * list Z * list Z) :=
  match r with Ok (xs, m) => Some (xs, sm_lanes m, sm_horizons m) | _ => None end.

(** The schedule of the unit test. *)
Example lb_run :
  lb_result (slo_run guess_solver lb_hit (fun _ _ _ => Leaf) lb_slo 0 false 5)
  = Some ([[1; 0]; [1; 1]; [0; 1]; [1; 1]; [0; 1]], [2; 0], [7; 5]).
Proof. vm_compute. reflexivity. Qed.

Example lb_run_randomized :
  lb_result (slo_run guess_solver lb_hit (fun _ _ _ => Leaf) lb_slo (1 # 2) true 5)
  = Some ([[1; 0]; [1; 1]; [0; 0]; [1; 1]; [0; 1]], [2; 0], [6; 5]).
Proof. vm_compute. reflexivity. Qed.

Example lb_serves : exists xs m,
  slo_run guess_solver lb_hit (fun _ _ _ => Leaf) lb_slo 0 false 5 = Ok (xs, m) /\
  feasible_schedule 5 [1; 1] xs.
Proof.
  destruct (slo_lb_serves_load_partial guess_solver lb_hit (fun _ _ _ => Leaf) lb_slo 0 false 5
    lb_slo_instance guess_reports lb_evaluates) as (xs & m & E & F & _); [discriminate|simpl; lia|eauto].
Qed.

(** Lane 0 of type 2 after slot 2 has horizon 4: it stays active during slot 3 although the
    load is 0. *)
Example lb_keeps : exists xs m xs' m',
  slo_run guess_solver lb_hit (fun _ _ _ => Leaf) lb_slo 0 false 2 = Ok (xs, m) /\
  slo_run guess_solver lb_hit (fun _ _ _ => Leaf) lb_slo 0 false 3 = Ok (xs', m') /\
  nth_error (sm_lanes m) 0 = Some 2 /\ nth_error (sm_horizons m) 0 = Some 4 /\ nth_error (sm_lanes m') 0 = Some 2.
Proof. eexists. eexists. eexists. eexists. split; [vm_compute; reflexivity|]. split; [vm_compute; reflexivity|]. repeat split. Qed.

Example lb_round_trip : build_lanes [2; 0; 1] 3 5 = Ok [3; 1; 1; 0; 0] /\ collect_config 3 [3; 1; 1; 0; 0] = Ok [2; 0; 1].
Proof. vm_compute. split; reflexivity. Qed.

(** Operating costs of 0 are accepted by [verify] (non-negative), but the horizon of such a
    type is infinite and its computation overflows. *)
Definition free_slo : gslo Z := mkGSLO 1 1 [1] [1]%Q [0]%Q [1].
Definition free_hit (t : Z) (x : list Z) : cost dc_success dc_failure :=
  match sblo_hit valZ guess_solver (into_sblo free_slo) t x with
  | Ok c => c
  | _ => mkCost Inf (MFailure OutsideDecisionSpace)
  end.
Theorem slo_lb_free_servers_refuted :
  sblo_hit valZ guess_solver (into_sblo free_slo) 1 [1] = Ok (free_hit 1 [1]) /\
  is_fin (c_cost (free_hit 1 [1])) /\
  slo_run guess_solver free_hit (fun _ _ _ => Leaf) free_slo 0 false 1 = Panic.
Proof. vm_compute. repeat split. Qed.
