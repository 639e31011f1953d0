(** Concrete cases for SloRatioProps.v. *)
From Coq Require Import Lia Lqa.
From Verif Require Import NumLemmas LoadModel BudgetModel BudgetSpec OfflineSpec LoadExamples BudgetExamples SloRatioProps.
From Verif Require Import CostModel ProblemModel.
Local Open Scope Z_scope.

(** Two servers of operating cost 1 and switching cost 3. *)
Definition two_slo : gslo Z := mkGSLO 1 1 [2] [3]%Q [1]%Q [1; 0; 2; 0; 0; 0; 0; 1].

Definition two_hit (t : Z) (x : list Z) : cost dc_success dc_failure :=
  match sblo_hit valZ guess_solver (into_sblo two_slo) t x with
  | Ok c => c
  | _ => mkCost Inf (MFailure OutsideDecisionSpace)
  end.

Example two_slo_instance : slo_instance two_slo.
Proof.
  split; simpl; try lia; try (repeat constructor; simpl; lra || lia || discriminate).
  - intros [|[|i]] [|[|j]] a b Hij Ha Hb; simpl in *; try discriminate; try lia; injection Ha as <-; injection Hb as <-; lra.
  - intros [|[|i]] [|[|j]] a b Hij Ha Hb; simpl in *; try discriminate; try lia; injection Ha as <-; injection Hb as <-; lra.
Qed.

Example two_evaluates : evaluates guess_solver two_slo two_hit.
Proof.
  split.
  - intros t x Ht Hx. simpl in Ht.
    inversion Hx as [|u j ? r Hj Hr]; subst. inversion Hr; subst.
    assert (Et : t = 1 \/ t = 2 \/ t = 3 \/ t = 4 \/ t = 5 \/ t = 6 \/ t = 7 \/ t = 8) by lia.
    assert (Ej : j = 0 \/ j = 1 \/ j = 2) by lia.
    destruct Ej as [->|[->| ->]]; destruct Et as [->|[->|[->|[->|[->|[->|[->| ->]]]]]]]; (eexists; split; [vm_compute; reflexivity|vm_compute; exact I || reflexivity]).
  - intros t Ht. simpl in Ht.
    assert (Et : t = 1 \/ t = 2 \/ t = 3 \/ t = 4 \/ t = 5 \/ t = 6 \/ t = 7 \/ t = 8) by lia.
    destruct Et as [->|[->|[->|[->|[->|[->|[->| ->]]]]]]]; vm_compute; exact I.
Qed.

Example two_competitive : exists xs m,
  slo_run guess_solver two_hit (fun _ _ _ => Leaf) two_slo 0 false 8 = Ok (xs, m) /\
  cheapest_within 2 (slo_objective_fn Leaf (slo_at two_slo 8) 1) 8 [2] xs.
Proof.
  apply (slo_lb_competitive_partial guess_solver two_hit (fun _ _ _ => Leaf) Leaf two_slo 0 8
    two_slo_instance eq_refl); [repeat constructor; lia|exact guess_reports|exact two_evaluates|simpl; lia].
Qed.

(** The schedule of this run costs 18; powering down right after slot 3 costs 14. *)
Example two_run :
  lb_result (slo_run guess_solver two_hit (fun _ _ _ => Leaf) two_slo 0 false 8)
  = Some ([[1]; [1]; [2]; [2]; [2]; [0]; [0]; [1]], [1; 0], [11; 8]).
Proof. vm_compute. reflexivity. Qed.

Definition objective_number (p : gslo Z) (n : Z) (xs : list (list Z)) : option Q :=
  match slo_objective_fn Leaf (slo_at p n) 1 xs with
  | Ok c => match c_cost c with Fin q => Some (Qred q) | Inf => None end
  | _ => None
  end.
Example two_values :
  objective_number two_slo 8 [[1]; [1]; [2]; [2]; [2]; [0]; [0]; [1]] = Some (18 # 1)%Q /\
  objective_number two_slo 8 [[1]; [1]; [2]; [0]; [0]; [0]; [0]; [1]] = Some (14 # 1)%Q.
Proof. vm_compute. split; reflexivity. Qed.

(** With switching cost 9 and a load at the first slot only, the run costs 18 and powering down
    at once costs 10: no factor below 9/5 holds. *)
Definition once_slo : gslo Z := mkGSLO 1 1 [1] [9]%Q [1]%Q [1; 0; 0; 0; 0; 0; 0; 0; 0; 0].
Definition once_hit (t : Z) (x : list Z) : cost dc_success dc_failure :=
  match sblo_hit valZ guess_solver (into_sblo once_slo) t x with
  | Ok c => c
  | _ => mkCost Inf (MFailure OutsideDecisionSpace)
  end.
Example once_run :
  lb_result (slo_run guess_solver once_hit (fun _ _ _ => Leaf) once_slo 0 false 10)
  = Some ([[1]; [1]; [1]; [1]; [1]; [1]; [1]; [1]; [1]; [0]], [0], [10]) /\
  objective_number once_slo 10 [[1]; [1]; [1]; [1]; [1]; [1]; [1]; [1]; [1]; [0]] = Some (18 # 1)%Q /\
  objective_number once_slo 10 [[1]; [0]; [0]; [0]; [0]; [0]; [0]; [0]; [0]; [0]] = Some (10 # 1)%Q.
Proof. vm_compute. repeat split; reflexivity. Qed.
