(** Concrete cases for BalancedProps.v and behaviours deviating from the expected ones. *)
From Coq Require Import Lia Lqa.
From Verif Require Import NumLemmas LoadModel StreamSpec BalancedModel BalancedSpec BalancedSearch BalancedProps VerifyProofs LoadExamples.
From Verif Require Import CostModel ProblemModel.
Local Open Scope Z_scope.

Definition flat (c : Q) : dim_cost := cf_new 1 (certain (fun _ _ => Ok (mkCost (Fin c) MNone))).

(** tests/algorithms/online/multi_dimensional/lazy_budgeting/smoothed_balanced_load_optimization.rs *)
Definition lb_sblo : gsblo Z := mkGSBLO 2 5 [1; 1] [2; 1]%Q [flat 1; flat 1] [1; 2; 0; 2; 1].

Example guess_extensional : solver_extensional guess_solver.
Proof. intros f g bs init cs H. unfold guess_solver. rewrite H. reflexivity. Qed.

Definition fin_b (e : ext) : bool := match e with Fin _ => true | Inf => false end.

(** Deciding [balanced_instance] for concrete instances with two dimensions. *)
Lemma decide_instance minimize p T :
  well_formed_base valZ (b_d p) T (b_bounds p) (b_switching p) ->
  T <= Z.of_nat (length (b_load p)) -> forallb (Z.leb 0) (b_load p) = true ->
  Z.of_nat (length (b_cost p)) = b_d p ->
  forallb (fun f => forallb (fun u => match call_certain f u 0%Q with Ok c => eleb (Fin 0) (c_cost c) | _ => false end) (zrange 1 T)) (b_cost p) = true ->
  forallb (fun u => forallb (fun x => is_ok (sblo_hit valZ minimize p u x)) (all_configs (b_bounds p))) (zrange 1 T) = true ->
  forallb (fun u => fin_b (hitting minimize p u (b_bounds p))) (zrange 1 T) = true ->
  balanced_instance minimize p T.
Proof.
  intros HF HL HLn HC HId HH HFu. constructor; auto.
  - split; [exact HL|]. intros t l _ Hl. apply access_spec in Hl as [_ Hl]. rewrite forallb_forall in HLn.
    specialize (HLn l (nth_error_In _ _ Hl)). apply Z.leb_le in HLn. change (inject_Z 0 <= inject_Z l)%Q. rewrite <- Zle_Qle. exact HLn.
  - intros k f u Hf Hu. rewrite forallb_forall in HId. specialize (HId f (nth_error_In _ _ Hf)). rewrite forallb_forall in HId.
    specialize (HId u (proj2 (zrange_In 1 T u) Hu)). destruct (call_certain f u 0%Q) as [c| |]; try discriminate. exists c.
    split; [reflexivity|]. apply eleb_iff. exact HId.
  - intros u x Hu Hx. rewrite forallb_forall in HH. specialize (HH u (proj2 (zrange_In 1 T u) Hu)). rewrite forallb_forall in HH.
    specialize (HH x (proj2 (all_configs_spec _ _) Hx)). destruct (sblo_hit valZ minimize p u x) as [c| |]; try discriminate. eauto.
  - intros u Hu. rewrite forallb_forall in HFu. specialize (HFu u (proj2 (zrange_In 1 T u) Hu)).
    destruct (hitting minimize p u (b_bounds p)); [exact I|discriminate].
Qed.

Example lb_sblo_instance : balanced_instance guess_solver lb_sblo 5.
Proof.
  apply decide_instance; try (vm_compute; reflexivity); try (vm_compute; discriminate).
  repeat split; cbn; try lia; repeat constructor; cbn; lra || lia.
Qed.

Definition algb_result (r : option (online (gsblo Z) * list (list Z) * outcome (option algb_memory))) :
    option (list (list Z) * list (list Z)) :=
  match r with Some (_, xs, Ok (Some m)) => Some (xs, ab_init m) | _ => None end.

Example algb_concrete :
  algb_result (offline_stream (sblo_ops guess_solver) (alg_b guess_solver (fun _ _ _ => Leaf)) (fun _ => algb_default) 5
    (mkOnline (sblo_at lb_sblo 1) 0))
  = Some ([[0; 1]; [0; 1]; [0; 0]; [0; 1]; [0; 1]], [[0; 1]; [0; 0]; [0; 0]; [0; 1]; [0; 0]]).
Proof. vm_compute. reflexivity. Qed.

Example algb_above_applies : exists o xs m,
  offline_stream (sblo_ops guess_solver) (alg_b guess_solver (fun _ _ _ => Leaf)) (fun _ => algb_default) 5
    (mkOnline (sblo_at lb_sblo 1) 0) = Some (o, xs, Ok (Some m)) /\ feasible_schedule 5 [1; 1] xs.
Proof.
  destruct (algb_above_optimum guess_solver (fun _ _ _ => Leaf) lb_sblo 5 guess_extensional lb_sblo_instance ltac:(lia))
    as (o & xs & m & E & H & _). eauto.
Qed.

Example lb_counts : forall t, 1 <= t <= 5 -> determine_sub_time_slots lb_sblo t 1 = Ok 2 /\ 0 < 2.
Proof.
  intros t Ht. assert (Et : t = 1 \/ t = 2 \/ t = 3 \/ t = 4 \/ t = 5) by lia.
  split; [|lia]. destruct Et as [->|[->|[->|[->| ->]]]]; vm_compute; reflexivity.
Qed.

Example lb_sub_instance : balanced_instance guess_solver (sub_problem lb_sblo (fun _ => 2) 5) 10.
Proof.
  apply decide_instance; try (vm_compute; reflexivity); try (vm_compute; discriminate).
  repeat split; cbn; try lia; repeat constructor; cbn; lra || lia.
Qed.

Definition lb_schedule (r : outcome (list (list Z) * option sblo_memory)) : option (list (list Z)) :=
  match r with Ok (xs, _) => Some xs | _ => None end.

(** The schedule of the unit test (epsilon = 1/4, 8 sub-slots per slot). *)
Example lb_sblo_run :
  lb_schedule (sblo_run guess_solver (fun _ _ _ => Leaf) (1 # 4) lb_sblo 5) = Some [[0; 1]; [0; 1]; [0; 0]; [0; 1]; [0; 1]].
Proof. vm_compute. reflexivity. Qed.

Example lb_sub_slots_apply : exists xs m, sblo_run guess_solver (fun _ _ _ => Leaf) 1 lb_sblo 5 = Ok (xs, Some m) /\
  feasible_schedule 5 [1; 1] xs.
Proof.
  destruct (sblo_lb_sub_slots guess_solver (fun _ _ _ => Leaf) lb_sblo 1 5 (fun _ => 2) guess_extensional ltac:(lia) lb_counts ltac:(cbn; lia)
    lb_sub_instance) as (xs & m & _ & E & H & _). eauto.
Qed.

Example sub_slot_number_applies : exists n, determine_sub_time_slots lb_sblo 3 (1 # 4) = Ok n /\ 0 < n.
Proof.
  apply sub_slot_number_positive; cbn; try lia; try lra.
  - repeat constructor; lra.
  - intros [|[|[|k]]] f Hf; cbn in Hf; try discriminate; injection Hf as <-; eexists _, 1%Q; (split; [vm_compute; reflexivity|]); split; (reflexivity || lra).
  - exists 0%nat. split; [lia|]. vm_compute. reflexivity.
Qed.

Example sub_slot_costs_apply : exists g c',
  nth_error (b_cost (sub_problem lb_sblo (fun _ => 8) 5)) 1 = Some g /\
  (forall u, access (sub_slots (fun _ => 8) 5) u = Some 3 -> call_certain g u (1 # 2)%Q = Ok c') /\
  eeq (esum (repeat (c_cost c') 8)) (Fin 1).
Proof.
  destruct (sub_slot_costs lb_sblo (fun _ => 8) 5 3 1 (flat 1) (1 # 2)%Q (mkCost (Fin 1) MNone)) as (g & c' & H1 & H2 & _ & H3);
    try reflexivity; try lia.
  eauto.
Qed.

(** Servers without idle cost give slots without sub-slots: the algorithm panics, although
    the instance is valid and algorithm B itself handles it. *)
Definition free_sblo : gsblo Z := mkGSBLO 2 2 [1; 1] [2; 1]%Q [flat 0; flat 0] [1; 1].
Example free_instance : balanced_instance guess_solver free_sblo 2.
Proof.
  apply decide_instance; try (vm_compute; reflexivity); try (vm_compute; discriminate).
  repeat split; cbn; try lia; repeat constructor; cbn; lra || lia.
Qed.
Theorem sblo_lb_free_servers_refuted :
  exists p, verify_sblo valZ p = Ok tt /\ balanced_instance guess_solver p (b_tend p) /\
    determine_sub_time_slots p 1 (1 # 4) = Ok 0 /\
    sblo_run guess_solver (fun _ _ _ => Leaf) (1 # 4) p 1 = Panic.
Proof.
  exists free_sblo. split; [vm_compute; reflexivity|]. split; [exact free_instance|]. split; vm_compute; reflexivity.
Qed.
Print Assumptions sblo_lb_free_servers_refuted.
