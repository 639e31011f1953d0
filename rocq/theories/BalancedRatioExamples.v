(** Instances that meet the hypotheses of the theorems about the competitive ratio of lazy
    budgeting for SBLO. *)
From Coq Require Import Lia Lqa.
From Verif Require Import NumLemmas CostProofs ConvertProofs ObjectiveProofs StreamModel BalancedModel BalancedSpec BalancedExamples OfflineSpec OfflineExamples
  BalancedRatioSpec BalancedCosts BalancedRatioProps.
From Verif Require Import ProblemModel CostModel LoadModel.
Local Open Scope Z_scope.

Lemma best_of_extensional f g ks : (forall z, f z = g z) -> best_of f ks = best_of g ks.
Proof. intros H. induction ks as [|k r IH]; cbn; [reflexivity|]. rewrite IH, H. reflexivity. Qed.
Example grid_extensional : solver_extensional grid_solver.
Proof. intros f g bs init cs H. unfold grid_solver. rewrite (best_of_extensional f g _ H), H. reflexivity. Qed.

(** Two types of servers; a server costs 1 plus its load, or 2 plus half its load. *)
Definition ratio_sblo : gsblo Z := mkGSBLO 2 3 [2; 2] [3; 1]%Q [affine 1 1; affine 2 (1 # 2)] [2; 0; 1].

Example ratio_instance : balanced_instance grid_solver ratio_sblo 3.
Proof.
  apply decide_instance; try (vm_compute; reflexivity); try (vm_compute; discriminate).
  repeat split; cbn; try lia; repeat constructor; cbn; lra || lia.
Qed.
Example ratio_best : assigns_best grid_solver ratio_sblo.
Proof. apply best_by_check; vm_compute; reflexivity. Qed.

Lemma affine_certain a b t l : 1 <= t ->
  call_certain (affine a b) t l = Ok (if Qle_bool l 1 then mkCost (Fin (a + b * l)) (MSuccess tt) else mkCost Inf (MFailure SLOMaxUtilizationExceeded)).
Proof. intros Ht. unfold affine. rewrite certain_call_certain by exact Ht. reflexivity. Qed.

Lemma ratio_server k t : (k < 2)%nat -> 1 <= t -> exists a b, (0 <= a)%Q /\ (0 <= b)%Q /\
  forall l, server_cost ratio_sblo k t l = if Qle_bool l 1 then Fin (a + b * l) else Inf.
Proof.
  intros Hk Ht. destruct k as [|[|k]]; [exists 1%Q, 1%Q|exists 2%Q, (1 # 2)%Q|lia];
    (split; [lra|]; split; [lra|]); intros l'; unfold server_cost; cbn [ratio_sblo b_cost nth_error]; rewrite affine_certain by exact Ht;
    destruct (Qle_bool l' 1); reflexivity.
Qed.

Example ratio_convex : convex_servers ratio_sblo.
Proof.
  constructor.
  - intros k f t l Hf Ht Hl. destruct k as [|[|[|k]]]; cbn [ratio_sblo b_cost nth_error] in Hf; try discriminate Hf; try (destruct k; discriminate Hf); injection Hf as <-; rewrite affine_certain by lia; eauto.
  - intros k t l Hk Ht Hl. destruct (ratio_server k t ltac:(cbn in Hk; lia) ltac:(lia)) as (a & b & Ha & Hb & E). rewrite E.
    destruct (Qle_bool l 1); [|exact I]. cbn. pose proof (Qmult_le_0_compat b l Hb Hl). lra.
  - intros k t l l' Hk Ht Hl Hll. destruct (ratio_server k t ltac:(cbn in Hk; lia) ltac:(lia)) as (a & b & Ha & Hb & E). rewrite !E.
    destruct (Qle_bool l' 1) eqn:E2; [|destruct (Qle_bool l 1); exact I]. apply Qle_bool_iff in E2.
    rewrite (proj2 (Qle_bool_iff l 1)) by lra. cbn. assert (b * l <= b * l')%Q by (rewrite !(Qmult_comm b); apply Qmult_le_compat_r; assumption). lra.
  - intros k t x y s Hk Ht Hx Hy Hs. destruct (ratio_server k t ltac:(cbn in Hk; lia) ltac:(lia)) as (a & b & Ha & Hb & E). rewrite !E.
    destruct (Qle_bool x 1) eqn:E1, (Qle_bool y 1) eqn:E2; cbn [escale eadd]; try (destruct (Qle_bool ((1 - s) * x + s * y) 1); exact I).
    apply Qle_bool_iff in E1, E2.
    assert (H : ((1 - s) * x + s * y <= 1)%Q).
    { assert ((1 - s) * x <= (1 - s) * 1)%Q by (rewrite !(Qmult_comm (1 - s)); apply Qmult_le_compat_r; lra).
      assert (s * y <= s * 1)%Q by (rewrite !(Qmult_comm s); apply Qmult_le_compat_r; lra). lra. }
    rewrite (proj2 (Qle_bool_iff _ 1) H). cbn [ele]. apply Qle_lteq. right. ring.
  - intros k t Hk Ht. destruct (ratio_server k t ltac:(cbn in Hk; lia) ltac:(lia)) as (a & b & Ha & Hb & E). rewrite E. exact I.
Qed.

Example ratio_idle : idle_at_most ratio_sblo [1 # 3; 2]%Q.
Proof.
  split; [reflexivity|]. split; [repeat constructor; lra|]. intros k t a beta Ha Hb Ht.
  destruct k as [|[|[|k]]]; cbn in Ha, Hb; try discriminate; injection Ha as <-; injection Hb as <-;
    unfold server_cost; cbn [ratio_sblo b_cost nth_error]; rewrite affine_certain by lia; cbn; lra.
Qed.

Example ratio_algb_result :
  algb_result (offline_stream (BalancedModel.sblo_ops grid_solver) (alg_b grid_solver (fun _ _ _ => Leaf)) (fun _ => algb_default) 3
    (mkOnline (sblo_at ratio_sblo 1) 0))
  = Some ([[0; 2]; [0; 0]; [0; 1]], [[0; 2]; [0; 0]; [0; 1]]).
Proof. vm_compute. reflexivity. Qed.

Example ratio_algb_applies : exists o xs m,
  offline_stream (BalancedModel.sblo_ops grid_solver) (alg_b grid_solver (fun _ _ _ => Leaf)) (fun _ => algb_default) 3
    (mkOnline (sblo_at ratio_sblo 1) 0) = Some (o, xs, Ok (Some m)) /\
  cheapest_within (22 # 3) (sblo_objective_fn grid_solver Leaf ratio_sblo 1) 3 [2; 2] xs.
Proof.
  destruct (algb_competitive grid_solver (fun _ _ _ => Leaf) Leaf ratio_sblo [1 # 3; 2]%Q grid_extensional ratio_instance ltac:(cbn; lia) ratio_convex
    ratio_best ratio_idle) as (o & xs & m & E & H). exists o, xs, m. split; [exact E|]. exact H.
Qed.

Example ratio_counts : forall t, 1 <= t <= 3 -> determine_sub_time_slots ratio_sblo t 1 = Ok 4 /\ 0 < 4.
Proof.
  intros t Ht. assert (Et : t = 1 \/ t = 2 \/ t = 3) by lia. split; [|lia]. destruct Et as [->|[->| ->]]; vm_compute; reflexivity.
Qed.
Example ratio_sub_instance : balanced_instance grid_solver (sub_problem ratio_sblo (fun _ => 4) 3) 12.
Proof.
  apply decide_instance; try (vm_compute; reflexivity); try (vm_compute; discriminate).
  repeat split; cbn; try lia; repeat constructor; cbn; lra || lia.
Qed.
Example ratio_sub_best : assigns_best grid_solver (sub_problem ratio_sblo (fun _ => 4) 3).
Proof. apply best_by_check; vm_compute; reflexivity. Qed.

Example ratio_lb_result :
  lb_schedule (sblo_run grid_solver (fun _ _ _ => Leaf) 1 ratio_sblo 3) = Some [[0; 2]; [0; 0]; [0; 1]].
Proof. vm_compute. reflexivity. Qed.

Example ratio_lb_applies : exists xs m, sblo_run grid_solver (fun _ _ _ => Leaf) 1 ratio_sblo 3 = Ok (xs, Some m) /\
  cheapest_within 6 (sblo_objective_fn grid_solver Leaf ratio_sblo 1) 3 [2; 2] xs.
Proof.
  destruct (sblo_lb_competitive grid_solver (fun _ _ _ => Leaf) Leaf ratio_sblo 1 (fun _ => 4) grid_extensional ltac:(cbn; lia) ltac:(lra) ratio_counts
    ratio_instance ratio_sub_instance ratio_convex ratio_best ratio_sub_best) as (xs & m & E & H). exists xs, m. split; [exact E|]. exact H.
Qed.

Example ratio_same_cost : exists c c',
  sblo_objective_fn grid_solver Leaf ratio_sblo 1 [[1; 1]; [0; 1]; [2; 0]] = Ok c /\
  sblo_objective_fn grid_solver Leaf (sub_problem ratio_sblo (fun _ => 4) 3) 1
    [[1; 1]; [1; 1]; [1; 1]; [1; 1]; [0; 1]; [0; 1]; [0; 1]; [0; 1]; [2; 0]; [2; 0]; [2; 0]; [2; 0]] = Ok c' /\
  eeq (c_cost c') (c_cost c).
Proof.
  destruct (sub_slots_same_cost grid_solver ratio_sblo (fun _ => 4) ltac:(cbn; lia) ltac:(intros; lia) ratio_instance ratio_convex ratio_sub_instance
    ratio_best ratio_sub_best [[1; 1]; [0; 1]; [2; 0]]) as [_ H]; [|exact (H Leaf)].
  split; [reflexivity|]. repeat constructor; cbn; lia.
Qed.

Example ratio_additional : exists c c' r,
  sblo_hit valZ grid_solver ratio_sblo 3 [1; 2] = Ok c /\ sblo_hit valZ grid_solver ratio_sblo 3 [1; 0] = Ok c' /\
  (forall k, (k < 2)%nat -> eeq (server_cost ratio_sblo k 3 0) (Fin (nth k r 0%Q))) /\
  ele (c_cost c) (eadd (c_cost c') (Fin (Qsum (map (fun k => inject_Z (nth k ([1; 2]%Z) 0%Z - nth k ([1; 0]%Z) 0%Z) * nth k r 0%Q)%Q (seq 0 2))))).
Proof.
  apply (additional_servers grid_solver ratio_sblo 3 [1; 2] [1; 0] ratio_instance ratio_convex ratio_best).
  - cbn. lia.
  - repeat constructor; cbn; lia.
  - repeat constructor; cbn; lia.
  - intros [|[|k]] Hk; cbn in *; lia.
Qed.
