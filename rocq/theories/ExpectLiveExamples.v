(** Concrete case for ExpectLiveProps.v. *)
From Coq Require Import Reals Qreals Qround Lia.
From Coquelicot Require Import Hierarchy RInt.
From Verif Require Import NumLemmas VerifySpec VerifyModel VerifyProofs DataCenterModel DataCenterExamples StreamModel SessionModel SessionSpec BudgetSpec BalancedModel BalancedSpec
  BalancedRatioSpec OfflineSpec ForesightSpec LoadExamples BudgetExamples BalancedExamples OfflineExamples BalancedRatioExamples LiveSpec LiveModel LiveExamples
  ExpectSpec ExpectExamples ExpectLiveProps.
From Verif Require Import ProblemModel CostModel LoadModel.
From Coq Require Import Lra.
Local Open Scope R_scope.

(** The loads 1 and 2 are known at the start, 0 and 1 follow; energy is cheap, so that starting a
    server costs as much as running it for 20 / 9 slots. *)
Definition modest (t : Z) : Q := inject_Z (t + 1) * (1 # 4).
Definition modest_day : gslo Z := mkGSLO 1 4 [2%Z] [5 # 2]%Q [36 # 32]%Q [1%Z; 2%Z; 0%Z; 1%Z].

Example modest_generated : exists p q,
  to_slo no_pow (booth modest) (fun z => z) Qfloor [[1]; [2]]%Q = Ok p /\
  to_slo no_pow (booth modest) (fun z => z) Qfloor ([[1]; [2]] ++ [[0]; [1]])%Q = Ok q /\ at_costs_of p q = modest_day.
Proof. do 2 eexists. split; [vm_compute; reflexivity|]. split; vm_compute; reflexivity. Qed.
Example modest_well_formed : well_formed_slo valZ modest_day.
Proof. apply slo_verified; vm_compute; reflexivity. Qed.
Example modest_evaluable : evaluable (sblo_hit valZ grid_solver (into_sblo modest_day)) 4 [2%Z].
Proof. apply decide_evaluable. vm_compute. reflexivity. Qed.
Example modest_capacity : capacity_suffices (sblo_hit valZ grid_solver (into_sblo modest_day)) 4 [2%Z].
Proof. apply decide_capacity. vm_compute. reflexivity. Qed.

(** The drawn number rounded down to a whole number of slots. *)
Definition whole_slots (r : R) : Q := inject_Z (Int_part (sample_gamma r * (Q2R (5 # 2) / Q2R (36 # 32)))) / (20 # 9).

Example whole_slots_draws : draws modest_day whole_slots.
Proof.
  intros r Hr. split.
  - unfold whole_slots. assert (H : (0 <= Int_part (sample_gamma r * (Q2R (5 # 2) / Q2R (36 # 32))))%Z).
    { destruct (base_Int_part (sample_gamma r * (Q2R (5 # 2) / Q2R (36 # 32)))) as [_ H]. pose proof (gamma_nonneg r ltac:(lra)) as H0.
      assert (0 <= sample_gamma r * (Q2R (5 # 2) / Q2R (36 # 32))) by (apply Rmult_le_pos; [exact H0|unfold Q2R; cbn; lra]).
      assert (A : -1 < IZR (Int_part (sample_gamma r * (Q2R (5 # 2) / Q2R (36 # 32))))) by lra. apply lt_IZR in A. lia. }
    generalize dependent (Int_part (sample_gamma r * (Q2R (5 # 2) / Q2R (36 # 32)))). intros z Hz.
    apply Qle_shift_div_l; [reflexivity|]. rewrite Qmult_0_l. change 0%Q with (inject_Z 0). rewrite <- Zle_Qle. exact Hz.
  - intros [|[|k]] b h Hb Hh; cbn in Hb, Hh; try discriminate. injection Hb as <-. injection Hh as <-. unfold whole_slots.
    generalize (Int_part (sample_gamma r * (Q2R (5 # 2) / Q2R (36 # 32)))). intros z.
    rewrite (Qfloor_comp _ (inject_Z z)) by field. apply Qfloor_Z.
Qed.

Example modest_randomized : forall k, (k <= 2)%nat ->
  exists (cost : R -> R) (E : R),
    (forall x, 0 <= x <= 1 -> exists off rs final c w,
       slo_session no_pow (booth modest) grid_solver Qfloor Leaf (fun _ _ _ => Leaf) true (whole_slots x) 0 [[1]; [2]]%Q (map Input (into_online [[0]; [1]]%Q))
         = Ok (off, (map Answered rs, final)) /\
       reported off rs k c /\ c_cost c = Fin w /\ cost x = Q2R w) /\
    is_RInt (V := R_NormedModule) cost 0 1 E /\
    forall ys c w, feasible_schedule (Z.of_nat (2 + k)) [2%Z] ys ->
      slo_objective_fn Leaf (slo_part modest_day (2 + k)) 1 ys = Ok c -> c_cost c = Fin w -> E <= exp 1 / (exp 1 - 1) * Q2R w.
Proof.
  intros k Hk. destruct modest_generated as (p & q & Ep & Eq & Er).
  pose proof (live_slo_randomized_competitive_partial no_pow (booth modest) grid_solver Qfloor Leaf (fun _ _ _ => Leaf) [[1]; [2]]%Q [[0]; [1]]%Q p q whole_slots k
    grid_extensional grid_reports Ep Eq ltac:(repeat constructor)) as H. cbv zeta in H. rewrite Er in H.
  destruct (H modest_well_formed ltac:(repeat constructor) eq_refl modest_evaluable modest_capacity whole_slots_draws Hk) as (cost & E & H1 & H2 & H3).
  exists cost, E. split; [|split; [exact H2|exact H3]].
  intros x Hx. destruct (H1 x Hx) as (off & rs & final & c & w & E1 & _ & _ & E2 & E3 & E4). exists off, rs, final, c, w. auto.
Qed.

(** The drawn number matters: with a small one, the servers not needed in slot 3 are powered down. *)
Definition modest_schedule (gamma : Q) : option (list (list Z) * list (option (list Z))) :=
  match slo_session no_pow (booth modest) grid_solver Qfloor Leaf (fun _ _ _ => Leaf) true gamma 0 [[1]; [2]]%Q (map Input (into_online [[0]; [1]]%Q)) with
  | Ok (off, (rs, _)) => Some (of_xs off, map (fun o => match o with Answered a => Some (r_x a) | _ => None end) rs)
  | _ => None
  end.
Example modest_drawn :
  modest_schedule (9 # 20) = Some ([[1%Z]; [2%Z]], [Some [0%Z]; Some [1%Z]]) /\
  modest_schedule (9 # 10) = Some ([[1%Z]; [2%Z]], [Some [2%Z]; Some [1%Z]]).
Proof. vm_compute. split; reflexivity. Qed.
