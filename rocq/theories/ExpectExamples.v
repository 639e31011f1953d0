(** Concrete cases for ExpectProps.v. *)
From Coq Require Import Reals Qreals Qround Lia.
From Coquelicot Require Import Hierarchy RInt.
From Verif Require Import NumLemmas LoadModel BudgetModel BudgetSpec OfflineSpec LoadExamples BudgetExamples SloRatioExamples ExpectLane ExpectSpec ExpectProps.
From Verif Require Import CostModel ProblemModel.
From Coq Require Import Lra.
Local Open Scope R_scope.

Lemma gamma_nonneg r : 0 <= r -> 0 <= sample_gamma r.
Proof.
  intros Hr. unfold sample_gamma. pose proof exp1_gt as He. rewrite <- ln_1.
  assert (0 <= r * (exp 1 - 1)) by (apply Rmult_le_pos; lra).
  destruct (Req_dec (r * (exp 1 - 1)) 0) as [E|E]; [rewrite E, Rplus_0_l; lra|].
  left. apply ln_increasing; lra.
Qed.

(** The drawn number rounded down to a multiple of a third, for a switching cost of 3 and an
    operating cost of 1. *)
Definition thirds (r : R) : Q := inject_Z (Int_part (sample_gamma r * (Q2R 3 / Q2R 1))) / 3.

Example thirds_draws : draws two_slo thirds.
Proof.
  intros r Hr. split.
  - unfold thirds. assert (H : (0 <= Int_part (sample_gamma r * (Q2R 3 / Q2R 1)))%Z).
    { destruct (base_Int_part (sample_gamma r * (Q2R 3 / Q2R 1))) as [_ H]. pose proof (gamma_nonneg r ltac:(lra)) as H0.
      assert (0 <= sample_gamma r * (Q2R 3 / Q2R 1)) by (apply Rmult_le_pos; [exact H0|unfold Q2R; cbn; lra]).
      assert (A : -1 < IZR (Int_part (sample_gamma r * (Q2R 3 / Q2R 1)))) by lra. apply lt_IZR in A. lia. }
    generalize dependent (Int_part (sample_gamma r * (Q2R 3 / Q2R 1))). intros z Hz.
    apply Qle_shift_div_l; [reflexivity|]. rewrite Qmult_0_l. change 0%Q with (inject_Z 0). rewrite <- Zle_Qle. exact Hz.
  - intros [|[|k]] b h Hb Hh; cbn in Hb, Hh; try discriminate. injection Hb as <-. injection Hh as <-. unfold thirds.
    generalize (Int_part (sample_gamma r * (Q2R 3 / Q2R 1))). intros z.
    rewrite (Qfloor_comp _ (inject_Z z)) by field. apply Qfloor_Z.
Qed.

Example two_randomized : exists (cost : R -> R) (E : R),
  (forall r, 0 <= r <= 1 -> exists xs m k q,
     slo_run guess_solver two_hit (fun _ _ _ => Leaf) two_slo (thirds r) true 8 = Ok (xs, m) /\
     slo_objective_fn Leaf (slo_at two_slo 8) 1 xs = Ok k /\ c_cost k = Fin q /\ cost r = Q2R q) /\
  is_RInt (V := R_NormedModule) cost 0 1 E /\
  forall ys k q, feasible_schedule 8 [2%Z] ys ->
    slo_objective_fn Leaf (slo_at two_slo 8) 1 ys = Ok k -> c_cost k = Fin q -> E <= exp 1 / (exp 1 - 1) * Q2R q.
Proof.
  apply (slo_lb_randomized_competitive guess_solver two_hit (fun _ _ _ => Leaf) Leaf two_slo 8 thirds
    two_slo_instance eq_refl); [repeat constructor; lia|exact guess_reports|exact two_evaluates|simpl; lia|exact thirds_draws].
Qed.

(** The drawn number matters: drawing nothing and drawing two thirds lead to different schedules. *)
Example two_drawn :
  lb_result (slo_run guess_solver two_hit (fun _ _ _ => Leaf) two_slo 0 true 8)
  = Some ([[1]; [0]; [2]; [0]; [0]; [0]; [0]; [1]], [1; 0], [8; 8])%Z /\
  lb_result (slo_run guess_solver two_hit (fun _ _ _ => Leaf) two_slo (2 # 3) true 8)
  = Some ([[1]; [1]; [2]; [2]; [0]; [0]; [0]; [1]], [1; 0], [10; 8])%Z.
Proof. vm_compute. split; reflexivity. Qed.
