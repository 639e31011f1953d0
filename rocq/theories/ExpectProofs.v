(** Randomised lazy budgeting for SLO with a single type of servers: the expected cost. *)
From Coq Require Import Reals Lra Lia Qreals.
From Coquelicot Require Import Coquelicot.
From Verif Require Import NumLemmas BudgetSpec BudgetRun OfflineSpec SloRatioLane SloRatioRun ExpectLane ExpectStep ExpectSpec ExpectRun.
From Verif Require Import ProblemModel CostModel.
From Coq Require Import Lra.
Local Open Scope R_scope.

Lemma Int_part_unique x z : IZR z <= x < IZR z + 1 -> Int_part x = z.
Proof.
  intros H. destruct (base_Int_part x) as [H1 H2].
  assert (A : IZR (Int_part x) < IZR (z + 1)) by (rewrite plus_IZR; lra).
  assert (D : IZR z < IZR (Int_part x + 1)) by (rewrite plus_IZR; lra). apply lt_IZR in A, D. lia.
Qed.

Section Integral.
  Variables c beta : R.
  Variable m : nat.
  Hypothesis Hc : 0 < c.
  Hypothesis Hb : 0 <= beta.
  Hypothesis Hlo : INR m * c <= beta.
  Hypothesis Hhi : beta < (INR m + 1) * c.
  Variable f : nat -> R.

  Definition slots (r : R) : nat := Z.to_nat (Int_part (sample_gamma r * (beta / c))).
  Definition bound (k : nat) : R := if (k <=? m)%nat then below c beta k else 1.

  Lemma no_beta : beta = 0 -> m = 0%nat.
  Proof. intros E. destruct m; [reflexivity|]. assert (0 < INR (S n) * c) by (apply Rmult_lt_0_compat; [apply lt_0_INR; lia|lra]). lra. Qed.

  Lemma below_exp i : 1 + below c beta i * (exp 1 - 1) = exp (INR i * c / beta).
  Proof. unfold below. pose proof exp1_gt. field. lra. Qed.

  Lemma gamma_between r x y : exp x < 1 + r * (exp 1 - 1) < exp y -> x < sample_gamma r < y.
  Proof.
    intros H. unfold sample_gamma. rewrite (Rplus_comm _ 1). pose proof (exp_pos x). split.
    - rewrite <- (ln_exp x) at 1. apply ln_increasing; lra.
    - rewrite <- (ln_exp y). apply ln_increasing; lra.
  Qed.

  Lemma slots_between k r : (k <= m)%nat -> bound k < r < bound (S k) -> slots r = k.
  Proof.
    intros Hk Hr. pose proof exp1_gt as He. destruct (Req_dec beta 0) as [E|E].
    - pose proof (no_beta E). assert (k = 0)%nat by lia. subst k. unfold slots. rewrite E. unfold Rdiv. rewrite Rmult_0_l, Rmult_0_r.
      rewrite (Int_part_unique 0 0); [reflexivity|]. lra.
    - assert (Hbeta : 0 < beta) by lra.
      assert (G : INR k * c / beta < sample_gamma r < (if (S k <=? m)%nat then INR (S k) * c / beta else 1)).
      { apply gamma_between. unfold bound in Hr. replace (k <=? m)%nat with true in Hr by (symmetry; apply Nat.leb_le; lia).
        rewrite <- (below_exp k). destruct Hr as [Hr1 Hr2]. split; [apply Rplus_lt_compat_l, Rmult_lt_compat_r; lra|].
        destruct (S k <=? m)%nat; [rewrite <- (below_exp (S k)); apply Rplus_lt_compat_l, Rmult_lt_compat_r; lra|].
        assert (r * (exp 1 - 1) < 1 * (exp 1 - 1)) by (apply Rmult_lt_compat_r; lra). lra. }
      assert (K0 : 0 < beta / c) by (apply Rdiv_lt_0_compat; lra).
      assert (G1 : INR k < sample_gamma r * (beta / c)).
      { replace (INR k) with (INR k * c / beta * (beta / c)) by (field; lra). apply Rmult_lt_compat_r; lra. }
      assert (G2 : sample_gamma r * (beta / c) < INR k + 1).
      { destruct (S k <=? m)%nat eqn:ES.
        - replace (INR k + 1) with (INR (S k) * c / beta * (beta / c)) by (rewrite S_INR; field; lra). apply Rmult_lt_compat_r; lra.
        - apply Nat.leb_gt in ES. assert (k = m) by lia. subst k.
          assert (sample_gamma r * (beta / c) < 1 * (beta / c)) by (apply Rmult_lt_compat_r; lra).
          assert (beta / c < INR m + 1); [|lra]. apply (Rmult_lt_reg_r c); [lra|]. unfold Rdiv. rewrite Rmult_assoc, Rinv_l by lra. lra. }
      unfold slots. rewrite (Int_part_unique _ (Z.of_nat k)); [apply Nat2Z.id|]. rewrite <- INR_IZR_INZ. lra.
  Qed.

  Lemma bound_le k : (k <= m)%nat -> bound k <= bound (S k).
  Proof.
    intros Hk. unfold bound. replace (k <=? m)%nat with true by (symmetry; apply Nat.leb_le; lia).
    destruct (Req_dec beta 0) as [E|E].
    - pose proof (no_beta E). replace k with 0%nat by lia. rewrite H. cbn [Nat.leb]. rewrite below_zero. lra.
    - assert (Hbeta : 0 < beta) by lra. destruct (Nat.leb_spec (S k) m) as [H|H].
      + apply below_le; [lra|lia|lra].
      + apply below_one; [lra|]. replace k with m by lia. exact Hlo.
  Qed.

  Lemma integral_upto k : (k <= S m)%nat ->
    is_RInt (fun r => f (slots r)) 0 (bound k) (rsum (map (fun i => weight c beta m i * f i) (seq 0 k))).
  Proof.
    induction k as [|k IH]; intros Hk.
    - unfold bound. cbn [Nat.leb seq map rsum fold_right]. rewrite below_zero. apply (is_RInt_point (V := R_NormedModule)).
    - rewrite seq_S, map_app, rsum_app. cbn [map rsum fold_right Nat.add]. rewrite Rplus_0_r.
      apply (is_RInt_Chasles (V := R_NormedModule) _ 0 (bound k) (bound (S k))); [apply IH; lia|].
      assert (EW : weight c beta m k * f k = scal (bound (S k) - bound k) (f k)).
      { change (scal (bound (S k) - bound k) (f k)) with ((bound (S k) - bound k) * f k). f_equal. unfold weight, bound.
        replace (k <=? m)%nat with true by (symmetry; apply Nat.leb_le; lia).
        destruct (Nat.eqb_spec k m) as [->|Hn].
        - replace (S m <=? m)%nat with false by (symmetry; apply Nat.leb_gt; lia). reflexivity.
        - replace (S k <=? m)%nat with true by (symmetry; apply Nat.leb_le; lia). reflexivity. }
      rewrite EW. apply (is_RInt_ext (V := R_NormedModule) (fun _ => f k)); [|apply (is_RInt_const (V := R_NormedModule))].
      intros r Hr. pose proof (bound_le k ltac:(lia)). rewrite Rmin_left, Rmax_right in Hr by assumption.
      rewrite (slots_between k r); [reflexivity|lia|lra].
  Qed.

  Lemma integral : is_RInt (fun r => f (slots r)) 0 1 (expected c beta m f).
  Proof.
    pose proof (integral_upto (S m) (le_n _)) as H. unfold bound in H. replace (S m <=? m)%nat with false in H by (symmetry; apply Nat.leb_gt; lia).
    exact H.
  Qed.
End Integral.

Lemma randomized_competitive minimize hit sched s (p : gslo Z) (n : nat) (draw : R -> Q) :
  slo_instance p -> l_d p = 1%Z -> Forall (fun l => 0 <= l)%Z (l_load p) ->
  solver_reports minimize -> evaluates minimize p hit -> (Z.of_nat n <= Z.of_nat (length (l_load p)))%Z ->
  draws p draw ->
  exists (cost : R -> R) (E : R),
    (forall r, 0 <= r <= 1 -> exists xs m k q, slo_run minimize hit sched p (draw r) true n = Ok (xs, m) /\
       slo_objective_fn s (slo_at p (Z.of_nat n)) 1 xs = Ok k /\ c_cost k = Fin q /\ cost r = Q2R q) /\
    is_RInt (V := R_NormedModule) cost 0 1 E /\
    forall ys k q, feasible_schedule (Z.of_nat n) (l_bounds p) ys ->
      slo_objective_fn s (slo_at p (Z.of_nat n)) 1 ys = Ok k -> c_cost k = Fin q ->
      E <= exp 1 / (exp 1 - 1) * Q2R q.
Proof.
  intros HP Hd HL HR HE Hn HD.
  destruct (single_list (l_bounds p)) as [u Eu]; [pose proof (si_bounds p HP); lia|].
  destruct (single_list (l_switching p)) as [b Eb]; [pose proof (si_switching p HP); lia|].
  destruct (single_list (l_hitting p)) as [c Ec]; [pose proof (si_hitting p HP); lia|].
  pose (F := fun i => match slo_objective_fn s (slo_at p (Z.of_nat n)) 1 (drawn_schedule (Z.to_nat u) i (l_load p) n) with
                      | Ok k => match c_cost k with Fin q => Q2R q | Inf => 0 end | _ => 0 end).
  assert (HF : forall i, exists k q, slo_objective_fn s (slo_at p (Z.of_nat n)) 1 (drawn_schedule (Z.to_nat u) i (l_load p) n) = Ok k /\
    c_cost k = Fin q /\ F i = Q2R q /\ Q2R q <= spent p u b c n i).
  { intros i. destruct (drawn_value minimize hit p HP HR HE Hd HL u b c Eu Eb Ec i n Hn) as (q & Eq & Hq).
    destruct (objective_value_total s p HP Hd HL u b c Eu Eb Ec n _ Hn (drawn_feasible p HP u Eu i n)) as (k & Ek & Ev).
    exists k. rewrite Eq in Ev. destruct (c_cost k) as [q'|] eqn:EK; [|contradiction]. exists q'. split; [exact Ek|]. split; [reflexivity|].
    split; [unfold F; rewrite Ek, EK; reflexivity|]. cbn [eeq] in Ev. rewrite (Qeq_eqR _ _ Ev). exact Hq. }
  pose proof (C_pos p HP c Ec) as HC. pose proof (B_nonneg p HP b Eb) as HB. pose proof (M_lo p HP b c Eb Ec) as HM. pose proof (M_hi p HP b c Eb Ec) as HM'.
  exists (fun r => F (slots (Q2R c) (Q2R b) r)), (expected (Q2R c) (Q2R b) (Z.to_nat (Qround.Qfloor (b / c))) F). split; [|split].
  - intros r Hr. destruct (HD r Hr) as [Hg HK]. specialize (HK 0%nat b c). rewrite Eb, Ec in HK. specialize (HK eq_refl eq_refl).
    destruct (drawn_run minimize hit sched p HP HR HE Hd HL u b c Eu Eb Ec (draw r) Hg n Hn) as (m & Em & _).
    rewrite HK in Em. change (Z.to_nat (Int_part (sample_gamma r * (Q2R b / Q2R c)))) with (slots (Q2R c) (Q2R b) r) in Em.
    destruct (HF (slots (Q2R c) (Q2R b) r)) as (k & q & Ek & EK & E & _). exists (drawn_schedule (Z.to_nat u) (slots (Q2R c) (Q2R b) r) (l_load p) n), m, k, q. auto.
  - apply integral; assumption.
  - intros ys k q Hy Ek EK. destruct (objective_value_total s p HP Hd HL u b c Eu Eb Ec n ys Hn Hy) as (k' & Ek' & Ev).
    assert (k' = k) by congruence. subst k'. rewrite EK in Ev. apply eeq_sym in Ev.
    pose proof (expected_within minimize hit p HP HR HE Hd HL u b c Eu Eb Ec n Hn ys q Hy Ev) as H.
    pose proof (rest_nonneg p HP u b c Eb Ec n (servers ys)) as H0.
    eapply Rle_trans; [|apply (Rle_trans _ _ _ (Rplus_le_compat_l _ _ _ H0) H)]. rewrite Rplus_0_r.
    apply expected_le; [assumption..|]. intros i _. destruct (HF i) as (k' & q' & _ & _ & -> & Hq). exact Hq.
Qed.
