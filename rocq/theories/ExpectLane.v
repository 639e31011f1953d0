(** One lane of randomised lazy budgeting with a single type of servers, against an arbitrary
    schedule of the same lane: a potential argument in expectation. *)
From Coq Require Import Reals Lra Lia List Arith.
Import ListNotations.
Local Open Scope R_scope.

Definition rsum (l : list R) : R := fold_right Rplus 0 l.

Lemma rsum_app l l' : rsum (l ++ l') = rsum l + rsum l'.
Proof. unfold rsum. induction l as [|a l IH]; cbn [app map fold_right]; [ring|]. rewrite IH. ring. Qed.
Lemma rsum_ext {A} (f g : A -> R) l : (forall a, In a l -> f a = g a) -> rsum (map f l) = rsum (map g l).
Proof. intros H. f_equal. apply map_ext_in, H. Qed.
Lemma rsum_plus {A} (f g : A -> R) l : rsum (map (fun a => f a + g a) l) = rsum (map f l) + rsum (map g l).
Proof. unfold rsum. induction l as [|a l IH]; cbn [map fold_right]; [ring|]. rewrite IH. ring. Qed.
Lemma rsum_scale {A} (f : A -> R) k l : rsum (map (fun a => k * f a) l) = k * rsum (map f l).
Proof. unfold rsum. induction l as [|a l IH]; cbn [app map fold_right]; [ring|]. rewrite IH. ring. Qed.
Lemma rsum_le {A} (f g : A -> R) l : (forall a, In a l -> f a <= g a) -> rsum (map f l) <= rsum (map g l).
Proof.
  unfold rsum. induction l as [|a l IH]; intros H; cbn [map fold_right]; [lra|]. pose proof (H a (or_introl eq_refl)). specialize (IH (fun b Hb => H b (or_intror Hb))). lra.
Qed.
Lemma rsum_swap {A B} (f : A -> B -> R) l l' :
  rsum (map (fun a => rsum (map (f a) l')) l) = rsum (map (fun b => rsum (map (fun a => f a b) l)) l').
Proof.
  induction l as [|a l IH]; cbn [map].
  - change (rsum []) with 0. induction l' as [|b l' IH']; [reflexivity|]. cbn [map]. unfold rsum in *. cbn [fold_right map] in *. rewrite <- IH'. ring.
  - change (rsum (map (f a) l') + rsum (map (fun a => rsum (map (f a) l')) l) = rsum (map (fun b => f a b + rsum (map (fun a => f a b) l)) l')).
    rewrite IH, <- rsum_plus. reflexivity.
Qed.
Lemma rsum_zero {A} (l : list A) : rsum (map (fun _ => 0) l) = 0.
Proof. unfold rsum. induction l as [|a l IH]; cbn [map fold_right]; [reflexivity|]. rewrite IH. ring. Qed.

(** *** Inequalities of the exponential function *)
Lemma exp_tangent x : 1 + x <= exp x.
Proof. apply exp_ineq1_le. Qed.
Lemma exp_secant x : 0 <= x < 1 -> exp (2 * x) * (1 - x) <= 1 + x.
Proof.
  intros Hx.
  assert (H : 0 <= (1 + x) * exp (- x) - (1 - x) * exp x).
  { set (f := fun y => (1 + y) * exp (- y) - (1 - y) * exp y). set (f' := fun y => y * (exp y - exp (- y))).
    destruct (Req_dec x 0) as [->|Hn]; [rewrite Ropp_0, exp_0; lra|].
    destruct (MVT_cor2 f f' 0 x) as (c & E & Hc); [lra| |].
    - intros c Hc. unfold f, f'.
      replace (c * (exp c - exp (- c))) with ((1 * exp (- c) + (1 + c) * (exp (- c) * - 1)) - (- 1 * exp c + (1 - c) * exp c)) by ring.
      apply (derivable_pt_lim_minus (fun y => (1 + y) * exp (- y)) (fun y => (1 - y) * exp y)).
      + apply (derivable_pt_lim_mult (fun y => 1 + y) (fun y => exp (- y))).
        * apply (eq_rect _ (derivable_pt_lim _ c) (derivable_pt_lim_plus (fun _ => 1) (fun y => y) c 0 1 (derivable_pt_lim_const 1 c) (derivable_pt_lim_id c))); ring.
        * apply (derivable_pt_lim_comp (fun y => - y) exp); [|apply derivable_pt_lim_exp].
          apply (eq_rect _ (derivable_pt_lim _ c) (derivable_pt_lim_opp (fun y => y) c 1 (derivable_pt_lim_id c))); ring.
      + apply (derivable_pt_lim_mult (fun y => 1 - y) exp); [|apply derivable_pt_lim_exp].
        apply (eq_rect _ (derivable_pt_lim _ c) (derivable_pt_lim_minus (fun _ => 1) (fun y => y) c 0 1 (derivable_pt_lim_const 1 c) (derivable_pt_lim_id c))); ring.
    - assert (E0 : f 0 = 0) by (unfold f; rewrite Ropp_0, exp_0; ring).
      assert (0 <= f' c).
      { unfold f'. apply Rmult_le_pos; [lra|]. assert (exp (- c) < exp c) by (apply exp_increasing; lra). lra. }
      assert (0 <= f' c * (x - 0)) by (apply Rmult_le_pos; lra). unfold f in *. lra. }
  replace (exp (2 * x)) with (exp x * exp x) by (rewrite <- exp_plus; f_equal; ring).
  assert (Ei : exp x * exp (- x) = 1) by (rewrite <- exp_plus; rewrite Rplus_opp_r; apply exp_0).
  assert (Hp := exp_pos x). assert (0 <= exp x * ((1 + x) * exp (- x) - (1 - x) * exp x)) by (apply Rmult_le_pos; lra).
  replace (exp x * ((1 + x) * exp (- x) - (1 - x) * exp x)) with ((1 + x) * (exp x * exp (- x)) - exp x * exp x * (1 - x)) in H0 by ring.
  rewrite Ei in H0. lra.
Qed.

Section Lane.
  (** Operating cost, switching cost; [m] is the largest number of whole slots. *)
  Variables c beta : R.
  Variable m : nat.
  Hypothesis Hc : 0 < c.
  Hypothesis Hb : 0 <= beta.
  Hypothesis Hlo : INR m * c <= beta.
  Hypothesis Hhi : beta < (INR m + 1) * c.

  Definition ratio : R := exp 1 / (exp 1 - 1).

  (** Probability that the number drawn is below that of [i] slots. *)
  Definition below (i : nat) : R := (exp (INR i * c / beta) - 1) / (exp 1 - 1).
  (** Probability that a lane is still active [g] slots after its last use. *)
  Definition still (g : nat) : R := match g with O => 1 | S _ => if (S g <=? m)%nat then 1 - below (S g) else 0 end.

  Lemma exp1_gt : 2 < exp 1.
  Proof. pose proof (exp_ineq1 1). lra. Qed.
  Lemma ratio_ge : 3 / 2 <= ratio.
  Proof.
    pose proof exp_le_3. pose proof exp1_gt. unfold ratio. apply (Rmult_le_reg_r (exp 1 - 1)); [lra|].
    unfold Rdiv at 2. rewrite Rmult_assoc, Rinv_l by lra. lra.
  Qed.
  Lemma ratio_eq x : ratio * x * (exp 1 - 1) = exp 1 * x.
  Proof. unfold ratio. pose proof exp1_gt. field. lra. Qed.

  (** Expected operating cost after [g] slots without use. *)
  Definition after (g : nat) : R := c * rsum (map still (seq (S g) (m - g))).
  Lemma after_step g : after g = c * still (S g) + after (S g).
  Proof.
    unfold after. destruct (le_lt_dec m g) as [H|H].
    - replace (m - g)%nat with 0%nat by lia. replace (m - S g)%nat with 0%nat by lia. cbn [seq map rsum fold_right].
      unfold still. replace (S (S g) <=? m)%nat with false by (symmetry; apply Nat.leb_gt; lia). ring.
    - replace (m - g)%nat with (S (m - S g)) by lia. cbn [seq map rsum fold_right]. unfold rsum. ring.
  Qed.

  Lemma below_le i j : (i <= j)%nat -> 0 < beta -> below i <= below j.
  Proof.
    intros H Hbeta. unfold below. pose proof exp1_gt. apply Rmult_le_compat_r; [left; apply Rinv_0_lt_compat; lra|].
    assert (exp (INR i * c / beta) <= exp (INR j * c / beta)); [|lra].
    assert (INR i * c / beta <= INR j * c / beta) as [H1|H1].
    { apply Rmult_le_compat_r; [left; apply Rinv_0_lt_compat; lra|]. apply Rmult_le_compat_r; [lra|]. apply le_INR, H. }
    - left. apply exp_increasing, H1.
    - rewrite H1. apply Rle_refl.
  Qed.
  Lemma below_one i : 0 < beta -> INR i * c <= beta -> below i <= 1.
  Proof.
    intros Hbeta H. unfold below. pose proof exp1_gt. apply (Rmult_le_reg_r (exp 1 - 1)); [lra|].
    unfold Rdiv at 1. rewrite Rmult_assoc, Rinv_l by lra.
    assert (INR i * c / beta <= 1) as [H1|H1].
    { apply (Rmult_le_reg_r beta); [lra|]. unfold Rdiv. rewrite Rmult_assoc, Rinv_l by lra. lra. }
    - apply exp_increasing in H1. lra.
    - rewrite H1. lra.
  Qed.
  Lemma still_range g : 0 <= still g.
  Proof.
    unfold still. destruct g; [lra|]. destruct (Nat.leb_spec (S (S g)) m) as [H|H]; [|lra].
    assert (INR (S (S g)) * c <= beta).
    { eapply Rle_trans; [|exact Hlo]. apply Rmult_le_compat_r; [lra|]. apply le_INR, H. }
    assert (0 < beta). { assert (0 < INR (S (S g)) * c) by (apply Rmult_lt_0_compat; [apply lt_0_INR; lia|lra]). lra. }
    pose proof (below_one (S (S g)) H1 H0). lra.
  Qed.
  Lemma after_nonneg g : 0 <= after g.
  Proof.
    unfold after. apply Rmult_le_pos; [lra|]. rewrite <- (rsum_zero (seq (S g) (m - g))). apply rsum_le. intros. apply still_range.
  Qed.

  (** Expected cost of a use, [g] slots without use, and the start for the next use. *)
  Definition block (g : nat) : R := c + (after 0 - after g) + beta * (1 - still g).

  Lemma block_early g : (1 <= g)%nat -> (S g <= m)%nat -> block g <= ratio * (INR (S g) * c).
  Proof.
    intros H1 H2.
    assert (Hb2 : 2 * c <= beta).
    { eapply Rle_trans; [|exact Hlo]. apply Rmult_le_compat_r; [lra|]. change 2 with (INR 2). apply le_INR. lia. }
    assert (Hbeta : 0 < beta) by lra. set (d := c / beta).
    assert (Hd : 0 < d <= 1 / 2).
    { unfold d. split; [apply Rdiv_lt_0_compat; lra|]. apply (Rmult_le_reg_r beta); [lra|]. unfold Rdiv. rewrite Rmult_assoc, Rinv_l by lra. lra. }
    assert (Ed : beta * d = c) by (unfold d; field; lra).
    assert (Eb : forall i, below i * (exp 1 - 1) = exp (INR i * d) - 1).
    { intros i. unfold below, d. pose proof exp1_gt. replace (INR i * (c / beta)) with (INR i * c / beta) by (unfold Rdiv; ring). field. lra. }
    assert (HE := exp1_gt).
    induction g as [|g IH]; [lia|]. apply (Rmult_le_reg_r (exp 1 - 1)); [lra|]. rewrite ratio_eq.
    destruct g as [|g].
    - clear IH. unfold block. rewrite (after_step 0).
      unfold still. replace (2 <=? m)%nat with true by (symmetry; apply Nat.leb_le; lia).
      replace ((c + (c * (1 - below 2) + after 1 - after 1) + beta * (1 - (1 - below 2))) * (exp 1 - 1))
        with (2 * c * (exp 1 - 1) + (beta - c) * (below 2 * (exp 1 - 1))) by ring.
      rewrite Eb. change (INR 2) with (1 + 1). pose proof (exp_secant d ltac:(lra)) as Hs.
      replace ((1 + 1) * d) with (2 * d) by ring.
      assert (beta * (exp (2 * d) * (1 - d)) <= beta * (1 + d)) by (apply Rmult_le_compat_l; lra).
      replace (beta * (exp (2 * d) * (1 - d))) with (exp (2 * d) * (beta - beta * d)) in H by ring.
      replace (beta * (1 + d)) with (beta + beta * d) in H by ring. rewrite Ed in H.
      replace ((beta - c) * (exp (2 * d) - 1)) with (exp (2 * d) * (beta - c) - (beta - c)) by ring. lra.
    - specialize (IH ltac:(lia) ltac:(lia)). apply (Rmult_le_compat_r (exp 1 - 1)) in IH; [|lra]. rewrite ratio_eq in IH.
      unfold block in *. pose proof (after_step (S g)) as EA.
      unfold still in IH, EA |- *. replace (S (S g) <=? m)%nat with true in IH by (symmetry; apply Nat.leb_le; lia).
      replace (S (S (S g)) <=? m)%nat with true in * by (symmetry; apply Nat.leb_le; lia).
      set (y := INR (S (S g)) * d).
      assert (E2 : INR (S (S (S g))) * d = y + d) by (unfold y; rewrite (S_INR (S (S g))); ring).
      assert (EI : INR (S (S (S g))) = INR (S (S g)) + 1) by apply S_INR. rewrite EI.
      replace ((c + (after 0 - after (S (S g))) + beta * (1 - (1 - below (S (S (S g)))))) * (exp 1 - 1))
        with ((c + (after 0 - after (S g)) + beta * (1 - (1 - below (S (S g))))) * (exp 1 - 1)
              + c * (exp 1 - 1) - c * (below (S (S (S g))) * (exp 1 - 1))
              + beta * (below (S (S (S g))) * (exp 1 - 1) - below (S (S g)) * (exp 1 - 1)))
        by (rewrite EA; ring).
      rewrite !Eb, E2. fold y. rewrite exp_plus.
      assert (K : beta * (exp d - 1) <= c * exp d).
      { pose proof (exp_tangent (- d)) as Ht. assert (Ei : exp d * exp (- d) = 1) by (rewrite <- exp_plus, Rplus_opp_r; apply exp_0).
        assert (Hp := exp_pos d). assert (exp d * (1 + - d) <= exp d * exp (- d)) by (apply Rmult_le_compat_l; lra). rewrite Ei in H.
        rewrite <- Ed. assert (beta * (exp d * (1 + - d)) <= beta * 1) by (apply Rmult_le_compat_l; lra). lra. }
      assert (Hp := exp_pos y). assert (exp y * (beta * (exp d - 1)) <= exp y * (c * exp d)) by (apply Rmult_le_compat_l; lra). lra.
  Qed.

  Lemma after_late g : (m <= S g)%nat -> after g = 0.
  Proof.
    intros H. rewrite after_step. unfold after. replace (m - S g)%nat with 0%nat by lia. cbn [seq map rsum fold_right].
    unfold still. replace (S (S g) <=? m)%nat with false by (symmetry; apply Nat.leb_gt; lia). ring.
  Qed.

  (** If the lane was never used, or not for long, it is not active. *)
  Lemma block_never : (c + after 0) + beta <= ratio * (c + beta) /\ ((2 <= m)%nat -> (c + after 0) + beta <= ratio * beta).
  Proof.
    pose proof ratio_ge as HR. destruct (le_lt_dec 2 m) as [H|H].
    - assert (X : (c + after 0) + beta <= ratio * beta); [|split; [|intros _; exact X]; assert (0 <= ratio * c) by (apply Rmult_le_pos; lra); lra].
      pose proof (block_early (m - 1) ltac:(lia) ltac:(lia)) as HE. replace (S (m - 1)) with m in HE by lia.
      unfold block in HE. rewrite (after_late (m - 1)) in HE by lia.
      assert (ES : still (m - 1) = 1 - below m).
      { unfold still. destruct (m - 1)%nat eqn:E; [lia|]. replace (S (S n)) with m by lia. rewrite Nat.leb_refl. reflexivity. }
      rewrite ES in HE.
      assert (Hbeta : 0 < beta). { assert (0 < INR m * c) by (apply Rmult_lt_0_compat; [apply lt_0_INR; lia|lra]). lra. }
      assert (K : beta * (1 - below m) <= ratio * (beta - INR m * c)).
      { assert (HE1 := exp1_gt). apply (Rmult_le_reg_r (exp 1 - 1)); [lra|]. rewrite ratio_eq. set (y := INR m * c / beta).
        assert (Ey : INR m * c = beta * y) by (unfold y; field; lra). rewrite Ey.
        replace (beta * (1 - below m) * (exp 1 - 1)) with (beta * (exp 1 - exp y)) by (unfold below; fold y; field; lra).
        pose proof (exp_tangent (y - 1)) as Ht. replace (1 + (y - 1)) with y in Ht by ring.
        assert (Ei : exp y = exp 1 * exp (y - 1)) by (rewrite <- exp_plus; f_equal; ring). rewrite Ei.
        assert (beta * exp 1 * y <= beta * exp 1 * exp (y - 1)) by (apply Rmult_le_compat_l; [apply Rmult_le_pos; lra|lra]). lra. }
      lra.
    - rewrite after_late by lia. split; [|lia]. assert (0 <= (ratio - 1) * (c + beta)) by (apply Rmult_le_pos; lra). lra.
  Qed.

  Lemma block_bound g : block g <= ratio * Rmin (INR (S g) * c) (beta + c).
  Proof.
    pose proof ratio_ge as HR. destruct g as [|g].
    - unfold block. cbn [still]. change (INR 1) with 1. rewrite Rmin_left by lra.
      assert (0 <= (ratio - 1) * c) by (apply Rmult_le_pos; lra). lra.
    - destruct (le_lt_dec (S (S g)) m) as [H|H].
      + rewrite Rmin_left; [apply block_early; lia|]. assert (INR (S (S g)) * c <= INR m * c) by (apply Rmult_le_compat_r; [lra|apply le_INR, H]). lra.
      + assert (EB : block (S g) = (c + after 0) + beta).
        { unfold block. rewrite (after_late (S g)) by lia. unfold still. replace (S (S g) <=? m)%nat with false by (symmetry; apply Nat.leb_gt; lia). ring. }
        rewrite EB. destruct block_never as [N1 N2]. apply Rmin_case; [|rewrite Rplus_comm; rewrite (Rplus_comm beta c); lra].
        destruct (le_lt_dec 2 m) as [Hm|Hm].
        * eapply Rle_trans; [apply N2, Hm|]. apply Rmult_le_compat_l; [lra|].
          assert (INR m + 1 <= INR (S (S g))) by (rewrite <- S_INR; apply le_INR; lia).
          assert ((INR m + 1) * c <= INR (S (S g)) * c) by (apply Rmult_le_compat_r; lra). lra.
        * rewrite after_late by lia.
          assert (INR m <= 1) by (change 1 with (INR 1); apply le_INR; lia).
          assert (2 <= INR (S (S g))) by (change 2 with (INR 2); apply le_INR; lia).
          assert (2 * c <= INR (S (S g)) * c) by (apply Rmult_le_compat_r; lra).
          assert (beta < 2 * c). { assert ((INR m + 1) * c <= 2 * c) by (apply Rmult_le_compat_r; lra). lra. }
          assert (3 / 2 * (INR (S (S g)) * c) <= ratio * (INR (S (S g)) * c)) by (apply Rmult_le_compat_r; lra). lra.
  Qed.
End Lane.
