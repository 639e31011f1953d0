(** Randomised lazy budgeting: a slot of a lane, in expectation. *)
From Coq Require Import Reals Lra Lia List Arith ZArith.
From Verif Require Import SloRatioLane ExpectLane.
Import ListNotations.
Local Open Scope R_scope.

(** Slots since the last use of a lane; [None] if it was not used so far. *)
Definition next_gap (used : bool) (g : option nat) : option nat := if used then Some 0%nat else option_map S g.
(** Whether the lane is active if [i] slots are drawn. *)
Definition active (i : nat) (g : option nat) : Z := match g with Some g => if (g <=? Nat.pred i)%nat then 1%Z else 0%Z | None => 0%Z end.

Lemma active_01 i g : active i g = 0%Z \/ active i g = 1%Z.
Proof. unfold active. destruct g as [g|]; [destruct (g <=? Nat.pred i)%nat|]; auto. Qed.

Section Step.
  Variables c beta : R.
  Variable m : nat.
  Hypothesis Hc : 0 < c.
  Hypothesis Hb : 0 <= beta.
  Hypothesis Hlo : INR m * c <= beta.
  Hypothesis Hhi : beta < (INR m + 1) * c.

  (** Probability that [i] slots are drawn. *)
  Definition weight (i : nat) : R := (if (i =? m)%nat then 1 else below c beta (S i)) - below c beta i.
  Definition expected (f : nat -> R) : R := rsum (map (fun i => weight i * f i) (seq 0 (S m))).

  Lemma below_zero : below c beta 0 = 0.
  Proof. unfold below. cbn [INR]. unfold Rdiv. rewrite !Rmult_0_l, exp_0. ring. Qed.
  Lemma tail_weights n : forall k, (n + k = m)%nat -> rsum (map weight (seq k (S n))) = 1 - below c beta k.
  Proof.
    induction n as [|n IH]; intros k Hk.
    - cbn. unfold weight. replace (k =? m)%nat with true by (symmetry; apply Nat.eqb_eq; lia). ring.
    - change (seq k (S (S n))) with (k :: seq (S k) (S n)). cbn [map]. change (rsum (?a :: ?l)) with (a + rsum l).
      rewrite IH by lia. unfold weight. replace (k =? m)%nat with false by (symmetry; apply Nat.eqb_neq; lia). ring.
  Qed.
  Lemma total_weight : rsum (map weight (seq 0 (S m))) = 1.
  Proof. rewrite tail_weights by lia. rewrite below_zero. ring. Qed.

  Lemma weight_nonneg i : In i (seq 0 (S m)) -> 0 <= weight i.
  Proof.
    intros Hi. apply in_seq in Hi. unfold weight. destruct (Nat.eqb_spec i m) as [->|Hn].
    - destruct (Req_dec beta 0) as [E|E].
      + assert (m = 0)%nat as ->. { destruct m; [reflexivity|]. assert (0 < INR (S n) * c) by (apply Rmult_lt_0_compat; [apply lt_0_INR; lia|lra]). lra. }
        rewrite below_zero. lra.
      + pose proof (below_one c beta m ltac:(lra) Hlo). lra.
    - assert (0 < beta). { assert (0 < INR m * c) by (apply Rmult_lt_0_compat; [apply lt_0_INR; lia|lra]). lra. }
      pose proof (below_le c beta Hc i (S i) ltac:(lia) H). lra.
  Qed.

  Lemma expected_plus f g : expected (fun i => f i + g i) = expected f + expected g.
  Proof. unfold expected. rewrite <- rsum_plus. apply rsum_ext. intros. ring. Qed.
  Lemma expected_scale k f : expected (fun i => k * f i) = k * expected f.
  Proof. unfold expected. rewrite <- rsum_scale. apply rsum_ext. intros. ring. Qed.
  Lemma expected_const k : expected (fun _ => k) = k.
  Proof. unfold expected. rewrite (rsum_ext _ (fun i => k * weight i)) by (intros; ring). rewrite rsum_scale, total_weight. ring. Qed.
  Lemma expected_ext f g : (forall i, (i <= m)%nat -> f i = g i) -> expected f = expected g.
  Proof. intros H. apply rsum_ext. intros i Hi. apply in_seq in Hi. rewrite H by lia. reflexivity. Qed.
  Lemma expected_le f g : (forall i, (i <= m)%nat -> f i <= g i) -> expected f <= expected g.
  Proof. intros H. apply rsum_le. intros i Hi. apply Rmult_le_compat_l; [apply weight_nonneg, Hi|]. apply in_seq in Hi. apply H. lia. Qed.
  Lemma expected_sum {A} (f : A -> nat -> R) l : expected (fun i => rsum (map (fun a => f a i) l)) = rsum (map (fun a => expected (f a)) l).
  Proof.
    unfold expected. rewrite <- (rsum_swap (fun i a => weight i * f a i)). apply rsum_ext. intros i _. rewrite <- rsum_scale. reflexivity.
  Qed.

  Lemma expected_active g : expected (fun i => IZR (active i (Some g))) = still c beta m g.
  Proof.
    unfold expected, still. destruct g as [|g].
    - rewrite (rsum_ext _ weight) by (intros; cbn; ring). apply total_weight.
    - destruct (Nat.leb_spec (S (S g)) m) as [H|H].
      + replace (S m) with (S (S g) + (S m - S (S g)))%nat by lia. rewrite seq_app, map_app, rsum_app.
        rewrite (rsum_ext _ (fun _ => 0)).
        * rewrite rsum_zero. rewrite (rsum_ext _ weight).
          -- cbn [Nat.add]. replace (S m - S (S g))%nat with (S (m - S (S g))) by lia. rewrite tail_weights by lia. ring.
          -- intros i Hi. apply in_seq in Hi. cbn [active]. replace (S g <=? Nat.pred i)%nat with true by (symmetry; apply Nat.leb_le; lia). ring.
        * intros i Hi. apply in_seq in Hi. cbn [active]. replace (S g <=? Nat.pred i)%nat with false by (symmetry; apply Nat.leb_gt; lia). ring.
      + rewrite (rsum_ext _ (fun _ => 0)); [apply rsum_zero|]. intros i Hi. apply in_seq in Hi. cbn [active].
        replace (S g <=? Nat.pred i)%nat with false by (symmetry; apply Nat.leb_gt; lia). ring.
  Qed.

  (** Cost of a slot of the lane if [i] slots are drawn, and in the other schedule. *)
  Definition lane_pay (g g' : option nat) (i : nat) : R := c * IZR (active i g') + beta * IZR (up (active i g) (active i g')).
  Definition other_pay (o o' : Z) : R := c * IZR o' + beta * IZR (up o o').

  Definition saved (g : option nat) (o : Z) : R :=
    match g with
    | Some g => after c beta m g + (if (o =? 1)%Z then ratio * Rmin (INR g * c) (c + beta) else 0)
    | None => if (o =? 1)%Z then ratio * (c + beta) else 0
    end.
  Lemma saved_nonneg g o : 0 <= saved g o.
  Proof.
    pose proof ratio_ge. destruct g as [g|]; cbn [saved].
    - pose proof (after_nonneg c beta m Hc Hlo g). destruct (o =? 1)%Z; [|lra].
      assert (0 <= ratio * Rmin (INR g * c) (c + beta)); [|lra]. apply Rmult_le_pos; [lra|].
      apply Rmin_glb; [apply Rmult_le_pos; [apply pos_INR|lra]|lra].
    - destruct (o =? 1)%Z; [|lra]. apply Rmult_le_pos; lra.
  Qed.

  Lemma expected_used g : expected (lane_pay g (Some 0%nat)) = c + beta * (1 - match g with Some g => still c beta m g | None => 0 end).
  Proof.
    rewrite (expected_ext _ (fun i => c + beta * (1 + -1 * IZR (active i g)))).
    - rewrite expected_plus, expected_scale, expected_plus, expected_scale, !expected_const. destruct g as [g|]; [rewrite expected_active; ring|].
      rewrite (expected_ext _ (fun _ => 0)) by reflexivity. rewrite expected_const. ring.
    - intros i _. unfold lane_pay. change (active i (Some 0%nat)) with 1%Z. unfold up. destruct (active_01 i g) as [-> | ->]; cbn; ring.
  Qed.
  Lemma active_less i g : (active i (option_map S g) <= active i g)%Z.
  Proof.
    destruct g as [g|]; cbn [option_map active]; [|lia].
    destruct (Nat.leb_spec (S g) (Nat.pred i)), (Nat.leb_spec g (Nat.pred i)); lia.
  Qed.
  Lemma expected_unused g : expected (lane_pay g (option_map S g)) = match g with Some g => c * still c beta m (S g) | None => 0 end.
  Proof.
    rewrite (expected_ext _ (fun i => c * IZR (active i (option_map S g)))).
    - rewrite expected_scale. destruct g as [g|]; cbn [option_map]; [rewrite expected_active; ring|].
      rewrite (expected_ext _ (fun _ => 0)) by reflexivity. rewrite expected_const. ring.
    - intros i _. unfold lane_pay. pose proof (active_less i g). unfold up. rewrite Z.max_l by lia. ring.
  Qed.

  Lemma lane_expected g used o o' : (o = 0 \/ o = 1)%Z -> (o' = 0 \/ o' = 1)%Z -> (used = true -> o' = 1)%Z ->
    expected (lane_pay g (next_gap used g)) + saved (next_gap used g) o' <= saved g o + ratio * other_pay o o'.
  Proof.
    intros Ho Ho' Hu. pose proof ratio_ge as HR.
    assert (Rc : 0 <= ratio * c) by (apply Rmult_le_pos; lra). assert (Rb : 0 <= ratio * beta) by (apply Rmult_le_pos; lra).
    unfold next_gap. destruct used.
    - specialize (Hu eq_refl). subst o'. rewrite expected_used. unfold saved at 1. cbn [Z.eqb Pos.eqb INR].
      rewrite Rmult_0_l, Rmin_left by lra. rewrite Rmult_0_r, Rplus_0_r.
      destruct g as [g|].
      + pose proof (block_bound c beta m Hc Hb Hlo Hhi g) as HB. unfold block in HB. cbn [saved]. unfold other_pay, up.
        destruct Ho as [-> | ->]; cbn [Z.eqb Z.sub Z.add Z.opp Z.pos_sub Z.max Z.compare Pos.eqb].
        * assert (ratio * Rmin (INR (S g) * c) (beta + c) <= ratio * (beta + c)) by (apply Rmult_le_compat_l; [lra|apply Rmin_r]). lra.
        * assert (ratio * Rmin (INR (S g) * c) (beta + c) <= ratio * (Rmin (INR g * c) (c + beta) + c)); [|lra].
          apply Rmult_le_compat_l; [lra|]. rewrite S_INR.
          destruct (Rle_dec (INR g * c) (c + beta)) as [H|H].
          -- rewrite (Rmin_left (INR g * c)) by lra. eapply Rle_trans; [apply Rmin_l|]. lra.
          -- rewrite (Rmin_right (INR g * c)) by lra. eapply Rle_trans; [apply Rmin_r|]. lra.
      + destruct (block_never c beta m Hc Hb Hlo) as [HB _]. cbn [saved]. unfold other_pay, up.
        destruct Ho as [-> | ->]; cbn [Z.eqb Z.sub Z.add Z.opp Z.pos_sub Z.max Z.compare Pos.eqb]; lra.
    - clear Hu. rewrite expected_unused. destruct g as [g|]; cbn [option_map saved].
      + rewrite (after_step c beta m g).
        assert (M1 : ratio * Rmin (INR (S g) * c) (c + beta) <= ratio * (Rmin (INR g * c) (c + beta) + c)).
        { apply Rmult_le_compat_l; [lra|]. rewrite S_INR. destruct (Rle_dec (INR g * c) (c + beta)) as [H|H].
          - rewrite (Rmin_left (INR g * c)) by lra. eapply Rle_trans; [apply Rmin_l|]. lra.
          - rewrite (Rmin_right (INR g * c)) by lra. eapply Rle_trans; [apply Rmin_r|]. lra. }
        assert (M2 : ratio * Rmin (INR (S g) * c) (c + beta) <= ratio * (c + beta)) by (apply Rmult_le_compat_l; [lra|apply Rmin_r]).
        assert (M3 : 0 <= ratio * Rmin (INR g * c) (c + beta)).
        { apply Rmult_le_pos; [lra|]. apply Rmin_glb; [apply Rmult_le_pos; [apply pos_INR|lra]|lra]. }
        unfold other_pay, up. destruct Ho as [-> | ->]; destruct Ho' as [-> | ->]; cbn [Z.eqb Z.sub Z.add Z.opp Z.pos_sub Z.max Z.compare Pos.eqb]; lra.
      + unfold other_pay, up. destruct Ho as [-> | ->]; destruct Ho' as [-> | ->]; cbn [Z.eqb Z.sub Z.add Z.opp Z.pos_sub Z.max Z.compare Pos.eqb]; lra.
  Qed.
End Step.
