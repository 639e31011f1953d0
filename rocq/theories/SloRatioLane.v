(** One lane of lazy budgeting with a single type of servers, against an arbitrary schedule
    of the same lane: a potential argument. *)
From Coq Require Import Lia Lqa ZArith QArith.
From Verif Require Import NumLemmas.
From Verif Require Import ProblemModel.
Local Open Scope Z_scope.

Definition up (a b : Z) : Z := Z.max 0 (b - a).

Section Lane.
  (** Operating cost, switching cost, and idle time of the type. *)
  Variables c beta : Q.
  Variable tau : Z.
  Hypothesis Hc : (0 < c)%Q.
  Hypothesis Htau : 0 <= tau.
  Hypothesis Hlo : (c * inject_Z tau <= beta)%Q.
  Hypothesis Hhi : (beta < c * inject_Z (tau + 1))%Q.

  Definition longest : Z := Z.max 0 (tau - 1).
  Definition left (h t : Z) : Z := Z.max 0 (h - t - 1).

  (** What is left of twice the cost of the other schedule (in which the lane is [o]) after
      slot [t], if the algorithm has the lane [a] with horizon [h]. *)
  Definition potential (t a h o : Z) : Q :=
    if a =? 1 then
      if o =? 1 then (c * inject_Z (2 * longest - left h t))%Q else (c * inject_Z (left h t))%Q
    else if o =? 1 then (c * inject_Z (2 * longest + 2))%Q else 0%Q.

  Lemma scaled_le a b : a <= b -> (c * inject_Z a <= c * inject_Z b)%Q.
  Proof. intros H. apply Qmult_le_l; [exact Hc|]. rewrite <- Zle_Qle. exact H. Qed.

  Lemma potential_nonneg t a h o : (a = 1 -> h <= t + tau) -> (0 <= potential t a h o)%Q.
  Proof.
    intros Hh. assert (E : (c * inject_Z 0 == 0)%Q) by (change (inject_Z 0) with 0%Q; lra).
    unfold potential. destruct (Z.eqb_spec a 1) as [Ea|Ea]; destruct (Z.eqb_spec o 1) as [Eo|Eo]; try lra;
      rewrite <- E; apply scaled_le; unfold longest, left in *; lia.
  Qed.

  Definition pay (o o' : Z) : Q := (c * inject_Z o' + beta * inject_Z (up o o'))%Q.

  Lemma lane_slot t a h q o a' h' o' :
    (a = 0 \/ a = 1) -> (o = 0 \/ o = 1) -> (o' = 0 \/ o' = 1) -> (q = 0 \/ q = 1) -> q <= o' ->
    (a = 1 -> h <= t + tau) ->
    (a < q \/ h <= t + 1 -> a' = q /\ h' = t + 1 + (if q =? 0 then 0 else tau)) ->
    (q <= a -> t + 1 < h -> a' = a /\ h' = Z.max h (t + 1 + (if q =? 0 then 0 else tau))) ->
    (pay a a' + potential (t + 1) a' h' o' <= potential t a h o + 2 * pay o o')%Q /\
    (a' = 0 \/ a' = 1) /\ (a' = 1 -> h' <= t + 1 + tau).
  Proof.
    intros Ha Ho Ho' Hq Hqo Hh R1 R2.
    assert (E0 : (c * inject_Z 0 == 0)%Q) by (change (inject_Z 0) with 0%Q; lra).
    assert (E1 : (c * inject_Z 1 == c)%Q) by (change (inject_Z 1) with 1%Q; lra).
    assert (B0 : (beta * inject_Z 0 == 0)%Q) by (change (inject_Z 0) with 0%Q; lra).
    assert (B1 : (beta * inject_Z 1 == beta)%Q) by (change (inject_Z 1) with 1%Q; lra).
    assert (Hb : (0 <= beta)%Q) by (pose proof (scaled_le 0 tau Htau); lra).
    assert (HK : (c * inject_Z longest <= beta)%Q).
    { eapply Qle_trans; [|exact Hlo]. apply scaled_le. unfold longest. lia. }
    assert (HK' : (beta <= c * inject_Z longest + 2 * c)%Q).
    { assert (F : (c * inject_Z (tau + 1) <= c * inject_Z (longest + 2))%Q) by (apply scaled_le; unfold longest; lia).
      rewrite (inject_Z_plus longest 2) in F. change (inject_Z 2) with 2%Q in F. lra. }
    assert (HKp : (0 <= c * inject_Z longest)%Q).
    { rewrite <- E0. apply scaled_le. unfold longest. lia. }
    assert (D1 : (c * inject_Z (2 * longest + 2) == 2 * (c * inject_Z longest) + 2 * c)%Q).
    { rewrite inject_Z_plus, inject_Z_mult. change (inject_Z 2) with 2%Q. ring. }
    assert (D2 : forall r, (c * inject_Z (2 * longest - r) == 2 * (c * inject_Z longest) - c * inject_Z r)%Q).
    { intros r. unfold Z.sub. rewrite inject_Z_plus, inject_Z_mult, inject_Z_opp. change (inject_Z 2) with 2%Q. ring. }
    assert (D3 : forall r, (c * inject_Z (r - 1) == c * inject_Z r - c)%Q).
    { intros r. unfold Z.sub. rewrite inject_Z_plus. change (inject_Z (- (1))) with (-1)%Q. ring. }
    (* the remaining idle time *)
    assert (HR : 0 <= left h t) by (unfold left; lia).
    assert (HRv : (0 <= c * inject_Z (left h t))%Q) by (rewrite <- E0; apply scaled_le, HR).
    destruct Ha as [-> | ->].
    - (* inactive *)
      destruct Hq as [-> | ->].
      + assert (a' = 0) as ->. { destruct (Z_le_gt_dec h (t + 1)); [apply R1; lia|apply R2; lia]. }
        split; [|split; [lia|lia]].
        unfold pay, potential, up. destruct Ho as [-> | ->]; destruct Ho' as [-> | ->]; cbn [Z.eqb Pos.eqb Z.sub Z.add Z.opp Z.pos_sub Z.max Z.compare Pos.compare Pos.compare_cont];
          rewrite ?E0, ?E1, ?B0, ?B1, ?D1; lra.
      + destruct R1 as [-> ->]; [lia|]. destruct Ho' as [-> | ->]; [lia|]. cbn [Z.eqb].
        assert (EL : left (t + 1 + tau) (t + 1) = longest) by (unfold left, longest; lia).
        split; [|split; lia].
        unfold pay, potential, up. rewrite EL. destruct Ho as [-> | ->];
          cbn [Z.eqb Pos.eqb Z.sub Z.add Z.opp Z.pos_sub Z.max Z.compare Pos.compare Pos.compare_cont];
          rewrite ?E0, ?E1, ?B0, ?B1, ?D1, ?D2; lra.
    - (* active *)
      specialize (Hh eq_refl).
      assert (HRK : (c * inject_Z (left h t) <= c * inject_Z longest)%Q) by (apply scaled_le; unfold left, longest; lia).
      destruct Hq as [-> | ->].
      + destruct (Z_le_gt_dec h (t + 1)) as [C|C].
        * destruct R1 as [-> ->]; [lia|]. split; [|split; lia].
          assert (EL : left h t = 0) by (unfold left; lia). 
          unfold pay, potential, up. rewrite EL. destruct Ho as [-> | ->]; destruct Ho' as [-> | ->];
            cbn [Z.eqb Pos.eqb Z.sub Z.add Z.opp Z.pos_sub Z.max Z.compare Pos.compare Pos.compare_cont];
            rewrite ?E0, ?E1, ?B0, ?B1, ?D1, ?D2, ?E0; lra.
        * destruct R2 as [-> ->]; [lia|lia|]. cbn [Z.eqb].
          replace (Z.max h (t + 1 + 0)) with h by lia. split; [|split; lia].
          assert (EL : left h (t + 1) = left h t - 1) by (unfold left; lia).
          assert (HL1 : (c <= c * inject_Z (left h t))%Q).
          { rewrite <- E1 at 1. apply scaled_le. unfold left; lia. }
          unfold pay, potential, up. rewrite EL. destruct Ho as [-> | ->]; destruct Ho' as [-> | ->];
            cbn [Z.eqb Pos.eqb Z.sub Z.add Z.opp Z.pos_sub Z.max Z.compare Pos.compare Pos.compare_cont];
            rewrite ?D2, ?D3, ?E0, ?E1, ?B0, ?B1; lra.
      + destruct Ho' as [-> | ->]; [lia|].
        assert (a' = 1 /\ h' = t + 1 + tau) as [-> ->].
        { destruct (Z_le_gt_dec h (t + 1)); [destruct R1 as [-> ->]; [lia|cbn [Z.eqb]; split; lia]|].
          destruct R2 as [-> ->]; [lia|lia|]. cbn [Z.eqb]. split; lia. }
        assert (EL : left (t + 1 + tau) (t + 1) = longest) by (unfold left, longest; lia).
        split; [|split; lia].
        unfold pay, potential, up. rewrite EL. destruct Ho as [-> | ->];
          cbn [Z.eqb Pos.eqb Z.sub Z.add Z.opp Z.pos_sub Z.max Z.compare Pos.compare Pos.compare_cont];
          rewrite ?E0, ?E1, ?B0, ?B1, ?D1, ?D2; lra.
  Qed.
End Lane.
