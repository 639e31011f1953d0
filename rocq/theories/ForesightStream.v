(** Streaming with algorithms whose steps do not look into the future. *)
From Coq Require Import Lia.
From Verif Require Import NumLemmas StreamSpec StreamProofs ForesightSpec.
From Verif Require Import ProblemModel CostModel.
Local Open Scope Z_scope.

(** The answers of a step, up to a relation between memories. *)
Definition same_memory {M} (R : M -> M -> Prop) (m m' : option M) : Prop :=
  match m, m' with Some a, Some b => R a b | None, None => True | _, _ => False end.
Definition same_answer {X M} (R : M -> M -> Prop) (a b : outcome (X * option M)) : Prop :=
  match a, b with
  | Ok (x, m), Ok (y, m') => x = y /\ same_memory R m m'
  | Err _, Err _ => True
  | Panic, Panic => True
  | _, _ => False
  end.

Section Stream.
  Context {P X C D M : Type}.
  Variable ops : problem_ops P X C D.
  Variable same : Z -> P -> P -> Prop.
  Variable R : M -> M -> Prop.
  Variables alg alg' : online P -> Z -> list X -> M -> outcome (X * option M).
  Variables default default' : online P -> M.
  Hypothesis HL : lawful_ops ops.
  Hypothesis Hset : forall n p q t t', same n p q -> same n (po_set ops p t) (po_set ops q t').
  Hypothesis Hless : forall n n' p q, n' <= n -> same n p q -> same n' p q.
  Hypothesis Hverify : forall n w p q, po_tend ops p = po_tend ops q -> po_tend ops p <= n -> same n p q ->
    verify_o ops (mkOnline p w) = verify_o ops (mkOnline q w).
  (** The steps known to be alike (of two instances in the relation [G]). *)
  Variable G : P -> P -> Prop.
  Hypothesis HG : forall p q t t', G p q -> G (po_set ops p t) (po_set ops q t').
  Hypothesis Hstep : forall p q w t xs m m', G p q -> po_tend ops p = t -> po_tend ops q = t -> t = Z.of_nat (length xs) + 1 ->
    same (t + w) p q -> R m m' -> same_answer R (alg (mkOnline p w) t xs m) (alg' (mkOnline q w) t xs m').
  Hypothesis Hdefault : forall p q w, G p q -> po_tend ops p = po_tend ops q -> same (po_tend ops p + w) p q ->
    R (default (mkOnline p w)) (default' (mkOnline q w)).

  Lemma chosen_extends (a : online P -> Z -> list X -> M -> outcome (X * option M)) (d : online P -> M) T k : forall o xs m,
    k = Z.to_nat (T - on_w o - po_tend ops (on_p o)) -> exists ys, chosen (offline_stream_from ops a d T o xs m) = xs ++ ys.
  Proof.
    induction k as [|k IH]; intros o xs m Hk; rewrite offline_unfold by exact HL; unfold online_next;
      (destruct (negb _); [exists []; cbn; rewrite app_nil_r; reflexivity|]);
      destruct (alg_next a d o xs m) as [[x m1]|f|]; try (exists []; cbn; rewrite app_nil_r; reflexivity);
      destruct (po_tend ops (on_p o) <? T - on_w o) eqn:E; try (exists [x]; reflexivity).
    - apply Z.ltb_lt in E. lia.
    - destruct (verify_o ops (inc ops o)); try (exists [x]; reflexivity).
      destruct (IH (inc ops o) (xs ++ [x]) m1) as [ys Ey].
      + cbn [inc on_w on_p]. rewrite (proj1 HL). lia.
      + exists (x :: ys). rewrite Ey, <- app_assoc. reflexivity.
  Qed.

  Lemma stream_alike k : forall n p q w T T' xs m m', G p q -> k = (n - length xs)%nat -> (length xs <= n)%nat ->
    po_tend ops p = Z.of_nat (length xs) + 1 -> po_tend ops q = Z.of_nat (length xs) + 1 ->
    Z.of_nat n + w <= T -> Z.of_nat n + w <= T' -> same (Z.of_nat n + w) p q ->
    same_memory R m m' ->
    firstn n (chosen (offline_stream_from ops alg default T (mkOnline p w) xs m)) =
    firstn n (chosen (offline_stream_from ops alg' default' T' (mkOnline q w) xs m')).
  Proof.
    induction k as [|k IH]; intros n p q w T T' xs m m' HGp Hk Hn Hp Hq HT HT' HS HM.
    - destruct (chosen_extends alg default T _ (mkOnline p w) xs m eq_refl) as [ys ->].
      destruct (chosen_extends alg' default' T' _ (mkOnline q w) xs m' eq_refl) as [zs ->].
      assert (E : n = length xs) by lia. rewrite E, !firstn_app, Nat.sub_diag, !firstn_all, !firstn_O. reflexivity.
    - rewrite !offline_unfold by exact HL. unfold online_next. cbn [on_p on_w]. rewrite Hp, Hq, Z.eqb_refl. cbn [negb].
      unfold alg_next.
      assert (HS1 : same (Z.of_nat (length xs) + 1 + w) p q) by (eapply Hless; [|exact HS]; lia).
      assert (HM1 : R (match m with None => default (mkOnline p w) | Some m0 => m0 end)
                      (match m' with None => default' (mkOnline q w) | Some m0 => m0 end)).
      { destruct m, m'; try contradiction; [exact HM|]. apply Hdefault; [exact HGp|congruence|]. rewrite Hp. exact HS1. }
      pose proof (Hstep p q w _ xs _ _ HGp Hp Hq eq_refl HS1 HM1) as HA. unfold same_answer in HA.
      destruct (alg _ _ _ _) as [[x m1]|f|]; destruct (alg' _ _ _ _) as [[y m2]|g|]; try contradiction; try reflexivity.
      destruct HA as [<- HM2].
      destruct (Nat.eq_dec k 0) as [->|Hk0].
      + assert (En : n = (length xs + 1)%nat) by lia.
        assert (EX : forall (o : option (online P * list X * outcome (option M))) ys, chosen o = (xs ++ [x]) ++ ys -> firstn n (chosen o) = xs ++ [x]).
        { intros o ys ->. rewrite firstn_app, firstn_all2, app_length by (rewrite app_length; cbn [length]; lia). cbn [length].
          replace (n - (length xs + 1))%nat with 0%nat by lia. rewrite firstn_O, app_nil_r. reflexivity. }
        transitivity (xs ++ [x]); [|symmetry].
        * destruct (Z.of_nat (length xs) + 1 <? T - w); [|apply EX with []; cbn; rewrite app_nil_r; reflexivity].
          destruct (verify_o ops _); try (apply EX with []; cbn; rewrite app_nil_r; reflexivity).
          destruct (chosen_extends alg default T _ (inc ops (mkOnline p w)) (xs ++ [x]) m1 eq_refl) as [ys Ey]. eapply EX; exact Ey.
        * destruct (Z.of_nat (length xs) + 1 <? T' - w); [|apply EX with []; cbn; rewrite app_nil_r; reflexivity].
          destruct (verify_o ops _); try (apply EX with []; cbn; rewrite app_nil_r; reflexivity).
          destruct (chosen_extends alg' default' T' _ (inc ops (mkOnline q w)) (xs ++ [x]) m2 eq_refl) as [ys Ey]. eapply EX; exact Ey.
      + rewrite !(proj2 (Z.ltb_lt _ _)) by lia. unfold inc. cbn [on_p on_w]. rewrite Hp, Hq.
        set (p' := po_set ops p (Z.of_nat (length xs) + 1 + 1)). set (q' := po_set ops q (Z.of_nat (length xs) + 1 + 1)).
        assert (HS2 : same (Z.of_nat n + w) p' q') by (apply Hset; exact HS).
        destruct (Z_le_gt_dec 0 w) as [Hw0|Hw0].
        * rewrite <- (Hverify (Z.of_nat n + w) w p' q'); [| | |exact HS2].
          -- destruct (verify_o ops (mkOnline p' w)); try reflexivity.
             apply IH; try assumption; try (rewrite app_length; cbn [length]; lia).
             ++ apply HG; exact HGp.
             ++ unfold p'. rewrite (proj1 HL), app_length. cbn [length]. lia.
             ++ unfold q'. rewrite (proj1 HL), app_length. cbn [length]. lia.
          -- unfold p', q'. rewrite !(proj1 HL). reflexivity.
          -- unfold p'. rewrite (proj1 HL). lia.
        * assert (EV : forall o : online P, on_w o = w -> exists f, verify_o ops o = Err f \/ verify_o ops o = Panic).
          { intros o Eo. unfold verify_o, verify_online. rewrite Eo. unfold VerifyModel.assert_validity. rewrite (proj2 (Z.leb_gt 0 w)) by lia. cbn. eauto. }
          destruct (EV (mkOnline p' w) eq_refl) as [f Ef]. destruct (EV (mkOnline q' w) eq_refl) as [g Eg].
          destruct Ef as [-> | ->]; destruct Eg as [-> | ->]; reflexivity.
  Qed.
End Stream.
