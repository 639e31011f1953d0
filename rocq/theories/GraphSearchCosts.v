(** Movement costs between grid points, and the cost of a schedule extended by one slot. *)
From Verif Require Import NumLemmas GraphSearchModel GraphSearchOrder ObjectiveSpec.
From Coq Require Import Arith.
Local Open Scope nat_scope.

Section Costs.
  Variable val : nat -> Z.
  Hypothesis val_mono : forall i j, i <= j -> (val i <= val j)%Z.

  Lemma P_ge beta : forall w v, Forall2 le v w ->
    (power_up beta (map val w) (map val v) == 0)%Q.
  Proof.
    induction beta as [|b beta IH]; intros w v H; destruct H; cbn; try reflexivity.
    rewrite IH by auto. rewrite Z.max_l; [cbn; ring|]. apply val_mono in H. lia.
  Qed.

  Lemma P_nonneg beta : Forall (fun q => 0 <= q)%Q beta -> forall w v : list Z,
    (0 <= power_up beta w v)%Q.
  Proof.
    induction beta as [|b beta IH]; intros Hb [|i w] [|j v]; cbn; try lra.
    inversion Hb; subst. specialize (IH H2 w v).
    assert (0 <= b * inject_Z (Z.max 0 (j - i)))%Q; [|lra].
    apply Qmult_le_0_compat; auto. change 0%Q with (inject_Z 0). rewrite <- Zle_Qle. lia.
  Qed.

  Definition step (beta : list Q) (v : list nat) (l : nat) : Q :=
    (nth l beta 0%Q * inject_Z (val (nth l v 0%nat) - val (pred (nth l v 0%nat))))%Q.

  Lemma P_dec_le beta : Forall (fun q => 0 <= q)%Q beta -> forall w v l,
    length v = length beta -> length w = length beta -> l < length beta ->
    (power_up beta (map val w) (map val v)
     <= power_up beta (map val w) (map val (dec v l)) + step beta v l)%Q.
  Proof.
    unfold dec, step. induction beta as [|b beta IH]; intros Hb [|i w] [|j v] l Hv Hw Hl; cbn in *; try discriminate; try lia.
    inversion Hb; subst. destruct l as [|l]; cbn.
    - assert (M := val_mono (pred i) i ltac:(lia)).
      assert (b * inject_Z (Z.max 0 (val j - val i))
              <= b * inject_Z (Z.max 0 (val (pred j) - val i)) + b * inject_Z (val j - val (pred j)))%Q; [|lra].
      rewrite <- Qmult_plus_distr_r, <- inject_Z_plus.
      rewrite !(Qmult_comm b). apply Qmult_le_compat_r; auto. rewrite <- Zle_Qle.
      assert (M' := val_mono (pred j) j ltac:(lia)). lia.
    - specialize (IH H2 w v l ltac:(lia) ltac:(lia) ltac:(lia)). lra.
  Qed.

  Lemma P_dec_eq beta : forall w v l,
    length v = length beta -> length w = length beta -> l < length beta ->
    nth l w 0 < nth l v 0 ->
    (power_up beta (map val w) (map val v)
     == power_up beta (map val w) (map val (dec v l)) + step beta v l)%Q.
  Proof.
    unfold dec, step. induction beta as [|b beta IH]; intros [|i w] [|j v] l Hv Hw Hl Hlt; cbn in *; try discriminate; try lia.
    destruct l as [|l]; cbn in *.
    - assert (M := val_mono i (pred j) ltac:(lia)). assert (M' := val_mono (pred j) j ltac:(lia)).
      rewrite !Z.max_r by lia. unfold Z.sub. rewrite !inject_Z_plus, !inject_Z_opp. ring.
    - rewrite (IH w v l) by lia. ring.
  Qed.

  Lemma weighted_dec beta : forall v l, length v = length beta -> l < length beta ->
    (weighted beta (map val v) == weighted beta (map val (dec v l)) + step beta v l)%Q.
  Proof.
    unfold dec, step. induction beta as [|b beta IH]; intros [|j v] l Hv Hl; cbn in *; try discriminate; try lia.
    destruct l as [|l]; cbn in *.
    - unfold Z.sub. rewrite !inject_Z_plus, !inject_Z_opp. ring.
    - rewrite (IH v l) by lia. ring.
  Qed.
End Costs.

Lemma Forall2_le_dec v : forall w, length v = length w ->
  {Forall2 le v w} + {exists l, l < length v /\ nth l w 0 < nth l v 0}.
Proof.
  induction v as [|x v IH]; intros [|y w] H; cbn in *; try discriminate; [left; constructor|].
  destruct (le_dec x y) as [Hle|Hgt].
  - destruct (IH w ltac:(lia)) as [Hf|He]; [left; constructor; auto|].
    right. destruct He as (l & Hl & Hlt). exists (S l). cbn. split; [lia|auto].
  - right. exists 0. cbn. split; lia.
Qed.

Lemma Forall2_le_split v : forall w, Forall2 le v w ->
  v = w \/ exists l, l < length v /\ nth l v 0 < nth l w 0.
Proof.
  intros w H. induction H as [|x y v w Hxy H IH]; [auto|].
  destruct (Nat.eq_dec x y) as [->|Hne].
  - destruct IH as [->|(l & Hl & Hlt)]; [auto|]. right. exists (S l). cbn. split; [lia|auto].
  - right. exists 0. cbn. split; lia.
Qed.

Lemma Forall2_le_nth v w : length v = length w -> (forall k, nth k v 0 <= nth k w 0) -> Forall2 le v w.
Proof. intros; apply box_intro; auto. Qed.

Lemma Forall2_le_nth' v w k : Forall2 le v w -> nth k v 0 <= nth k w 0.
Proof. intros; apply (box_nth w v k); auto. Qed.

Lemma last_snoc {A} (l : list A) a x : last (l ++ [a]) x = a.
Proof. apply last_last. Qed.

Lemma total_cost_snoc {X} (f : Z -> X -> ext) sw alpha xs : forall t x0 x,
  eeq (total_cost f sw alpha t x0 (xs ++ [x]))
      (eadd (total_cost f sw alpha t x0 xs)
            (eadd (f (t + Z.of_nat (length xs))%Z x) (Fin (alpha * sw (last xs x0) x)))).
Proof.
  induction xs as [|y xs IH]; intros t x0 x.
  - cbn [app total_cost length last]. change (Z.of_nat 0) with 0%Z. rewrite Z.add_0_r.
    rewrite eadd_0_r, eadd_0_l. reflexivity.
  - cbn [app total_cost length]. rewrite IH.
    replace (t + 1 + Z.of_nat (length xs))%Z with (t + Z.of_nat (S (length xs)))%Z by lia.
    replace (last (y :: xs) x0) with (last xs y).
    2:{ destruct xs as [|z xs]; [reflexivity|]. cbn [last].
        clear. revert z. induction xs; intros z; [reflexivity|]. cbn [last] in *. apply IHxs. }
    rewrite eadd_assoc. reflexivity.
Qed.
