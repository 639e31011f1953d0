(** The rounding of binary64 rounds to the nearest number with a relative error of at most 2^-53. *)
From Verif Require Import NumLemmas FloatModel FloatSpec.
From Coq Require Import Lqa Qabs Qround Qpower Lia.
Local Open Scope Q_scope.

Definition pow2 (e : Z) : Q := Qpower 2 e.

Lemma pow2_pos e : 0 < pow2 e.
Proof. unfold pow2. apply Qpower_0_lt. lra. Qed.

Lemma pow2_plus a b : pow2 (a + b) == pow2 a * pow2 b.
Proof. unfold pow2. apply Qpower_plus. lra. Qed.

Lemma pow2_nonneg_Z n : (0 <= n)%Z -> pow2 n == inject_Z (2 ^ n).
Proof.
  intros H. unfold pow2. rewrite <- (Z2Nat.id n) by auto. generalize (Z.to_nat n). intros k.
  induction k as [|k IH].
  - reflexivity.
  - rewrite Nat2Z.inj_succ. unfold Z.succ. rewrite Qpower_plus by lra. rewrite IH.
    rewrite Z.pow_add_r by lia. rewrite inject_Z_mult. reflexivity.
Qed.

Lemma pow2_le a b : (a <= b)%Z -> pow2 a <= pow2 b.
Proof.
  intros H. replace b with (a + (b - a))%Z by lia. rewrite pow2_plus.
  assert (1 <= pow2 (b - a)).
  { rewrite pow2_nonneg_Z by lia. change 1 with (inject_Z 1). rewrite <- Zle_Qle.
    assert (0 < 2 ^ (b - a))%Z by (apply Z.pow_pos_nonneg; lia). lia. }
  assert (Hp := pow2_pos a). nra.
Qed.

Lemma ilog2_spec q : 0 < q -> pow2 (ilog2 q) <= q /\ q < pow2 (ilog2 q + 1).
Proof.
  intros Hq. destruct q as [n d]. assert (Hn : (0 < n)%Z) by (unfold Qlt in Hq; cbn in Hq; lia).
  unfold ilog2. cbn [Qnum Qden].
  assert (H1 := Z.log2_spec n Hn). assert (H2 := Z.log2_spec (Zpos d) ltac:(lia)).
  set (a := Z.log2 n) in *. set (c := Z.log2 (Zpos d)) in *.
  assert (Ha : (0 <= a)%Z) by apply Z.log2_nonneg. assert (Hc : (0 <= c)%Z) by apply Z.log2_nonneg.
  assert (E : n # d == inject_Z n * / inject_Z (Zpos d)) by apply Qmake_Qdiv.
  assert (Hd : 0 < inject_Z (Zpos d)) by reflexivity.
  assert (Hi : n # d == inject_Z n / inject_Z (Zpos d)) by exact E.
  assert (Up : n # d < pow2 (a - c + 1)).
  { rewrite Hi. apply Qlt_shift_div_r; auto.
    assert (X : inject_Z n < pow2 (a + 1)) by (rewrite pow2_nonneg_Z by lia; rewrite <- Zlt_Qlt; apply H1).
    assert (Y : pow2 c <= inject_Z (Zpos d)) by (rewrite pow2_nonneg_Z by lia; rewrite <- Zle_Qle; apply H2).
    replace (a + 1)%Z with ((a - c + 1) + c)%Z in X by lia. rewrite pow2_plus in X.
    assert (Hp := pow2_pos (a - c + 1)). nra. }
  assert (Dn : pow2 (a - c - 1) < n # d).
  { rewrite Hi. apply Qlt_shift_div_l; auto.
    assert (X : pow2 a <= inject_Z n) by (rewrite pow2_nonneg_Z by lia; rewrite <- Zle_Qle; apply H1).
    assert (Y : inject_Z (Zpos d) < pow2 (c + 1)) by (rewrite pow2_nonneg_Z by lia; rewrite <- Zlt_Qlt; apply H2).
    replace a with ((a - c - 1) + (c + 1))%Z in X by lia. rewrite pow2_plus in X.
    assert (Hp := pow2_pos (a - c - 1)). nra. }
  destruct (Qle_bool (Qpower 2 (a - c)) (n # d)) eqn:El.
  - apply Qle_bool_iff in El. split; auto.
  - split; [apply Qlt_le_weak; exact Dn|]. replace (a - c - 1 + 1)%Z with (a - c)%Z by lia.
    apply Qnot_le_lt. intros X. apply Qle_bool_iff in X. unfold pow2 in X. congruence.
Qed.

Lemma nearest_even_spec q : Qabs (inject_Z (nearest_even q) - q) <= 1 # 2.
Proof.
  unfold nearest_even. assert (H1 := Qfloor_le q). assert (H2 := Qlt_floor q).
  rewrite inject_Z_plus in H2. change (inject_Z 1) with 1 in H2.
  set (f := Qfloor q) in *. apply Qabs_Qle_condition.
  destruct (Qltb (q - inject_Z f) (1 # 2)) eqn:E1; [apply Qltb_iff in E1; lra|apply Qltb_false in E1].
  destruct (Qltb (1 # 2) (q - inject_Z f)) eqn:E2; [apply Qltb_iff in E2|apply Qltb_false in E2].
  - rewrite inject_Z_plus. change (inject_Z 1) with 1. lra.
  - destruct (Z.even f); [lra|]. rewrite inject_Z_plus. change (inject_Z 1) with 1. lra.
Qed.

Lemma nearest_even_bounds q :
  inject_Z (nearest_even q) - q <= 1 # 2 /\ q - inject_Z (nearest_even q) <= 1 # 2.
Proof.
  assert (H := nearest_even_spec q). apply Qabs_Qle_condition in H. lra.
Qed.

Lemma nearest_even_closest q z : Qabs (inject_Z (nearest_even q) - q) <= Qabs (inject_Z z - q).
Proof.
  destruct (Z.eq_dec z (nearest_even q)) as [->|Hne]; [lra|].
  assert (H := nearest_even_bounds q).
  assert (D : (z + 1 <= nearest_even q)%Z \/ (nearest_even q + 1 <= z)%Z) by lia.
  set (r := nearest_even q) in *.
  assert (Qabs (inject_Z r - q) <= 1 # 2) by (apply Qabs_Qle_condition; lra).
  destruct D as [D|D]; rewrite Zle_Qle in D; rewrite inject_Z_plus in D; change (inject_Z 1) with 1 in D.
  - apply Qle_trans with (1 # 2); auto. rewrite Qabs_Qminus. rewrite Qabs_pos by lra. lra.
  - apply Qle_trans with (1 # 2); auto. rewrite Qabs_pos by lra. lra.
Qed.

Lemma nearest_even_int z q : q == inject_Z z -> nearest_even q = z.
Proof.
  intros E. assert (H := nearest_even_bounds q).
  assert (inject_Z (nearest_even q) < inject_Z (z + 1)).
  { rewrite inject_Z_plus. change (inject_Z 1) with 1. lra. }
  assert (inject_Z z < inject_Z (nearest_even q + 1)).
  { rewrite inject_Z_plus. change (inject_Z 1) with 1. lra. }
  rewrite <- Zlt_Qlt in *. lia.
Qed.

Lemma nearest_even_mono x y : x <= y -> (nearest_even x <= nearest_even y)%Z.
Proof.
  intros Hxy. destruct (Z_le_gt_dec (nearest_even x) (nearest_even y)) as [|G]; auto. exfalso.
  assert (Hx := nearest_even_bounds x). assert (Hy := nearest_even_bounds y).
  assert (G' : inject_Z (nearest_even y + 1) <= inject_Z (nearest_even x)) by (rewrite <- Zle_Qle; lia).
  rewrite inject_Z_plus in G'. change (inject_Z 1) with 1 in G'.
  assert (E : x == y) by lra.
  assert (nearest_even x = nearest_even y).
  { unfold nearest_even. rewrite (Qfloor_comp x y E).
    assert (E1 : Qltb (x - inject_Z (Qfloor y)) (1 # 2) = Qltb (y - inject_Z (Qfloor y)) (1 # 2)).
    { apply eq_true_iff_eq. rewrite !Qltb_iff. rewrite E. reflexivity. }
    assert (E2 : Qltb (1 # 2) (x - inject_Z (Qfloor y)) = Qltb (1 # 2) (y - inject_Z (Qfloor y))).
    { apply eq_true_iff_eq. rewrite !Qltb_iff. rewrite E. reflexivity. }
    rewrite E1, E2. reflexivity. }
  lia.
Qed.

Notation ulpe := ulp_exponent.

Lemma ulpe_spec q : 0 < q -> (-1074 <= ulpe q)%Z /\ q < pow2 (ulpe q + 53) /\
  (ulpe q = (-1074)%Z \/ pow2 (ulpe q + 52) <= q).
Proof.
  intros Hq. destruct (ilog2_spec q Hq) as [H1 H2]. unfold ulp_exponent.
  destruct (Z.max_spec (ilog2 q - 52) (-1074)) as [[A ->]|[A ->]].
  - split; [lia|]. split; [|auto]. eapply Qlt_le_trans; [exact H2|]. apply pow2_le. lia.
  - split; [lia|]. split; [|right].
    + replace (ilog2 q - 52 + 53)%Z with (ilog2 q + 1)%Z by lia. exact H2.
    + replace (ilog2 q - 52 + 52)%Z with (ilog2 q) by lia. exact H1.
Qed.

Lemma ulpe_mono x y : 0 < x -> x <= y -> (ulpe x <= ulpe y)%Z.
Proof.
  intros Hx Hxy. unfold ulp_exponent.
  assert (ilog2 x <= ilog2 y)%Z; [|lia].
  destruct (ilog2_spec x Hx) as [H1 _]. destruct (ilog2_spec y ltac:(lra)) as [_ H2].
  destruct (Z_le_gt_dec (ilog2 x) (ilog2 y)); auto. exfalso.
  assert (H3 := pow2_le (ilog2 y + 1) (ilog2 x) ltac:(lia)). lra.
Qed.

Lemma binary64_pos q : 0 < q ->
  binary64 q = inject_Z (nearest_even (q / pow2 (ulpe q))) * pow2 (ulpe q).
Proof.
  intros H. unfold binary64. destruct (Qle_bool q 0) eqn:E; [|reflexivity].
  apply Qle_bool_iff in E. lra.
Qed.

Lemma binary64_zero q : q == 0 -> binary64 q = 0.
Proof.
  intros H. unfold binary64. destruct (Qle_bool q 0) eqn:E; [reflexivity|].
  assert (Qle_bool q 0 = true) by (apply Qle_bool_iff; lra). congruence.
Qed.

Lemma scaled q e : q == (q / pow2 e) * pow2 e.
Proof. assert (H := pow2_pos e). field. lra. Qed.

Lemma div_le_pow q e r : q <= inject_Z r * pow2 e -> q / pow2 e <= inject_Z r.
Proof. intros H. apply Qle_shift_div_r; [apply pow2_pos|]. exact H. Qed.

Lemma binary64_le q z e : 0 < q -> e = ulpe q -> q <= inject_Z z * pow2 e -> binary64 q <= inject_Z z * pow2 e.
Proof.
  intros Hq -> H. rewrite binary64_pos by auto. apply Qmult_le_compat_r; [|apply Qlt_le_weak, pow2_pos].
  rewrite <- Zle_Qle. rewrite <- (nearest_even_int z (inject_Z z)) at 1 by reflexivity.
  apply nearest_even_mono. apply div_le_pow. exact H.
Qed.

Lemma binary64_ge q z e : 0 < q -> e = ulpe q -> inject_Z z * pow2 e <= q -> inject_Z z * pow2 e <= binary64 q.
Proof.
  intros Hq -> H. rewrite binary64_pos by auto. apply Qmult_le_compat_r; [|apply Qlt_le_weak, pow2_pos].
  rewrite <- Zle_Qle. rewrite <- (nearest_even_int z (inject_Z z)) at 1 by reflexivity.
  apply nearest_even_mono. apply Qle_shift_div_l; [apply pow2_pos|]. exact H.
Qed.

Lemma pow2_split n e : (0 <= n)%Z -> pow2 (e + n) == inject_Z (2 ^ n) * pow2 e.
Proof. intros H. rewrite pow2_plus, (pow2_nonneg_Z n H). ring. Qed.

Lemma binary64_mono x y : 0 <= x -> x <= y -> binary64 x <= binary64 y.
Proof.
  intros Hx Hxy. destruct (Qlt_le_dec 0 x) as [Hp|Hn].
  - assert (Hy : 0 < y) by lra.
    assert (M := ulpe_mono x y Hp Hxy).
    destruct (Z.eq_dec (ulpe x) (ulpe y)) as [E|E].
    + rewrite (binary64_pos x), (binary64_pos y) by auto. rewrite E.
      apply Qmult_le_compat_r; [|apply Qlt_le_weak, pow2_pos]. rewrite <- Zle_Qle.
      apply nearest_even_mono. apply Qmult_le_compat_r; auto.
      apply Qinv_le_0_compat, Qlt_le_weak, pow2_pos.
    + destruct (ulpe_spec x Hp) as (X1 & X2 & _). destruct (ulpe_spec y Hy) as (_ & _ & [Y|Y]); [lia|].
      apply Qle_trans with (pow2 (ulpe x + 53)); [|apply Qle_trans with (pow2 (ulpe y + 52))].
      * rewrite (pow2_split 53) by lia. apply binary64_le; auto. rewrite <- (pow2_split 53) by lia. lra.
      * apply pow2_le. lia.
      * rewrite (pow2_split 52) by lia. apply binary64_ge; auto. rewrite <- (pow2_split 52) by lia. exact Y.
  - rewrite (binary64_zero x) by lra. destruct (Qlt_le_dec 0 y) as [Hp|Hy].
    + setoid_replace 0 with (inject_Z 0 * pow2 (ulpe y)) by (change (inject_Z 0) with 0; ring).
      apply binary64_ge; auto. change (inject_Z 0) with 0. lra.
    + rewrite (binary64_zero y) by lra. lra.
Qed.

Lemma binary64_in q : 0 <= q -> binary64_number (binary64 q).
Proof.
  intros Hq. destruct (Qlt_le_dec 0 q) as [Hp|Hn].
  - destruct (ulpe_spec q Hp) as (H1 & H2 & _). exists (nearest_even (q / pow2 (ulpe q))), (ulpe q).
    split; [|split; [exact H1|rewrite binary64_pos by auto; reflexivity]].
    split.
    + rewrite <- (nearest_even_int 0 0) at 1 by reflexivity. apply nearest_even_mono.
      apply Qle_shift_div_l; [apply pow2_pos|]. lra.
    + rewrite <- (nearest_even_int (2 ^ 53) (inject_Z (2 ^ 53))) by reflexivity. apply nearest_even_mono.
      apply div_le_pow. rewrite <- (pow2_split 53) by lia. lra.
  - rewrite binary64_zero by lra. exists 0%Z, 0%Z. split; [lia|]. split; [lia|]. change (inject_Z 0) with 0. ring.
Qed.

(** A number of the format is a multiple of the unit of every number not below it. *)
Lemma number_multiple y q : binary64_number y -> 0 < q -> q <= y -> exists z, y == inject_Z z * pow2 (ulpe q).
Proof.
  intros (m & f & Hm & Hf & E) Hq Hqy. change (Qpower 2 f) with (pow2 f) in E.
  destruct (ulpe_spec q Hq) as (H1 & H2 & H3). set (e := ulpe q) in *.
  destruct (Z_le_gt_dec e f) as [Hef|Hef].
  - exists (m * 2 ^ (f - e))%Z. rewrite E. replace f with (e + (f - e))%Z at 1 by lia.
    rewrite pow2_split by lia. rewrite inject_Z_mult. ring.
  - destruct H3 as [H3|H3]; [lia|].
    assert (Hle : inject_Z (2 ^ (e + 52 - f)) <= inject_Z m).
    { assert (X : inject_Z (2 ^ (e + 52 - f)) * pow2 f <= inject_Z m * pow2 f).
      { rewrite <- pow2_split by lia. replace (f + (e + 52 - f))%Z with (e + 52)%Z by lia. rewrite <- E. lra. }
      apply Qmult_le_r in X; auto. apply pow2_pos. }
    rewrite <- Zle_Qle in Hle.
    assert (Hpw : (2 ^ 53 <= 2 ^ (e + 52 - f))%Z) by (apply Z.pow_le_mono_r; lia).
    assert (Em : m = (2 ^ 53)%Z) by lia.
    assert (Ee : (e + 52 - f <= 53)%Z).
    { destruct (Z_le_gt_dec (e + 52 - f) 53); auto. exfalso.
      assert (2 ^ 53 < 2 ^ (e + 52 - f))%Z by (apply Z.pow_lt_mono_r; lia). lia. }
    exists (2 ^ 52)%Z. rewrite E, Em. rewrite <- !pow2_split by lia.
    replace (f + 53)%Z with (e + 52)%Z by lia. reflexivity.
Qed.

Lemma binary64_keeps x : binary64_number x -> binary64 x == x.
Proof.
  intros Hx. destruct (Qlt_le_dec 0 x) as [Hp|Hn].
  - destruct (number_multiple x x Hx Hp ltac:(lra)) as (z & E).
    rewrite binary64_pos by auto. rewrite (nearest_even_int z).
    + symmetry. exact E.
    + assert (P := pow2_pos (ulpe x)). set (e := ulpe x) in *. rewrite E. field. lra.
  - destruct Hx as (m & f & Hm & _ & E).
    assert (0 <= x).
    { rewrite E. apply Qmult_le_0_compat; [change 0 with (inject_Z 0); rewrite <- Zle_Qle; lia|].
      apply Qlt_le_weak, pow2_pos. }
    rewrite binary64_zero by lra. lra.
Qed.

(** Rounding error: at most half a unit. *)
Lemma binary64_error q : 0 < q ->
  binary64 q - q <= pow2 (ulpe q - 1) /\ q - binary64 q <= pow2 (ulpe q - 1).
Proof.
  intros Hq. rewrite binary64_pos by auto. set (e := ulpe q).
  assert (H := nearest_even_bounds (q / pow2 e)). assert (P := pow2_pos e).
  assert (E := scaled q e). assert (Eh : pow2 (e - 1) == (1 # 2) * pow2 e).
  { replace (e - 1)%Z with (e + (-1))%Z by lia. rewrite pow2_plus. change (pow2 (-1)) with (1 # 2). ring. }
  set (r := inject_Z (nearest_even (q / pow2 e))) in *. set (y := q / pow2 e) in *.
  rewrite Eh, E. split; nra.
Qed.

Lemma pow2_53 : pow2 (-53) * pow2 52 == pow2 (-1).
Proof. rewrite <- pow2_plus. reflexivity. Qed.

Lemma binary64_rel q : 0 < q -> pow2 (ulpe q + 52) <= q ->
  (1 - pow2 (-53)) * q <= binary64 q /\ binary64 q <= (1 + pow2 (-53)) * q.
Proof.
  intros Hq H. destruct (binary64_error q Hq) as [H1 H2]. set (e := ulpe q) in *.
  assert (E : pow2 (e - 1) == pow2 (-53) * pow2 (e + 52)).
  { rewrite <- pow2_plus. replace (-53 + (e + 52))%Z with (e - 1)%Z by lia. reflexivity. }
  assert (P := pow2_pos (-53)). assert (pow2 (-53) * pow2 (e + 52) <= pow2 (-53) * q) by nra.
  split; lra.
Qed.

(** The nearest number of the format. *)
Lemma binary64_closest q y : 0 <= q -> binary64_number y -> Qabs (binary64 q - q) <= Qabs (y - q).
Proof.
  intros Hq Hy. destruct (Qlt_le_dec 0 q) as [Hp|Hn].
  - destruct (ulpe_spec q Hp) as (H1 & H2 & H3).
    assert (Key : forall z, Qabs (binary64 q - q) <= Qabs (inject_Z z * pow2 (ulpe q) - q)).
    { intros z. rewrite binary64_pos by auto. set (e := ulpe q).
      assert (P := pow2_pos e).
      assert (A : forall w, inject_Z w * pow2 e - q == (inject_Z w - q / pow2 e) * pow2 e).
      { intros w. rewrite (scaled q e) at 1. ring. }
      rewrite !A, !Qabs_Qmult. apply Qmult_le_compat_r; [|apply Qabs_nonneg]. apply nearest_even_closest. }
    destruct (Qlt_le_dec y q) as [Hlt|Hge].
    + destruct Hy as (m & f & Hm & Hf & E). change (Qpower 2 f) with (pow2 f) in E.
      set (e := ulpe q) in *. destruct (Z_le_gt_dec e f) as [Hef|Hef].
      * assert (Ez : y == inject_Z (m * 2 ^ (f - e)) * pow2 e).
        { rewrite E. replace f with (e + (f - e))%Z at 1 by lia. rewrite pow2_split by lia.
          rewrite inject_Z_mult. ring. }
        rewrite Ez. apply Key.
      * destruct H3 as [H3|H3]; [lia|].
        assert (Hle : y <= pow2 (e + 52)).
        { rewrite E. apply Qle_trans with (inject_Z (2 ^ 53) * pow2 f).
          - apply Qmult_le_compat_r; [rewrite <- Zle_Qle; lia|apply Qlt_le_weak, pow2_pos].
          - rewrite <- pow2_split by lia. apply pow2_le. lia. }
        apply Qle_trans with (Qabs (inject_Z (2 ^ 52) * pow2 e - q)); [apply Key|].
        rewrite <- pow2_split by lia.
        rewrite (Qabs_Qminus (pow2 (e + 52))), (Qabs_Qminus y). rewrite !Qabs_pos by lra. lra.
    + destruct (number_multiple y q Hy Hp Hge) as (z & Ez). rewrite Ez. apply Key.
  - rewrite binary64_zero by lra. rewrite Qabs_pos by lra. apply Qle_trans with 0; [lra|apply Qabs_nonneg].
Qed.

Lemma number_nonneg x : binary64_number x -> 0 <= x.
Proof.
  intros (m & f & Hm & _ & E). rewrite E.
  apply Qmult_le_0_compat; [change 0 with (inject_Z 0); rewrite <- Zle_Qle; lia|apply Qlt_le_weak, pow2_pos].
Qed.

Lemma number_grid x : binary64_number x -> exists z, x == inject_Z z * pow2 (-1074).
Proof.
  intros (m & f & Hm & Hf & E). exists (m * 2 ^ (f + 1074))%Z. rewrite E.
  change (Qpower 2 f) with (pow2 f). replace f with (-1074 + (f + 1074))%Z at 1 by lia.
  rewrite (pow2_split (f + 1074) (-1074)) by lia. rewrite inject_Z_mult. ring.
Qed.

Lemma binary64_sum x y : binary64_number x -> binary64_number y ->
  (1 - pow2 (-53)) * (x + y) <= binary64 (x + y) /\ binary64 (x + y) <= (1 + pow2 (-53)) * (x + y).
Proof.
  intros Hx Hy. assert (X := number_nonneg x Hx). assert (Y := number_nonneg y Hy).
  destruct (number_grid x Hx) as (zx & Ex). destruct (number_grid y Hy) as (zy & Ey).
  assert (P := pow2_pos (-53)).
  destruct (Qlt_le_dec 0 (x + y)) as [Hp|Hn].
  - destruct (ulpe_spec (x + y) Hp) as (_ & _ & [H|H]); [|apply binary64_rel; auto].
    assert (E : binary64 (x + y) == x + y).
    { rewrite binary64_pos by auto. rewrite H. rewrite (nearest_even_int (zx + zy)).
      - rewrite inject_Z_plus, Ex, Ey. ring.
      - assert (P' := pow2_pos (-1074)). set (g := pow2 (-1074)) in *. rewrite inject_Z_plus, Ex, Ey. field. lra. }
    rewrite E. split; nra.
  - rewrite binary64_zero by lra. split; nra.
Qed.

Lemma binary64_normal x : pow2 (-1022) <= x ->
  (1 - pow2 (-53)) * x <= binary64 x /\ binary64 x <= (1 + pow2 (-53)) * x.
Proof.
  intros H. assert (P := pow2_pos (-1022)). assert (Hx : 0 < x) by lra.
  apply binary64_rel; auto. destruct (ulpe_spec x Hx) as (_ & _ & [E|E]); auto.
  rewrite E. exact H.
Qed.

Lemma binary64_rounds_proof : rounds binary64 binary64_number (Qpower 2 (-53)) (Qpower 2 (-1022)).
Proof.
  constructor.
  - split; [apply Qlt_le_weak, pow2_pos|reflexivity].
  - apply pow2_pos.
  - intros x y E (m & f & Hm & Hf & Ex). exists m, f. rewrite <- E. auto.
  - apply number_nonneg.
  - exists 0%Z, 0%Z. split; [lia|]. split; [lia|]. reflexivity.
  - exists 1%Z, (-1022)%Z. split; [lia|]. split; [lia|]. change (inject_Z 1) with 1. rewrite Qmult_1_l. reflexivity.
  - apply binary64_in.
  - apply binary64_keeps.
  - apply binary64_mono.
  - apply binary64_sum.
  - apply binary64_normal.
Qed.
