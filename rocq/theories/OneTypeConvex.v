(** Convexity of the parts of the cost of a data centre with servers of one type. *)
From Coq Require Import Lia Lqa.
From Verif Require Import NumLemmas DataCenterParts OneTypeSpec.
From Verif Require Import ProblemModel CostModel.
Local Open Scope Q_scope.

Lemma Qmult_le_compat_l x y k : x <= y -> 0 <= k -> k * x <= k * y.
Proof. intros H Hk. rewrite !(Qmult_comm k). apply Qmult_le_compat_r; assumption. Qed.

(** [h] is convex at the points [a <= b <= c]. *)
Definition convex_at (a b c : Q) (h : Q -> Q) : Prop := (c - a) * h b <= (c - b) * h a + (b - a) * h c.

Lemma convex_at_plus a b c g h : convex_at a b c g -> convex_at a b c h -> convex_at a b c (fun x => g x + h x).
Proof. unfold convex_at. intros. lra. Qed.

Lemma convex_at_scale a b c k h : 0 <= k -> convex_at a b c h -> convex_at a b c (fun x => k * h x).
Proof.
  unfold convex_at. intros Hk H. assert (HM : k * ((c - a) * h b) <= k * ((c - b) * h a + (b - a) * h c)).
  { apply Qmult_le_compat_l; assumption. }
  lra.
Qed.

Lemma convex_at_ext a b c g h : g a == h a -> g b == h b -> g c == h c -> convex_at a b c g -> convex_at a b c h.
Proof. unfold convex_at. intros Ea Eb Ec. rewrite Ea, Eb, Ec. exact (fun H => H). Qed.

Lemma convex_at_sum {K} a b c (h : K -> Q -> Q) l : (forall k, In k l -> convex_at a b c (h k)) ->
  convex_at a b c (fun x => Qsum (map (fun k => h k x) l)).
Proof.
  induction l as [|k l IH]; intros H.
  - unfold convex_at. simpl. lra.
  - simpl. apply (convex_at_plus a b c (h k) (fun x => Qsum (map (fun k => h k x) l))).
    + apply H. left. reflexivity.
    + apply IH. intros k' Hk. apply H. right. exact Hk.
Qed.

Lemma convex_at_qpos a b c h : a <= b -> b <= c -> convex_at a b c h -> convex_at a b c (fun x => qpos (h x)).
Proof.
  intros Hab Hbc H. unfold convex_at in *.
  destruct (qpos_cases (h a)) as (A1 & A2 & A3). destruct (qpos_cases (h b)) as (B1 & B2 & B3). destruct (qpos_cases (h c)) as (C1 & C2 & C3).
  assert (HA : h a <= qpos (h a)) by (destruct (Qlt_le_dec (h a) 0); [lra|rewrite A2 by assumption; lra]).
  assert (HC : h c <= qpos (h c)) by (destruct (Qlt_le_dec (h c) 0); [lra|rewrite C2 by assumption; lra]).
  assert (PA : (c - b) * h a <= (c - b) * qpos (h a)) by (apply Qmult_le_compat_l; lra).
  assert (PC : (b - a) * h c <= (b - a) * qpos (h c)) by (apply Qmult_le_compat_l; lra).
  assert (ZA : 0 <= (c - b) * qpos (h a)) by (apply Qmult_le_0_compat; lra).
  assert (ZC : 0 <= (b - a) * qpos (h c)) by (apply Qmult_le_0_compat; lra).
  destruct (Qlt_le_dec (h b) 0) as [L|L].
  - rewrite B1 by lra. lra.
  - rewrite B2 by exact L. lra.
Qed.

(** 1/(delta x - w) is convex where delta x > w. *)
Lemma convex_at_inverse delta w a b c : 0 < delta -> a <= b -> b <= c -> w < delta * a ->
  convex_at a b c (fun x => 1 / (delta * x - w)).
Proof.
  intros Hd Hab Hbc Hw. unfold convex_at.
  assert (Dab : delta * a <= delta * b) by (apply Qmult_le_compat_l; lra).
  assert (Dbc : delta * b <= delta * c) by (apply Qmult_le_compat_l; lra).
  set (ua := delta * a - w). set (ub := delta * b - w). set (uc := delta * c - w).
  assert (Ha : 0 < ua) by (unfold ua; lra). assert (Hb : ua <= ub) by (unfold ua, ub; lra). assert (Hc : ub <= uc) by (unfold ub, uc; lra).
  assert (E : (c - b) * (1 / ua) + (b - a) * (1 / uc) - (c - a) * (1 / ub)
              == delta * delta * ((c - b) * (b - a) * (c - a)) / (ua * ub * uc)).
  { unfold ua, ub, uc in *. field. repeat split; lra. }
  assert (P : 0 <= delta * delta * ((c - b) * (b - a) * (c - a)) / (ua * ub * uc)).
  { apply div_nonneg.
    - apply Qmult_le_0_compat; [apply Qmult_le_0_compat; lra|]. apply Qmult_le_0_compat; [apply Qmult_le_0_compat; lra|lra].
    - apply Qmult_lt_0_compat; [apply Qmult_lt_0_compat; lra|lra]. }
  lra.
Qed.

Section Power.
  Variable power : Q -> Q.
  Hypothesis HP : convex_power power.

  Lemma power_eq a b : 0 <= a -> a == b -> power a == power b.
  Proof.
    intros Ha E.
    assert (L : forall a b, 0 <= a -> a == b -> power b <= power a).
    { clear a b Ha E. intros a b Ha E. pose proof (HP a b (a + 1) Ha ltac:(lra) ltac:(lra)) as H.
      assert (E1 : (a + 1 - a) * power b == power b) by ring.
      assert (E2 : (a + 1 - b) * power a + (b - a) * power (a + 1) == power a).
      { setoid_replace (a + 1 - b) with 1 by lra. setoid_replace (b - a) with 0 by lra. ring. }
      lra. }
    apply Qle_antisym; apply L; lra.
  Qed.

  (** The energy of [x] servers sharing the work [w]. *)
  Lemma convex_at_energy delta w a b c : 0 < delta -> 0 <= w -> 0 < a -> a <= b -> b <= c ->
    convex_at a b c (fun x => x * power (w / (x * delta))).
  Proof.
    intros Hd Hw Ha Hab Hbc.
    assert (Hx : forall x, 0 < x -> 0 < x * delta) by (intros x Hx; apply Qmult_lt_0_compat; assumption).
    destruct (Qlt_le_dec 0 w) as [W|W].
    - assert (S1 : w / (c * delta) <= w / (b * delta)).
      { apply Qle_shift_div_l; [apply Hx; lra|]. setoid_replace (w / (c * delta) * (b * delta)) with (w * b / c) by (field; lra).
        apply Qle_shift_div_r; [lra|]. apply Qmult_le_compat_l; lra. }
      assert (S2 : w / (b * delta) <= w / (a * delta)).
      { apply Qle_shift_div_l; [apply Hx; lra|]. setoid_replace (w / (b * delta) * (a * delta)) with (w * a / b) by (field; lra).
        apply Qle_shift_div_r; [lra|]. apply Qmult_le_compat_l; lra. }
      pose proof (HP (w / (c * delta)) (w / (b * delta)) (w / (a * delta)) ltac:(apply div_nonneg; [lra|apply Hx; lra]) S1 S2) as H.
      set (pa := power (w / (a * delta))) in *. set (pb := power (w / (b * delta))) in *. set (pc := power (w / (c * delta))) in *.
      unfold convex_at. fold pa pb pc.
      assert (K : 0 < a * b * c * delta / w).
      { apply div_pos; [|exact W]. repeat apply Qmult_lt_0_compat; lra. }
      assert (M : a * b * c * delta / w * ((w / (a * delta) - w / (c * delta)) * pb)
                  <= a * b * c * delta / w * ((w / (a * delta) - w / (b * delta)) * pc + (w / (b * delta) - w / (c * delta)) * pa)).
      { apply Qmult_le_compat_l; [exact H|lra]. }
      assert (E1 : a * b * c * delta / w * ((w / (a * delta) - w / (c * delta)) * pb) == (c - a) * (b * pb)) by (field; lra).
      assert (E2 : a * b * c * delta / w * ((w / (a * delta) - w / (b * delta)) * pc + (w / (b * delta) - w / (c * delta)) * pa)
                   == (c - b) * (a * pa) + (b - a) * (c * pc)) by (field; lra).
      lra.
    - assert (Z : forall x, 0 < x -> power (w / (x * delta)) == power 0).
      { intros x Hx0. symmetry. apply power_eq; [lra|]. assert (Ew : w == 0) by lra. rewrite Ew. field. lra. }
      unfold convex_at. rewrite !Z by lra. lra.
  Qed.
End Power.

(** The consumption models are convex, the non-linear one if the power function is. *)
Lemma linear_convex a b : convex_power (fun s => a * s + b).
Proof. intros x y z _ _ _. lra. Qed.

Lemma convex_power_ext f g : (forall s, f s == g s) -> convex_power f -> convex_power g.
Proof. intros E H a b c Ha Hab Hbc. rewrite <- !E. apply H; assumption. Qed.

Lemma consumption_convex powf cm delta st power : 0 <= delta -> (forall s, consumption powf cm delta st s = Ok (power s)) ->
  (forall models phi_min alpha a, cm = CNonLinear models -> lookup models (st_key st) = Ok (phi_min, alpha, a) ->
     0 < a /\ convex_power (fun s => powf s alpha)) ->
  convex_power power.
Proof.
  intros Hd HP HN. destruct cm as [models|models|models]; cbn [consumption] in HP.
  - destruct (lookup models (st_key st)) as [[x y]| |] eqn:E; cbn [obind fst snd] in HP; try (discriminate (HP 0)).
    apply (convex_power_ext (fun s => delta * (y - x) * s + delta * x)); [|apply linear_convex].
    intros s. specialize (HP s). injection HP as <-. ring.
  - destruct (lookup models (st_key st)) as [y| |] eqn:E; cbn [obind fst snd] in HP; try (discriminate (HP 0)).
    apply (convex_power_ext (fun s => delta * y / 2 * s + delta * y / 2)); [|apply linear_convex].
    intros s. specialize (HP s). injection HP as <-. field.
  - destruct (lookup models (st_key st)) as [[[x y] z]| |] eqn:E; cbn [obind fst snd] in HP; try (discriminate (HP 0)).
    destruct (HN models x y z eq_refl E) as [Hz HC].
    apply (convex_power_ext (fun s => delta * (powf s y / z + x))).
    + intros s. specialize (HP s). injection HP as <-. reflexivity.
    + intros a b c Ha Hab Hbc. specialize (HC a b c Ha Hab Hbc). cbv beta in *.
      assert (HK : 0 <= delta / z) by (apply div_nonneg; assumption).
      pose proof (Qmult_le_compat_l _ _ _ HC HK) as HM.
      assert (E1 : (c - a) * (delta * (powf b y / z + x)) == delta / z * ((c - a) * powf b y) + (c - a) * (delta * x)) by (field; lra).
      assert (E2 : (c - b) * (delta * (powf a y / z + x)) + (b - a) * (delta * (powf c y / z + x))
                   == delta / z * ((c - b) * powf a y + (b - a) * powf c y) + (c - a) * (delta * x)) by (field; lra).
      lra.
Qed.
