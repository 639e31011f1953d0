(** Concrete cases for QuadratureProps.v. *)
From Coq Require Import Lia Lqa Qabs.
From Verif Require Import OptimizeSpec OptimizeProofs PiecewiseModel PiecewiseSpec PiecewiseExamples QuadratureModel QuadratureSpec QuadratureProofs
  QuadratureProps.
Local Open Scope Q_scope.

(** A tent over [1, 3] of height 1, and its antiderivative. *)
Definition tent (x : Q) : Q :=
  if Qle_bool x 1 then 0 else if Qle_bool x 2 then x - 1 else if Qle_bool x 3 then 3 - x else 0.
Definition tent_area (x : Q) : Q :=
  if Qle_bool x 1 then 0 else if Qle_bool x 2 then (x - 1) * (x - 1) * (1 # 2)
  else if Qle_bool x 3 then 1 - (3 - x) * (3 - x) * (1 # 2) else 1.

Lemma tent_cases4 x :
  (x <= 1 /\ tent x == 0 /\ tent_area x == 0) \/
  (1 <= x <= 2 /\ tent x == x - 1 /\ tent_area x == (x - 1) * (x - 1) * (1 # 2)) \/
  (2 <= x <= 3 /\ tent x == 3 - x /\ tent_area x == 1 - (3 - x) * (3 - x) * (1 # 2)) \/
  (3 <= x /\ tent x == 0 /\ tent_area x == 1).
Proof.
  unfold tent, tent_area.
  destruct (Qle_bool x 1) eqn:E1; [apply Qle_bool_iff in E1; left; repeat split; lra|].
  assert (H1 : 1 < x) by (apply Qnot_le_lt; intros N; apply Qle_bool_iff in N; congruence).
  destruct (Qle_bool x 2) eqn:E2; [apply Qle_bool_iff in E2; right; left; repeat split; lra|].
  assert (H2 : 2 < x) by (apply Qnot_le_lt; intros N; apply Qle_bool_iff in N; congruence).
  destruct (Qle_bool x 3) eqn:E3; [apply Qle_bool_iff in E3; right; right; left; repeat split; lra|].
  assert (H3 : 3 < x) by (apply Qnot_le_lt; intros N; apply Qle_bool_iff in N; congruence).
  right; right; right. repeat split; lra.
Qed.

Lemma tent_respectful : respectful tent.
Proof.
  intros x y E. destruct (tent_cases4 x) as [(A & B & _)|[(A & B & _)|[(A & B & _)|(A & B & _)]]],
    (tent_cases4 y) as [(A' & B' & _)|[(A' & B' & _)|[(A' & B' & _)|(A' & B' & _)]]]; rewrite B, B'; lra.
Qed.
Lemma tent_nonneg x : 0 <= tent x.
Proof. destruct (tent_cases4 x) as [(A & B & _)|[(A & B & _)|[(A & B & _)|(A & B & _)]]]; rewrite B; lra. Qed.

(** The difference quotients of the area are within the distance of the tent. *)
Lemma tent_quadratic x y : Qabs (tent_area y - tent_area x - tent x * (y - x)) <= (y - x) * (y - x).
Proof.
  apply abs_le. assert (S : 0 <= (y - x) * (y - x)) by (destruct (Qlt_le_dec x y); nra).
  destruct (tent_cases4 x) as [(A & B & C)|[(A & B & C)|[(A & B & C)|(A & B & C)]]],
    (tent_cases4 y) as [(A' & _ & C')|[(A' & _ & C')|[(A' & _ & C')|(A' & _ & C')]]]; rewrite B, C, C'; split; nra.
Qed.
Lemma tent_antiderivative a b : antiderivative tent tent_area a b.
Proof.
  split.
  - intros x y E. destruct (tent_cases4 x) as [(A & _ & C)|[(A & _ & C)|[(A & _ & C)|(A & _ & C)]]],
      (tent_cases4 y) as [(A' & _ & C')|[(A' & _ & C')|[(A' & _ & C')|(A' & _ & C')]]]; rewrite C, C'; nra.
  - intros eps He. exists eps. split; [exact He|]. intros x y _ _ Hxy.
    pose proof (tent_quadratic x y). assert (E : (y - x) * (y - x) == Qabs (y - x) * Qabs (y - x)).
    { destruct (Qlt_le_dec (y - x) 0); [rewrite Qabs_neg by lra; ring|rewrite Qabs_pos by lra; ring]. }
    rewrite E in H. pose proof (Qabs_nonneg (y - x)). nra.
Qed.
Lemma tent_up : tends_up tent_area 1.
Proof.
  intros eps He. exists 4. intros x Hx. apply abs_le.
  destruct (tent_cases4 x) as [(A & _ & C)|[(A & _ & C)|[(A & _ & C)|(A & _ & C)]]]; lra.
Qed.
Lemma tent_down : tends_down tent_area 0.
Proof.
  intros eps He. exists 0. intros x Hx. apply abs_le.
  destruct (tent_cases4 x) as [(A & _ & C)|[(A & _ & C)|[(A & _ & C)|(A & _ & C)]]]; lra.
Qed.
Lemma tent_line : integral_is tent MInf PInf 1.
Proof. exists tent_area, 1, 0. split; [intros; apply tent_antiderivative|]. split; [apply tent_up|]. split; [apply tent_down|]. ring. Qed.
Lemma tent_bounded : integral_is tent (Pt 0) (Pt 2) (1 # 2).
Proof. exists tent_area. split; [apply tent_antiderivative|]. reflexivity. Qed.
Lemma tent_half_line : integral_is tent (Pt 0) PInf 1.
Proof.
  exists tent_area. split; [intros; apply tent_antiderivative|]. intros eps He. exists 4. intros x Hx. apply abs_le.
  assert (E : tent_area 0 == 0) by reflexivity. rewrite E.
  destruct (tent_cases4 x) as [(A & _ & C)|[(A & _ & C)|[(A & _ & C)|(A & _ & C)]]]; lra.
Qed.

(** An increasing function inverting products like the exponential function. *)
Definition growth (x : Q) : Q := if Qle_bool 0 x then 1 + Qmin x 1 else 1 / (1 + Qmin (- x) 1).
Lemma growth_cases x : (0 <= x /\ growth x == 1 + Qmin x 1) \/ (x < 0 /\ growth x == 1 / (1 + Qmin (- x) 1)).
Proof.
  unfold growth. destruct (Qle_bool 0 x) eqn:E; [left; apply Qle_bool_iff in E; split; [exact E|reflexivity]|right].
  split; [|reflexivity]. apply Qnot_le_lt. intros N. apply Qle_bool_iff in N. congruence.
Qed.
Lemma min_cases x : (x <= 1 /\ Qmin x 1 == x) \/ (1 <= x /\ Qmin x 1 == 1).
Proof. destruct (Q.min_spec x 1) as [[H E]|[H E]]; rewrite E; [left|right]; split; lra. Qed.

Lemma growth_pos x : 0 < growth x.
Proof.
  destruct (growth_cases x) as [[H E]|[H E]]; rewrite E.
  - destruct (min_cases x) as [[? M]|[? M]]; rewrite M; lra.
  - destruct (min_cases (- x)) as [[? M]|[? M]]; rewrite M; apply Qlt_shift_div_l; lra.
Qed.
Lemma growth_respectful : respectful growth.
Proof.
  intros x y E. destruct (growth_cases x) as [[H E1]|[H E1]], (growth_cases y) as [[H' E2]|[H' E2]]; rewrite E1, E2; try lra.
  - rewrite E. reflexivity.
  - rewrite E. reflexivity.
Qed.
Lemma growth_inverse x : growth x * growth (- x) == 1.
Proof.
  destruct (growth_cases x) as [[H E1]|[H E1]], (growth_cases (- x)) as [[H' E2]|[H' E2]]; rewrite E1, E2; try lra.
  - assert (Z : x == 0) by lra. rewrite Z. reflexivity.
  - assert (Z : - - x == x) by ring. rewrite Z. destruct (min_cases x) as [[? M]|[? M]]; rewrite M; field; lra.
  - destruct (min_cases (- x)) as [[? M]|[? M]]; rewrite M; field; lra.
Qed.
Lemma growth_mono x y : x <= y -> growth x <= growth y.
Proof.
  intros H. destruct (growth_cases x) as [[H1 E1]|[H1 E1]], (growth_cases y) as [[H2 E2]|[H2 E2]]; rewrite E1, E2; try lra.
  - destruct (min_cases x) as [[? M]|[? M]], (min_cases y) as [[? M']|[? M']]; rewrite M, M'; lra.
  - apply Qle_trans with 1.
    + destruct (min_cases (- x)) as [[? M]|[? M]]; rewrite M; apply Qle_shift_div_r; lra.
    + destruct (min_cases y) as [[? M]|[? M]]; rewrite M; lra.
  - destruct (min_cases (- x)) as [[? M]|[? M]], (min_cases (- y)) as [[? M']|[? M']]; rewrite M, M';
      apply Qle_shift_div_l; try lra;
      match goal with |- 1 / ?a * ?b <= 1 => assert (Q1 : 1 / a * b == b / a) by (field; lra); rewrite Q1; apply Qle_shift_div_r; lra end.
Qed.
Example growth_exponential : exponential growth.
Proof. split; [exact growth_respectful|]. split; [exact growth_pos|exact growth_inverse]. Qed.

(** Rules that know the tent. *)
Definition tent_f (x : Q) : outcome fnum := Ok (Num (tent x)).
Definition one_half : outcome (option fnum) := Ok (Some (Num (1 # 2))).
Example tent_computed from to : computes tent_f tent from to.
Proof. intros x _. exists (tent x). split; reflexivity. Qed.

Example bounded_accurate : accurate 0 (fun _ => 1) (Pt 0) (Pt 2) tent_f one_half.
Proof.
  intros g v HC HV. exists (1 # 2). split; [reflexivity|]. apply abs_le.
  assert (E : v == 1 # 2); [|lra].
  apply (integral_unique tent (Pt 0) (Pt 2)); [cbn; lra| |exact tent_bounded].
  eapply integral_ext; [|exact HV]. intros x Hx. destruct (HC x Hx) as (q & Hq & E). injection Hq as <-. cbn. rewrite <- E. ring.
Qed.
Example bounded_run : exists r, integral growth (fun _ _ _ => one_half) (fun _ => Panic) (fun _ => Panic) (Pt 0) (Pt 2) tent_f = Ok (Num r) /\
  rounded_to 0 (1 # 2) r.
Proof. apply (integral_bounded _ _ _ _ _ _ tent); [exact bounded_accurate|apply tent_computed|exact tent_bounded]. Qed.

Definition one : outcome (option fnum) := Ok (Some (Num 1)).
Example half_line_accurate :
  accurate 0 (fun x => growth (- x)) (Pt 0) PInf (fun x => do y <- tent_f (0 + x); nscale (growth x) y) one.
Proof.
  intros g v HC HV. exists 1. split; [reflexivity|]. apply abs_le.
  assert (E : v == 1); [|lra].
  apply (integral_unique tent (Pt 0) PInf); [exact I| |exact tent_half_line].
  eapply integral_ext; [|exact HV]. intros x Hx. destruct (HC x Hx) as (q & Hq & E). injection Hq as <-. cbn.
  rewrite <- E. rewrite (tent_respectful (0 + x) x) by ring.
  setoid_replace (growth x * tent x * growth (- x)) with (tent x * (growth x * growth (- x))) by ring. rewrite growth_inverse. ring.
Qed.
Example half_line_run : exists r, integral growth (fun _ _ _ => Panic) (fun _ => one) (fun _ => Panic) (Pt 0) PInf tent_f = Ok (Num r) /\
  rounded_to 0 1 r.
Proof.
  apply (integral_to_infinity _ _ _ _ _ _ tent growth_exponential);
    [exact half_line_accurate|exact tent_respectful|apply tent_computed|exact tent_half_line].
Qed.

(** The weights are 1/2 where the tent is not 0. *)
Lemma weighted_tent : integral_is (fun x => tent x * growth (- (x * x))) MInf PInf (1 # 2).
Proof.
  apply (integral_ext (fun x => tent x * (1 # 2))).
  - intros x _. destruct (tent_cases4 x) as [(A & B & _)|[(A & B & _)|[(A & B & _)|(A & B & _)]]]; rewrite B; try ring.
    + assert (G : growth (- (x * x)) == 1 # 2); [|rewrite G; ring].
      destruct (growth_cases (- (x * x))) as [[H E]|[H E]]; [nra|]. rewrite E.
      destruct (min_cases (- - (x * x))) as [[? M]|[? M]]; rewrite M; [|reflexivity].
      assert (X : x == 1) by nra. rewrite X. reflexivity.
    + assert (G : growth (- (x * x)) == 1 # 2); [|rewrite G; ring].
      destruct (growth_cases (- (x * x))) as [[H E]|[H E]]; [nra|]. rewrite E.
      destruct (min_cases (- - (x * x))) as [[? M]|[? M]]; rewrite M; [nra|reflexivity].
  - apply (integral_scale tent 1). exact tent_line.
Qed.
Example line_accurate : accurate 0 (fun x => growth (- (x * x))) MInf PInf tent_f one_half.
Proof.
  intros g v HC HV. exists (1 # 2). split; [reflexivity|]. apply abs_le.
  assert (E : v == 1 # 2); [|lra].
  apply (integral_unique (fun x => tent x * growth (- (x * x))) MInf PInf); [exact I| |exact weighted_tent].
  eapply integral_ext; [|exact HV]. intros x Hx. destruct (HC x Hx) as (q & Hq & E). injection Hq as <-. cbn. rewrite <- E. reflexivity.
Qed.

(** With a rule that is exact for its weights, the integral of the tent over the whole line, which is 1,
    is answered as 0.5. *)
Theorem integral_whole_line_refuted :
  exists exp hermite f g v r,
    exponential exp /\ computes f g MInf PInf /\ integral_is g MInf PInf v /\
    accurate 0 (fun x => exp (- (x * x))) MInf PInf f (hermite f) /\
    integral exp (fun _ _ _ => Panic) (fun _ => Panic) hermite MInf PInf f = Ok (Num r) /\ r + (1 # 4) <= v.
Proof.
  exists growth, (fun _ => one_half), tent_f, tent, 1, (50 # 100). split; [exact growth_exponential|]. split; [apply tent_computed|].
  split; [exact tent_line|]. split; [exact line_accurate|]. split; [vm_compute; reflexivity|]. lra.
Qed.
Example too_small_applies : exists r,
  integral growth (fun _ _ _ => Panic) (fun _ => Panic) (fun _ => one_half) MInf PInf tent_f = Ok (Num r) /\ r <= 1 * (1 # 2) + 0 + (1 # 200).
Proof.
  apply (integral_whole_line_too_small growth (fun _ _ _ => Panic) (fun _ => Panic) (fun _ => one_half) 0 tent_f tent growth_exponential 1 (1 # 2)).
  - exact line_accurate.
  - apply tent_computed.
  - exact growth_mono.
  - vm_compute. discriminate.
  - exact tent_nonneg.
  - intros x Hx. apply Qabs_Qlt_condition in Hx.
    destruct (tent_cases4 x) as [(A & B & _)|[(A & B & _)|[(A & B & _)|(A & B & _)]]]; rewrite B; lra.
  - exact tent_line.
  - exact weighted_tent.
Qed.

(** The second derivative is computed with the step [TOLERANCE^(-1/4)], which exceeds 5: a function
    that is 0 between -1 and 1 gets a positive second derivative at 0. *)
Definition flat_near_0 (x : Q) : outcome fnum := Ok (Num (Qmax 0 (Qabs x - 1))).
Theorem second_derivative_step_refuted :
  (forall x, Qabs x <= 1 -> flat_near_0 x = Ok (Num (Qmax 0 (Qabs x - 1))) /\ Qmax 0 (Qabs x - 1) == 0) /\
  forall h, 0 < h -> (9 # 10) <= h * h * (h * h) * TOLERANCE <= (11 # 10) ->
    exists r, derivative (second_difference h) flat_near_0 0 = Ok (Num r) /\ (1 # 5) <= r.
Proof.
  split.
  - intros x Hx. split; [reflexivity|]. destruct (Q.max_spec 0 (Qabs x - 1)) as [[H E]|[H E]]; rewrite E; lra.
  - intros h Hh H4'. assert (T : TOLERANCE == 1 # 1000) by reflexivity. rewrite T in H4'.
    assert (H4 : 900 <= h * h * (h * h) <= 1100) by lra. clear H4'. assert (H5 : 5 < h < 6).
    { split; apply Qnot_le_lt; intros N.
      - assert (h * h <= 25) by nra. nra.
      - assert (36 <= h * h) by nra. nra. }
    rewrite derivative_spec.
    set (d := 1 / (h * h) * (Qmax 0 (Qabs (0 - h) - 1) + Qmax 0 (Qabs (0 + h) - 1) - 2 * Qmax 0 (Qabs 0 - 1))).
    assert (E : second_difference h flat_near_0 0 = Ok (Some (Num d))) by reflexivity.
    change (flat_near_0 0) with (Ok (Num (Qmax 0 (Qabs 0 - 1)))). cbv beta iota. rewrite E. exists (apply_precision d). split; [reflexivity|].
    assert (D : d == 2 * (h - 1) / (h * h)).
    { unfold d. assert (A1 : Qabs (0 - h) == h) by (rewrite Qabs_neg; lra). assert (A2 : Qabs (0 + h) == h) by (rewrite Qabs_pos; lra).
      assert (M1 : Qmax 0 (Qabs (0 - h) - 1) == h - 1) by (rewrite A1; apply Q.max_r; lra).
      assert (M2 : Qmax 0 (Qabs (0 + h) - 1) == h - 1) by (rewrite A2; apply Q.max_r; lra).
      assert (M3 : Qmax 0 (Qabs 0 - 1) == 0) by reflexivity. rewrite M1, M2, M3. field. lra. }
    assert (L : 11 # 50 <= d). { rewrite D. apply Qle_shift_div_l; nra. }
    pose proof (ap_near d) as N. apply abs_le in N. lra.
Qed.

(** Rounded integrals of the constant 1/3 on four pieces: up to 0.02 off. *)
Definition rounded_third (a b : point) : Q := apply_precision (constant_integral (1 # 3) a b).
Example rounded_third_near a b : Qabs (rounded_third a b - constant_integral (1 # 3) a b) <= 1 # 200.
Proof. apply ap_near. Qed.
Example rounded_third_applies : exists v, piecewise_integral rounded_third some_breaks 5 (Pt 0) (Pt 4) = Some v /\
  Qabs (v - constant_integral (1 # 3) (Pt 0) (Pt 4)) <= inject_Z (Z.of_nat 4) * (1 # 200).
Proof.
  destruct (piecewise rounded_third some_breaks 5 (Pt 0) (Pt 4)) as [[l r]|] eqn:E; [|vm_compute in E; discriminate].
  assert (E' := E). vm_compute in E'. injection E' as <- <-.
  refine (piecewise_error_adds_up rounded_third (constant_integral (1 # 3)) (1 # 200) some_breaks 5 (Pt 0) (Pt 4) _ _
    (constant_exact _) (fun a b _ => rounded_third_near a b) some_breaks_ordered (proj1 some_interval) E _ _); vm_compute; lia.
Qed.
