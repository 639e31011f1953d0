From Coq Require Import Lia Lqa Qabs Qround Qfield.
From Verif Require Import NumLemmas OptimizeProofs PiecewiseProofs QuadratureModel QuadratureSpec.
Local Open Scope Q_scope.

(** ** Integrals *)
Lemma abs_le x e : Qabs x <= e <-> - e <= x /\ x <= e.
Proof. apply Qabs_Qle_condition. Qed.

Lemma antiderivative_ext g g' F a b : (forall x, a < x < b -> g x == g' x) -> antiderivative g F a b -> antiderivative g' F a b.
Proof.
  intros HE [HF H]. split; [exact HF|]. intros eps He. destruct (H eps He) as (d & Hd & HD). exists d. split; [exact Hd|].
  intros x y Hx Hy Hxy. specialize (HD x y Hx Hy Hxy). rewrite (HE x Hx) in HD. exact HD.
Qed.

(** Larger integrands have larger integrals. *)
Section Mono.
  Variables (g F h G : Q -> Q) (a b eps delta : Q).
  Hypothesis HF : forall x y, a < x < b -> a <= y <= b -> Qabs (y - x) <= delta -> Qabs (F y - F x - g x * (y - x)) <= eps * Qabs (y - x).
  Hypothesis HG : forall x y, a < x < b -> a <= y <= b -> Qabs (y - x) <= delta -> Qabs (G y - G x - h x * (y - x)) <= eps * Qabs (y - x).
  Hypothesis Hd : 0 < delta.

  Lemma around_middle k K x y : 
    (forall x y, a < x < b -> a <= y <= b -> Qabs (y - x) <= delta -> Qabs (K y - K x - k x * (y - x)) <= eps * Qabs (y - x)) ->
    a <= x -> x < y -> y <= b -> y - x <= delta ->
    let m := (x + y) * (1 # 2) in
    k m * (y - x) - eps * (y - x) <= K y - K x /\ K y - K x <= k m * (y - x) + eps * (y - x).
  Proof.
    intros H Ha Hxy Hb HD m. assert (Hm : x < m < y) by (unfold m; lra).
    assert (A1 : Qabs (y - m) == (y - x) * (1 # 2)) by (rewrite Qabs_pos; unfold m; lra).
    assert (A2 : Qabs (x - m) == (y - x) * (1 # 2)) by (rewrite Qabs_neg; unfold m; lra).
    assert (H1 := H m y ltac:(lra) ltac:(lra) ltac:(rewrite A1; lra)).
    assert (H2 := H m x ltac:(lra) ltac:(lra) ltac:(rewrite A2; lra)).
    rewrite A1 in H1. rewrite A2 in H2. apply abs_le in H1, H2.
    assert (E1 : k m * (y - m) == k m * ((y - x) * (1 # 2))) by (unfold m at 2; ring).
    assert (E2 : k m * (x - m) == - (k m * ((y - x) * (1 # 2)))) by (unfold m at 2; ring).
    assert (E3 : k m * (y - x) == k m * ((y - x) * (1 # 2)) + k m * ((y - x) * (1 # 2))) by ring.
    rewrite E1 in H1. rewrite E2 in H2. rewrite E3. generalize dependent (k m * ((y - x) * (1 # 2))). intros w.
    intros. split; lra.
  Qed.

  Hypothesis Hle : forall x, a < x < b -> g x <= h x.
  Lemma mono_steps : forall n x y, a <= x -> x < y -> y <= b -> y - x <= inject_Z (Z.of_nat (S n)) * delta ->
    F y - F x <= G y - G x + 2 * eps * (y - x).
  Proof.
    assert (One : forall x y, a <= x -> x < y -> y <= b -> y - x <= delta -> F y - F x <= G y - G x + 2 * eps * (y - x)).
    { intros x y Ha Hxy Hb HD. destruct (around_middle g F x y HF Ha Hxy Hb HD) as [_ H1].
      destruct (around_middle h G x y HG Ha Hxy Hb HD) as [H2 _]. cbv zeta in *.
      pose proof (Hle ((x + y) * (1 # 2)) ltac:(lra)). nra. }
    induction n as [|n IH]; intros x y Ha Hxy Hb HD.
    - apply One; try assumption. change (inject_Z (Z.of_nat 1)) with 1 in HD. lra.
    - destruct (Qlt_le_dec delta (y - x)) as [H|H]; [|apply One; assumption].
      pose proof (One x (x + delta) Ha ltac:(lra) ltac:(lra) ltac:(lra)) as H1.
      assert (E : inject_Z (Z.of_nat (S (S n))) == inject_Z (Z.of_nat (S n)) + 1).
      { change 1 with (inject_Z 1). rewrite <- inject_Z_plus. replace (Z.of_nat (S (S n))) with (Z.of_nat (S n) + 1)%Z by lia. reflexivity. }
      rewrite E in HD.
      pose proof (IH (x + delta) y ltac:(lra) ltac:(lra) Hb ltac:(lra)) as H2. nra.
  Qed.
End Mono.

Lemma archimedes x d : 0 < d -> exists n, x <= inject_Z (Z.of_nat (S n)) * d.
Proof.
  intros Hd. exists (Z.to_nat (Qceiling (x / d))).
  assert (H := Qle_ceiling (x / d)).
  assert (H2 : inject_Z (Qceiling (x / d)) <= inject_Z (Z.of_nat (S (Z.to_nat (Qceiling (x / d)))))) by (rewrite <- Zle_Qle; lia).
  assert (E : x == x / d * d) by (field; lra). rewrite E at 1. nra.
Qed.

Lemma antiderivative_mono g F h G a b : antiderivative g F a b -> antiderivative h G a b -> a <= b ->
  (forall x, a < x < b -> g x <= h x) -> F b - F a <= G b - G a.
Proof.
  intros [EF HF] [EG HG] Hab Hle. destruct (Qlt_le_dec a b) as [Hlt|Hge].
  2: { assert (E : a == b) by lra. rewrite (EF a b E), (EG a b E). lra. }
  apply Qnot_lt_le. intros N. set (gap := F b - F a - (G b - G a)). assert (Hgap : 0 < gap) by (unfold gap; lra).
  set (eps := gap / (4 * (b - a))). assert (He : 0 < eps) by (unfold eps; apply Qlt_shift_div_l; lra).
  destruct (HF eps He) as (d1 & Hd1 & H1). destruct (HG eps He) as (d2 & Hd2 & H2).
  destruct (Q.min_spec d1 d2) as [[Hmin Emin]|[Hmin Emin]].
  - destruct (archimedes (b - a) d1 Hd1) as (n & Hn).
    pose proof (mono_steps g F h G a b eps d1 H1 ltac:(intros; apply H2; auto; lra) Hd1 Hle n a b ltac:(lra) Hlt ltac:(lra) Hn) as H.
    assert (E : 2 * eps * (b - a) == gap / 2) by (unfold eps; field; lra). rewrite E in H. unfold gap in *.
    assert (E2 : (F b - F a - (G b - G a)) / 2 == (F b - F a - (G b - G a)) * (1 # 2)) by field. rewrite E2 in H. lra.
  - destruct (archimedes (b - a) d2 Hd2) as (n & Hn).
    pose proof (mono_steps g F h G a b eps d2 ltac:(intros; apply H1; auto; lra) H2 Hd2 Hle n a b ltac:(lra) Hlt ltac:(lra) Hn) as H.
    assert (E : 2 * eps * (b - a) == gap / 2) by (unfold eps; field; lra). rewrite E in H. unfold gap in *.
    assert (E2 : (F b - F a - (G b - G a)) / 2 == (F b - F a - (G b - G a)) * (1 # 2)) by field. rewrite E2 in H. lra.
Qed.

Lemma tends_up_mono F G u v : tends_up F u -> tends_up G v -> (exists m, forall x, m <= x -> F x <= G x) -> u <= v.
Proof.
  intros HF HG (m & Hm). apply Qnot_lt_le. intros N.
  destruct (HF ((u - v) * (1 # 4)) ltac:(lra)) as (m1 & H1). destruct (HG ((u - v) * (1 # 4)) ltac:(lra)) as (m2 & H2).
  set (x := Qmax m (Qmax m1 m2)). assert (X : m <= x /\ m1 <= x /\ m2 <= x).
  { unfold x. pose proof (Q.le_max_l m (Qmax m1 m2)). pose proof (Q.le_max_r m (Qmax m1 m2)).
    pose proof (Q.le_max_l m1 m2). pose proof (Q.le_max_r m1 m2). repeat split; lra. }
  specialize (Hm x ltac:(lra)). specialize (H1 x ltac:(lra)). specialize (H2 x ltac:(lra)).
  apply abs_le in H1, H2. lra.
Qed.
Lemma tends_down_mono F G u v : tends_down F u -> tends_down G v -> (exists m, forall x, x <= m -> F x <= G x) -> u <= v.
Proof.
  intros HF HG (m & Hm). apply (tends_up_mono (fun x => F (- x)) (fun x => G (- x))).
  - intros eps He. destruct (HF eps He) as (k & Hk). exists (- k). intros x Hx. apply Hk. lra.
  - intros eps He. destruct (HG eps He) as (k & Hk). exists (- k). intros x Hx. apply Hk. lra.
  - exists (- m). intros x Hx. apply Hm. lra.
Qed.

Definition point_ordered (from to : point) : Prop :=
  match from, to with Pt a, Pt b => a <= b | _, _ => True end.

Lemma whole_line F u l : tends_up F u -> tends_down F l -> tends_up (fun x => F x - F (- x)) (u - l).
Proof.
  intros HU HL eps He. destruct (HU (eps * (1 # 2)) ltac:(lra)) as (m1 & H1). destruct (HL (eps * (1 # 2)) ltac:(lra)) as (m2 & H2).
  exists (Qmax m1 (- m2)). intros x Hx. pose proof (Q.le_max_l m1 (- m2)). pose proof (Q.le_max_r m1 (- m2)).
  specialize (H1 x ltac:(lra)). specialize (H2 (- x) ltac:(lra)). apply abs_le in H1, H2. apply abs_le. lra.
Qed.

Lemma integral_mono g h from to u v : point_ordered from to -> (forall x, inside_points from to x -> g x <= h x) ->
  integral_is g from to u -> integral_is h from to v -> u <= v.
Proof.
  intros HO Hle. destruct from as [|a|], to as [|b|]; cbn in *; try tauto.
  - intros (F & HF & TF) (G & HG & TG). eapply tends_down_mono; [exact TF|exact TG|]. exists b. intros x Hx.
    apply (antiderivative_mono g F h G); auto. intros y Hy. apply Hle. split; [exact I|cbn; lra].
  - intros (F & fu & fl & HF & F1 & F2 & E1) (G & gu & gl & HG & G1 & G2 & E2).
    rewrite E1, E2. apply (tends_up_mono (fun x => F x - F (- x)) (fun x => G x - G (- x))); try (apply whole_line; assumption).
    exists 0. intros x Hx. apply (antiderivative_mono g F h G); [apply HF; lra|apply HG; lra|lra|].
    intros y Hy. apply Hle. split; exact I.
  - intros (F & HF & E1) (G & HG & E2). rewrite E1, E2. apply (antiderivative_mono g F h G); [exact HF|exact HG|exact HO|].
    intros y Hy. apply Hle. split; cbn; lra.
  - intros (F & HF & TF) (G & HG & TG). eapply tends_up_mono; [exact TF|exact TG|]. exists a. intros x Hx.
    apply (antiderivative_mono g F h G); auto. intros y Hy. apply Hle. split; [cbn; lra|exact I].
Qed.

Lemma integral_unique g from to u v : point_ordered from to -> integral_is g from to u -> integral_is g from to v -> u == v.
Proof.
  intros HO H1 H2. apply Qle_antisym; eapply integral_mono; eauto; intros; lra.
Qed.

Lemma integral_ext g g' from to v : (forall x, inside_points from to x -> g x == g' x) ->
  integral_is g from to v -> integral_is g' from to v.
Proof.
  intros HE. destruct from as [|a|], to as [|b|]; cbn in *; try tauto.
  - intros (F & HF & TF). exists F. split; [|exact TF]. intros a Ha. eapply antiderivative_ext; [|apply HF; exact Ha].
    intros x Hx. apply HE. split; [exact I|cbn; lra].
  - intros (F & fu & fl & HF & F1 & F2 & E1). exists F, fu, fl. split; [|auto]. intros a b Hab.
    eapply antiderivative_ext; [|apply HF; exact Hab]. intros x Hx. apply HE. split; exact I.
  - intros (F & HF & E). exists F. split; [|exact E]. eapply antiderivative_ext; [|exact HF].
    intros x Hx. apply HE. split; cbn; lra.
  - intros (F & HF & TF). exists F. split; [|exact TF]. intros b Hb. eapply antiderivative_ext; [|apply HF; exact Hb].
    intros x Hx. apply HE. split; [cbn; lra|exact I].
Qed.

(** Translation and reflection onto the half line. *)
Lemma integral_shift g a v : (forall x y, x == y -> g x == g y) -> integral_is g (Pt a) PInf v -> integral_is (fun x => g (a + x)) (Pt 0) PInf v.
Proof.
  intros Hg (F & HF & TF). exists (fun x => F (a + x)). split.
  - intros b Hb. destruct (HF (a + b) ltac:(lra)) as [EF H]. split; [intros x y Hxy; apply EF; rewrite Hxy; reflexivity|].
    intros eps He. destruct (H eps He) as (d & Hd & HD). exists d. split; [exact Hd|]. intros x y Hx Hy Hxy.
    assert (E : (a + y) - (a + x) == y - x) by ring.
    specialize (HD (a + x) (a + y) ltac:(lra) ltac:(lra)). rewrite E in HD. apply HD. exact Hxy.
  - intros eps He. destruct (TF eps He) as (m & Hm). exists (m - a). intros x Hx.
    destruct (HF a ltac:(lra)) as [EF _]. rewrite (EF (a + 0) a ltac:(ring)). apply Hm. lra.
Qed.
Lemma integral_reflect g b v : (forall x y, x == y -> g x == g y) -> integral_is g MInf (Pt b) v -> integral_is (fun x => g (b - x)) (Pt 0) PInf v.
Proof.
  intros Hg (F & HF & TF). exists (fun x => - F (b - x)). split.
  - intros c Hc. destruct (HF (b - c) ltac:(lra)) as [EF H]. split; [intros x y Hxy; rewrite (EF (b - x) (b - y)); [reflexivity|rewrite Hxy; reflexivity]|].
    intros eps He. destruct (H eps He) as (d & Hd & HD). exists d. split; [exact Hd|]. intros x y Hx Hy Hxy.
    specialize (HD (b - x) (b - y) ltac:(lra) ltac:(lra)).
    assert (E : (b - y) - (b - x) == - (y - x)) by ring.
    rewrite E, Qabs_opp in HD. specialize (HD Hxy).
    setoid_replace (- F (b - y) - - F (b - x) - g (b - x) * (y - x)) with (- (F (b - y) - F (b - x) - g (b - x) * - (y - x))) by ring.
    rewrite Qabs_opp. exact HD.
  - intros eps He. destruct (TF eps He) as (m & Hm). exists (b - m). intros x Hx.
    destruct (HF b ltac:(lra)) as [EF _]. specialize (Hm (b - x) ltac:(lra)).
    rewrite (EF (b - 0) b ltac:(ring)). setoid_replace (- F (b - x) - - F b - v) with (F b - F (b - x) - v) by ring. exact Hm.
Qed.

(** ** Answers *)
Lemma round_near e v r : Qabs (r - v) <= e -> rounded_to e v (apply_precision r).
Proof.
  intros H. split; [apply ap_hundredths|]. pose proof (ap_near r) as N. apply abs_le in H, N. apply abs_le. lra.
Qed.

Section Answers.
  Variable exp : Q -> Q.
  Variable tanh_sinh : Q -> Q -> (Q -> outcome fnum) -> outcome (option fnum).
  Variable laguerre hermite : (Q -> outcome fnum) -> outcome (option fnum).
  Variable e : Q.
  Variable f : Q -> outcome fnum.
  Variable g : Q -> Q.
  Notation integral := (integral exp tanh_sinh laguerre hermite).

  Lemma integral_ones h from to v : integral_is h from to v -> integral_is (fun x => h x * 1) from to v.
  Proof. apply integral_ext. intros. ring. Qed.

  Lemma finite_answer a b v : accurate e (fun _ => 1) (Pt a) (Pt b) f (tanh_sinh a b f) ->
    computes f g (Pt a) (Pt b) -> integral_is g (Pt a) (Pt b) v ->
    exists r, integral (Pt a) (Pt b) f = Ok (Num r) /\ rounded_to e v r.
  Proof.
    intros HA HC HV. destruct (HA g v HC (integral_ones _ _ _ _ HV)) as (r & E & Hr).
    exists (apply_precision r). split; [|apply round_near; exact Hr].
    unfold QuadratureModel.integral, finite_integral. rewrite E. reflexivity.
  Qed.

  Hypothesis Hexp : exponential exp.

  Lemma weight_undone x q y : y == q * exp x -> y * exp (- x) == q.
  Proof. intros ->. destruct Hexp as (_ & _ & H). rewrite <- Qmult_assoc, H. ring. Qed.

  Lemma half_line (h : Q -> outcome fnum) (k : Q -> Q) v : 
    accurate e (fun x => exp (- x)) (Pt 0) PInf (fun x => do y <- h x; nscale (exp x) y) (laguerre (fun x => do y <- h x; nscale (exp x) y)) ->
    computes h k (Pt 0) PInf -> integral_is k (Pt 0) PInf v ->
    exists r, (do r <- semi_infinite_integral exp laguerre h; match r with None => Panic | Some v => Ok (round_num v) end) = Ok (Num r) /\
      rounded_to e v r.
  Proof.
    intros HA HC HV. destruct (HA (fun x => k x * exp x) v) as (r & E & Hr).
    - intros x Hx. destruct (HC x Hx) as (q & E1 & E2). exists (exp x * q). rewrite E1. split; [reflexivity|]. rewrite E2. ring.
    - eapply integral_ext; [|exact HV]. intros x _. cbn. symmetry. apply weight_undone. reflexivity.
    - exists (apply_precision r). split; [|apply round_near; exact Hr]. unfold semi_infinite_integral. rewrite E. reflexivity.
  Qed.

  Lemma right_answer a v : 
    accurate e (fun x => exp (- x)) (Pt 0) PInf (fun x => do y <- f (a + x); nscale (exp x) y) (laguerre (fun x => do y <- f (a + x); nscale (exp x) y)) ->
    respectful g -> computes f g (Pt a) PInf -> integral_is g (Pt a) PInf v ->
    exists r, integral (Pt a) PInf f = Ok (Num r) /\ rounded_to e v r.
  Proof.
    intros HA Hg HC HV. apply (half_line (fun x => f (a + x)) (fun x => g (a + x)) v HA).
    - intros x [Hx _]. cbn in Hx. apply HC. split; [cbn; lra|exact I].
    - apply integral_shift; assumption.
  Qed.
  Lemma left_answer b v : 
    accurate e (fun x => exp (- x)) (Pt 0) PInf (fun x => do y <- f (b - x); nscale (exp x) y) (laguerre (fun x => do y <- f (b - x); nscale (exp x) y)) ->
    respectful g -> computes f g MInf (Pt b) -> integral_is g MInf (Pt b) v ->
    exists r, integral MInf (Pt b) f = Ok (Num r) /\ rounded_to e v r.
  Proof.
    intros HA Hg HC HV. apply (half_line (fun x => f (b - x)) (fun x => g (b - x)) v HA).
    - intros x [Hx _]. cbn in Hx. apply HC. split; [exact I|cbn; lra].
    - apply integral_reflect; assumption.
  Qed.

  Lemma whole_answer v : accurate e (fun x => exp (- (x * x))) MInf PInf f (hermite f) -> computes f g MInf PInf ->
    integral_is (fun x => g x * exp (- (x * x))) MInf PInf v ->
    exists r, integral MInf PInf f = Ok (Num r) /\ rounded_to e v r.
  Proof.
    intros HA HC HV. destruct (HA g v HC HV) as (r & E & Hr). exists (apply_precision r).
    split; [|apply round_near; exact Hr]. unfold QuadratureModel.integral, infinite_integral. rewrite E. reflexivity.
  Qed.

  Lemma integral_scale h v : integral_is h MInf PInf v -> integral_is (fun x => h x * (1 # 2)) MInf PInf (v * (1 # 2)).
  Proof.
    intros (F & u & l & HF & HU & HL & E). exists (fun x => F x * (1 # 2)), (u * (1 # 2)), (l * (1 # 2)). split; [|split; [|split]].
    - intros a b Hab. destruct (HF a b Hab) as [EF H]. split; [intros x y Hxy; rewrite (EF x y Hxy); reflexivity|].
      intros eps He. destruct (H eps He) as (d & Hd & HD). exists d. split; [exact Hd|]. intros x y Hx Hy Hxy.
      specialize (HD x y Hx Hy Hxy). apply abs_le in HD. apply abs_le. pose proof (Qabs_nonneg (y - x)). nra.
    - intros eps He. destruct (HU eps He) as (m & Hm). exists m. intros x Hx. specialize (Hm x Hx). apply abs_le in Hm. apply abs_le. lra.
    - intros eps He. destruct (HL eps He) as (m & Hm). exists m. intros x Hx. specialize (Hm x Hx). apply abs_le in Hm. apply abs_le. lra.
    - rewrite E. ring.
  Qed.

  Lemma whole_too_small v v' : accurate e (fun x => exp (- (x * x))) MInf PInf f (hermite f) -> computes f g MInf PInf ->
    (forall x y, x <= y -> exp x <= exp y) -> 2 <= exp 1 ->
    (forall x, 0 <= g x) -> (forall x, Qabs x < 1 -> g x == 0) ->
    integral_is g MInf PInf v -> integral_is (fun x => g x * exp (- (x * x))) MInf PInf v' ->
    exists r, integral MInf PInf f = Ok (Num r) /\ r <= v * (1 # 2) + e + (1 # 200).
  Proof.
    intros HA HC HM H2 Hg0 Hgz HV HV'. destruct (whole_answer v' HA HC HV') as (r & E & _ & Hr). exists r. split; [exact E|].
    assert (v' <= v * (1 # 2)).
    { apply (integral_mono (fun x => g x * exp (- (x * x))) (fun x => g x * (1 # 2)) MInf PInf); [exact I| |exact HV'|apply integral_scale; exact HV].
      intros x _. destruct (Qlt_le_dec (Qabs x) 1) as [H|H]; [rewrite (Hgz x H); lra|].
      assert (Hxx : 1 <= x * x).
      { assert (E1 : x * x == Qabs x * Qabs x).
        { destruct (Qlt_le_dec x 0); [rewrite Qabs_neg by lra; ring|rewrite Qabs_pos by lra; ring]. }
        rewrite E1. nra. }
      destruct Hexp as (_ & Hpos & Hinv). pose proof (HM 1 (x * x) Hxx). pose proof (Hinv (x * x)). pose proof (Hpos (- (x * x))).
      specialize (Hg0 x). assert (exp (- (x * x)) <= 1 # 2) by nra. nra. }
    apply abs_le in Hr. lra.
  Qed.
End Answers.

(** ** Piecewise integration with errors *)
Lemma value_near I J delta ps : (forall p, In p ps -> Qabs (I (fst p) (snd p) - J (fst p) (snd p)) <= delta) ->
  Qabs (value_of I ps - value_of J ps) <= inject_Z (Z.of_nat (length ps)) * delta.
Proof.
  induction ps as [|p ps IH]; intros H.
  - unfold value_of. cbn. unfold Qle. cbn. lia.
  - assert (H1 := H p (or_introl eq_refl)). assert (H2 := IH (fun q Hq => H q (or_intror Hq))).
    change (value_of I (p :: ps)) with (I (fst p) (snd p) + value_of I ps).
    change (value_of J (p :: ps)) with (J (fst p) (snd p) + value_of J ps).
    cbn [length]. rewrite Nat2Z.inj_succ. unfold Z.succ. rewrite inject_Z_plus. change (inject_Z 1) with 1.
    apply abs_le in H1, H2. apply abs_le. lra.
Qed.

Lemma tiles_ordered : forall ps a b, tiles a ps b -> forall p, In p ps -> point_lt (fst p) (snd p).
Proof.
  induction ps as [|[c d] ps IH]; intros a b H p []; cbn in H; destruct H as (_ & H1 & H2); [subst; exact H1|eapply IH; eauto].
Qed.

Lemma piecewise_error I J delta breaks fuel from to l r : exact_quadrature J -> 
  (forall a b, point_lt a b -> Qabs (I a b - J a b) <= delta) ->
  ordered_breaks breaks -> interval from to -> piecewise I breaks fuel from to = Some (l, r) ->
  ~ converged I l -> ~ converged I r ->
  exists v, piecewise_integral I breaks fuel from to = Some v /\
    Qabs (v - J from to) <= inject_Z (Z.of_nat (length l + length r)) * delta.
Proof.
  intros HJ HE HO HI HP H1 H2. destruct (pieces_tile I breaks fuel from to l r HO HI HP) as ((a & b & HT & _ & _ & HA & HB) & HV).
  eexists. split; [exact HV|]. destruct HA as [HA|HA]; [|contradiction]. destruct HB as [HB|HB]; [|contradiction].
  assert (VJ := tiles_value J _ HJ _ _ HT). rewrite (proj2 HJ _ _ _ _ HA HB) in VJ.
  assert (VI := value_near I J delta (rev l ++ r) (fun p Hp => HE _ _ (tiles_ordered _ _ _ HT p Hp))).
  rewrite app_length, rev_length in VI. rewrite VJ in VI. rewrite value_of_app, value_of_rev in VI. exact VI.
Qed.

(** ** Derivatives *)
Lemma derivative_spec diff f x :
  derivative diff f x =
    match f x with
    | Ok (Num _) =>
        match diff f x with
        | Ok (Some (Num d)) => Ok (Num (apply_precision d))
        | Ok (Some y) => Ok y
        | Ok None => Ok (Num 0)
        | Err e => Err e
        | Panic => Panic
        end
    | Ok _ => Ok PosInf
    | Err e => Err e
    | Panic => Panic
    end.
Proof.
  unfold derivative. destruct (f x) as [[|q|]| |]; cbn [obind finite negb]; try reflexivity.
  destruct (diff f x) as [[[|d|]|]| |]; reflexivity.
Qed.

Lemma derivative_cases diff f x :
  (forall q d, f x = Ok (Num q) -> diff f x = Ok (Some (Num d)) -> exists r, derivative diff f x = Ok (Num r) /\ rounded_to 0 d r) /\
  (forall q, f x = Ok (Num q) -> diff f x = Ok None -> derivative diff f x = Ok (Num 0)) /\
  (f x = Ok PosInf \/ f x = Ok NegInf -> derivative diff f x = Ok PosInf) /\
  (f x = Panic -> derivative diff f x = Panic).
Proof.
  rewrite derivative_spec. split; [|split; [|split]].
  - intros q d -> ->. eexists. split; [reflexivity|]. apply round_near. apply abs_le. lra.
  - intros q -> ->. reflexivity.
  - intros [-> | ->]; reflexivity.
  - intros ->. reflexivity.
Qed.
