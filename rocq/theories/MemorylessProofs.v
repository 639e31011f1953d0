(** Proofs about the competitiveness of the memoryless algorithm. *)
From Coq Require Import Lia Lqa Qabs Qround.
From Verif Require Import NumLemmas OptimizeProofs DescentModel DescentSpec DescentProofs DescentMore StreamSpec StreamProofs
  ObjectiveSpec ObjectiveProofs CostProofs ConvertProofs ConvertObjective StaticProofs VerifyProofs MemorylessSpec.
From Verif Require Import ProblemModel CostModel.
Local Open Scope Z_scope.

Lemma last_cons {A} (xs : list A) : forall x a, last (x :: xs) a = last xs x.
Proof.
  induction xs as [|z xs I]; intros; [reflexivity|]. change (last (x :: z :: xs) a) with (last (z :: xs) a).
  rewrite I. symmetry. apply I.
Qed.

Lemma frac100 z : (z # 100 == inject_Z z * (1 # 100))%Q.
Proof. unfold Qeq, Qmult. simpl. lia. Qed.

(** ** One slot *)
Section Slot.
  Variables u b L : Q.
  Hypothesis Hu : (0 <= u)%Q.
  Hypothesis Hug : hundredths u.
  Hypothesis Hb : (0 <= b)%Q.
  Hypothesis HL : (0 <= L)%Q.

  Record mild (F : Q -> Q) : Prop := {
    m_eq : forall x y, (x == y)%Q -> (F x == F y)%Q;
    m_nonneg : forall x, (0 <= x <= u)%Q -> (0 <= F x)%Q;
    m_convex : forall x y z, (0 <= x)%Q -> (x <= y)%Q -> (y <= z)%Q -> (z <= u)%Q ->
      ((z - x) * F y <= (z - y) * F x + (y - x) * F z)%Q;
    m_slope : forall x y, (0 <= x <= u)%Q -> (0 <= y <= u)%Q -> (F x - F y <= L * Qabs (x - y))%Q
  }.

  (** The choice of the algorithm: [x] after [a]. *)
  Record picked (F : Q -> Q) (a x : Q) : Prop := {
    k_a : (0 <= a <= u)%Q; k_ag : hundredths a;
    k_x : (0 <= x <= u)%Q; k_xg : hundredths x;
    k_ok : (b * Qabs (x - a) <= (1 # 2) * F x + (1 # 1000))%Q;
    k_min : forall z, (0 <= z <= u)%Q -> hundredths z -> (b * Qabs (z - a) <= (1 # 2) * F z)%Q -> (F x <= F z)%Q
  }.

  Lemma hundredths_sub x y : hundredths x -> hundredths y -> hundredths (x - y).
  Proof. intros (i & Hi) (j & Hj). exists (i - j). rewrite Hi, Hj. unfold Qeq, Qminus, Qplus, Qopp; simpl. lia. Qed.
  Lemma hundredths_next x : hundredths x -> hundredths (x + (1 # 100)).
  Proof. intros (i & Hi). exists (i + 1). rewrite Hi. unfold Qeq, Qplus; simpl. lia. Qed.
  Lemma hundredths_gap x y : hundredths x -> hundredths y -> (x < y)%Q -> (x + (1 # 100) <= y)%Q.
  Proof.
    intros (i & Hi) (j & Hj). rewrite Hi, Hj. unfold Qlt, Qle, Qplus; simpl. lia.
  Qed.

  Lemma mirror_mild F : mild F -> mild (fun z => F (u - z)%Q).
  Proof.
    intros M. constructor.
    - intros x y E. apply (m_eq _ M). rewrite E. reflexivity.
    - intros x H. apply (m_nonneg _ M). lra.
    - intros x y z H1 H2 H3 H4. pose proof (m_convex _ M (u - z) (u - y) (u - x)) as G.
      specialize (G ltac:(lra) ltac:(lra) ltac:(lra) ltac:(lra)). cbv beta.
      setoid_replace (u - x - (u - z))%Q with (z - x)%Q in G by ring.
      setoid_replace (u - x - (u - y))%Q with (y - x)%Q in G by ring.
      setoid_replace (u - y - (u - z))%Q with (z - y)%Q in G by ring. lra.
    - intros x y H1 H2. pose proof (m_slope _ M (u - x) (u - y) ltac:(lra) ltac:(lra)) as G.
      setoid_replace (u - x - (u - y))%Q with (- (x - y))%Q in G by ring. rewrite Qabs_opp in G. exact G.
  Qed.
  Lemma mirror_abs x y : (Qabs (u - x - (u - y)) == Qabs (x - y))%Q.
  Proof. setoid_replace (u - x - (u - y))%Q with (- (x - y))%Q by ring. apply Qabs_opp. Qed.
  Lemma mirror_picked F a x : mild F -> picked F a x -> picked (fun z => F (u - z)%Q) (u - a) (u - x).
  Proof.
    intros M K. assert (u - (u - x) == x)%Q as Ex by ring. destruct K as [? ? ? ? Ko Km]. constructor; try lra; try (apply hundredths_sub; assumption).
    - rewrite mirror_abs, (m_eq _ M _ _ Ex). exact Ko.
    - intros z Hz Hg H. rewrite (m_eq _ M _ _ Ex). apply Km; [lra|apply hundredths_sub; assumption|].
      setoid_replace (Qabs (u - z - a)) with (Qabs (z - (u - a))).
      + exact H.
      + setoid_replace (u - z - a)%Q with (- (z - (u - a)))%Q by ring. apply Qabs_opp.
  Qed.

  (** Between an allowed grid point and one that is not allowed, there is a last allowed one. *)
  Lemma last_allowed F a : (0 <= a)%Q -> hundredths a -> forall n z, (z == a + (Z.of_nat n # 100))%Q -> (z <= u)%Q ->
    (b * Qabs (a - a) <= (1 # 2) * F a)%Q -> mild F -> ~ (b * Qabs (z - a) <= (1 # 2) * F z)%Q ->
    exists w, hundredths w /\ (a <= w)%Q /\ (w + (1 # 100) <= z)%Q /\
      (b * Qabs (w - a) <= (1 # 2) * F w)%Q /\ ~ (b * Qabs (w + (1 # 100) - a) <= (1 # 2) * F (w + (1 # 100)))%Q.
  Proof.
    intros Ha Hg n. induction n as [|n IH]; intros z Ez Hz H0 M N.
    - exfalso. apply N. assert (z == a)%Q as E by (rewrite Ez; unfold Qeq, Qplus; simpl; lia).
      rewrite (m_eq _ M _ _ E), E. exact H0.
    - set (w := (a + (Z.of_nat n # 100))%Q).
      assert (z == w + (1 # 100))%Q as E by (rewrite Ez; unfold w, Qeq, Qplus; cbn [Qnum Qden]; lia).
      assert (a <= w)%Q as Haw by (unfold w, Qle, Qplus; cbn [Qnum Qden]; lia).
      destruct (Qlt_le_dec ((1 # 2) * F w) (b * Qabs (w - a))) as [Hl|Hl].
      + destruct (IH w (Qeq_refl _)) as (v & V1 & V2 & V3 & V4 & V5); auto; [lra|lra|].
        exists v. repeat split; auto. lra.
      + exists w. split; [|split; [|split; [|split]]]; auto; [|lra|].
        * destruct Hg as (i & Hi). exists (i + Z.of_nat n). unfold w. rewrite Hi. unfold Qeq, Qplus; cbn [Qnum Qden]. lia.
        * rewrite <- (m_eq _ M _ _ E). setoid_replace (w + (1 # 100) - a)%Q with (z - a)%Q by (rewrite E; reflexivity). exact N.
  Qed.

  Definition eps : Q := slack b L.

  Section Amortised.
    Variables c k : Q.
    Hypothesis Hc : (0 <= c <= 1)%Q.
    Hypothesis Hk : (k == c + 2)%Q.
    Let lhs F a x y := (F x + c * (b * Qabs (x - a)) + k * b * (Qabs (x - y) - Qabs (a - y)))%Q.

    Lemma abs_r x y : (y <= x)%Q -> (Qabs (x - y) == x - y)%Q.
    Proof. intros. apply Qabs_pos. lra. Qed.
    Lemma abs_l x y : (x <= y)%Q -> (Qabs (x - y) == y - x)%Q.
    Proof. intros. rewrite Qabs_neg by lra. ring. Qed.

    Lemma dear F a x y : mild F -> picked F a x -> (0 <= y <= u)%Q -> (F x <= F y)%Q -> (lhs F a x y <= k * F y + eps)%Q.
    Proof.
      intros M K Hy H. unfold lhs, eps, slack.
      assert (Qabs (x - y) - Qabs (a - y) <= Qabs (x - a))%Q as T.
      { pose proof (Qabs_triangle (x - a) (a - y)) as T. setoid_replace (x - a + (a - y))%Q with (x - y)%Q in T by ring. lra. }
      pose proof (k_ok _ _ _ K) as Ko. pose proof (m_nonneg _ M x (k_x _ _ _ K)) as P.
      assert (k * b * (Qabs (x - y) - Qabs (a - y)) <= k * (b * Qabs (x - a)))%Q as T2.
      { setoid_replace (k * (b * Qabs (x - a)))%Q with (k * b * Qabs (x - a))%Q by ring.
        rewrite !(Qmult_comm (k * b)). apply Qmult_le_compat_r; [exact T|]. apply Qmult_le_0_compat; lra. }
      assert ((c + k) * (b * Qabs (x - a)) <= (c + k) * ((1 # 2) * F x + (1 # 1000)))%Q as T3.
      { rewrite !(Qmult_comm (c + k)). apply Qmult_le_compat_r; [exact Ko|lra]. }
      assert (k * F x <= k * F y)%Q as T4 by (rewrite !(Qmult_comm k); apply Qmult_le_compat_r; lra).
      rewrite Hk in *. nra.
    Qed.

    Lemma cheap_up F a x y : mild F -> picked F a x -> (0 <= y <= u)%Q -> (a <= x)%Q -> (F y < F x)%Q -> (x < y)%Q ->
      (lhs F a x y <= k * F y + eps)%Q.
    Proof.
      intros M K Hy Hax H Hxy. unfold lhs, eps, slack.
      rewrite (abs_l x y), (abs_l a y), (abs_r x a) by lra.
      pose proof (m_nonneg _ M y Hy) as Py. pose proof (k_x _ _ _ K) as Hx. pose proof (k_a _ _ _ K) as Ha.
      assert (0 <= b * (x - a))%Q as Pb by (apply Qmult_le_0_compat; lra).
      assert (F y <= k * F y)%Q as Pk by (rewrite Hk; nra).
      assert (F x + c * (b * (x - a)) + k * b * (y - x - (y - a)) == F x - 2 * (b * (x - a)))%Q as -> by (rewrite Hk; ring).
      destruct (Qlt_le_dec y (x + (1 # 100))) as [Hs|Hs].
      - pose proof (m_slope _ M x y Hx Hy) as Sl. rewrite abs_l in Sl by lra.
        assert (L * (y - x) <= L * (1 # 100))%Q by (rewrite !(Qmult_comm L); apply Qmult_le_compat_r; lra). lra.
      - set (z := (x + (1 # 100))%Q) in *.
        assert (F z < F x)%Q as Hz.
        { pose proof (m_convex _ M x z y ltac:(lra) ltac:(unfold z; lra) Hs ltac:(lra)) as Cv.
          destruct (Qlt_le_dec (F z) (F x)) as [G|G]; auto. exfalso.
          assert ((z - x) * F y < (z - x) * F x)%Q as G1.
          { apply Qmult_lt_l; [unfold z; lra|exact H]. }
          assert ((y - x) * F x <= (y - x) * F z)%Q as G2 by (rewrite !(Qmult_comm (y - x)); apply Qmult_le_compat_r; lra).
          lra. }
        assert (~ (b * Qabs (z - a) <= (1 # 2) * F z)%Q) as N.
        { intros N. pose proof (k_min _ _ _ K z ltac:(unfold z in *; lra) (hundredths_next _ (k_xg _ _ _ K)) N). lra. }
        apply Qnot_le_lt in N. rewrite abs_r in N by (unfold z; lra).
        assert (b * (z - a) == b * (x - a) + b * (1 # 100))%Q as E by (unfold z; ring). rewrite E in N.
        pose proof (m_slope _ M x z Hx ltac:(unfold z in *; lra)) as Sl. rewrite abs_l in Sl by (unfold z; lra).
        setoid_replace (z - x)%Q with (1 # 100) in Sl by (unfold z; ring). lra.
    Qed.

    Lemma cheap_between F a x y : mild F -> picked F a x -> (0 <= y <= u)%Q -> (F y < F x)%Q -> (a <= y)%Q -> (y < x)%Q ->
      (lhs F a x y <= k * F y + eps)%Q.
    Proof.
      intros M K Hy H Hay Hyx. unfold lhs, eps, slack.
      rewrite (abs_r x y), (abs_l a y), (abs_r x a) by lra.
      pose proof (m_nonneg _ M y Hy) as Py. pose proof (k_x _ _ _ K) as Hx. pose proof (k_a _ _ _ K) as Ha.
      pose proof (k_ok _ _ _ K) as Ko. rewrite (abs_r x a) in Ko by lra.
      assert (0 <= b * (x - a))%Q as Pb by (apply Qmult_le_0_compat; lra).
      assert (0 <= b * (y - a))%Q as Pb2 by (apply Qmult_le_0_compat; lra).
      destruct (k_ag _ _ _ K) as (i & Hi).
      set (n := Z.to_nat (Qfloor (100 * (y - a)))).
      assert (0 <= Qfloor (100 * (y - a))) as Fn by (change 0 with (Qfloor 0); apply Qfloor_resp_le; lra).
      assert (Z.of_nat n # 100 <= y - a)%Q as N1.
      { unfold n. rewrite Z2Nat.id by auto. pose proof (Qfloor_le (100 * (y - a))) as G. rewrite frac100. lra. }
      assert (y - a <= (Z.of_nat n # 100) + (1 # 100))%Q as N2.
      { unfold n. rewrite Z2Nat.id by auto. pose proof (Qlt_floor (100 * (y - a))) as G. rewrite inject_Z_plus in G.
        change (inject_Z 1) with 1%Q in G. rewrite frac100. lra. }
      set (z := (a + (Z.of_nat n # 100))%Q).
      assert (a <= z)%Q as Haz by (unfold z, Qle, Qplus; cbn [Qnum Qden]; lia).
      assert (0 <= z <= u)%Q as Hz by (unfold z in *; lra).
      assert (hundredths z) as Hzg.
      { exists (i + Z.of_nat n). unfold z. rewrite Hi. unfold Qeq, Qplus; cbn [Qnum Qden]. lia. }
      destruct (Qlt_le_dec ((1 # 2) * F z) (b * Qabs (z - a))) as [N|N].
      - assert (b * Qabs (a - a) <= (1 # 2) * F a)%Q as A0.
        { pose proof (m_nonneg _ M a Ha). assert (Qabs (a - a) == 0)%Q as -> by (rewrite abs_r by lra; ring). lra. }
        destruct (last_allowed F a (proj1 Ha) (k_ag _ _ _ K) n z (Qeq_refl _) (proj2 Hz) A0 M) as (w & W1 & W2 & W3 & W4 & W5); [lra|].
        assert (w + (1 # 100) <= y)%Q as W6 by (unfold z in *; lra).
        pose proof (k_min _ _ _ K w ltac:(lra) W1 W4) as Kw. apply Qnot_le_lt in W5. rewrite abs_r in W5 by lra.
        pose proof (m_slope _ M w (w + (1 # 100)) ltac:(lra) ltac:(lra)) as Sl. rewrite abs_l in Sl by lra.
        setoid_replace (w + (1 # 100) - w)%Q with (1 # 100) in Sl by ring.
        assert (b * (w + (1 # 100) - a) == b * (w - a) + b * (1 # 100))%Q as E by ring. rewrite E in W5.
        assert (F x + c * (b * (x - a)) + k * b * (x - y - (y - a)) == F x - 2 * (b * (x - a)) + 2 * (k * (b * (x - y))))%Q as ->
          by (rewrite Hk; ring).
        assert (b * (x - a) == b * (w - a) + b * (x - w))%Q as E2 by ring.
        assert (b * (x - y) <= b * (x - w))%Q as E3 by (rewrite !(Qmult_comm b); apply Qmult_le_compat_r; lra).
        assert (0 <= b * (x - w))%Q as E4 by (apply Qmult_le_0_compat; lra).
        assert (b * (x - w) <= (1 # 100) * b + (5 # 1000) * L + (1 # 1000))%Q as E5 by lra.
        assert (k * (b * (x - y)) <= 3 * (b * (x - w)))%Q as E6.
        { assert (0 <= b * (x - y))%Q by (apply Qmult_le_0_compat; lra). rewrite Hk. nra. }
        assert (0 <= k * F y)%Q by (apply Qmult_le_0_compat; lra). lra.
      - pose proof (k_min _ _ _ K z Hz Hzg N) as Kz.
        pose proof (m_slope _ M z y Hz Hy) as Sl. rewrite abs_l in Sl by (unfold z in *; lra).
        assert (L * (y - z) <= L * (1 # 100))%Q as E1 by (rewrite !(Qmult_comm L); apply Qmult_le_compat_r; unfold z; lra).
        assert (F x <= F y + L * (1 # 100))%Q as E2 by lra.
        assert (k * b * (x - y - (y - a)) <= k * (b * (x - a)))%Q as E3.
        { setoid_replace (k * b * (x - y - (y - a)))%Q with (k * (b * (x - a) - 2 * (b * (y - a))))%Q by ring.
          rewrite !(Qmult_comm k). apply Qmult_le_compat_r; lra. }
        assert ((c + k) * (b * (x - a)) <= (c + k) * ((1 # 2) * F x + (1 # 1000)))%Q as E4.
        { rewrite !(Qmult_comm (c + k)). apply Qmult_le_compat_r; [exact Ko|lra]. }
        assert (k * F x <= k * (F y + L * (1 # 100)))%Q as E5 by (rewrite !(Qmult_comm k); apply Qmult_le_compat_r; lra).
        rewrite Hk in *. nra.
    Qed.

    Lemma cheap_behind F a x y : mild F -> picked F a x -> (0 <= y <= u)%Q -> (F y < F x)%Q -> (y < a)%Q -> (a < x)%Q -> False.
    Proof.
      intros M K Hy H Hya Hax. pose proof (k_x _ _ _ K) as Hx. pose proof (k_a _ _ _ K) as Ha.
      pose proof (m_convex _ M y a x ltac:(lra) ltac:(lra) ltac:(lra) ltac:(lra)) as Cv.
      assert (F x <= F a)%Q as G.
      { apply (k_min _ _ _ K a Ha (k_ag _ _ _ K)). pose proof (m_nonneg _ M a Ha). rewrite abs_r by lra.
        setoid_replace (a - a)%Q with 0%Q by ring. lra. }
      assert ((x - a) * F y < (x - a) * F x)%Q as G1 by (apply Qmult_lt_l; lra).
      assert ((x - y) * F x <= (x - y) * F a)%Q as G2 by (rewrite !(Qmult_comm (x - y)); apply Qmult_le_compat_r; lra).
      lra.
    Qed.

    Lemma half F a x y : mild F -> picked F a x -> (0 <= y <= u)%Q -> (a <= x)%Q -> (a < x \/ x <= y)%Q ->
      (lhs F a x y <= k * F y + eps)%Q.
    Proof.
      intros M K Hy Hax Hs. destruct (Qlt_le_dec (F y) (F x)) as [H|H]; [|apply dear; auto].
      destruct (Qlt_le_dec x y) as [G|G]; [apply cheap_up; auto|].
      assert (y < x)%Q as Gyx.
      { destruct (Qlt_le_dec y x) as [G'|G']; auto. assert (F y == F x)%Q by (apply (m_eq _ M); lra). lra. }
      destruct (Qlt_le_dec y a) as [G1|G1]; [|apply cheap_between; auto].
      exfalso. apply (cheap_behind F a x y); auto. destruct Hs; [assumption|lra].
    Qed.

    Lemma amortised F a x y : mild F -> picked F a x -> (0 <= y <= u)%Q -> (lhs F a x y <= k * F y + eps)%Q.
    Proof.
      intros M K Hy. destruct (Qlt_le_dec a x) as [H|H]; [apply half; auto; lra|].
      destruct (Qlt_le_dec x a) as [G|G].
      2: { destruct (Qlt_le_dec y x) as [G1|G1]; [|apply half; auto; lra].
           pose proof (half (fun z => F (u - z)%Q) (u - a) (u - x) (u - y) (mirror_mild F M) (mirror_picked F a x M K)
             ltac:(lra) ltac:(lra) ltac:(lra)) as R. unfold lhs in *. rewrite !mirror_abs in R.
           assert (F (u - (u - x)) == F x)%Q as Ex by (apply (m_eq _ M); ring).
           assert (F (u - (u - y)) == F y)%Q as Ey by (apply (m_eq _ M); ring). rewrite Ex, Ey in R. exact R. }
      pose proof (half (fun z => F (u - z)%Q) (u - a) (u - x) (u - y) (mirror_mild F M) (mirror_picked F a x M K)
        ltac:(lra) ltac:(lra) ltac:(lra)) as R. unfold lhs in *. rewrite !mirror_abs in R.
      assert (F (u - (u - x)) == F x)%Q as Ex by (apply (m_eq _ M); ring).
      assert (F (u - (u - y)) == F y)%Q as Ey by (apply (m_eq _ M); ring). rewrite Ex, Ey in R. exact R.
    Qed.

    (** ** A run *)
    Fixpoint run (F : Z -> Q -> Q) (t : Z) (a : Q) (xs : list Q) : Prop :=
      match xs with [] => True | x :: r => mild (F t) /\ picked (F t) a x /\ run F (t + 1) x r end.

    Lemma run_amortised F : forall xs ys t a q, length xs = length ys -> run F t a xs -> Forall (fun y => (0 <= y <= u)%Q) ys ->
      (paid F (fun a x => c * both_ways b a x) t a xs + k * b * Qabs (last xs a - last ys q)
       <= k * paid F (both_ways b) t q ys + k * b * Qabs (a - q) + inject_Z (Z.of_nat (length xs)) * eps)%Q.
    Proof.
      induction xs as [|x xs IH]; intros [|y ys] t a q Hl R Hys; try discriminate.
      - cbn [paid last length Z.of_nat]. change (inject_Z 0) with 0%Q. lra.
      - destruct R as (M & K & R). inversion Hys as [|? ? Hy Hys']; subst.
        specialize (IH ys (t + 1) x y ltac:(simpl in Hl; lia) R Hys').
        pose proof (amortised (F t) a x y M K Hy) as A. unfold lhs in A.
        rewrite !last_cons.
        cbn [paid length]. unfold both_ways in *.
        assert (inject_Z (Z.of_nat (S (length xs))) == inject_Z (Z.of_nat (length xs)) + 1)%Q as ->.
        { rewrite Nat2Z.inj_succ. unfold Z.succ. rewrite inject_Z_plus. reflexivity. }
        assert (k * b * Qabs (a - y) <= k * b * Qabs (a - q) + k * (b * Qabs (y - q)))%Q as T.
        { pose proof (Qabs_triangle (a - q) (q - y)) as T. setoid_replace (a - q + (q - y))%Q with (a - y)%Q in T by ring.
          rewrite (Qabs_Qminus q y) in T.
          setoid_replace (k * b * Qabs (a - q) + k * (b * Qabs (y - q)))%Q with (k * b * (Qabs (a - q) + Qabs (y - q)))%Q by ring.
          rewrite !(Qmult_comm (k * b)). apply Qmult_le_compat_r; [exact T|]. apply Qmult_le_0_compat; lra. }
        lra.
    Qed.
  End Amortised.

  (** Movement in both directions and upwards. *)
  Definition free (_ _ : Q) : Q := 0%Q.

  Lemma paid_upwards F : forall xs t a,
    (2 * paid F (upwards b) t a xs == paid F free t a xs + paid F (both_ways b) t a xs + b * (last xs a - a))%Q.
  Proof.
    induction xs as [|x xs IH]; intros t a.
    - cbn. ring.
    - rewrite last_cons. cbn [paid]. specialize (IH (t + 1) x).
      assert (2 * upwards b a x == both_ways b a x + b * (x - a))%Q as E.
      { unfold upwards, both_ways. destruct (Qle_bool a x) eqn:E; [apply Qle_bool_iff in E|apply Qle_bool_false in E].
        - rewrite abs_r by lra. ring.
        - rewrite abs_l by lra. ring. }
      unfold free at 1. lra.
  Qed.

  Lemma paid_split F c : forall xs t a,
    (paid F (fun a x => c * both_ways b a x) t a xs
     == (1 - c) * paid F free t a xs + c * paid F (both_ways b) t a xs)%Q.
  Proof. induction xs as [|x xs IH]; intros t a; cbn [paid]; [ring|]. rewrite IH. unfold free at 2. ring. Qed.

  Lemma run_hits F : forall xs ys t a q, length xs = length ys -> run F t a xs -> Forall (fun y => (0 <= y <= u)%Q) ys ->
    (0 <= paid F free t q ys)%Q.
  Proof.
    induction xs as [|x xs IH]; intros [|y ys] t a q Hl R H; try discriminate; cbn [paid].
    destruct R as (M & _ & R). inversion H; subst. pose proof (m_nonneg _ M y ltac:(assumption)).
    specialize (IH ys (t + 1) x y ltac:(simpl in Hl; lia) R ltac:(assumption)). unfold free at 1. lra.
  Qed.

  Lemma last_range (ys : list Q) : Forall (fun y => (0 <= y <= u)%Q) ys -> (0 <= last ys 0)%Q.
  Proof.
    intros H. destruct ys as [|y ys]; [cbn; lra|]. rewrite last_cons. revert y H.
    induction ys as [|z ys IH]; intros y H; inversion H as [|? ? Hy Hr]; subst.
    - cbn. lra.
    - rewrite last_cons. auto.
  Qed.

  Lemma run_both F xs ys t : length xs = length ys -> run F t 0 xs -> Forall (fun y => (0 <= y <= u)%Q) ys ->
    (paid F (both_ways b) t 0 xs <= 3 * paid F (both_ways b) t 0 ys + inject_Z (Z.of_nat (length xs)) * eps)%Q.
  Proof.
    intros Hl R Hys. pose proof (run_amortised 1 3 ltac:(lra) ltac:(lra) F xs ys t 0 0 Hl R Hys) as G.
    rewrite paid_split in G. pose proof (Qabs_nonneg (last xs 0%Q - last ys 0%Q)) as P.
    setoid_replace (0 - 0)%Q with 0%Q in G by ring. change (Qabs 0) with 0%Q in G.
    assert (0 <= 3 * b * Qabs (last xs 0 - last ys 0))%Q by (apply Qmult_le_0_compat; [lra|exact P]). lra.
  Qed.

  Lemma run_up F xs ys t : length xs = length ys -> run F t 0 xs -> Forall (fun y => (0 <= y <= u)%Q) ys ->
    (paid F (upwards b) t 0 xs <= 5 * paid F (upwards b) t 0 ys + inject_Z (Z.of_nat (length xs)) * eps)%Q.
  Proof.
    intros Hl R Hys. pose proof (run_amortised (1 # 2) (5 # 2) ltac:(lra) ltac:(lra) F xs ys t 0 0 Hl R Hys) as G.
    rewrite paid_split in G. pose proof (Qle_Qabs (last xs 0%Q - last ys 0%Q)) as P.
    setoid_replace (0 - 0)%Q with 0%Q in G by ring. change (Qabs 0) with 0%Q in G.
    pose proof (paid_upwards F xs t 0) as E1. pose proof (paid_upwards F ys t 0) as E2.
    pose proof (run_hits F xs ys t 0 0 Hl R Hys) as P1. pose proof (last_range ys Hys) as P2.
    assert (b * (last xs 0 - last ys 0) <= b * Qabs (last xs 0 - last ys 0))%Q as P3 by (rewrite !(Qmult_comm b); apply Qmult_le_compat_r; lra).
    assert (0 <= b * last ys 0)%Q as P4 by (apply Qmult_le_0_compat; lra).
    assert (0 <= b * Qabs (last xs 0 - last ys 0))%Q as P5 by (apply Qmult_le_0_compat; [lra|apply Qabs_nonneg]).
    lra.
  Qed.
End Slot.

Lemma total_paid F b ys : forall t a,
  eeq (total_cost (fun t (x : list Q) => Fin (F t (hd 0%Q x))) (fun a b' => upwards b (hd 0%Q a) (hd 0%Q b')) 1 t [a] (map (fun x => [x]) ys))
      (Fin (paid F (upwards b) t a ys)).
Proof.
  induction ys as [|y ys IH]; intros t a; cbn [map total_cost paid]; [apply Qeq_refl|].
  specialize (IH (t + 1) y). cbn [hd].
  match goal with |- eeq (eadd _ ?e) _ => destruct e as [q|]; [|contradiction] end. simpl in *. rewrite IH. ring.
Qed.

(** ** The algorithm *)
Section Run.
  Context {C D : Type}.
  Variable vmerge : C -> C -> outcome C.
  Variable merge : C -> C -> C.
  Variable outside : D.
  Variable s : split.
  Variable nlopt : nl_problem -> outcome nl_result.
  Hypothesis Hex : exact_nlopt nlopt.
  Variable p : gssco Q C D.
  Variable F : Z -> Q -> Q.
  Variables u b L : Q.
  Variable T : Z.
  Hypothesis Hd : g_d p = 1.
  Hypothesis Hbd : g_bounds p = [u].
  Hypothesis Hsw : g_switching p = [b].
  Hypothesis Ht1 : g_tend p = 1.
  Hypothesis HT : 1 <= T.
  Hypothesis Hu : (0 < u)%Q.
  Hypothesis Hug : hundredths u.
  Hypothesis Hb : (0 < b)%Q.
  Hypothesis HL : (0 <= L)%Q.
  Hypothesis Hc : forall t x, 1 <= t <= T -> (0 <= x <= u)%Q ->
    exists c, call_mean vmerge (g_cost p) t [x] = Ok c /\ eeq (c_cost c) (Fin (F t x)).
  Hypothesis Hm : mild_costs F u L T.

  Let ops := ssco_ops valQ merge vmerge outside s : problem_ops (gssco Q C D) (list Q) C D.
  Let alg := memoryless vmerge outside nlopt : online (gssco Q C D) -> Z -> list (list Q) -> unit -> outcome (list Q * option unit).
  Let dflt := fun _ : online (gssco Q C D) => tt.
  Let o0 := mkOnline p 0.
  Let single := fun x : Q => [x].

  Lemma mild_at t : 1 <= t <= T -> mild u L (F t).
  Proof. intros Ht. destruct Hm as [m1 m2 m3 m4]. constructor; auto. Qed.

  Lemma last_single xs : last (map single xs) [0%Q] = [last xs 0%Q].
  Proof.
    destruct xs as [|x xs]; [reflexivity|]. cbn [map]. rewrite !last_cons. revert x.
    induction xs as [|y xs IH]; intros x; [reflexivity|]. cbn [map]. rewrite !last_cons. apply IH.
  Qed.

  Lemma slot t xs : 1 <= t <= T -> (0 <= last xs 0 <= u)%Q -> hundredths (last xs 0%Q) ->
    exists x, alg (at_slot ops o0 t) t (map single xs) tt = Ok ([x], None) /\ picked u b (F t) (last xs 0%Q) x.
  Proof.
    intros Ht Hr Hg.
    destruct (memoryless_spec vmerge outside nlopt Hex (at_slot ops o0 t) (map single xs) (fun x => Fin (F t x)) u b (last xs 0%Q) t)
      as (x & E & [X1 X2] & X3 & X4); try assumption; try reflexivity.
    - apply last_single.
    - split; [lra|assumption].
    - split; assumption.
    - intros x Hx. apply Hc; assumption.
    - intros x y E. simpl. apply (mc_eq _ _ _ _ Hm). exact E.
    - intros x Hx. simpl. apply (mc_nonneg _ _ _ _ Hm); assumption.
    - exists x. split; [exact E|]. constructor; auto.
  Qed.

  Lemma verified t : 0 <= t -> verify_o ops (at_slot ops o0 t) = Ok tt.
  Proof.
    intros Ht. unfold verify_o, at_slot, o0, ops. cbn [on_p on_w ssco_ops po_verify po_set]. unfold verify_online, verify_ssco.
    cbn [g_d g_tend g_bounds g_switching]. rewrite Hd, Hbd, Hsw. unfold verify_header.
    rewrite (proj2 (Z.leb_le 0 t)) by lia. cbn -[Qltb].
    change (Pos.to_nat 1) with 1%nat. cbn -[Qltb]. unfold verify_dimension, v_pos. cbn -[Qltb]. rewrite !(proj2 (Qltb_iff _ _)) by assumption. reflexivity.
  Qed.

  Lemma stream_run n : forall t xs, t = Z.of_nat (length xs) + 1 -> Z.of_nat n = T - t -> 1 <= t <= T ->
    (0 <= last xs 0 <= u)%Q -> hundredths (last xs 0%Q) ->
    exists ys, offline_stream_from ops alg dflt T (at_slot ops o0 t) (map single xs) None
      = Some (at_slot ops o0 T, map single (xs ++ ys), Ok None) /\
      length ys = S n /\ run u b L F t (last xs 0%Q) ys.
  Proof.
    induction n as [|n IH]; intros t xs Et En Ht Hr Hg.
    - rewrite (offline_unfold ops alg dflt (ssco_ops_lawful _ _ _ _ _)). unfold online_next, alg_next.
      cbn [at_slot on_p ops ssco_ops po_set po_tend g_tend]. rewrite map_length, <- Et, Z.eqb_refl. cbn [negb].
      destruct (slot t xs Ht Hr Hg) as (x & E & K). unfold at_slot, ops in E. cbn [ssco_ops po_set o0 on_p on_w] in E.
      unfold dflt at 1.
      match goal with |- context [alg ?a ?b ?c ?d] => replace (alg a b c d) with (@Ok (list Q * option unit) ([x], None)) by (symmetry; exact E) end.
      change (on_w (at_slot ops o0 t)) with 0. rewrite (proj2 (Z.ltb_ge t (T - 0))) by lia. exists [x]. replace T with t by lia. split; [|split].
      + rewrite map_app. reflexivity.
      + reflexivity.
      + cbn [run]. split; [apply mild_at; assumption|split; [exact K|exact I]].
    - rewrite (offline_unfold ops alg dflt (ssco_ops_lawful _ _ _ _ _)). unfold online_next, alg_next.
      cbn [at_slot on_p ops ssco_ops po_set po_tend g_tend]. rewrite map_length, <- Et, Z.eqb_refl. cbn [negb].
      destruct (slot t xs Ht Hr Hg) as (x & E & K). unfold at_slot, ops in E. cbn [ssco_ops po_set o0 on_p on_w] in E.
      unfold dflt at 1.
      match goal with |- context [alg ?a ?b ?c ?d] => replace (alg a b c d) with (@Ok (list Q * option unit) ([x], None)) by (symmetry; exact E) end.
      change (on_w (at_slot ops o0 t)) with 0. rewrite (proj2 (Z.ltb_lt t (T - 0))) by lia.
      change (inc ops (at_slot ops o0 t)) with (at_slot ops o0 (t + 1)).
      rewrite verified by lia.
      assert (last (xs ++ [x]) 0%Q = x) as Ex by apply last_last.
      destruct (IH (t + 1) (xs ++ [x])) as (ys & E1 & E2 & E3); try lia.
      + rewrite app_length. simpl. lia.
      + rewrite Ex. apply (k_x _ _ _ _ _ K).
      + rewrite Ex. apply (k_xg _ _ _ _ _ K).
      + exists (x :: ys). rewrite map_app in E1. cbn [map] in E1. fold (single x) in E1. change (single x) with [x] in E1. split; [|split].
        * replace (xs ++ x :: ys) with ((xs ++ [x]) ++ ys) by (rewrite <- app_assoc; reflexivity). exact E1.
        * simpl. lia.
        * rewrite Ex in E3. cbn [run]. split; [apply mild_at; assumption|split; [exact K|exact E3]].
  Qed.

  Lemma run_plan : forall ys t a, run u b L F t a ys -> Forall (fun y => (0 <= y <= u)%Q) ys /\ Forall hundredths ys.
  Proof.
    induction ys as [|y ys IH]; intros t a R; [split; constructor|]. destruct R as (_ & K & R).
    destruct (IH _ _ R). split; constructor; auto; [apply (k_x _ _ _ _ _ K)|apply (k_xg _ _ _ _ _ K)].
  Qed.

  Lemma streamed : exists xs,
    offline_stream ops alg dflt T o0 = Some (at_slot ops o0 T, map single xs, Ok None) /\
    plan u T xs /\ Forall hundredths xs /\ run u b L F 1 0 xs.
  Proof.
    destruct (stream_run (Z.to_nat (T - 1)) 1 []) as (ys & E1 & E2 & E3); try (cbn; lia).
    - cbn. lra.
    - exists 0. reflexivity.
    - exists ys. destruct (run_plan ys _ _ E3). split; [|split; [split; [lia|assumption]|split; assumption]].
      unfold offline_stream. replace o0 with (at_slot ops o0 1) at 1; [exact E1|].
      unfold at_slot, o0, ops. cbn [on_p on_w ssco_ops po_set]. destruct p. cbn in *. rewrite Ht1. reflexivity.
  Qed.


  Lemma objective_paid ys : plan u T ys ->
    exists c, po_objective ops (on_p (at_slot ops o0 T)) (map single ys) = Ok c /\
      eeq (c_cost c) (Fin (paid F (upwards b) 1 0 ys)).
  Proof.
    intros [Ly Ry]. unfold ops, at_slot, o0. cbn [on_p po_set ssco_ops po_objective].
    set (q := mkGSSCO (g_d p) T (g_bounds p) (g_switching p) (g_cost p)).
    destruct (objective_along merge (gssco_problem valQ vmerge outside q)
      (fun t (x : list Q) => Fin (F t (hd 0%Q x))) (fun a b' => upwards b (hd 0%Q a) (hd 0%Q b')) [0%Q] 1 false s
      (map single ys)) as (c & E & Ec).
    - rewrite map_length. exact Ly.
    - intros t y Ht Hy. apply in_map_iff in Hy as (x & <- & Hin). rewrite Forall_forall in Ry.
      cbn [gssco_problem op_hit hd single]. rewrite gssco_hit_inside.
      + apply Hc; auto.
      + reflexivity.
      + cbn [q g_bounds]. rewrite Hbd. constructor; [apply Ry; exact Hin|constructor].
    - intros a y Ha Hy. apply in_map_iff in Hy as (x & <- & Hin).
      assert (exists z, a = [z]) as (z & ->).
      { destruct Ha as [->|Ha]; [eauto|]. apply in_map_iff in Ha as (z & <- & _). eexists. reflexivity. }
      cbn [gssco_problem op_move]. unfold gssco_move, q. cbn [g_switching]. rewrite Hsw.
      rewrite scaled_movement_o_total by reflexivity. eexists. split; [reflexivity|]. cbn [hd single].
      unfold scaled_movement, upwards. simpl. unfold scalar_movement. cbn [v_toQ valQ].
      destruct (qpos_cases (x - z)) as [[G ->]|[G ->]]; destruct (Qle_bool z x) eqn:Ez;
        [apply Qle_bool_iff in Ez|apply Qle_bool_false in Ez|apply Qle_bool_iff in Ez|apply Qle_bool_false in Ez]; try ring; try lra;
        setoid_replace (x - z)%Q with 0%Q by lra; ring.
    - exists c. split.
      + cbn [gssco_problem op_tend q g_tend] in E. replace (gzero valQ (g_d q)) with [0%Q]; [exact E|]. cbn [q g_d]. rewrite Hd. reflexivity.
      + rewrite Ec. apply total_paid.
  Qed.

  Lemma competes_both : exists xs,
    offline_stream ops alg dflt T o0 = Some (at_slot ops o0 T, map single xs, Ok None) /\ plan u T xs /\
    forall ys, plan u T ys ->
      (paid F (both_ways b) 1 0 xs <= 3 * paid F (both_ways b) 1 0 ys + inject_Z T * slack b L)%Q.
  Proof.
    destruct streamed as (xs & E & P & G & R). exists xs. do 2 (split; [assumption|]). intros ys Py.
    replace T with (Z.of_nat (length xs)) by apply P. apply run_both with (u := u); try lra; auto; [|apply Py].
    destruct P as [P _], Py as [Py _]. lia.
  Qed.

  Lemma competes_up : exists xs c,
    offline_stream ops alg dflt T o0 = Some (at_slot ops o0 T, map single xs, Ok None) /\ plan u T xs /\
    po_objective ops (on_p (at_slot ops o0 T)) (map single xs) = Ok c /\
    forall ys, plan u T ys -> exists c',
      po_objective ops (on_p (at_slot ops o0 T)) (map single ys) = Ok c' /\
      ele (c_cost c) (eadd (escale 5 (c_cost c')) (Fin (inject_Z T * slack b L))).
  Proof.
    destruct streamed as (xs & E & P & G & R). destruct (objective_paid xs P) as (c & Oc & Ec).
    exists xs, c. do 3 (split; [assumption|]). intros ys Py.
    destruct (objective_paid ys Py) as (c' & Oc' & Ec'). exists c'. split; [exact Oc'|].
    assert (paid F (upwards b) 1 0 xs <= 5 * paid F (upwards b) 1 0 ys + inject_Z T * slack b L)%Q as H.
    { replace T with (Z.of_nat (length xs)) by apply P. apply run_up with (u := u); try lra; auto; [|apply Py].
      destruct P as [P _], Py as [Py' _]. lia. }
    destruct (c_cost c) as [q|]; [|contradiction]. destruct (c_cost c') as [q'|]; [|contradiction].
    simpl in *. rewrite Ec, Ec'. exact H.
  Qed.
End Run.
