(** Proofs about the expected cost of randomised rounding. *)
From Coq Require Import Lia Lqa Setoid Qminmax.
From Verif Require Import NumLemmas RandomizedModel RandomizedSpec RandomizedProofs ExpectedSpec.
From Verif Require Import CostModel ProblemModel.
Local Open Scope Z_scope.

(** ** Expectations *)
Definition expect {A} (g : A -> Q) (mu : list (Q * A)) : Q := Qsum (map (fun e => fst e * g (snd e))%Q mu).

Lemma expect_app {A} (g : A -> Q) m1 m2 : (expect g (m1 ++ m2) == expect g m1 + expect g m2)%Q.
Proof.
  unfold expect. induction m1 as [|[q a] m1 IH]; cbn [map app Qsum fst snd]; [ring|]. rewrite IH. ring.
Qed.
Lemma expect_preceded g q x mu : (expect g (preceded q x mu) == q * expect (fun xs => g (x :: xs)) mu)%Q.
Proof.
  unfold expect, preceded. induction mu as [|[w xs] mu IH]; cbn [map Qsum fst snd]; [ring|]. rewrite IH. ring.
Qed.
Lemma expect_shift {A} (g : A -> Q) c mu : (expect (fun a => c + g a) mu == c * expect (fun _ => 1) mu + expect g mu)%Q.
Proof.
  unfold expect. induction mu as [|[q a] mu IH]; cbn [map Qsum fst snd]; [ring|]. rewrite IH. ring.
Qed.
Lemma expect_ext {A} (g h : A -> Q) mu : Forall (fun e => (g (snd e) == h (snd e))%Q) mu -> (expect g mu == expect h mu)%Q.
Proof.
  unfold expect. induction 1 as [|[q a] mu H _ IH]; cbn [map Qsum fst snd] in *; [ring|]. rewrite IH, H. ring.
Qed.

Lemma rounded_total prev_y x ys mu : rounded prev_y x ys mu -> (expect (fun _ => 1) mu == 1)%Q.
Proof.
  induction 1 as [prev_y x|prev_y x y q ys a b HP _ IHa _ IHb]; [unfold expect; cbn; ring|].
  rewrite expect_app, !expect_preceded, IHa, IHb. ring.
Qed.

Lemma rounded_nonneg prev_y x ys mu : rounded prev_y x ys mu -> Forall (fun e => (0 <= fst e)%Q) mu.
Proof.
  induction 1 as [prev_y x|prev_y x y q ys a b HP _ IHa _ IHb]; [constructor; [cbn; lra|constructor]|].
  destruct HP as [Hq _]. apply Forall_app. unfold preceded. rewrite !Forall_map. cbn [fst].
  split; (eapply Forall_impl; [|eassumption]); intros e He; cbn beta in *; apply Qmult_le_0_compat; lra.
Qed.

Lemma rounded_length prev_y x ys mu : rounded prev_y x ys mu -> Forall (fun e => length (snd e) = length ys) mu.
Proof.
  induction 1 as [prev_y x|prev_y x y q ys a b HP _ IHa _ IHb]; [constructor; [reflexivity|constructor]|].
  apply Forall_app. unfold preceded. rewrite !Forall_map. cbn [snd length].
  split; (eapply Forall_impl; [|eassumption]); intros e He; cbn beta in *; lia.
Qed.

Lemma rounded_neighbours prev_y x ys mu : rounded prev_y x ys mu ->
  Forall (fun e => Forall2 (fun y z => z = Qfloor y \/ z = Qceiling y) ys (snd e)) mu.
Proof.
  induction 1 as [prev_y x|prev_y x y q ys a b HP _ IHa _ IHb]; [constructor; [constructor|constructor]|].
  apply Forall_app. unfold preceded. rewrite !Forall_map. cbn [snd].
  split; (eapply Forall_impl; [|eassumption]); intros e He; cbn beta in *; constructor; auto.
Qed.

Lemma rounded_exists ys : forall prev_y x, exists mu, rounded prev_y x ys mu.
Proof.
  induction ys as [|y ys IH]; intros prev_y x; [eexists; constructor|].
  destruct (step_probability_exists x prev_y y) as [q Hq].
  destruct (IH y (Qceiling y)) as [a Ha]. destruct (IH y (Qfloor y)) as [b Hb].
  eexists. econstructor; eassumption.
Qed.

Lemma rounded_unique prev_y x ys mu : rounded prev_y x ys mu -> forall mu', rounded prev_y x ys mu' ->
  forall g, (expect g mu == expect g mu')%Q.
Proof.
  induction 1 as [prev_y x|prev_y x y q ys a b HP _ IHa _ IHb]; intros mu' H' g; inversion H' as [|? ? ? q' ? a' b' HP' Ha' Hb']; subst.
  - reflexivity.
  - rewrite !expect_app, !expect_preceded. rewrite (IHa _ Ha'), (IHb _ Hb').
    rewrite (probability_unique _ q q' HP HP'). reflexivity.
Qed.

(** ** One step *)
Lemma step_up_exists prev_y y : exists up, step_probabilities prev_y y up.
Proof.
  destruct (step_probability_exists (Qfloor y) prev_y y) as [qf Hf].
  destruct (step_probability_exists (Qceiling y) prev_y y) as [qc Hc].
  destruct (step_probability_exists (Qceiling y + 1) prev_y y) as [q Hq].
  exists (fun x => if x =? Qceiling y then qc else if x =? Qfloor y then qf else q). intros x.
  destruct (Z.eqb_spec x (Qceiling y)) as [->|N1]; [exact Hc|]. destruct (Z.eqb_spec x (Qfloor y)) as [->|N2]; [exact Hf|].
  assert (HFC : Qfloor y <= Qceiling y) by (destruct (cell y) as [[A _]|[A _]]; lia).
  eapply probability_comp; [|exact Hq]. intros r. unfold next.
  rewrite (proj2 (Z.eqb_neq _ _) N1), (proj2 (Z.eqb_neq _ _) N2).
  rewrite (proj2 (Z.eqb_neq (Qceiling y + 1) (Qceiling y))), (proj2 (Z.eqb_neq (Qceiling y + 1) (Qfloor y))) by lia. reflexivity.
Qed.

(** The weight of the ceiling. *)
Definition share (y : Q) : Q := (y - inject_Z (Qfloor y))%Q.

Lemma share_bounds y : (0 <= share y <= 1)%Q.
Proof. unfold share. destruct (cell y) as [[_ E]|[_ E]]; lra. Qed.

Lemma share_mean y : (share y * inject_Z (Qceiling y) + (1 - share y) * inject_Z (Qfloor y) == y)%Q.
Proof.
  unfold share. destruct (cell y) as [[A E]|[A E]]; rewrite <- ?A.
  - transitivity (inject_Z (Qfloor y)); [ring|lra].
  - rewrite A, inject_1. ring.
Qed.

Section Step.
  Variable prev_y y qc qf : Q.
  Hypothesis Hqc : has_probability (fun r => next (Qceiling prev_y) prev_y y r = Qceiling y) qc.
  Hypothesis Hqf : has_probability (fun r => next (Qfloor prev_y) prev_y y r = Qceiling y) qf.

  Lemma step_share : gentle prev_y y -> Qceiling y = Qfloor y + 1 ->
    (share prev_y * qc + (1 - share prev_y) * qf == share y)%Q.
  Proof.
    intros HG HY. destruct (step_up_exists prev_y y) as [up HU].
    assert (E1 : (up (Qceiling prev_y) == qc)%Q) by (eapply probability_unique; [apply HU|exact Hqc]).
    assert (E2 : (up (Qfloor prev_y) == qf)%Q) by (eapply probability_unique; [apply HU|exact Hqf]).
    set (mu := [(share prev_y, Qceiling prev_y); ((1 - share prev_y)%Q, Qfloor prev_y)]).
    assert (HR : rounding mu prev_y).
    { pose proof (share_bounds prev_y). split; [|split].
      - constructor; [cbn [fst snd]; split; [lra|auto]|]. constructor; [cbn [fst snd]; split; [lra|auto]|constructor].
      - unfold mass, mu. cbn [map Qsum fst]. ring.
      - unfold mean_of, mu. cbn [map Qsum fst snd]. rewrite Qplus_0_r. apply share_mean. }
    destruct (step_rounding prev_y y up mu HU HR HG) as (_ & _ & HM).
    unfold mean_of, after, mu in HM. cbn [flat_map app map Qsum fst snd] in HM.
    rewrite E1, E2, HY, inject_1 in HM. unfold share at 3.
    assert (G : (share prev_y * qc + (1 - share prev_y) * qf + inject_Z (Qfloor y) == y)%Q); [etransitivity; [|exact HM]; ring|lra].
  Qed.

  Definition gain (x : Z) (q : Q) : Q :=
    (q * inject_Z (Z.max 0 (Qceiling y - x)) + (1 - q) * inject_Z (Z.max 0 (Qfloor y - x)))%Q.

  Lemma gain_rise x q : (prev_y <= y)%Q -> x = Qceiling prev_y \/ x = Qfloor prev_y ->
    has_probability (fun r => next x prev_y y r = Qceiling y) q ->
    (gain x q == q * inject_Z (Qceiling y) + (1 - q) * inject_Z (Qfloor y) - inject_Z x)%Q.
  Proof.
    intros Hle Hx Hq. unfold gain.
    pose proof (Qceiling_resp_le _ _ Hle) as HC. pose proof (Qfloor_resp_le _ _ Hle) as HF.
    assert (HFC : Qfloor prev_y <= Qceiling prev_y) by (destruct (cell prev_y) as [[A _]|[A _]]; lia).
    rewrite (Z.max_r 0 (Qceiling y - x)) by lia.
    assert (EM : forall a c, (inject_Z (a - c) == inject_Z a - inject_Z c)%Q).
    { intros a c. unfold Zminus. rewrite inject_Z_plus, inject_Z_opp. reflexivity. }
    destruct (Z_le_dec x (Qfloor y)) as [H|H].
    - rewrite (Z.max_r 0 (Qfloor y - x)) by lia. rewrite !EM. ring.
    - assert (q == 1)%Q as ->; [|rewrite EM; ring].
      assert (x = Qceiling y) as E by (destruct (cell y) as [[A _]|[A _]]; lia).
      eapply probability_unique; [exact Hq|]. apply probability_one. intros r. rewrite E.
      unfold next. rewrite (proj2 (Qle_bool_iff _ _) Hle), Z.eqb_refl. reflexivity.
  Qed.

  Lemma gain_fall x q : (y < prev_y)%Q -> x = Qceiling prev_y \/ x = Qfloor prev_y ->
    has_probability (fun r => next x prev_y y r = Qceiling y) q -> (gain x q == 0)%Q.
  Proof.
    intros Hlt Hx Hq. unfold gain. assert (Hle : (y <= prev_y)%Q) by lra.
    pose proof (Qceiling_resp_le _ _ Hle) as HC. pose proof (Qfloor_resp_le _ _ Hle) as HF.
    assert (HFC : Qfloor prev_y <= Qceiling prev_y) by (destruct (cell prev_y) as [[A _]|[A _]]; lia).
    rewrite (Z.max_l 0 (Qfloor y - x)) by lia. change (inject_Z 0) with 0%Q.
    destruct (Z_le_dec (Qceiling y) x) as [H|H].
    - rewrite (Z.max_l 0 (Qceiling y - x)) by lia. change (inject_Z 0) with 0%Q. ring.
    - assert (q == 0)%Q as ->; [|ring].
      assert (x = Qfloor y /\ Qfloor y <> Qceiling y) as [E N] by (destruct (cell y) as [[A _]|[A _]]; lia).
      eapply probability_unique; [exact Hq|]. apply probability_zero. intros r. rewrite E.
      unfold next. destruct (Qle_bool prev_y y) eqn:EB; [apply Qle_bool_iff in EB; lra|]. rewrite Z.eqb_refl. exact N.
  Qed.

  Lemma step_gain : gentle prev_y y ->
    (share prev_y * gain (Qceiling prev_y) qc + (1 - share prev_y) * gain (Qfloor prev_y) qf == Qmax 0 (y - prev_y))%Q.
  Proof.
    intros HG. destruct (Qlt_le_dec y prev_y) as [Hlt|Hle].
    - rewrite (gain_fall _ qc Hlt (or_introl eq_refl) Hqc), (gain_fall _ qf Hlt (or_intror eq_refl) Hqf).
      rewrite Q.max_l by lra. ring.
    - rewrite (gain_rise _ qc Hle (or_introl eq_refl) Hqc), (gain_rise _ qf Hle (or_intror eq_refl) Hqf).
      rewrite Q.max_r by lra. pose proof (share_mean prev_y) as HM.
      destruct (cell y) as [[A B]|[A B]].
      + rewrite <- A.
        transitivity (inject_Z (Qfloor y) - (share prev_y * inject_Z (Qceiling prev_y) + (1 - share prev_y) * inject_Z (Qfloor prev_y)))%Q;
          [ring|lra].
      + pose proof (step_share HG A) as HS. rewrite A, inject_1. unfold share at 3 in HS.
        assert (G1 : (y == inject_Z (Qfloor y) + (share prev_y * qc + (1 - share prev_y) * qf))%Q) by lra.
        transitivity (inject_Z (Qfloor y) + (share prev_y * qc + (1 - share prev_y) * qf) -
          (share prev_y * inject_Z (Qceiling prev_y) + (1 - share prev_y) * inject_Z (Qfloor prev_y)))%Q; [ring|lra].
  Qed.
End Step.

(** ** Costs along a path *)
Section Paths.
  Variable f : Z -> Z -> Q.
  Variable b : Q.

  Fixpoint walk (t : Z) (x : Z) (xs : list Z) : Q :=
    match xs with
    | [] => 0%Q
    | z :: r => (f t z + b * inject_Z (Z.max 0 (z - x)) + walk (t + 1) z r)%Q
    end.
  Definition blend (t : Z) (y : Q) : Q := (share y * f t (Qceiling y) + (1 - share y) * f t (Qfloor y))%Q.
  Fixpoint glide (t : Z) (y : Q) (ys : list Q) : Q :=
    match ys with
    | [] => 0%Q
    | z :: r => (blend t z + b * Qmax 0 (z - y) + glide (t + 1) z r)%Q
    end.

  Lemma walk_step t x y q ys above below : rounded y (Qceiling y) ys above -> rounded y (Qfloor y) ys below ->
    (expect (walk t x) (preceded q (Qceiling y) above ++ preceded (1 - q) (Qfloor y) below) ==
     q * (f t (Qceiling y) + expect (walk (t + 1) (Qceiling y)) above) +
     (1 - q) * (f t (Qfloor y) + expect (walk (t + 1) (Qfloor y)) below) + b * gain y x q)%Q.
  Proof.
    intros Ha Hb. rewrite expect_app, !expect_preceded. cbn [walk].
    rewrite (expect_shift (walk (t + 1) (Qceiling y)) (f t (Qceiling y) + b * inject_Z (Z.max 0 (Qceiling y - x)))%Q above).
    rewrite (expect_shift (walk (t + 1) (Qfloor y)) (f t (Qfloor y) + b * inject_Z (Z.max 0 (Qfloor y - x)))%Q below).
    rewrite (rounded_total _ _ _ _ Ha), (rounded_total _ _ _ _ Hb). unfold gain. ring.
  Qed.

  Lemma expected_walk ys : forall t prev_y above below, gentle_trajectory prev_y ys ->
    rounded prev_y (Qceiling prev_y) ys above -> rounded prev_y (Qfloor prev_y) ys below ->
    (share prev_y * expect (walk t (Qceiling prev_y)) above + (1 - share prev_y) * expect (walk t (Qfloor prev_y)) below
     == glide t prev_y ys)%Q.
  Proof.
    induction ys as [|y ys IH]; intros t prev_y above below HG Ha Hb.
    - inversion Ha; inversion Hb; subst. unfold expect. cbn. ring.
    - destruct HG as [HG HGs]. inversion Ha as [|? ? ? qc ? a1 a2 Hqc Ha1 Ha2]; subst.
      inversion Hb as [|? ? ? qf ? b1 b2 Hqf Hb1 Hb2]; subst.
      rewrite (walk_step t (Qceiling prev_y) y qc ys a1 a2 Ha1 Ha2), (walk_step t (Qfloor prev_y) y qf ys b1 b2 Hb1 Hb2).
      rewrite (rounded_unique _ _ _ _ Hb1 _ Ha1), (rounded_unique _ _ _ _ Hb2 _ Ha2).
      pose proof (step_gain prev_y y qc qf Hqc Hqf HG) as HM.
      specialize (IH (t + 1) y a1 a2 HGs Ha1 Ha2). cbn [glide]. rewrite <- HM, <- IH. unfold blend.
      destruct (cell y) as [[A B]|[A B]].
      + rewrite <- A in Ha1. pose proof (rounded_unique _ _ _ _ Ha1 _ Ha2 (walk (t + 1) (Qfloor y))) as E.
        rewrite <- A. rewrite E. ring.
      + pose proof (step_share prev_y y qc qf Hqc Hqf HG A) as HS. rewrite <- HS. ring.
  Qed.

  Lemma expected_cost t ys mu : gentle_trajectory 0 ys -> rounded 0 0 ys mu -> (expect (walk t 0) mu == glide t 0 ys)%Q.
  Proof.
    intros HG H. rewrite <- (expected_walk ys t 0 mu mu HG H H). change (share 0) with (0 - 0)%Q. change (Qfloor 0) with 0. change (Qceiling 0) with 0. ring.
  Qed.
End Paths.
