(** Proofs about the online algorithms based on convex optimisation. *)
From Coq Require Import Lia Lqa Qabs.
From Verif Require Import NumLemmas DescentModel DescentSpec OptimizeProofs OptimizeBrute CostSpec CostProofs ObjectiveProofs
  HorizonProofs GraphSearchCosts DescentProofs.
From Verif Require Import ProblemModel CostModel.
Local Open Scope Z_scope.

Lemma minus_length x y : length x = length y -> length (minus x y) = length x.
Proof. intros H. unfold minus, config_sub. rewrite map_length, combine_length. lia. Qed.
Lemma minus_difference x y : minus x y = differenceQ x y.
Proof. reflexivity. Qed.
Lemma difference_comp x x' y y' : Forall2 Qeq x x' -> Forall2 Qeq y y' -> Forall2 Qeq (differenceQ x y) (differenceQ x' y').
Proof.
  intros H. revert y y'. induction H as [|a b x x' Hab H IH]; intros y y' Hy; [constructor|].
  inversion Hy as [|c d y1 y2 Hcd Hy']; subst; [constructor|]. unfold differenceQ. cbn [combine map fst snd].
  constructor; [rewrite Hab, Hcd; reflexivity|apply IH; exact Hy'].
Qed.
Lemma difference_length x y : length x = length y -> length (differenceQ x y) = length x.
Proof. exact (minus_length x y). Qed.

(** ** Primal and greedy balanced descent *)
Section Primal.
  Context {C D : Type}.
  Variable vmerge : C -> C -> outcome C.
  Variable outside : D.
  Variable nlopt : nl_problem -> outcome nl_result.
  Hypothesis Hex : exact_nlopt nlopt.
  Variable brent : Q * Q -> (Q -> outcome fnum) -> outcome Q.
  Variables eps : Q.
  Variable h : list Q -> outcome Q.
  Variable hf : list Q -> Q.
  Variable o : online (gsco Q C D).
  Variable xs : list (list Q).
  Variable H : list Q -> ext.
  Variable N : list Q -> Q.
  Let p := on_p o.
  Let bounds := o_bounds p.
  Let d := length bounds.
  Let prev := previous d xs.
  Let t := Z.of_nat (length xs) + 1.
  Hypothesis Hw : on_w o = 0.
  Hypothesis Hd : o_d p = Z.of_nat d.
  Hypothesis Ha : aligned bounds.
  Hypothesis Hc : charges (o_cost p) bounds t H.
  Hypothesis HH : respects_eq eeq H.
  Hypothesis Hn : computes d (o_norm p) N.

  Section WithH.
  Hypothesis Hh : computes d h hf.
  Hypothesis Hhf : respects_eq Qeq hf.

  Lemma pobd_spec beta :
    (forall ab f, (forall l, exists q, f l = Ok (Num q)) -> exists r, brent ab f = Ok r) ->
    grid bounds prev -> (forall z, grid bounds z -> ele (Fin 0) (H z)) -> (exists z, grid bounds z /\ is_fin (H z)) ->
    exists x v a, pobd vmerge outside nlopt brent eps beta h o t xs tt = Ok (x, None) /\
      cheapest bounds H v /\ eeq (H v) (Fin a) /\
      (((N (differenceQ v prev) <= beta * a)%Q /\ x = v) \/
       ((beta * a < N (differenceQ v prev))%Q /\
        exists b step F l,
          (eeq (H prev) (Fin b) \/ H prev = Inf /\ b = (1000 * a)%Q) /\
          (forall l, descends bounds H (divergence eps hf prev) l (step l) /\
             (F l == N (differenceQ (step l) prev) - beta * l)%Q) /\
          balances a b F (fun r => exists f, (forall l, f l = Ok (Num (F l))) /\ brent (a, b) f = Ok r) l /\
          x = step l)).
  Proof.
    intros HB Hp Hpos (z0 & Hz0 & Hf0). unfold pobd. rewrite Hw. cbn [Z.eqb negb]. fold p bounds.
    rewrite (previous_now p xs Hd). fold bounds d prev.
    destruct (cheapest_spec nlopt Hex (o_cost p) bounds t H Ha Hc HH) as (v & opt & Ev & Hv & _ & Ho).
    rewrite Ev. cbn [obind fst snd].
    assert (length v = d) as Lv. { apply in_boxQ_length. apply Hv. }
    assert (length prev = d) as Lp. { apply in_boxQ_length. apply Hp. }
    destruct (Hn (minus v prev)) as (mv & Em & Qm). { rewrite minus_length; lia. }
    assert (exists a, opt = Num a /\ eeq (H v) (Fin a)) as (a & -> & Ha').
    { pose proof (proj2 Hv z0 Hz0) as L. destruct (H z0); [|contradiction]. destruct (H v); [|contradiction].
      destruct opt as [|a|]; try contradiction. exists a. split; [reflexivity|]. simpl. simpl in Ho. lra. }
    rewrite Em. cbn [obind nscale].
    destruct (negb (ngtb (Num mv) (Num (beta * a)))) eqn:E1.
    { exists v, v, a. split; [reflexivity|]. split; [exact Hv|]. split; [exact Ha'|]. left.
      apply negb_true_iff in E1. apply Qltb_false in E1. split; [|reflexivity]. rewrite minus_difference in Qm. lra. }
    apply negb_false_iff in E1. apply Qltb_iff in E1.
    destruct (hit_num_inside vmerge outside p t H prev Hc (proj1 Hp)) as (b0 & Eb & Hb0). rewrite Eb. cbn [obind].
    set (b := level_end a b0).
    assert (forall l, exists x, obd_next nlopt eps l h o xs = Ok (x, None) /\ map apply_precision x = x /\
              descends bounds H (divergence eps hf prev) l x) as Hstep.
    { intros l. unfold obd_next, alg_next. fold t. apply obd_spec; auto. }
    set (step := fun l => match obd_next nlopt eps l h o xs with Ok (x, _) => x | _ => [] end).
    assert (forall l, obd_next nlopt eps l h o xs = Ok (step l, None) /\ descends bounds H (divergence eps hf prev) l (step l)) as Hs.
    { intros l. destruct (Hstep l) as (x & E & _ & HX). unfold step. rewrite E. auto. }
    match goal with |- context [find_root brent a b ?g] => set (f := g) end.
    assert (forall l, exists q, f l = Ok (Num q) /\ (q == N (differenceQ (step l) prev) - beta * l)%Q) as Hf.
    { intros l. destruct (Hs l) as (E & HX). unfold f. rewrite E. cbn [unwrap obind fst].
      assert (length (step l) = d) as Ls.
      { apply in_boxQ_length. destruct HX as [[C1|C1] _]; apply C1. }
      destruct (Hn (minus (step l) prev)) as (m & E2 & Q2). { rewrite minus_length; lia. }
      rewrite E2. cbn [obind]. eexists. split; [reflexivity|]. rewrite Q2, minus_difference. reflexivity. }
    set (F := fun l => match f l with Ok (Num q) => q | _ => 0%Q end).
    assert (forall l, f l = Ok (Num (F l)) /\ (F l == N (differenceQ (step l) prev) - beta * l)%Q) as HF.
    { intros l. destruct (Hf l) as (q & E & Hq). unfold F. rewrite E. auto. }
    assert (0 <= a)%Q as A0.
    { pose proof (Hpos v (proj1 Hv)) as G. destruct (H v); simpl in *; [lra|contradiction]. }
    assert (eeq (H prev) (Fin b) \/ H prev = Inf /\ b = (1000 * a)%Q) as Hbb.
    { unfold b, level_end. destruct (H prev) as [q|], b0 as [|b1|]; simpl in Hb0; try contradiction.
      - left. simpl. lra.
      - right. auto. }
    assert (a <= b)%Q as Lab.
    { destruct Hbb as [E|[_ ->]]; [|lra]. pose proof (proj2 Hv prev Hp) as L. destruct (H v), (H prev); simpl in *; try contradiction. lra. }
    assert (exists l, find_root brent a b f = Ok l) as (l & El).
    { unfold find_root. destruct (Qltb (Qabs (a - b)) PRECISION); [eauto|].
      rewrite (proj1 (HF a)), (proj1 (HF b)). cbn [obind].
      destruct (ngtb (Num ROOT_PRECISION) (nabs (Num (F a)))); [eauto|].
      destruct (ngtb (Num ROOT_PRECISION) (nabs (Num (F b)))); [eauto|].
      destruct (same_sign (Num (F a)) (Num (F b))).
      - destruct (ngtb (nabs (Num (F a))) (nabs (Num (F b)))); eauto.
      - destruct (HB (a, b) f) as (r & ->); [|cbn [obind]; eauto]. intros l. exists (F l). apply HF. }
    rewrite El. cbn [obind]. rewrite (proj1 (Hs l)). exists (step l), v, a.
    split; [reflexivity|]. split; [exact Hv|]. split; [exact Ha'|]. right. split; [rewrite minus_difference in Qm; lra|].
    exists b, step, F, l. split; [exact Hbb|]. split; [intros l'; split; [apply Hs|apply HF]|]. split; [|reflexivity].
    pose proof (find_root_finite brent a b f F l (fun x _ => proj1 (HF x)) Lab El) as HR.
    unfold balances. destruct HR as [HR|[HR|[HR|(R1 & R2 & R3 & x & R4 & R5 & R6)]]]; auto.
    right. right. right. split; [exact R1|]. split; [exact R2|]. split; [exact R3|]. exists x. split; [|auto].
    exists f. split; [apply HF|exact R4].
  Qed.
  End WithH.

  Variable sqrt : Q -> Q.

  Lemma plus_times_nth a b : forall u v i, length u = length v ->
    (nth i (plus (times a u) (times b v)) 0 == a * nth i u 0 + b * nth i v 0)%Q.
  Proof.
    induction u as [|x u IH]; intros [|y v] i HL; try discriminate; destruct i as [|i]; cbn; try ring.
    apply IH. simpl in HL. lia.
  Qed.

  Lemma gobd_spec m mu gamma y mem :
    alg_next (pobd vmerge outside nlopt brent eps gamma h) (fun _ => tt) o xs None = Ok (y, mem) -> length y = d ->
    exists x v, gobd vmerge outside nlopt brent eps sqrt m mu gamma h o t xs tt = Ok (x, None) /\
      cheapest bounds H v /\
      let s := (mu * sqrt m)%Q in
      ((1 <= s)%Q -> x = v) /\
      ((s < 1)%Q -> length x = d /\ forall i, (nth i x 0 == s * nth i v 0 + (1 - s) * nth i y 0)%Q).
  Proof.
    intros Ey Ly. unfold gobd. rewrite Hw. cbn [Z.eqb negb]. fold p bounds.
    destruct (cheapest_spec nlopt Hex (o_cost p) bounds t H Ha Hc HH) as (v & opt & Ev & Hv & _ & Ho).
    rewrite Ev. cbn [obind fst snd]. rewrite Ey. cbn [obind fst].
    assert (length v = d) as Lv. { apply in_boxQ_length. apply Hv. }
    eexists. exists v. split; [reflexivity|]. split; [exact Hv|]. cbv zeta.
    destruct (Qle_bool 1 (mu * sqrt m)) eqn:E.
    - apply Qle_bool_iff in E. split; [reflexivity|]. intros L. lra.
    - assert (~ (1 <= mu * sqrt m)%Q) as E'. { intros L. apply Qle_bool_iff in L. congruence. }
      split; [tauto|]. intros _. split.
      + unfold plus, times. rewrite map_length, combine_length, !map_length. lia.
      + intros i. apply plus_times_nth. lia.
  Qed.

  Lemma robd_spec m alpha beta : respects_eq Qeq N -> length prev = d -> (forall q, (0 <= sqrt q)%Q) ->
    exists x, robd vmerge outside nlopt sqrt m alpha beta o t xs tt = Ok (x, None) /\ grid bounds x /\
      let lambda := (2 / (1 + sqrt (1 + 4 * (beta * beta) / (alpha * m))))%Q in
      forall z, grid bounds z ->
        ele (eadd (H x) (Fin (lambda * N (differenceQ x prev)))) (eadd (H z) (Fin (lambda * N (differenceQ z prev)))).
  Proof.
    intros HN Lp Hs. unfold robd. rewrite Hw. cbn [Z.eqb negb]. fold p bounds.
    rewrite (previous_now p xs Hd). fold bounds d prev.
    destruct (cheapest_spec nlopt Hex (o_cost p) bounds t H Ha Hc HH) as (v & opt & Ev & Hv & _ & Ho).
    rewrite Ev. cbn [obind fst snd]. cbv zeta.
    set (lambda := (2 / (1 + sqrt (1 + 4 * (beta * beta) / (alpha * m))))%Q).
    assert (build_parameters sqrt m alpha beta = (lambda, 0%Q)) as EB.
    { unfold build_parameters, f_lambda_2. fold lambda.
      set (S := sqrt (1 + 4 * (beta * beta) / (alpha * m))%Q) in *.
      assert (0 < 1 + S)%Q as P. { specialize (Hs (1 + 4 * (beta * beta) / (alpha * m))%Q). fold S in Hs. lra. }
      match goal with |- (if Qltb (Qabs (?a - 0)) EPSILON then _ else _) = _ => assert (a == 0)%Q as EA end.
      { assert (lambda * m / 2 * (1 + S) - m == 0)%Q as -> by (unfold lambda; field; lra).
        unfold Qdiv. rewrite Qmult_0_l. reflexivity. }
      match goal with |- (if ?c then _ else _) = _ => assert (c = true) as -> end; [|reflexivity].
      apply Qltb_iff. rewrite EA. reflexivity. }
    rewrite EB. cbn [fst snd].
    destruct (find_minimizer_spec nlopt Hex
      (fun x => do c <- hit_num vmerge outside p t x; do m1 <- o_norm p (minus x prev); do m2 <- o_norm p (minus x v);
                do s <- nadd c (Num (lambda * m1)); nadd s (Num (0 * m2)))
      (fun x => num_of (eadd (H x) (Fin (lambda * N (differenceQ x prev))))) bounds Ha) as (x & w & E & _ & _ & _ & Hg & Hm).
    - intros x [Hx _]. destruct (hit_num_inside vmerge outside p t H x Hc Hx) as (c & Ec & Hc').
      assert (length x = d) as Lx by (apply in_boxQ_length; exact Hx).
      assert (length v = d) as Lv. { apply in_boxQ_length. apply Hv. }
      destruct (Hn (minus x prev)) as (m1 & E1 & Q1). { rewrite minus_length; lia. }
      destruct (Hn (minus x v)) as (m2 & E2 & Q2). { rewrite minus_length; lia. }
      rewrite Ec. cbn [obind]. rewrite E1. cbn [obind]. rewrite E2. cbn [obind]. rewrite minus_difference in Q1.
      destruct c as [|c|], (H x) as [q|]; simpl in Hc'; try contradiction; cbn [nadd obind]; eexists; (split; [reflexivity|]); simpl; auto.
      rewrite Q1, Hc'. ring.
    - intros x y Hxy. apply num_of_eq. pose proof (HH x y Hxy) as G. destruct (H x), (H y); simpl in *; auto.
      rewrite G, (HN _ _ (difference_comp _ _ _ _ Hxy (Forall2_Qeq_refl prev))). reflexivity.
    - rewrite E. cbn [obind fst]. exists x. split; [reflexivity|]. split; [exact Hg|]. intros z Hz.
      apply num_of_le. apply Hm. exact Hz.
  Qed.
End Primal.
