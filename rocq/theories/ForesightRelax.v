(** The probabilistic algorithm and randomised rounding do not look into the future. *)
From Coq Require Import Lia.
From Verif Require Import NumLemmas ConvertProofs ConvertObjective StreamSpec StreamProofs SessionStream PiecewiseModel
  ForesightSpec ForesightModel ForesightStream ForesightSolvers ForesightDescent.
From Verif Require Import ProblemModel CostModel.
Local Open Scope Z_scope.

(** *** Integration only uses the values of the integrals of pieces *)
Lemma pieces_ext (i1 i2 : point -> point -> Q) breaks : (forall a b, i1 a b = i2 a b) -> forall fuel dir b to i n,
  pieces_from i1 breaks fuel dir b to i n = pieces_from i2 breaks fuel dir b to i n.
Proof.
  intros H. induction fuel as [|fuel IH]; intros dir b to i n; [reflexivity|]. cbn [pieces_from]. cbv zeta.
  destruct (match dir with ToLeft => _ | ToRight => _ end); [reflexivity|].
  match goal with |- match fst ?c with _ => _ end = _ => destruct c as [[nb|] i'] end; cbn [fst snd]; [|reflexivity].
  destruct (match dir with ToLeft => _ | ToRight => _ end); [reflexivity|]. rewrite H. destruct (_ && _); [reflexivity|]. rewrite IH. reflexivity.
Qed.
Lemma piecewise_integral_ext i1 i2 breaks fuel a b : (forall a b, i1 a b = i2 a b) ->
  piecewise_integral i1 breaks fuel a b = piecewise_integral i2 breaks fuel a b.
Proof.
  intros H. unfold piecewise_integral, piecewise. cbv zeta. rewrite !(pieces_ext i1 i2 breaks H).
  destruct (pieces_from i2 breaks fuel ToLeft _ _ _ _) as [l|]; [|reflexivity]. destruct (pieces_from i2 breaks fuel ToRight _ _ _ _) as [r|]; [|reflexivity].
  assert (E : forall l, value_of i1 l = value_of i2 l) by (intros k; unfold value_of; f_equal; apply map_ext; intros c; apply H).
  rewrite !E. reflexivity.
Qed.

Definition same_density (m m' : prob_memory) : Prop := pm_breakpoints m = pm_breakpoints m' /\ forall x, pm_p m x = pm_p m' x.

Section Probabilistic.
  Context {C D : Type}.
  Variable vmerge : C -> C -> outcome C.
  Variable merge : C -> C -> C.
  Variable outside : D.
  Variable nlopt : nl_problem -> outcome nl_result.
  Variable brent : Q * Q -> (Q -> outcome fnum) -> outcome Q.
  Variable diff1 diff2 : (Q -> outcome fnum) -> Q -> outcome (option fnum).
  Variable quadrature : density -> point -> point -> Q.
  Variable fuel : nat.
  Hypothesis HN : observes_nlopt nlopt.
  Hypothesis HB : observes_brent brent.
  Hypothesis HD1 : observes_diff diff1.
  Hypothesis HD2 : observes_diff diff2.
  Hypothesis HQ : observes_quadrature quadrature.

  Lemma integral_of_ext breaks a b f g : (forall x, f x = g x) -> integral_of quadrature fuel breaks a b f = integral_of quadrature fuel breaks a b g.
  Proof. intros H. unfold integral_of. f_equal. apply piecewise_integral_ext. intros c d. apply HQ. exact H. Qed.

  Lemma cost_at_alike n (p q : gssco Q C D) t x : agree n p q -> 1 <= t <= n -> cost_at p t x = cost_at q t x.
  Proof. intros (_ & _ & _ & F) Ht. unfold cost_at. eapply same_certain_cost; eassumption. Qed.

  Lemma probabilistic_alike options (p q : gssco Q C D) w t xs m m' : 1 <= t -> agree (t + w) p q -> same_density m m' ->
    same_answer same_density (probabilistic nlopt brent diff1 diff2 quadrature fuel options (mkOnline p w) t xs m)
      (probabilistic nlopt brent diff1 diff2 quadrature fuel options (mkOnline q w) t xs m').
  Proof.
    intros Ht HA [HB1 HP]. pose proof HA as (A & B & E & F). unfold probabilistic. cbn [on_w on_p]. cbv zeta.
    destruct (negb (w =? 0)) eqn:EW; [exact I|]. apply negb_false_iff, Z.eqb_eq in EW. subst w.
    rewrite A. destruct (negb (g_d q =? 1)); [exact I|]. rewrite B, HB1. destruct (from_option (nth_error (g_bounds q) 0)) as [u| |]; cbn [obind]; try exact I.
    rewrite (find_hitting_ext nlopt HN (t + 0) t (g_cost p) (g_cost q) _ F) by lia.
    destruct (find_minimizer_of_hitting_cost nlopt t (g_cost q) [(0%Q, u)]) as [v| |]; cbn [obind]; try exact I.
    destruct (from_option (nth_error (fst v) 0)) as [xm| |]; cbn [obind]; try exact I.
    assert (EC : forall x, cost_at p t x = cost_at q t x) by (intros x; apply (cost_at_alike _ p q t x HA); lia).
    set (br := br_add (pm_breakpoints m') options).
    assert (ER : find_right_bound brent diff1 quadrature fuel p t br (pm_p m) xm = find_right_bound brent diff1 quadrature fuel q t br (pm_p m') xm).
    { unfold find_right_bound. rewrite B, E. apply obind_ext; [reflexivity|]. intros u'. apply find_root_ext; [exact HB|]. intros x.
      rewrite (derivative_ext diff1 _ _ x HD1 EC), (integral_of_ext br _ _ _ _ HP). reflexivity. }
    assert (EL : find_left_bound brent diff1 quadrature fuel p t br (pm_p m) xm = find_left_bound brent diff1 quadrature fuel q t br (pm_p m') xm).
    { unfold find_left_bound. rewrite E. apply find_root_ext; [exact HB|]. intros x.
      rewrite (derivative_ext diff1 _ _ x HD1 EC), (integral_of_ext br _ _ _ _ HP). reflexivity. }
    rewrite ER, EL. destruct (find_right_bound brent diff1 quadrature fuel q t br (pm_p m') xm) as [xr| |]; cbn [obind]; try exact I.
    destruct (find_left_bound brent diff1 quadrature fuel q t br (pm_p m') xm) as [xl| |]; cbn [obind]; try exact I.
    assert (EN : forall x, next_density diff2 p t (pm_p m) xl xr x = next_density diff2 q t (pm_p m') xl xr x).
    { intros x. unfold next_density. destruct (_ && _); [|reflexivity]. rewrite HP, (derivative_ext diff2 _ _ x HD2 EC), E. reflexivity. }
    assert (EX : expected_value quadrature fuel br (next_density diff2 p t (pm_p m) xl xr) xl xr
               = expected_value quadrature fuel br (next_density diff2 q t (pm_p m') xl xr) xl xr).
    { unfold expected_value. apply integral_of_ext. intros x. rewrite EN. reflexivity. }
    rewrite EX. clear EX. destruct (expected_value quadrature fuel br (next_density diff2 q t (pm_p m') xl xr) xl xr) as [e| |]; cbn [obind]; try exact I.
    cbn [same_answer same_memory]. split; [reflexivity|]. split; [reflexivity|exact EN].
  Qed.

  Lemma probabilistic_blind s options :
    unforeseeing (ssco_ops valQ merge vmerge outside s) agree (probabilistic nlopt brent diff1 diff2 quadrature fuel options : online (gssco Q C D) -> _)
      (fun _ => prob_default).
  Proof.
    apply unforeseeing_ssco with (R := same_density).
    - intros p q w t xs m m' Hp Hq Ht HA HM. apply probabilistic_alike; [lia|exact HA|exact HM].
    - intros p q w _ _. split; reflexivity.
  Qed.

  (** *** Randomised rounding *)
  Lemma certain_predictive {X} (f g : Z -> X -> outcome (cost C D)) t x : 1 <= t -> f t x = g t x ->
    call_predictive (cf_new 1 (certain f)) t x = call_predictive (cf_new 1 (certain g)) t x.
  Proof. intros Ht H. unfold call_predictive. rewrite !cf_new_get by lia. cbn [obind fst snd]. unfold single_predictive, certain. rewrite H. reflexivity. Qed.

  Lemma into_f_alike n (p q : gssco Z C D) : agree n p q -> agree n (ssco_into_f vmerge p) (ssco_into_f vmerge q).
  Proof.
    intros (A & B & E & F). repeat split; cbn [ssco_into_f g_d g_bounds g_switching g_cost]; auto; [congruence|].
    intros t x Ht. unfold cf_into_f. apply certain_predictive; [lia|]. destruct x as [|j [|? ?]]; try reflexivity.
    rewrite !(same_certain n (g_cost p) (g_cost q) t _ F Ht). reflexivity.
  Qed.
  Lemma into_sco_alike n (p q : gssco Q C D) : g_tend p = g_tend q -> agree n p q -> agree_sco n (into_sco valQ vmerge outside p) (into_sco valQ vmerge outside q).
  Proof.
    intros Ht HA. pose proof HA as (A & B & E & F). repeat split; cbn [into_sco o_d o_bounds o_norm o_cost]; auto; [congruence|intros x; congruence|].
    intros t x Htx. apply certain_predictive; [lia|]. rewrite Ht, E, (agree_hit valQ vmerge outside n p q t x HA) by lia. reflexivity.
  Qed.

  Definition same_rand {M} (R : M -> M -> Prop) (m m' : rand_memory M) : Prop := rm_y m = rm_y m' /\ same_memory R (rm_relax m) (rm_relax m').

  Lemma randomized_alike {M} (R : M -> M -> Prop) (execute : online (gssco Q C D) -> list (list Q) -> option M -> outcome (list Q * option M))
      r (p q : gssco Z C D) w t xs m m' :
    same_answer R (execute (mkOnline (ssco_into_f vmerge p) w) (schedule_to xs) (rm_relax m)) (execute (mkOnline (ssco_into_f vmerge q) w) (schedule_to xs) (rm_relax m')) ->
    g_d p = g_d q -> rm_y m = rm_y m' ->
    same_answer (same_rand R) (randomized vmerge execute r (mkOnline p w) t xs m) (randomized vmerge execute r (mkOnline q w) t xs m').
  Proof.
    intros HS A HY. unfold randomized. cbn [on_w on_p]. destruct (negb (w =? 0)); [exact I|]. rewrite A. destruct (negb _); [exact I|].
    destruct (execute (mkOnline (ssco_into_f vmerge p) w) _ _) as [[y m1]| |]; destruct (execute (mkOnline (ssco_into_f vmerge q) w) _ _) as [[y' m1']| |]; try contradiction; cbn [obind]; try exact I.
    destruct HS as [<- HM]. rewrite HY. destruct (from_option (nth_error (last xs [0]) 0)); cbn [obind]; try exact I.
    destruct (from_option (nth_error (rm_y m') 0)); cbn [obind]; try exact I. cbn [fst snd]. destruct (from_option (nth_error y 0)); cbn [obind]; try exact I.
    cbn [same_answer same_memory]. split; [reflexivity|]. split; [reflexivity|exact HM].
  Qed.

  Lemma schedule_to_length (xs : list (list Z)) : length (schedule_to xs) = length xs.
  Proof. unfold schedule_to. apply map_length. Qed.

  Lemma randomized_probabilistic_unforeseeing s r :
    unforeseeing (ssco_ops valZ merge vmerge outside s) agree
      (randomized_probabilistic vmerge nlopt brent diff1 diff2 quadrature fuel r : online (gssco Z C D) -> _) (fun _ => rand_default).
  Proof.
    apply unforeseeing_ssco with (R := same_rand same_density).
    - intros p q w t xs m m' Hp Hq Ht HA [HY HM]. pose proof HA as (A & _). apply randomized_alike; [|exact A|exact HY].
      unfold execute_probabilistic, alg_next. rewrite schedule_to_length. apply probabilistic_alike; [lia|rewrite <- Ht; apply into_f_alike; exact HA|].
      destruct (rm_relax m), (rm_relax m'); try contradiction; [exact HM|split; reflexivity].
    - intros p q w _ _. split; [reflexivity|exact I].
  Qed.
  Lemma randomized_rbg_unforeseeing s r bias :
    unforeseeing (ssco_ops valZ merge vmerge outside s) agree
      (randomized_rbg vmerge outside nlopt r bias : online (gssco Z C D) -> _) (fun _ => rand_default).
  Proof.
    apply unforeseeing_ssco with (R := same_rand (@eq Q)).
    - intros p q w t xs m m' Hp Hq Ht HA [HY HM]. pose proof HA as (A & _). apply randomized_alike; [|exact A|exact HY].
      unfold execute_rbg, alg_next. cbn [on_p on_w]. rewrite schedule_to_length.
      assert (EM : rm_relax m = rm_relax m') by (destruct (rm_relax m), (rm_relax m'); try contradiction; cbn in HM; congruence).
      rewrite EM. apply same_answer_eq. apply rbg_alike; [exact HN|lia|]. rewrite <- Ht. apply into_sco_alike; [cbn [ssco_into_f g_tend]; congruence|apply into_f_alike; exact HA].
    - intros p q w _ _. split; [reflexivity|exact I].
  Qed.
End Probabilistic.
