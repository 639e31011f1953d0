(** Proofs about objective functions and the combination of model outputs. *)
From Verif Require Import NumLemmas ProblemModel ObjectiveSpec OutputSpec.
Local Open Scope Z_scope.

(** * Sums *)
Fixpoint esum (l : list ext) : ext :=
  match l with [] => Fin 0 | a :: r => eadd a (esum r) end.

Lemma esum_app a b : eeq (esum (a ++ b)) (eadd (esum a) (esum b)).
Proof.
  induction a as [|x a IH]; cbn [esum app]; [symmetry; apply eadd_0_l|].
  rewrite IH. apply eadd_assoc.
Qed.

Lemma esum_ext l : forall l', Forall2 eeq l l' -> eeq (esum l) (esum l').
Proof.
  intros l' H. induction H; cbn [esum]; [reflexivity|]. rewrite H, IHForall2. reflexivity.
Qed.

Lemma esum_map_ext {A C D} (f g : A -> cost C D) l :
  (forall a, In a l -> eeq (c_cost (f a)) (c_cost (g a))) ->
  eeq (esum (map c_cost (map f l))) (esum (map c_cost (map g l))).
Proof.
  induction l as [|a l IH]; intros H; cbn [map esum]; [reflexivity|].
  rewrite (H a) by (left; reflexivity). rewrite IH; [reflexivity|]. intros; apply H; right; auto.
Qed.

Section Costs.
  Context {C D : Type}.
  Variable merge : C -> C -> C.
  Implicit Types l : list (cost C D).

  Lemma fold_cost_add l : forall c,
    eeq (c_cost (fold_left (cost_add merge) l c)) (eadd (c_cost c) (esum (map c_cost l))).
  Proof.
    induction l as [|x l IH]; intros c; cbn [fold_left map esum].
    - symmetry. apply eadd_0_r.
    - rewrite IH. cbn [c_cost cost_add]. symmetry. apply eadd_assoc.
  Qed.

  Lemma cost_sum_cost l : eeq (c_cost (cost_sum merge l)) (esum (map c_cost l)).
  Proof.
    destruct l as [|x l]; cbn [cost_sum map esum]; [reflexivity|]. apply fold_cost_add.
  Qed.

  Lemma par_sum_cost s : forall l, eeq (c_cost (par_sum merge s l)) (esum (map c_cost l)).
  Proof.
    induction s as [|n a IHa b IHb]; intros l; cbn [par_sum].
    - unfold cost_add. cbn [c_cost]. rewrite (cost_sum_cost l). apply eadd_0_l.
    - cbn [cost_add c_cost]. rewrite IHa, IHb, <- esum_app, <- map_app, firstn_skipn. reflexivity.
  Qed.
End Costs.

(** * Outputs *)
Section Outputs.
  Context {C D : Type}.
  Variable merge : C -> C -> C.
  Variable R : C -> C -> Prop.
  Hypothesis R_equiv : Equivalence R.
  Hypothesis merge_proper : Proper (R ==> R ==> R) merge.
  Hypothesis merge_assoc : forall a b c, R (merge a (merge b c)) (merge (merge a b) c).

  Local Notation out := (model_output C D).
  Local Notation "a ~~ b" := (same_output (D := D) R a b) (at level 70).

  Lemma out_refl (a : out) : a ~~ a.
  Proof. destruct a; cbn; reflexivity. Qed.

  Lemma out_sym (a b : out) : a ~~ b -> b ~~ a.
  Proof. destruct a, b; cbn; auto. intros H; symmetry; exact H. Qed.

  Lemma out_trans (a b c : out) : a ~~ b -> b ~~ c -> a ~~ c.
  Proof.
    destruct a, b, c; cbn; try contradiction; auto.
    - intros H1 H2. transitivity c1; auto.
    - intros -> ->; reflexivity.
  Qed.

  Instance out_equiv : Equivalence (same_output (D := D) R).
  Proof. split; [exact out_refl|exact out_sym|exact out_trans]. Qed.

  Instance merge_output_proper :
    Proper (same_output (D := D) R ==> same_output R ==> same_output R) (merge_output merge).
  Proof.
    intros a a' Ha b b' Hb. destruct a, a'; cbn in *; try contradiction; auto.
    destruct b, b'; cbn in *; try contradiction; auto. apply merge_proper; auto.
  Qed.

  Lemma merge_output_assoc (a b c : out) :
    merge_output merge a (merge_output merge b c) ~~ merge_output merge (merge_output merge a b) c.
  Proof.
    destruct a, b, c; cbn; auto; try reflexivity. 
  Qed.

  Lemma merge_output_none_l (a : out) : merge_output merge MNone a = a.
  Proof. reflexivity. Qed.

  Lemma merge_output_none_r (a : out) : merge_output merge a MNone = a.
  Proof. destruct a; reflexivity. Qed.

  Fixpoint osum (l : list out) : out :=
    match l with [] => MNone | a :: r => merge_output merge a (osum r) end.

  Lemma osum_app a b : osum (a ++ b) ~~ merge_output merge (osum a) (osum b).
  Proof.
    induction a as [|x a IH]; cbn [osum app]; [reflexivity|].
    rewrite IH. apply merge_output_assoc.
  Qed.

  Lemma fold_merge_output l : forall c, fold_left (merge_output merge) l c ~~ merge_output merge c (osum l).
  Proof.
    induction l as [|x l IH]; intros c; cbn [fold_left osum].
    - rewrite merge_output_none_r. reflexivity.
    - rewrite IH. symmetry. apply merge_output_assoc.
  Qed.

  Lemma fold_cost_out (l : list (cost C D)) : forall c,
    c_out (fold_left (cost_add merge) l c) = fold_left (merge_output merge) (map c_out l) (c_out c).
  Proof.
    induction l as [|x l IH]; intros c; cbn [fold_left map]; [reflexivity|]. rewrite IH. reflexivity.
  Qed.

  Lemma cost_sum_out (l : list (cost C D)) : c_out (cost_sum merge l) ~~ osum (map c_out l).
  Proof.
    destruct l as [|x l]; cbn [cost_sum map osum]; [reflexivity|].
    rewrite fold_cost_out. apply fold_merge_output.
  Qed.

  Lemma par_sum_out s : forall l : list (cost C D), c_out (par_sum merge s l) ~~ osum (map c_out l).
  Proof.
    induction s as [|n a IHa b IHb]; intros l; cbn [par_sum].
    - unfold cost_add. cbn [c_out]. apply (cost_sum_out l).
    - cbn [cost_add c_out]. rewrite IHa, IHb, <- osum_app, <- map_app, firstn_skipn. reflexivity.
  Qed.

  Lemma par_sum_split s s' (l : list (cost C D)) :
    c_out (par_sum merge s l) ~~ c_out (par_sum merge s' l).
  Proof. rewrite !par_sum_out. reflexivity. Qed.
End Outputs.

(** Left folds of outputs against the specification (no algebraic law needed). *)
Section Fold.
  Context {C D : Type}.
  Variable merge : C -> C -> C.

  Lemma fold_failure (l : list (model_output C D)) d :
    fold_left (merge_output merge) l (MFailure d) = MFailure d.
  Proof. induction l as [|x l IH]; cbn; auto. Qed.

  Lemma fold_success (l : list (model_output C D)) : forall c,
    fold_left (merge_output merge) l (MSuccess c) =
    match first_failure l with
    | Some d => MFailure d
    | None => MSuccess (fold_left merge (successes l) c)
    end.
  Proof.
    induction l as [|x l IH]; intros c; [reflexivity|].
    destruct x; cbn [fold_left merge_output first_failure successes].
    - rewrite IH. reflexivity.
    - apply fold_failure.
    - apply IH.
  Qed.

  Lemma fold_none (l : list (model_output C D)) :
    fold_left (merge_output merge) l MNone = combined merge l.
  Proof.
    unfold combined. induction l as [|x l IH]; [reflexivity|].
    destruct x; cbn [fold_left merge_output first_failure successes].
    - rewrite fold_success. reflexivity.
    - apply fold_failure.
    - apply IH.
  Qed.

  Lemma reduce_combined (l : list (model_output C D)) :
    reduce_outputs merge l = if is_nil l then Panic else Ok (combined merge l).
  Proof.
    destruct l as [|o l]; [reflexivity|]. cbn [reduce_outputs is_nil].
    rewrite <- (fold_none (o :: l)). cbn [fold_left]. reflexivity.
  Qed.
End Fold.

(** * Movement *)
Lemma scaled_movement_switching sw : forall x prev inverted,
  (scaled_movement inject_Z sw x prev inverted == switching sw inverted prev x)%Q.
Proof.
  induction sw as [|b sw IH]; intros [|j x] [|i prev] inverted; cbn; try reflexivity;
    unfold switching in *; destruct inverted; cbn; try reflexivity.
  - unfold scalar_movement, Qminus. rewrite <- inject_Z_opp, <- inject_Z_plus, qpos_inject.
    rewrite (IH x prev true). reflexivity.
  - unfold scalar_movement, Qminus. rewrite <- inject_Z_opp, <- inject_Z_plus, qpos_inject.
    rewrite (IH x prev false). reflexivity.
Qed.

Lemma scaled_movement_ok {T} (toQ : T -> Q) sw : forall x prev inverted q,
  scaled_movement_o toQ sw x prev inverted = Ok q -> scaled_movement toQ sw x prev inverted = q.
Proof.
  induction sw as [|b sw IH]; intros [|j x] [|i prev] inverted q H; cbn in *; try discriminate;
    try (inversion H; reflexivity).
  apply obind_Ok in H. destruct H as (r & Hr & H). inversion H; subst. rewrite (IH _ _ _ _ Hr). reflexivity.
Qed.

Lemma scaled_movement_o_total {T} (toQ : T -> Q) : forall x sw prev inverted,
  length prev = length x -> length sw = length x ->
  scaled_movement_o toQ sw x prev inverted = Ok (scaled_movement toQ sw x prev inverted).
Proof.
  induction x as [|j x IH]; intros [|b sw] [|i prev] inverted H1 H2; cbn in *; try discriminate; auto.
  rewrite IH by lia. reflexivity.
Qed.

(** * Objective *)
Section Objective.
  Context {X C D : Type}.
  Variable merge : C -> C -> C.

  Lemma get_or_app_at (pre : list X) x r d :
    get_or (pre ++ x :: r) d (1 + Z.of_nat (length pre)) = x.
  Proof.
    unfold get_or, access. rewrite app_length. cbn [length].
    rewrite (proj2 (Z.leb_le 1 _)) by lia. rewrite (proj2 (Z.leb_le _ _)) by lia.
    cbn [andb]. replace (Z.to_nat (1 + Z.of_nat (length pre) - 1)) with (length pre) by lia.
    rewrite nth_error_app2 by lia. rewrite Nat.sub_diag. reflexivity.
  Qed.

  Lemma get_or_prev (pre r : list X) d :
    get_or (pre ++ r) d (Z.of_nat (length pre)) = last pre d.
  Proof.
    destruct (rev pre) as [|y q] eqn:E.
    - apply (f_equal (@rev X)) in E. rewrite rev_involutive in E. cbn in E. subst pre. reflexivity.
    - apply (f_equal (@rev X)) in E. rewrite rev_involutive in E. cbn in E. subst pre.
      rewrite last_last. set (p := rev q). rewrite <- app_assoc. cbn [app].
      rewrite app_length. cbn [length].
      replace (Z.of_nat (length p + 1)) with (1 + Z.of_nat (length p)) by lia. apply get_or_app_at.
  Qed.

  Lemma step_sum (f : Z -> X -> X -> cost C D) (g : Z -> X -> ext) (sw : X -> X -> Q) alpha d : forall xs pre,
    (forall t prev x, 1 <= t <= Z.of_nat (length pre + length xs) ->
        eeq (c_cost (f t prev x)) (eadd (g t x) (Fin (alpha * sw prev x)))) ->
    eeq (esum (map c_cost (map (fun t => f t (get_or (pre ++ xs) d (t - 1)) (get_or (pre ++ xs) d t))
                       (zrange (1 + Z.of_nat (length pre)) (Z.of_nat (length pre + length xs))))))
        (total_cost g sw alpha (1 + Z.of_nat (length pre)) (last pre d) xs).
  Proof.
    induction xs as [|x xs IH]; intros pre Hf.
    - rewrite zrange_nil by (cbn [length]; lia). reflexivity.
    - rewrite zrange_cons by (cbn [length]; lia). cbn [map esum total_cost].
      rewrite Hf by (cbn [length]; lia). rewrite get_or_app_at.
      replace (1 + Z.of_nat (length pre) - 1) with (Z.of_nat (length pre)) by lia.
      rewrite get_or_prev. apply eadd_proper; [reflexivity|].
      specialize (IH (pre ++ [x])). rewrite <- app_assoc in IH. cbn [app] in IH.
      rewrite last_last in IH. rewrite app_length in IH. cbn [length] in IH.
      replace (1 + Z.of_nat (length pre) + 1) with (1 + Z.of_nat (length pre + 1)) by lia.
      replace (Z.of_nat (length pre + length (x :: xs))) with (Z.of_nat (length pre + 1 + length xs)) by (cbn [length]; lia).
      apply IH. intros t p y Ht. apply Hf. cbn [length]; lia.
  Qed.

  Lemma get_or_firstn (xs ys : list X) d n : forall t,
    t <= Z.of_nat n -> firstn n (xs ++ repeat d n) = ys ->
    get_or xs d t = get_or ys d t.
  Proof.
    intros t Ht <-. unfold get_or, access.
    assert (L : length (firstn n (xs ++ repeat d n)) = n).
    { rewrite firstn_length, app_length, repeat_length. lia. }
    rewrite L. destruct (1 <=? t) eqn:E1; [|reflexivity]. cbn [andb].
    replace (t <=? Z.of_nat n) with true by lia.
    assert (N : nth_error (firstn n (xs ++ repeat d n)) (Z.to_nat (t - 1)) = nth_error (xs ++ repeat d n) (Z.to_nat (t - 1))).
    { assert (Hlt : (Z.to_nat (t - 1) < n)%nat) by lia.
      generalize (Z.to_nat (t - 1)) (xs ++ repeat d n) Hlt. clear. intros i l.
      revert i l. induction n as [|n IH]; intros i l Hi; [lia|].
      destruct l as [|a l]; [reflexivity|]. destruct i; [reflexivity|]. cbn. apply IH. lia. }
    rewrite N. destruct (t <=? Z.of_nat (length xs)) eqn:E2.
    - rewrite nth_error_app1 by lia. reflexivity.
    - rewrite nth_error_app2 by lia.
      destruct (nth_error (repeat d n) (Z.to_nat (t - 1) - length xs)) eqn:E3; [|reflexivity].
      apply nth_error_In, repeat_spec in E3. subst. reflexivity.
  Qed.

  Lemma sum_over_schedule_total s (f : Z -> X -> X -> cost C D) (g : Z -> X -> ext) sw alpha d xs t_end :
    0 <= t_end ->
    (forall t prev x, 1 <= t <= t_end -> eeq (c_cost (f t prev x)) (eadd (g t x) (Fin (alpha * sw prev x)))) ->
    eeq (c_cost (sum_over_schedule merge s t_end xs d f))
        (total_cost g sw alpha 1 d (firstn (Z.to_nat t_end) (xs ++ repeat d (Z.to_nat t_end)))).
  Proof.
    intros Ht Hf. unfold sum_over_schedule. rewrite par_sum_cost.
    set (n := Z.to_nat t_end). set (ys := firstn n (xs ++ repeat d n)).
    assert (L : length ys = n).
    { unfold ys. rewrite firstn_length, app_length, repeat_length. lia. }
    assert (E := step_sum f g sw alpha d ys []). cbn [app last length] in E.
    rewrite <- E.
    - replace (1 + Z.of_nat 0) with 1 by lia. replace (Z.of_nat (0 + length ys)) with t_end by lia.
      apply esum_map_ext. intros t Hin. apply zrange_In in Hin.
      rewrite !(get_or_firstn xs ys d n) by (auto; lia). reflexivity.
    - intros. apply Hf. lia.
  Qed.
End Objective.

Section SSCOObjective.
  Context {C D : Type}.
  Variable merge : C -> C -> C.
  Variable outside : D.

  Lemma ssco_objective s (p : ssco C D) xs x0 alpha inverted t_end :
    0 <= t_end <= s_tend p ->
    eeq (c_cost (objective_with_default merge s (ssco_problem outside p) xs x0 alpha inverted t_end))
        (total_cost (fun t x => c_cost (ssco_hit_cost outside p t x))
                    (switching (s_switching p) inverted) alpha 1 x0
                    (firstn (Z.to_nat t_end) (xs ++ repeat x0 (Z.to_nat t_end)))).
  Proof.
    intros Ht. unfold objective_with_default. apply sum_over_schedule_total; [lia|].
    intros t prev x Htt. unfold step_cost. cbn [ssco_problem p_tend p_hit p_move c_cost].
    rewrite (proj2 (Z.ltb_ge _ _)) by lia.
    apply eadd_proper; [reflexivity|]. unfold ssco_movement. apply Fin_proper.
    rewrite scaled_movement_switching. reflexivity.
  Qed.

  Lemma fit_exact {X} (xs : list X) x0 n : length xs = n -> firstn n (xs ++ repeat x0 n) = xs.
  Proof. intros <-. rewrite firstn_app, firstn_all, Nat.sub_diag. cbn. apply app_nil_r. Qed.

  Lemma total_switching_cost {X} (sw : X -> X -> Q) xs : forall t prev,
    eeq (total_cost (fun _ _ => Fin 0) sw 1 t prev xs) (Fin (total_switching sw prev xs)).
  Proof.
    induction xs as [|x xs IH]; intros t prev; cbn [total_cost total_switching]; [reflexivity|].
    rewrite IH. cbn. ring.
  Qed.

  Lemma total_movement_spec s (p : ssco C D) xs zero inverted :
    Z.of_nat (length xs) = s_tend p ->
    eeq (total_movement s (ssco_problem outside p) zero xs inverted)
        (Fin (total_switching (switching (s_switching p) inverted) zero xs)).
  Proof.
    intros Hl. unfold total_movement. cbn [ssco_problem p_tend p_move].
    assert (E := sum_over_schedule_total (X := list Z) (C := unit) (D := unit) (fun _ _ => tt) s
      (fun t prev x => mkCost (Fin (ssco_movement p prev x inverted)) (MSuccess tt))
      (fun _ _ => Fin 0) (switching (s_switching p) inverted) 1 zero xs (s_tend p) ltac:(lia)).
    unfold sum_over_schedule in E. rewrite E.
    - rewrite fit_exact by lia. apply total_switching_cost.
    - intros t prev x Ht. cbn. unfold ssco_movement. rewrite scaled_movement_switching. ring.
  Qed.
End SSCOObjective.

Lemma power_up_diff : forall sw a b,
  length a = length sw -> length b = length sw ->
  (power_up sw a b - power_up sw b a == weighted sw b - weighted sw a)%Q.
Proof.
  induction sw as [|q sw IH]; intros [|i a] [|j b] H1 H2; cbn in *; try discriminate; [lra|].
  specialize (IH a b ltac:(lia) ltac:(lia)).
  assert (E : (inject_Z (Z.max 0 (j - i)) - inject_Z (Z.max 0 (i - j)) == inject_Z j - inject_Z i)%Q).
  { unfold Qminus. rewrite <- !inject_Z_opp, <- !inject_Z_plus. apply inject_Z_injective. lia. }
  assert (E2 : (q * inject_Z (Z.max 0 (j - i)) - q * inject_Z (Z.max 0 (i - j)) == q * inject_Z j - q * inject_Z i)%Q).
  { transitivity (q * (inject_Z (Z.max 0 (j - i)) - inject_Z (Z.max 0 (i - j))))%Q; [ring|]. rewrite E. ring. }
  lra.
Qed.

Lemma last_cons_default {A} (l : list A) : forall a b c, last (a :: l) b = last (a :: l) c.
Proof. induction l as [|x l IH]; intros a b c; [reflexivity|]. cbn [last]. apply IH. Qed.

Lemma total_switching_diff sw : forall xs x0,
  length x0 = length sw -> Forall (fun x => length x = length sw) xs ->
  (total_switching (switching sw false) x0 xs - total_switching (switching sw true) x0 xs
   == weighted sw (last xs x0) - weighted sw x0)%Q.
Proof.
  induction xs as [|x xs IH]; intros x0 H0 HF; cbn [total_switching last]; [lra|].
  inversion HF; subst. specialize (IH x ltac:(auto) ltac:(auto)).
  assert (E := power_up_diff sw x0 x H0 ltac:(auto)). unfold switching at 1 3.
  replace (match xs with [] => x | _ :: _ => last xs x0 end) with (last xs x).
  2:{ destruct xs; [reflexivity|]. apply last_cons_default. }
  lra.
Qed.

Lemma objective_exact {C D : Type} (merge : C -> C -> C) (outside : D) s (p : ssco C D) xs x0 alpha inverted :
  Z.of_nat (length xs) = s_tend p ->
  eeq (c_cost (objective_with_default merge s (ssco_problem outside p) xs x0 alpha inverted (s_tend p)))
      (total_cost (fun t x => c_cost (ssco_hit_cost outside p t x))
                  (switching (s_switching p) inverted) alpha 1 x0 xs).
Proof.
  intros Hl. rewrite ssco_objective by lia. rewrite fit_exact by lia. reflexivity.
Qed.

Lemma weighted_zero sw : forall n, (weighted sw (repeat 0%Z n) == 0)%Q.
Proof. induction sw as [|b sw IH]; intros [|n]; cbn; try reflexivity. rewrite IH. ring. Qed.

Lemma movement_directions {C D : Type} (outside : D) s s' (p : ssco C D) xs :
  Z.of_nat (length xs) = s_tend p ->
  Z.of_nat (length (s_switching p)) = s_d p ->
  Forall (fun x => length x = length (s_switching p)) xs ->
  exists up down,
    eeq (total_movement s (ssco_problem outside p) (zero_config (s_d p)) xs false) (Fin up) /\
    eeq (total_movement s' (ssco_problem outside p) (zero_config (s_d p)) xs true) (Fin down) /\
    (up - down == weighted (s_switching p) (last xs (zero_config (s_d p))))%Q /\
    (up == total_switching (switching (s_switching p) false) (zero_config (s_d p)) xs)%Q /\
    (down == total_switching (switching (s_switching p) true) (zero_config (s_d p)) xs)%Q.
Proof.
  intros Hl Hs HF. eexists _, _.
  split; [apply total_movement_spec; exact Hl|]. split; [apply total_movement_spec; exact Hl|].
  split; [|split; reflexivity].
  rewrite total_switching_diff; auto.
  - unfold zero_config at 2. rewrite weighted_zero. ring.
  - unfold zero_config. rewrite repeat_length. lia.
Qed.

Lemma objective_independent {X C D : Type} (merge : C -> C -> C) (R : C -> C -> Prop) :
  Equivalence R -> Proper (R ==> R ==> R) merge ->
  (forall a b c, R (merge a (merge b c)) (merge (merge a b) c)) ->
  forall (s s' : split) (p : problem X C D) (xs : list X) (x0 : X) (alpha : Q) (inverted : bool) (t_end : Z),
  let J s := objective_with_default merge s p xs x0 alpha inverted t_end in
  eeq (c_cost (J s)) (c_cost (J s')) /\
  same_output R (c_out (J s)) (c_out (J s')) /\
  same_output R (c_out (J s))
    (combined merge
       (map (fun t => if p_tend p <? t then MNone else c_out (p_hit p t (get_or xs x0 t)))
            (zrange 1 t_end))).
Proof.
  intros HE HP HA s s' p xs x0 alpha inverted t_end J. unfold J, objective_with_default, sum_over_schedule.
  split; [rewrite !par_sum_cost; reflexivity|].
  split; [apply par_sum_split; auto|].
  eapply out_trans; [exact HE|apply par_sum_out; auto|].
  rewrite <- fold_none. rewrite map_map.
  eapply out_sym; [exact HE|].
  eapply out_trans; [exact HE|apply fold_merge_output; auto|]. cbn [merge_output].
  rewrite (map_ext_in _ (fun x => c_out (step_cost p alpha inverted x (get_or xs x0 (x - 1)) (get_or xs x0 x)))).
  - apply out_refl; auto.
  - intros t _. unfold step_cost. cbn [c_out]. destruct (p_tend p <? t); reflexivity.
Qed.

Lemma movement_independent {X C D : Type} (s s' : split) (p : problem X C D) (zero : X) (xs : list X) inverted :
  eeq (total_movement s p zero xs inverted) (total_movement s' p zero xs inverted).
Proof. unfold total_movement. rewrite !par_sum_cost. reflexivity. Qed.

Lemma merge_output_monoid {C D : Type} (merge : C -> C -> C) (R : C -> C -> Prop) :
  Equivalence R ->
  (forall a b c, R (merge a (merge b c)) (merge (merge a b) c)) ->
  forall a b c : model_output C D,
  same_output R (merge_output merge a (merge_output merge b c))
                (merge_output merge (merge_output merge a b) c) /\
  merge_output merge MNone a = a /\ merge_output merge a MNone = a.
Proof.
  intros HE HA a b c. split; [apply merge_output_assoc; auto|].
  split; [apply merge_output_none_l|apply merge_output_none_r].
Qed.

(** The decision space of the model is that of the specification. *)
Lemma within_inside : forall bounds x, within bounds x = inside bounds x.
Proof.
  unfold inside. induction bounds as [|u bs IH]; intros [|j x]; cbn; auto.
  rewrite IH. cbn. destruct (length bs =? length x)%nat; cbn; auto. now rewrite !andb_false_r.
Qed.

Lemma hit_restricted {C D} (outside : D) (p : ssco C D) t x :
  c_cost (ssco_hit_cost outside p t x) = restricted (s_bounds p) (fun t x => c_cost (s_hit p t x)) t x.
Proof. unfold ssco_hit_cost, restricted. rewrite within_inside. destruct (inside _ _); reflexivity. Qed.

Lemma total_cost_fun {X} (f g : Z -> X -> ext) sw alpha : (forall t x, f t x = g t x) ->
  forall xs t prev, total_cost f sw alpha t prev xs = total_cost g sw alpha t prev xs.
Proof. intros H. induction xs as [|x xs IH]; intros t prev; cbn; auto. now rewrite H, IH. Qed.

Lemma total_restricted {C D} (outside : D) (p : ssco C D) sw alpha xs t prev :
  total_cost (fun t x => c_cost (ssco_hit_cost outside p t x)) sw alpha t prev xs =
  total_cost (restricted (s_bounds p) (fun t x => c_cost (s_hit p t x))) sw alpha t prev xs.
Proof. apply total_cost_fun. intros. apply hit_restricted. Qed.

Lemma objective_exact_spec {C D : Type} (merge : C -> C -> C) (outside : D) s (p : ssco C D) xs x0 alpha inverted :
  Z.of_nat (length xs) = s_tend p ->
  eeq (c_cost (objective_with_default merge s (ssco_problem outside p) xs x0 alpha inverted (s_tend p)))
      (total_cost (restricted (s_bounds p) (fun t x => c_cost (s_hit p t x)))
                  (switching (s_switching p) inverted) alpha 1 x0 xs).
Proof. intros Hl. rewrite <- (total_restricted outside). apply objective_exact. exact Hl. Qed.

Lemma ssco_objective_spec {C D : Type} (merge : C -> C -> C) (outside : D) s (p : ssco C D) xs x0 alpha inverted t_end :
  0 <= t_end <= s_tend p ->
  eeq (c_cost (objective_with_default merge s (ssco_problem outside p) xs x0 alpha inverted t_end))
      (total_cost (restricted (s_bounds p) (fun t x => c_cost (s_hit p t x)))
                  (switching (s_switching p) inverted) alpha 1 x0
                  (firstn (Z.to_nat t_end) (xs ++ repeat x0 (Z.to_nat t_end)))).
Proof. intros Hl. rewrite <- (total_restricted outside). apply ssco_objective. exact Hl. Qed.

Lemma objective_functions_spec {C D : Type} (merge : C -> C -> C) (outside : D) s (p : ssco C D) xs alpha :
  Z.of_nat (length xs) = s_tend p ->
  let J := fun alpha inverted =>
    total_cost (restricted (s_bounds p) (fun t x => c_cost (s_hit p t x)))
               (switching (s_switching p) inverted) alpha 1 (zero_config (s_d p)) xs in
  let P := ssco_problem outside p in
  eeq (c_cost (objective_function merge s P (zero_config (s_d p)) xs)) (J 1%Q false) /\
  eeq (c_cost (inverted_objective_function merge s P (zero_config (s_d p)) xs)) (J 1%Q true) /\
  eeq (c_cost (alpha_unfair_objective_function merge s P (zero_config (s_d p)) xs alpha)) (J alpha false).
Proof.
  intros Hl. cbv zeta. repeat split; apply objective_exact_spec; exact Hl.
Qed.
