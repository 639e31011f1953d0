(** The expected cost of randomised rounding, in terms of objective functions. *)
From Coq Require Import Lia Lqa Setoid Qminmax.
From Verif Require Import NumLemmas CostProofs ConvertProofs StaticProofs RandomizedModel RandomizedSpec RandomizedProofs ExpectedSpec ExpectedProofs.
From Verif Require Import ProblemModel CostModel.
Local Open Scope Z_scope.

Lemma qpos_max x : (qpos x == Qmax 0 x)%Q.
Proof.
  unfold qpos. destruct (Q.max_spec 0 x) as [[H E]|[H E]]; rewrite E;
    (destruct (Qle_bool _ _) eqn:EQ || destruct (Qltb _ _) eqn:EQ); rewrite ?Qle_bool_iff, ?Qltb_iff, ?Qltb_false in *; try lra.
Qed.

Section Known.
  Context {C D : Type}.
  Variable vmerge : C -> C -> outcome C.
  Variable merge : C -> C -> C.
  Variable outside : D.
  Variable p : gssco Z C D.
  Variable u : Z.
  Variable b : Q.
  Variable h : Z -> Z -> Q.
  Hypothesis Hmerge : forall x y, exists c, vmerge x y = Ok c.
  Hypothesis Hbounds : g_bounds p = [u].
  Hypothesis Hswitching : g_switching p = [b].
  Hypothesis Hcost : forall t z, 1 <= t <= g_tend p -> 0 <= z <= u ->
    exists o, call_predictive (g_cost p) t [z] = Ok [mkCost (Fin (h t z)) o].

  Lemma mean_of_single {X} (cf : cost_fn X C D) t x c : call_predictive cf t x = Ok [c] ->
    exists c', call_mean vmerge cf t x = Ok c' /\ eeq (c_cost c') (c_cost c).
  Proof.
    intros H. rewrite call_mean_of_predictive, H. cbn [obind].
    pose proof (cost_mean_single vmerge c) as HM. destruct (cost_mean vmerge [c]) as [c'| |]; try contradiction.
    exists c'. split; [reflexivity|]. apply HM.
  Qed.

  Lemma integral_cost s alpha xs : Z.of_nat (length xs) = g_tend p -> Forall (fun z => 0 <= z <= u) xs ->
    exists c, objective_o merge s (gssco_problem valZ vmerge outside p) (configs_1 xs) [0] alpha false (g_tend p) = Ok c /\
      eeq (c_cost c) (Fin (walk h (alpha * b) 1 0 xs)).
  Proof.
    intros HL HX.
    destruct (objective_along merge (gssco_problem valZ vmerge outside p) (fun t x => Fin (h t (hd 0 x)))
                (fun a x => b * inject_Z (Z.max 0 (hd 0%Z x - hd 0%Z a)))%Q [0] alpha false s (configs_1 xs)) as (c & H1 & H2).
    - unfold configs_1. rewrite map_length. exact HL.
    - intros t x Ht Hx. apply in_map_iff in Hx as (z & <- & Hz). rewrite Forall_forall in HX. specialize (HX z Hz).
      cbn [gssco_problem op_hit op_tend hd] in *. rewrite gssco_hit_inside.
      + destruct (Hcost t z Ht HX) as (o & E). destruct (mean_of_single _ _ _ _ E) as (c & Ec & Hc). exists c. split; [exact Ec|exact Hc].
      + reflexivity.
      + rewrite Hbounds. constructor; [|constructor]. cbn. change 0%Q with (inject_Z 0). rewrite <- !Zle_Qle. exact HX.
    - intros a x Ha Hx. apply in_map_iff in Hx as (z & <- & Hz).
      assert (exists w, a = [w]) as (w & ->) by (destruct Ha as [->|Ha]; [eauto|apply in_map_iff in Ha as (w & <- & _); eauto]).
      cbn [gssco_problem op_move hd]. unfold gssco_move. rewrite Hswitching. cbn [scaled_movement_o obind].
      eexists. split; [reflexivity|]. rewrite Qplus_0_r.
      assert (E : (scalar_movement (v_toQ valZ) z w false == inject_Z (Z.max 0 (z - w)))%Q); [|rewrite E; reflexivity].
      unfold scalar_movement. cbn [v_toQ valZ].
      assert (EM : (inject_Z (z - w) == inject_Z z - inject_Z w)%Q).
      { unfold Zminus. rewrite inject_Z_plus, inject_Z_opp. reflexivity. }
      destruct (Z.max_spec 0 (z - w)) as [[H ->]|[H ->]].
      + assert (G : (inject_Z w < inject_Z z)%Q) by (rewrite <- Zlt_Qlt; lia). rewrite EM, qpos_max, Q.max_r by lra. reflexivity.
      + assert (G : (inject_Z z <= inject_Z w)%Q) by (rewrite <- Zle_Qle; lia). rewrite qpos_max, Q.max_l by lra. reflexivity.
    - cbn [gssco_problem op_tend] in H1. exists c. split; [exact H1|]. rewrite H2.
      assert (G : forall ys t x, eeq (total_cost (fun t0 x0 => Fin (h t0 (hd 0 x0))) (fun a x0 => b * inject_Z (Z.max 0 (hd 0%Z x0 - hd 0%Z a)))%Q alpha t [x] (configs_1 ys))
                             (Fin (walk h (alpha * b) t x ys))).
      { induction ys as [|z ys IH]; intros t x; [reflexivity|]. cbn [configs_1 map total_cost walk hd].
        specialize (IH (t + 1) z). unfold configs_1 in IH. rewrite IH. cbn [eadd eeq]. ring. }
      apply G.
  Qed.

  Lemma relaxed_hit t y : 1 <= t <= g_tend p -> (0 <= y <= inject_Z u)%Q ->
    exists c, gssco_hit valQ vmerge outside (ssco_into_f vmerge p) t [y] = Ok c /\ eeq (c_cost c) (Fin (blend h t y)).
  Proof.
    intros Ht Hy. rewrite gssco_hit_inside.
    - cbn [ssco_into_f g_cost].
      assert (exists c, call_certain (cf_into_f vmerge (g_cost p)) t [y] = Ok c /\ eeq (c_cost c) (Fin (blend h t y))) as (c & E & Hc).
      { assert (HB : forall z, 0 <= z <= u -> exists o, call_certain (g_cost p) t [z] = Ok (mkCost (Fin (h t z)) o)).
        { intros z Hz. destruct (Hcost t z Ht Hz) as (o & E). exists o. rewrite call_certain_of_predictive, E. reflexivity. }
        pose proof (neighbour_bounds y (Qfloor y) u Hy (or_introl eq_refl)) as HF.
        pose proof (neighbour_bounds y (Qceiling y) u Hy (or_intror eq_refl)) as HC.
        destruct (HB _ HF) as (of & EF). destruct (HB _ HC) as (oc & EC).
        destruct (cell y) as [[A B]|[A B]].
        - rewrite (into_f_at_integer vmerge (g_cost p) t (proj1 Ht) (Qfloor y) y B). eexists. split; [exact EF|].
          cbn [c_cost]. unfold blend, eeq. rewrite <- A. ring.
        - destruct (into_f_linear vmerge (g_cost p) t (proj1 Ht) Hmerge (Qfloor y) y _ _ (h t (Qfloor y)) (h t (Qceiling y))
            ltac:(lra) ltac:(rewrite inject_1; lra) EF ltac:(rewrite <- A; exact EC) eq_refl eq_refl) as (c & q & E & E1 & E2).
          exists c. split; [exact E|]. rewrite E1. unfold eeq, blend, share. rewrite E2, inject_1. ring. }
      rewrite call_certain_of_predictive in E.
      destruct (call_predictive (cf_into_f vmerge (g_cost p)) t [y]) as [rs| |] eqn:EP; try discriminate. cbn [obind] in E.
      destruct rs as [|c1 [|? ?]]; try discriminate. assert (c1 = c) by congruence. subst c1.
      destruct (mean_of_single _ _ _ _ EP) as (c' & E1 & E2). exists c'. split; [exact E1|]. rewrite E2. exact Hc.
    - reflexivity.
    - cbn [ssco_into_f g_bounds]. rewrite Hbounds. constructor; [|constructor]. exact Hy.
  Qed.

  Lemma relaxed_cost s alpha ys : Z.of_nat (length ys) = g_tend p -> Forall (fun y => (0 <= y <= inject_Z u)%Q) ys ->
    exists c, objective_o merge s (gssco_problem valQ vmerge outside (ssco_into_f vmerge p)) (configs_1 ys) [0%Q] alpha false (g_tend p) = Ok c /\
      eeq (c_cost c) (Fin (glide h (alpha * b) 1 0 ys)).
  Proof.
    intros HL HX.
    destruct (objective_along merge (gssco_problem valQ vmerge outside (ssco_into_f vmerge p)) (fun t x => Fin (blend h t (hd 0%Q x)))
                (fun a x => b * Qmax 0 (hd 0 x - hd 0 a))%Q [0%Q] alpha false s (configs_1 ys)) as (c & H1 & H2).
    - unfold configs_1. rewrite map_length. exact HL.
    - intros t x Ht Hx. apply in_map_iff in Hx as (y & <- & Hy). rewrite Forall_forall in HX.
      cbn [gssco_problem op_hit hd]. apply relaxed_hit; [exact Ht|auto].
    - intros a x Ha Hx. apply in_map_iff in Hx as (z & <- & Hz).
      assert (exists w, a = [w]) as (w & ->) by (destruct Ha as [->|Ha]; [eauto|apply in_map_iff in Ha as (w & <- & _); eauto]).
      cbn [gssco_problem op_move hd]. unfold gssco_move. cbn [ssco_into_f g_switching]. rewrite Hswitching. cbn [scaled_movement_o obind].
      eexists. split; [reflexivity|]. rewrite Qplus_0_r.
      assert (E : (scalar_movement (v_toQ valQ) z w false == Qmax 0 (z - w))%Q); [|rewrite E; reflexivity].
      unfold scalar_movement. cbn [v_toQ valQ]. apply qpos_max.
    - cbn [gssco_problem op_tend ssco_into_f g_tend] in H1. exists c. split; [exact H1|]. rewrite H2.
      assert (G : forall l t x, eeq (total_cost (fun t0 x0 => Fin (blend h t0 (hd 0%Q x0))) (fun a x0 => b * Qmax 0 (hd 0 x0 - hd 0 a))%Q alpha t [x] (configs_1 l))
                             (Fin (glide h (alpha * b) t x l))).
      { induction l as [|z l IH]; intros t x; [reflexivity|]. cbn [configs_1 map total_cost glide hd].
        specialize (IH (t + 1) z). unfold configs_1 in IH. rewrite IH. cbn [eadd eeq]. ring. }
      apply G.
  Qed.

  Lemma rounding_expectation s s' alpha ys mu : Z.of_nat (length ys) = g_tend p -> Forall (fun y => (0 <= y <= inject_Z u)%Q) ys ->
    gentle_trajectory 0 ys -> rounded 0 0 ys mu ->
    exists c q, objective_o merge s (gssco_problem valQ vmerge outside (ssco_into_f vmerge p)) (configs_1 ys) [0%Q] alpha false (g_tend p) = Ok c /\
      c_cost c = Fin q /\
      has_expectation (fun xs => objective_o merge s' (gssco_problem valZ vmerge outside p) (configs_1 xs) [0] alpha false (g_tend p)) mu q.
  Proof.
    intros HL HB HG HR. destruct (relaxed_cost s alpha ys HL HB) as (c & E1 & E2).
    destruct (c_cost c) as [q|] eqn:Ec; [|contradiction]. exists c, q. split; [exact E1|]. split; [exact Ec|].
    exists (walk h (alpha * b) 1 0). split.
    - pose proof (rounded_neighbours _ _ _ _ HR) as HN. pose proof (rounded_length _ _ _ _ HR) as HLs.
      rewrite Forall_forall in *. intros e He. apply integral_cost; [rewrite (HLs e He); exact HL|].
      specialize (HN e He). clear - HN HB. assert (HB' : Forall (fun y => (0 <= y <= inject_Z u)%Q) ys) by (apply Forall_forall; exact HB).
      clear HB. induction HN as [|y z ys zs Hz _ IH]; constructor.
      + apply (neighbour_bounds y z u); [exact (Forall_inv HB')|exact Hz].
      + apply IH. exact (Forall_inv_tail HB').
    - cbn [eeq] in E2. rewrite E2. apply (expected_cost h (alpha * b) 1 ys mu HG HR).
  Qed.
End Known.

(** ** Runs *)
Section Runs.
  Context {C D M : Type}.
  Variable vmerge : C -> C -> outcome C.
  Variable execute : online (gssco Q C D) -> list (list Q) -> option M -> outcome (list Q * option M).
  Variable relax : online (gssco Q C D) -> option M -> outcome (list Q * option M).
  Hypothesis Hblind : forall q xs m, Z.of_nat (length xs) + 1 = g_tend (on_p q) -> execute q xs m = relax q m.

  Lemma run_rounds merge outside s (draw : Z -> Q) o xs0 m xs m' :
    chooses (ssco_ops valZ merge vmerge outside s) (fun o t => randomized vmerge execute (draw t) o t) (fun _ => rand_default) o xs0 m xs m' ->
    forall x prev_y rest rm, last xs0 [0] = [x] ->
      match m with None => rand_default | Some m0 => m0 end = mkRM (prev_y :: rest) rm ->
    exists ys, answers vmerge relax (on_p o) (Z.of_nat (length xs0) + 1) rm (length xs) = Ok ys /\
      Forall (fun y => y <> []) ys /\
      xs = configs_1 (roundings draw (Z.of_nat (length xs0) + 1) x prev_y (map (hd 0%Q) ys)).
  Proof.
    induction 1 as [xs0 m|xs0 m z m1 xs m' t Hz _ IH]; intros x prev_y rest rm HX HM.
    - exists []. split; [reflexivity|]. split; [constructor|reflexivity].
    - rewrite HM in Hz. unfold randomized in Hz. destruct (negb _) eqn:Hw; [discriminate|].
      apply negb_false_iff, Z.eqb_eq in Hw. destruct (negb _); [discriminate|].
      rewrite Hblind in Hz by (unfold schedule_to; rewrite map_length; reflexivity). cbn [rm_relax rm_y nth_error from_option obind] in Hz.
      change (on_p (at_slot (ssco_ops valZ merge vmerge outside s) o t)) with (g_at (on_p o) t) in Hz. rewrite Hw in Hz.
      destruct (relax _ rm) as [[y rm']| |] eqn:ER; try discriminate. cbn [obind fst snd] in Hz.
      rewrite HX in Hz. cbn [nth_error from_option obind] in Hz.
      destruct y as [|y0 yr]; [discriminate|]. cbn [nth_error from_option obind] in Hz.
      assert (Ez : z = [next x prev_y y0 (draw t)]) by congruence.
      assert (Em : m1 = Some (mkRM (y0 :: yr) rm')) by congruence. subst m1. clear Hz.
      destruct (IH (next x prev_y y0 (draw t)) y0 yr rm') as (ys & E1 & E2 & E3); [rewrite last_last; exact Ez|reflexivity|].
      rewrite app_length in E1, E3. cbn [length] in E1, E3.
      replace (Z.of_nat (length xs0 + 1) + 1) with (t + 1) in E1, E3 by (unfold t; lia).
      exists ((y0 :: yr) :: ys). cbn [answers length]. fold t. rewrite ER. cbn [obind fst snd]. rewrite E1. cbn [obind].
      split; [reflexivity|]. split; [constructor; [discriminate|exact E2]|].
      cbn [map hd roundings configs_1]. fold t. rewrite Ez. f_equal. exact E3.
  Qed.

  Lemma whole_run_rounds merge outside s (draw : Z -> Q) o xs m' :
    chooses (ssco_ops valZ merge vmerge outside s) (fun o t => randomized vmerge execute (draw t) o t) (fun _ => rand_default) o [] None xs m' ->
    exists ys, answers vmerge relax (on_p o) 1 None (length xs) = Ok ys /\ Forall (fun y => y <> []) ys /\
      xs = configs_1 (roundings draw 1 0 0 (map (hd 0%Q) ys)).
  Proof. intros H. apply (run_rounds _ _ _ _ _ _ _ _ _ H 0 0%Q [] None); reflexivity. Qed.
End Runs.

Lemma schedules_distribution ys : exists mu, rounded 0 0 ys mu /\ Forall (fun e => (0 <= fst e)%Q) mu /\ (Qsum (map fst mu) == 1)%Q /\
    forall mu', rounded 0 0 ys mu' -> forall g : list Z -> Q,
      (Qsum (map (fun e => fst e * g (snd e)) mu) == Qsum (map (fun e => fst e * g (snd e)) mu'))%Q.
Proof.
  destruct (rounded_exists ys 0 0) as [mu H]. exists mu. split; [exact H|]. split; [exact (rounded_nonneg _ _ _ _ H)|]. split.
  - rewrite <- (rounded_total _ _ _ _ H). unfold expect. clear H. induction mu as [|[q a] mu IH]; [reflexivity|].
    cbn [map Qsum fst snd]. rewrite IH. ring.
  - intros mu' H' g. exact (rounded_unique _ _ _ _ H _ H' g).
Qed.

(** ** The deviation *)
Definition steep_h (N : positive) (t z : Z) : Q := if (t =? 2) && (z <? 2) then inject_Z (Zpos N) else 0%Q.
Definition steep_problem (N : positive) : gssco Z unit unit :=
  mkGSSCO 1 2 [2] [1%Q] (cf_new 1 (certain (fun t x => Ok (mkCost (Fin (steep_h N t (hd 0 x))) MNone)))).

Lemma steep_cost K : exists (p : gssco Z unit unit) ys mu c q e,
  g_bounds p = [2] /\ g_switching p = [1%Q] /\
  (forall t z, 1 <= t <= g_tend p -> 0 <= z <= 2 ->
     exists h, (0 <= h)%Q /\ call_predictive (g_cost p) t [z] = Ok [mkCost (Fin h) MNone]) /\
  Z.of_nat (length ys) = g_tend p /\ Forall (fun y => (0 <= y <= inject_Z 2)%Q) ys /\ rounded 0 0 ys mu /\
  objective_o (fun _ _ => tt) Leaf (gssco_problem valQ (fun _ _ => Ok tt) tt (ssco_into_f (fun _ _ => Ok tt) p)) (configs_1 ys) [0%Q] 1 false (g_tend p) = Ok c /\
  c_cost c = Fin q /\
  has_expectation (fun xs => objective_o (fun _ _ => tt) Leaf (gssco_problem valZ (fun _ _ => Ok tt) tt p) (configs_1 xs) [0] 1 false (g_tend p)) mu e /\
  (0 < q)%Q /\ (K * q < e)%Q.
Proof.
  set (N := Z.to_pos (Z.max 2 (Qceiling (3 * K)))).
  assert (HN : Zpos N = Z.max 2 (Qceiling (3 * K))) by (unfold N; rewrite Z2Pos.id; lia).
  assert (HK : (3 * K <= inject_Z (Zpos N))%Q).
  { rewrite HN. eapply Qle_trans; [apply Qle_ceiling|]. rewrite <- Zle_Qle. lia. }
  clearbody N.
  assert (HN2 : (2 <= inject_Z (Zpos N))%Q) by (change 2%Q with (inject_Z 2); rewrite <- Zle_Qle; lia).
  set (y := (2 - / inject_Z (Zpos N))%Q).
  assert (Hinv : (0 < / inject_Z (Zpos N) <= 1 # 2)%Q).
  { split; [apply Qinv_lt_0_compat; lra|]. apply Qle_shift_inv_r; lra. }
  assert (EF : Qfloor y = 1) by (apply floor_unique; unfold y; change (inject_Z 1) with 1%Q; lra).
  assert (EC : Qceiling y = 2) by (apply ceil_unique; unfold y; change (inject_Z 2) with 2%Q; lra).
  set (mu1 := preceded 0 2 [(1%Q, [])] ++ preceded (1 - 0) 1 [(1%Q, [])]).
  set (mu := preceded 1 2 mu1 ++ preceded (1 - 1) 2 mu1).
  assert (HR : rounded 0 0 [2%Q; y] mu).
  { assert (G : rounded 2 2 [y] mu1).
    { pose proof (rounded_step 2 2 y 0 [] [(1%Q, [])] [(1%Q, [])]) as G. rewrite EC, EF in G. apply G; [|constructor|constructor].
      apply probability_zero. intros r. rewrite steep_floor; [rewrite EF; lia| | |rewrite EF, EC; lia].
      - unfold y. lra.
      - rewrite EC. change (inject_Z 2) with 2%Q. lra. }
    unfold mu. apply (rounded_step 0 0 2%Q 1%Q [y] mu1 mu1); [|exact G|exact G].
    apply probability_one. intros r. destruct (next_neighbour 0 0 2 r) as [E|E]; rewrite E; reflexivity. }
  assert (HC : forall t z, 1 <= t <= g_tend (steep_problem N) -> 0 <= z <= 2 ->
    exists o, call_predictive (g_cost (steep_problem N)) t [z] = Ok [mkCost (Fin (steep_h N t z)) o]).
  { intros t z Ht Hz. exists MNone. assert (t = 1 \/ t = 2) as [->| ->] by (cbn in Ht; lia); reflexivity. }
  destruct (relaxed_cost (fun _ _ => Ok tt) (fun _ _ => tt) tt (steep_problem N) 2 1 (steep_h N)
    (fun _ _ => ex_intro _ tt eq_refl) eq_refl eq_refl HC Leaf 1 [2%Q; y]) as (c & E1 & E2); [reflexivity| |].
  { constructor; [|constructor; [|constructor]]; change (inject_Z 2) with 2%Q; unfold y; lra. }
  destruct (c_cost c) as [q|] eqn:Ec; [|contradiction]. cbn [eeq] in E2.
  assert (Eq : (q == 3)%Q).
  { rewrite E2. cbn [glide]. unfold blend, share. rewrite EF, EC. change (Qfloor 2) with 2. change (Qceiling 2) with 2.
    change (steep_h N 1 2) with 0%Q. change (steep_h N (1 + 1) 2) with 0%Q. change (steep_h N (1 + 1) 1) with (inject_Z (Zpos N)).
    change (inject_Z 2) with 2%Q. change (inject_Z 1) with 1%Q. rewrite (Q.max_r 0 (2 - 0)) by lra. rewrite (Q.max_l 0 (y - 2)) by (unfold y; lra).
    unfold y. field. lra. }
  exists (steep_problem N), [2%Q; y], mu, c, q, (2 + inject_Z (Zpos N))%Q.
  split; [reflexivity|]. split; [reflexivity|]. split.
  { intros t z Ht Hz. exists (steep_h N t z). split; [unfold steep_h; destruct (_ && _); lra|].
    assert (t = 1 \/ t = 2) as [->| ->] by (cbn in Ht; lia); reflexivity. }
  split; [reflexivity|]. split.
  { constructor; [|constructor; [|constructor]]; change (inject_Z 2) with 2%Q; unfold y; lra. }
  split; [exact HR|]. split; [exact E1|]. split; [exact Ec|]. split; [|split; [lra|rewrite Eq; lra]].
  exists (walk (steep_h N) (1 * 1) 1 0). split.
  - assert (HW : forall xs, length xs = 2%nat -> Forall (fun z => 0 <= z <= 2) xs ->
      exists c0, objective_o (fun _ _ => tt) Leaf (gssco_problem valZ (fun _ _ => Ok tt) tt (steep_problem N)) (configs_1 xs) [0] 1 false 2 = Ok c0 /\
      eeq (c_cost c0) (Fin (walk (steep_h N) (1 * 1) 1 0 xs))).
    { intros xs HL HX. apply (integral_cost (fun _ _ => Ok tt) (fun _ _ => tt) tt (steep_problem N) 2 1 (steep_h N) eq_refl eq_refl HC); [rewrite HL; reflexivity|exact HX]. }
    unfold mu, mu1. cbn [preceded map app fst snd].
    repeat constructor; cbn [snd]; apply HW; try reflexivity; repeat constructor; lia.
  - unfold mu, mu1. cbn [preceded map app fst snd Qsum walk].
    change (steep_h N 1 2) with 0%Q. change (steep_h N (1 + 1) 2) with 0%Q. change (steep_h N (1 + 1) 1) with (inject_Z (Zpos N)).
    change (inject_Z (Z.max 0 (2 - 0))) with 2%Q. change (inject_Z (Z.max 0 (2 - 2))) with 0%Q. change (inject_Z (Z.max 0 (1 - 2))) with 0%Q. ring.
Qed.
