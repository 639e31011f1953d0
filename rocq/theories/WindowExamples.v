(** Concrete cases for WindowProps.v and a behaviour deviating from the expected one. *)
From Coq Require Import Lia Lqa String.
From Verif Require Import NumLemmas CostSpec CostProofs VerifySpec OptimizeModel OptimizeSpec OptimizeBrute HorizonModel HorizonSpec HorizonProofs HorizonExamples
  HorizonRunModel HorizonRunSpec HorizonRunExamples StaticModel GraphSearchModel OfflineSpec OneTypeSpec OneTypeExamples WindowModel WindowSpec WindowProofs WindowEnd WindowOrder WindowProps.
From Verif Require Import ProblemModel CostModel.
Local Open Scope Z_scope.

(** An exact optimiser is [brute], which tries the points with multiples of 0.01. *)
Example ex_exact_nlopt : exact_nlopt brute.
Proof. exact brute_exact. Qed.

(** The day of OneTypeExamples.v: *)
Example ex_one_type_ordered :
  let fractional := into_sco valQ dc_vmerge OutsideDecisionSpace (the_problem valQ inject_Z (hall [batch] 1) day) in
  exists xs a ys b zs c,
    offline_solve (sco_ops valQ dc_hmerge dc_vmerge OutsideDecisionSpace Leaf)
      (co_solver dc_vmerge dc_hmerge OutsideDecisionSpace brute (fun _ => Leaf) default_options) fractional = Ok (xs, a) /\
    offline_solve (ssco_ops valZ dc_hmerge dc_vmerge OutsideDecisionSpace Leaf)
      (optimal_search_ssco dc_vmerge OutsideDecisionSpace (fun _ _ => Leaf) default_options) (the_problem valZ (fun z => z) (hall [batch] 1) day) = Ok (ys, b) /\
    offline_solve (sco_ops valQ dc_hmerge dc_vmerge OutsideDecisionSpace Leaf)
      (static_fractional_solver dc_vmerge dc_hmerge OutsideDecisionSpace brute (fun _ => Leaf) default_options) fractional = Ok (zs, c) /\
    ele (c_cost a) (c_cost b) /\ ele (c_cost a) (c_cost c).
Proof.
  destruct (one_type_optima_ordered no_powf (hall [batch] 1) hall_price hall_power (fun _ => (1, 1 # 2)%Q) site node OneTypeExamples.evaluate brute
    (fun _ => Leaf) (fun _ _ => Leaf) (fun _ => Leaf) Leaf day 3 (the_problem valZ (fun z => z) (hall [batch] 1) day)
    (into_sco valQ dc_vmerge OutsideDecisionSpace (the_problem valQ inject_Z (hall [batch] 1) day))
    (into_sco valZ dc_vmerge OutsideDecisionSpace (the_problem valZ (fun z => z) (hall [batch] 1) day)))
    as (xs & a & ys & b & zs & c & E1 & E2 & E3 & _ & L1 & L2 & _); try reflexivity.
  - apply batch_hall. discriminate.
  - exact evaluate_trivial.
  - exact brute_exact.
  - discriminate.
  - apply day_profiles.
  - apply hall_capacities.
  - apply hall_switching.
  - apply day_supported.
  - exists xs, a, ys, b, zs, c. auto.
Qed.
(** ... and the static integral algorithm has an answer. *)
Example ex_static_integral : exists c,
  offline_solve (sco_ops valZ dc_hmerge dc_vmerge OutsideDecisionSpace Leaf)
    (fun r => static_integral dc_vmerge dc_hmerge OutsideDecisionSpace (fun _ => Leaf) r false 1 None)
    (into_sco valZ dc_vmerge OutsideDecisionSpace (the_problem valZ (fun z => z) (hall [batch] 1) day)) = Ok ([[2]; [2]; [2]], c) /\ is_fin (c_cost c).
Proof. eexists. split; [vm_compute; reflexivity|exact I]. Qed.

(** The server of HorizonRunExamples.v, streamed with a prediction window of any length. *)
Lemma need_respects t : respects_eq eeq (lift need t).
Proof.
  intros x y H. destruct H as [|a b x y E H]; [exact I|]. destruct H; [|exact I].
  cbn [lift eeq]. unfold need. destruct (Z.odd t); rewrite E; reflexivity.
Qed.
Lemma server_bounds : Forall hundredths (g_bounds server).
Proof. constructor; [exists 100; reflexivity|constructor]. Qed.

Example ex_rhc_nlopt w n : 0 <= w -> (1 <= n)%nat ->
  let ops := ssco_ops valQ (fun a _ : unit => a) (fun _ _ => Panic) tt Leaf in
  let o' := at_slot ops (mkOnline server w) (Z.of_nat n) in
  exists xs v,
    offline_stream ops (rhc_alg (fun _ _ => Panic) (fun a _ => a) tt (fun _ => Leaf) (window_minimize brute)) (fun _ => tt) (Z.of_nat n + w) (mkOnline server w)
      = Some (o', xs, Ok None) /\ po_objective ops (on_p o') xs = Ok v /\
    forall ys, fractional_schedule [1]%Q (Z.of_nat n) ys -> Forall (Forall hundredths) ys ->
      exists v', po_objective ops (on_p o') ys = Ok v' /\ ele (c_cost v) (escale (1 + 4) (c_cost v')).
Proof.
  intros Hw Hn ops o'.
  destruct (rhc_nlopt_competitive unit unit (fun _ _ => Panic) (fun a _ => a) tt (fun _ => Leaf) brute brute_exact server (lift need) [1]%Q 4 w n
    server_valid eq_refl Hw Hn server_bounds (fun t x Ht Hx => server_costs t x (proj1 Ht) Hx) need_respects (server_operation _) Leaf)
    as (xs & v & H1 & _ & _ & H2 & H3).
  exists xs, v. auto.
Qed.

Example ex_afhc_nlopt w n : 0 <= w -> (1 <= n)%nat ->
  let ops := ssco_ops valQ (fun a _ : unit => a) (fun _ _ => Panic) tt Leaf in
  let o' := at_slot ops (mkOnline server w) (Z.of_nat n) in
  exists xs mem v,
    offline_stream ops (afhc_alg (fun _ _ => Panic) (fun a _ => a) tt (fun _ => Leaf) (window_minimize brute)) afhc_dflt (Z.of_nat n + w) (mkOnline server w)
      = Some (o', xs, Ok mem) /\ po_objective ops (on_p o') xs = Ok v /\
    forall ys, fractional_schedule [1]%Q (Z.of_nat n) ys -> Forall (Forall hundredths) ys ->
      exists v', po_objective ops (on_p o') ys = Ok v' /\ ele (c_cost v) (escale ((1 + 4) * (1 + 4)) (c_cost v')).
Proof.
  intros Hw Hn ops o'.
  destruct (afhc_nlopt_competitive unit unit (fun _ _ => Panic) (fun a _ => a) tt (fun _ => Leaf) brute brute_exact server (lift need) [1]%Q 4 w n
    server_valid eq_refl Hw Hn server_bounds (fun t x Ht Hx => server_costs t x (proj1 Ht) Hx) need_respects (server_operation _) Leaf (server_convex _))
    as (xs & mem & v & H1 & _ & H2 & H3).
  exists xs, mem, v. auto.
Qed.

(** ** One slot whose hitting cost is least at a third of a server. *)
Definition steep (x : Q) : Q := (1000000 * ((3 * x - 1) * (3 * x - 1)))%Q.
Definition narrow : gsco Q unit unit :=
  mkGSCO 1 1 [(0, 1)]%Q (fun x => match x with [j] => Ok (Qabs.Qabs j) | _ => Panic end)
    (cf_new 1 (certain (fun _ x => match x with [j] => Ok (mkCost (Fin (steep j)) MNone) | _ => Panic end))).

Lemma narrow_box x : in_boxQ [(0, 1)]%Q x -> exists j, x = [j] /\ (0 <= j <= 1)%Q.
Proof. intros H. inversion H as [|? j ? r Hj Hr]; subst. inversion Hr; subst. exists j. split; [reflexivity|exact Hj]. Qed.

Lemma narrow_mean j : exists c, call_mean (fun _ _ : unit => Panic) (o_cost narrow) 1 [j] = Ok c /\ eeq (c_cost c) (Fin (steep j)).
Proof.
  eexists. split; [reflexivity|]. simpl. change (/ inject_Z 1)%Q with 1%Q. ring.
Qed.

Example narrow_computable : computable (fun _ _ : unit => Panic) narrow.
Proof.
  constructor.
  - intros t x Ht Hx. change (1 <= t <= 1) in Ht. assert (t = 1) by lia. subst. destruct (narrow_box x Hx) as (j & -> & _).
    destruct (narrow_mean j) as (c & Hc & _). exists c. exact Hc.
  - intros t x y Ht Hx Hxy. change (1 <= t <= 1) in Ht. assert (t = 1) by lia. subst. destruct (narrow_box x Hx) as (j & -> & _).
    inversion Hxy as [|? k ? r E Hr]; subst. inversion Hr; subst.
    destruct (narrow_mean j) as (c & -> & Ec). destruct (narrow_mean k) as (c' & -> & Ec'). cbn [cost_of]. rewrite Ec, Ec'. unfold steep. simpl. rewrite E. reflexivity.
  - intros [|j [|? ?]] H; try discriminate. eexists. reflexivity.
  - intros x y a b H Hxy Ex Ey. destruct x as [|j [|? ?]]; try discriminate. inversion Hxy as [|? k ? r E Hr]; subst. inversion Hr; subst.
    cbn in Ex, Ey. injection Ex as <-. injection Ey as <-. rewrite E. reflexivity.
Qed.

Lemma narrow_objective j : (0 <= j <= 1)%Q ->
  exists c, sco_objective valQ (fun a _ : unit => a) (fun _ _ => Panic) tt Leaf narrow 1 [[j]] = Ok c /\ eeq (c_cost c) (Fin (steep j + j)).
Proof.
  intros Hj. assert (in_boxQ (o_bounds narrow) [j]) as Hx by (constructor; [exact Hj|constructor]).
  destruct (sco_objective_rows (fun _ _ : unit => Panic) (fun a _ => a) tt narrow eq_refl narrow_computable Leaf 1 [[j]] eq_refl) as (c & Hc & Ec); [auto|].
  exists c. split; [exact Hc|]. rewrite Ec. unfold alpha_cost. cbn [total_cost].
  destruct (ehit_spec (fun _ _ : unit => Panic) narrow narrow_computable 1 [j] ltac:(cbn; lia) Hx) as (h & Hh & Eh).
  destruct (narrow_mean j) as (h' & Hh' & Eh'). assert (h' = h) by congruence. subst h'. rewrite <- Eh, Eh'.
  cbv [enorm differenceQ combine map fst snd length o_bounds narrow o_norm repeat Nat.eqb]. cbn [eadd eeq]. rewrite Qabs.Qabs_pos by lra. ring.
Qed.

(** The fractional offline algorithm is a hundred more expensive than a schedule with a third of a
    server, whatever exact optimiser it uses, because arguments are rounded to multiples of 0.01. *)
Theorem offline_fractional_optimal_refuted :
  verify_sco narrow = Ok tt /\ aligned (o_bounds narrow) /\ computable (fun _ _ : unit => Panic) narrow /\
  forall nlopt sched, exact_nlopt nlopt ->
  exists xs c c',
    offline_solve (sco_ops valQ (fun a _ : unit => a) (fun _ _ => Panic) tt Leaf)
      (co_solver (fun _ _ => Panic) (fun a _ => a) tt nlopt sched default_options) narrow = Ok (xs, c) /\
    sco_objective valQ (fun a _ : unit => a) (fun _ _ => Panic) tt Leaf narrow 1 [[1 # 3]] = Ok c' /\
    elt (eadd (c_cost c') (Fin 99)) (c_cost c).
Proof.
  assert (aligned (o_bounds narrow)) as HA.
  { constructor; [|constructor]. split; [exists 0; reflexivity|]. split; [exists 100; reflexivity|cbn; lra]. }
  split; [reflexivity|]. split; [exact HA|]. split; [exact narrow_computable|]. intros nlopt sched Hex.
  destruct (offline_fractional_best unit unit (fun _ _ => Panic) (fun a _ => a) tt nlopt Hex sched narrow eq_refl HA narrow_computable Leaf default_options eq_refl)
    as (xs & c & E & (L & F) & O & _).
  destruct (narrow_objective (1 # 3)) as (c' & O' & E'); [lra|]. exists xs, c, c'. split; [exact E|]. split; [exact O'|].
  change (o_tend narrow) with 1 in L. destruct xs as [|x [|? ?]]; [discriminate| |cbn [List.length] in L; lia]. apply Forall_inv in F. destruct F as [B G].
  destruct (narrow_box x B) as (j & -> & Hj). apply Forall_inv in G. destruct G as (z & Ez).
  destruct (narrow_objective j Hj) as (c2 & O2 & E2). assert (c2 = c) by congruence. subst c2.
  assert (eeq (c_cost c) (Fin (inject_Z (100 * ((3 * z - 100) * (3 * z - 100))) + j))) as E3.
  { rewrite E2. cbn [eeq]. unfold steep. rewrite Ez at 1 2. rewrite (Qmake_Qdiv z 100). rewrite !inject_Z_mult. unfold Z.sub. rewrite inject_Z_plus, inject_Z_mult.
    change (inject_Z (-(100))) with (-(100))%Q. change (inject_Z 100) with 100%Q. change (inject_Z 3) with 3%Q. field. }
  assert (100 <= inject_Z (100 * ((3 * z - 100) * (3 * z - 100))))%Q as H100.
  { change 100%Q with (inject_Z 100). rewrite <- Zle_Qle. assert (3 * z - 100 <= -1 \/ 1 <= 3 * z - 100) by lia. nia. }
  destruct (c_cost c) as [u|]; [|contradiction]. destruct (c_cost c') as [u'|]; [|contradiction].
  cbn [eeq eadd elt] in *. rewrite E', E3. unfold steep. lra.
Qed.
