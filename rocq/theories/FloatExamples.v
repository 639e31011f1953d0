(** Concrete instances for the theorems about rounding, and what does not survive rounding. *)
From Verif Require Import NumLemmas GraphSearchModel GraphSearchSpec FloatModel FloatSpec FloatRound Float1DExact FloatProps.
From Verif Require Import ProblemModel.
Local Open Scope Z_scope.

Definition one_thread : Z -> vertice -> split := fun _ _ => Leaf.
Definition nearest_tenth (n : Z) : Q := binary64 (inject_Z n / 10).

(** 0.1 + 0.2 is not the number nearest to 0.3. *)
Example tenths : ~ (binary64 (nearest_tenth 1 + nearest_tenth 2) == nearest_tenth 3)%Q.
Proof. vm_compute. discriminate. Qed.

Example tenths_value : (nearest_tenth 1 == 3602879701896397 # (2 ^ 55))%Q.
Proof. vm_compute. reflexivity. Qed.

(** Numbers that are not representable: multiples of 0.1. *)
Definition tenths_hit (t : Z) (x : list Z) : cost unit unit :=
  mkCost (match x with
          | [a; b] => if a + b <? t - 1 then Inf else Fin (nearest_tenth (Z.modulo (3 * a + 5 * b + t) 7))
          | _ => Inf
          end) MNone.
Definition tenths_p : ssco unit unit := mkSSCO 2 3 [2; 1] [nearest_tenth 1; nearest_tenth 3] tenths_hit.

Lemma tenth_number n : 0 <= n -> binary64_number (nearest_tenth n).
Proof.
  intros H. apply binary64_in. unfold Qdiv. apply Qmult_le_0_compat; [|discriminate].
  change 0%Q with (inject_Z 0). rewrite <- Zle_Qle. exact H.
Qed.

Example tenths_representable : representable_instance binary64_number (Qpower 2 (-1022)) 1 tenths_p.
Proof.
  split.
  - intros t x _. cbn [tenths_p s_hit]. unfold tenths_hit. cbn [c_cost].
    destruct x as [|a [|b [|]]]; try exact I. destruct (a + b <? t - 1); [exact I|].
    apply tenth_number. apply Z.mod_pos_bound. lia.
  - cbn [tenths_p s_switching].
    assert (H : forall n, 0 <= n -> (Qpower 2 (-1022) <= nearest_tenth n)%Q ->
      binary64_number (nearest_tenth n) /\ no_underflow (Qpower 2 (-1022)) (nearest_tenth n) /\
      no_underflow (Qpower 2 (-1022)) (1 * nearest_tenth n)).
    { intros n Hn Hs. split; [apply tenth_number; auto|]. split; right; [exact Hs|]. rewrite Qmult_1_l. exact Hs. }
    constructor; [|constructor; [|constructor]]; apply H; try lia; vm_compute; discriminate.
Qed.

Example tenths_searchable : searchable tenths_p.
Proof.
  split; [discriminate|]. split; [reflexivity|]. split; [reflexivity|]. split.
  { constructor; [vm_compute; discriminate|]. constructor; [vm_compute; discriminate|constructor]. }
  split; [cbn; lia|]. split; [repeat constructor; lia|]. split; [repeat constructor; lia|].
  intros t Ht. cbn [tenths_p s_tend] in Ht.
  assert (E : t = 1 \/ t = 2 \/ t = 3) by lia. destruct E as [-> |[-> | ->]]; exact I.
Qed.

(** The search rounds: it reports a cost that differs from the one of its schedule. *)
Example tenths_result : exists path cache,
  f_optimal_graph_search binary64 tt one_thread tenths_p None false 1 None = Ok (path, cache) /\
  ~ eeq (gp_cost path) (schedule_cost tenths_p 1 false (gp_xs path)).
Proof. eexists. eexists. split; [vm_compute; reflexivity|]. vm_compute. discriminate. Qed.

(** The bound for this instance: 14 roundings. *)
Example tenths_roundings : search_roundings 3 (fold_right Z.add 0 [2; 1]) false = 14.
Proof. reflexivity. Qed.

(** The computed objective depends on how the sum over the time slots is divided (C08 holds in exact
    arithmetic only): 1 + 2^-53 + 2^-53 is 1 from the left, and the next number from the right. *)
Definition tiny : Q := 1 # (2 ^ 53).
Definition uneven_hit (t : Z) (x : list Z) : cost unit unit := mkCost (Fin (if t =? 1 then 1%Q else tiny)) MNone.
Definition uneven_p : ssco unit unit := mkSSCO 1 3 [1] [1%Q] uneven_hit.

Lemma number_1 : binary64_number 1.
Proof. exists 1, 0. split; [lia|]. split; [lia|]. reflexivity. Qed.

Lemma number_tiny : binary64_number tiny.
Proof. exists 1, (-53). split; [lia|]. split; [lia|]. reflexivity. Qed.

Lemma one_switching : Forall (fun b => binary64_number b /\ no_underflow (Qpower 2 (-1022)) b /\
  no_underflow (Qpower 2 (-1022)) (1 * b)) [1%Q].
Proof. constructor; [|constructor]. split; [apply number_1|]. split; right; vm_compute; discriminate. Qed.

Example uneven_representable : representable_instance binary64_number (Qpower 2 (-1022)) 1 uneven_p.
Proof.
  split; [|exact one_switching].
  intros t x _. cbn. destruct (t =? 1); [apply number_1|apply number_tiny].
Qed.

Theorem float_objective_independent_of_division_refuted :
  ~ (forall (s1 s2 : split) (p : ssco unit unit) (xs : list (list Z)),
       representable_instance binary64_number (Qpower 2 (-1022)) 1 p ->
       feasible_schedule (s_tend p) (s_bounds p) xs ->
       eeq (c_cost (f_objective_with_default binary64 (fun _ b => b) tt s1 p xs (zero_config (s_d p)) 1 false (s_tend p)))
           (c_cost (f_objective_with_default binary64 (fun _ b => b) tt s2 p xs (zero_config (s_d p)) 1 false (s_tend p)))).
Proof.
  intros H. specialize (H Leaf (Node 1 Leaf Leaf) uneven_p [[0]; [0]; [0]] uneven_representable).
  assert (Hf : feasible_schedule (s_tend uneven_p) (s_bounds uneven_p) [[0]; [0]; [0]]).
  { split; [reflexivity|]. cbn [uneven_p s_bounds]. repeat constructor; lia. }
  specialize (H Hf). vm_compute in H. discriminate H.
Qed.
Print Assumptions float_objective_independent_of_division_refuted.

(** The returned schedule need not be optimal: large costs absorb the differences of others. *)
Definition huge : Q := inject_Z (2 ^ 53).
Definition absorbing_hit (t : Z) (x : list Z) : cost unit unit :=
  mkCost (Fin (if t =? 1 then huge else match x with [j] => if j =? 0 then 0%Q else 1%Q | _ => 1%Q end)) MNone.
Definition absorbing_p : ssco unit unit := mkSSCO 1 2 [1] [1%Q] absorbing_hit.

Example absorbing_representable : representable_instance binary64_number (Qpower 2 (-1022)) 1 absorbing_p.
Proof.
  split; [|exact one_switching].
  intros t x _. cbn [absorbing_p s_hit absorbing_hit c_cost]. destruct (t =? 1).
  - exists (2 ^ 53), 0. split; [lia|]. split; [lia|]. reflexivity.
  - destruct x as [|j [|]]; try apply number_1. destruct (j =? 0); [|apply number_1].
    exists 0, 0. split; [lia|]. split; [lia|]. reflexivity.
Qed.

Example absorbing_searchable : searchable absorbing_p.
Proof.
  repeat split; cbn [absorbing_p s_bounds s_switching s_d s_tend length tl]; try lia; try discriminate;
    repeat constructor; try lia; try discriminate.
Qed.

Theorem float_search_exactly_optimal_refuted :
  ~ (forall (p : ssco unit unit) path cache,
       representable_instance binary64_number (Qpower 2 (-1022)) 1 p -> searchable p ->
       f_optimal_graph_search binary64 tt one_thread p None false 1 None = Ok (path, cache) ->
       forall ys, feasible_schedule (s_tend p) (s_bounds p) ys ->
         ele (schedule_cost p 1 false (gp_xs path)) (schedule_cost p 1 false ys)).
Proof.
  intros H. specialize (H absorbing_p).
  destruct (f_optimal_graph_search binary64 tt one_thread absorbing_p None false 1 None) as [[path cache]| |] eqn:E;
    vm_compute in E; try discriminate.
  specialize (H path cache absorbing_representable absorbing_searchable eq_refl [[0]; [0]]).
  assert (Hf : feasible_schedule (s_tend absorbing_p) (s_bounds absorbing_p) [[0]; [0]]).
  { split; [reflexivity|]. cbn [absorbing_p s_bounds]. repeat constructor; lia. }
  specialize (H Hf). inversion E; subst. vm_compute in H. apply H. reflexivity.
Qed.
Print Assumptions float_search_exactly_optimal_refuted.

(** Integral costs: two types, three time slots. *)
Definition whole_hit (t : Z) (x : list Z) : cost unit unit :=
  mkCost (match x with
          | [a; b] => if a + b <? t - 1 then Inf else Fin (inject_Z (Z.modulo (3 * a + 5 * b + t) 7))
          | _ => Inf
          end) MNone.
Definition whole_p : ssco unit unit := mkSSCO 2 3 [2; 1] [inject_Z 2; inject_Z 3] whole_hit.

Lemma small_integer k : 0 <= k <= 2 ^ 53 -> binary64_number (inject_Z k).
Proof. exact (binary64_integers k). Qed.

Example whole_representable : representable_instance binary64_number (Qpower 2 (-1022)) (inject_Z 1) whole_p.
Proof.
  split.
  - intros t x _. cbn [whole_p s_hit whole_hit c_cost].
    destruct x as [|a [|b [|]]]; try exact I. destruct (a + b <? t - 1); [exact I|].
    apply small_integer. assert (H := Z.mod_pos_bound (3 * a + 5 * b + t) 7). lia.
  - cbn [whole_p s_switching].
    assert (H : forall k, 1 <= k <= 2 ^ 53 -> binary64_number (inject_Z k) /\
      no_underflow (Qpower 2 (-1022)) (inject_Z k) /\ no_underflow (Qpower 2 (-1022)) (inject_Z 1 * inject_Z k)).
    { intros k Hk. assert (G : (Qpower 2 (-1022) <= inject_Z k)%Q).
      { eapply Qle_trans; [|rewrite <- Zle_Qle; exact (proj1 Hk)]. vm_compute. discriminate. }
      split; [apply small_integer; lia|]. split; right; [exact G|]. change (inject_Z 1) with 1%Q.
      rewrite Qmult_1_l. exact G. }
    constructor; [|constructor; [|constructor]]; apply H; lia.
Qed.

Example whole_searchable : searchable whole_p.
Proof.
  split; [discriminate|]. split; [reflexivity|]. split; [reflexivity|]. split.
  { constructor; [vm_compute; discriminate|]. constructor; [vm_compute; discriminate|constructor]. }
  split; [cbn; lia|]. split; [repeat constructor; lia|]. split; [repeat constructor; lia|].
  intros t Ht. cbn [whole_p s_tend] in Ht.
  assert (E : t = 1 \/ t = 2 \/ t = 3) by lia. destruct E as [-> |[-> | ->]]; exact I.
Qed.

Lemma whole_integral t x : match c_cost (s_hit whole_p t x) with
  Fin q => exists k, 0 <= k <= 6 /\ (q == inject_Z k)%Q | Inf => True end.
Proof.
  cbn [whole_p s_hit whole_hit c_cost]. destruct x as [|a [|b [|]]]; try exact I. destruct (a + b <? t - 1); [exact I|].
  eexists. split; [|reflexivity]. assert (H := Z.mod_pos_bound (3 * a + 5 * b + t) 7). lia.
Qed.

Example whole_feasible : feasible_schedule 3 [2; 1] [[0; 0]; [1; 1]; [1; 1]].
Proof. split; [reflexivity|]. repeat constructor; lia. Qed.

(** In double precision the search finds an optimal schedule. *)
Example whole_search : exists path cache,
  f_optimal_graph_search binary64 tt one_thread whole_p None false (inject_Z 1) None = Ok (path, cache) /\
  feasible_schedule 3 [2; 1] (gp_xs path) /\
  forall ys, feasible_schedule 3 [2; 1] ys ->
    ele (schedule_cost whole_p (inject_Z 1) false (gp_xs path)) (schedule_cost whole_p (inject_Z 1) false ys).
Proof.
  destruct (schedule_cost whole_p (inject_Z 1) false [[0; 0]; [1; 1]; [1; 1]]) as [q|] eqn:E; [|vm_compute in E; discriminate].
  apply (float_search_nd_integers unit unit tt binary64 binary64_number (Qpower 2 (-53)) (Qpower 2 (-1022))
           one_thread whole_p false 1 [2; 3] [[0; 0]; [1; 1]; [1; 1]] 13).
  - exact binary64_rounds.
  - exact whole_representable.
  - exact whole_searchable.
  - lia.
  - reflexivity.
  - intros t x _. assert (H := whole_integral t x). destruct (c_cost (s_hit whole_p t x)); auto.
    destruct H as (k & Hk & Ek). exists k. split; [lia|exact Ek].
  - exact whole_feasible.
  - vm_compute. reflexivity.
  - vm_compute. reflexivity.
Qed.

(** ... and the objective function is exact, with two threads. *)
Example whole_objective :
  eeq (c_cost (f_objective_with_default binary64 (fun _ c => c) tt (Node 1 Leaf Leaf) whole_p [[0; 0]; [1; 1]; [1; 1]]
                 (zero_config 2) (inject_Z 1) false 3))
      (schedule_cost whole_p (inject_Z 1) false [[0; 0]; [1; 1]; [1; 1]]).
Proof.
  apply (float_objective_integers unit unit (fun _ c => c) tt binary64 binary64_number (Qpower 2 (-53)) (Qpower 2 (-1022))
           (2 ^ 53) binary64_rounds small_integer (Node 1 Leaf Leaf) whole_p [[0; 0]; [1; 1]; [1; 1]] false 1 6 [2; 3]).
  - reflexivity.
  - cbn [whole_p s_bounds]. repeat constructor; lia.
  - reflexivity.
  - repeat constructor; lia.
  - lia.
  - lia.
  - exact whole_feasible.
  - intros t x _ _. exact (whole_integral t x).
  - vm_compute. discriminate.
  - vm_compute. discriminate.
  - vm_compute. discriminate.
Qed.
