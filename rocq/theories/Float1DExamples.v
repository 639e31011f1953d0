(** Concrete instances for the one-dimensional search with rounding, and what does not survive. *)
From Coq Require Import Lqa Qpower.
From Verif Require Import NumLemmas ObjectiveSpec Search1DModel GraphSearchSpec FloatModel FloatSpec FloatRound FloatExamples
  Float1DModel Float1DProps.
From Verif Require Import ProblemModel.
Local Open Scope Z_scope.

(** Multiples of 0.1 with three servers: the bound is padded to four. *)
Definition tenths1_hit (t : Z) (x : list Z) : cost unit unit :=
  mkCost (match x with
          | [a] => if a <? t - 1 then Inf else Fin (nearest_tenth (Z.modulo (5 * a + 2 * t) 7))
          | _ => Inf
          end) MNone.
Definition tenths1_p : ssco unit unit := mkSSCO 1 3 [3] [nearest_tenth 1] tenths1_hit.

Example tenths1_representable : representable_instance binary64_number (Qpower 2 (-1022)) 1 tenths1_p.
Proof.
  split.
  - intros t x _. cbn [tenths1_p s_hit]. unfold tenths1_hit. cbn [c_cost].
    destruct x as [|a [|]]; try exact I. destruct (a <? t - 1); [exact I|].
    apply tenth_number. apply Z.mod_pos_bound. lia.
  - cbn [tenths1_p s_switching].
    assert (Hs : (Qpower 2 (-1022) <= nearest_tenth 1)%Q) by (vm_compute; discriminate).
    constructor; [|constructor]. split; [apply tenth_number; lia|]. split; right; [exact Hs|].
    rewrite Qmult_1_l. exact Hs.
Qed.

(** The result rounds: the reported cost differs from the cost of the schedule. *)
Example tenths1_result :
  exists r, f_optimal_graph_search_1d binary64 tt tenths1_p 0 false 1 None = Ok r /\
    length (pa_xs r) = 3%nat /\ is_fin (pa_cost r) /\
    ~ eeq (pa_cost r) (total_cost (fun t x => c_cost (ssco_hit_cost tt tenths1_p t x))
                         (switching [nearest_tenth 1] false) 1 1 [0] (map (fun j => [j]) (pa_xs r))).
Proof.
  eexists. split; [vm_compute; reflexivity|]. split; [reflexivity|]. split; [exact I|].
  vm_compute. discriminate.
Qed.

Example tenths1_coarse :
  let q := f_make_pow_of_2 binary64 tt tenths1_p 3 in
  exists ys, (Z.of_nat (length ys) = s_tend tenths1_p /\
              Forall (fun y => exists e, 0 <= e <= 4 /\ y = [e * 4 / 4]) ys) /\
    is_fin (total_cost (fun t x => c_cost (ssco_hit_cost tt q t x)) (switching [nearest_tenth 1] false) 1 1 [0] ys).
Proof.
  exists [[3]; [3]; [3]]. split.
  - split; [reflexivity|]. repeat apply Forall_cons; try apply Forall_nil; exists 3; (split; [lia|reflexivity]).
  - vm_compute. exact I.
Qed.

(** The returned schedule may be worse than optimal by any factor.  On the coarse rows 0, 2, 4, 6, 8 the
    first slot costs at least 2^60, which absorbs the costs of the second; the first row, 0, is kept, and
    the refinement reaches 2 only, although 7 costs nothing. *)
Definition valley_hit (t : Z) (x : list Z) : cost unit unit :=
  mkCost (match x with
          | [j] => Fin (if t =? 1 then inject_Z (2 ^ 60 * Z.abs (j - 3)) else inject_Z (Z.abs (j - 7)))
          | _ => Inf
          end) MNone.
Definition valley_p : ssco unit unit := mkSSCO 1 2 [8] [0%Q] valley_hit.

Lemma number_scaled n e : 0 <= n <= 2 ^ 53 -> 0 <= e -> binary64_number (inject_Z (2 ^ e * n)).
Proof.
  intros Hn He. exists n, e. split; [exact Hn|]. split; [lia|].
  rewrite inject_Z_mult, Qmult_comm. apply Qmult_comp; [reflexivity|].
  rewrite Zpower_Qpower by exact He. reflexivity.
Qed.

Example valley_representable : representable_instance binary64_number (Qpower 2 (-1022)) 1 valley_p.
Proof.
  split.
  - intros t x Hx. cbn [valley_p s_hit valley_hit c_cost].
    destruct x as [|j [|]]; try exact I.
    assert (0 <= j <= 8). { unfold inside in Hx. cbn in Hx. lia. }
    destruct (t =? 1); [apply number_scaled; lia|].
    replace (Z.abs (j - 7)) with (2 ^ 0 * Z.abs (j - 7)) by lia. apply number_scaled; lia.
  - cbn [valley_p s_switching]. constructor; [|constructor].
    split; [exists 0, 0; split; [lia|]; split; [lia|]; reflexivity|]. split; left; reflexivity.
Qed.

Lemma abs_convex w k m : 0 <= w -> convex_on m (fun j => Fin (inject_Z (w * Z.abs (j - k)))).
Proof.
  intros Hw a b c qa qc Ha Hc Ea Ec. injection Ea as <-. injection Ec as <-. eexists. split; [reflexivity|].
  rewrite <- !inject_Z_mult, <- inject_Z_plus, <- Zle_Qle.
  assert (E : (c - a) * Z.abs (b - k) <= (c - b) * Z.abs (a - k) + (b - a) * Z.abs (c - k)).
  { assert (T := Z.abs_triangle ((c - b) * (a - k)) ((b - a) * (c - k))).
    replace ((c - b) * (a - k) + (b - a) * (c - k)) with ((c - a) * (b - k)) in T by ring.
    rewrite !Z.abs_mul in T. rewrite (Z.abs_eq (c - a)), (Z.abs_eq (c - b)), (Z.abs_eq (b - a)) in T by lia. exact T. }
  nia.
Qed.

Lemma valley_convex t : convex_on 8 (fun j => c_cost (s_hit valley_p t [j])).
Proof.
  cbn [valley_p s_hit valley_hit c_cost]. destruct (t =? 1); [apply abs_convex; lia|].
  intros a b c qa qc Ha Hc Ea Ec. assert (G := abs_convex 1 7 8 ltac:(lia) a b c qa qc Ha Hc).
  cbv beta in G. rewrite !Z.mul_1_l in G. exact (G Ea Ec).
Qed.

Theorem float_search_1d_near_optimal_refuted :
  ~ (exists K : Q, (0 <= K)%Q /\
     forall (p : ssco unit unit) (beta : Q) (k : Z) r,
       s_d p = 1 -> s_bounds p = [2 ^ k] -> 0 <= k -> s_switching p = [beta] -> 0 <= s_tend p ->
       representable_instance binary64_number (Qpower 2 (-1022)) 1 p ->
       (forall t, convex_on (2 ^ k) (fun j => c_cost (s_hit p t [j]))) ->
       (forall t j, is_fin (c_cost (s_hit p t [j]))) ->
       f_optimal_graph_search_1d binary64 tt p 0 false 1 None = Ok r ->
       let J := total_cost (fun t x => c_cost (s_hit p t x)) (switching [beta] false) 1 1 [0] in
       forall ys, feasible_schedule (s_tend p) [2 ^ k] ys ->
         ele (J (map (fun j => [j]) (pa_xs r))) (escale K (J ys))).
Proof.
  intros (K & HK & H). specialize (H valley_p 0%Q 3).
  assert (E : exists r, f_optimal_graph_search_1d binary64 tt valley_p 0 false 1 None = Ok r /\ pa_xs r = [3; 2]).
  { eexists. split; [vm_compute; reflexivity|reflexivity]. }
  destruct E as (r & Hr & Hx).
  specialize (H r eq_refl eq_refl ltac:(lia) eq_refl ltac:(cbn; lia) valley_representable valley_convex).
  assert (Hfin : forall t j, is_fin (c_cost (s_hit valley_p t [j]))) by (intros; exact I).
  specialize (H Hfin Hr). cbv zeta in H. rewrite Hx in H. specialize (H [[3]; [7]]).
  assert (Hf : feasible_schedule (s_tend valley_p) [2 ^ 3] [[3]; [7]]).
  { split; [reflexivity|]. repeat constructor; lia. }
  specialize (H Hf).
  assert (E1 : eeq (total_cost (fun t x => c_cost (s_hit valley_p t x)) (switching [0%Q] false) 1 1 [0]
                     (map (fun j => [j]) [3; 2])) (Fin 5)) by (vm_compute; reflexivity).
  assert (E2 : eeq (total_cost (fun t x => c_cost (s_hit valley_p t x)) (switching [0%Q] false) 1 1 [0]
                     [[3]; [7]]) (Fin 0)) by (vm_compute; reflexivity).
  revert H E1 E2.
  generalize (total_cost (fun t x => c_cost (s_hit valley_p t x)) (switching [0%Q] false) 1 1 [0]
                     (map (fun j => [j]) [3; 2])).
  generalize (total_cost (fun t x => c_cost (s_hit valley_p t x)) (switching [0%Q] false) 1 1 [0] [[3]; [7]]).
  intros [a|] [b|]; cbn; try tauto. intros H E1 E2. rewrite E1, E2, Qmult_0_r in H. lra.
Qed.
Print Assumptions float_search_1d_near_optimal_refuted.

(** In exact arithmetic the search finds the optimum (C01). *)
Example valley_exact : exists r, optimal_graph_search_1d tt valley_p 0 false 1 None = Ok r /\ pa_xs r = [3; 7].
Proof. eexists. split; [vm_compute; reflexivity|reflexivity]. Qed.

(** Only slightly positive optima: with a switching cost of 1 and the second slot's cost scaled by 1000,
    the schedule found costs 5003, the optimum 7. *)
Definition valley2_hit (t : Z) (x : list Z) : cost unit unit :=
  mkCost (match x with
          | [j] => Fin (if t =? 1 then inject_Z (2 ^ 80 * Z.abs (j - 3)) else inject_Z (1000 * Z.abs (j - 7)))
          | _ => Inf
          end) MNone.
Definition valley2_p : ssco unit unit := mkSSCO 1 2 [8] [1%Q] valley2_hit.
Example valley2_result : exists r, f_optimal_graph_search_1d binary64 tt valley2_p 0 false 1 None = Ok r /\
  pa_xs r = [3; 2] /\ eeq (pa_cost r) (Fin 5003) /\
  eeq (total_cost (fun t x => c_cost (s_hit valley2_p t x)) (switching [1%Q] false) 1 1 [0] [[3]; [7]]) (Fin 7).
Proof. eexists. split; [vm_compute; reflexivity|]. split; [reflexivity|]. split; vm_compute; reflexivity. Qed.

(** Integral costs below 2^53: three slots, eight servers, costs up to 10^12. *)
Definition integral_hit (t : Z) (x : list Z) : cost unit unit :=
  mkCost (match x with
          | [j] => Fin (inject_Z (if t =? 2 then 10 ^ 11 * Z.abs (j - 7) else 3 * Z.abs (j - 2)))
          | _ => Inf
          end) MNone.
Definition integral_p : ssco unit unit := mkSSCO 1 3 [8] [inject_Z 2] integral_hit.

Example integral_hypotheses :
  (forall t j, 1 <= t <= s_tend integral_p -> 0 <= j <= 8 ->
     match c_cost (s_hit integral_p t [j]) with Fin q => exists c, 0 <= c <= 10 ^ 12 /\ (q == inject_Z c)%Q | Inf => True end) /\
  2 * 8 <= 2 ^ 53 /\ s_tend integral_p * (10 ^ 12 + 1 * 2 * 8) <= 2 ^ 53 /\
  (forall t, 1 <= t <= s_tend integral_p -> convex_on 8 (fun j => c_cost (s_hit integral_p t [j]))) /\
  (forall t, 1 <= t <= s_tend integral_p -> is_fin (c_cost (s_hit integral_p t [8]))).
Proof.
  split.
  { intros t j _ Hj. cbn [integral_p s_hit integral_hit c_cost]. eexists. split; [|reflexivity].
    destruct (t =? 2); lia. }
  split; [lia|]. split; [cbn; lia|]. split; [|intros; exact I].
  intros t _. cbn [integral_p s_hit integral_hit c_cost]. destruct (t =? 2); apply abs_convex; lia.
Qed.

Example integral_result : exists r, f_optimal_graph_search_1d binary64 tt integral_p 0 false 1 None = Ok r /\
  pa_xs r = [2; 7; 2].
Proof. eexists. split; [vm_compute; reflexivity|reflexivity]. Qed.
