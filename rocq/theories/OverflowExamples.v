(** Instances of C96, and what overflows break. *)
From Coq Require Import Lia Qpower Lqa.
From Verif Require Import ObjectiveSpec OverflowModel OverflowProofs OverflowProps.
Local Open Scope Z_scope.

(** A data centre of [m] servers in which every server that is off costs 1. *)
Definition farm (m : Z) : ssco unit unit :=
  mkSSCO 1 1 [m] [0%Q] (fun t x => match x with [j] => mkCost (Fin (inject_Z (m - j))) (MNone) | _ => mkCost Inf MNone end).

(** Up to the limit, the hypotheses hold and all servers are used. *)
Lemma farm_convex m t : convex_on m (fun j => c_cost (s_hit (farm m) t [j])).
Proof.
  intros a b c qa qc Hab Hbc Ha Hc. cbn in *. injection Ha as <-. injection Hc as <-. eexists. split; [reflexivity|].
  rewrite <- !inject_Z_mult, <- inject_Z_plus, <- Zle_Qle. apply Z.eq_le_incl. ring.
Qed.
Example farm_meets_hypotheses : let m := 2 ^ 28 - 3 in
  s_d (farm m) = 1 /\ s_bounds (farm m) = [m] /\ s_switching (farm m) = [0%Q] /\ 0 <= s_tend (farm m) /\
  0 <= m <= 2 ^ 28 /\
  (forall t, 1 <= t <= s_tend (farm m) -> convex_on m (fun j => c_cost (s_hit (farm m) t [j]))) /\
  (forall t, 1 <= t <= s_tend (farm m) -> is_fin (c_cost (s_hit (farm m) t [m]))) /\
  (forall t j, 1 <= t <= s_tend (farm m) -> 0 <= j <= m -> ele (Fin 0) (c_cost (s_hit (farm m) t [j]))).
Proof.
  intros m. repeat (split; [reflexivity || discriminate|]). split; [split; discriminate|].
  split; [intros; apply farm_convex|]. split; [intros; exact I|].
  intros t j _ Hj. change (inject_Z 0 <= inject_Z (m - j))%Q. rewrite <- Zle_Qle. lia.
Qed.
Example farm_at_the_limit : forall b, exists c,
  machine_graph_search_1d b tt (farm (2 ^ 28)) 0 false 1 None = Ok (mkPath [2 ^ 28] (Fin c)) /\ (c == 0)%Q.
Proof. intros []; eexists; (split; [vm_compute; reflexivity|reflexivity]). Qed.

(** One server more, and the search panics. *)
Example farm_beyond_the_limit : machine_graph_search_1d Checked tt (farm (2 ^ 28 + 1)) 0 false 1 None = Panic.
Proof. vm_compute. reflexivity. Qed.

(** Without overflow checks, rows become negative, and a search over 2^30 servers never gets beyond three
    quarters of them: it reports success, and a cost of more than 2^28 instead of 0. *)
Theorem search_1d_wrapping_refuted :
  exists (p : ssco unit unit) (m : Z) r ys,
    s_d p = 1 /\ s_bounds p = [m] /\ s_switching p = [0%Q] /\ 0 <= m < 2 ^ 31 /\
    (forall t, convex_on m (fun j => c_cost (s_hit p t [j]))) /\
    feasible_schedule (s_tend p) [m] ys /\
    eeq (total_cost (fun t x => c_cost (s_hit p t x)) (switching [0%Q] false) 1 1 [0] ys) (Fin 0) /\
    machine_graph_search_1d Wrapping tt p 0 false 1 None = Ok r /\
    ele (Fin (inject_Z (2 ^ 28))) (pa_cost r).
Proof.
  exists (farm (2 ^ 30)), (2 ^ 30).
  destruct (machine_graph_search_1d Wrapping tt (farm (2 ^ 30)) 0 false 1 None) as [r|e|] eqn:E;
    [|vm_compute in E; discriminate|vm_compute in E; discriminate].
  exists r, [[2 ^ 30]]. repeat (split; [reflexivity|]). split; [split; [discriminate|reflexivity]|].
  split; [intros; apply farm_convex|]. split; [split; [reflexivity|]; constructor; [|constructor]; constructor; [split; [discriminate|discriminate]|constructor]|]. split; [vm_compute; reflexivity|].
  split; [reflexivity|]. vm_compute in E. injection E as <-. vm_compute. discriminate.
Qed.
Print Assumptions search_1d_wrapping_refuted.

(** If a bound is the largest integer, the loop that builds the grid of the approximate search does not end
    (before its counter overflows, that is, for 2^31 - 1 rounds), for whatever precision. *)
Theorem approx_search_largest_bound_refuted :
  forall (C D : Type) (outside : D) (sched : Z -> vertice -> split) (p : ssco C D) (gamma : Q)
         (cache : option gcache) (inverted : bool) (alpha : Q) (l : option Q) (fuel : nat),
  s_bounds p = [2 ^ 31 - 1] -> Z.of_nat fuel < 2 ^ 31 - 1 ->
  machine_approx_graph_search outside sched fuel p gamma cache inverted alpha l = None.
Proof.
  intros. unfold machine_approx_graph_search, machine_build_values. rewrite H. cbn [max_of fold_left].
  rewrite saturated_never_ends. reflexivity.
Qed.
Print Assumptions approx_search_largest_bound_refuted.
Example approx_search_smaller_bound :
  machine_build_values 100 [2 ^ 31 - 2] 3 = build_values 100 [2 ^ 31 - 2] 3 /\ build_values 100 [2 ^ 31 - 2] 3 <> None.
Proof. split; [vm_compute; reflexivity|vm_compute; discriminate]. Qed.
