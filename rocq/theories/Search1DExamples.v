(** Concrete instances for the theorems of Search1DProps.v. *)
From Verif Require Import NumLemmas ProblemModel ObjectiveSpec Search1DModel Search1DProps.
Local Open Scope Z_scope.

(** Quadratic costs around a moving target: f_t(j) = (j - w_t)^2 with targets 3, 0, 5, 5. *)
Definition target (t : Z) : Z := match t with 1 => 3 | 2 => 0 | _ => 5 end.
Definition quadratic (m : Z) : ssco unit unit :=
  mkSSCO 1 4 [m] [2%Q]
    (fun t x => match x with
                | [j] => mkCost (Fin (inject_Z ((j - target t) * (j - target t)))) MNone
                | _ => mkCost Inf MNone
                end).

Lemma quadratic_convex m t : convex_on m (fun j => c_cost (s_hit (quadratic m) t [j])).
Proof.
  intros a b c qa qc Hab Hbc Ha Hc. cbn in *. inversion Ha; inversion Hc; subst.
  eexists. split; [reflexivity|].
  rewrite <- !inject_Z_mult, <- inject_Z_plus. rewrite <- Zle_Qle. set (w := target t).
  replace (inject_Z 0) with 0%Q by reflexivity.
  assert (0 <= (b - a) * (c - b) * (c - a)) by (apply Z.mul_nonneg_nonneg; [apply Z.mul_nonneg_nonneg|]; lia).
  nia.
Qed.

(** The hypotheses of [search_1d_optimal] hold for m = 8, of [search_1d_optimal_padded] for m = 6. *)
Example search_1d_optimal_applies : exists r,
  optimal_graph_search_1d tt (quadratic 8) 1 false 1 None = Ok r /\
  feasible_schedule 4 [8] (map (fun j => [j]) (pa_xs r)).
Proof.
  assert (E : exists k, 0 <= k /\ 8 = 2 ^ k) by (exists 3; split; [lia|reflexivity]).
  assert (T := search_1d_optimal unit unit tt (quadratic 8) 1 false 1 2 8 eq_refl eq_refl eq_refl
              ltac:(cbn; lia) E ltac:(discriminate) ltac:(discriminate)
              (fun t _ => quadratic_convex 8 t) (fun t _ => I)).
  destruct T as [r [Hr [_ [Hf _]]]].
  exists r. split; [exact Hr|exact Hf].
Qed.

Example search_1d_padded_applies : exists r,
  optimal_graph_search_1d tt (quadratic 6) 1 true 3 None = Ok r /\
  feasible_schedule 4 [6] (map (fun j => [j]) (pa_xs r)).
Proof.
  assert (T := search_1d_optimal_padded unit unit tt (quadratic 6) 1 true 3 2 6 eq_refl eq_refl eq_refl
              ltac:(cbn; lia) ltac:(lia) ltac:(lia) ltac:(discriminate) ltac:(discriminate)
              (fun t _ => quadratic_convex 6 t) (fun t _ => I)).
  destruct T as [r [Hr [_ [Hf _]]]].
  { intros t j _ _. change (inject_Z 0 <= inject_Z ((j - target t) * (j - target t)))%Q.
    rewrite <- Zle_Qle. apply Z.square_nonneg. }
  exists r. split; [exact Hr|exact Hf].
Qed.

Example search_1d_runs :
  exists c, optimal_graph_search_1d tt (quadratic 8) 1 false 1 None = Ok (mkPath [2; 1; 4; 4] c).
Proof. eexists. vm_compute. reflexivity. Qed.

(** The test of the repository: two slots, a cost of one for an empty data centre,
    bound 2 and switching cost 1; the answer is [1, 1] with cost 1. *)
Definition penalize_zero : ssco unit unit :=
  mkSSCO 1 2 [2] [1%Q]
    (fun _ x => match x with
                | [j] => mkCost (Fin (if j =? 0 then 1 else 0)) MNone
                | _ => mkCost Inf MNone
                end).

Example search_1d_repository_test :
  exists c, optimal_graph_search_1d tt penalize_zero 0 false 1 None = Ok (mkPath [1; 1] (Fin c)) /\ (c == 1)%Q.
Proof. eexists. split; [vm_compute; reflexivity|reflexivity]. Qed.

(** Finiteness at full capacity is needed: a convex instance with a feasible schedule of
    finite cost on which the search panics, because all configurations of the
    initial coarse grid have infinite cost. *)
Definition only_three : ssco unit unit :=
  mkSSCO 1 1 [8] [1%Q]
    (fun _ x => match x with
                | [j] => mkCost (if j =? 3 then Fin 0 else Inf) MNone
                | _ => mkCost Inf MNone
                end).

Theorem search_1d_infinite_capacity_refuted :
  exists (p : ssco unit unit) (ys : list (list Z)),
    s_d p = 1 /\ s_bounds p = [8] /\ s_switching p = [1%Q] /\
    (forall t, convex_on 8 (fun j => c_cost (s_hit p t [j]))) /\
    feasible_schedule (s_tend p) [8] ys /\
    is_fin (total_cost (fun t x => c_cost (s_hit p t x)) (switching [1%Q] false) 1 1 [0] ys) /\
    optimal_graph_search_1d tt p 0 false 1 None = Panic.
Proof.
  exists only_three, [[3]]. repeat (split; [reflexivity|]). split.
  - intros t a b c qa qc Hab Hbc Ha Hc. cbn in *.
    destruct (Z.eqb_spec a 3); [|discriminate]. destruct (Z.eqb_spec c 3); [|discriminate].
    assert (b = 3) by lia. subst. inversion Ha; inversion Hc; subst. exists 0%Q. split; [reflexivity|].
    cbn. lra.
  - split; [split; [reflexivity|repeat constructor; lia]|]. split; [exact I|vm_compute; reflexivity].
Qed.
Print Assumptions search_1d_infinite_capacity_refuted.
