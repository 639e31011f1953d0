(** Property theorems: static integral solver (C11). *)
From Verif Require Import StaticModel StaticSpec StaticProofs StaticSeparable.
From Verif Require Import ProblemModel.
Local Open Scope Z_scope.

(** C11: if the cost of static schedules is unimodal in every dimension after minimising
    over the later dimensions, the result is an optimal static schedule of the full horizon.
    Missing: [alpha] is ignored (see [static_alpha_refuted]), and convexity alone does not
    suffice in several dimensions (see [static_convex_refuted]). *)
Theorem static_optimal_partial :
  forall (C D : Type) (vmerge : C -> C -> outcome C) (merge : C -> C -> C) (outside : D)
         (sched : list Z -> split) (p : gsco Z C D) (f : Z -> list Z -> ext) (norm : list Z -> Q),
  well_formed p -> has_costs vmerge p f norm ->
  let J := static_total f norm 1 (o_d p) (o_tend p) in
  nested_unimodal (o_bounds p) J ->
  forall (alpha : Q) (l : option Q), (l = None \/ exists q, l = Some q /\ (q == 0)%Q) ->
  (exists y, in_range (o_bounds p) y /\ is_fin (J y)) ->
  exists x, static_integral vmerge merge outside sched p false alpha l = Ok (repeat x (Z.to_nat (o_tend p))) /\
    in_range (o_bounds p) x /\ forall y, in_range (o_bounds p) y -> ele (J x) (J y).
Proof. exact @static_integral_spec. Qed.
Print Assumptions static_optimal_partial.

(** C11: in particular for separable convex hitting costs and weighted Manhattan norms
    (which covers every convex instance in one dimension). *)
Theorem static_optimal_separable :
  forall (C D : Type) (vmerge : C -> C -> outcome C) (merge : C -> C -> C) (outside : D)
         (sched : list Z -> split) (p : gsco Z C D) (h : Z -> nat -> Z -> ext) (beta : list Q)
         (alpha : Q) (l : option Q),
  well_formed p ->
  has_costs vmerge p (fun t => separable_sum (h t) 0) (manhattan beta) ->
  Forall (fun b => 0 <= b)%Q beta ->
  (forall t k b, 1 <= t <= o_tend p -> nth_error (o_bounds p) k = Some b -> convex_between (fst b) (snd b) (h t k)) ->
  (l = None \/ exists q, l = Some q /\ (q == 0)%Q) ->
  let J := static_total (fun t => separable_sum (h t) 0) (manhattan beta) 1 (o_d p) (o_tend p) in
  (exists y, in_range (o_bounds p) y /\ is_fin (J y)) ->
  exists x, static_integral vmerge merge outside sched p false alpha l = Ok (repeat x (Z.to_nat (o_tend p))) /\
    in_range (o_bounds p) x /\ forall y, in_range (o_bounds p) y -> ele (J x) (J y).
Proof. exact @static_separable. Qed.
Print Assumptions static_optimal_separable.

(** C11: unsupported options are rejected. *)
Theorem static_rejects :
  forall (C D : Type) (vmerge : C -> C -> outcome C) (merge : C -> C -> C) (outside : D)
         (sched : list Z -> split) (p : gsco Z C D) (alpha : Q),
  (forall l, static_integral vmerge merge outside sched p true alpha l = Err UnsupportedInvertedCost) /\
  (forall q, ~ (q == 0)%Q ->
     static_integral vmerge merge outside sched p false alpha (Some q) = Err UnsupportedLConstrainedMovement).
Proof. exact @static_unsupported. Qed.
Print Assumptions static_rejects.
