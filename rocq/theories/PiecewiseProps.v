(** Theorems about piecewise integration (src/numerics/quadrature/piecewise.rs, src/breakpoints.rs). *)
From Coq Require Import Sorted.
From Verif Require Import PiecewiseModel PiecewiseSpec PiecewiseProofs.
Local Open Scope Z_scope.

(** The pieces evaluated follow each other without gap or overlap, lie inside the interval, and
    the result is the sum of their integrals.  They cover the interval up to each end, unless ten
    pieces on that side contributed less than the precision.
    Missing for the full property: the pieces need not cover the interval when ten pieces are
    small ([piecewise_cut_off_refuted]). *)
Theorem piecewise_tiles_partial : forall integral breaks fuel from to l r,
  ordered_breaks breaks -> interval from to ->
  piecewise integral breaks fuel from to = Some (l, r) ->
  (exists a b, tiles a (rev l ++ r) b /\ point_le from a /\ point_le b to /\
    (point_eq a from \/ converged integral l) /\ (point_eq b to \/ converged integral r)) /\
  piecewise_integral integral breaks fuel from to = Some (value_of integral l + value_of integral r)%Q.
Proof. exact pieces_tile. Qed.
Print Assumptions piecewise_tiles_partial.

(** For an exact quadrature the result is the integral over the whole interval, if fewer than ten
    pieces were small on either side. *)
Theorem piecewise_exact_partial : forall integral breaks fuel from to l r,
  exact_quadrature integral -> ordered_breaks breaks -> interval from to ->
  piecewise integral breaks fuel from to = Some (l, r) -> ~ converged integral l -> ~ converged integral r ->
  exists v, piecewise_integral integral breaks fuel from to = Some v /\ (v == integral from to)%Q.
Proof. exact whole_value. Qed.
Print Assumptions piecewise_exact_partial.

(** With fewer than ten breakpoints inside the interval, and no rule for further ones, it always
    finishes with the integral over the whole interval. *)
Theorem piecewise_few_breakpoints : forall integral breaks from to,
  exact_quadrature integral -> ordered_breaks breaks -> interval from to ->
  br_next breaks = None -> (length (br_fixed (only_inside from to breaks)) < 10)%nat ->
  exists fuel0, forall fuel, (fuel0 <= fuel)%nat ->
  exists v, piecewise_integral integral breaks fuel from to = Some v /\ (v == integral from to)%Q.
Proof. exact few_breaks_value. Qed.
Print Assumptions piecewise_few_breakpoints.

(** Breakpoints outside the interval do not matter. *)
Theorem piecewise_outside_breakpoints : forall integral breaks fuel from to,
  ordered_breaks breaks -> interval from to ->
  piecewise integral breaks fuel from to = piecewise integral (only_inside from to breaks) fuel from to.
Proof. exact outside_irrelevant. Qed.
Print Assumptions piecewise_outside_breakpoints.

(** It finishes when there is no rule for further breakpoints, and on finite intervals when the
    rule makes steps of at least [d] or onto multiples of [d]. *)
Theorem piecewise_terminates : forall integral breaks from to,
  ordered_breaks breaks ->
  br_next breaks = None \/
  (exists next d a b, br_next breaks = Some next /\ (0 < d)%Q /\ steps d next /\ from = Pt a /\ to = Pt b) ->
  exists r fuel0, forall fuel, (fuel0 <= fuel)%nat -> piecewise integral breaks fuel from to = Some r.
Proof. exact terminates. Qed.
Print Assumptions piecewise_terminates.

(** [Breakpoints::grid(1)] meets the assumptions above. *)
Theorem grid_breakpoints : ordered_breaks (br_grid 1) /\ (forall next, br_next (br_grid 1) = Some next -> steps 1 next).
Proof. exact (conj grid_ordered grid_steps). Qed.
Print Assumptions grid_breakpoints.

(** Adding distinct breakpoints keeps them in order, keeps the rule, and adds exactly those. *)
Theorem add_breakpoints : forall bs b, StronglySorted Qlt (br_fixed b) -> distinct bs ->
  StronglySorted Qlt (br_fixed (br_add bs b)) /\ br_next (br_add bs b) = br_next b /\
  (forall x, (exists y, In y (br_fixed (br_add bs b)) /\ (x == y)%Q) <-> (exists y, In y (br_fixed b ++ bs) /\ (x == y)%Q)).
Proof. exact add_spec. Qed.
Print Assumptions add_breakpoints.
