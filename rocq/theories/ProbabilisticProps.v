(** Theorems about the probabilistic algorithm (C67, C68). *)
From Coq Require Import Qabs.
From Verif Require Import ProbabilisticModel ProbabilisticSpec ProbabilisticProofs.
From Verif Require Import ProblemModel CostModel.
Local Open Scope Z_scope.

(** C67.  At the start, the density is uniform, of mass 1, on a short interval next to 0; the
    breakpoints are the ends of this interval. *)
Theorem probabilistic_starts :
  exists e v, (0 < e)%Q /\ (e <= 1 # 100)%Q /\ (v * e == 1)%Q /\
    (forall y, (0 <= y <= e)%Q -> pm_p prob_default y = Ok (Num v)) /\
    (forall y, (y < 0)%Q \/ (e < y)%Q -> pm_p prob_default y = Ok (Num 0)) /\
    (forall y, contains (pm_breakpoints prob_default) y <-> (0 == y)%Q \/ (e == y)%Q).
Proof. exact starts_uniform. Qed.
Print Assumptions probabilistic_starts.

(** C67.  A step answers a point of an interval between the bounds.  Outside of the interval,
    the density kept is 0, inside it is the previous density plus the second derivative of
    the hitting cost divided by twice the switching cost.  The ends of the interval are the
    only new breakpoints, and no breakpoint is listed twice. *)
Theorem probabilistic_step :
  forall (C D : Type) nlopt brent diff1 diff2 quadrature fuel options (o : online (gssco Q C D)) u b,
  g_bounds (on_p o) = [u] -> g_switching (on_p o) = [b] -> (0 <= u)%Q -> hundredths u ->
  keeps_bounds nlopt -> keeps_interval brent ->
  forall t xs m x m',
  probabilistic nlopt brent diff1 diff2 quadrature fuel options o t xs m = Ok (x, m') ->
  exists q xl xr m1, x = [q] /\ m' = Some m1 /\
    (0 <= xl)%Q /\ (xl <= q)%Q /\ (q <= xr)%Q /\ (xr <= u)%Q /\
    (forall y, (y < xl)%Q \/ (xr < y)%Q -> pm_p m1 y = Ok (Num 0)) /\
    (forall y v s, (xl <= y <= xr)%Q -> pm_p m y = Ok (Num v) -> derivative diff2 (cost_at (on_p o) t) y = Ok (Num s) ->
       exists w, pm_p m1 y = Ok (Num w) /\ (w == v + s / (2 * b))%Q) /\
    (forall y, contains (pm_breakpoints m1) y <-> contains (pm_breakpoints m) y \/ (xl == y)%Q \/ (xr == y)%Q) /\
    (distinct (pm_breakpoints m) -> distinct (pm_breakpoints m1)).
Proof. exact @step_spec. Qed.
Print Assumptions probabilistic_step.

(** C67.  For an exact quadrature and fewer than ten breakpoints, the answer is the integral
    of [y * p y] over this interval, [p] being the new density; if that is not a point of the
    interval, a minimiser of the hitting cost. *)
Theorem probabilistic_mean :
  forall (C D : Type) nlopt brent diff1 diff2 quadrature fuel options (o : online (gssco Q C D)) u,
  g_bounds (on_p o) = [u] -> (0 <= u)%Q -> hundredths u ->
  keeps_bounds nlopt -> keeps_interval brent ->
  forall t xs m x m1,
  ordered_breaks options -> br_next options = None -> distinct (pm_breakpoints m) ->
  (length (br_fixed options) + length (pm_breakpoints m) < 10)%nat ->
  exact_quadrature (quadrature (fun y => do v <- pm_p m1 y; nscale y v)) ->
  probabilistic nlopt brent diff1 diff2 quadrature fuel options o t xs m = Ok (x, Some m1) ->
  exists q xl xr, x = [q] /\ (0 <= xl)%Q /\ (xl <= q <= xr)%Q /\ (xr <= u)%Q /\
    (forall y, (y < xl)%Q \/ (xr < y)%Q -> pm_p m1 y = Ok (Num 0)) /\
    let mean := quadrature (fun y => do v <- pm_p m1 y; nscale y v) (Pt xl) (Pt xr) in
    ((xl <= mean <= xr)%Q /\ (q == mean)%Q) \/
    ((mean < xl)%Q \/ (xr < mean)%Q) /\
      exists v, find_minimizer_of_hitting_cost nlopt t (g_cost (on_p o)) [(0%Q, u)] = Ok ([q], v).
Proof. exact @step_mean. Qed.
Print Assumptions probabilistic_mean.

(** C67.  For an exact optimiser the interval contains a minimiser of the hitting cost. *)
Theorem probabilistic_minimizer :
  forall (C D : Type) nlopt brent diff1 diff2 quadrature fuel options (o : online (gssco Q C D)) u,
  g_bounds (on_p o) = [u] -> (0 <= u)%Q -> hundredths u ->
  keeps_bounds nlopt -> keeps_interval brent ->
  forall H t xs m x m1,
  exact_nlopt nlopt -> charges (g_cost (on_p o)) [(0%Q, u)] t H -> respects_eq eeq H ->
  probabilistic nlopt brent diff1 diff2 quadrature fuel options o t xs m = Ok (x, Some m1) ->
  exists xm xl xr, cheapest [(0%Q, u)] H [xm] /\ (xl <= xm <= xr)%Q /\
    (forall y, (y < xl)%Q \/ (xr < y)%Q -> pm_p m1 y = Ok (Num 0)) /\
    contains (pm_breakpoints m1) xl /\ contains (pm_breakpoints m1) xr.
Proof. exact @step_minimizer. Qed.
Print Assumptions probabilistic_minimizer.

(** C68.  If the hitting cost is convex (its second derivative is not negative), densities
    remain not negative.  Partial: a density should have mass 1, see
    [probabilistic_left_bound_refuted] and [probabilistic_mass_refuted]. *)
Theorem probabilistic_nonnegative_partial :
  forall (C D : Type) nlopt brent diff1 diff2 quadrature fuel options (o : online (gssco Q C D)) u b,
  g_bounds (on_p o) = [u] -> g_switching (on_p o) = [b] -> (0 <= u)%Q -> hundredths u ->
  keeps_bounds nlopt -> keeps_interval brent ->
  forall t xs m x m1, (0 < b)%Q ->
  (forall y, exists s, derivative diff2 (cost_at (on_p o) t) y = Ok (Num s) /\ (0 <= s)%Q) ->
  nonnegative (pm_p m) ->
  probabilistic nlopt brent diff1 diff2 quadrature fuel options o t xs m = Ok (x, Some m1) ->
  nonnegative (pm_p m1).
Proof. exact @step_nonnegative. Qed.
Print Assumptions probabilistic_nonnegative_partial.

(** C68.  The right end of the interval, for an exact quadrature: with [d] the derivative of
    the hitting cost and [F y] the difference of [d y] and [2 * b] times the mass of the
    previous density right of [y], the value of [F] at the right end is less than 10 in absolute value, or [F] has the same sign at the
    minimiser and at the upper bound, or they are closer than 0.01, or the right end is the
    root Brent's method found, rounded. *)
Theorem probabilistic_right_bound_partial :
  forall (C D : Type) nlopt brent diff1 diff2 quadrature fuel options (o : online (gssco Q C D)) u b,
  g_bounds (on_p o) = [u] -> g_switching (on_p o) = [b] -> (0 <= u)%Q -> hundredths u ->
  keeps_bounds nlopt -> keeps_interval brent ->
  forall d t xs m x m1,
  (forall y, (0 <= y <= u)%Q -> derivative diff1 (cost_at (on_p o) t) y = Ok (Num (d y))) ->
  ordered_breaks options -> br_next options = None -> distinct (pm_breakpoints m) ->
  (length (br_fixed options) + length (pm_breakpoints m) < 10)%nat -> (10 <= fuel)%nat ->
  exact_quadrature (quadrature (pm_p m)) ->
  probabilistic nlopt brent diff1 diff2 quadrature fuel options o t xs m = Ok (x, Some m1) ->
  exists xm xl xr v, find_minimizer_of_hitting_cost nlopt t (g_cost (on_p o)) [(0%Q, u)] = Ok ([xm], v) /\
    pm_p m1 = next_density diff2 (on_p o) t (pm_p m) xl xr /\
    let F y := (d y - 2 * b * quadrature (pm_p m) (Pt y) PInf)%Q in
    (u - xm < 1 # 100)%Q /\ xr = xm \/
    ((xr = xm \/ xr = u) /\ (Qabs (F xr) < 10)%Q) \/
    ((xr = xm \/ xr = u) /\ (0 < F xm * F u)%Q) \/
    ((F xm * F u <= 0)%Q /\ exists y f, brent (xm, u) f = Ok y /\
       (forall z, (xm <= z <= u)%Q -> exists w, f z = Ok (Num w) /\ (w == F z)%Q) /\
       hundredths xr /\ (Qabs (xr - y) <= 1 # 200)%Q).
Proof. exact @right_end. Qed.
Print Assumptions probabilistic_right_bound_partial.

(** C68.  According to the description, twice the switching cost times the mass of the previous
    density left of the left end equals minus the derivative of the hitting cost there.  But
    if the hitting cost falls up to its minimiser, the left end of the interval is always 0 or
    the minimiser, whatever Brent's method does: the sign of the derivative is wrong. *)
Theorem probabilistic_left_bound_refuted :
  forall (C D : Type) nlopt brent diff1 diff2 quadrature fuel options (o : online (gssco Q C D)) u b,
  g_bounds (on_p o) = [u] -> g_switching (on_p o) = [b] -> (0 <= u)%Q -> hundredths u ->
  keeps_bounds nlopt -> keeps_interval brent ->
  forall t xs m x m1, (0 <= b)%Q ->
  (forall xm v, find_minimizer_of_hitting_cost nlopt t (g_cost (on_p o)) [(0%Q, u)] = Ok ([xm], v) ->
   forall y, (0 <= y <= xm)%Q -> exists d, derivative diff1 (cost_at (on_p o) t) y = Ok (Num d) /\ (d <= 0)%Q) ->
  (forall y i, integral_of quadrature fuel (br_add (pm_breakpoints m) options) MInf (Pt y) (pm_p m) = Ok i -> (0 <= i)%Q) ->
  probabilistic nlopt brent diff1 diff2 quadrature fuel options o t xs m = Ok (x, Some m1) ->
  exists xm v xl xr, find_minimizer_of_hitting_cost nlopt t (g_cost (on_p o)) [(0%Q, u)] = Ok ([xm], v) /\ (xl = 0%Q \/ xl = xm) /\
    (forall y, (y < xl)%Q \/ (xr < y)%Q -> pm_p m1 y = Ok (Num 0)) /\
    (forall y v s, (xl <= y <= xr)%Q -> pm_p m y = Ok (Num v) -> derivative diff2 (cost_at (on_p o) t) y = Ok (Num s) ->
       exists w, pm_p m1 y = Ok (Num w) /\ (w == v + s / (2 * b))%Q).
Proof. exact @left_end. Qed.
Print Assumptions probabilistic_left_bound_refuted.
