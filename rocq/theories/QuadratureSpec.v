(** Specification for numerical integration: what the integral is. *)
From Coq Require Import Qabs.
From Verif Require Export QuadratureModel PiecewiseSpec OptimizeSpec.
Local Open Scope Q_scope.

(** [F] is an antiderivative of [g] on [a, b]: difference quotients converge uniformly. *)
Definition antiderivative (g F : Q -> Q) (a b : Q) : Prop :=
  (forall x y, x == y -> F x == F y) /\
  forall eps, 0 < eps -> exists delta, 0 < delta /\ forall x y, a < x < b -> a <= y <= b -> Qabs (y - x) <= delta ->
    Qabs (F y - F x - g x * (y - x)) <= eps * Qabs (y - x).

(** [F] has a limit at (minus) infinity. *)
Definition tends_up (F : Q -> Q) (v : Q) : Prop :=
  forall eps, 0 < eps -> exists m, forall x, m <= x -> Qabs (F x - v) <= eps.
Definition tends_down (F : Q -> Q) (v : Q) : Prop :=
  forall eps, 0 < eps -> exists m, forall x, x <= m -> Qabs (F x - v) <= eps.

(** [v] is the (improper) integral of [g] between the points. *)
Definition integral_is (g : Q -> Q) (from to : point) (v : Q) : Prop :=
  match from, to with
  | Pt a, Pt b => exists F, antiderivative g F a b /\ v == F b - F a
  | Pt a, PInf => exists F, (forall b, a <= b -> antiderivative g F a b) /\ tends_up (fun b => F b - F a) v
  | MInf, Pt b => exists F, (forall a, a <= b -> antiderivative g F a b) /\ tends_down (fun a => F b - F a) v
  | MInf, PInf => exists F u l, (forall a b, a <= b -> antiderivative g F a b) /\
                    tends_up F u /\ tends_down F l /\ v == u - l
  | _, _ => False
  end.

(** The integrand computes [g] between the points. *)
Definition inside_points (from to : point) (x : Q) : Prop := point_lt from (Pt x) /\ point_lt (Pt x) to.
Definition computes (f : Q -> outcome fnum) (g : Q -> Q) (from to : point) : Prop :=
  forall x, inside_points from to x -> exists q, f x = Ok (Num q) /\ q == g x.

(** A rule is accurate up to [e] on the integrand [f] over the interval when weights [w] are applied. *)
Definition accurate (e : Q) (w : Q -> Q) (from to : point) (f : Q -> outcome fnum) (answer : outcome (option fnum)) : Prop :=
  forall g v, computes f g from to -> integral_is (fun x => g x * w x) from to v ->
    exists r, answer = Ok (Some (Num r)) /\ Qabs (r - v) <= e.

(** An exponential function, as far as it is needed. *)
Definition exponential (exp : Q -> Q) : Prop :=
  (forall x y, x == y -> exp x == exp y) /\ (forall x, 0 < exp x) /\ (forall x, exp x * exp (- x) == 1).

(** The integrand respects equality of rationals. *)
Definition respectful (g : Q -> Q) : Prop := forall x y, x == y -> g x == g y.

(** [r] is within [e] of [v] and a multiple of 0.01, up to half of which it was rounded. *)
Definition rounded_to (e v r : Q) : Prop := hundredths r /\ Qabs (r - v) <= e + (1 # 200).
