(** Properties of numerical optimisation (C55) and root finding (C56): theorems only. *)
From Coq Require Import Qabs.
From Verif Require Import OptimizeModel OptimizeSpec OptimizeProofs.
From Verif Require Import ProblemModel CostModel.
Local Open Scope Z_scope.

(** C55.  With an ideal optimiser and bounds that are multiples of 0.01, minimisation
    answers a multiple of 0.01 between the bounds and its value; if some such point
    satisfies the constraints [G <= 0], the answer satisfies them up to 0.001 and no such
    point satisfying them has a smaller value. *)
Theorem minimize_best_on_grid :
  forall nlopt, exact_nlopt nlopt ->
  forall f F bounds init cs Gs,
  aligned bounds ->
  (init = None \/ exists x0, init = Some x0 /\ in_boxQ bounds x0) ->
  agrees bounds f F -> respects_eq num_eq F ->
  Forall2 (agrees bounds) cs Gs -> Forall (respects_eq num_eq) Gs ->
  exists x v, minimize nlopt f bounds init cs = Ok (x, v) /\
    grid bounds x /\ map apply_precision x = x /\ f x = Ok v /\ num_eq v (F x) /\
    ((exists z, grid bounds z /\ Forall (fun G => num_le (G z) (Num 0)) Gs) ->
     Forall (fun G => num_le (G x) (Num (1 # 1000))) Gs /\
     forall z, grid bounds z -> Forall (fun G => num_le (G z) (Num 0)) Gs -> num_le (F x) (F z)).
Proof. exact minimize_spec. Qed.
Print Assumptions minimize_best_on_grid.

(** C55.  With any optimiser that keeps to the bounds, the answer consists of multiples of
    0.01 that exceed the bounds by at most 0.005, and not at all if the bounds are
    multiples of 0.01. *)
Theorem minimize_near_bounds :
  forall nlopt f bounds init cs x v,
  (forall p r, nlopt p = Ok r ->
     Forall2 (fun b j => num_le (fst b) (Num j) /\ num_le (Num j) (snd b)) (nl_bounds p) (nl_point r)) ->
  minimize nlopt f bounds init cs = Ok (x, v) ->
  Forall hundredths x /\
  Forall2 (fun b j => (fst b - (1 # 200) <= j <= snd b + (1 # 200))%Q) bounds x /\
  (aligned bounds -> in_boxQ bounds x).
Proof. exact near_bounds. Qed.
Print Assumptions minimize_near_bounds.

(** C55.  Whatever the optimiser does: an answer is the rounding of its point; the value is
    infinite if it ran out of evaluations or time, otherwise it is the optimiser's value. *)
Theorem minimize_reports :
  forall nlopt f bounds init cs x v,
  minimize nlopt f bounds init cs = Ok (x, v) ->
  exists x0 r y,
    nlopt (mkNL (choose_algorithm (length cs)) Minimize (evaluate f) (num_bounds bounds) (map evaluate cs) x0) = Ok r /\
    x = map apply_precision y /\
    ((exists opt, (r = NlOk MaxEvalReached opt y \/ r = NlOk MaxTimeReached opt y) /\ v = PosInf) \/
     (exists s, s <> MaxEvalReached /\ s <> MaxTimeReached /\ r = NlOk s v y) \/
     r = NlErr RoundoffLimited v y).
Proof. exact minimize_any. Qed.
Print Assumptions minimize_reports.

(** C55.  Failures of the optimiser other than limited accuracy are panics. *)
Theorem minimize_failure_panics :
  forall nlopt f bounds init cs x0 s opt y,
  (init = None /\ x0 = map snd bounds \/ init = Some x0 /\ length x0 = length bounds) ->
  nlopt (mkNL (choose_algorithm (length cs)) Minimize (evaluate f) (num_bounds bounds) (map evaluate cs) x0)
    = Ok (NlErr s opt y) ->
  s <> RoundoffLimited ->
  minimize nlopt f bounds init cs = Panic.
Proof. exact minimize_fails. Qed.
Print Assumptions minimize_failure_panics.

(** C56.  If Brent's method keeps to the interval, the answer of root finding exceeds it by
    at most 0.005. *)
Theorem find_root_interval :
  forall brent a b f r,
  (a <= b)%Q ->
  (forall x, brent (a, b) f = Ok x -> (a <= x <= b)%Q) ->
  find_root brent a b f = Ok r -> (a - (1 # 200) <= r <= b + (1 # 200))%Q.
Proof. exact find_root_near. Qed.
Print Assumptions find_root_interval.

(** C56.  The answer is: the left end of an interval shorter than 0.01; or an end at which
    the function is less than 10 in absolute value; or, if the function has the same sign at
    both ends, the end where it is closer to 0; or the root found by Brent's method, rounded
    to 0.01.  Partial: the property asks for a root, see [find_root_refuted]. *)
Theorem find_root_partial :
  forall brent a b (f : Q -> outcome fnum) (F : Q -> Q) r,
  (forall x, (a <= x <= b)%Q -> f x = Ok (Num (F x))) -> (a <= b)%Q ->
  find_root brent a b f = Ok r ->
  (b - a < 1 # 100)%Q /\ r = a \/
  ((r = a \/ r = b) /\ (Qabs (F r) < 10)%Q) \/
  ((r = a \/ r = b) /\ (0 < F a * F b)%Q /\ (Qabs (F r) <= Qabs (F a))%Q /\ (Qabs (F r) <= Qabs (F b))%Q) \/
  ((F a * F b <= 0)%Q /\ (10 <= Qabs (F a))%Q /\ (10 <= Qabs (F b))%Q /\
   exists x, brent (a, b) f = Ok x /\ hundredths r /\ (Qabs (r - x) <= 1 # 200)%Q).
Proof. exact find_root_finite. Qed.
Print Assumptions find_root_partial.
