(** Property theorems: numerical integration (C70) and differentiation (C71). *)
From Coq Require Import Qabs.
From Verif Require Import OptimizeSpec PiecewiseModel PiecewiseSpec QuadratureModel QuadratureSpec QuadratureProofs.
Local Open Scope Q_scope.

(** The specification determines the integral. *)
Theorem integral_determined : forall g from to u v,
  match from, to with Pt a, Pt b => a <= b | _, _ => True end ->
  integral_is g from to u -> integral_is g from to v -> u == v.
Proof. exact integral_unique. Qed.
Print Assumptions integral_determined.

(** C70: over a bounded interval the answer is the integral, up to the error of the rule and the
    rounding to 0.01. *)
Theorem integral_bounded :
  forall exp tanh_sinh laguerre hermite e f g a b v,
  accurate e (fun _ => 1) (Pt a) (Pt b) f (tanh_sinh a b f) ->
  computes f g (Pt a) (Pt b) -> integral_is g (Pt a) (Pt b) v ->
  exists r, integral exp tanh_sinh laguerre hermite (Pt a) (Pt b) f = Ok (Num r) /\ rounded_to e v r.
Proof. exact finite_answer. Qed.
Print Assumptions integral_bounded.

(** C70: likewise over half lines, where the rule used integrates with weights exp(-x). *)
Theorem integral_to_infinity :
  forall exp tanh_sinh laguerre hermite e f g, exponential exp -> forall a v,
  (let integrand x := do y <- f (a + x); nscale (exp x) y in
   accurate e (fun x => exp (- x)) (Pt 0) PInf integrand (laguerre integrand)) ->
  respectful g -> computes f g (Pt a) PInf -> integral_is g (Pt a) PInf v ->
  exists r, integral exp tanh_sinh laguerre hermite (Pt a) PInf f = Ok (Num r) /\ rounded_to e v r.
Proof. exact right_answer. Qed.
Print Assumptions integral_to_infinity.

Theorem integral_from_minus_infinity :
  forall exp tanh_sinh laguerre hermite e f g, exponential exp -> forall b v,
  (let integrand x := do y <- f (b - x); nscale (exp x) y in
   accurate e (fun x => exp (- x)) (Pt 0) PInf integrand (laguerre integrand)) ->
  respectful g -> computes f g MInf (Pt b) -> integral_is g MInf (Pt b) v ->
  exists r, integral exp tanh_sinh laguerre hermite MInf (Pt b) f = Ok (Num r) /\ rounded_to e v r.
Proof. exact left_answer. Qed.
Print Assumptions integral_from_minus_infinity.

(** C70: over the whole line the weights exp(-x^2) of the rule used are not undone: the answer is the
    integral of the integrand times these weights. *)
Theorem integral_whole_line_partial :
  forall exp tanh_sinh laguerre hermite e f g v,
  accurate e (fun x => exp (- (x * x))) MInf PInf f (hermite f) -> computes f g MInf PInf ->
  integral_is (fun x => g x * exp (- (x * x))) MInf PInf v ->
  exists r, integral exp tanh_sinh laguerre hermite MInf PInf f = Ok (Num r) /\ rounded_to e v r.
Proof. exact whole_answer. Qed.
Print Assumptions integral_whole_line_partial.

(** C70: so integrands without mass between -1 and 1 get at most half of their integral. *)
Theorem integral_whole_line_too_small :
  forall exp tanh_sinh laguerre hermite e f g, exponential exp -> forall v v',
  accurate e (fun x => exp (- (x * x))) MInf PInf f (hermite f) -> computes f g MInf PInf ->
  (forall x y, x <= y -> exp x <= exp y) -> 2 <= exp 1 ->
  (forall x, 0 <= g x) -> (forall x, Qabs x < 1 -> g x == 0) ->
  integral_is g MInf PInf v -> integral_is (fun x => g x * exp (- (x * x))) MInf PInf v' ->
  exists r, integral exp tanh_sinh laguerre hermite MInf PInf f = Ok (Num r) /\ r <= v * (1 # 2) + e + (1 # 200).
Proof. exact whole_too_small. Qed.
Print Assumptions integral_whole_line_too_small.

(** C70, C41: piecewise integration adds up the errors of its pieces, as long as fewer than ten
    pieces on either side are small. *)
Theorem piecewise_error_adds_up :
  forall I J delta breaks fuel from to l r,
  exact_quadrature J -> (forall a b, point_lt a b -> Qabs (I a b - J a b) <= delta) ->
  ordered_breaks breaks -> interval from to -> piecewise I breaks fuel from to = Some (l, r) ->
  ~ converged I l -> ~ converged I r ->
  exists v, piecewise_integral I breaks fuel from to = Some v /\
    Qabs (v - J from to) <= inject_Z (Z.of_nat (length l + length r)) * delta.
Proof. exact piecewise_error. Qed.
Print Assumptions piecewise_error_adds_up.

(** C71: derivatives are those of the library, rounded to 0.01; 0 if they are not a number, and
    infinite where the function is. *)
Theorem derivative_answers :
  forall diff f x,
  (forall q d, f x = Ok (Num q) -> diff f x = Ok (Some (Num d)) -> exists r, derivative diff f x = Ok (Num r) /\ rounded_to 0 d r) /\
  (forall q, f x = Ok (Num q) -> diff f x = Ok None -> derivative diff f x = Ok (Num 0)) /\
  (f x = Ok PosInf \/ f x = Ok NegInf -> derivative diff f x = Ok PosInf) /\
  (f x = Panic -> derivative diff f x = Panic).
Proof. exact derivative_cases. Qed.
Print Assumptions derivative_answers.
