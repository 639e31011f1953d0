(** Specification of numerical optimisation and root finding, independent of the model
    except for the interface of the external libraries (the types [fnum], [nl_problem],
    [nl_result] and the rounding the callbacks are subject to). *)
From Verif Require Export OptimizeModel HorizonSpec.
Local Open Scope Z_scope.

(** Order and equality of floats. *)
Definition num_le (a b : fnum) : Prop :=
  match a, b with
  | NegInf, _ => True
  | _, PosInf => True
  | Num x, Num y => (x <= y)%Q
  | _, _ => False
  end.
Definition num_eq (a b : fnum) : Prop :=
  match a, b with
  | NegInf, NegInf | PosInf, PosInf => True
  | Num x, Num y => (x == y)%Q
  | _, _ => False
  end.

(** A multiple of 0.01, the precision of numerical results. *)
Definition hundredths (q : Q) : Prop := exists z, (q == z # 100)%Q.

(** Bounds which are multiples of 0.01. *)
Definition aligned (bounds : list (Q * Q)) : Prop :=
  Forall (fun b => hundredths (fst b) /\ hundredths (snd b) /\ (fst b <= snd b)%Q) bounds.

(** The points of the box with coordinates that are multiples of 0.01. *)
Definition grid (bounds : list (Q * Q)) (x : list Q) : Prop := in_boxQ bounds x /\ Forall hundredths x.

(** Values do not depend on how a rational is written. *)
Definition respects_eq {A} (eq : A -> A -> Prop) (F : list Q -> A) : Prop :=
  forall x y, Forall2 Qeq x y -> eq (F x) (F y).

(** The function [f] of the program computes [F] on the grid. *)
Definition agrees (bounds : list (Q * Q)) (f : callback) (F : list Q -> fnum) : Prop :=
  forall x, grid bounds x -> exists v, f x = Ok v /\ num_eq v (F x).

(** The point NLopt leaves in its argument. *)
Definition nl_point (r : nl_result) : list Q := match r with NlOk _ _ x | NlErr _ _ x => x end.

(** [x] is a minimiser of [F] among the points of the grid. *)
Definition grid_minimizer (bounds : list (Q * Q)) (F : list Q -> fnum) (x : list Q) : Prop :=
  grid bounds x /\ forall z, grid bounds z -> num_le (F x) (F z).

(** All constraints are at most [tol] at [x]. *)
Definition satisfies (cs : list callback) (x : list Q) (tol : Q) : Prop :=
  Forall (fun g => exists v, g x = Ok v /\ num_le v (Num tol)) cs.

(** Of the algorithms, only COBYLA supports constraints. *)
Definition supports (a : algorithm) (cs : list callback) : Prop := cs = [] \/ a = Cobyla.

(** An ideal optimiser.  Given an algorithm that supports the constraints, bounds that are
    multiples of 0.01, an initial point between them and functions which are defined there
    and look at their arguments only up to rounding, it succeeds with a point between the
    bounds and its value; if some point satisfies the constraints, the answer satisfies
    them up to the tolerance 0.001 and no point satisfying them has a smaller value. *)
Definition exact_nlopt (nlopt : nl_problem -> outcome nl_result) : Prop :=
  forall a f bounds cs x0, supports a cs ->
  aligned bounds -> in_boxQ bounds x0 ->
  (forall g, In g (f :: cs) -> forall x, g x = g (map apply_precision x)) ->
  (forall g, In g (f :: cs) -> forall x, in_boxQ bounds x -> exists v, g x = Ok v) ->
  exists s v y,
    nlopt (mkNL a Minimize f (map (fun b => (Num (fst b), Num (snd b))) bounds) cs x0) = Ok (NlOk s v y) /\
    s <> MaxEvalReached /\ s <> MaxTimeReached /\
    in_boxQ bounds y /\ f y = Ok v /\
    ((exists z, in_boxQ bounds z /\ satisfies cs z 0) ->
     satisfies cs y (1 # 1000) /\
     forall z w, in_boxQ bounds z -> satisfies cs z 0 -> f z = Ok w -> num_le v w).
