(** Specification of norms, independent of their model except for the types of OptimizeSpec.v. *)
From Coq Require Import Qabs.
From Verif Require Export NormModel DescentSpec.
From Verif Require Import ProblemModel CostModel.
Local Open Scope Z_scope.

(** Sum, multiple and inner product of vectors, by coordinates. *)
Definition add_vec (x y : list Q) : list Q := map (fun i => nth i x 0 + nth i y 0)%Q (seq 0 (length x)).
Definition mul_vec (c : Q) (x : list Q) : list Q := map (fun i => c * nth i x 0)%Q (seq 0 (length x)).
Definition inner (x y : list Q) : Q := sum_below (length x) (fun i => nth i x 0 * nth i y 0)%Q.
Definition is_zero (x : list Q) : Prop := forall i, (nth i x 0 == 0)%Q.

(** [N] is a norm on the vectors of length [n]. *)
Definition is_norm (n : nat) (N : list Q -> Q) : Prop :=
  forall x y, length x = n -> length y = n ->
    (0 <= N x)%Q /\
    (is_zero x -> (N x == 0)%Q) /\ ((N x == 0)%Q -> is_zero x) /\
    (forall c, (N (mul_vec c x) == Qabs c * N x)%Q) /\
    (N (add_vec x y) <= N x + N y)%Q.

(** Square roots up to [e]. *)
Definition sqrt_within (e : Q) (sqrt : Q -> Q) : Prop :=
  forall q, (0 <= q)%Q -> (0 <= sqrt q /\ sqrt q * sqrt q <= q + e * e /\ q <= (sqrt q + e) * (sqrt q + e))%Q.

(** A vector of length [n] with coordinates that are multiples of 0.01. *)
Definition grid_vector (n : nat) (z : list Q) : Prop := length z = n /\ Forall hundredths z.

(** An ideal optimiser for maximisation without bounds.  Given functions which are defined
    everywhere and look at their arguments only up to rounding, and constraints that can be met,
    but (even with the tolerance 0.001) by coordinates between [-r] and [r] only, the answer
    satisfies them up to the tolerance, and no point satisfying them has a larger value. *)
Definition exact_maximizer (r : Q) (nlopt : nl_problem -> outcome nl_result) : Prop :=
  forall a f d cs x0, supports a cs ->
  length x0 = d ->
  (forall g, In g (f :: cs) -> forall x, g x = g (map apply_precision x)) ->
  (forall g, In g (f :: cs) -> forall x, length x = d -> exists v, g x = Ok v) ->
  (exists z, length z = d /\ satisfies cs z 0) ->
  (forall z, length z = d -> satisfies cs z (1 # 1000) -> Forall (fun j => Qabs (apply_precision j) <= r)%Q z) ->
  exists s v y,
    nlopt (mkNL a Maximize f (repeat (NegInf, PosInf) d) cs x0) = Ok (NlOk s v y) /\
    s <> MaxEvalReached /\ s <> MaxTimeReached /\
    length y = d /\ f y = Ok v /\ satisfies cs y (1 # 1000) /\
    forall z w, length z = d -> satisfies cs z 0 -> f z = Ok w -> num_le w v.

(** [m] maps [v] to [w]: every coordinate of [w] is the inner product of a row with [v]. *)
Definition maps_to (m : matrix) (v w : list Q) : Prop :=
  length w = length m /\ forall i, (i < length m)%nat -> (nth i w 0 == inner (nth i m []) v)%Q.
Definition square (n : nat) (m : matrix) : Prop := length m = n /\ Forall (fun r => length r = n) m.

(** [b] is the inverse matrix of [q]: they undo each other. *)
Definition inverse_of (n : nat) (q b : matrix) : Prop :=
  square n b /\
  forall v w, length v = n -> length w = n -> (maps_to q v w <-> maps_to b w v).
(** A vector other than 0 is mapped to 0. *)
Definition singular (n : nat) (q : matrix) : Prop :=
  exists v, length v = n /\ ~ is_zero v /\ maps_to q v (repeat 0%Q n).

(** [inverse] answers correctly for the matrix [q]. *)
Definition inverts (n : nat) (inverse : matrix -> option matrix) (q : matrix) : Prop :=
  match inverse q with Some b => inverse_of n q b | None => singular n q end.

(** Positive (semi-)definite. *)
Definition semidefinite (n : nat) (q : matrix) : Prop :=
  forall v w, length v = n -> length w = n -> maps_to q v w -> (0 <= inner v w)%Q.
Definition definite (n : nat) (q : matrix) : Prop :=
  forall v w, length v = n -> length w = n -> maps_to q v w -> ~ is_zero v -> (0 < inner v w)%Q.
