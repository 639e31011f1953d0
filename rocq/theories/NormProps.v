(** Properties of norms (C73-C75): theorems only. *)
From Coq Require Import Qabs.
From Verif Require Import NormModel NormSpec NormProofs NormDual.
From Verif Require Import ProblemModel CostModel.
Local Open Scope Z_scope.

(** C73.  The Manhattan norm is a norm, namely the sum of the absolute values. *)
Theorem manhattan_is_norm :
  forall n, exists N, computes n manhattan N /\ is_norm n N /\
    forall x, length x = n -> (N x == sum_below n (fun i => Qabs (nth i x 0)))%Q.
Proof. exact manhattan_spec. Qed.
Print Assumptions manhattan_is_norm.

(** C73.  So is the Manhattan norm scaled by positive switching costs; coordinate [i] has half of
    its switching cost as weight. *)
Theorem manhattan_scaled_is_norm :
  forall switching_cost, Forall (fun b => 0 < b)%Q switching_cost ->
  let n := length switching_cost in
  exists N, computes n (manhattan_scaled valQ switching_cost) N /\ is_norm n N /\
    forall x, length x = n -> (N x == sum_below n (fun i => nth i switching_cost 0 / 2 * Qabs (nth i x 0)))%Q.
Proof. exact manhattan_scaled_spec. Qed.
Print Assumptions manhattan_scaled_is_norm.

(** C73.  The Euclidean norm, up to errors of the square root of at most [e]. *)
Theorem euclidean_is_norm :
  forall e sqrt, (0 <= e)%Q -> sqrt_within e sqrt -> (forall a b, (a == b)%Q -> (sqrt a == sqrt b)%Q) ->
  forall n, exists N, computes n (euclidean_norm sqrt) N /\
  forall x y, length x = n -> length y = n ->
    (0 <= N x)%Q /\ (N x * N x <= inner x x + e * e)%Q /\ (inner x x <= (N x + e) * (N x + e))%Q /\
    (forall c, (Qabs (N (mul_vec c x) - Qabs c * N x) <= (1 + Qabs c) * e)%Q) /\
    (N (add_vec x y) <= N x + N y + 3 * e)%Q.
Proof. exact euclid_norm_spec. Qed.
Print Assumptions euclidean_is_norm.

(** C74.  With an ideal maximiser the dual norm of [x] is the largest inner product of [x] with
    a vector (of coordinates that are multiples of 0.01) of norm at most 1, the answer being
    attained up to the tolerance 0.001. *)
Theorem dual_norm_largest :
  forall r nlopt, exact_maximizer r nlopt ->
  forall n norm N x, length x = n -> computes n norm N -> respects_eq Qeq N ->
  (forall z, grid_vector n z -> (N z <= 1 + (1 # 1000))%Q -> Forall (fun j => Qabs j <= r)%Q z) ->
  (N (repeat 0%Q n) <= 1)%Q ->
  exists q y, dual_norm nlopt norm (map Num x) = Ok (Num q) /\
    grid_vector n y /\ (N y <= 1 + (1 # 1000))%Q /\ (q == inner x y)%Q /\
    forall z, grid_vector n z -> (N z <= 1)%Q -> (inner x z <= q)%Q.
Proof. exact dual_best. Qed.
Print Assumptions dual_norm_largest.

(** C74.  The dual of the Manhattan norm is exactly the maximum norm. *)
Theorem dual_of_manhattan :
  forall r nlopt, exact_maximizer r nlopt -> (1 <= r)%Q ->
  forall x, exists q, dual_norm nlopt manhattan (map Num x) = Ok (Num q) /\
    (forall i, (Qabs (nth i x 0) <= q)%Q) /\
    (x <> [] -> exists i, (i < length x)%nat /\ (q == Qabs (nth i x 0))%Q) /\ (x = [] -> (q == 0)%Q).
Proof. exact dual_manhattan. Qed.
Print Assumptions dual_of_manhattan.

(** C74.  The dual of the Euclidean norm is the Euclidean norm itself, up to the factor 1.001 from
    above, and up to a hundredth of the Manhattan norm from below (and the errors of the square
    root). *)
Theorem dual_of_euclidean :
  forall r nlopt e sqrt, exact_maximizer r nlopt ->
  (0 <= e)%Q -> sqrt_within e sqrt -> (forall a b, (a == b)%Q -> (sqrt a == sqrt b)%Q) ->
  (forall q, (0 <= q <= 1)%Q -> (sqrt q <= 1)%Q) -> (1 + (1 # 1000) + e <= r)%Q ->
  forall x, let S := sum_below (length x) (fun i => nth i x 0 * nth i x 0)%Q in
  exists q, dual_norm nlopt (euclidean_norm sqrt) (map Num x) = Ok (Num q) /\
    (q * q <= (1 + (1 # 1000) + e) * (1 + (1 # 1000) + e) * S)%Q /\
    (S <= (q + (1 # 100) * sum_below (length x) (fun i => Qabs (nth i x 0))) * (sqrt S + e))%Q.
Proof. exact dual_euclidean. Qed.
Print Assumptions dual_of_euclidean.

(** C74.  Vectors with an infinite coordinate have an infinite dual norm. *)
Theorem dual_norm_infinite :
  forall nlopt norm x, ~ Forall (fun a => finite a = true) x -> dual_norm nlopt norm x = Ok PosInf.
Proof. exact dual_infinite. Qed.
Print Assumptions dual_norm_infinite.

(** C75.  The Mahalanobis distance is refused exactly for singular matrices.  Otherwise the
    value at [x] is [v . (x - mean)] with the only [v] that [q] maps to [x - mean]; it is not
    negative if [q] is positive semi-definite, and 0 exactly for [x = mean] if [q] is definite. *)
Theorem mahalanobis_value :
  forall n inverse q mean, square n q -> inverts n inverse q -> length mean = n ->
  (mahalanobis inverse q mean = Err MatrixMustBeInvertible /\ singular n q) \/
  (~ singular n q /\ exists f, mahalanobis inverse q mean = Ok f /\
   forall x, length x = n -> exists k, f x = Ok k /\
     (exists v, length v = n /\ maps_to q v (differenceQ x mean)) /\
     (forall v, length v = n -> maps_to q v (differenceQ x mean) -> (k == inner v (differenceQ x mean))%Q) /\
     (semidefinite n q -> (0 <= k)%Q) /\
     (definite n q -> ((k == 0)%Q <-> forall i, (nth i x 0 == nth i mean 0)%Q))).
Proof. exact mahalanobis_spec. Qed.
Print Assumptions mahalanobis_value.
