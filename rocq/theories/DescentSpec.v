(** Specification of the algorithms based on convex optimisation, independent of their
    model. *)
From Coq Require Import Qabs.
From Verif Require Export OptimizeSpec.
From Verif Require Import ProblemModel CostModel.
Local Open Scope Z_scope.

(** In slot [t] configurations within the bounds cost [H x], with certainty. *)
Definition charges {C D} (cf : cost_fn (list Q) C D) (bounds : list (Q * Q)) (t : Z) (H : list Q -> ext) : Prop :=
  forall x, in_boxQ bounds x -> exists c, call_certain cf t x = Ok c /\ eeq (c_cost c) (H x).

(** The function [f] of the program computes [F] on the vectors of length [n]. *)
Definition computes (n : nat) (f : list Q -> outcome Q) (F : list Q -> Q) : Prop :=
  forall x, length x = n -> exists q, f x = Ok q /\ (q == F x)%Q.

(** The configuration in use before the current slot: the last one of the schedule, at the
    beginning the zero configuration. *)
Definition previous (d : nat) (xs : list (list Q)) : list Q := last xs (repeat 0%Q d).

(** [v] is a cheapest configuration (on the grid). *)
Definition cheapest (bounds : list (Q * Q)) (H : list Q -> ext) (v : list Q) : Prop :=
  grid bounds v /\ forall z, grid bounds z -> ele (H v) (H z).

(** [x] has a cost of at most [l] and is a closest such configuration, as measured by [B]. *)
Definition closest (bounds : list (Q * Q)) (H : list Q -> ext) (B : list Q -> Q) (l : Q) (x : list Q) : Prop :=
  grid bounds x /\ ele (H x) (Fin l) /\
  forall z, grid bounds z -> ele (H z) (Fin l) -> (B x <= B z)%Q.

(** One step of balanced descent to the level [l]: to a closest configuration of cost at
    most [l], or else to a cheapest configuration.  The former, if there are configurations
    of cost at most [l] and those which exceed [l] do so by more than the tolerance 0.001
    of the optimiser. *)
Definition descends (bounds : list (Q * Q)) (H : list Q -> ext) (B : list Q -> Q) (l : Q) (x : list Q) : Prop :=
  (closest bounds H B l x \/ cheapest bounds H x) /\
  ((exists z, grid bounds z /\ ele (H z) (Fin l)) ->
   (forall z, grid bounds z -> ele (H z) (Fin (l + (1 # 1000))) -> ele (H z) (Fin l)) ->
   closest bounds H B l x).

(** Sum of [f i] for [i < n]. *)
Definition sum_below (n : nat) (f : nat -> Q) : Q := fold_right (fun i a => (f i + a)%Q) 0%Q (seq 0 n).

(** [x] with [h] added to coordinate [i], and the slope of [F] in that direction as estimated
    with the step [eps] to both sides. *)
Definition moved (x : list Q) (i : nat) (h : Q) : list Q :=
  firstn i x ++ (nth i x 0 + h)%Q :: skipn (S i) x.
Definition slope (eps : Q) (F : list Q -> Q) (x : list Q) (i : nat) : Q :=
  ((F (moved x i eps) - F (moved x i (- eps))) / (2 * eps))%Q.

(** Bregman divergence of [y] from [x]. *)
Definition divergence (eps : Q) (h : list Q -> Q) (x y : list Q) : Q :=
  (h y - h x - sum_below (length x) (fun i => slope eps h x i * (nth i y 0 - nth i x 0)))%Q.

(** Squared Euclidean distance, and the sum of the absolute differences. *)
Definition distance2 (x y : list Q) : Q :=
  sum_below (length x) (fun i => (nth i y 0 - nth i x 0) * (nth i y 0 - nth i x 0))%Q.
Definition distance1 (x y : list Q) : Q :=
  sum_below (length x) (fun i => Qabs (nth i y 0 - nth i x 0))%Q.

(** The answer [l] of root finding for [F] on [a, b], see [find_root_partial]. *)
Definition balances (a b : Q) (F : Q -> Q) (found : Q -> Prop) (l : Q) : Prop :=
  (b - a < 1 # 100)%Q /\ l = a \/
  ((l = a \/ l = b) /\ (Qabs (F l) < 10)%Q) \/
  ((l = a \/ l = b) /\ (0 < F a * F b)%Q /\ (Qabs (F l) <= Qabs (F a))%Q /\ (Qabs (F l) <= Qabs (F b))%Q) \/
  ((F a * F b <= 0)%Q /\ (10 <= Qabs (F a))%Q /\ (10 <= Qabs (F b))%Q /\
   exists x, found x /\ hundredths l /\ (Qabs (l - x) <= 1 # 200)%Q).

(** Cost of moving along the configurations [ys] of the slots 1, 2, ... from the zero
    configuration, and on to [x]; movement is weighted by [theta]. *)
Definition work_cost (H : Z -> list Q -> ext) (N : list Q -> Q) (d : nat) (theta : Q) (ys : list (list Q)) (x : list Q) : ext :=
  eadd (total_cost H (fun prev x => N (differenceQ x prev)) theta 1 (repeat 0%Q d) ys)
       (Fin (theta * N (differenceQ x (previous d ys)))).

(** [w] is the least cost of [n] slots and a final move to [x]. *)
Definition least_work (bounds : list (Q * Q)) (H : Z -> list Q -> ext) (N : list Q -> Q) (theta : Q) (n : nat) (x : list Q) (w : ext)
    : Prop :=
  (exists ys, length ys = n /\ Forall (grid bounds) ys /\ eeq w (work_cost H N (length bounds) theta ys x)) /\
  (forall ys, length ys = n -> Forall (grid bounds) ys -> ele w (work_cost H N (length bounds) theta ys x)).

(** The optimiser keeps to the bounds. *)
Definition keeps_bounds (nlopt : nl_problem -> outcome nl_result) : Prop :=
  forall p r, nlopt p = Ok r ->
  Forall2 (fun b j => num_le (fst b) (Num j) /\ num_le (Num j) (snd b)) (nl_bounds p) (nl_point r).
