(** Specification of the costs of schedules of the memoryless algorithm, independent of its
    model. *)
From Coq Require Import Qabs.
From Verif Require Export OptimizeSpec.
Local Open Scope Z_scope.

(** The costs [F t x] of running [x] servers in slot [t] (1 <= t <= T): non-negative, convex
    and changing by at most [L] per server for at most [u] servers. *)
Record mild_costs (F : Z -> Q -> Q) (u L : Q) (T : Z) : Prop := {
  mc_eq : forall t x y, (x == y)%Q -> (F t x == F t y)%Q;
  mc_nonneg : forall t x, 1 <= t <= T -> (0 <= x <= u)%Q -> (0 <= F t x)%Q;
  mc_convex : forall t x y z, 1 <= t <= T -> (0 <= x)%Q -> (x <= y)%Q -> (y <= z)%Q -> (z <= u)%Q ->
    ((z - x) * F t y <= (z - y) * F t x + (y - x) * F t z)%Q;
  mc_slope : forall t x y, 1 <= t <= T -> (0 <= x <= u)%Q -> (0 <= y <= u)%Q -> (F t x - F t y <= L * Qabs (x - y))%Q
}.

(** Cost of using [xs] servers in the slots t, t+1, ... after [prev] servers, where changing
    from [a] to [x] servers costs [move a x]. *)
Fixpoint paid (F : Z -> Q -> Q) (move : Q -> Q -> Q) (t : Z) (prev : Q) (xs : list Q) : Q :=
  match xs with
  | [] => 0
  | x :: r => F t x + move prev x + paid F move (t + 1) x r
  end%Q.

(** Movement charged in both directions, and movement charged when servers are added. *)
Definition both_ways (b a x : Q) : Q := (b * Qabs (x - a))%Q.
Definition upwards (b a x : Q) : Q := (b * (if Qle_bool a x then x - a else 0))%Q.

(** [xs] is a schedule of [T] slots with at most [u] servers. *)
Definition plan (u : Q) (T : Z) (xs : list Q) : Prop :=
  Z.of_nat (length xs) = T /\ Forall (fun x => (0 <= x <= u)%Q) xs.

(** What is lost in a slot because answers are multiples of 0.01 which meet the constraint up
    to 0.001. *)
Definition slack (b L : Q) : Q := ((8 # 100) * b + (4 # 100) * L + (6 # 1000))%Q.
