(** Specification for the probabilistic algorithm. *)
From Verif Require Export DescentSpec PiecewiseSpec.
From Verif Require Import ProblemModel CostModel.
Local Open Scope Z_scope.

(** Membership up to equality of rationals. *)
Definition contains (bs : list Q) (x : Q) : Prop := exists y, In y bs /\ (y == x)%Q.

(** Brent's method keeps to the interval. *)
Definition keeps_interval (brent : Q * Q -> (Q -> outcome fnum) -> outcome Q) : Prop :=
  forall a b f x, brent (a, b) f = Ok x -> (a <= x <= b)%Q.

(** A function with finite values that are not negative. *)
Definition nonnegative (p : Q -> outcome fnum) : Prop := forall x, exists q, p x = Ok (Num q) /\ (0 <= q)%Q.
