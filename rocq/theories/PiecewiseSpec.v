(** Specification used by the theorems about piecewise integration. *)
From Coq Require Import Sorted.
From Verif Require Export PiecewiseModel.
Local Open Scope Z_scope.

Definition point_le (a b : point) : Prop :=
  match a, b with
  | MInf, _ => True
  | _, PInf => True
  | Pt x, Pt y => (x <= y)%Q
  | _, _ => False
  end.
Definition point_lt (a b : point) : Prop :=
  match a, b with
  | MInf, MInf => False
  | MInf, _ => True
  | Pt _, MInf => False
  | Pt x, Pt y => (x < y)%Q
  | Pt _, PInf => True
  | PInf, _ => False
  end.
Definition point_eq (a b : point) : Prop := point_le a b /\ point_le b a.

(** The intervals [ps] follow each other without gap or overlap from [a] to [b]. *)
Fixpoint tiles (a : point) (ps : list (point * point)) (b : point) : Prop :=
  match ps with
  | [] => a = b
  | (c, e) :: r => a = c /\ point_lt c e /\ tiles e r b
  end.

(** Intervals of integration: not empty sets of points. *)
Definition interval (from to : point) : Prop := point_le from to /\ from <> PInf /\ to <> MInf.

(** Breakpoints are listed in order and the function giving further ones makes progress. *)
Definition ordered_breaks (breaks : breakpoints) : Prop :=
  StronglySorted Qlt (br_fixed breaks) /\
  match br_next breaks with
  | None => True
  | Some next => forall b, (forall l, fst (next b) = Some l -> (l < b)%Q) /\ (forall r, snd (next b) = Some r -> (b < r)%Q)
  end.

(** At least ten pieces contribute less than the precision. *)
Definition converged (integral : point -> point -> Q) (ps : list (point * point)) : Prop :=
  (10 <= length (filter (fun p => Qltb (integral (fst p) (snd p)) (1 # 100)) ps))%nat.

(** An exact quadrature: additive. *)
Definition exact_quadrature (integral : point -> point -> Q) : Prop :=
  (forall a b c, point_le a b -> point_le b c -> (integral a b + integral b c == integral a c)%Q) /\
  (forall a a' b b', point_eq a a' -> point_eq b b' -> (integral a b == integral a' b')%Q).

(** The breakpoints strictly inside the interval. *)
Definition only_inside (from to : point) (breaks : breakpoints) : breakpoints :=
  mkBreaks (filter (fun x => negb (point_leb (Pt x) from) && negb (point_leb to (Pt x))) (br_fixed breaks)) (br_next breaks).

(** Each further breakpoint is at least [d] away or a multiple of [d]. *)
Definition steps (d : Q) (next : Q -> option Q * option Q) : Prop :=
  forall b,
    (forall l, fst (next b) = Some l -> (l < b)%Q /\ ((l + d <= b)%Q \/ exists k, (l == inject_Z k * d)%Q)) /\
    (forall r, snd (next b) = Some r -> (b < r)%Q /\ ((b + d <= r)%Q \/ exists k, (r == inject_Z k * d)%Q)).

(** No two breakpoints are equal. *)
Definition distinct (bs : list Q) : Prop := ForallOrdPairs (fun x y => ~ (x == y)%Q) bs.
