(** Numbers, infinities and outcomes shared by all model files (no proofs).

    [f64] and [N64] of the Rust code are modelled by exact rationals [Q]; a value
    that may be [f64::INFINITY] is an [ext].  There is no rounding and no NaN. *)
From Coq Require Export List ZArith QArith Qminmax Qround Bool.
Export ListNotations.
Local Open Scope Z_scope.

(** Extended non-NaN numbers: a rational or [f64::INFINITY]. *)
Inductive ext : Type :=
| Fin (q : Q)
| Inf.

(** IEEE addition restricted to finite values and +infinity. *)
Definition eadd (a b : ext) : ext :=
  match a, b with
  | Fin x, Fin y => Fin (x + y)
  | _, _ => Inf
  end.

(** [a < b] as evaluated by the Rust comparison operator. *)
Definition eltb (a b : ext) : bool :=
  match a, b with
  | Fin x, Fin y => negb (Qle_bool y x)
  | Fin _, Inf => true
  | Inf, _ => false
  end.

(** [a <= b] as evaluated by the Rust comparison operator. *)
Definition eleb (a b : ext) : bool :=
  match a, b with
  | Fin x, Fin y => Qle_bool x y
  | _, Inf => true
  | Inf, Fin _ => false
  end.

(** Strictly smaller test on rationals. *)
Definition Qltb (x y : Q) : bool := negb (Qle_bool y x).

(** Product of a (strictly positive) finite number and an extended number. *)
Definition escale (c : Q) (a : ext) : ext :=
  match a with
  | Fin x => Fin (c * x)
  | Inf => Inf
  end.

(** Order and equality of extended numbers as propositions (used by
    specifications).  Equality is up to equality of rationals. *)
Definition ele (a b : ext) : Prop :=
  match a, b with
  | Fin x, Fin y => (x <= y)%Q
  | _, Inf => True
  | Inf, Fin _ => False
  end.

Definition elt (a b : ext) : Prop :=
  match a, b with
  | Fin x, Fin y => (x < y)%Q
  | Fin _, Inf => True
  | Inf, _ => False
  end.

Definition eeq (a b : ext) : Prop :=
  match a, b with
  | Fin x, Fin y => (x == y)%Q
  | Inf, Inf => True
  | _, _ => False
  end.

Definition is_fin (a : ext) : Prop := match a with Fin _ => True | Inf => False end.

(** src/result.rs:7-30 -- the error values of the library (payloads that are
    only used for error messages are dropped). *)
Inductive failure : Type :=
| Invalid
| MatrixMustBeInvertible
| OnlineInconsistentCurrentTimeSlot
| OnlineOutOfDateMemory
| UnsupportedInvertedCost
| UnsupportedLConstrainedMovement
| UnsupportedPredictionWindow
| UnsupportedProblemDimension.

(** Result of a Rust call: a value, an [Err], or a panic. *)
Inductive outcome (A : Type) : Type :=
| Ok (a : A)
| Err (f : failure)
| Panic.
Arguments Ok {A} a.
Arguments Err {A} f.
Arguments Panic {A}.

(** The [?] operator / sequencing; a panic aborts as well. *)
Definition obind {A B} (m : outcome A) (k : A -> outcome B) : outcome B :=
  match m with
  | Ok a => k a
  | Err f => Err f
  | Panic => Panic
  end.

Notation "'do' x <- m ; k" := (obind m (fun x => k))
  (at level 200, x name, m at level 100, k at level 200).

(** [unwrap] / indexing: a missing value panics. *)
Definition from_option {A} (o : option A) : outcome A :=
  match o with Some a => Ok a | None => Panic end.

(** The integers [a, a+1, ..., b] ([a..=b] in Rust). *)
Definition zrange (a b : Z) : list Z :=
  map (fun i => a + Z.of_nat i) (seq 0 (Z.to_nat (b - a + 1))).

(** Sum of a list of rationals. *)
Fixpoint Qsum (l : list Q) : Q :=
  match l with
  | [] => 0
  | x :: r => (x + Qsum r)%Q
  end.

(** src/utils.rs:47-52 -- [pos]: max(0, x), on integers and on rationals. *)
Definition zpos (x : Z) : Z := Z.max 0 x.
Definition qpos (x : Q) : Q := if Qltb x 0 then 0%Q else x.

(** src/utils.rs:67-74 -- [access]: 1-based access. *)
Definition access {A} (xs : list A) (i : Z) : option A :=
  if (1 <=? i) && (i <=? Z.of_nat (length xs))
  then nth_error xs (Z.to_nat (i - 1)) else None.

(** src/utils.rs:62-65 -- [is_pow_of_2]: x != 0 && x & (x-1) == 0 (bitwise and,
    two's complement; unbounded integers here). *)
Definition is_pow_of_2 (x : Z) : bool :=
  negb (x =? 0) && (Z.land x (x - 1) =? 0).

(** src/numerics/mod.rs:9 -- [PRECISION]. *)
Definition PRECISION : Q := 1 # 100.
(** [f64::round]: to the nearest integer, half-way cases away from zero. *)
Definition round (x : Q) : Z :=
  if Qltb x 0 then - Qfloor (- x + (1 # 2)) else Qfloor (x + (1 # 2)).
(** src/numerics/mod.rs:17-21 -- [apply_precision]; for vectors (22-29) entry by entry. *)
Definition apply_precision (x : Q) : Q := inject_Z (round (x / PRECISION)) * PRECISION.
