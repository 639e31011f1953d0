(** What the theorems about rounding say: numbers of a floating-point format, roundings to them, and
    the relative error of a computed cost.  Costs are non-negative. *)
From Verif Require Export FloatModel GraphSearchSpec.
Local Open Scope Q_scope.

(** The non-negative numbers of binary64 (IEEE 754) without an upper bound of exponents:
    [m * 2^e] with a significand of 53 bits and [e >= -1074]. *)
Definition binary64_number (x : Q) : Prop :=
  exists m e : Z, (0 <= m <= 2 ^ 53)%Z /\ (-1074 <= e)%Z /\ x == inject_Z m * Qpower 2 e.

(** [rnd] rounds to the numbers [F] with the relative error [u]; products below [small] may lose
    more (gradual underflow), sums do not. *)
Record rounds (rnd : Q -> Q) (F : Q -> Prop) (u small : Q) : Prop := mkRounds {
  r_unit : 0 <= u /\ u < 1;
  r_small : 0 < small;
  r_compat : forall x y, x == y -> F x -> F y;
  r_nonneg : forall x, F x -> 0 <= x;
  r_zero : F 0;
  r_small_in : F small;
  r_in : forall x, 0 <= x -> F (rnd x);
  r_keeps : forall x, F x -> rnd x == x;
  r_mono : forall x y, 0 <= x -> x <= y -> rnd x <= rnd y;
  r_sum : forall x y, F x -> F y -> (1 - u) * (x + y) <= rnd (x + y) /\ rnd (x + y) <= (1 + u) * (x + y);
  r_normal : forall x, small <= x -> (1 - u) * x <= rnd x /\ rnd x <= (1 + u) * x
}.

(** [computed] is [exact] up to [n] relative errors of [u]; both are infinite or none is. *)
Definition up_to_rounding (u : Q) (n : Z) (exact computed : ext) : Prop :=
  match exact, computed with
  | Fin c, Fin c' => Qpower (1 - u) n * c <= c' /\ c' <= Qpower (1 + u) n * c
  | Inf, Inf => True
  | _, _ => False
  end.

(** [computed] is at most [exact] up to [n] relative errors of [u]. *)
Definition at_most_rounding (u : Q) (n : Z) (computed exact : ext) : Prop :=
  match computed, exact with
  | Fin c', Fin c => c' <= Qpower (1 + u) n * c
  | _, Inf => True
  | Inf, Fin _ => False
  end.

(** Zero or large enough not to underflow. *)
Definition no_underflow (small x : Q) : Prop := x == 0 \/ small <= x.

(** An instance whose costs are numbers of the format: finite hitting costs and switching costs are
    such numbers, and switching costs, also scaled, do not underflow. *)
Definition representable_instance {C D} (F : Q -> Prop) (small alpha : Q) (p : ssco C D) : Prop :=
  (forall t x, inside (s_bounds p) x = true ->
     match c_cost (s_hit p t x) with Fin q => F q | Inf => True end) /\
  Forall (fun b => F b /\ no_underflow small b /\ no_underflow small (alpha * b)) (s_switching p).

(** Largest number of roundings on the way of a cost through the graph search: [T] time slots and
    grids with [S] steps in total; powering up (and, inverted, down) takes one rounding per step. *)
Definition search_roundings (T S : Z) (inverted : bool) : Z :=
  2 + T * (1 + S + (if inverted then S else 0)).
