(** Model of src/problem.rs, src/cost.rs (aggregation part) and src/model/mod.rs
    (outputs): problems, movement costs and objective functions.  No proofs. *)
From Verif Require Export Num.
Local Open Scope Z_scope.

(** src/model/mod.rs:47-53 -- [ModelOutput]. *)
Inductive model_output (C D : Type) : Type :=
| MSuccess (c : C)
| MFailure (d : D)
| MNone.
Arguments MSuccess {C D} c.
Arguments MFailure {C D} d.
Arguments MNone {C D}.

(** src/cost.rs:12-20 -- [Cost]: a number with the model's output. *)
Record cost (C D : Type) : Type := mkCost {
  c_cost : ext;
  c_out : model_output C D
}.
Arguments mkCost {C D} c_cost c_out.
Arguments c_cost {C D} c.
Arguments c_out {C D} c.

Section Outputs.
  Context {C D : Type}.
  (** [ModelOutputSuccess::horizontal_merge] resp. [vertical_merge]. *)
  Variable merge : C -> C -> C.

  (** src/model/mod.rs:76-88 and 96-108 -- the closure given to [reduce] in
      [horizontal_reduce] and [vertical_reduce] (they differ in [merge] only). *)
  Definition merge_output (result output : model_output C D) : model_output C D :=
    match result with
    | MFailure r => MFailure r
    | MSuccess r =>
        match output with
        | MFailure o => MFailure o
        | MSuccess o => MSuccess (merge r o)
        | MNone => MSuccess r
        end
    | MNone => output
    end.

  (** src/model/mod.rs:72-90 -- [horizontal_reduce] ([vertical_reduce] 92-110):
      panics on an empty vector, otherwise a left fold. *)
  Definition reduce_outputs (outputs : list (model_output C D))
    : outcome (model_output C D) :=
    match outputs with
    | [] => Panic
    | o :: os => Ok (fold_left merge_output os o)
    end.

  (** src/cost.rs:56-67 -- [Cost::default]. *)
  Definition cost_default : cost C D := mkCost (Fin 0) MNone.

  (** src/cost.rs:74-80 -- the closure adding two costs.  [horizontal_reduce] is
      called on a two-element vector, so it cannot panic. *)
  Definition cost_add (result value : cost C D) : cost C D :=
    mkCost (eadd (c_cost result) (c_cost value))
           (merge_output (c_out result) (c_out value)).

  (** src/cost.rs:73-82 -- [Sum for Cost]: reduce, or the default if empty. *)
  Definition cost_sum (l : list (cost C D)) : cost C D :=
    match l with
    | [] => cost_default
    | c :: cs => fold_left cost_add cs c
    end.

  (** How rayon may divide the work of a parallel sum: a leaf processes its
      items sequentially, an inner node gives the first [n] items to its left
      child and the rest to its right child. *)
  Inductive split : Type :=
  | Leaf
  | Node (n : nat) (l r : split).

  (** rayon's [sum] consumer: a leaf folds its items after the empty sum, the
      reducer adds the two partial sums (in order). *)
  Fixpoint par_sum (s : split) (l : list (cost C D)) : cost C D :=
    match s with
    | Leaf => cost_add (cost_sum []) (cost_sum l)
    | Node n a b => cost_add (par_sum a (firstn n l)) (par_sum b (skipn n l))
    end.
End Outputs.

(** src/problem.rs:78-209 -- the [Problem] trait: what an objective function needs. *)
Record problem (X C D : Type) : Type := mkProblem {
  p_tend : Z;
  p_hit : Z -> X -> cost C D;        (* hit_cost(t, x) *)
  p_move : X -> X -> bool -> Q       (* movement(prev_x, x, inverted) *)
}.
Arguments mkProblem {X C D} p_tend p_hit p_move.
Arguments p_tend {X C D} p.
Arguments p_hit {X C D} p t x.
Arguments p_move {X C D} p prev_x x inverted.

Section Objective.
  Context {X C D : Type}.
  Variable merge : C -> C -> C.

  (** src/problem.rs:493-494 -- [xs.get(t).unwrap_or(default)]. *)
  Definition get_or (xs : list X) (default : X) (t : Z) : X :=
    match access xs t with Some x => x | None => default end.

  (** src/problem.rs:479-498 -- [sum_over_schedule]; [s] is the division of the
      range [1..=t_end] chosen by rayon. *)
  Definition sum_over_schedule (s : split) (t_end : Z) (xs : list X) (default : X)
      (f : Z -> X -> X -> cost C D) : cost C D :=
    par_sum merge s
      (map (fun t => f t (get_or xs default (t - 1)) (get_or xs default t))
           (zrange 1 t_end)).

  (** src/problem.rs:171-182 -- the summand of the objective function. *)
  Definition step_cost (p : problem X C D) (alpha : Q) (inverted : bool)
      (t : Z) (prev_x x : X) : cost C D :=
    let hitting_cost :=
      if p_tend p <? t then cost_default else p_hit p t x in
    mkCost (eadd (c_cost hitting_cost) (Fin (alpha * p_move p prev_x x inverted)))
           (c_out hitting_cost).

  (** src/problem.rs:160-183 -- [_objective_function_with_default]. *)
  Definition objective_with_default (s : split) (p : problem X C D) (xs : list X)
      (default : X) (alpha : Q) (inverted : bool) (t_end : Z) : cost C D :=
    sum_over_schedule s t_end xs default (step_cost p alpha inverted).

  (** src/problem.rs:90-102 -- [objective_function] ([default] is the zero
      configuration, see [zero_config]). *)
  Definition objective_function (s : split) (p : problem X C D) (zero : X)
      (xs : list X) : cost C D :=
    objective_with_default s p xs zero 1 false (p_tend p).

  (** src/problem.rs:106-121 -- [inverted_objective_function]. *)
  Definition inverted_objective_function (s : split) (p : problem X C D) (zero : X)
      (xs : list X) : cost C D :=
    objective_with_default s p xs zero 1 true (p_tend p).

  (** src/problem.rs:124-140 -- [alpha_unfair_objective_function]. *)
  Definition alpha_unfair_objective_function (s : split) (p : problem X C D) (zero : X)
      (xs : list X) (alpha : Q) : cost C D :=
    objective_with_default s p xs zero alpha false (p_tend p).

  (** src/problem.rs:186-201 -- [total_movement]; the summand is a [RawCost]
      ([cost.rs:32-37]); only its number is returned. *)
  Definition total_movement (s : @split) (p : problem X C D) (zero : X)
      (xs : list X) (inverted : bool) : ext :=
    c_cost (par_sum (fun _ _ : unit => tt) s
      (map (fun t => @mkCost unit unit
                (Fin (p_move p (get_or xs zero (t - 1)) (get_or xs zero t) inverted))
                (MSuccess tt))
           (zrange 1 (p_tend p)))).
End Objective.

(** src/problem.rs:203-208 -- [_default_config]: the zero configuration. *)
Definition zero_config (d : Z) : list Z := repeat 0 (Z.to_nat d).
Definition zero_configQ (d : Z) : list Q := repeat 0%Q (Z.to_nat d).

(** Values of type [i32]/[f64]; configurations are vectors of them.  [toQ] is
    the [NumCast] to a float.  Differences are taken after the cast, which gives
    the same number in exact arithmetic. *)
Section Movement.
  Context {T : Type}.
  Variable toQ : T -> Q.

  (** src/problem.rs:501-506 -- [scalar_movement]. *)
  Definition scalar_movement (j prev_j : T) (inverted : bool) : Q :=
    qpos (if inverted then toQ prev_j - toQ j else toQ j - toQ prev_j).

  (** src/problem.rs:509-539 -- [movement] and [scaled_movement].  The Rust code
      indexes [prev_x] and [switching_cost] by the dimensions of [x] and panics if
      one is too short. *)
  Fixpoint scaled_movement_o (switching_cost : list Q) (x prev_x : list T)
      (inverted : bool) : outcome Q :=
    match x with
    | [] => Ok 0%Q
    | j :: x' =>
        match prev_x, switching_cost with
        | i :: prev_x', b :: switching_cost' =>
            do r <- scaled_movement_o switching_cost' x' prev_x' inverted;
            Ok (b * scalar_movement j i inverted + r)%Q
        | _, _ => Panic
        end
    end.

  (** Total version used inside objectives: agrees with [scaled_movement_o]
      whenever that does not panic (lemma [scaled_movement_ok]). *)
  Fixpoint scaled_movement (switching_cost : list Q) (x prev_x : list T)
      (inverted : bool) : Q :=
    match x, prev_x, switching_cost with
    | j :: x', i :: prev_x', b :: switching_cost' =>
        (b * scalar_movement j i inverted
         + scaled_movement switching_cost' x' prev_x' inverted)%Q
    | _, _, _ => 0%Q
    end.
End Movement.

(** src/cost.rs:314-335 -- [DecisionSpace::within] for a vector of upper bounds
    resp. of (lower, upper) pairs.  Rust panics when the lengths differ; the
    model answers [false], and theorems only use configurations of the right
    dimension. *)
Fixpoint within (bounds : list Z) (x : list Z) : bool :=
  match bounds, x with
  | [], [] => true
  | u :: bs, j :: x' => (0 <=? j) && (j <=? u) && within bs x'
  | _, _ => false
  end.

Fixpoint withinQ (bounds : list Q) (x : list Q) : bool :=
  match bounds, x with
  | [], [] => true
  | u :: bs, j :: x' => Qle_bool 0 j && Qle_bool j u && withinQ bs x'
  | _, _ => false
  end.

Fixpoint within2Q (bounds : list (Q * Q)) (x : list Q) : bool :=
  match bounds, x with
  | [], [] => true
  | (l, u) :: bs, j :: x' => Qle_bool l j && Qle_bool j u && within2Q bs x'
  | _, _ => false
  end.

Fixpoint within2 (bounds : list (Z * Z)) (x : list Z) : bool :=
  match bounds, x with
  | [], [] => true
  | (l, u) :: bs, j :: x' => (l <=? j) && (j <=? u) && within2 bs x'
  | _, _ => false
  end.

(** src/problem.rs:311-323 -- integral SSCO.  [s_hit t x] stands for
    [hitting_cost.call_mean(t, x)]; see CostModel.v for [CostFn] itself. *)
Record ssco (C D : Type) : Type := mkSSCO {
  s_d : Z;
  s_tend : Z;
  s_bounds : list Z;
  s_switching : list Q;
  s_hit : Z -> list Z -> cost C D
}.
Arguments mkSSCO {C D} s_d s_tend s_bounds s_switching s_hit.
Arguments s_d {C D} s.
Arguments s_tend {C D} s.
Arguments s_bounds {C D} s.
Arguments s_switching {C D} s.
Arguments s_hit {C D} s t x.

Section SSCO.
  Context {C D : Type}.
  Variable outside : D.     (* D::outside_decision_space() *)

  (** src/problem.rs:332-335, src/cost.rs:229-246 -- [hit_cost] of SSCO. *)
  Definition ssco_hit_cost (p : ssco C D) (t : Z) (x : list Z) : cost C D :=
    if within (s_bounds p) x then s_hit p t x else mkCost Inf (MFailure outside).

  (** src/problem.rs:337-339 -- [movement] of SSCO. *)
  Definition ssco_movement (p : ssco C D) (prev_x x : list Z) (inverted : bool) : Q :=
    scaled_movement inject_Z (s_switching p) x prev_x inverted.

  Definition ssco_problem (p : ssco C D) : problem (list Z) C D :=
    mkProblem (s_tend p) (ssco_hit_cost p) (ssco_movement p).
End SSCO.
