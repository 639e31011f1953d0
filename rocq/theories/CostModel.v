(** Model of src/cost.rs ([Cost::mean], [SingleCostFn], [CostFn], decision spaces) and of
    src/value.rs, and objective functions whose parts may panic.  No proofs. *)
From Verif Require Export ProblemModel.
Local Open Scope Z_scope.

(** src/value.rs:8-23 -- the part of the [Value] trait that is used: conversion to a
    float ([NumCast]), zero and subtraction, together with the two instances. *)
Record value (T : Type) : Type := mkValue {
  v_toQ : T -> Q;
  v_zero : T;
  v_sub : T -> T -> T
}.
Arguments mkValue {T} v_toQ v_zero v_sub.
Arguments v_toQ {T} v x.
Arguments v_zero {T} v.
Arguments v_sub {T} v x y.

Definition valZ : value Z := mkValue inject_Z 0 Z.sub.
Definition valQ : value Q := mkValue (fun x => x) 0%Q Qminus.

(** Comparison [x <= y] of values ([PartialOrd]). *)
Definition v_leb {T} (v : value T) (x y : T) : bool := Qle_bool (v_toQ v x) (v_toQ v y).

(** Running a list of computations in order. *)
Fixpoint omap {A B} (f : A -> outcome B) (l : list A) : outcome (list B) :=
  match l with
  | [] => Ok []
  | a :: r => do b <- f a; do bs <- omap f r; Ok (b :: bs)
  end.

Section Reduce.
  Context {C D : Type}.
  (** [vertical_merge] may panic (src/model/data_center/mod.rs:40-50). *)
  Variable merge : C -> C -> outcome C.

  (** src/model/mod.rs:96-108 -- the closure given to [reduce] in [vertical_reduce]. *)
  Definition merge_output_o (result output : model_output C D) : outcome (model_output C D) :=
    match result with
    | MFailure r => Ok (MFailure r)
    | MSuccess r =>
        match output with
        | MFailure o => Ok (MFailure o)
        | MSuccess o => do m <- merge r o; Ok (MSuccess m)
        | MNone => Ok (MSuccess r)
        end
    | MNone => Ok output
    end.

  Fixpoint ofold_outputs (l : list (model_output C D)) (result : model_output C D)
    : outcome (model_output C D) :=
    match l with
    | [] => Ok result
    | o :: r => do m <- merge_output_o result o; ofold_outputs r m
    end.

  (** src/model/mod.rs:92-110 -- [vertical_reduce]. *)
  Definition vertical_reduce (outputs : list (model_output C D)) : outcome (model_output C D) :=
    match outputs with
    | [] => Panic
    | o :: os => ofold_outputs os o
    end.

  (** src/utils.rs:92-100 -- [mean]: the sum (starting from zero) divided by the length;
      panics on an empty vector. *)
  Definition emean (l : list ext) : outcome ext :=
    match l with
    | [] => Panic
    | _ => Ok (escale (/ inject_Z (Z.of_nat (length l))) (fold_left eadd l (Fin 0)))
    end.

  (** src/cost.rs:40-49 -- [Cost::mean]. *)
  Definition cost_mean (costs : list (cost C D)) : outcome (cost C D) :=
    do c <- emean (map c_cost costs);
    do o <- vertical_reduce (map c_out costs);
    Ok (mkCost c o).
End Reduce.

Section CostFn.
  Context {X C D : Type}.
  Variable vmerge : C -> C -> outcome C.

  (** src/cost.rs:122-127 -- [SingleCostFn]: a closure, which may panic. *)
  Definition single_fn : Type := Z -> X -> outcome (list (cost C D)).

  (** src/cost.rs:133-138 -- [SingleCostFn::certain] ([predictive], 140-145, is the
      identity here). *)
  Definition certain (f : Z -> X -> outcome (cost C D)) : single_fn :=
    fun t x => do c <- f t x; Ok [c].

  (** src/cost.rs:160-176 -- [SingleCostFn::call_predictive]. *)
  Definition single_predictive (f : single_fn) (t_start t : Z) (x : X) : outcome (list (cost C D)) :=
    if t <? t_start then Panic else
    do results <- f t x;
    if (t =? t_start) && negb (length results =? 1)%nat then Panic else
    match results with
    | [] => Panic
    | _ => Ok results
    end.

  (** src/cost.rs:147-150 -- [SingleCostFn::call_mean]. *)
  Definition single_mean (f : single_fn) (t_start t : Z) (x : X) : outcome (cost C D) :=
    do rs <- single_predictive f t_start t x; cost_mean vmerge rs.

  (** src/cost.rs:152-157 -- [SingleCostFn::call_certain]. *)
  Definition single_certain (f : single_fn) (t_start t : Z) (x : X) : outcome (cost C D) :=
    do rs <- single_predictive f t_start t x;
    match rs with
    | [c] => Ok c
    | _ => Panic
    end.

  (** src/cost.rs:185 -- [CostFn]: a [BTreeMap], i.e. a key-sorted association list. *)
  Definition cost_fn : Type := list (Z * single_fn).

  (** [BTreeMap::insert]: keeps the keys sorted, replaces an existing key. *)
  Fixpoint bt_insert (k : Z) (f : single_fn) (m : cost_fn) : cost_fn :=
    match m with
    | [] => [(k, f)]
    | (k', f') :: r =>
        if k <? k' then (k, f) :: m
        else if k =? k' then (k, f) :: r
        else (k', f') :: bt_insert k f r
    end.

  (** src/cost.rs:193-208 -- [empty], [new], [add]. *)
  Definition cf_empty : cost_fn := [].
  Definition cf_add (cf : cost_fn) (t : Z) (f : single_fn) : cost_fn := bt_insert t f cf.
  Definition cf_new (t : Z) (f : single_fn) : cost_fn := bt_insert t f [].

  (** src/cost.rs:294-301 -- [get]: the last entry of the key range [1..=t]. *)
  Definition cf_get (cf : cost_fn) (t : Z) : outcome (Z * single_fn) :=
    if 1 <=? t then
      from_option (last (map Some (filter (fun e => (1 <=? fst e) && (fst e <=? t)) cf)) None)
    else Panic.

  (** src/cost.rs:210-226 -- [call_mean], [call_certain], [call_predictive]. *)
  Definition call_mean (cf : cost_fn) (t : Z) (x : X) : outcome (cost C D) :=
    do e <- cf_get cf t; single_mean (snd e) (fst e) t x.
  Definition call_certain (cf : cost_fn) (t : Z) (x : X) : outcome (cost C D) :=
    do e <- cf_get cf t; single_certain (snd e) (fst e) t x.
  Definition call_predictive (cf : cost_fn) (t : Z) (x : X) : outcome (list (cost C D)) :=
    do e <- cf_get cf t; single_predictive (snd e) (fst e) t x.

  (** src/cost.rs:228-286 -- the [.._within_bounds] variants; [inside] is
      [bounds.within(&x)], which may panic. *)
  Definition outside_cost (outside : D) : cost C D := mkCost Inf (MFailure outside).

  Definition call_mean_within (outside : D) (inside : outcome bool) (cf : cost_fn) (t : Z) (x : X)
    : outcome (cost C D) :=
    do b <- inside; if b : bool then call_mean cf t x else Ok (outside_cost outside).
  Definition call_certain_within (outside : D) (inside : outcome bool) (cf : cost_fn) (t : Z) (x : X)
    : outcome (cost C D) :=
    do b <- inside; if b : bool then call_certain cf t x else Ok (outside_cost outside).
  Definition call_predictive_within (outside : D) (inside : outcome bool) (cf : cost_fn) (t : Z) (x : X)
    : outcome (list (cost C D)) :=
    do b <- inside; if b : bool then call_predictive cf t x else Ok [outside_cost outside].
End CostFn.
Arguments single_fn : clear implicits.
Arguments cost_fn : clear implicits.

Section DecisionSpace.
  Context {T : Type}.
  Variable v : value T.

  (** src/cost.rs:325-335 -- [within] for a vector of upper bounds: panics if the
      dimensions differ. *)
  Definition within_upper (bounds x : list T) : outcome bool :=
    if (length x =? length bounds)%nat then
      Ok (forallb (fun uj => v_leb v (v_zero v) (snd uj) && v_leb v (snd uj) (fst uj)) (combine bounds x))
    else Panic.

  (** src/cost.rs:314-324 -- [within] for a vector of (lower, upper) pairs. *)
  Definition within_pairs (bounds : list (T * T)) (x : list T) : outcome bool :=
    if (length x =? length bounds)%nat then
      Ok (forallb (fun b => v_leb v (fst (fst b)) (snd b) && v_leb v (snd b) (snd (fst b))) (combine bounds x))
    else Panic.

  (** src/cost.rs:336-348 -- [within] for a scalar upper bound. *)
  Definition within_scalar (u x : T) : bool :=
    negb (Qltb (v_toQ v x) 0 || Qltb (v_toQ v u) (v_toQ v x)).
End DecisionSpace.

(** Problems whose hitting costs and movements may panic. *)
Record oproblem (X C D : Type) : Type := mkOProblem {
  op_tend : Z;
  op_hit : Z -> X -> outcome (cost C D);
  op_move : X -> X -> bool -> outcome Q
}.
Arguments mkOProblem {X C D} op_tend op_hit op_move.
Arguments op_tend {X C D} o.
Arguments op_hit {X C D} o t x.
Arguments op_move {X C D} o prev_x x inverted.

Section ObjectiveO.
  Context {X C D : Type}.
  Variable merge : C -> C -> C.

  (** src/problem.rs:171-182 -- the summand of the objective function. *)
  Definition step_cost_o (p : oproblem X C D) (alpha : Q) (inverted : bool)
      (t : Z) (prev_x x : X) : outcome (cost C D) :=
    do hitting_cost <- (if op_tend p <? t then Ok cost_default else op_hit p t x);
    do m <- op_move p prev_x x inverted;
    Ok (mkCost (eadd (c_cost hitting_cost) (Fin (alpha * m))) (c_out hitting_cost)).

  (** src/problem.rs:160-183, 479-498 -- [_objective_function_with_default]; a panic in
      one of the parallel tasks is propagated by rayon. *)
  Definition objective_o (s : split) (p : oproblem X C D) (xs : list X) (default : X)
      (alpha : Q) (inverted : bool) (t_end : Z) : outcome (cost C D) :=
    do cs <- omap (fun t => step_cost_o p alpha inverted t (get_or xs default (t - 1)) (get_or xs default t))
                  (zrange 1 t_end);
    Ok (par_sum merge s cs).
End ObjectiveO.

(** src/problem.rs:311-323 -- SSCO over any value type, with its [CostFn]. *)
Record gssco (T C D : Type) : Type := mkGSSCO {
  g_d : Z;
  g_tend : Z;
  g_bounds : list T;
  g_switching : list Q;
  g_cost : cost_fn (list T) C D
}.
Arguments mkGSSCO {T C D} g_d g_tend g_bounds g_switching g_cost.
Arguments g_d {T C D} g.
Arguments g_tend {T C D} g.
Arguments g_bounds {T C D} g.
Arguments g_switching {T C D} g.
Arguments g_cost {T C D} g.

(** src/problem.rs:268-282 -- SCO. *)
Record gsco (T C D : Type) : Type := mkGSCO {
  o_d : Z;
  o_tend : Z;
  o_bounds : list (T * T);
  o_norm : list T -> outcome Q;
  o_cost : cost_fn (list T) C D
}.
Arguments mkGSCO {T C D} o_d o_tend o_bounds o_norm o_cost.
Arguments o_d {T C D} g.
Arguments o_tend {T C D} g.
Arguments o_bounds {T C D} g.
Arguments o_norm {T C D} g.
Arguments o_cost {T C D} g.

Section Problems.
  Context {T C D : Type}.
  Variable v : value T.
  Variable vmerge : C -> C -> outcome C.
  Variable outside : D.

  (** src/problem.rs:332-335 -- [hit_cost] of SSCO. *)
  Definition gssco_hit (p : gssco T C D) (t : Z) (x : list T) : outcome (cost C D) :=
    call_mean_within vmerge outside (within_upper v (g_bounds p) x) (g_cost p) t x.

  (** src/problem.rs:337-339 -- [movement] of SSCO. *)
  Definition gssco_move (p : gssco T C D) (prev_x x : list T) (inverted : bool) : outcome Q :=
    scaled_movement_o (v_toQ v) (g_switching p) x prev_x inverted.

  Definition gssco_problem (p : gssco T C D) : oproblem (list T) C D :=
    mkOProblem (g_tend p) (gssco_hit p) (gssco_move p).

  (** src/config.rs:197-209 -- [Sub for Config]: zips the two vectors. *)
  Definition config_sub (x y : list T) : list T :=
    map (fun ab => v_sub v (fst ab) (snd ab)) (combine x y).

  (** src/problem.rs:288-291 -- [hit_cost] of SCO. *)
  Definition gsco_hit (p : gsco T C D) (t : Z) (x : list T) : outcome (cost C D) :=
    call_mean_within vmerge outside (within_pairs v (o_bounds p) x) (o_cost p) t x.

  (** src/problem.rs:293-297 -- [movement] of SCO: the norm of the difference; inverted
      movement panics. *)
  Definition gsco_move (p : gsco T C D) (prev_x x : list T) (inverted : bool) : outcome Q :=
    if inverted then Panic else o_norm p (config_sub x prev_x).

  Definition gsco_problem (p : gsco T C D) : oproblem (list T) C D :=
    mkOProblem (o_tend p) (gsco_hit p) (gsco_move p).

  (** src/problem.rs:203-208 -- [_default_config]. *)
  Definition gzero (d : Z) : list T := repeat (v_zero v) (Z.to_nat d).
End Problems.
