(** Model of src/numerics/mod.rs, src/numerics/convex_optimization.rs,
    src/numerics/roots.rs and src/numerics/finite_differences.rs: how the library calls
    NLopt, Brent's method and finite differences.  No proofs. *)
From Coq Require Import Qabs.
From Verif Require Export PiecewiseModel CostModel.
Local Open Scope Z_scope.

(** Floats that may be infinite in both directions.  There is no NaN: an operation that
    would produce one is a [Panic] here (as it is for [N64] in the Rust code). *)
Inductive fnum : Type := NegInf | Num (q : Q) | PosInf.

Definition num_of (a : ext) : fnum := match a with Fin q => Num q | Inf => PosInf end.
Definition nsub (a b : fnum) : outcome fnum :=
  match a, b with
  | Num x, Num y => Ok (Num (x - y))
  | PosInf, PosInf | NegInf, NegInf => Panic
  | PosInf, _ | _, NegInf => Ok PosInf
  | NegInf, _ | _, PosInf => Ok NegInf
  end.
Definition nadd (a b : fnum) : outcome fnum :=
  match a, b with
  | Num x, Num y => Ok (Num (x + y))
  | PosInf, NegInf | NegInf, PosInf => Panic
  | PosInf, _ | _, PosInf => Ok PosInf
  | NegInf, _ | _, NegInf => Ok NegInf
  end.
(** Product with a finite number. *)
Definition nscale (c : Q) (a : fnum) : outcome fnum :=
  match a with
  | Num x => Ok (Num (c * x))
  | PosInf => if Qltb 0 c then Ok PosInf else if Qltb c 0 then Ok NegInf else Panic
  | NegInf => if Qltb 0 c then Ok NegInf else if Qltb c 0 then Ok PosInf else Panic
  end.
(** [a > b]. *)
Definition ngtb (a b : fnum) : bool :=
  match a, b with
  | Num x, Num y => Qltb y x
  | PosInf, PosInf => false
  | PosInf, _ => true
  | Num _, NegInf => true
  | _, _ => false
  end.
Definition finite (a : fnum) : bool := match a with Num _ => true | _ => false end.

(** src/numerics/mod.rs:11 -- [TOLERANCE]. *)
Definition TOLERANCE : Q := PRECISION / 10.

(** ** NLopt *)

(** convex_optimization.rs:15-19, 198-205 -- [Direction] / [Target]. *)
Inductive target : Type := Minimize | Maximize.
(** The result states of the nlopt crate. *)
Inductive success_state : Type :=
  Success | StopValReached | FtolReached | XtolReached | MaxEvalReached | MaxTimeReached.
Inductive fail_state : Type := GenericFailure | InvalidArgs | OutOfMemory | RoundoffLimited | ForcedStop.
Inductive algorithm : Type := Cobyla | Sbplx.
(** A function handed to NLopt; it may panic. *)
Definition callback : Type := list Q -> outcome fnum.
(** One optimisation problem for NLopt: all its settings except for the constants
    [TOLERANCE] and the maximal number of evaluations. *)
Record nl_problem : Type := mkNL {
  nl_algorithm : algorithm;
  nl_target : target;
  nl_objective : callback;
  nl_bounds : list (fnum * fnum);
  nl_constraints : list callback;
  nl_init : list Q
}.
(** Its result: the state, the optimal value and the final contents of [x]. *)
Inductive nl_result : Type :=
| NlOk (s : success_state) (opt : fnum) (x : list Q)
| NlErr (s : fail_state) (opt : fnum) (x : list Q).

Section Optimize.
  (** The external library; [Panic] if a callback panics. *)
  Variable nlopt : nl_problem -> outcome nl_result.

  (** convex_optimization.rs:216-225 -- [evaluate]: the arguments are rounded first. *)
  Definition evaluate (f : callback) : callback := fun xs => f (map apply_precision xs).

  (** convex_optimization.rs:185-196 -- [choose_algorithm]. *)
  Definition choose_algorithm (constraints : nat) : algorithm :=
    if (0 <? constraints)%nat then Cobyla else Sbplx.

  (** The upper bounds as the initial guess; infinite ones are rejected (the assertion
      [b < INFINITY] lets [NEG_INFINITY] pass, which NLopt rejects: not distinguished). *)
  Definition finite_upper (b : fnum * fnum) : outcome Q := match snd b with Num q => Ok q | _ => Panic end.

  (** convex_optimization.rs:100-183 -- [optimize]. *)
  Definition optimize (dir : target) (f : callback) (bounds : list (fnum * fnum)) (init : option (list Q))
      (constraints : list callback) : outcome (list Q * fnum) :=
    do x <- match init with
            | None => omap finite_upper bounds
            | Some x => if (length x =? length bounds)%nat then Ok x else Panic
            end;
    do r <- nlopt (mkNL (choose_algorithm (length constraints)) dir (evaluate f) bounds
                        (map evaluate constraints) x);
    match r with
    | NlOk (MaxEvalReached | MaxTimeReached) _ x =>
        Ok (map apply_precision x, match dir with Maximize => NegInf | Minimize => PosInf end)
    | NlOk _ opt x => Ok (map apply_precision x, opt)
    | NlErr RoundoffLimited opt x => Ok (map apply_precision x, opt)
    | NlErr _ _ _ => Panic
    end.

  (** Finite bounds. *)
  Definition num_bounds (bounds : list (Q * Q)) : list (fnum * fnum) :=
    map (fun b => (Num (fst b), Num (snd b))) bounds.

  (** convex_optimization.rs:77-84 -- [minimize], for finite bounds. *)
  Definition minimize (f : callback) (bounds : list (Q * Q)) (init : option (list Q)) (constraints : list callback)
      : outcome (list Q * fnum) := optimize Minimize f (num_bounds bounds) init constraints.

  (** convex_optimization.rs:60-65 -- [find_minimizer]. *)
  Definition find_minimizer (f : callback) (bounds : list (Q * Q)) : outcome (list Q * fnum) :=
    minimize f bounds None [].

  (** convex_optimization.rs:43-57 -- [find_minimizer_of_hitting_cost]. *)
  Definition certain_cost {C D} (cf : cost_fn (list Q) C D) (t : Z) : callback :=
    fun x => do c <- call_certain cf t x; Ok (num_of (c_cost c)).
  Definition find_minimizer_of_hitting_cost {C D} (t : Z) (cf : cost_fn (list Q) C D) (bounds : list (Q * Q))
      : outcome (list Q * fnum) := find_minimizer (certain_cost cf t) bounds.

  (** convex_optimization.rs:67-75, 207-213 -- [find_unbounded_maximizer]. *)
  Definition find_unbounded_maximizer (f : callback) (d : nat) (constraints : list callback)
      : outcome (list Q * fnum) :=
    optimize Maximize f (repeat (NegInf, PosInf) d) (Some (repeat 0%Q d)) constraints.
End Optimize.

(** ** Roots *)
Section Roots.
  (** bacon_sci's [brent] with the tolerance [TOLERANCE]; [Panic] for its errors. *)
  Variable brent : Q * Q -> (Q -> outcome fnum) -> outcome Q.

  (** roots.rs:12 -- [ROOT_PRECISION]. *)
  Definition ROOT_PRECISION : Q := PRECISION * 1000.

  Definition nabs (a : fnum) : fnum := match a with Num q => Num (Qabs q) | _ => PosInf end.
  (** The sign of [l * r > 0] for non-zero factors. *)
  Definition same_sign (l r : fnum) : bool :=
    match l, r with
    | Num x, Num y => Qltb 0 (x * y)
    | PosInf, Num y | Num y, PosInf => Qltb 0 y
    | NegInf, Num y | Num y, NegInf => Qltb y 0
    | PosInf, PosInf | NegInf, NegInf => true
    | _, _ => false
    end.

  (** roots.rs:14-44 -- [find_root]. *)
  Definition find_root (a b : Q) (f : Q -> outcome fnum) : outcome Q :=
    if Qltb (Qabs (a - b)) PRECISION then Ok a else
    do l <- f a;
    do r <- f b;
    if ngtb (Num ROOT_PRECISION) (nabs l) then Ok a
    else if ngtb (Num ROOT_PRECISION) (nabs r) then Ok b
    else if same_sign l r then
      if ngtb (nabs l) (nabs r) then Ok b else Ok a
    else
      do x <- brent (a, b) f;
      Ok (apply_precision x).
End Roots.

(** ** Gradients *)
Section Gradient.
  (** The step of the finitediff crate's [central_diff]. *)
  Variable eps : Q.

  (** [x] with [h] added to its [i]-th entry. *)
  Fixpoint bump (x : list Q) (i : nat) (h : Q) : list Q :=
    match x, i with
    | [], _ => []
    | j :: r, O => (j + h)%Q :: r
    | j :: r, S i' => j :: bump r i' h
    end.

  (** finite_differences.rs:41-52 -- [gradient], with [central_diff] (an external crate):
      [(f(x + eps e_i) - f(x - eps e_i)) / (2 eps)]; NaN, i.e. the difference of equal
      infinities, is replaced by 0. *)
  Definition gradient (f : callback) (x : list Q) : outcome (list fnum) :=
    omap (fun i =>
      do a <- f (bump x i eps);
      do b <- f (bump x i (- eps));
      match a, b with
      | Num u, Num v => Ok (Num ((u - v) / (2 * eps)))
      | PosInf, PosInf | NegInf, NegInf => Ok (Num 0)
      | PosInf, _ | _, NegInf => Ok PosInf
      | NegInf, _ | _, PosInf => Ok NegInf
      end) (seq 0 (length x)).
End Gradient.
