(** Model of src/algorithms/online/uni_dimensional/probabilistic.rs and of [derivative] and
    [second_derivative] in src/numerics/finite_differences.rs.  No proofs. *)
From Verif Require Export DescentModel.
From Verif Require Import ProblemModel CostModel.
Local Open Scope Z_scope.

(** [apply_precision] of a float that may be infinite. *)
Definition round_num (a : fnum) : fnum := match a with Num q => Num (apply_precision q) | _ => a end.

Section Derivatives.
  (** bacon_sci's [derivative] or [second_derivative]; [None]: not a number. *)
  Variable differentiate : (Q -> outcome fnum) -> Q -> outcome (option fnum).

  (** src/numerics/finite_differences.rs:11-24 -- [derivative], and with the other oracle
      26-39 -- [second_derivative]. *)
  Definition derivative (f : Q -> outcome fnum) (x : Q) : outcome fnum :=
    do y <- f x;
    if negb (finite y) then Ok PosInf else
    do r <- differentiate f x;
    Ok (match r with None => Num 0 | Some d => round_num d end).
End Derivatives.

(** probabilistic.rs:21-32 -- [Distribution] and [Memory]. *)
Definition density : Type := Q -> outcome fnum.
Record prob_memory : Type := mkPM { pm_p : density; pm_breakpoints : list Q }.

(** probabilistic.rs:19 -- [EPSILON]. *)
Definition PROB_EPSILON : Q := 1 # 100000.
(** probabilistic.rs:38-52 -- [Memory::default]. *)
Definition prob_default : prob_memory :=
  mkPM (fun x => Ok (Num (if Qle_bool 0 x && Qle_bool x PROB_EPSILON then 1 / PROB_EPSILON else 0)))
       [0%Q; PROB_EPSILON].
(** probabilistic.rs:33-37 -- [default_p]: the density after deserialisation. *)
Definition default_p : density := fun _ => Panic.

Section Probabilistic.
  Context {C D : Type}.
  Variable nlopt : nl_problem -> outcome nl_result.
  Variable brent : Q * Q -> (Q -> outcome fnum) -> outcome Q.
  Variable diff1 diff2 : (Q -> outcome fnum) -> Q -> outcome (option fnum).
  (** src/numerics/quadrature/mod.rs:13-32 -- [integral]; it is taken to be finite.  *)
  Variable quadrature : density -> point -> point -> Q.
  (** Bound on the recursion of [piecewise_integral]; if it is too small: [Panic]. *)
  Variable fuel : nat.

  (** The hitting cost without bounds: [o.p.hitting_cost.call_certain(t, x).cost]. *)
  Definition cost_at (p : gssco Q C D) (t : Z) (x : Q) : outcome fnum := certain_cost (g_cost p) t [x].

  Definition integral_of (breaks : breakpoints) (from to : point) (f : density) : outcome Q :=
    from_option (piecewise_integral (quadrature f) breaks fuel from to).

  (** probabilistic.rs:154-185 -- [find_right_bound]. *)
  Definition find_right_bound (p : gssco Q C D) (t : Z) (breaks : breakpoints) (prev_p : density) (x_m : Q) : outcome Q :=
    do u <- from_option (nth_error (g_bounds p) 0);
    find_root brent x_m u (fun x =>
      do d <- derivative diff1 (cost_at p t) x;
      do b <- from_option (nth_error (g_switching p) 0);
      do i <- integral_of breaks (Pt x) PInf prev_p;
      nsub d (Num (2 * b * i))).

  (** probabilistic.rs:187-218 -- [find_left_bound]. *)
  Definition find_left_bound (p : gssco Q C D) (t : Z) (breaks : breakpoints) (prev_p : density) (x_m : Q) : outcome Q :=
    find_root brent 0 x_m (fun x =>
      do b <- from_option (nth_error (g_switching p) 0);
      do i <- integral_of breaks MInf (Pt x) prev_p;
      do d <- derivative diff1 (cost_at p t) x;
      nsub (Num (2 * b * i)) d).

  (** probabilistic.rs:220-227 -- [expected_value]; [0 * infinity] panics. *)
  Definition expected_value (breaks : breakpoints) (p : density) (from to : Q) : outcome Q :=
    integral_of breaks (Pt from) (Pt to) (fun x => do y <- p x; nscale x y).

  (** probabilistic.rs:114-132 -- the new density; the switching cost is not 0. *)
  Definition next_density (p : gssco Q C D) (t : Z) (prev_p : density) (x_l x_r : Q) : density := fun x =>
    if Qle_bool x_l x && Qle_bool x x_r then
      do y <- prev_p x;
      do s <- derivative diff2 (cost_at p t) x;
      do b <- from_option (nth_error (g_switching p) 0);
      do s' <- nscale (1 / (2 * b)) s;
      nadd y s'
    else Ok (Num 0).

  (** probabilistic.rs:137-141 -- adding a breakpoint unless it is there. *)
  Definition push_new (bs : list Q) (b : Q) : list Q := if existsb (Qeq_bool b) bs then bs else bs ++ [b].

  (** probabilistic.rs:81-152 -- [probabilistic] with its options [breaks]. *)
  Definition probabilistic (options : breakpoints) (o : online (gssco Q C D)) (t : Z) (_ : list (list Q)) (prev_m : prob_memory)
      : outcome (list Q * option prob_memory) :=
    if negb (on_w o =? 0) then Err UnsupportedPredictionWindow else
    let p := on_p o in
    if negb (g_d p =? 1) then Err UnsupportedProblemDimension else
    let breaks := br_add (pm_breakpoints prev_m) options in
    let prev_p := pm_p prev_m in
    do u <- from_option (nth_error (g_bounds p) 0);
    do v <- find_minimizer_of_hitting_cost nlopt t (g_cost p) [(0%Q, u)];
    do x_m <- from_option (nth_error (fst v) 0);
    do x_r <- find_right_bound p t breaks prev_p x_m;
    do x_l <- find_left_bound p t breaks prev_p x_m;
    let p' := next_density p t prev_p x_l x_r in
    let m := mkPM p' (push_new (push_new (pm_breakpoints prev_m) x_l) x_r) in
    do e <- expected_value breaks p' x_l x_r;
    let x := if Qltb e x_l || Qltb x_r e then x_m else e in
    Ok ([x], Some m).
End Probabilistic.
