(** Model of the online algorithms based on convex optimisation: online balanced descent
    (src/algorithms/online/multi_dimensional/online_balanced_descent), online gradient
    descent, the memoryless algorithm, randomly biased greedy, and of the static fractional
    optimum (src/algorithms/offline/multi_dimensional/static_fractional.rs).  No proofs. *)
From Coq Require Import Qabs.
From Verif Require Export OptimizeModel ConvertModel StreamModel.
Local Open Scope Z_scope.

(** src/config.rs:197-209 -- [Sub for Config]. *)
Definition minus (x y : list Q) : list Q := config_sub valQ x y.
(** src/config.rs:183-195 -- [Add for Config]. *)
Definition plus (x y : list Q) : list Q := map (fun ab => (fst ab + snd ab)%Q) (combine x y).
(** src/config.rs:223-230 -- [Mul<Config> for f64]. *)
Definition times (c : Q) (x : list Q) : list Q := map (fun j => (c * j)%Q) x.

(** src/config.rs:211-221 -- [Mul for Config] (dot product), of possibly infinite numbers
    with finite ones; [0 * infinity] and [infinity - infinity] panic. *)
Fixpoint ndot (x : list fnum) (y : list Q) : outcome fnum :=
  match x, y with
  | a :: x', b :: y' => do p <- nscale b a; do r <- ndot x' y'; nadd p r
  | _, _ => Ok (Num 0)
  end.

(** src/schedule.rs:55-62 -- [now_with_default] with the zero configuration. *)
Definition now (d : Z) (xs : list (list Q)) : list Q := last xs (gzero valQ d).

(** src/distance.rs:20-32 -- [manhattan]. *)
Definition manhattan (x : list Q) : outcome Q := Ok (Qsum (map Qabs x)).

Section Norms.
  (** [f64::sqrt], [f64::log2]. *)
  Variable sqrt log2 : Q -> Q.

  (** src/distance.rs:50-62 -- [euclidean], of possibly infinite numbers. *)
  Definition euclidean (x : list fnum) : fnum :=
    if forallb finite x
    then Num (sqrt (Qsum (map (fun j => match j with Num q => (q * q)%Q | _ => 0%Q end) x)))
    else PosInf.

  (** The same for a finite vector, as an argument of [norm_squared]. *)
  Definition euclidean_norm (x : list Q) : outcome Q := Ok (sqrt (Qsum (map (fun j => (j * j)%Q) x))).

  (** src/distance.rs:102-105 -- [norm_squared]. *)
  Definition norm_squared (norm : list Q -> outcome Q) (x : list Q) : outcome Q :=
    do n <- norm x; Ok (n * n / 2)%Q.

  (** src/distance.rs:107-118 -- [negative_entropy]; panics unless all entries are positive. *)
  Definition negative_entropy (x : list Q) : outcome Q :=
    do l <- omap (fun j => if Qltb 0 j then Ok (j * log2 j)%Q else Panic) x; Ok (Qsum l).
End Norms.

Section Descent.
  Context {C D : Type}.
  Variable vmerge : C -> C -> outcome C.
  Variable merge : C -> C -> C.
  Variable outside : D.
  (** External libraries: NLopt, Brent's method, the step of central differences, square
      roots. *)
  Variable nlopt : nl_problem -> outcome nl_result.
  Variable brent : Q * Q -> (Q -> outcome fnum) -> outcome Q.
  Variable eps : Q.
  Variable sqrt : Q -> Q.

  (** The hitting cost [o.p.hit_cost(t, x).cost] as a float. *)
  Definition hit_num (p : gsco Q C D) (t : Z) (x : list Q) : outcome fnum :=
    do c <- gsco_hit valQ vmerge outside p t x; Ok (num_of (c_cost c)).

  (** A distance-generating function as a function for [gradient]. *)
  Definition as_callback (h : list Q -> outcome Q) : callback := fun x => do q <- h x; Ok (Num q).

  (** online_balanced_descent/meta.rs:124-136 -- [bregman_divergence]. *)
  Definition bregman_divergence (h : list Q -> outcome Q) (x y : list Q) : outcome fnum :=
    do mx <- h x;
    do my <- h y;
    do grad <- gradient eps (as_callback h) y;
    do g <- ndot grad (minus x y);
    nsub (Num (mx - my)) g.

  (** online_balanced_descent/meta.rs:85-122 -- [bregman_projection]. *)
  Definition bregman_projection (h : list Q -> outcome Q) (l : Q) (bounds : list (Q * Q)) (f : cost_fn (list Q) C D)
      (t : Z) (x : list Q) : outcome (list Q) :=
    do v <- find_minimizer_of_hitting_cost nlopt t f bounds;
    let objective y := bregman_divergence h y x in
    let constraint y := do c <- certain_cost f t y; nsub c (Num l) in
    do y <- minimize nlopt objective bounds (Some (fst v)) [constraint];
    do c <- certain_cost f t (fst y);
    Ok (if ngtb c (Num l) then fst v else fst y).

  (** online_balanced_descent/meta.rs:51-70 -- [obd]; [l] is finite here. *)
  Definition obd (l : Q) (h : list Q -> outcome Q) (o : online (gsco Q C D)) (t : Z) (xs : list (list Q)) (_ : unit)
      : outcome (list Q * option unit) :=
    if negb (on_w o =? 0) then Err UnsupportedPredictionWindow else
    let p := on_p o in
    do x <- bregman_projection h l (o_bounds p) (o_cost p) t (now (o_d p) xs);
    Ok (x, None).

  (** [next] (src/algorithms/online/mod.rs:80-94), as called by the other algorithms; [None]
      is passed for the memory. *)
  Definition obd_next (l : Q) (h : list Q -> outcome Q) (o : online (gsco Q C D)) (xs : list (list Q))
      : outcome (list Q * option unit) := alg_next (obd l h) (fun _ => tt) o xs None.

  (** The right end of the interval searched for the level: the hitting cost of the previous
      configuration, or [1000 a] if it is infinite. *)
  Definition level_end (a : Q) (b : fnum) : Q := match b with Num q => q | _ => (1000 * a)%Q end.

  (** online_balanced_descent/primal.rs:52-93 -- [pobd].  The minimum [opt] must be finite:
      [assert!(a.is_finite())]; in the comparison an infinite [beta * opt] lets the early
      return happen (if [beta] is positive). *)
  Definition pobd (beta : Q) (h : list Q -> outcome Q) (o : online (gsco Q C D)) (t : Z) (xs : list (list Q)) (_ : unit)
      : outcome (list Q * option unit) :=
    if negb (on_w o =? 0) then Err UnsupportedPredictionWindow else
    let p := on_p o in
    let prev_x := now (o_d p) xs in
    do v <- find_minimizer_of_hitting_cost nlopt t (o_cost p) (o_bounds p);
    do m <- o_norm p (minus (fst v) prev_x);
    do limit <- nscale beta (snd v);
    if negb (ngtb (Num m) limit) then Ok (fst v, None) else
    do a <- match snd v with Num a => Ok a | _ => Panic end;
    do b <- hit_num p t prev_x;
    do l <- find_root brent a (level_end a b) (fun l =>
              do s <- unwrap (obd_next l h o xs);
              do m <- o_norm p (minus (fst s) prev_x);
              Ok (Num (m - beta * l)));
    obd_next l h o xs.

  (** src/distance.rs:82-100 -- [dual_norm], of possibly infinite numbers. *)
  Definition dual_norm (norm : list Q -> outcome Q) (x : list fnum) : outcome fnum :=
    if forallb finite x then
      do z <- find_unbounded_maximizer nlopt (fun z => ndot x z) (length x)
                [fun z => do n <- norm z; Ok (Num (n - 1))];
      ndot x (fst z)
    else Ok PosInf.

  (** Difference of two possibly infinite vectors. *)
  Definition nminus (x y : list fnum) : outcome (list fnum) :=
    omap (fun ab => nsub (fst ab) (snd ab)) (combine x y).

  (** online_balanced_descent/dual.rs:53-101 -- [dobd].  An infinite [opt] makes the interval
      infinite; [find_root] is not modelled for that ([Panic]). *)
  Definition dobd (eta : Q) (h : list Q -> outcome Q) (o : online (gsco Q C D)) (t : Z) (xs : list (list Q)) (_ : unit)
      : outcome (list Q * option unit) :=
    if negb (on_w o =? 0) then Err UnsupportedPredictionWindow else
    let p := on_p o in
    let prev_x := now (o_d p) xs in
    do v <- find_minimizer_of_hitting_cost nlopt t (o_cost p) (o_bounds p);
    do a <- match snd v with Num a => Ok a | _ => Panic end;
    do b <- hit_num p t prev_x;
    do l <- find_root brent a (level_end a b) (fun l =>
              do s <- unwrap (obd_next l h o xs);
              do gx <- gradient eps (as_callback h) (fst s);
              do gp <- gradient eps (as_callback h) prev_x;
              do g <- nminus gx gp;
              do distance <- dual_norm (o_norm p) g;
              do gf <- gradient eps (hit_num p t) (fst s);
              do hitting_cost <- dual_norm (o_norm p) gf;
              do e <- nscale eta hitting_cost;
              nsub distance e);
    obd_next l h o xs.

  (** online_balanced_descent/greedy.rs:53-84 -- [gobd]. *)
  Definition gobd (m mu gamma : Q) (h : list Q -> outcome Q) (o : online (gsco Q C D)) (t : Z) (xs : list (list Q)) (_ : unit)
      : outcome (list Q * option unit) :=
    if negb (on_w o =? 0) then Err UnsupportedPredictionWindow else
    let p := on_p o in
    do v <- find_minimizer_of_hitting_cost nlopt t (o_cost p) (o_bounds p);
    do y <- alg_next (pobd gamma h) (fun _ => tt) o xs None;
    let s := (mu * sqrt m)%Q in
    Ok (if Qle_bool 1 s then fst v else plus (times s (fst v)) (times (1 - s) (fst y)), None).

  (** [f64::EPSILON]. *)
  Definition EPSILON : Q := 1 # 4503599627370496.

  (** online_balanced_descent/regularized.rs:96-115 -- [build_parameters] (Coq's [x / 0]
      is 0). *)
  Definition f_lambda_2 (m alpha beta lambda_1 : Q) : Q :=
    (lambda_1 * m / 2 * (1 + sqrt (1 + 4 * (beta * beta) / (alpha * m))) - m) / beta.
  Definition build_parameters (m alpha beta : Q) : Q * Q :=
    let lambda_1 := (2 / (1 + sqrt (1 + 4 * (beta * beta) / (alpha * m))))%Q in
    if Qltb (Qabs (f_lambda_2 m alpha beta lambda_1 - 0)) EPSILON then (lambda_1, 0%Q)
    else (1%Q, f_lambda_2 m alpha beta 1).

  (** online_balanced_descent/regularized.rs:46-94 -- [robd]. *)
  Definition robd (m alpha beta : Q) (o : online (gsco Q C D)) (t : Z) (xs : list (list Q)) (_ : unit)
      : outcome (list Q * option unit) :=
    if negb (on_w o =? 0) then Err UnsupportedPredictionWindow else
    let p := on_p o in
    let lambda := build_parameters m alpha beta in
    let prev_x := now (o_d p) xs in
    do v <- find_minimizer_of_hitting_cost nlopt t (o_cost p) (o_bounds p);
    do x <- find_minimizer nlopt (fun x =>
              do c <- hit_num p t x;
              do m1 <- o_norm p (minus x prev_x);
              do m2 <- o_norm p (minus x (fst v));
              do s <- nadd c (Num (fst lambda * m1));
              nadd s (Num (snd lambda * m2))) (o_bounds p);
    Ok (fst x, None).

  (** online_gradient_descent.rs:76-82 -- [project]. *)
  Definition project_onto (bounds : list (Q * Q)) (y : list fnum) : outcome (list Q) :=
    do x <- find_minimizer nlopt (fun x => do d <- nminus (map Num x) y; Ok (euclidean sqrt d)) bounds;
    Ok (fst x).

  (** online_gradient_descent.rs:49-74 -- [ogd]; [t - 1] after [t += 1] is written [t]. *)
  Definition ogd (eta : Z -> Q) (o : online (gsco Q C D)) (t : Z) (xs : list (list Q)) (_ : unit)
      : outcome (list Q * option unit) :=
    if negb (on_w o =? 0) then Err UnsupportedPredictionWindow else
    let p := on_p o in
    let prev_x := now (o_d p) xs in
    do g <- gradient eps (hit_num p t) prev_x;
    do step <- omap (nscale (eta t)) g;
    do y <- nminus (map Num prev_x) step;
    do x <- project_onto (o_bounds p) y;
    Ok (x, None).

  (** uni_dimensional/memoryless.rs:42-64 -- [next]. *)
  Definition memoryless_next (p : gssco Q C D) (t : Z) (prev_x : Q) : outcome Q :=
    do u <- from_option (nth_error (g_bounds p) 0);
    let objective x := do c <- gssco_hit valQ vmerge outside p t x; Ok (num_of (c_cost c)) in
    let constraint x :=
      do b <- from_option (nth_error (g_switching p) 0);
      do x0 <- from_option (nth_error x 0);
      do c <- gssco_hit valQ vmerge outside p t [x0];
      do h <- nscale (1 # 2) (num_of (c_cost c));
      nsub (Num (b * Qabs (x0 - prev_x))) h in
    do x <- minimize nlopt objective [(0%Q, u)] None [constraint];
    from_option (nth_error (fst x) 0).

  (** uni_dimensional/memoryless.rs:14-34 -- [memoryless]. *)
  Definition memoryless (o : online (gssco Q C D)) (t : Z) (xs : list (list Q)) (_ : unit)
      : outcome (list Q * option unit) :=
    if negb (on_w o =? 0) then Err UnsupportedPredictionWindow else
    let p := on_p o in
    if negb (g_d p =? 1) then Err UnsupportedProblemDimension else
    do prev_x <- from_option (nth_error (last xs [0%Q]) 0);
    do x <- memoryless_next p t prev_x;
    Ok ([x], None).

  (** uni_dimensional/randomly_biased_greedy.rs:120-138 -- the work function [w].  Its
      results are cached by [t] and [x]; the cache is left out here (see WorkCacheModel.v, which
      shows that it goes unnoticed unless sessions of different instances run at once). *)
  Fixpoint work (p : gsco Q C D) (theta : Q) (t : nat) (x : list Q) : outcome fnum :=
    match t with
    | O => do n <- o_norm p x; Ok (Num (theta * n))
    | S t' =>
        do r <- find_minimizer nlopt (fun y =>
                  do w <- work p theta t' y;
                  do c <- hit_num p (Z.of_nat t) y;
                  do n <- o_norm p (minus x y);
                  do s <- nadd w c;
                  nadd s (Num (theta * n))) (o_bounds p);
        Ok (snd r)
    end.

  (** uni_dimensional/randomly_biased_greedy.rs:49-109 -- [rbg] and [next]; the memory is the
      random number [r]; [t - 1] after [t += 1] is written [t].  A negative [t] would not
      terminate. *)
  Definition rbg (theta : Q) (o : online (gsco Q C D)) (t : Z) (_ : list (list Q)) (r : Q)
      : outcome (list Q * option Q) :=
    if negb (on_w o =? 0) then Err UnsupportedPredictionWindow else
    let p := on_p o in
    if negb (o_d p =? 1) then Err UnsupportedProblemDimension else
    do x <- find_minimizer nlopt (fun x =>
              do w <- work p theta (Z.to_nat t) x;
              do n <- o_norm p x;
              nadd w (Num (r * theta * n))) (o_bounds p);
    do x0 <- from_option (nth_error (fst x) 0);
    Ok ([x0], None).

  (** static_fractional.rs:16-49 -- [static_fractional]; [l == Some(0.)] on rationals.
      [sched x] is the division of the work of the parallel sum while evaluating [x]. *)
  Variable sched : list Q -> split.
  Definition static_fractional (p : gsco Q C D) (inverted : bool) (alpha : Q) (l : option Q)
      : outcome (list (list Q)) :=
    if inverted then Err UnsupportedInvertedCost else
    if negb (match l with None => true | Some l => Qeq_bool l 0 end) then Err UnsupportedLConstrainedMovement else
    let n := Z.to_nat (o_tend p) in
    do x <- find_minimizer nlopt (fun x =>
              do c <- objective_o merge (sched x) (gsco_problem valQ vmerge outside p) (repeat x n)
                        (gzero valQ (o_d p)) alpha false (o_tend p);
              Ok (num_of (c_cost c))) (o_bounds p);
    Ok (repeat (fst x) n).
End Descent.
