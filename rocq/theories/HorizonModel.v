(** Model of the algorithms that hand a whole time window to the convex optimiser: offline
    convex optimisation (src/algorithms/offline/multi_dimensional/convex_optimization.rs)
    and horizon control (src/algorithms/online/multi_dimensional/horizon_control).
    No proofs. *)
From Verif Require Export ConvertModel.
Local Open Scope Z_scope.

(** src/config.rs:183-195 -- [Add for Config]: zips the two vectors. *)
Definition config_plus (x y : list Q) : list Q :=
  map (fun ab => (fst ab + snd ab)%Q) (combine x y).

(** src/config.rs:230-247 -- [Div<f64> for Config] (Coq's [x / 0] is 0; the divisor is
    [w + 1] below). *)
Definition config_quot (x : list Q) (n : Q) : list Q := map (fun j => (j / n)%Q) x.

(** The slice [l[a..a+n]], which panics when it is out of range; a negative [a] becomes a
    huge [usize]. *)
Definition slice {A} (l : list A) (a n : Z) : outcome (list A) :=
  if (0 <=? a) && (0 <=? n) && (a + n <=? Z.of_nat (length l)) then
    Ok (firstn (Z.to_nat n) (skipn (Z.to_nat a) l))
  else Panic.

Section Window.
  Context {C D : Type}.
  Variable vmerge : C -> C -> outcome C.
  Variable merge : C -> C -> C.
  Variable outside : D.
  (** Division of the work of the parallel sum while evaluating a vector. *)
  Variable sched : list Q -> split.
  (** [minimize] (src/numerics/convex_optimization.rs:77-84): NLopt, an external library.
      Arguments: objective, bounds, inequality constraints [g <= 0].  The answer is the
      argument only; the value is not used by the callers below. *)
  Variable minimize : (list Q -> outcome ext) -> list (Q * Q) -> list (list Q -> outcome Q) -> outcome (list Q).

  (** src/problem.rs:186-201 -- [total_movement]: the number of the sum. *)
  Definition total_movement_o (p : oproblem (list Q) C D) (zero : list Q) (xs : list (list Q)) (inverted : bool)
      : outcome Q :=
    do ms <- omap (fun t => op_move p (get_or xs zero (t - 1)) (get_or xs zero t) inverted) (zrange 1 (op_tend p));
    Ok (Qsum ms).

  (** convex_optimization.rs (offline):46-58 -- the objective of [co]. *)
  Definition co_objective (p : gsco Q C D) (alpha : Q) (raw_xs : list Q) : outcome ext :=
    do xs <- from_raw (o_d p) (o_tend p) raw_xs;
    do c <- objective_o merge (sched raw_xs) (gsco_problem valQ vmerge outside p) xs (gzero valQ (o_d p))
              alpha false (o_tend p);
    Ok (c_cost c).

  (** convex_optimization.rs (offline):60-72 -- the movement constraint of [co]. *)
  Definition co_constraint (p : gsco Q C D) (l : Q) (raw_xs : list Q) : outcome Q :=
    do xs <- from_raw (o_d p) (o_tend p) raw_xs;
    do m <- total_movement_o (gsco_problem valQ vmerge outside p) (gzero valQ (o_d p)) xs false;
    Ok (m - l)%Q.

  (** convex_optimization.rs (offline):24-77 -- [co]. *)
  Definition co (p : gsco Q C D) (inverted : bool) (alpha : Q) (l : option Q) : outcome (list (list Q)) :=
    if inverted then Err UnsupportedInvertedCost else
    do lower <- build_raw (o_tend p) (map fst (o_bounds p));
    do upper <- build_raw (o_tend p) (map snd (o_bounds p));
    let constraints := match l with Some l => [co_constraint p l] | None => [] end in
    do raw_xs <- minimize (co_objective p alpha) (combine lower upper) constraints;
    from_raw (o_d p) (o_tend p) raw_xs.

  (** horizon_control/mod.rs:35-40 -- the bounds: [w + 1] copies of [(0, bounds[k])];
      indexing panics if there are fewer than [d] bounds (a negative [d] is huge). *)
  Definition hc_bounds (p : gssco Q C D) (w : Z) : outcome (list (Q * Q)) :=
    do bs <- omap (fun _ =>
               if g_d p <? 0 then Panic
               else omap (fun k => do b <- from_option (nth_error (g_bounds p) k); Ok (0%Q, b))
                         (seq 0 (Z.to_nat (g_d p))))
             (seq 0 (Z.to_nat (w + 1)));
    Ok (concat bs).

  (** horizon_control/mod.rs:41-50 -- the objective. *)
  Definition hc_objective (p : gssco Q C D) (w t_start : Z) (prev_x raw_xs : list Q) : outcome ext :=
    do xs <- from_raw (g_d p) (w + 1) raw_xs;
    let p' := ssco_reset p (t_start - 1) in
    do c <- objective_o merge (sched raw_xs) (gssco_problem valQ vmerge outside p') xs prev_x 1 false (g_tend p');
    Ok (c_cost c).

  (** horizon_control/mod.rs:21-60 -- [next]. *)
  Definition hc_next (k : Z) (p : gssco Q C D) (w t : Z) (prev_x : list Q) : outcome (list Q * list Q) :=
    if (1 <=? k) && (k <=? w + 1) then
      let t_start := t + k - (w + 1) in
      do bounds <- hc_bounds p w;
      do raw_xs <- minimize (hc_objective p w t_start prev_x) bounds [];
      let offset := g_d p * (t - t_start) in
      do first <- slice raw_xs 0 (g_d p);
      do now <- slice raw_xs offset (g_d p);
      Ok (first, now)
    else Panic.

  (** receding_horizon_control.rs:10-24 -- [rhc]; [now_with_default] (src/schedule.rs:55-62)
      is the last configuration.  The memory is the unit type. *)
  Definition rhc (p : gssco Q C D) (w t : Z) (xs : list (list Q)) : outcome (list Q) :=
    let prev_x := last xs (gzero valQ (g_d p)) in
    do r <- hc_next (w + 1) p w t prev_x;
    Ok (snd r).

  (** averaging_fixed_horizon_control.rs:31-37 -- the default memory. *)
  Definition afhc_default (p : gssco Q C D) (w : Z) : list (list Q) :=
    repeat (gzero valQ (g_d p)) (Z.to_nat (w + 1)).

  (** averaging_fixed_horizon_control.rs:54-59 -- the loop over [ks]. *)
  Fixpoint afhc_loop (p : gssco Q C D) (w t : Z) (memory : list (list Q)) (ks : list Z)
      (x : list Q) (prev_x : list (list Q)) : outcome (list Q * list (list Q)) :=
    match ks with
    | [] => Ok (x, prev_x)
    | k :: ks' =>
        do m <- from_option (nth_error memory (Z.to_nat (k - 1)));
        do r <- hc_next k p w t m;
        afhc_loop p w t memory ks' (config_plus x (snd r)) (prev_x ++ [fst r])
    end.

  (** averaging_fixed_horizon_control.rs:41-61 -- [afhc]: configuration and memory. *)
  Definition afhc (p : gssco Q C D) (w t : Z) (memory : list (list Q)) : outcome (list Q * list (list Q)) :=
    do r <- afhc_loop p w t memory (zrange 1 (w + 1)) (gzero valQ (g_d p)) [];
    Ok (config_quot (fst r) (inject_Z (w + 1)), snd r).

  (** src/algorithms/online/mod.rs:80-94 -- [next] for [rhc] and [afhc]: the current slot
      follows the schedule; a missing memory is replaced by the default one. *)
  Definition rhc_next (p : gssco Q C D) (w : Z) (xs : list (list Q)) : outcome (list Q) :=
    rhc p w (Z.of_nat (length xs) + 1) xs.
  Definition afhc_next (p : gssco Q C D) (w : Z) (xs : list (list Q)) (m : option (list (list Q)))
      : outcome (list Q * list (list Q)) :=
    afhc p w (Z.of_nat (length xs) + 1) (match m with Some b => b | None => afhc_default p w end).
End Window.
