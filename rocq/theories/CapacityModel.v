(** Model of src/algorithms/capacity_provisioning.rs,
    src/algorithms/online/uni_dimensional/lazy_capacity_provisioning.rs and
    src/algorithms/offline/uni_dimensional/capacity_provisioning.rs.  No proofs. *)
From Verif Require Export Search1DModel ConvertModel.
Local Open Scope Z_scope.

(** src/utils.rs:22-44, 54-60 -- [max], [min] and [project]; [gtb x y] is [x > y]. *)
Section Project.
  Context {T : Type}.
  Variable gtb : T -> T -> bool.
  Definition vmax (x y : T) : T := if gtb x y then x else y.
  Definition vmin (x y : T) : T := if gtb x y then y else x.
  Definition project (x a b : T) : T := vmax a (vmin b x).
End Project.

(** capacity_provisioning.rs:21-25 -- [BoundsMemory]. *)
Record bounds_memory (T : Type) : Type := mkBM { bm_lower : T; bm_upper : T }.
Arguments mkBM {T} bm_lower bm_upper.
Arguments bm_lower {T} b.
Arguments bm_upper {T} b.

(** ** Integral bounds *)
Section Integral.
  Context {C D : Type}.
  Variable outside : D.

  (** src/convert.rs:448-459 -- [SSCO::reset] on the instances of Search1DModel.v (whose
      [s_hit] stands for the mean cost); for slots before the first one the shifted cost
      function answers the default cost (src/convert.rs:433-435). *)
  Definition ssco_shift (p : ssco C D) (t_start : Z) : ssco C D :=
    mkSSCO (s_d p) (s_tend p - t_start) (s_bounds p) (s_switching p)
      (fun t x => if 1 <=? t + t_start then s_hit p (t + t_start) x else cost_default).

  (** [p.t_end += w]. *)
  Definition ssco_extend (p : ssco C D) (w : Z) : ssco C D :=
    mkSSCO (s_d p) (s_tend p + w) (s_bounds p) (s_switching p) (s_hit p).

  (** capacity_provisioning.rs:202-228 -- [find_bound] (integral).  The last line indexes
      the schedule at [(t_end - t_start) as usize - 1]. *)
  Definition find_bound_i (p : ssco C D) (alpha : Q) (inverted : bool) (w t_end t_start x_start : Z)
      : outcome Z :=
    if s_tend p <? t_end then Panic
    else if negb (s_d p =? 1) then Err UnsupportedProblemDimension
    else if t_end <=? 0 then Ok 0
    else
      do result <- optimal_graph_search_1d outside (ssco_extend (ssco_shift p t_start) w) x_start
                     inverted alpha None;
      if t_end - t_start <=? 0 then Panic
      else from_option (nth_error (pa_xs result) (Z.to_nat (t_end - t_start) - 1)).

  (** capacity_provisioning.rs:40-50, 60-70, 176-200 -- the bounds of the integral
      problem: [find_lower_bound], [find_upper_bound] fix [alpha = 1]. *)
  Definition lower_bound_i (p : ssco C D) (w t_end t_start x_start : Z) : outcome Z :=
    find_bound_i p 1 false w t_end t_start x_start.
  Definition upper_bound_i (p : ssco C D) (w t_end t_start x_start : Z) : outcome Z :=
    find_bound_i p 1 true w t_end t_start x_start.
End Integral.

(** ** Fractional bounds *)
Section Fractional.
  Context {C D : Type}.
  Variable vmerge : C -> C -> outcome C.
  Variable merge : C -> C -> C.
  Variable outside : D.
  (** rayon's division of the parallel sum. *)
  Variable sched : split.
  (** [find_minimizer] (src/numerics/convex_optimization.rs): external optimiser. *)
  Variable minimizer : (list Q -> outcome ext) -> list (Q * Q) -> outcome (list Q).

  Definition gssco_extend (p : gssco Q C D) (w : Z) : gssco Q C D :=
    mkGSSCO (g_d p) (g_tend p + w) (g_bounds p) (g_switching p) (g_cost p).

  (** capacity_provisioning.rs:140-158 -- the objective given to the optimiser: note the
      horizon [t_end + w] although time was shifted by [t_start]. *)
  Definition bound_objective (p : gssco Q C D) (alpha : Q) (inverted : bool) (w t_end : Z) (x_start : Q)
      (xs : list Q) : outcome ext :=
    do c <- objective_o merge sched (gssco_problem valQ vmerge outside p) (map (fun x => [x]) xs)
              [x_start] alpha inverted (t_end + w);
    Ok (c_cost c).

  (** capacity_provisioning.rs:123-165 -- [find_bound] (fractional). *)
  Definition find_bound_f (p : gssco Q C D) (alpha : Q) (inverted : bool) (w t_end t_start : Z) (x_start : Q)
      : outcome Q :=
    if g_tend p <? t_end then Panic
    else if negb (g_d p =? 1) then Err UnsupportedProblemDimension
    else if t_end <=? 0 then Ok 0%Q
    else
      let p' := gssco_extend (ssco_reset p t_start) w in
      do m <- from_option (nth_error (g_bounds p') 0);
      do xs <- minimizer (bound_objective p' alpha inverted w t_end x_start)
                 (repeat (0%Q, m) (Z.to_nat (t_end - t_start)));
      if negb (Z.of_nat (length xs) =? t_end - t_start) || (t_end - t_start <=? 0) then Panic
      else from_option (nth_error xs (Z.to_nat (t_end - t_start) - 1)).

  Definition lower_bound_f (p : gssco Q C D) (w t_end t_start : Z) (x_start : Q) : outcome Q :=
    find_bound_f p 1 false w t_end t_start x_start.
  Definition upper_bound_f (p : gssco Q C D) (w t_end t_start : Z) (x_start : Q) : outcome Q :=
    find_bound_f p 1 true w t_end t_start x_start.

  Definition qgtb (x y : Q) : bool := Qltb y x.

  (** offline/uni_dimensional/capacity_provisioning.rs:51-65 -- [next]. *)
  Definition brcp_next (p : gssco Q C D) (alpha : Q) (t : Z) (x : Q) : outcome (Q * bounds_memory Q) :=
    do lower <- find_bound_f p alpha false 0 t 0 0;
    do upper <- find_bound_f p alpha true 0 t 0 0;
    Ok (project qgtb x lower upper, mkBM lower upper).

  (** offline/uni_dimensional/capacity_provisioning.rs:39-46 -- the loop
      [for t in (1..=t_end).rev()], [n] being the number of slots left. *)
  Fixpoint brcp_loop (p : gssco Q C D) (alpha : Q) (n : nat) (x : Q) (xs : list (list Q))
      (bounds : list (bounds_memory Q)) : outcome (list (list Q) * list (bounds_memory Q)) :=
    match n with
    | O => Ok (xs, bounds)
    | S n' =>
        do r <- brcp_next p alpha (Z.of_nat n) x;
        brcp_loop p alpha n' (fst r) ([fst r] :: xs) (snd r :: bounds)
    end.

  (** offline/uni_dimensional/capacity_provisioning.rs:24-49 -- [brcp]. *)
  Definition brcp (p : gssco Q C D) (inverted : bool) (alpha : Q) (l : option Q)
      : outcome (list (list Q) * list (bounds_memory Q)) :=
    if inverted then Err UnsupportedInvertedCost
    else match l with
    | Some _ => Err UnsupportedLConstrainedMovement
    | None =>
        if negb (g_d p =? 1) then Err UnsupportedProblemDimension
        else brcp_loop p alpha (Z.to_nat (g_tend p)) 0 [] []
    end.
End Fractional.

(** ** Lazy capacity provisioning *)
Section LCP.
  Context {T : Type}.
  Variable v : value T.

  (** Comparison [x > y] of values. *)
  Definition v_gtb (x y : T) : bool := Qltb (v_toQ v y) (v_toQ v x).

  (** src/numerics/mod.rs:9 -- [PRECISION * 10.]. *)
  Definition precision10 : Q := 1 # 10.

  (** lazy_capacity_provisioning.rs:97-108 -- [is_valid_initial_time]. *)
  Definition is_valid_initial_time (prev cur : bounds_memory T) : bool :=
    v_gtb (bm_upper prev) (bm_upper cur) || v_gtb (bm_lower cur) (bm_lower prev).

  Definition close_bounds (b : bounds_memory T) : bool :=
    Qltb (Qabs.Qabs (v_toQ v (v_sub v (bm_lower b) (bm_upper b)))) precision10.

  (** lazy_capacity_provisioning.rs:72-93 -- [find_initial_time]: the loop
      [for t in (2..=bounds.len()).rev()]; [n] is the current [t]. *)
  Fixpoint find_initial_from (bounds : list (bounds_memory T)) (n : nat) : outcome (Z * T) :=
    match n with
    | S (S k as n') =>
        do prev_bound <- from_option (nth_error bounds k);
        do bound <- from_option (nth_error bounds n');
        if is_valid_initial_time prev_bound bound && close_bounds prev_bound
        then Ok (Z.of_nat n', bm_upper prev_bound)
        else find_initial_from bounds n'
    | _ => Ok (0, v_zero v)
    end.

  Definition find_initial_time (bounds : list (bounds_memory T)) : outcome (Z * T) :=
    find_initial_from bounds (length bounds).

  (** The part of [Online<P>] used by [lcp]: dimension, horizon, prediction window and the
      two bound functions [find_lower_bound], [find_upper_bound]. *)
  Record bounded_online : Type := mkBO {
    bo_d : Z;
    bo_tend : Z;
    bo_w : Z;
    bo_lower : Z -> Z -> Z -> T -> outcome T;
    bo_upper : Z -> Z -> Z -> T -> outcome T
  }.

  (** src/schedule.rs:55-62 -- [now_with_default]; [[0]] is the first entry. *)
  Definition now_value (xs : list (list T)) : outcome T :=
    from_option (nth_error (last xs [v_zero v]) 0).

  (** lazy_capacity_provisioning.rs:35-68 -- [lcp]: the configuration and the memory. *)
  Definition lcp (o : bounded_online) (t : Z) (xs : list (list T)) (bounds : list (bounds_memory T))
      : outcome (list T * list (bounds_memory T)) :=
    if negb (bo_d o =? 1) then Err UnsupportedProblemDimension
    else if negb (t - 1 =? Z.of_nat (length bounds)) then Err OnlineOutOfDateMemory
    else
      do start <- find_initial_time bounds;
      do i <- now_value xs;
      do lower <- bo_lower o (bo_w o) (bo_tend o) (fst start) (snd start);
      do upper <- bo_upper o (bo_w o) (bo_tend o) (fst start) (snd start);
      Ok ([project v_gtb i lower upper], bounds ++ [mkBM lower upper]).

  (** src/algorithms/online/mod.rs:80-94 -- [next] for [lcp]: the current slot follows the
      schedule, the default memory is empty. *)
  Definition lcp_next (o : bounded_online) (xs : list (list T)) (m : option (list (bounds_memory T)))
      : outcome (list T * list (bounds_memory T)) :=
    lcp o (Z.of_nat (length xs) + 1) xs (match m with Some b => b | None => [] end).

  (** [n] consecutive steps, the horizon of the problem being the current slot (as
      arranged by src/streaming/utils.rs); [o t] is the problem at time [t]. *)
  Fixpoint lcp_steps (o : Z -> bounded_online) (n : nat) (xs : list (list T))
      (m : option (list (bounds_memory T))) : outcome (list (list T) * option (list (bounds_memory T))) :=
    match n with
    | O => Ok (xs, m)
    | S n' =>
        do r <- lcp_next (o (Z.of_nat (length xs) + 1)) xs m;
        lcp_steps o n' (xs ++ [fst r]) (Some (snd r))
    end.
End LCP.
Arguments bounded_online : clear implicits.

(** Integral LCP: the problem at time [t] is [p] with horizon [t]. *)
Definition integral_online {C D} (outside : D) (p : ssco C D) (w t : Z) : bounded_online Z :=
  let p' := mkSSCO (s_d p) t (s_bounds p) (s_switching p) (s_hit p) in
  mkBO (s_d p') (s_tend p') w (lower_bound_i outside p') (upper_bound_i outside p').

Definition integral_lcp {C D} (outside : D) (p : ssco C D) (w : Z) (n : nat)
    : outcome (list (list Z) * option (list (bounds_memory Z))) :=
  lcp_steps valZ (integral_online outside p w) n [] None.
