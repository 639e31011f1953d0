(** Model of the integer arithmetic ([i32]) of
    src/algorithms/offline/uni_dimensional/optimal_graph_search.rs and
    src/algorithms/offline/multi_dimensional/approx_graph_search.rs, which the other models treat as
    unbounded.  No proofs. *)
From Verif Require Export ApproxSearchModel Search1DModel.
Local Open Scope Z_scope.

(** Builds of Rust programs: with overflow checks (the default for development and tests), or without
    (the default for releases). *)
Inductive build : Type := Checked | Wrapping.

(** The result of an operation on [i32] whose mathematical value is [z]. *)
Definition wrap (z : Z) : Z := (z + 2 ^ 31) mod 2 ^ 32 - 2 ^ 31.
Definition arith (b : build) (z : Z) : outcome Z :=
  if (- 2 ^ 31 <=? z) && (z <? 2 ^ 31) then Ok z
  else match b with Checked => Panic | Wrapping => Ok (wrap z) end.

Section Search.
  Variable b : build.

  (** [Iterator::map] with a function that may panic, and [collect]. *)
  Fixpoint map_checked (f : Z -> outcome Z) (l : list Z) : outcome (list Z) :=
    match l with
    | [] => Ok []
    | a :: r => do y <- f a; do ys <- map_checked f r; Ok (y :: ys)
    end.

  (** optimal_graph_search.rs:111-115 -- [select_initial_rows]: [e * p.bounds[0] / 4]; the division
      truncates. *)
  Definition machine_initial_rows (m : Z) (_ : Z) : outcome (list Z) :=
    map_checked (fun e => do y <- arith b (e * m); Ok (Z.quot y 4)) [0; 1; 2; 3; 4].

  (** optimal_graph_search.rs:117-128 -- [select_next_rows]: [xs[t - 1][0] + e * 2_i32.pow(k)]. *)
  Definition machine_next_rows (m : Z) (xs : list Z) (k : Z) (t : Z) : outcome (list Z) :=
    do x <- from_option (nth_error xs (Z.to_nat (t - 1)));
    do rows <- map_checked (fun e => do q <- arith b (2 ^ k); do y <- arith b (e * q); arith b (x + y)) [-2; -1; 0; 1; 2];
    Ok (filter (fun j => (0 <=? j) && (j <=? m)) rows).

  Section Problem.
    Variable hit : Z -> Z -> ext.
    Variable beta : Q.
    Variable alpha : Q.
    Variable inverted : bool.
    Variable x_start : Z.
    (** optimal_graph_search.rs:67-75 -- the refinement loop. *)
    Fixpoint machine_refine (t_end m : Z) (n : nat) (p : path) : outcome path :=
      match n with
      | O => Ok p
      | S k =>
          do p' <- find_schedule hit beta alpha inverted x_start t_end (machine_next_rows m (pa_xs p) (Z.of_nat k));
          machine_refine t_end m k p'
      end.
    (** optimal_graph_search.rs:59-77. *)
    Definition machine_search_pow2 (t_end m : Z) : outcome path :=
      do p <- find_schedule hit beta alpha inverted x_start t_end (machine_initial_rows m);
      machine_refine t_end m (k_init m) p.
  End Problem.

  Context {C D : Type}.
  Variable outside : D.
  (** optimal_graph_search.rs:81-109 -- [make_pow_of_2], with the bound [m] computed by [2_i32.pow]. *)
  Definition machine_make_pow_of_2 (p : ssco C D) (prev_m m : Z) : ssco C D :=
    let q := make_pow_of_2 outside p prev_m in
    mkSSCO (s_d q) (s_tend q) [m] (s_switching q) (s_hit q).
  (** optimal_graph_search.rs:43-78 -- [optimal_graph_search]. *)
  Definition machine_graph_search_1d (p : ssco C D) (x_start : Z) (inverted : bool) (alpha : Q) (l : option Q) : outcome path :=
    match l with
    | Some _ => Err UnsupportedLConstrainedMovement
    | None =>
        if negb (s_d p =? 1) then Err UnsupportedProblemDimension
        else
          match s_bounds p, s_switching p with
          | [m0], [beta] =>
              do m <- (if is_pow_of_2 m0 then Ok m0 else arith b (2 ^ Z.log2_up m0));
              let p' := if is_pow_of_2 m0 then p else machine_make_pow_of_2 p m0 m in
              machine_search_pow2 (fun t j => c_cost (ssco_hit_cost outside p' t [j]))
                beta alpha inverted x_start (s_tend p) m
          | _, _ => Panic
          end
    end.
End Search.

(** [f64 as i32]: saturates. *)
Definition saturate (z : Z) : Z := Z.max (- 2 ^ 31) (Z.min (2 ^ 31 - 1) z).

(** approx_graph_search.rs:84-101 -- the loop of [build_values].  The counter [i] overflows only after
    2^31 - 1 iterations, which is not modelled. *)
Fixpoint machine_build_loop (fuel : nat) (gamma : Q) (max_bound : Z) (i : Z) (vs : list Z) : option (list Z) :=
  match fuel with
  | O => None
  | S f =>
      let l := saturate (Qfloor (Qpower gamma i)) in
      if max_bound <? l then Some vs
      else
        let vs1 := push_new vs l in
        let u := saturate (Qceiling (Qpower gamma i)) in
        if max_bound <? u then Some vs1
        else machine_build_loop f gamma max_bound (i + 1) (push_new vs1 u)
  end.
(** approx_graph_search.rs:80-108 -- [build_values]. *)
Definition machine_build_values (fuel : nat) (bounds : list Z) (gamma : Q) : option (outcome (list Z)) :=
  match max_of bounds with
  | None => Some Panic
  | Some max_bound =>
      match machine_build_loop fuel gamma max_bound 1 [0] with
      | None => None
      | Some vs => Some (Ok (sort_values (fold_left push_new bounds vs)))
      end
  end.
(** approx_graph_search.rs:47-60 -- [approx_graph_search]. *)
Definition machine_approx_graph_search {C D : Type} (outside : D) (sched : Z -> vertice -> split)
    (fuel : nat) (p : ssco C D) (gamma : Q) (cache : option gcache) (inverted : bool) (alpha : Q) (l : option Q)
    : option (outcome (gpath * gcache)) :=
  match machine_build_values fuel (s_bounds p) gamma with
  | None => None
  | Some o =>
      Some (do values <- o;
            do vs <- cache_bound_indices values (s_bounds p);
            graph_search outside sched p vs cache inverted alpha l)
  end.
