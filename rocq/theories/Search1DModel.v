(** Model of src/algorithms/offline/uni_dimensional/optimal_graph_search.rs.
    No proofs. *)
From Verif Require Export ProblemModel.
Local Open Scope Z_scope.

(** src/algorithms/offline/graph_search.rs:22-27 -- [Path].  One-dimensional
    configurations [Config::single(j)] are represented by [j]. *)
Record path : Type := mkPath { pa_xs : list Z; pa_cost : ext }.

(** optimal_graph_search.rs: [Vertice(t, j)] and [Paths] (a [HashMap]); the most
    recent insertion is found first. *)
Definition paths : Type := list ((Z * Z) * path).

Fixpoint lookup (ps : paths) (v : Z * Z) : option path :=
  match ps with
  | [] => None
  | (k, p) :: r =>
      if (fst k =? fst v) && (snd k =? snd v) then Some p else lookup r v
  end.

Definition insert (ps : paths) (v : Z * Z) (p : path) : paths := (v, p) :: ps.

Section Search.
  (** [p.hit_cost(t, Config::single(j)).cost], the switching cost
      [p.switching_cost[0]], and the arguments of the algorithm. *)
  Variable hit : Z -> Z -> ext.
  Variable beta : Q.
  Variable alpha : Q.
  Variable inverted : bool.
  Variable x_start : Z.

  (** optimal_graph_search.rs:206-224 -- [build_cost]: hitting cost of [j] plus
      [alpha] times the movement from [i] to [j]. *)
  Definition build_cost (t i j : Z) : ext :=
    eadd (hit t j)
         (Fin (alpha * scaled_movement inject_Z [beta] [j] [i] inverted)).

  (** optimal_graph_search.rs:194-202 -- the loop over sources. *)
  Fixpoint pick_source (ps : paths) (t to : Z) (from : list Z)
      (picked : Z * ext) : outcome (Z * ext) :=
    match from with
    | [] => Ok picked
    | source :: from' =>
        do prev <- from_option (lookup ps (t - 1, source));
        let new_cost := eadd (pa_cost prev) (build_cost t source to) in
        pick_source ps t to from'
          (if eltb new_cost (snd picked) then (source, new_cost) else picked)
    end.

  (** optimal_graph_search.rs:226-233 -- [update_paths]. *)
  Definition update_paths (ps : paths) (t i j : Z) (c : ext) : outcome paths :=
    do prev <- from_option (lookup ps (t - 1, i));
    Ok (insert ps (t, j) (mkPath (pa_xs prev ++ [j]) c)).

  (** optimal_graph_search.rs:180-204 -- [find_shortest_subpath];
      [from[0]] panics on an empty vector. *)
  Definition find_shortest_subpath (ps : paths) (t : Z) (from : list Z) (to : Z)
      : outcome paths :=
    match from with
    | [] => Panic
    | s0 :: _ =>
        do picked <- pick_source ps t to from (s0, Inf);
        update_paths ps t (fst picked) to (snd picked)
    end.

  (** optimal_graph_search.rs:152-156 -- the loop over the rows of a layer. *)
  Fixpoint find_subpaths (ps : paths) (t : Z) (from rows : list Z) : outcome paths :=
    match rows with
    | [] => Ok ps
    | j :: rows' =>
        do ps' <- find_shortest_subpath ps t from j;
        find_subpaths ps' t from rows'
    end.

  (** optimal_graph_search.rs:150-158 -- the loop over time slots [ts].
      [select_rows t] may panic (it indexes the previous schedule). *)
  Fixpoint find_layers (select_rows : Z -> outcome (list Z)) (ps : paths)
      (prev_rows : list Z) (ts : list Z) : outcome (paths * list Z) :=
    match ts with
    | [] => Ok (ps, prev_rows)
    | t :: ts' =>
        do rows <- select_rows t;
        do ps' <- find_subpaths ps t prev_rows rows;
        find_layers select_rows ps' rows ts'
    end.

  (** optimal_graph_search.rs:160-177 -- picking the best final vertex. *)
  Fixpoint pick_final (ps : paths) (t_end : Z) (rows : list Z) (result : path)
      : outcome path :=
    match rows with
    | [] => Ok result
    | i :: rows' =>
        do p <- from_option (lookup ps (t_end, i));
        pick_final ps t_end rows'
          (if eltb (pa_cost p) (pa_cost result) then p else result)
    end.

  (** optimal_graph_search.rs:130-178 -- [find_schedule]. *)
  Definition find_schedule (t_end : Z) (select_rows : Z -> outcome (list Z))
      : outcome path :=
    let initial := insert [] (0, x_start) (mkPath [] (Fin 0)) in
    do layers <- find_layers select_rows initial [x_start] (zrange 1 t_end);
    pick_final (fst layers) t_end (snd layers) (mkPath [] Inf).

  (** optimal_graph_search.rs:111-115 -- [select_initial_rows]. *)
  Definition select_initial_rows (m : Z) (_ : Z) : outcome (list Z) :=
    Ok (map (fun e => e * m / 4) [0; 1; 2; 3; 4]).

  (** optimal_graph_search.rs:117-128 -- [select_next_rows]; [xs[t-1]] panics
      when out of range. *)
  Definition select_next_rows (m : Z) (xs : list Z) (k : Z) (t : Z)
      : outcome (list Z) :=
    do x <- from_option (nth_error xs (Z.to_nat (t - 1)));
    Ok (filter (fun j => (0 <=? j) && (j <=? m))
               (map (fun e => x + e * 2 ^ k) [-2; -1; 0; 1; 2])).

  (** optimal_graph_search.rs:67-75 -- the refinement loop [for k in (0..n).rev()]. *)
  Fixpoint refine (t_end m : Z) (n : nat) (p : path) : outcome path :=
    match n with
    | O => Ok p
    | S k =>
        do p' <- find_schedule t_end (select_next_rows m (pa_xs p) (Z.of_nat k));
        refine t_end m k p'
    end.

  (** optimal_graph_search.rs:59-63 -- [k_init]; [(m as f64).log(2.) as u32] is the
      integral logarithm, [m] being a power of two here.  ([u32] subtraction does
      not underflow because m > 2 is at least 4.) *)
  Definition k_init (m : Z) : nat :=
    if 2 <? m then Z.to_nat (Z.log2 m - 2) else 0%nat.

  (** optimal_graph_search.rs:59-77 -- the search on a power-of-two bound. *)
  Definition search_pow2 (t_end m : Z) : outcome path :=
    do p <- find_schedule t_end (select_initial_rows m);
    refine t_end m (k_init m) p.
End Search.

(** [f64::EPSILON] = 2^-52. *)
Definition f64_epsilon : Q := 1 # (2 ^ 52).

(** optimal_graph_search.rs:88-89 -- the padded bound [2^ceil(log2 m)].  For
    [prev_m = 0] the float logarithm is -inf and the cast to [u32] saturates at 0. *)
Definition padded_bound (prev_m : Z) : Z := 2 ^ Z.log2_up prev_m.

Section Top.
  Context {C D : Type}.
  Variable outside : D.

  (** optimal_graph_search.rs:81-109 -- [make_pow_of_2]: the padded instance. *)
  Definition make_pow_of_2 (p : ssco C D) (prev_m : Z) : ssco C D :=
    mkSSCO (s_d p) (s_tend p) [padded_bound prev_m] (s_switching p)
      (fun t x =>
         match x with
         | j :: _ =>
             if j <=? prev_m then ssco_hit_cost outside p t x
             else
               let c := ssco_hit_cost outside p t [prev_m] in
               mkCost (escale (inject_Z j) (eadd (c_cost c) (Fin f64_epsilon))) (c_out c)
         | [] => mkCost Inf (MFailure outside)   (* x[0] panics; never called with [] *)
         end).

  (** optimal_graph_search.rs:43-78 -- [optimal_graph_search].  [l] is the
      movement constraint of [OfflineOptions].  An instance with d = 1 whose
      vectors of bounds and switching costs do not have length 1 panics when
      they are indexed (simplified: also when t_end = 0). *)
  Definition optimal_graph_search_1d (p : ssco C D) (x_start : Z)
      (inverted : bool) (alpha : Q) (l : option Q) : outcome path :=
    match l with
    | Some _ => Err UnsupportedLConstrainedMovement
    | None =>
        if negb (s_d p =? 1) then Err UnsupportedProblemDimension
        else
          match s_bounds p, s_switching p with
          | [m0], [beta] =>
              let p' := if is_pow_of_2 m0 then p else make_pow_of_2 p m0 in
              let m := if is_pow_of_2 m0 then m0 else padded_bound m0 in
              search_pow2 (fun t j => c_cost (ssco_hit_cost outside p' t [j]))
                beta alpha inverted x_start (s_tend p) m
          | _, _ => Panic
          end
    end.
End Top.
