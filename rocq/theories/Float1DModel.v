(** The one-dimensional graph search in floating-point arithmetic: the code of Search1DModel.v with
    every sum and product of [f64]/[N64] numbers rounded, as in FloatModel.v.  With [rnd] the identity
    these are the functions of Search1DModel.v ([float_search_1d_without_rounding]).  No proofs. *)
From Verif Require Export FloatModel Search1DModel.
Local Open Scope Z_scope.

Section Rounded.
  Variable rnd : Q -> Q.

  Section Search.
    Variable hit : Z -> Z -> ext.
    Variable beta : Q.
    Variable alpha : Q.
    Variable inverted : bool.
    Variable x_start : Z.

    (** optimal_graph_search.rs:206-224 -- [build_cost]. *)
    Definition f_build_cost (t i j : Z) : ext :=
      fadd rnd (hit t j) (Fin (rnd (alpha * f_scaled_movement rnd [beta] [j] [i] inverted))).

    (** optimal_graph_search.rs:194-202 -- the loop over sources. *)
    Fixpoint f_pick_source (ps : paths) (t to : Z) (from : list Z) (picked : Z * ext) : outcome (Z * ext) :=
      match from with
      | [] => Ok picked
      | source :: from' =>
          do prev <- from_option (lookup ps (t - 1, source));
          let new_cost := fadd rnd (pa_cost prev) (f_build_cost t source to) in
          f_pick_source ps t to from'
            (if eltb new_cost (snd picked) then (source, new_cost) else picked)
      end.

    (** optimal_graph_search.rs:180-204 -- [find_shortest_subpath]. *)
    Definition f_find_shortest_subpath (ps : paths) (t : Z) (from : list Z) (to : Z) : outcome paths :=
      match from with
      | [] => Panic
      | s0 :: _ =>
          do picked <- f_pick_source ps t to from (s0, Inf);
          update_paths ps t (fst picked) to (snd picked)
      end.

    (** optimal_graph_search.rs:152-156 and 150-158 -- the loops over rows and time slots. *)
    Fixpoint f_find_subpaths (ps : paths) (t : Z) (from rows : list Z) : outcome paths :=
      match rows with
      | [] => Ok ps
      | j :: rows' =>
          do ps' <- f_find_shortest_subpath ps t from j;
          f_find_subpaths ps' t from rows'
      end.

    Fixpoint f_find_layers (select_rows : Z -> outcome (list Z)) (ps : paths)
        (prev_rows : list Z) (ts : list Z) : outcome (paths * list Z) :=
      match ts with
      | [] => Ok (ps, prev_rows)
      | t :: ts' =>
          do rows <- select_rows t;
          do ps' <- f_find_subpaths ps t prev_rows rows;
          f_find_layers select_rows ps' rows ts'
      end.

    (** optimal_graph_search.rs:130-178 -- [find_schedule]. *)
    Definition f_find_schedule (t_end : Z) (select_rows : Z -> outcome (list Z)) : outcome path :=
      let initial := insert [] (0, x_start) (mkPath [] (Fin 0)) in
      do layers <- f_find_layers select_rows initial [x_start] (zrange 1 t_end);
      pick_final (fst layers) t_end (snd layers) (mkPath [] Inf).

    (** optimal_graph_search.rs:67-75 -- the refinement loop. *)
    Fixpoint f_refine (t_end m : Z) (n : nat) (p : path) : outcome path :=
      match n with
      | O => Ok p
      | S k =>
          do p' <- f_find_schedule t_end (select_next_rows m (pa_xs p) (Z.of_nat k));
          f_refine t_end m k p'
      end.

    (** optimal_graph_search.rs:59-77 -- the search on a power-of-two bound. *)
    Definition f_search_pow2 (t_end m : Z) : outcome path :=
      do p <- f_find_schedule t_end (select_initial_rows m);
      f_refine t_end m (k_init m) p.
  End Search.

  (** Product with a number: rounded; infinity stays (factors are positive where this is used). *)
  Definition fscale (k : Q) (a : ext) : ext :=
    match a with
    | Fin x => Fin (rnd (k * x))
    | Inf => Inf
    end.

  Section Top.
    Context {C D : Type}.
    Variable outside : D.

    (** optimal_graph_search.rs:81-109 -- [make_pow_of_2]. *)
    Definition f_make_pow_of_2 (p : ssco C D) (prev_m : Z) : ssco C D :=
      mkSSCO (s_d p) (s_tend p) [padded_bound prev_m] (s_switching p)
        (fun t x =>
           match x with
           | j :: _ =>
               if j <=? prev_m then ssco_hit_cost outside p t x
               else
                 let c := ssco_hit_cost outside p t [prev_m] in
                 mkCost (fscale (inject_Z j) (fadd rnd (c_cost c) (Fin f64_epsilon))) (c_out c)
           | [] => mkCost Inf (MFailure outside)
           end).

    (** optimal_graph_search.rs:43-78 -- [optimal_graph_search]; the logarithms of the bound are right
        in [f64] for every [i32]. *)
    Definition f_optimal_graph_search_1d (p : ssco C D) (x_start : Z)
        (inverted : bool) (alpha : Q) (l : option Q) : outcome path :=
      match l with
      | Some _ => Err UnsupportedLConstrainedMovement
      | None =>
          if negb (s_d p =? 1) then Err UnsupportedProblemDimension
          else
            match s_bounds p, s_switching p with
            | [m0], [beta] =>
                let p' := if is_pow_of_2 m0 then p else f_make_pow_of_2 p m0 in
                let m := if is_pow_of_2 m0 then m0 else padded_bound m0 in
                f_search_pow2 (fun t j => c_cost (ssco_hit_cost outside p' t [j]))
                  beta alpha inverted x_start (s_tend p) m
            | _, _ => Panic
            end
      end.
  End Top.
End Rounded.
