(** Objective function and multi-dimensional graph search in floating-point arithmetic: the code of
    ProblemModel.v and GraphSearchModel.v with every sum and product of [f64]/[N64] numbers
    rounded.  [rnd] is the rounding; results are assumed to stay below the largest number, so there
    is no overflow.  With [rnd] the identity these are the functions of ProblemModel.v and
    GraphSearchModel.v ([float_search_without_rounding], [float_objective_without_rounding]).  No proofs. *)
From Verif Require Export GraphSearchModel.
Local Open Scope Z_scope.

(** *** Binary64 without an upper bound of exponents (std [f64]): the nearest multiple of the unit in
    the last place, ties to even. *)

(** The greatest [e] with [2 ^ e <= q], for [0 < q]. *)
Definition ilog2 (q : Q) : Z :=
  let e := Z.log2 (Qnum q) - Z.log2 (Zpos (Qden q)) in
  if Qle_bool (Qpower 2 e) q then e else e - 1.

Definition nearest_even (q : Q) : Z :=
  let f := Qfloor q in
  let r := (q - inject_Z f)%Q in
  if Qltb r (1 # 2) then f
  else if Qltb (1 # 2) r then f + 1
  else if Z.even f then f else f + 1.

(** Exponent of the unit in the last place: 53 bits, at least the one of subnormal numbers. *)
Definition ulp_exponent (q : Q) : Z := Z.max (ilog2 q - 52) (-1074).

(** Rounding of numbers [0 <= q]; only such numbers are rounded below. *)
Definition binary64 (q : Q) : Q :=
  if Qle_bool q 0 then 0%Q
  else (inject_Z (nearest_even (q / Qpower 2 (ulp_exponent q))) * Qpower 2 (ulp_exponent q))%Q.

Section Rounded.
  Variable rnd : Q -> Q.

  (** Rounded sum; infinity absorbs. *)
  Definition fadd (a b : ext) : ext :=
    match a, b with
    | Fin x, Fin y => Fin (rnd (x + y))
    | _, _ => Inf
    end.

  (** *** Objective function *)

  (** src/problem.rs:524-539 -- [scaled_movement] of integral configurations: the products are
      rounded and added from the left, starting with 0.  Differences are taken in [i32]; the cast to
      [N64] is exact.  Lengths as in [scaled_movement] (ProblemModel.v). *)
  Fixpoint f_products (switching_cost : list Q) (x prev_x : list Z) (inverted : bool) : list Q :=
    match x, prev_x, switching_cost with
    | j :: x', i :: prev_x', b :: switching_cost' =>
        rnd (b * scalar_movement inject_Z j i inverted) :: f_products switching_cost' x' prev_x' inverted
    | _, _, _ => []
    end.

  Definition f_scaled_movement (switching_cost : list Q) (x prev_x : list Z) (inverted : bool) : Q :=
    fold_left (fun acc y => rnd (acc + y)) (f_products switching_cost x prev_x inverted) 0%Q.

  Section Sums.
    Context {C D : Type}.
    Variable merge : C -> C -> C.

    (** src/cost.rs:73-82 -- the closure adding two costs, and [Sum for Cost]. *)
    Definition f_cost_add (result value : cost C D) : cost C D :=
      mkCost (fadd (c_cost result) (c_cost value)) (merge_output merge (c_out result) (c_out value)).

    Definition f_cost_sum (l : list (cost C D)) : cost C D :=
      match l with
      | [] => cost_default
      | c :: cs => fold_left f_cost_add cs c
      end.

    (** rayon's [sum], see [par_sum] (ProblemModel.v). *)
    Fixpoint f_par_sum (s : split) (l : list (cost C D)) : cost C D :=
      match s with
      | Leaf => f_cost_add (f_cost_sum []) (f_cost_sum l)
      | Node n a b => f_cost_add (f_par_sum a (firstn n l)) (f_par_sum b (skipn n l))
      end.
  End Sums.

  Section Objective.
    Context {C D : Type}.
    Variable merge : C -> C -> C.
    Variable outside : D.

    (** src/problem.rs:171-182 -- the summand of the objective function of an SSCO. *)
    Definition f_step_cost (p : ssco C D) (alpha : Q) (inverted : bool) (t : Z) (prev_x x : list Z) : cost C D :=
      let hitting_cost := if s_tend p <? t then cost_default else ssco_hit_cost outside p t x in
      mkCost (fadd (c_cost hitting_cost) (Fin (rnd (alpha * f_scaled_movement (s_switching p) x prev_x inverted))))
             (c_out hitting_cost).

    (** src/problem.rs:160-183 and 479-498 -- [_objective_function_with_default] of an SSCO. *)
    Definition f_objective_with_default (s : split) (p : ssco C D) (xs : list (list Z)) (default : list Z)
        (alpha : Q) (inverted : bool) (t_end : Z) : cost C D :=
      f_par_sum merge s
        (map (fun t => f_step_cost p alpha inverted t (get_or xs default (t - 1)) (get_or xs default t))
             (zrange 1 t_end)).

    (** src/problem.rs:124-140 -- [alpha_unfair_objective_function]. *)
    Definition f_objective_function (s : split) (p : ssco C D) (xs : list (list Z)) (alpha : Q) : cost C D :=
      f_objective_with_default s p xs (zero_config (s_d p)) alpha false (s_tend p).
  End Objective.

  (** *** Graph search *)

  (** graph_search.rs:341-360 -- the closure given to [fold]. *)
  Definition f_pick_pred (picked : option (edge * gpath)) (c : edge * gpath) : option (edge * gpath) :=
    let new_cost := fadd (gp_cost (snd c)) (e_cost (fst c)) in
    let picked_cost := match picked with
                       | None => Inf
                       | Some (e, p) => fadd (gp_cost p) (e_cost e)
                       end in
    if eltb new_cost picked_cost then Some c else picked.

  (** graph_search.rs:361-378 -- the closure given to [reduce]. *)
  Definition f_join_pred (a b : option (edge * gpath)) : option (edge * gpath) :=
    match a with
    | Some a' =>
        Some (match b with
              | Some b' =>
                  if eleb (fadd (e_cost (fst a')) (gp_cost (snd a'))) (fadd (e_cost (fst b')) (gp_cost (snd b')))
                  then a' else b'
              | None => a'
              end)
    | None => b
    end.

  (** graph_search.rs:341-379 -- rayon's fold and reduce. *)
  Fixpoint f_par_pick (s : split) (l : list (edge * gpath)) : option (edge * gpath) :=
    match s with
    | Leaf => f_join_pred None (fold_left f_pick_pred l None)
    | Node n a b => f_join_pred (f_par_pick a (firstn n l)) (f_par_pick b (skipn n l))
    end.

  (** graph_search.rs:330-379 -- [find_optimal_predecessor]. *)
  Definition f_find_optimal_predecessor (s : split) (preds : list edge) (ps : gpaths)
      : outcome (option (edge * gpath)) :=
    if match preds with [] => true | _ => existsb (fun e => is_finb (e_cost e)) preds end
    then
      do cands <- omap (fun e => do p <- from_option (glookup ps (e_from e)); Ok (e, p)) preds;
      Ok (f_par_pick s cands)
    else Panic.

  (** graph_search.rs:381-404 -- [update_paths]. *)
  Definition f_gupdate_paths (ps : gpaths) (pred : option (edge * gpath)) (to : vertice) : gpaths :=
    ginsert ps to
      (match pred with
       | None => mkGP [] (Fin 0)
       | Some (e, p) =>
           mkGP (if snd (e_from e) && negb (snd to)
                 then gp_xs p ++ [ic_cfg (fst to)] else gp_xs p)
                (fadd (gp_cost p) (e_cost e))
       end).

  Section GraphSearch.
    Variable hit : Z -> list Z -> ext.
    Variable d : Z.
    Variable bounds : list Z.
    Variable switching_cost : list Q.
    Variable alpha : Q.
    Variable inverted : bool.
    Variable vs : gvalues.
    Variable sched : Z -> vertice -> split.

    (** graph_search.rs:269-301 -- the edges from neighbours; [alpha * switching_cost] is rounded
        before it is multiplied with the movement. *)
    Fixpoint f_neighbour_edges (up : bool) (c : iconfig) (ls : list nat) : outcome (list edge) :=
      match ls with
      | [] => Ok []
      | l :: ls' =>
          do prev <- build_config (if up then Previous else Next) vs c l;
          do rest <- f_neighbour_edges up c ls';
          match prev with
          | None => Ok rest
          | Some pc =>
              if (up && negb inverted) || (negb up && inverted) then
                do b <- from_option (nth_error switching_cost l);
                do x <- from_option (nth_error (ic_cfg c) l);
                do y <- from_option (nth_error (ic_cfg pc) l);
                Ok (mkEdge (pc, up)
                      (Fin (rnd (rnd (alpha * b) * scalar_movement inject_Z x y inverted))) :: rest)
              else Ok (mkEdge (pc, up) (Fin 0) :: rest)
          end
      end.

    (** graph_search.rs:253-328 -- [find_immediate_predecessors]. *)
    Definition f_find_immediate_predecessors (t : Z) (up : bool) (k : nat) (c : iconfig)
        : outcome (list edge) :=
      do ns <- f_neighbour_edges up c (seq 0 k);
      let preds :=
        if (1 <? t) || negb up
        then ns ++ [mkEdge (c, negb up) (if up then Fin 0 else hit t (ic_cfg c))]
        else ns in
      if (t =? 1) && up
         && (if list_eq_dec Z.eq_dec (ic_cfg c) (repeat 0 (Z.to_nat d)) then true else false)
      then Ok preds
      else match preds with [] => Panic | _ => Ok preds end.

    (** graph_search.rs:157-194 -- [handle_config]. *)
    Definition f_handle_config (t : Z) (k : nat) (up : bool) (c : iconfig) (ps : gpaths)
        : outcome gpaths :=
      do preds <- f_find_immediate_predecessors t up k c;
      do opt <- f_find_optimal_predecessor (sched t (c, up)) preds ps;
      Ok (f_gupdate_paths ps opt (c, up)).

    (** graph_search.rs:119-137, 110-138, 81-153 and 60-63, as in GraphSearchModel.v. *)
    Fixpoint f_walk (fuel : nat) (t : Z) (k : nat) (up : bool) (c : iconfig) (ps : gpaths)
        (added : list iconfig) : outcome (gpaths * list iconfig) :=
      match fuel with
      | O => Panic
      | S f =>
          do ps' <- f_handle_config t k up c ps;
          do nc <- build_config (dir_of up) vs c (k - 1);
          match nc with
          | None => Ok (ps', added)
          | Some c' => f_walk f t k up c' ps' (added ++ [c'])
          end
      end.

    Fixpoint f_handle_bases (t : Z) (k : nat) (up : bool) (bases : list iconfig)
        (ps : gpaths) (added : list iconfig) : outcome (gpaths * list iconfig) :=
      match bases with
      | [] => Ok (ps, added)
      | b :: bases' =>
          do start <-
            (if Nat.eqb k 1 then Ok (b, added)
             else do o <- build_config (dir_of up) vs b (k - 1);
                  do c <- from_option o;
                  Ok (c, added ++ [c]));
          do r <- f_walk (S (length (v_values vs))) t k up (fst start) ps (snd start);
          f_handle_bases t k up bases' (fst r) (snd r)
      end.

    Fixpoint f_handle_dims (n : nat) (t : Z) (k : nat) (up : bool) (configs : list iconfig)
        (ps : gpaths) : outcome gpaths :=
      match n with
      | O => Ok ps
      | S n' =>
          do r <- f_handle_bases t k up configs ps [];
          f_handle_dims n' t (S k) up (configs ++ snd r) (fst r)
      end.

    Definition f_handle_layer (t : Z) (up : bool) (ps : gpaths) : outcome gpaths :=
      f_handle_dims (Z.to_nat d) t 1 up [build_base_config d bounds vs up] ps.

    Fixpoint f_handle_slots (ts : list Z) (ps : gpaths) : outcome gpaths :=
      match ts with
      | [] => Ok ps
      | t :: ts' =>
          do ps1 <- f_handle_layer t true ps;
          do ps2 <- f_handle_layer t false ps1;
          f_handle_slots ts' ps2
      end.
  End GraphSearch.

  Section TopLevel.
    Context {C D : Type}.
    Variable outside : D.
    Variable sched : Z -> vertice -> split.

    (** graph_search.rs:44-73 -- [graph_search]. *)
    Definition f_graph_search (p : ssco C D) (vs : gvalues) (cache : option gcache)
        (inverted : bool) (alpha : Q) (l : option Q) : outcome (gpath * gcache) :=
      match l with
      | Some _ => Err UnsupportedLConstrainedMovement
      | None =>
          let init := match cache with
                      | Some c => (ca_t c + 1, ca_paths c)
                      | None => (1, [])
                      end in
          do ps <- f_handle_slots (fun t x => c_cost (ssco_hit_cost outside p t x))
                     (s_d p) (s_bounds p) (s_switching p) alpha inverted vs sched
                     (zrange (fst init) (s_tend p)) (snd init);
          do path <- from_option
                       (glookup ps (build_base_config (s_d p) (s_bounds p) vs true, false));
          Ok (path, mkCache (s_tend p) ps)
      end.

    (** optimal_graph_search.rs:27-43 -- [optimal_graph_search]. *)
    Definition f_optimal_graph_search (p : ssco C D) (cache : option gcache)
        (inverted : bool) (alpha : Q) (l : option Q) : outcome (gpath * gcache) :=
      do max_bound <- from_option (max_of (s_bounds p));
      f_graph_search p (mkValues (zrange 0 max_bound) (map Z.to_nat (s_bounds p)))
        cache inverted alpha l.
  End TopLevel.
End Rounded.
