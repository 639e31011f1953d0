(** Model of src/algorithms/online/multi_dimensional/lazy_budgeting/smoothed_load_optimization.rs.
    No proofs. *)
From Verif Require Export GraphSearchModel LoadModel.
Local Open Scope Z_scope.

(** smoothed_load_optimization.rs:24-35 -- [Memory]. *)
Record slo_memory : Type := mkSM {
  sm_lanes : list Z;
  sm_horizons : list Z;
  sm_gamma : Q;
  sm_cache : option gcache
}.

(** [Vec] indexing, panicking when out of range. *)
Definition at_index {A} (l : list A) (k : Z) : outcome A :=
  if k <? 0 then Panic else from_option (nth_error l (Z.to_nat k)).

Definition zsum (l : list Z) : Z := fold_right Z.add 0 l.

(** smoothed_load_optimization.rs:44-52 -- [Memory::default]; [gamma] is the value sampled
    by [sample_gamma] (lines 55-61), an oracle. *)
Definition slo_default (p : gslo Z) (gamma : Q) : slo_memory :=
  let bound := zsum (l_bounds p) in
  mkSM (repeat 0 (Z.to_nat bound)) (repeat 0 (Z.to_nat bound)) gamma None.

(** smoothed_load_optimization.rs:159-173 -- [next_time_horizon].  A zero hitting cost
    makes the quotient infinite; its cast saturates and adding it to [t] overflows, which
    the model shows as a panic. *)
Definition next_time_horizon (hitting_cost switching_cost : list Q) (k : Z) (gamma : Q) (randomized : bool)
    : outcome Z :=
  if k =? 0 then Ok 0
  else
    do b <- at_index switching_cost (k - 1);
    do l <- at_index hitting_cost (k - 1);
    if Qeq_bool l 0 then Panic
    else Ok (Qfloor ((if randomized then gamma else 1) * b / l)).

(** smoothed_load_optimization.rs:175-183 -- [collect_config]. *)
Fixpoint collect_from (config lanes : list Z) : outcome (list Z) :=
  match lanes with
  | [] => Ok config
  | lane :: r =>
      if 0 <? lane then
        do j <- at_index config (lane - 1);
        collect_from (update config (Z.to_nat (lane - 1)) (j + 1)) r
      else collect_from config r
  end.
Definition collect_config (d : Z) (lanes : list Z) : outcome (list Z) :=
  collect_from (repeat 0 (Z.to_nat d)) lanes.

(** smoothed_load_optimization.rs:201-204 -- [active_lanes]. *)
Definition active_lanes (x : list Z) (from to : Z) : outcome Z :=
  do js <- omap (fun k => at_index x (k - 1)) (zrange from to);
  Ok (zsum js).

(** smoothed_load_optimization.rs:190-195 -- the loop over [j] for lane [k] (from 0). *)
Fixpoint pick_lane (x : list Z) (d k : Z) (js : list Z) (lane : Z) : outcome Z :=
  match js with
  | [] => Ok lane
  | j :: js' =>
      do a <- active_lanes x j d;
      pick_lane x d k js' (if k + 1 <=? a then j else lane)
  end.

(** smoothed_load_optimization.rs:185-199 -- [build_lanes]. *)
Definition build_lanes (x : list Z) (d bound : Z) : outcome (list Z) :=
  omap (fun k =>
    do a <- active_lanes x 1 d;
    if k + 1 <=? a then pick_lane x d k (zrange 1 d) 0 else Ok 0)
    (zrange 0 (bound - 1)).

(** [is_sorted] of the reversed horizons. *)
Fixpoint descending (l : list Z) : bool :=
  match l with
  | a :: (b :: _) as r => (b <=? a) && descending r
  | _ => true
  end.

Section LazyBudgeting.
  (** The numerical solver used by the hitting cost of the converted problem. *)
  Variable minimize :
    (list Q -> outcome ext) -> list (Q * Q) -> list Q -> list (list Q -> outcome Q) -> option (list Q * ext).
  (** The hitting costs of the converted problem where their evaluation succeeds (see
      [evaluates] in BudgetSpec.v): the graph search is modelled for such costs only. *)
  Variable hit : Z -> list Z -> cost dc_success dc_failure.
  (** rayon's division of work in the graph search at each slot. *)
  Variable sched : Z -> Z -> vertice -> split.

  (** smoothed_load_optimization.rs:211-213 -- the problem given to the search. *)
  Definition slo_search_problem (p : gslo Z) : ssco dc_success dc_failure :=
    let q := into_ssco valZ minimize (into_sblo p) in
    mkSSCO (g_d q) (g_tend q) (g_bounds q) (g_switching q) hit.

  (** smoothed_load_optimization.rs:206-225 -- [find_optimal_lanes]; the search is called
      with its default options (not inverted, alpha = 1), offline/mod.rs. *)
  Definition find_optimal_lanes (cache : option gcache) (p : gslo Z) (bound : Z) : outcome (list Z * gcache) :=
    do r <- optimal_graph_search OutsideDecisionSpace (sched (l_tend p)) (slo_search_problem p) cache false 1 None;
    do now <- at_index (gp_xs (fst r)) (Z.of_nat (length (gp_xs (fst r))) - 1);
    do lanes <- build_lanes now (l_d p) bound;
    Ok (lanes, snd r).

  (** smoothed_load_optimization.rs:108-135 -- the new lane and horizon of lane [j]. *)
  Definition update_lane (p : gslo Z) (t : Z) (m : slo_memory) (optimal : list Z) (randomized : bool) (j : Z)
      : outcome (Z * Z) :=
    do prev_lane <- at_index (sm_lanes m) j;
    do opt_lane <- at_index optimal j;
    do prev_horizon <- at_index (sm_horizons m) j;
    do h <- next_time_horizon (l_hitting p) (l_switching p) opt_lane (sm_gamma m) randomized;
    Ok (if (prev_lane <? opt_lane) || (prev_horizon <=? t)
        then (opt_lane, t + h)
        else (prev_lane, Z.max prev_horizon (t + h))).

  (** smoothed_load_optimization.rs:85-157 -- [lb]; the parallel map keeps the order. *)
  Definition slo_lb (w : Z) (p : gslo Z) (t : Z) (m : slo_memory) (randomized : bool)
      : outcome (list Z * slo_memory) :=
    if negb (w =? 0) then Err UnsupportedPredictionWindow
    else
      let bound := zsum (l_bounds p) in
      do o <- find_optimal_lanes (sm_cache m) p bound;
      do new <- omap (update_lane p t m (fst o) randomized) (zrange 0 (bound - 1));
      if negb (descending (map snd new)) then Panic
      else
        do config <- collect_config (l_d p) (map fst new);
        Ok (config, mkSM (map fst new) (map snd new) (sm_gamma m) (Some (snd o))).

  (** The problem known at time [t] (src/streaming/utils.rs: the horizon is the current
      slot). *)
  Definition slo_at (p : gslo Z) (t : Z) : gslo Z :=
    mkGSLO (l_d p) t (l_bounds p) (l_switching p) (l_hitting p) (l_load p).

  (** src/algorithms/online/mod.rs:80-94 -- [next], repeated for [n] slots. *)
  Fixpoint slo_steps (p : gslo Z) (randomized : bool) (n : nat) (xs : list (list Z)) (m : slo_memory)
      : outcome (list (list Z) * slo_memory) :=
    match n with
    | O => Ok (xs, m)
    | S n' =>
        let t := Z.of_nat (length xs) + 1 in
        do r <- slo_lb 0 (slo_at p t) t m randomized;
        slo_steps p randomized n' (xs ++ [fst r]) (snd r)
    end.

  Definition slo_run (p : gslo Z) (gamma : Q) (randomized : bool) (n : nat) : outcome (list (list Z) * slo_memory) :=
    slo_steps p randomized n [] (slo_default p gamma).
End LazyBudgeting.
