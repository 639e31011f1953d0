(** Model of src/algorithms/online/multi_dimensional/lazy_budgeting/smoothed_balanced_load_optimization.rs.
    No proofs. *)
From Verif Require Export GraphSearchModel StreamModel LoadModel.
From Verif Require Export CostModel.
Local Open Scope Z_scope.

(** Costs of a single dimension (src/cost.rs -- [FailableCostFn]). *)
Definition dim_cost : Type := cost_fn Q unit dc_failure.

(** smoothed_balanced_load_optimization.rs:247-254 -- [AlgBMemory]. *)
Record algb_memory : Type := mkAB {
  ab_init : list (list Z);
  ab_cache : option gcache
}.
(** [AlgBMemory::default] (derived). *)
Definition algb_default : algb_memory := mkAB [] None.

(** smoothed_balanced_load_optimization.rs:26-38 -- [Memory]. *)
Record sblo_memory : Type := mkBM {
  bm_load : list Z;
  bm_cost : list dim_cost;
  bm_xs : list (list Z);
  bm_prev : option algb_memory
}.

(** smoothed_balanced_load_optimization.rs:51-60 -- [Memory::default]. *)
Definition sblo_default (d : Z) : sblo_memory := mkBM [] (repeat cf_empty (Z.to_nat d)) [] None.

(** All configurations between 0 and the bounds. *)
Fixpoint all_configs (bounds : list Z) : list (list Z) :=
  match bounds with
  | [] => [[]]
  | u :: r => flat_map (fun j => map (cons j) (all_configs r)) (zrange 0 u)
  end.

Definition is_ok {A} (r : outcome A) : bool := match r with Ok _ => true | _ => false end.

(** The cost of a successful evaluation. *)
Definition evaluated (r : outcome (cost dc_success dc_failure)) : cost dc_success dc_failure :=
  match r with Ok c => c | _ => mkCost Inf MNone end.

(** smoothed_balanced_load_optimization.rs:324-333 -- [cumulative_idle_hitting_cost]. *)
Definition cumulative_idle (f : dim_cost) (from to : Z) : outcome ext :=
  do cs <- omap (fun t => call_certain f t 0%Q) (zrange from to);
  Ok (fold_left (fun s c => eadd s (c_cost c)) cs (Fin 0)).

(** smoothed_balanced_load_optimization.rs:301-322 -- [deactivated_quantity]; the order of the
    parallel (integer) sum does not matter. *)
Definition deactivated_quantity (f : dim_cost) (beta : Q) (init_times : list (list Z)) (t_now : Z) (k : nat)
    : outcome Z :=
  do qs <- omap (fun t =>
    do cum_l <- cumulative_idle f (t + 1) (t_now - 1);
    do c <- call_certain f t_now 0%Q;
    if eleb cum_l (Fin beta) && eltb (Fin beta) (eadd cum_l (c_cost c)) then
      do row <- from_option (access init_times t);
      from_option (nth_error row k)
    else Ok 0) (zrange 1 (t_now - 1));
  Ok (fold_left Z.add qs 0).

Section LazyBudgeting.
  (** The numerical solver used by the hitting cost. *)
  Variable minimize :
    (list Q -> outcome ext) -> list (Q * Q) -> list Q -> list (list Q -> outcome Q) -> option (list Q * ext).
  (** rayon's division of work in the graph search at each slot. *)
  Variable sched : Z -> Z -> vertice -> split.

  (** The hitting cost of [p.into_ssco()]. *)
  Definition balanced_hit (p : gsblo Z) (t : Z) (x : list Z) : outcome (cost dc_success dc_failure) :=
    gssco_hit valZ dc_vmerge OutsideDecisionSpace (into_ssco valZ minimize p) t x.

  (** The problem searched, where all hitting costs can be evaluated. *)
  Definition balanced_search (p : gsblo Z) : ssco dc_success dc_failure :=
    let q := into_ssco valZ minimize p in
    mkSSCO (g_d q) (g_tend q) (g_bounds q) (g_switching q) (fun t x => evaluated (balanced_hit p t x)).

  (** smoothed_balanced_load_optimization.rs:335-346 -- [find_optimal_config].  The search
      evaluates the hitting costs of all configurations at all slots that are not cached; it
      panics if one of the evaluations does. *)
  Definition find_optimal_config (cache : option gcache) (p : gsblo Z) : outcome (list Z * gcache) :=
    let from := match cache with Some c => ca_t c + 1 | None => 1 end in
    if forallb (fun t => forallb (fun x => is_ok (balanced_hit p t x)) (all_configs (b_bounds p)))
         (zrange from (b_tend p))
    then
      do r <- optimal_graph_search OutsideDecisionSpace (sched (b_tend p)) (balanced_search p) cache false 1 None;
      do now <- from_option (nth_error (gp_xs (fst r)) (length (gp_xs (fst r)) - 1));
      Ok (now, snd r)
    else Panic.

  (** smoothed_balanced_load_optimization.rs:271-289 -- dimension [k]: servers powered up and
      configuration. *)
  Definition algb_dimension (p : gsblo Z) (t : Z) (prev_x : list Z) (init_times : list (list Z)) (opt_x : list Z)
      (k : nat) : outcome (Z * Z) :=
    do prev <- from_option (nth_error prev_x k);
    do f <- from_option (nth_error (b_cost p) k);
    do beta <- from_option (nth_error (b_switching p) k);
    do gone <- deactivated_quantity f beta init_times t k;
    do opt <- from_option (nth_error opt_x k);
    let j := prev - gone in
    Ok (if j <? opt then (opt - j, opt) else (0, j)).

  (** smoothed_balanced_load_optimization.rs:256-299 -- [alg_b]. *)
  Definition alg_b (o : online (gsblo Z)) (t : Z) (xs : list (list Z)) (m : algb_memory)
      : outcome (list Z * option algb_memory) :=
    let p := on_p o in
    do r <- find_optimal_config (ab_cache m) p;
    let prev_x := last xs (repeat 0 (Z.to_nat (b_d p))) in
    do new <- omap (algb_dimension p t prev_x (ab_init m) (fst r)) (seq 0 (Z.to_nat (b_d p)));
    Ok (map snd new, Some (mkAB (ab_init m ++ [map fst new]) (Some (snd r)))).

  (** [Iterator::max] of fractions; [None] if empty. *)
  Definition qmax_of (l : list Q) : option Q :=
    match l with [] => None | a :: r => Some (fold_left (fun m x => if Qltb m x then x else m) r a) end.

  (** smoothed_balanced_load_optimization.rs:154-168 -- [determine_sub_time_slots].  An
      infinite idle cost and divisions by 0 would give an infinite number of sub-slots (or a
      not-a-number), shown as a panic. *)
  Definition determine_sub_time_slots (p : gsblo Z) (t : Z) (epsilon : Q) : outcome Z :=
    do fracts <- omap (fun k =>
      do f <- from_option (nth_error (b_cost p) k);
      do c <- call_certain f t 0%Q;
      do beta <- from_option (nth_error (b_switching p) k);
      match c_cost c with
      | Fin l => if Qeq_bool beta 0 then Panic else Ok (l / beta)%Q
      | Inf => Panic
      end) (seq 0 (Z.to_nat (b_d p)));
    do max_fract <- from_option (qmax_of fracts);
    if Qeq_bool epsilon 0 then Panic else Ok (Qceiling (inject_Z (b_d p) / epsilon * max_fract)).

  (** smoothed_balanced_load_optimization.rs:187-200 -- the cost registered for the sub-slots
      [u_init..u_end] of slot [t]. *)
  Definition sub_slot_cost (raw : dim_cost) (t n u_init u_end : Z) : single_fn Q unit dc_failure :=
    certain (fun u x =>
      if (u_init <=? u) && (u <=? u_end) then
        do c <- call_certain raw t x;
        Ok (mkCost (escale (1 / inject_Z n) (c_cost c)) (c_out c))
      else Panic).

  (** smoothed_balanced_load_optimization.rs:171-216 -- [modify_problem]: the problem (its
      loads and costs are also the new memory). *)
  Definition modify_problem (p : gsblo Z) (load : list Z) (costs : list dim_cost) (t n u_init u_end : Z)
      : outcome (gsblo Z) :=
    if negb (u_end - u_init + 1 =? n) then Panic else
    do new <- omap (fun k =>
      do raw <- from_option (nth_error (b_cost p) k);
      do f <- from_option (nth_error costs k);
      Ok (cf_add f u_init (sub_slot_cost raw t n u_init u_end))) (seq 0 (Z.to_nat (b_d p)));
    do l <- from_option (access (b_load p) t);
    if n <? 0 then Panic else
    let load' := load ++ repeat l (Z.to_nat n) in
    if negb (Z.of_nat (length load') =? u_end) then Panic else
    Ok (mkGSBLO (b_d p) u_init (b_bounds p) (b_switching p) (new ++ skipn (Z.to_nat (b_d p)) costs) load').

  (** smoothed_balanced_load_optimization.rs:218-245 -- the loop of [determine_config]. *)
  Fixpoint least_slot (p : gsblo Z) (xs : list (list Z)) (us : list Z) (best : Z * ext) : outcome (Z * ext) :=
    match us with
    | [] => Ok best
    | u :: us' =>
        do x <- from_option (access xs u);
        do c <- sblo_hit valZ minimize p u x;
        least_slot p xs us' (if eltb (c_cost c) (snd best) then (u, c_cost c) else best)
    end.
  Definition determine_config (p : gsblo Z) (xs : list (list Z)) (u_init u_end : Z) : outcome (list Z) :=
    do x0 <- from_option (access xs u_init);
    do c0 <- sblo_hit valZ minimize p u_init x0;
    do r <- least_slot p xs (zrange (u_init + 1) u_end) (u_init, c_cost c0);
    from_option (access xs (fst r)).

  (** src/problem.rs:352-417, src/verifiers.rs:179-235 -- SBLO as a problem to be streamed. *)
  Definition sblo_ops : problem_ops (gsblo Z) (list Z) dc_success dc_failure :=
    mkOps b_tend
      (fun p t => mkGSBLO (b_d p) t (b_bounds p) (b_switching p) (b_cost p) (b_load p))
      (verify_sblo valZ)
      (fun p xs => objective_o dc_hmerge Leaf (sblo_problem valZ minimize p) xs (repeat 0 (Z.to_nat (b_d p))) 1 false (b_tend p)).

  (** smoothed_balanced_load_optimization.rs:88-151 -- [lb]. *)
  Definition sblo_lb (epsilon : Q) (o : online (gsblo Z)) (t : Z) (_ : list (list Z)) (m : sblo_memory)
      : outcome (list Z * option sblo_memory) :=
    if negb (on_w o =? 0) then Err UnsupportedPredictionWindow
    else
      do n <- determine_sub_time_slots (on_p o) t epsilon;
      let u_init := Z.of_nat (length (bm_load m)) + 1 in
      let u_end := u_init + n - 1 in
      do q <- modify_problem (on_p o) (bm_load m) (bm_cost m) t n u_init u_end;
      match offline_stream_from sblo_ops alg_b (fun _ => algb_default) u_end (mkOnline q 0) (bm_xs m) (bm_prev m) with
      | Some (o', mod_xs, Ok prev) =>
          do config <- determine_config (on_p o') mod_xs u_init u_end;
          Ok (config, Some (mkBM (b_load q) (b_cost q) mod_xs prev))
      | Some (_, _, Err f) => Err f
      | _ => Panic
      end.

  (** src/algorithms/online/mod.rs:80-94 -- [next], repeated for [n] slots of a known problem. *)
  Definition sblo_at (p : gsblo Z) (t : Z) : gsblo Z :=
    mkGSBLO (b_d p) t (b_bounds p) (b_switching p) (b_cost p) (b_load p).
  Fixpoint sblo_steps (epsilon : Q) (p : gsblo Z) (n : nat) (xs : list (list Z)) (m : option sblo_memory)
      : outcome (list (list Z) * option sblo_memory) :=
    match n with
    | O => Ok (xs, m)
    | S n' =>
        let t := Z.of_nat (length xs) + 1 in
        do r <- sblo_lb epsilon (mkOnline (sblo_at p t) 0) t xs
                  (match m with Some m => m | None => sblo_default (b_d p) end);
        sblo_steps epsilon p n' (xs ++ [fst r]) (snd r)
    end.
  Definition sblo_run (epsilon : Q) (p : gsblo Z) (n : nat) : outcome (list (list Z) * option sblo_memory) :=
    sblo_steps epsilon p n [] None.
End LazyBudgeting.
