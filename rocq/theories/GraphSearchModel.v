(** Model of src/algorithms/offline/multi_dimensional/graph_search.rs,
    optimal_graph_search.rs and approx_graph_search.rs.  No proofs. *)
From Verif Require Export ProblemModel.
Local Open Scope Z_scope.

(** offline/multi_dimensional/mod.rs -- [Values]: the allowed values of all
    dimensions and, per dimension, the index of its bound. *)
Record gvalues : Type := mkValues { v_values : list Z; v_bound : list nat }.

(** graph_search.rs:21-26 -- [InternalConfig]. *)
Record iconfig : Type := mkIC { ic_cfg : list Z; ic_idx : list nat }.

(** graph_search.rs:28-35 -- [Vertice]; the flag is true while powering up. *)
Definition vertice : Type := iconfig * bool.

(** Equality of vertices (derived [Eq]/[Hash]). *)
Definition vertice_eqb (a b : vertice) : bool :=
  (if list_eq_dec Z.eq_dec (ic_cfg (fst a)) (ic_cfg (fst b)) then true else false)
  && (if list_eq_dec Nat.eq_dec (ic_idx (fst a)) (ic_idx (fst b)) then true else false)
  && Bool.eqb (snd a) (snd b).

(** offline/graph_search.rs:22-27 -- [Path]. *)
Record gpath : Type := mkGP { gp_xs : list (list Z); gp_cost : ext }.

(** offline/graph_search.rs:59-60 -- [Paths], a hash map; the most recent insertion
    is found first. *)
Definition gpaths : Type := list (vertice * gpath).

Fixpoint glookup (ps : gpaths) (v : vertice) : option gpath :=
  match ps with
  | [] => None
  | (k, p) :: r => if vertice_eqb k v then Some p else glookup r v
  end.

Definition ginsert (ps : gpaths) (v : vertice) (p : gpath) : gpaths := (v, p) :: ps.

(** graph_search.rs:37-42 -- [Edge]. *)
Record edge : Type := mkEdge { e_from : vertice; e_cost : ext }.

(** Assignment [l[k] = a]. *)
Fixpoint update {A} (l : list A) (k : nat) (a : A) : list A :=
  match l, k with
  | [], _ => []
  | _ :: r, O => a :: r
  | x :: r, S k' => x :: update r k' a
  end.

(** graph_search.rs:215-219 -- [Direction]. *)
Inductive direction : Type := Next | Previous.

(** graph_search.rs:222-250 -- [build_config]; [k] counts dimensions from 0 here.
    All indexing panics when out of range. *)
Definition build_config (dir : direction) (vs : gvalues) (c : iconfig) (k : nat)
    : outcome (option iconfig) :=
  do ik <- from_option (nth_error (ic_idx c) k);
  do bk <- from_option (nth_error (v_bound vs) k);
  let moved i :=
    do v <- from_option (nth_error (v_values vs) i);
    Ok (Some (mkIC (update (ic_cfg c) k v) (update (ic_idx c) k i))) in
  match dir with
  | Next => if Nat.eqb ik bk then Ok None else moved (S ik)
  | Previous => match ik with O => Ok None | S i => moved i end
  end.

(** graph_search.rs:196-213 -- [build_base_config]. *)
Definition build_base_config (d : Z) (bounds : list Z) (vs : gvalues) (bottom : bool) : iconfig :=
  if bottom then mkIC (repeat 0 (Z.to_nat d)) (repeat 0%nat (Z.to_nat d))
  else mkIC bounds (v_bound vs).

(** graph_search.rs:341-360 -- the closure given to [fold]; [paths[..]] panics if
    the vertex is missing (see [find_optimal_predecessor]: the lookups are made
    first). *)
Definition pick_pred (picked : option (edge * gpath)) (c : edge * gpath)
    : option (edge * gpath) :=
  let new_cost := eadd (gp_cost (snd c)) (e_cost (fst c)) in
  let picked_cost := match picked with
                     | None => Inf
                     | Some (e, p) => eadd (gp_cost p) (e_cost e)
                     end in
  if eltb new_cost picked_cost then Some c else picked.

(** graph_search.rs:361-378 -- the closure given to [reduce]. *)
Definition join_pred (a b : option (edge * gpath)) : option (edge * gpath) :=
  match a with
  | Some a' =>
      Some (match b with
            | Some b' =>
                if eleb (eadd (e_cost (fst a')) (gp_cost (snd a')))
                        (eadd (e_cost (fst b')) (gp_cost (snd b')))
                then a' else b'
            | None => a'
            end)
  | None => b
  end.

(** graph_search.rs:341-379 -- rayon's fold and reduce: each leaf of a division of
    the work folds its part starting from [None]; the results are joined in order,
    [None] being the identity given to [reduce]. *)
Fixpoint par_pick (s : split) (l : list (edge * gpath)) : option (edge * gpath) :=
  match s with
  | Leaf => join_pred None (fold_left pick_pred l None)
  | Node n a b => join_pred (par_pick a (firstn n l)) (par_pick b (skipn n l))
  end.

(** Sequencing over a list, stopping at the first panic. *)
Fixpoint omap {A B} (f : A -> outcome B) (l : list A) : outcome (list B) :=
  match l with
  | [] => Ok []
  | a :: r => do b <- f a; do bs <- omap f r; Ok (b :: bs)
  end.

Definition is_finb (a : ext) : bool := match a with Fin _ => true | Inf => false end.

(** graph_search.rs:330-379 -- [find_optimal_predecessor].  The assertion that some
    edge has a finite cost comes first; a predecessor missing in [paths] panics. *)
Definition find_optimal_predecessor (s : split) (preds : list edge) (ps : gpaths)
    : outcome (option (edge * gpath)) :=
  if match preds with [] => true | _ => existsb (fun e => is_finb (e_cost e)) preds end
  then
    do cands <- omap (fun e => do p <- from_option (glookup ps (e_from e)); Ok (e, p)) preds;
    Ok (par_pick s cands)
  else Panic.

(** graph_search.rs:381-404 -- [update_paths]. *)
Definition gupdate_paths (ps : gpaths) (pred : option (edge * gpath)) (to : vertice) : gpaths :=
  ginsert ps to
    (match pred with
     | None => mkGP [] (Fin 0)
     | Some (e, p) =>
         mkGP (if snd (e_from e) && negb (snd to)
               then gp_xs p ++ [ic_cfg (fst to)] else gp_xs p)
              (eadd (gp_cost p) (e_cost e))
     end).

Section GraphSearch.
  (** The instance, through [p.hit_cost(t, x).cost], [p.d], [p.bounds] and
      [p.switching_cost]. *)
  Variable hit : Z -> list Z -> ext.
  Variable d : Z.
  Variable bounds : list Z.
  Variable switching_cost : list Q.
  Variable alpha : Q.
  Variable inverted : bool.
  Variable vs : gvalues.
  (** The division of work rayon chooses at each vertex. *)
  Variable sched : Z -> vertice -> split.

  (** graph_search.rs:269-301 -- the edges from neighbours, for l in 1..=k ([ls]). *)
  Fixpoint neighbour_edges (up : bool) (c : iconfig) (ls : list nat) : outcome (list edge) :=
    match ls with
    | [] => Ok []
    | l :: ls' =>
        do prev <- build_config (if up then Previous else Next) vs c l;
        do rest <- neighbour_edges up c ls';
        match prev with
        | None => Ok rest
        | Some pc =>
            if (up && negb inverted) || (negb up && inverted) then
              do b <- from_option (nth_error switching_cost l);
              do x <- from_option (nth_error (ic_cfg c) l);
              do y <- from_option (nth_error (ic_cfg pc) l);
              Ok (mkEdge (pc, up)
                    (Fin (alpha * b * scalar_movement inject_Z x y inverted)) :: rest)
            else Ok (mkEdge (pc, up) (Fin 0) :: rest)
        end
    end.

  (** graph_search.rs:253-328 -- [find_immediate_predecessors]. *)
  Definition find_immediate_predecessors (t : Z) (up : bool) (k : nat) (c : iconfig)
      : outcome (list edge) :=
    do ns <- neighbour_edges up c (seq 0 k);
    let preds :=
      if (1 <? t) || negb up
      then ns ++ [mkEdge (c, negb up) (if up then Fin 0 else hit t (ic_cfg c))]
      else ns in
    if (t =? 1) && up
       && (if list_eq_dec Z.eq_dec (ic_cfg c) (repeat 0 (Z.to_nat d)) then true else false)
    then Ok preds
    else match preds with [] => Panic | _ => Ok preds end.

  (** graph_search.rs:157-194 -- [handle_config]. *)
  Definition handle_config (t : Z) (k : nat) (up : bool) (c : iconfig) (ps : gpaths)
      : outcome gpaths :=
    do preds <- find_immediate_predecessors t up k c;
    do opt <- find_optimal_predecessor (sched t (c, up)) preds ps;
    Ok (gupdate_paths ps opt (c, up)).

  Definition dir_of (up : bool) : direction := if up then Next else Previous.

  (** graph_search.rs:119-137 -- the inner loop along dimension [k] (from 1);
      returns the paths and the configurations added.  [fuel] bounds the number of
      iterations; with fuel at least the number of values it is never exhausted. *)
  Fixpoint walk (fuel : nat) (t : Z) (k : nat) (up : bool) (c : iconfig) (ps : gpaths)
      (added : list iconfig) : outcome (gpaths * list iconfig) :=
    match fuel with
    | O => Panic
    | S f =>
        do ps' <- handle_config t k up c ps;
        do nc <- build_config (dir_of up) vs c (k - 1);
        match nc with
        | None => Ok (ps', added)
        | Some c' => walk f t k up c' ps' (added ++ [c'])
        end
    end.

  (** graph_search.rs:110-138 -- the loop over the base configurations;
      [build_config(..).unwrap()] panics if there is no next configuration. *)
  Fixpoint handle_bases (t : Z) (k : nat) (up : bool) (bases : list iconfig)
      (ps : gpaths) (added : list iconfig) : outcome (gpaths * list iconfig) :=
    match bases with
    | [] => Ok (ps, added)
    | b :: bases' =>
        do start <-
          (if Nat.eqb k 1 then Ok (b, added)
           else do o <- build_config (dir_of up) vs b (k - 1);
                do c <- from_option o;
                Ok (c, added ++ [c]));
        do r <- walk (S (length (v_values vs))) t k up (fst start) ps (snd start);
        handle_bases t k up bases' (fst r) (snd r)
    end.

  (** graph_search.rs:81-153 -- [handle_layer], recursion over k = d - n + 1 .. d. *)
  Fixpoint handle_dims (n : nat) (t : Z) (k : nat) (up : bool) (configs : list iconfig)
      (ps : gpaths) : outcome gpaths :=
    match n with
    | O => Ok ps
    | S n' =>
        do r <- handle_bases t k up configs ps [];
        handle_dims n' t (S k) up (configs ++ snd r) (fst r)
    end.

  Definition handle_layer (t : Z) (up : bool) (ps : gpaths) : outcome gpaths :=
    handle_dims (Z.to_nat d) t 1 up [build_base_config d bounds vs up] ps.

  (** graph_search.rs:60-63 -- the loop over time slots. *)
  Fixpoint handle_slots (ts : list Z) (ps : gpaths) : outcome gpaths :=
    match ts with
    | [] => Ok ps
    | t :: ts' =>
        do ps1 <- handle_layer t true ps;
        do ps2 <- handle_layer t false ps1;
        handle_slots ts' ps2
    end.
End GraphSearch.

(** offline/graph_search.rs:34-44 -- [Cache]. *)
Record gcache : Type := mkCache { ca_t : Z; ca_paths : gpaths }.

Section TopLevel.
  Context {C D : Type}.
  Variable outside : D.
  Variable sched : Z -> vertice -> split.

  (** graph_search.rs:44-73 -- [graph_search]; returns the path and the cache. *)
  Definition graph_search (p : ssco C D) (vs : gvalues) (cache : option gcache)
      (inverted : bool) (alpha : Q) (l : option Q) : outcome (gpath * gcache) :=
    match l with
    | Some _ => Err UnsupportedLConstrainedMovement
    | None =>
        let init := match cache with        (* read_cache *)
                    | Some c => (ca_t c + 1, ca_paths c)
                    | None => (1, [])
                    end in
        do ps <- handle_slots (fun t x => c_cost (ssco_hit_cost outside p t x))
                   (s_d p) (s_bounds p) (s_switching p) alpha inverted vs sched
                   (zrange (fst init) (s_tend p)) (snd init);
        do path <- from_option
                     (glookup ps (build_base_config (s_d p) (s_bounds p) vs true, false));
        Ok (path, mkCache (s_tend p) ps)
    end.

  (** [Iterator::max] of a non-empty vector; [None] (unwrap panics) if empty. *)
  Definition max_of (l : list Z) : option Z :=
    match l with [] => None | a :: r => Some (fold_left Z.max r a) end.

  (** optimal_graph_search.rs:27-43 -- [optimal_graph_search]. *)
  Definition optimal_graph_search (p : ssco C D) (cache : option gcache)
      (inverted : bool) (alpha : Q) (l : option Q) : outcome (gpath * gcache) :=
    do max_bound <- from_option (max_of (s_bounds p));
    graph_search p (mkValues (zrange 0 max_bound) (map Z.to_nat (s_bounds p)))
      cache inverted alpha l.
End TopLevel.
