(** Model of src/algorithms/offline/multi_dimensional/approx_graph_search.rs.
    No proofs. *)
From Verif Require Export GraphSearchModel.
Local Open Scope Z_scope.

Definition containsb (vs : list Z) (j : Z) : bool := existsb (Z.eqb j) vs.

(** approx_graph_search.rs:87-89, 95-97, 102-104 -- push unless already contained. *)
Definition push_new (vs : list Z) (j : Z) : list Z :=
  if containsb vs j then vs else vs ++ [j].

(** approx_graph_search.rs:84-101 -- the loop of [build_values].  The Rust loop has no
    bound; [fuel] limits the number of iterations and [None] means that it was
    exhausted.  [gamma.powi(i)] is exact and the casts to [i32] do not saturate. *)
Fixpoint build_loop (fuel : nat) (gamma : Q) (max_bound : Z) (i : Z) (vs : list Z)
    : option (list Z) :=
  match fuel with
  | O => None
  | S f =>
      let l := Qfloor (Qpower gamma i) in
      if max_bound <? l then Some vs
      else
        let vs1 := push_new vs l in
        let u := Qceiling (Qpower gamma i) in
        if max_bound <? u then Some vs1
        else build_loop f gamma max_bound (i + 1) (push_new vs1 u)
  end.

(** [par_sort_unstable] of integers: any sorting function gives the same list; here
    insertion sort. *)
Fixpoint insert_sorted (j : Z) (l : list Z) : list Z :=
  match l with
  | [] => [j]
  | a :: r => if j <=? a then j :: a :: r else a :: insert_sorted j r
  end.
Definition sort_values (l : list Z) : list Z := fold_right insert_sorted [] l.

(** approx_graph_search.rs:80-108 -- [build_values]; [unwrap] panics without bounds.
    The outer [option] is the termination of the loop within [fuel]. *)
Definition build_values (fuel : nat) (bounds : list Z) (gamma : Q) : option (outcome (list Z)) :=
  match max_of bounds with
  | None => Some Panic
  | Some max_bound =>
      match build_loop fuel gamma max_bound 1 [0] with
      | None => None
      | Some vs => Some (Ok (sort_values (fold_left push_new bounds vs)))
      end
  end.

(** [Iterator::position]. *)
Fixpoint position (m : Z) (l : list Z) : option nat :=
  match l with
  | [] => None
  | a :: r => if a =? m then Some O else option_map S (position m r)
  end.

(** approx_graph_search.rs:62-78 -- [cache_bound_indices]; [unwrap] panics if a bound
    is missing. *)
Definition cache_bound_indices (values : list Z) (bounds : list Z) : outcome gvalues :=
  do idx <- omap (fun m => from_option (position m values)) bounds;
  Ok (mkValues values idx).

Section Approx.
  Context {C D : Type}.
  Variable outside : D.
  Variable sched : Z -> vertice -> split.

  (** approx_graph_search.rs:47-60 -- [approx_graph_search]. *)
  Definition approx_graph_search (fuel : nat) (p : ssco C D) (gamma : Q) (cache : option gcache)
      (inverted : bool) (alpha : Q) (l : option Q) : option (outcome (gpath * gcache)) :=
    match build_values fuel (s_bounds p) gamma with
    | None => None
    | Some o =>
        Some (do values <- o;
              do vs <- cache_bound_indices values (s_bounds p);
              graph_search outside sched p vs cache inverted alpha l)
    end.
End Approx.
