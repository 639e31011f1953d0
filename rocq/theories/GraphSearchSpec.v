(** Specification used by the theorems about the multi-dimensional graph search. *)
From Verif Require Export GraphSearchModel ObjectiveSpec.
Local Open Scope Z_scope.

(** [c] is the first element of [l] of least cost, and this cost is finite. *)
Definition first_least {A} (cost : A -> ext) (l : list A) (c : A) : Prop :=
  exists l1 l2, l = l1 ++ c :: l2 /\ is_fin (cost c) /\
    Forall (fun x => elt (cost c) (cost x)) l1 /\
    Forall (fun x => ele (cost c) (cost x)) l2.

(** Cost of reaching a vertex through a predecessor. *)
Definition cand_cost (c : edge * gpath) : ext := eadd (gp_cost (snd c)) (e_cost (fst c)).

(** Strictly increasing lists. *)
Fixpoint increasing (l : list Z) : Prop :=
  match l with
  | [] => True
  | a :: r => match r with [] => True | b :: _ => a < b end /\ increasing r
  end.

(** A configuration all of whose entries are allowed values not above the bounds. *)
Definition allowed_config (values : list Z) (bounds : list Z) (x : list Z) : Prop :=
  Forall2 (fun u j => In j values /\ 0 <= j <= u) bounds x.

Definition allowed_schedule (t_end : Z) (values bounds : list Z) (xs : list (list Z)) : Prop :=
  Z.of_nat (length xs) = t_end /\ Forall (allowed_config values bounds) xs.

(** An instance the multi-dimensional searches can handle: at least one dimension and
    one time slot, consistent lengths, non-negative bounds and switching costs, bounds
    of all dimensions but the first positive, finite cost at full capacity. *)
Definition searchable {C D} (p : ssco C D) : Prop :=
  s_bounds p <> [] /\
  s_d p = Z.of_nat (length (s_bounds p)) /\
  length (s_switching p) = length (s_bounds p) /\
  Forall (fun q => 0 <= q)%Q (s_switching p) /\
  1 <= s_tend p /\
  Forall (fun u => 0 <= u) (s_bounds p) /\
  Forall (fun u => 0 < u) (tl (s_bounds p)) /\
  (forall t, 1 <= t <= s_tend p -> is_fin (c_cost (s_hit p t (s_bounds p)))).

(** A value grid: strictly increasing from 0, with the positions of the bounds. *)
Definition grid_for (vs : gvalues) (bounds : list Z) : Prop :=
  increasing (v_values vs) /\
  hd_error (v_values vs) = Some 0 /\
  Forall2 (fun k u => nth_error (v_values vs) k = Some u) (v_bound vs) bounds.

(** Cost of a schedule of an SSCO instance, starting from the zero configuration. *)
Definition schedule_cost {C D} (p : ssco C D) (alpha : Q) (inverted : bool)
    (xs : list (list Z)) : ext :=
  total_cost (restricted (s_bounds p) (fun t x => c_cost (s_hit p t x)))
    (switching (s_switching p) inverted) alpha 1 (zero_config (s_d p)) xs.
