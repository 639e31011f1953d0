(** What a well-formed instance and a feasible schedule are, following the documentation
    of src/problem.rs. *)
From Verif Require Import LoadModel CostSpec.
Local Open Scope Z_scope.

Section WellFormed.
  Context {T : Type}.
  Variable v : value T.

  Definition is_positive (j : T) : Prop := (0 < v_toQ v j)%Q.
  Definition is_nonnegative (j : T) : Prop := (0 <= v_toQ v j)%Q.

  (** Positive dimension, non-negative horizon, positive bounds and switching costs, one
      per dimension. *)
  Definition well_formed_base (d t_end : Z) (bounds : list T) (switching : list Q) : Prop :=
    0 < d /\ 0 <= t_end /\
    Z.of_nat (length bounds) = d /\ Z.of_nat (length switching) = d /\
    Forall is_positive bounds /\ Forall (fun b => 0 < b)%Q switching.

  (** A non-negative load for every slot. *)
  Definition well_formed_loads (t_end : Z) (load : list T) : Prop :=
    t_end <= Z.of_nat (length load) /\
    forall t l, 1 <= t <= t_end -> access load t = Some l -> is_nonnegative l.

  Definition well_formed_sco {C D} (p : gsco T C D) : Prop :=
    0 < o_d p /\ 0 <= o_tend p /\ Z.of_nat (length (o_bounds p)) = o_d p.

  Definition well_formed_ssco {C D} (p : gssco T C D) : Prop :=
    well_formed_base (g_d p) (g_tend p) (g_bounds p) (g_switching p).

  Definition well_formed_sblo (p : gsblo T) : Prop :=
    well_formed_base (b_d p) (b_tend p) (b_bounds p) (b_switching p) /\
    well_formed_loads (b_tend p) (b_load p).

  (** Dimension [k] is efficient: no other dimension is at least as cheap in both costs. *)
  Definition efficient (hitting switching : list Q) : Prop :=
    forall k l hk hl sk sl, k <> l ->
      nth_error hitting k = Some hk -> nth_error hitting l = Some hl ->
      nth_error switching k = Some sk -> nth_error switching l = Some sl ->
      (hk < hl)%Q \/ (sk < sl)%Q.

  Definition strictly_descending (l : list Q) : Prop :=
    forall i j a b, (i < j)%nat -> nth_error l i = Some a -> nth_error l j = Some b -> (b < a)%Q.
  Definition strictly_ascending (l : list Q) : Prop :=
    forall i j a b, (i < j)%nat -> nth_error l i = Some a -> nth_error l j = Some b -> (a < b)%Q.

  Definition well_formed_slo (p : gslo T) : Prop :=
    well_formed_base (l_d p) (l_tend p) (l_bounds p) (l_switching p) /\
    Forall (fun c => 0 <= c)%Q (l_hitting p) /\
    strictly_descending (l_hitting p) /\ strictly_ascending (l_switching p) /\
    efficient (l_hitting p) (l_switching p) /\
    well_formed_loads (l_tend p) (l_load p).

  (** A schedule with one configuration per slot, each inside the bounds. *)
  Definition feasible (t_end : Z) (bounds : list T) (xs : list (list T)) : Prop :=
    Z.of_nat (length xs) = t_end /\ Forall (in_box v bounds) xs.
End WellFormed.
