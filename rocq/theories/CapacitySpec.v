(** Specification of capacity provisioning (C23-C26, C50), independent of the model. *)
From Verif Require Export ObjectiveSpec.
Local Open Scope Z_scope.

(** [y] is the point of the interval [l, u] nearest to [x]. *)
Definition nearest (l u x y : Z) : Prop :=
  (l <= x <= u -> y = x) /\ (x < l -> y = l) /\ (u < x -> y = u).

Definition nearestQ (l u x y : Q) : Prop :=
  ((l <= x)%Q -> (x <= u)%Q -> (y == x)%Q) /\ ((x < l)%Q -> (y == l)%Q) /\ ((u < x)%Q -> (y == u)%Q).

Section Prefix.
  (** Hitting costs, number of servers and switching cost of a one-dimensional instance. *)
  Variable hit : Z -> list Z -> ext.
  Variable m : Z.
  Variable beta : Q.

  (** Cost of a schedule of the first slots, starting without active servers: powering up
      is paid, or powering down if [inverted]. *)
  Definition prefix_cost (inverted : bool) (xs : list (list Z)) : ext :=
    total_cost hit (switching [beta] inverted) 1 1 [0] xs.

  (** [xs] is an optimal schedule of the slots 1..n. *)
  Definition optimal_prefix (inverted : bool) (n : Z) (xs : list (list Z)) : Prop :=
    feasible_schedule n [m] xs /\ is_fin (prefix_cost inverted xs) /\
    forall ys, feasible_schedule n [m] ys -> ele (prefix_cost inverted xs) (prefix_cost inverted ys).

  (** Some optimal schedule of the slots 1..n has [z] servers in slot [n]. *)
  Definition ends_optimally (inverted : bool) (n : Z) (z : Z) : Prop :=
    exists xs, optimal_prefix inverted n xs /\ last xs [0] = [z].
End Prefix.

(** An instance: convex, non-negative costs, finite at full capacity, in every slot. *)
Record capacity_costs (hit : Z -> list Z -> ext) (m : Z) (beta : Q) : Prop := {
  cc_m : 0 <= m;
  cc_beta : (0 <= beta)%Q;
  cc_convex : forall t, 1 <= t -> convex_on m (fun j => hit t [j]);
  cc_fin : forall t, 1 <= t -> is_fin (hit t [m]);
  cc_nonneg : forall t j, 1 <= t -> 0 <= j <= m -> ele (Fin 0) (hit t [j])
}.

(** ** Fractional instances *)
Section Fractional.
  Variable m : Q.

  Definition convex_onQ (f : Q -> ext) : Prop :=
    forall a b c qa qc, (0 <= a)%Q -> (a <= b)%Q -> (b <= c)%Q -> (c <= m)%Q -> f a = Fin qa -> f c = Fin qc ->
    exists qb, f b = Fin qb /\ ((c - a) * qb <= (c - b) * qa + (b - a) * qc)%Q.

  Record capacity_costsQ (f : Z -> Q -> ext) (beta : Q) : Prop := {
    cq_m : (0 <= m)%Q;
    cq_beta : (0 <= beta)%Q;
    cq_eq : forall t x y, (x == y)%Q -> eeq (f t x) (f t y);
    cq_convex : forall t, 1 <= t -> convex_onQ (f t);
    cq_fin : forall t, 1 <= t -> is_fin (f t m);
    cq_nonneg : forall t x, 1 <= t -> (0 <= x <= m)%Q -> ele (Fin 0) (f t x)
  }.

  (** Cost of a schedule of numbers of servers. *)
  Definition servers_cost (f : Z -> Q -> ext) (beta alpha : Q) (inverted : bool) (xs : list Q) : ext :=
    total_cost f (fun prev x => beta * (if Qle_bool (if inverted then prev - x else x - prev) 0 then 0
                                        else if inverted then prev - x else x - prev))%Q alpha 1 0%Q xs.

  Definition servers_ok (n : Z) (xs : list Q) : Prop :=
    Z.of_nat (length xs) = n /\ Forall (fun x => (0 <= x <= m)%Q) xs.
End Fractional.

(** [xs] is a point of the box [bs]. *)
Definition in_boxQ (bs : list (Q * Q)) (xs : list Q) : Prop :=
  Forall2 (fun b x => (fst b <= x <= snd b)%Q) bs xs.

(** The optimiser answers a point of the box at which [g] is minimal. *)
Definition exact_answer (minimizer : (list Q -> outcome ext) -> list (Q * Q) -> outcome (list Q))
    (g : list Q -> outcome ext) (bs : list (Q * Q)) : Prop :=
  exists xs c, minimizer g bs = Ok xs /\ in_boxQ bs xs /\ g xs = Ok c /\
    forall ys c', in_boxQ bs ys -> g ys = Ok c' -> ele c c'.
