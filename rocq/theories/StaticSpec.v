(** Independent specification for static schedules. *)
From Verif Require Export ObjectiveSpec CostSpec.
Local Open Scope Z_scope.

(** A configuration between lower and upper bounds. *)
Definition in_range (bounds : list (Z * Z)) (x : list Z) : Prop :=
  Forall2 (fun b j => fst b <= j <= snd b) bounds x.

(** Difference of two configurations. *)
Definition difference (x prev : list Z) : list Z := map (fun ab => fst ab - snd ab) (combine x prev).

(** alpha-unfair cost of keeping the configuration [x] for all [T] slots, starting from the zero
    configuration, with hitting costs [f] and switching cost norm(x - x'). *)
Definition static_total (f : Z -> list Z -> ext) (norm : list Z -> Q) (alpha : Q) (d T : Z) (x : list Z) : ext :=
  total_cost f (fun prev x => norm (difference x prev)) alpha 1 (repeat 0 (Z.to_nat d)) (repeat x (Z.to_nat T)).

(** The hitting costs and the norm of the instance [p] within its bounds. *)
Definition has_costs {C D} (vmerge : C -> C -> outcome C) (p : gsco Z C D)
    (f : Z -> list Z -> ext) (norm : list Z -> Q) : Prop :=
  (forall t x, 1 <= t <= o_tend p -> in_range (o_bounds p) x ->
     exists c, call_mean vmerge (o_cost p) t x = Ok c /\ eeq (c_cost c) (f t x)) /\
  (forall x, length x = Z.to_nat (o_d p) -> exists q, o_norm p x = Ok q /\ (q == norm x)%Q).

(** A well-formed instance. *)
Definition well_formed {C D} (p : gsco Z C D) : Prop :=
  0 < o_d p /\ 0 <= o_tend p /\ length (o_bounds p) = Z.to_nat (o_d p) /\
  Forall (fun b => fst b <= snd b) (o_bounds p).

Definition emax (a b : ext) : ext := if eleb a b then b else a.

(** After minimising over the later dimensions, the cost is unimodal in every dimension:
    between two values of dimension k there is no value whose best completion is
    worse than both. *)
Definition nested_unimodal (bounds : list (Z * Z)) (J : list Z -> ext) : Prop :=
  forall prefix a b c r s, a <= b <= c ->
  in_range bounds (prefix ++ a :: r) -> in_range bounds (prefix ++ c :: s) ->
  exists q, in_range bounds (prefix ++ b :: q) /\
    ele (J (prefix ++ b :: q)) (emax (J (prefix ++ a :: r)) (J (prefix ++ c :: s))).

(** Convexity of an extended-valued function on the integers lo..hi. *)
Definition convex_between (lo hi : Z) (f : Z -> ext) : Prop :=
  forall a b c qa qc, lo <= a <= b -> b <= c <= hi -> f a = Fin qa -> f c = Fin qc ->
  exists qb, f b = Fin qb /\
    (inject_Z (c - a) * qb <= inject_Z (c - b) * qa + inject_Z (b - a) * qc)%Q.

(** Sum over the dimensions of [g k (x_k)], k starting at the given number. *)
Fixpoint separable_sum (g : nat -> Z -> ext) (k : nat) (x : list Z) : ext :=
  match x with
  | [] => Fin 0
  | j :: r => eadd (g k j) (separable_sum g (S k) r)
  end.

(** Weighted Manhattan norm. *)
Fixpoint manhattan (beta : list Q) (x : list Z) : Q :=
  match beta, x with
  | b :: bs, j :: r => (b * inject_Z (Z.abs j) + manhattan bs r)%Q
  | _, _ => 0%Q
  end.
