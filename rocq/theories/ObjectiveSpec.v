(** Independent specification of the cost of a schedule, in the notation of the
    literature: sum of hitting costs f_t(x_t) plus alpha times the switching cost
    between consecutive configurations, starting from a configuration x_0. *)
From Verif Require Export Num.
Local Open Scope Z_scope.

(** Cost of powering up: sum over k of beta_k * max(0, x_k - x'_k). *)
Fixpoint power_up (beta : list Q) (prev x : list Z) : Q :=
  match beta, prev, x with
  | b :: bs, i :: is, j :: js => (b * inject_Z (Z.max 0 (j - i)) + power_up bs is js)%Q
  | _, _, _ => 0%Q
  end.

(** Switching cost; when [inverted] is set powering down is paid instead. *)
Definition switching (beta : list Q) (inverted : bool) (prev x : list Z) : Q :=
  if inverted then power_up beta x prev else power_up beta prev x.

(** Total cost of the configurations [xs] for the time slots t, t+1, ... *)
Fixpoint total_cost {X : Type} (f : Z -> X -> ext) (sw : X -> X -> Q) (alpha : Q)
    (t : Z) (prev : X) (xs : list X) : ext :=
  match xs with
  | [] => Fin 0
  | x :: r => eadd (eadd (f t x) (Fin (alpha * sw prev x))) (total_cost f sw alpha (t + 1) x r)
  end.

(** A configuration (schedule) within the bounds. *)
Definition feasible_config (bounds : list Z) (x : list Z) : Prop :=
  Forall2 (fun u j => 0 <= j <= u) bounds x.

Definition feasible_schedule (t_end : Z) (bounds : list Z) (xs : list (list Z)) : Prop :=
  Z.of_nat (length xs) = t_end /\ Forall (feasible_config bounds) xs.

(** Decision space of an instance with upper bounds: one entry per bound, each
    between 0 and its bound. *)
Definition inside (bounds x : list Z) : bool :=
  (length bounds =? length x)%nat &&
  forallb (fun b => (0 <=? snd b) && (snd b <=? fst b)) (combine bounds x).

(** Hitting costs [f] inside the decision space, infinite outside. *)
Definition restricted (bounds : list Z) (f : Z -> list Z -> ext) (t : Z) (x : list Z) : ext :=
  if inside bounds x then f t x else Inf.

(** Convexity of an extended-valued function on the integers 0..m: whenever a <= b <= c,
    (c-a) f(b) <= (c-b) f(a) + (b-a) f(c). *)
Definition convex_on (m : Z) (f : Z -> ext) : Prop :=
  forall a b c qa qc, 0 <= a <= b -> b <= c <= m -> f a = Fin qa -> f c = Fin qc ->
  exists qb, f b = Fin qb /\
    (inject_Z (c - a) * qb <= inject_Z (c - b) * qa + inject_Z (b - a) * qc)%Q.

(** The switching part alone. *)
Fixpoint total_switching {X : Type} (sw : X -> X -> Q) (prev : X) (xs : list X) : Q :=
  match xs with
  | [] => 0%Q
  | x :: r => (sw prev x + total_switching sw x r)%Q
  end.

(** sum over k of beta_k * x_k. *)
Fixpoint weighted (beta : list Q) (x : list Z) : Q :=
  match beta, x with
  | b :: bs, j :: js => (b * inject_Z j + weighted bs js)%Q
  | _, _ => 0%Q
  end.
