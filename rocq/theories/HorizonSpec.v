(** Specification of optimisation over a window of time slots, independent of the model. *)
From Verif Require Export ObjectiveSpec CapacitySpec.
Local Open Scope Z_scope.

(** sum over k of beta_k * max(0, x_k - x'_k), for fractional configurations. *)
Fixpoint power_upQ (beta prev x : list Q) : Q :=
  match beta, prev, x with
  | b :: bs, i :: is, j :: js => (b * (if Qle_bool j i then 0 else j - i) + power_upQ bs is js)%Q
  | _, _, _ => 0%Q
  end.

(** [x] has one entry per bound, each between 0 and its bound. *)
Definition within_bounds (bounds x : list Q) : Prop :=
  Forall2 (fun u j => (0 <= j <= u)%Q) bounds x.

Section Plans.
  Variable hit : Z -> list Q -> ext.
  Variables beta bounds : list Q.

  (** Slots before the first one cost nothing. *)
  Definition hit_from_1 (s : Z) (x : list Q) : ext := if s <? 1 then Fin 0 else hit s x.

  (** Cost of the configurations [ys] for the slots a, a+1, ..., coming from [prev]. *)
  Definition plan_cost (a : Z) (prev : list Q) (ys : list (list Q)) : ext :=
    total_cost hit_from_1 (power_upQ beta) 1 a prev ys.

  (** [ys] is a plan for the slots a..b which is optimal, coming from [prev], among the plans
      that consist of configurations satisfying [P]. *)
  Definition optimal_plan (P : list Q -> Prop) (a b : Z) (prev : list Q) (ys : list (list Q)) : Prop :=
    (Z.of_nat (length ys) = b - a + 1 /\ Forall (within_bounds bounds) ys /\ Forall P ys) /\
    forall zs, Z.of_nat (length zs) = b - a + 1 -> Forall (within_bounds bounds) zs -> Forall P zs ->
      ele (plan_cost a prev ys) (plan_cost a prev zs).
End Plans.

(** [xs] consists of [n] configurations within the given lower and upper bounds which satisfy
    [P]. *)
Definition rows (P : list Q -> Prop) (bounds : list (Q * Q)) (n : nat) (xs : list (list Q)) : Prop :=
  length xs = n /\ Forall (in_boxQ bounds) xs /\ Forall P xs.

(** All configurations; the numbers of NLopt's answers are multiples of 0.01. *)
Definition everything (x : list Q) : Prop := True.

(** The optimiser solves the problem of minimising [F] over [n] configurations within the
    bounds which satisfy [P], subject to [G <= 0] for every [G] of [Gs]: given any functions
    which evaluate to [F] and [Gs] on such schedules written in one vector, it answers such a
    schedule; if the constraints can be satisfied, the answer satisfies them up to [tol], and
    no schedule that satisfies them is better. *)
Definition solves (P : list Q -> Prop) (tol : Q)
    (minimize : (list Q -> outcome ext) -> list (Q * Q) -> list (list Q -> outcome Q) -> outcome (list Q))
    (bounds : list (Q * Q)) (n : nat) (F : list (list Q) -> ext) (Gs : list (list (list Q) -> Q)) : Prop :=
  forall g cs,
  (forall xs, rows P bounds n xs -> exists c, g (concat xs) = Ok c /\ eeq c (F xs)) ->
  Forall2 (fun c G => forall xs, rows P bounds n xs -> exists q, c (concat xs) = Ok q /\ (q == G xs)%Q) cs Gs ->
  exists r, minimize g (concat (repeat bounds n)) cs = Ok (concat r) /\ rows P bounds n r /\
    ((exists xs, rows P bounds n xs /\ Forall (fun G => (G xs <= 0)%Q) Gs) -> Forall (fun G => (G r <= tol)%Q) Gs) /\
    forall xs, rows P bounds n xs -> Forall (fun G => (G xs <= 0)%Q) Gs -> ele (F r) (F xs).

(** Entrywise difference of two configurations. *)
Definition differenceQ (x y : list Q) : list Q := map (fun ab => (fst ab - snd ab)%Q) (combine x y).

(** Cost (with switching cost weighted by alpha) and total movement of a fractional
    schedule which starts at the zero configuration of dimension [d]. *)
Definition alpha_cost (hit : Z -> list Q -> ext) (norm : list Q -> Q) (d : nat) (alpha : Q) (xs : list (list Q)) : ext :=
  total_cost hit (fun prev x => norm (differenceQ x prev)) alpha 1 (repeat 0%Q d) xs.
Definition movement_of (norm : list Q -> Q) (d : nat) (xs : list (list Q)) : Q :=
  total_switching (fun prev x => norm (differenceQ x prev)) (repeat 0%Q d) xs.

(** The average of configurations, entry by entry. *)
Definition average_config (xs : list (list Q)) (x : list Q) : Prop :=
  forall i, (i < length x)%nat ->
    (nth i x 0 * inject_Z (Z.of_nat (length xs)) == fold_right Qplus 0 (map (fun y => nth i y 0) xs))%Q.
