(** Properties of optimisation over a window of time slots (C48, C54): theorems only. *)
From Verif Require Import HorizonModel HorizonSpec HorizonProofs.
From Verif Require Import ProblemModel.
Local Open Scope Z_scope.

(** C48.  Receding horizon control: the configuration it chooses for the current slot t is
    the first one of an optimal plan for the slots from t up to the end of the instance it
    is given, coming from the previous configuration.  Partial: the property asks for the
    slots t..t+w, but online algorithms are given an instance that ends in slot t, see
    [rhc_current_slot] and [rhc_window_refuted].  [P] says which configurations the optimiser
    considers: all of them if it is exact, those with multiples of 0.01 if it is NLopt called
    by this library (C82). *)
Theorem rhc_optimal_plan_partial :
  forall (C D : Type) (vmerge : C -> C -> outcome C) (merge : C -> C -> C) (outside : D) (sched : list Q -> split)
    minimize (p : gssco Q C D) (hit : Z -> list Q -> ext),
  g_d p = Z.of_nat (length (g_bounds p)) ->
  length (g_switching p) = length (g_bounds p) ->
  Forall (fun u => (0 <= u)%Q) (g_bounds p) ->
  (forall s x, 1 <= s <= g_tend p -> within_bounds (g_bounds p) x ->
     exists o, call_predictive (g_cost p) s x = Ok [mkCost (hit s x) o]) ->
  forall (P : list Q -> Prop) (tol : Q), P (repeat 0%Q (length (g_bounds p))) ->
  forall (w : Z) (xs : list (list Q)), 0 <= w ->
  let t := Z.of_nat (length xs) + 1 in
  let prev := last xs (repeat 0%Q (length (g_bounds p))) in
  t <= g_tend p <= t + w ->
  Forall (fun x => length x = length (g_bounds p)) xs ->
  solves P tol minimize (map (fun u => (0%Q, u)) (g_bounds p)) (Z.to_nat (w + 1))
    (fun ys => plan_cost hit (g_switching p) t prev (firstn (Z.to_nat (g_tend p - t + 1)) ys)) [] ->
  exists x ys, rhc_next vmerge merge outside sched minimize p w xs = Ok x /\
    optimal_plan hit (g_switching p) (g_bounds p) P t (g_tend p) prev (x :: ys).
Proof. exact @rhc_spec. Qed.
Print Assumptions rhc_optimal_plan_partial.

(** C48.  Averaging fixed horizon control on an instance ending in the current slot t:
    for k = 0..w it makes an optimal plan for the slots t-w+k..t, coming from the k-th
    remembered configuration; the answer is the average of the plans' configurations for
    slot t, the new memory consists of the plans' first configurations, and both are
    within the bounds.  Partial: the property asks for windows that look ahead. *)
Theorem afhc_average_partial :
  forall (C D : Type) (vmerge : C -> C -> outcome C) (merge : C -> C -> C) (outside : D) (sched : list Q -> split)
    minimize (p : gssco Q C D) (hit : Z -> list Q -> ext),
  g_d p = Z.of_nat (length (g_bounds p)) ->
  length (g_switching p) = length (g_bounds p) ->
  Forall (fun u => (0 <= u)%Q) (g_bounds p) ->
  (forall s x, 1 <= s <= g_tend p -> within_bounds (g_bounds p) x ->
     exists o, call_predictive (g_cost p) s x = Ok [mkCost (hit s x) o]) ->
  forall (P : list Q -> Prop) (tol : Q), P (repeat 0%Q (length (g_bounds p))) ->
  forall (w : Z) (xs mem : list (list Q)) m,
  (m = Some mem \/ m = None /\ mem = repeat (repeat 0%Q (length (g_bounds p))) (Z.to_nat (w + 1))) ->
  0 <= w -> Z.of_nat (length mem) = w + 1 ->
  Forall (fun x => length x = length (g_bounds p)) mem ->
  let t := Z.of_nat (length xs) + 1 in
  g_tend p = t ->
  (forall k prev, nth_error mem k = Some prev ->
     solves P tol minimize (map (fun u => (0%Q, u)) (g_bounds p)) (Z.to_nat (w + 1))
       (fun ys => plan_cost hit (g_switching p) (t - w + Z.of_nat k) prev (firstn (Z.to_nat (w + 1) - k) ys)) []) ->
  exists x mem' plans,
    afhc_next vmerge merge outside sched minimize p w xs m = Ok (x, mem') /\
    Z.of_nat (length plans) = w + 1 /\
    (forall k prev ys, nth_error mem k = Some prev -> nth_error plans k = Some ys ->
       optimal_plan hit (g_switching p) (g_bounds p) P (t - w + Z.of_nat k) t prev ys) /\
    mem' = map (fun ys => hd [] ys) plans /\
    length x = length (g_bounds p) /\
    average_config (map (fun ys => last ys []) plans) x /\
    within_bounds (g_bounds p) x /\ Forall (within_bounds (g_bounds p)) mem'.
Proof. exact @afhc_next_spec. Qed.
Print Assumptions afhc_average_partial.

(** C48.  In an instance that ends in the current slot, as online algorithms are given it,
    receding horizon control looks at the current slot only, whatever the prediction
    window. *)
Theorem rhc_current_slot :
  forall (C D : Type) (vmerge : C -> C -> outcome C) (merge : C -> C -> C) (outside : D) (sched : list Q -> split)
    minimize (p : gssco Q C D) (hit : Z -> list Q -> ext),
  g_d p = Z.of_nat (length (g_bounds p)) ->
  length (g_switching p) = length (g_bounds p) ->
  Forall (fun u => (0 <= u)%Q) (g_bounds p) ->
  (forall s x, 1 <= s <= g_tend p -> within_bounds (g_bounds p) x ->
     exists o, call_predictive (g_cost p) s x = Ok [mkCost (hit s x) o]) ->
  forall (P : list Q -> Prop) (tol : Q), P (repeat 0%Q (length (g_bounds p))) ->
  forall (w : Z) (xs : list (list Q)), 0 <= w ->
  let t := Z.of_nat (length xs) + 1 in
  let prev := last xs (repeat 0%Q (length (g_bounds p))) in
  g_tend p = t ->
  Forall (fun x => length x = length (g_bounds p)) xs ->
  solves P tol minimize (map (fun u => (0%Q, u)) (g_bounds p)) (Z.to_nat (w + 1))
    (fun ys => plan_cost hit (g_switching p) t prev (firstn 1 ys)) [] ->
  exists x, rhc_next vmerge merge outside sched minimize p w xs = Ok x /\ within_bounds (g_bounds p) x /\ P x /\
    forall y, within_bounds (g_bounds p) y -> P y ->
      ele (eadd (hit t x) (Fin (power_upQ (g_switching p) prev x)))
          (eadd (hit t y) (Fin (power_upQ (g_switching p) prev y))).
Proof. exact @rhc_current. Qed.
Print Assumptions rhc_current_slot.

(** C54.  Offline convex optimisation: the schedule is within the bounds, its movement does
    not exceed the limit [l] (if given) by more than the tolerance of the optimiser (unless
    every schedule does), and no schedule within the limit has a smaller alpha-unfair cost.
    ([P] and [tol] as above.) *)
Theorem co_optimal :
  forall (C D : Type) (vmerge : C -> C -> outcome C) (merge : C -> C -> C) (outside : D) (sched : list Q -> split)
    minimize (p : gsco Q C D) (hit : Z -> list Q -> ext) (norm : list Q -> Q),
  o_d p = Z.of_nat (length (o_bounds p)) -> 0 <= o_tend p ->
  (forall s x, 1 <= s <= o_tend p -> in_boxQ (o_bounds p) x ->
     exists c, call_mean vmerge (o_cost p) s x = Ok c /\ eeq (c_cost c) (hit s x)) ->
  (forall x, length x = length (o_bounds p) -> exists q, o_norm p x = Ok q /\ (q == norm x)%Q) ->
  forall (P : list Q -> Prop) (tol alpha : Q) (l : option Q),
  let n := Z.to_nat (o_tend p) in
  let dim := length (o_bounds p) in
  solves P tol minimize (o_bounds p) n (alpha_cost hit norm dim alpha)
    (match l with Some l => [fun xs => (movement_of norm dim xs - l)%Q] | None => [] end) ->
  exists xs, co vmerge merge outside sched minimize p false alpha l = Ok xs /\
    rows P (o_bounds p) n xs /\
    forall ys, rows P (o_bounds p) n ys -> (forall l', l = Some l' -> (movement_of norm dim ys <= l')%Q) ->
      (forall l', l = Some l' -> (movement_of norm dim xs <= l' + tol)%Q) /\
      ele (alpha_cost hit norm dim alpha xs) (alpha_cost hit norm dim alpha ys).
Proof. exact @co_spec. Qed.
Print Assumptions co_optimal.

(** C54.  Inverted movement costs are rejected with an error. *)
Theorem co_inverted :
  forall (C D : Type) (vmerge : C -> C -> outcome C) (merge : C -> C -> C) (outside : D) (sched : list Q -> split)
    minimize (p : gsco Q C D) (alpha : Q) (l : option Q),
  co vmerge merge outside sched minimize p true alpha l = Err UnsupportedInvertedCost.
Proof. exact @co_inverted_err. Qed.
Print Assumptions co_inverted.
