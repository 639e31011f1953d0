(** Theorems about the cost of whole runs of receding and averaging fixed horizon control
    (C78). *)
From Verif Require Import HorizonRunModel HorizonRunSpec HorizonRunProofs HorizonRunAveraging.
From Verif Require Import ProblemModel CostModel.
Local Open Scope Z_scope.

(** C78.  Receding horizon control which in slot t is given an instance that ends anywhere
    between t and t + w: if powering up a server costs at most c times as much as one slot
    of its operation, the schedule costs at most 1 + c times as much as any schedule (of
    configurations which satisfy [P], if the optimiser considers only these: see C82). *)
Theorem rhc_competitive :
  forall (C D : Type) (vmerge : C -> C -> outcome C) (merge : C -> C -> C) (outside : D) (sched : list Q -> split)
    minimize (p : gssco Q C D) (hit : Z -> list Q -> ext) (e : list Q) (c : Q) (w : Z) (ends : Z -> Z) (n : nat),
  verify_ssco valQ p = Ok tt -> 0 <= w ->
  (forall t, 1 <= t <= Z.of_nat n -> t <= ends t <= t + w) ->
  (forall t, 1 <= t < Z.of_nat n -> ends t <= ends (t + 1)) ->
  (forall s x, 1 <= s <= ends (Z.of_nat n) -> within_bounds (g_bounds p) x ->
     exists o, call_predictive (g_cost p) s x = Ok [mkCost (hit s x) o]) ->
  costly_operation hit (g_switching p) e (g_bounds p) c (ends (Z.of_nat n)) ->
  forall (P : list Q -> Prop) (tol : Q), P (repeat 0%Q (length (g_bounds p))) ->
  let next q xs := rhc_next vmerge merge outside sched minimize q w xs in
  let zero := repeat 0%Q (length (g_bounds p)) in
  (forall m xs, (m < n)%nat -> advised next p ends m = Ok xs ->
     let t := Z.of_nat m + 1 in
     solves P tol minimize (map (fun u => (0%Q, u)) (g_bounds p)) (Z.to_nat (w + 1))
       (fun ys => plan_cost hit (g_switching p) t (last xs zero) (firstn (Z.to_nat (ends t - t + 1)) ys)) []) ->
  forall s : split, (1 <= n)%nat -> exists xs v,
    advised next p ends n = Ok xs /\ fractional_schedule (g_bounds p) (Z.of_nat n) xs /\ Forall P xs /\
    po_objective (ssco_ops valQ merge vmerge outside s) (ending p (Z.of_nat n)) xs = Ok v /\
    forall ys, fractional_schedule (g_bounds p) (ends (Z.of_nat n)) ys -> Forall P ys -> exists v',
      po_objective (ssco_ops valQ merge vmerge outside s) (ending p (ends (Z.of_nat n))) ys = Ok v' /\
      ele (c_cost v) (escale (1 + c) (c_cost v')).
Proof. exact @rhc_ratio. Qed.
Print Assumptions rhc_competitive.

(** C78.  The same for the streaming functions, which give it instances that end in the
    current slot. *)
Theorem rhc_stream_competitive :
  forall (C D : Type) (vmerge : C -> C -> outcome C) (merge : C -> C -> C) (outside : D) (sched : list Q -> split)
    minimize (s : split) (p : gssco Q C D) (hit : Z -> list Q -> ext) (e : list Q) (c : Q) (w : Z) (n : nat),
  verify_ssco valQ p = Ok tt -> g_tend p = 1 -> 0 <= w -> (1 <= n)%nat ->
  (forall t x, 1 <= t <= Z.of_nat n -> within_bounds (g_bounds p) x ->
     exists o, call_predictive (g_cost p) t x = Ok [mkCost (hit t x) o]) ->
  costly_operation hit (g_switching p) e (g_bounds p) c (Z.of_nat n) ->
  forall (P : list Q -> Prop) (tol : Q), P (repeat 0%Q (length (g_bounds p))) ->
  let next q xs := rhc_next vmerge merge outside sched minimize q w xs in
  let zero := repeat 0%Q (length (g_bounds p)) in
  (forall m xs, (m < n)%nat -> advised next p (fun t => t) m = Ok xs ->
     solves P tol minimize (map (fun u => (0%Q, u)) (g_bounds p)) (Z.to_nat (w + 1))
       (fun ys => plan_cost hit (g_switching p) (Z.of_nat m + 1) (last xs zero) (firstn 1 ys)) []) ->
  let ops := ssco_ops valQ merge vmerge outside s in
  let o := mkOnline p w in
  let o' := at_slot ops o (Z.of_nat n) in
  exists xs v,
    offline_stream ops (rhc_alg vmerge merge outside sched minimize) (fun _ => tt) (Z.of_nat n + w) o
      = Some (o', xs, Ok None) /\
    fractional_schedule (g_bounds p) (Z.of_nat n) xs /\ Forall P xs /\
    po_objective ops (on_p o') xs = Ok v /\
    forall ys, fractional_schedule (g_bounds p) (Z.of_nat n) ys -> Forall P ys -> exists v',
      po_objective ops (on_p o') ys = Ok v' /\ ele (c_cost v) (escale (1 + c) (c_cost v')).
Proof. exact @rhc_stream_ratio. Qed.
Print Assumptions rhc_stream_competitive.

(** C78.  A streamed run of averaging fixed horizon control costs at most (1 + c)^2 times as
    much as any schedule, if the hitting costs are convex. *)
Theorem afhc_stream_competitive :
  forall (C D : Type) (vmerge : C -> C -> outcome C) (merge : C -> C -> C) (outside : D) (sched : list Q -> split)
    minimize (p : gssco Q C D) (hit : Z -> list Q -> ext) (e : list Q) (c : Q) (w : Z) (n : nat),
  verify_ssco valQ p = Ok tt -> 0 <= w ->
  (forall t x, 1 <= t <= Z.of_nat n -> within_bounds (g_bounds p) x ->
     exists o, call_predictive (g_cost p) t x = Ok [mkCost (hit t x) o]) ->
  costly_operation hit (g_switching p) e (g_bounds p) c (Z.of_nat n) ->
  convex_hitting hit (g_bounds p) (Z.of_nat n) ->
  forall (P : list Q -> Prop) (tol : Q), P (repeat 0%Q (length (g_bounds p))) ->
  let next q xs m := afhc_next vmerge merge outside sched minimize q w xs m in
  let zero := repeat 0%Q (length (g_bounds p)) in
  (forall m xs mem k prev, (m < n)%nat -> advised_memory next p m = Ok (xs, mem) ->
     nth_error (match mem with Some b => b | None => repeat zero (Z.to_nat (w + 1)) end) k = Some prev ->
     solves P tol minimize (map (fun u => (0%Q, u)) (g_bounds p)) (Z.to_nat (w + 1))
       (fun ys => plan_cost hit (g_switching p) (Z.of_nat m + 1 - w + Z.of_nat k) prev (firstn (Z.to_nat (w + 1) - k) ys)) []) ->
  forall s : split, (1 <= n)%nat -> g_tend p = 1 ->
  let ops := ssco_ops valQ merge vmerge outside s in
  let o := mkOnline p w in
  let o' := at_slot ops o (Z.of_nat n) in
  exists xs mem v,
    offline_stream ops (afhc_alg vmerge merge outside sched minimize) afhc_dflt (Z.of_nat n + w) o
      = Some (o', xs, Ok mem) /\
    fractional_schedule (g_bounds p) (Z.of_nat n) xs /\
    po_objective ops (on_p o') xs = Ok v /\
    forall ys, fractional_schedule (g_bounds p) (Z.of_nat n) ys -> Forall P ys -> exists v',
      po_objective ops (on_p o') ys = Ok v' /\ ele (c_cost v) (escale ((1 + c) * (1 + c)) (c_cost v')).
Proof. exact @afhc_ratio. Qed.
Print Assumptions afhc_stream_competitive.
