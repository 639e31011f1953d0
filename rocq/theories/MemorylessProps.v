(** Theorems about the cost of a whole run of the memoryless algorithm (C76). *)
From Verif Require Import OptimizeSpec StreamSpec MemorylessSpec DescentModel MemorylessProofs.
From Verif Require Import ProblemModel CostModel.
Local Open Scope Z_scope.

(** C76.  If movement is charged in both directions, a run costs at most three times as much
    as any schedule, up to rounding. *)
Theorem memoryless_three_competitive :
  forall (C D : Type) (vmerge : C -> C -> outcome C) (merge : C -> C -> C) (outside : D) (s : split) nlopt, exact_nlopt nlopt ->
  forall (p : gssco Q C D) (F : Z -> Q -> Q) (u b L : Q) (T : Z),
  g_d p = 1 -> g_bounds p = [u] -> g_switching p = [b] -> g_tend p = 1 -> 1 <= T ->
  (0 < u)%Q -> hundredths u -> (0 < b)%Q -> (0 <= L)%Q ->
  (forall t x, 1 <= t <= T -> (0 <= x <= u)%Q ->
     exists c, call_mean vmerge (g_cost p) t [x] = Ok c /\ eeq (c_cost c) (Fin (F t x))) ->
  mild_costs F u L T ->
  let ops := ssco_ops valQ merge vmerge outside s in
  let o := mkOnline p 0 in
  exists xs,
    offline_stream ops (memoryless vmerge outside nlopt) (fun _ => tt) T o
      = Some (at_slot ops o T, map (fun x => [x]) xs, Ok None) /\
    plan u T xs /\
    forall ys, plan u T ys ->
      (paid F (both_ways b) 1 0 xs <= 3 * paid F (both_ways b) 1 0 ys + inject_Z T * slack b L)%Q.
Proof. exact @competes_both. Qed.
Print Assumptions memoryless_three_competitive.

(** C76.  The objective of the problem (only powering up is charged) is at most five times
    that of any schedule, up to rounding. *)
Theorem memoryless_five_competitive :
  forall (C D : Type) (vmerge : C -> C -> outcome C) (merge : C -> C -> C) (outside : D) (s : split) nlopt, exact_nlopt nlopt ->
  forall (p : gssco Q C D) (F : Z -> Q -> Q) (u b L : Q) (T : Z),
  g_d p = 1 -> g_bounds p = [u] -> g_switching p = [b] -> g_tend p = 1 -> 1 <= T ->
  (0 < u)%Q -> hundredths u -> (0 < b)%Q -> (0 <= L)%Q ->
  (forall t x, 1 <= t <= T -> (0 <= x <= u)%Q ->
     exists c, call_mean vmerge (g_cost p) t [x] = Ok c /\ eeq (c_cost c) (Fin (F t x))) ->
  mild_costs F u L T ->
  let ops := ssco_ops valQ merge vmerge outside s in
  let o := mkOnline p 0 in
  exists xs c,
    offline_stream ops (memoryless vmerge outside nlopt) (fun _ => tt) T o
      = Some (at_slot ops o T, map (fun x => [x]) xs, Ok None) /\
    plan u T xs /\
    po_objective ops (on_p (at_slot ops o T)) (map (fun x => [x]) xs) = Ok c /\
    forall ys, plan u T ys -> exists c',
      po_objective ops (on_p (at_slot ops o T)) (map (fun x => [x]) ys) = Ok c' /\
      ele (c_cost c) (eadd (escale 5 (c_cost c')) (Fin (inject_Z T * slack b L))).
Proof. exact @competes_up. Qed.
Print Assumptions memoryless_five_competitive.
