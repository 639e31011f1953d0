(** Lazy budgeting for SLO with a single type of servers: the statement for an instance. *)
From Coq Require Import Lia Lqa.
From Verif Require Import BudgetSpec BudgetRun OfflineSpec SloRatioLane SloRatioRun.
From Verif Require Import ProblemModel CostModel.
Local Open Scope Z_scope.

Lemma slo_within_two minimize hit sched s (p : gslo Z) (gamma : Q) (n : nat) :
  slo_instance p -> l_d p = 1 -> Forall (fun l => 0 <= l) (l_load p) ->
  solver_reports minimize -> evaluates minimize p hit ->
  Z.of_nat n <= Z.of_nat (length (l_load p)) ->
  exists xs m, slo_run minimize hit sched p gamma false n = Ok (xs, m) /\
    cheapest_within 2 (slo_objective_fn s (slo_at p (Z.of_nat n)) 1) (Z.of_nat n) (l_bounds p) xs.
Proof.
  intros HP Hd HL HR HE Hn.
  destruct (single_list (l_bounds p)) as [u Eu]; [pose proof (si_bounds p HP); lia|].
  destruct (single_list (l_switching p)) as [b Eb]; [pose proof (si_switching p HP); lia|].
  destruct (single_list (l_hitting p)) as [c Ec]; [pose proof (si_hitting p HP); lia|].
  exact (run_within_two minimize hit sched s p HP HR HE Hd HL gamma u b c Eu Eb Ec n Hn).
Qed.
