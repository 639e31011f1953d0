(** Property theorems: resuming graph searches (C06). *)
From Verif Require Import GraphSearchModel GraphSearchSpec ApproxSearchModel ResumeProofs.
From Verif Require Import ProblemModel.
Local Open Scope Z_scope.

(** C06: resuming the approximate search from the cache of a shorter horizon gives exactly
    the result of solving from scratch. *)
Theorem approx_search_resume :
  forall (C D : Type) (outside : D) (sched1 sched2 sched3 : Z -> vertice -> split)
         (p1 p2 : ssco C D) (gamma : Q) (fuel : nat) (inverted : bool) (alpha : Q) (path1 : gpath) (cache1 : gcache),
  s_d p1 = s_d p2 -> s_bounds p1 = s_bounds p2 -> s_switching p1 = s_switching p2 ->
  0 <= s_tend p1 <= s_tend p2 ->
  (forall t x, 1 <= t <= s_tend p1 -> c_cost (s_hit p1 t x) = c_cost (s_hit p2 t x)) ->
  approx_graph_search outside sched1 fuel p1 gamma None inverted alpha None = Some (Ok (path1, cache1)) ->
  approx_graph_search outside sched2 fuel p2 gamma (Some cache1) inverted alpha None
  = approx_graph_search outside sched3 fuel p2 gamma None inverted alpha None.
Proof. exact @approx_resume. Qed.
Print Assumptions approx_search_resume.

(** C06: resuming never looks at the hitting costs of slots the cache covers. *)
Theorem resumed_search_skips_cached_slots :
  forall (C D : Type) (outside : D) (sched : Z -> vertice -> split) (p1 p2 : ssco C D) (cache : gcache)
         (inverted : bool) (alpha : Q) (l : option Q),
  s_d p1 = s_d p2 -> s_bounds p1 = s_bounds p2 -> s_switching p1 = s_switching p2 -> s_tend p1 = s_tend p2 ->
  (forall t x, ca_t cache < t <= s_tend p1 -> c_cost (s_hit p1 t x) = c_cost (s_hit p2 t x)) ->
  optimal_graph_search outside sched p1 (Some cache) inverted alpha l =
  optimal_graph_search outside sched p2 (Some cache) inverted alpha l /\
  forall fuel gamma,
  approx_graph_search outside sched fuel p1 gamma (Some cache) inverted alpha l =
  approx_graph_search outside sched fuel p2 gamma (Some cache) inverted alpha l.
Proof. exact @searches_skip. Qed.
Print Assumptions resumed_search_skips_cached_slots.
