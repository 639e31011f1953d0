(** Property C94: calls of randomly biased greedy in one process share a cache of work functions. *)
From Verif Require Import DescentModel ForesightSpec WorkCacheModel WorkCacheProofs.
From Verif Require Import ProblemModel CostModel.
Local Open Scope Z_scope.

(** One call at a time: whatever earlier calls (of any instance) left in the cache and whatever is dropped
    from it meanwhile, the answer is the one of the algorithm without a cache (C63). *)
Theorem rbg_cache_unnoticed :
  forall (C D : Type) (vmerge : C -> C -> outcome C) (outside : D) (opt : optimizer) (theta : Q)
         (o : online (gsco Q C D)) (t : Z) (r : Q) (xs : list (list Q))
         (left_over : cache) (s : process (list Q * option Q)) (res : outcome (list Q * option Q)),
  0 <= t ->
  steps (mkProcess left_over [rbg_thread vmerge outside opt theta o t r]) s ->
  pr_threads s = [Done res] ->
  res = rbg vmerge outside (by_asking opt) theta o t xs r.
Proof. exact @single_cache_right. Qed.
Print Assumptions rbg_cache_unnoticed.

(** The same holds for calls by any number of threads in any interleaving, provided that their instances
    agree (in bounds, norm and the hitting costs of the slots both know) and [theta] is the same. *)
Theorem rbg_cache_unnoticed_concurrently_partial :
  forall (C D : Type) (vmerge : C -> C -> outcome C) (outside : D) (opt : optimizer) (theta : Q)
         (calls : list (call C D)),
  Forall (fun ca => 0 <= ca_t ca) calls ->
  (forall a b, In a calls -> In b calls ->
     agree_sco (Z.min (ca_t a) (ca_t b)) (on_p (ca_o a)) (on_p (ca_o b))) ->
  forall (left_over : cache) (s : process (list Q * option Q)) (i : nat) (ca : call C D)
         (res : outcome (list Q * option Q)) (xs : list (list Q)),
  steps (mkProcess left_over
           (map (fun ca => rbg_thread vmerge outside opt theta (ca_o ca) (ca_t ca) (ca_r ca)) calls)) s ->
  nth_error calls i = Some ca -> nth_error (pr_threads s) i = Some (Done res) ->
  res = rbg vmerge outside (by_asking opt) theta (ca_o ca) (ca_t ca) xs (ca_r ca).
Proof. exact @shared_cache_right. Qed.
Print Assumptions rbg_cache_unnoticed_concurrently_partial.

(** Every call returns, whatever the instances: a call that has not returned can go on, and there is no
    infinite sequence of accesses. *)
Theorem rbg_cache_calls_return :
  forall (A : Type) (s : process A),
  Acc (fun s2 s1 => exists i, access_by i s1 s2) s /\
  forall i m, nth_error (pr_threads s) i = Some m -> (exists res, m = Done res) \/ exists s', access_by i s s'.
Proof. exact (fun A s => conj (calls_end s) (never_blocked s)). Qed.
Print Assumptions rbg_cache_calls_return.
