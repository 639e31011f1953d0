(** Concrete cases for ResumeProps.v and for resuming the exact search. *)
From Coq Require Import Lia.
From Verif Require Import NumLemmas GraphSearchModel GraphSearchSpec GraphSearchProps GraphSearchExamples ApproxSearchModel ResumeProps.
From Verif Require Import ProblemModel.
Local Open Scope Z_scope.

(** The instance [ex_p] up to slot 2, then up to slot 3. *)
Definition ex_shorter : ssco unit unit := mkSSCO 2 2 [2; 2] [1; 2]%Q ex_hit.
(** The same costs in slot 3 only. *)
Definition ex_forgotten : ssco unit unit :=
  mkSSCO 2 3 [2; 2] [1; 2]%Q (fun t x => if t =? 3 then ex_hit t x else mkCost (Fin 100) MNone).

Example ex_resumed : exists path1 cache1 path cache,
  optimal_graph_search tt seqs ex_shorter None false 1 None = Ok (path1, cache1) /\ ca_t cache1 = 2 /\
  optimal_graph_search tt seqs ex_p (Some cache1) false 1 None = Ok (path, cache) /\
  optimal_graph_search tt seqs ex_p None false 1 None = Ok (path, cache) /\
  optimal_graph_search tt seqs ex_forgotten (Some cache1) false 1 None = Ok (path, cache) /\
  gp_xs path = [[2; 0]; [2; 0]; [2; 1]].
Proof.
  destruct (optimal_graph_search tt seqs ex_shorter None false 1 None) as [[path1 cache1]| |] eqn:E1; [|vm_compute in E1; discriminate|vm_compute in E1; discriminate].
  destruct ex_p_result as (path & cache & E & Hx & _).
  exists path1, cache1, path, cache.
  assert (Et : ca_t cache1 = 2). { vm_compute in E1. injection E1 as <- <-. reflexivity. }
  assert (R : optimal_graph_search tt seqs ex_p (Some cache1) false 1 None = Ok (path, cache)).
  { rewrite <- E. apply (search_nd_resume unit unit tt seqs seqs seqs ex_shorter ex_p false 1 path1 cache1); try reflexivity.
    - cbn. lia.
    - exact E1. }
  split; [reflexivity|]. split; [exact Et|]. split; [exact R|]. split; [exact E|]. split; [|exact Hx].
  rewrite <- R.
  destruct (resumed_search_skips_cached_slots unit unit tt seqs ex_forgotten ex_p cache1 false 1 None) as [H _]; try reflexivity.
  - intros t x Ht. rewrite Et in Ht. cbn in Ht. assert (t = 3) as -> by lia. reflexivity.
  - exact H.
Qed.

Example ex_resumed_approx : exists path1 cache1 path cache,
  approx_graph_search tt seqs 9 ex_shorter 2 None false 1 None = Some (Ok (path1, cache1)) /\
  approx_graph_search tt seqs 9 ex_p 2 (Some cache1) false 1 None = Some (Ok (path, cache)) /\
  approx_graph_search tt seqs 9 ex_p 2 None false 1 None = Some (Ok (path, cache)).
Proof.
  destruct (approx_graph_search tt seqs 9 ex_shorter 2 None false 1 None) as [[[path1 cache1]| |]|] eqn:E1;
    [|vm_compute in E1; discriminate|vm_compute in E1; discriminate|vm_compute in E1; discriminate].
  destruct (approx_graph_search tt seqs 9 ex_p 2 None false 1 None) as [[[path cache]| |]|] eqn:E;
    [|vm_compute in E; discriminate|vm_compute in E; discriminate|vm_compute in E; discriminate].
  exists path1, cache1, path, cache. split; [reflexivity|]. split; [|reflexivity].
  rewrite <- E. apply (approx_search_resume unit unit tt seqs seqs seqs ex_shorter ex_p 2 9 false 1 path1 cache1); try reflexivity.
  - cbn. lia.
  - exact E1.
Qed.
