(** Proofs for ResumeProps.v. *)
From Coq Require Import Lia.
From Verif Require Import NumLemmas GraphSearchModel GraphSearchSpec GraphSearchProofs ApproxSearchModel.
From Verif Require Import ProblemModel.
Local Open Scope Z_scope.

Lemma approx_resume {C D} (outside : D) sched1 sched2 sched3 (p1 p2 : ssco C D) gamma fuel inverted alpha path1 cache1 :
  s_d p1 = s_d p2 -> s_bounds p1 = s_bounds p2 -> s_switching p1 = s_switching p2 ->
  0 <= s_tend p1 <= s_tend p2 ->
  (forall t x, 1 <= t <= s_tend p1 -> c_cost (s_hit p1 t x) = c_cost (s_hit p2 t x)) ->
  approx_graph_search outside sched1 fuel p1 gamma None inverted alpha None = Some (Ok (path1, cache1)) ->
  approx_graph_search outside sched2 fuel p2 gamma (Some cache1) inverted alpha None
  = approx_graph_search outside sched3 fuel p2 gamma None inverted alpha None.
Proof.
  intros Hd Hb Hs HT Hh H. unfold approx_graph_search in *. rewrite <- Hb.
  destruct (build_values fuel (s_bounds p1) gamma) as [[values| |]|]; cbn [obind] in *; try reflexivity.
  destruct (cache_bound_indices values (s_bounds p1)) as [vs| |]; cbn [obind] in *; try reflexivity.
  injection H as H. f_equal. exact (graph_search_resume outside sched1 sched2 sched3 p1 p2 vs inverted alpha path1 cache1 Hd Hb Hs HT Hh H).
Qed.

Lemma resume_skips {C D} (outside : D) sched (p1 p2 : ssco C D) vs cache inverted alpha l :
  s_d p1 = s_d p2 -> s_bounds p1 = s_bounds p2 -> s_switching p1 = s_switching p2 -> s_tend p1 = s_tend p2 ->
  (forall t x, ca_t cache < t <= s_tend p1 -> c_cost (s_hit p1 t x) = c_cost (s_hit p2 t x)) ->
  graph_search outside sched p1 vs (Some cache) inverted alpha l =
  graph_search outside sched p2 vs (Some cache) inverted alpha l.
Proof.
  intros Hd Hb Hs HT Hh. unfold graph_search. destruct l; [reflexivity|]. cbn [fst snd].
  rewrite (handle_slots_ext _ (fun t x => c_cost (ssco_hit_cost outside p2 t x)) _ _ _ _ _ _ sched sched).
  - rewrite Hd, Hb, Hs, HT. reflexivity.
  - intros t x Ht. apply zrange_In in Ht. unfold ssco_hit_cost. rewrite Hb.
    destruct (within (s_bounds p2) x); [|reflexivity]. apply Hh. lia.
Qed.

Lemma searches_skip {C D} (outside : D) sched (p1 p2 : ssco C D) cache inverted alpha l :
  s_d p1 = s_d p2 -> s_bounds p1 = s_bounds p2 -> s_switching p1 = s_switching p2 -> s_tend p1 = s_tend p2 ->
  (forall t x, ca_t cache < t <= s_tend p1 -> c_cost (s_hit p1 t x) = c_cost (s_hit p2 t x)) ->
  optimal_graph_search outside sched p1 (Some cache) inverted alpha l =
  optimal_graph_search outside sched p2 (Some cache) inverted alpha l /\
  forall fuel gamma,
  approx_graph_search outside sched fuel p1 gamma (Some cache) inverted alpha l =
  approx_graph_search outside sched fuel p2 gamma (Some cache) inverted alpha l.
Proof.
  intros Hd Hb Hs HT Hh. split.
  - unfold optimal_graph_search. rewrite <- Hb. destruct (from_option _) as [mx| |]; cbn [obind]; try reflexivity.
    apply resume_skips; assumption.
  - intros fuel gamma. unfold approx_graph_search. rewrite <- Hb.
    destruct (build_values fuel (s_bounds p1) gamma) as [[values| |]|]; cbn [obind]; try reflexivity.
    destruct (cache_bound_indices values (s_bounds p1)) as [vs| |]; cbn [obind]; try reflexivity.
    f_equal. apply resume_skips; assumption.
Qed.
