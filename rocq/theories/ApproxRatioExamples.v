(** Concrete instances for ApproxRatioProps.v, and what happens without its condition. *)
From Coq Require Import Lqa.
From Verif Require Import NumLemmas GraphSearchModel GraphSearchSpec ApproxSearchModel ApproxRatioSpec ApproxRatioProps
  GraphSearchExamples.
From Verif Require Import ProblemModel.
Local Open Scope Z_scope.

(** Loads 5, 1, 6 on two types of servers. *)
Definition ratio_p : ssco unit unit :=
  mkSSCO 2 3 [6; 5] [1; 2]%Q
    (fun t x => mkCost (load_cost [3; 1]%Q (if t =? 1 then 5 else if t =? 2 then 1 else 6)%Q x) MNone).

Example ratio_p_searchable : searchable ratio_p.
Proof.
  repeat split; cbn; try lia; try discriminate; repeat constructor; try discriminate; try lia.
  intros t Ht. assert (E : t = 1 \/ t = 2 \/ t = 3) by lia. destruct E as [-> |[-> | ->]]; exact I.
Qed.
Example ratio_p_grows : grows_at_most 5 ratio_p.
Proof.
  intros t x y _ _ _ H. apply load_costs_covered; [|exact H]. repeat constructor; discriminate.
Qed.

(** With gamma = 3 the values are 0, 3, 5 and 6: the search is not optimal but within factor 5. *)
Example ratio_values : build_values 9 [6; 5] 3 = Some (Ok [0; 3; 5; 6]).
Proof. vm_compute. reflexivity. Qed.
Example ratio_run :
  match approx_graph_search tt seqs 9 ratio_p 3 None false 1 None, optimal_graph_search tt seqs ratio_p None false 1 None with
  | Some (Ok (path, _)), Ok (best, _) =>
      gp_xs path = [[0; 5]; [0; 3]; [3; 3]] /\ eeq (gp_cost path) (Fin 33) /\ eeq (gp_cost best) (Fin 29)
  | _, _ => False
  end.
Proof. vm_compute. repeat split. Qed.

Definition off_grid : ssco unit unit :=
  mkSSCO 1 1 [3] [0%Q] (fun _ x => mkCost (Fin (inject_Z (Z.abs (hd 0 x - 1)))) MNone).
Lemma off_grid_run : exists path cache,
  approx_graph_search tt seqs 9 off_grid 4 None false 1 None = Some (Ok (path, cache)) /\ eeq (gp_cost path) (Fin 1).
Proof. eexists. eexists. split; [vm_compute; reflexivity|]. vm_compute. reflexivity. Qed.

(** Without the condition there is no guarantee at all, not even for convex costs: staying at
    one server is free, but one is not among the values. *)
Theorem approx_search_ratio_refuted :
  exists (p : ssco unit unit) (gamma : Q) path cache ys,
    searchable p /\ (1 < gamma)%Q /\ convex_on 3 (fun j => c_cost (s_hit p 1 [j])) /\
    approx_graph_search tt seqs 9 p gamma None false 1 None = Some (Ok (path, cache)) /\
    feasible_schedule (s_tend p) (s_bounds p) ys /\
    forall ratio, (0 <= ratio)%Q -> elt (escale ratio (schedule_cost p 1 false ys)) (gp_cost path).
Proof.
  exists off_grid, 4%Q.
  destruct off_grid_run as (path & cache & E1 & E2). exists path, cache, [[1]].
  split; [|split; [|split; [|split; [exact E1|split]]]].
  - repeat split; cbn; try lia; try discriminate; repeat constructor; try discriminate; try lia.
  - reflexivity.
  - intros a b c qa qc Ha Hc H1 H2. cbn in H1, H2. injection H1 as <-. injection H2 as <-. eexists. split; [reflexivity|].
    rewrite <- !inject_Z_mult, <- inject_Z_plus, <- Zle_Qle.
    assert (A : a = 0 \/ a = 1 \/ a = 2 \/ a = 3) by lia. assert (B : b = 0 \/ b = 1 \/ b = 2 \/ b = 3) by lia.
    assert (G : c = 0 \/ c = 1 \/ c = 2 \/ c = 3) by lia.
    destruct A as [-> |[-> |[-> | ->]]], B as [-> |[-> |[-> | ->]]], G as [-> |[-> |[-> | ->]]]; try lia; vm_compute; discriminate.
  - repeat constructor; lia.
  - intros ratio Hr. destruct (gp_cost path) as [q|]; [|contradiction]. clear E1.
    assert (S : eeq (schedule_cost off_grid 1 false [[1]]) (Fin 0)) by (vm_compute; reflexivity).
    destruct (schedule_cost off_grid 1 false [[1]]) as [r|]; [|contradiction].
    cbn in S, E2 |- *. rewrite S, E2. lra.
Qed.
