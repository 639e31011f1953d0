(** Concrete instances for the multi-dimensional graph search theorems, and behaviours
    of the code that deviate from the expected properties. *)
From Verif Require Import NumLemmas GraphSearchModel ApproxSearchModel GraphSearchSpec GraphSearchProofs
  ApproxSearchProofs GraphSearchProps.
From Verif Require Import ProblemModel.
Local Open Scope Z_scope.

Definition seqs : Z -> vertice -> split := fun _ _ => Leaf.

(** Two dimensions, three slots, non-convex costs with infinite entries. *)
Definition ex_hit (t : Z) (x : list Z) : cost unit unit :=
  mkCost (match x with
          | [a; b] => if a + b <? t then Inf
                      else Fin (inject_Z (Z.modulo (3 * a + 5 * b + t) 7))
          | _ => Inf
          end) MNone.
Definition ex_p : ssco unit unit := mkSSCO 2 3 [2; 2] [1; 2]%Q ex_hit.

Example ex_p_searchable : searchable ex_p.
Proof.
  repeat split; cbn; try lia; try discriminate; repeat constructor; try discriminate; try lia.
  intros t Ht. assert (E : t = 1 \/ t = 2 \/ t = 3) by lia. destruct E as [-> |[-> | ->]]; exact I.
Qed.

Example ex_p_result : exists path cache,
  optimal_graph_search tt seqs ex_p None false 1 None = Ok (path, cache) /\
  gp_xs path = [[2; 0]; [2; 0]; [2; 1]] /\ eeq (gp_cost path) (Fin 5).
Proof.
  destruct (optimal_graph_search tt seqs ex_p None false 1 None) as [[path cache]| |] eqn:E; vm_compute in E; try discriminate.
  inversion E; subst. eexists. eexists. split; [reflexivity|]. split; reflexivity.
Qed.

(** A grid with gaps. *)
Example ex_grid : grid_for (mkValues [0; 2; 5] [2; 1]%nat) [5; 2].
Proof. repeat split; try lia. repeat constructor. Qed.

Example ex_values : build_values 20 [10; 3] (3 # 2) = Some (Ok [0; 1; 2; 3; 4; 5; 6; 7; 8; 10]).
Proof. vm_compute. reflexivity. Qed.

(** With gamma = 1 (or any gamma <= 1) the loop computing the values never ends. *)
Theorem approx_values_gamma_1_refuted :
  exists bounds, Forall (fun u => 0 <= u) bounds /\ forall fuel, build_values fuel bounds 1 = None.
Proof.
  exists [1]. split; [repeat constructor; lia|]. intros fuel. unfold build_values. cbn [max_of fold_left].
  rewrite build_loop_diverges by lia. reflexivity.
Qed.

(** With [inverted] the search neither reports nor minimises the inverted objective: it
    also charges powering down after the last slot. *)
Definition inv_p : ssco unit unit :=
  mkSSCO 1 1 [1] [1%Q] (fun _ x => mkCost (match x with [0] => Fin (1#2) | _ => Fin 0 end) MNone).

Theorem search_nd_inverted_refuted :
  exists (p : ssco unit unit) path cache ys,
    searchable p /\
    optimal_graph_search tt seqs p None true 1 None = Ok (path, cache) /\
    feasible_schedule (s_tend p) (s_bounds p) ys /\
    elt (schedule_cost p 1 true ys) (schedule_cost p 1 true (gp_xs path)).
Proof.
  exists inv_p, (mkGP [[0]] (Fin (1#2))). eexists. exists [[1]].
  split; [|split; [|split]].
  - repeat split; cbn; try lia; try discriminate; repeat constructor; try discriminate; try lia.
  - vm_compute. reflexivity.
  - repeat constructor; lia.
  - vm_compute. reflexivity.
Qed.

(** A dimension other than the first whose bound is 0 makes the search panic, although
    the instance is well-formed. *)
Theorem search_nd_zero_bound_refuted :
  exists (p : ssco unit unit),
    s_bounds p = [1; 0] /\ s_d p = 2 /\ s_tend p = 1 /\
    (forall t x, c_cost (s_hit p t x) = Fin 0) /\
    optimal_graph_search tt seqs p None false 1 None = Panic.
Proof.
  exists (mkSSCO 2 1 [1; 0] [1; 1]%Q (fun _ _ => mkCost (Fin 0) MNone)).
  repeat split. 
Qed.

(** If the hitting cost at full capacity is infinite the search panics, although a
    feasible schedule of finite cost exists. *)
Theorem search_nd_infinite_capacity_refuted :
  exists (p : ssco unit unit) ys,
    feasible_schedule (s_tend p) (s_bounds p) ys /\ is_fin (schedule_cost p 1 false ys) /\
    optimal_graph_search tt seqs p None false 1 None = Panic.
Proof.
  exists (mkSSCO 1 1 [1] [1%Q] (fun _ x => mkCost (match x with [0] => Fin 0 | _ => Inf end) MNone)), [[0]].
  split; [repeat constructor; lia|]. split; [exact I|]. vm_compute. reflexivity.
Qed.
