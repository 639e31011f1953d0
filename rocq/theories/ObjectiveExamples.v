(** Concrete cases for the theorems of ObjectiveProps.v. *)
From Verif Require Import NumLemmas ProblemModel ObjectiveSpec OutputSpec ObjectiveProps.
Local Open Scope Z_scope.

Definition two_types : ssco (list Z) Z :=
  mkSSCO 2 3 [4; 4] [2%Q; 3%Q]
    (fun t x => match x with
                | [a; b] => mkCost (Fin (inject_Z (t * (a + b)))) (MSuccess [t])
                | _ => mkCost Inf MNone
                end).

Definition plan : list (list Z) := [[1; 2]; [3; 0]; [2; 2]].

Example textbook_applies : forall s,
  eeq (c_cost (objective_with_default (@app Z) s (ssco_problem 0 two_types) plan [0; 1] 2 false 3)) (Fin 51).
Proof.
  intros s. rewrite (objective_is_textbook_formula (list Z) Z (@app Z) 0 s two_types plan [0; 1] 2 false eq_refl).
  vm_compute. reflexivity.
Qed.

(** Outputs are concatenated in time order, whatever the division of the work. *)
Example outputs_in_order :
  map (fun s => c_out (objective_with_default (@app Z) s (ssco_problem 0 two_types) plan [0; 1] 2 false 3))
      [Leaf; Node 1 Leaf (Node 1 Leaf Leaf); Node 2 (Node 2 Leaf Leaf) Leaf]
  = repeat (MSuccess [1; 2; 3]) 3.
Proof. vm_compute. reflexivity. Qed.

Example merge_is_associative :
  forall a b c : list Z, a ++ (b ++ c) = (a ++ b) ++ c.
Proof. intros. apply app_assoc. Qed.

Example directions_applies :
  exists up down,
    eeq (total_movement Leaf (ssco_problem 0 two_types) (zero_config 2) plan false) (Fin up) /\
    eeq (total_movement Leaf (ssco_problem 0 two_types) (zero_config 2) plan true) (Fin down) /\
    (up - down == 10)%Q.
Proof.
  destruct (movement_directions_differ_by_endpoints (list Z) Z 0 Leaf Leaf two_types plan)
    as (up & down & H1 & H2 & H3 & _); try reflexivity.
  - repeat constructor.
  - exists up, down. split; [exact H1|]. split; [exact H2|]. rewrite H3. reflexivity.
Qed.

Example first_failure_dominates :
  reduce_outputs Z.add [MSuccess 1; MNone; MFailure 7; MSuccess 2; MFailure 8] = Ok (MFailure 7) /\
  reduce_outputs (D := Z) Z.add [MNone; MSuccess 1; MNone; MSuccess 2] = Ok (MSuccess 3).
Proof. split; reflexivity. Qed.
