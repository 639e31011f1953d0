(** Concrete cases for RandomizedProps.v. *)
From Coq Require Import Lia Lqa.
From Verif Require Import NumLemmas RandomizedModel RandomizedSpec RandomizedProofs RandomizedProps.
From Verif Require Import CostModel ProblemModel.
Local Open Scope Z_scope.

(** Rising from 1/2 to 3/4: from 1 to 1, from 0 to 1 with probability 1/2. *)
Example rise_from_floor : has_probability (fun r => next 0 (1 # 2) (3 # 4) r = Qceiling (3 # 4)) (1 # 2).
Proof.
  apply probability_upto; [lra|]. intros r. unfold next. change (Qle_bool (1 # 2) (3 # 4)) with true. change (0 =? Qceiling (3 # 4)) with false.
  cbn [negb]. cbv iota. set (b := at_most_ratio _ _ _). assert (H : b = true <-> (r <= 1 # 2)%Q).
  { unfold b, at_most_ratio. change (Qeq_bool _ 0) with false. cbv iota. rewrite Qle_bool_iff. vm_compute ((_ - _) / _)%Q.
    split; intros; lra. }
  destruct b; change (Qceiling (3 # 4)) with 1; change (Qfloor (3 # 4)) with 0; split; intros; auto; [apply H; reflexivity|discriminate|apply H in H0; discriminate].
Qed.

Example ex_gentle : gentle_trajectory 0 [1 # 2; 3 # 4; 5 # 2; 9 # 4; 2; 0]%Q.
Proof.
  cbn [gentle_trajectory]. unfold gentle. repeat split.
  all: try (left; vm_compute; reflexivity).
  all: try (right; left; lra).
  right; right. change (inject_Z (Qceiling (9 # 4))) with 3%Q. lra.
Qed.

Example ex_unbiased : exists mu, evolves 0 [(1%Q, 0)] [1 # 2; 3 # 4; 5 # 2; 9 # 4]%Q mu /\ rounding mu (9 # 4).
Proof.
  destruct (randomized_distribution [1 # 2; 3 # 4; 5 # 2; 9 # 4]%Q 0 [(1%Q, 0)]) as [mu H]. exists mu. split; [exact H|].
  apply (randomized_trajectory_partial _ _ H). destruct ex_gentle as (A & B & C & D & _). repeat split; assumption.
Qed.

(** The bias: from 2 down to 3/2 the result is always 1. *)
Example ex_biased : ~ gentle 2 (3 # 2) /\ next 2 2 (3 # 2) (99 # 100) = 1 /\ next 2 2 (3 # 2) (1 # 100) = 1.
Proof.
  split; [|split; vm_compute; reflexivity]. unfold gentle. change (inject_Z (Qceiling (3 # 2))) with 2%Q.
  intros [H|[H|H]]; [vm_compute in H; discriminate|lra|lra].
Qed.

(** A relaxation following a fixed trajectory. *)
Definition ex_problem : gssco Z unit unit := mkGSSCO 1 1 [3] [1%Q] (cf_new 1 (certain (fun _ _ => Ok (mkCost (Fin 1) MNone)))).
Definition ex_execute (o : online (gssco Q unit unit)) (xs : list (list Q)) (_ : option unit) : outcome (list Q * option unit) :=
  Ok ([if Z.even (Z.of_nat (length xs)) then (1 # 2)%Q else (5 # 2)%Q], None).
Definition ex_alg (o : online (gssco Z unit unit)) (t : Z) := randomized (fun _ _ => Ok tt) ex_execute (if t =? 1 then 1 # 4 else 3 # 4)%Q o t.

Example ex_run :
  match offline_stream (ssco_ops valZ (fun _ _ => tt) (fun _ _ => Ok tt) tt Leaf) ex_alg (fun _ => rand_default) 4 (mkOnline ex_problem 0) with
  | Some (_, xs, Ok _) => xs = [[1]; [2]; [0]; [2]]
  | _ => False
  end.
Proof. vm_compute. reflexivity. Qed.

Example ex_feasible : forall ys m', 
  chooses (ssco_ops valZ (fun _ _ => tt) (fun _ _ => Ok tt) tt Leaf) ex_alg (fun _ => rand_default) (mkOnline ex_problem 0) [] None ys m' ->
  Forall (feasible_config [3]) ys.
Proof.
  intros ys m' H. apply (randomized_feasible unit unit unit (fun _ _ => Ok tt) ex_execute (fun _ _ => tt) tt Leaf
    (fun t => if t =? 1 then 1 # 4 else 3 # 4)%Q 3 (mkOnline ex_problem 0) eq_refl) with (xs := []) (m := None) (m' := m'); [|exact H].
  intros t q xs m y m1 HE _. unfold ex_execute in HE. eexists. split.
  - assert (E : y = [if Z.even (Z.of_nat (length xs)) then (1 # 2)%Q else (5 # 2)%Q]) by congruence. exact E.
  - destruct (Z.even _); change (inject_Z 3) with 3%Q; lra.
Qed.
