(** Concrete cases for ExpectedProps.v. *)
From Coq Require Import Lia Lqa.
From Verif Require Import NumLemmas RandomizedModel RandomizedSpec RandomizedProofs RandomizedExamples ExpectedSpec ExpectedProps.
From Verif Require Import ProblemModel CostModel.
Local Open Scope Z_scope.

(** Four slots, up to three servers; in slot [t], [z] servers cost [(z - 2)^2 + t]. *)
Definition four_h (t z : Z) : Q := inject_Z ((z - 2) * (z - 2) + t).
Definition four : gssco Z unit unit :=
  mkGSSCO 1 4 [3] [2%Q] (cf_new 1 (certain (fun t x => Ok (mkCost (Fin (four_h t (hd 0 x))) MNone)))).
Definition four_ys : list Q := [1 # 2; 3 # 4; 5 # 2; 9 # 4]%Q.

Example four_costs t z : 1 <= t <= g_tend four -> 0 <= z <= 3 ->
  exists o, call_predictive (g_cost four) t [z] = Ok [mkCost (Fin (four_h t z)) o].
Proof.
  intros Ht _. exists MNone. assert (t = 1 \/ t = 2 \/ t = 3 \/ t = 4) as [->|[->|[->| ->]]] by (cbn in Ht; lia); reflexivity.
Qed.

Example four_expected : exists mu c q, rounded 0 0 four_ys mu /\
  objective_o (fun _ _ => tt) Leaf (gssco_problem valQ (fun _ _ => Ok tt) tt (ssco_into_f (fun _ _ => Ok tt) four)) (configs_1 four_ys) [0%Q] 1 false 4 = Ok c /\
  c_cost c = Fin q /\ (q == 20 # 1)%Q /\
  has_expectation (fun xs => objective_o (fun _ _ => tt) Leaf (gssco_problem valZ (fun _ _ => Ok tt) tt four) (configs_1 xs) [0] 1 false 4) mu q.
Proof.
  destruct (randomized_schedules four_ys) as (mu & H & _).
  destruct (randomized_expected_cost_partial unit unit (fun _ _ => Ok tt) (fun _ _ => tt) tt four 3 2 four_h
    (fun _ _ => ex_intro _ tt eq_refl) eq_refl eq_refl four_costs Leaf Leaf 1 four_ys mu) as (c & q & E1 & E2 & E3).
  - reflexivity.
  - unfold four_ys. change (inject_Z 3) with 3%Q. repeat constructor; lra.
  - destruct ex_gentle as (A & B & C & D & _). repeat split; assumption.
  - exact H.
  - exists mu, c, q. split; [exact H|]. split; [exact E1|]. split; [exact E2|]. split; [|exact E3].
    assert (G : match objective_o (fun _ _ => tt) Leaf (gssco_problem valQ (fun _ _ => Ok tt) tt (ssco_into_f (fun _ _ => Ok tt) four))
                  (configs_1 four_ys) [0%Q] 1 false 4 with
                | Ok c => match c_cost c with Fin q => Qeq_bool q (20 # 1) | Inf => false end
                | _ => false
                end = true) by (vm_compute; reflexivity).
    change (g_tend four) with 4 in E1. rewrite E1, E2 in G. apply Qeq_bool_iff. exact G.
Qed.

(** The distribution of the first two values. *)
Example two_rounded : exists mu, rounded 0 0 [1 # 2; 3 # 4]%Q mu /\
  Forall2 (fun e e' => (fst e == fst e')%Q /\ snd e = snd e') mu [((1 # 2)%Q, [1; 1]); (0%Q, [1; 0]); ((1 # 4)%Q, [0; 1]); ((1 # 4)%Q, [0; 0])].
Proof.
  eexists. split.
  - apply (rounded_step 0 0 (1 # 2)%Q (1 # 2)%Q [(3 # 4)%Q]).
    + apply probability_upto; [lra|]. intros r. unfold next. change (Qle_bool 0 (1 # 2)) with true. change (0 =? Qceiling (1 # 2)) with false.
      cbv iota. set (b := at_most_ratio _ _ _). assert (H : b = true <-> (r <= 1 # 2)%Q).
      { unfold b, at_most_ratio. change (Qeq_bool _ 0) with false. cbv iota. rewrite Qle_bool_iff. vm_compute ((_ - _) / _)%Q. split; intros; lra. }
      destruct b; change (Qceiling (1 # 2)) with 1; change (Qfloor (1 # 2)) with 0; split; intros; auto; [apply H; reflexivity|discriminate|apply H in H0; discriminate].
    + apply (rounded_step (1 # 2)%Q 1 (3 # 4)%Q 1%Q []); [|constructor|constructor].
      apply probability_one. intros r. reflexivity.
    + apply (rounded_step (1 # 2)%Q 0 (3 # 4)%Q (1 # 2)%Q []); [|constructor|constructor]. exact rise_from_floor.
  - cbn. repeat constructor; cbn; reflexivity.
Qed.

(** A relaxation which only looks at the slot. *)
Definition blind (o : online (gssco Q unit unit)) (_ : option unit) : outcome (list Q * option unit) :=
  Ok ([nth (Z.to_nat (g_tend (on_p o) - 1)) four_ys 0%Q], None).
Definition blind_alg (o : online (gssco Z unit unit)) (t : Z) :=
  randomized (fun _ _ => Ok tt) (fun q _ m => blind q m) (if t =? 1 then 1 # 4 else 3 # 4)%Q o t.

Example blind_answers : answers (fun _ _ => Ok tt) blind four 1 None 4 = Ok (configs_1 four_ys).
Proof. vm_compute. reflexivity. Qed.
Example blind_run :
  match offline_stream (ssco_ops valZ (fun _ _ => tt) (fun _ _ => Ok tt) tt Leaf) blind_alg (fun _ => rand_default) 4 (mkOnline (g_at four 1) 0) with
  | Some (_, xs, Ok _) => xs = [[1]; [1]; [2]; [2]]
  | _ => False
  end.
Proof. vm_compute. reflexivity. Qed.
Example blind_roundings : roundings (fun t => if t =? 1 then 1 # 4 else 3 # 4)%Q 1 0 0 four_ys = [1; 1; 2; 2].
Proof. vm_compute. reflexivity. Qed.
