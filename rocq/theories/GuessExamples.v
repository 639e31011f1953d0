(** Concrete cases for GuessProps.v and behaviours deviating from the expected ones. *)
From Coq Require Import Lia Lqa.
From Verif Require Import NumLemmas LoadModel LoadSpec CostSpec CostProofs VerifyModel LoadExamples GuessSpec GuessProofs GuessProps.
From Verif Require Import ProblemModel.
Local Open Scope Z_scope.

(** A solver that answers its start and the value there. *)
Example ex_guess_solver : improves_start guess_solver /\ evaluates_start guess_solver.
Proof.
  split.
  - intros f b init cs xs e e0 H E. unfold guess_solver in H. rewrite E in H. injection H as _ <-. destruct e0; cbn; [lra|exact I].
  - intros f b init cs E. unfold guess_solver. rewrite E. reflexivity.
Qed.

(** Two of three server types are active: they get half of the load each. *)
Example ex_start :
  map (fun k => get_fraction (new_fractions (initial_guess valZ 1 2 [4; 0; 2]) 3 1) k 0 [10%Q]) [0; 1; 2]%nat
  = [Ok (50 # 100)%Q; Ok (0 # 100)%Q; Ok (50000 # 100000)%Q] /\
  busy_types valZ [4; 0; 2] = 2%nat /\ hundredths (even_part 1 (2 * 1)).
Proof. vm_compute. repeat split. exists 50. reflexivity. Qed.

(** Load 3 on two types: at most 2*2 + 1*3. *)
Example ex_even_spread : forall c, sblo_hit valZ guess_solver (into_sblo ex_slo) 1 [2; 3] = Ok c -> ele (c_cost c) (Fin 7).
Proof.
  intros c H.
  pose (g := fun (k : nat) (_ : Q) => nth k [2; 1]%Q 0%Q).
  assert (E : ele (c_cost c) (Fin (even_cost valZ g (v_toQ valZ 3) [2; 3]))).
  { refine (sblo_cost_at_most_even_spread Z valZ guess_solver (into_sblo ex_slo) g 1 [2; 3] 3 c _ _ _ _ _ _ _ _ _ _ _ H).
    - exact valZ_lawful.
    - exact (proj1 ex_guess_solver).
    - reflexivity.
    - reflexivity.
    - repeat constructor; cbn; try discriminate.
    - reflexivity.
    - reflexivity.
    - intros k q q' _. reflexivity.
    - intros k j q Hk Hb Hq.
      assert (Hq1 : Qle_bool q 1 = true).
      { apply Qle_bool_iff. rewrite Hq.
        destruct k as [|[|k]]; cbn in Hk; [injection Hk as <-|injection Hk as <-|destruct k; discriminate]; vm_compute; discriminate. }
      destruct k as [|[|k]]; cbn in Hk; [| |destruct k; discriminate];
        (eexists; eexists; split; [reflexivity|]; split;
         [unfold call_mean; cbn; rewrite Hq1; cbn; reflexivity|cbn; reflexivity]).
    - vm_compute. lia.
    - exists 50. reflexivity. }
  eapply ele_trans; [exact E|]. vm_compute. discriminate.
Qed.

(** Seven server types with one server each and a load of three. *)
Definition seven_slo : gslo Z :=
  mkGSLO 7 1 [1; 1; 1; 1; 1; 1; 1] [1; 2; 3; 4; 5; 6; 7]%Q [7; 6; 5; 4; 3; 2; 1]%Q [3].

(** With six of them active, the load spread over the active ones in hundredths exceeds the
    load, and the hitting cost panics for every solver that evaluates its start. *)
Theorem sblo_start_panics_refuted :
  verify_slo valZ seven_slo = Ok tt /\ verify_sblo valZ (into_sblo seven_slo) = Ok tt /\
  cost_number (slo_hit valZ seven_slo 1 [1; 1; 1; 1; 1; 1; 0]) = Some (Fin 27) /\
  forall minimize, evaluates_start minimize ->
    sblo_hit valZ minimize (into_sblo seven_slo) 1 [1; 1; 1; 1; 1; 1; 0] = Panic.
Proof.
  split; [vm_compute; reflexivity|]. split; [vm_compute; reflexivity|]. split; [vm_compute; reflexivity|].
  intros minimize Hm.
  apply (sblo_hit_panics valZ minimize (into_sblo seven_slo) 1 [1; 1; 1; 1; 1; 1] 0 3).
  - exact valZ_lawful.
  - exact Hm.
  - reflexivity.
  - repeat constructor; cbn; discriminate.
  - reflexivity.
  - reflexivity.
  - repeat constructor.
  - reflexivity.
  - discriminate.
  - intros k q Hk. cbn in Hk.
    assert (Hf : exists c0, nth_error (l_hitting seven_slo) k = Some c0).
    { destruct (nth_error (l_hitting seven_slo) k) eqn:E; [eauto|]. apply nth_error_None in E. cbn in E. lia. }
    destruct Hf as (c0 & E).
    eexists. eexists. split.
    + cbn [into_sblo b_cost]. rewrite nth_error_map, E. reflexivity.
    + unfold call_mean. cbn. reflexivity.
  - vm_compute. reflexivity.
Qed.

(** With three of four types active, the start leaves a hundredth of the load to the
    inactive one and has infinite cost. *)
Theorem sblo_start_infinite_refuted :
  objective_value (sblo_objective valZ (into_sblo (mkGSLO 4 1 [1; 1; 1; 1] [1; 2; 3; 4]%Q [4; 3; 2; 1]%Q [2])) 1
    [1; 1; 1; 0] [2%Q] (new_fractions (initial_guess valZ 1 3 [1; 1; 1; 0]) 4 1)) = Some Inf /\
  cost_number (slo_hit valZ (mkGSLO 4 1 [1; 1; 1; 1] [1; 2; 3; 4]%Q [4; 3; 2; 1]%Q [2]) 1 [1; 1; 1; 0]) = Some (Fin 9).
Proof. split; vm_compute; reflexivity. Qed.

(** Two job types of different loads: the start violates the constraint of the first one and
    leaves a part of the second one to the inactive type. *)
Theorem start_of_two_job_types_refuted :
  exists a b, map (fun i => get_fraction (new_fractions (initial_guess valZ 2 2 [2; 0]) 2 2) 1 i [1; 3]%Q) [0; 1]%nat = [Ok a; Ok b] /\
    (a < 0)%Q /\ (0 < b)%Q.
Proof. vm_compute. do 2 eexists. split; [reflexivity|]. split; reflexivity. Qed.
