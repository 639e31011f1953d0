(** Concrete cases for VerifyProps.v and behaviours deviating from the expected ones. *)
From Coq Require Import Lia Lqa.
From Verif Require Import NumLemmas LoadModel VerifyModel CostSpec VerifySpec VerifyProps.
Local Open Scope Z_scope.

Definition ex_slo : gslo Z := mkGSLO 2 3 [1; 4] [1; 2]%Q [2; 1]%Q [1; 0; 3].

Example ex_slo_accepted : verify_slo valZ ex_slo = Ok tt /\ well_formed_slo valZ ex_slo.
Proof.
  assert (E : verify_slo valZ ex_slo = Ok tt) by (vm_compute; reflexivity).
  split; [exact E|]. apply verify_slo_exact_partial; [reflexivity|exact E].
Qed.

(** Costs in the wrong order are rejected. *)
Example ex_slo_rejected : verify_slo valZ (mkGSLO 2 3 [1; 4] [1; 2]%Q [1; 2]%Q [1; 0; 3]) = Err Invalid.
Proof. vm_compute. reflexivity. Qed.

Example ex_ssco_accepted :
  verify_ssco valZ (mkGSSCO (C := unit) (D := unit) 2 3 [1; 4] [1; 2]%Q []) = Ok tt /\
  verify_ssco valZ (mkGSSCO (C := unit) (D := unit) 2 3 [1; 0] [1; 2]%Q []) = Err Invalid.
Proof. split; vm_compute; reflexivity. Qed.

Example ex_schedule :
  verify_schedule valZ 2 [1; 4] [[1; 2]; [0; 4]] = Ok tt /\ feasible valZ 2 [1; 4] [[1; 2]; [0; 4]] /\
  verify_schedule valZ 2 [1; 4] [[1; 2]; [0; 5]] = Err Invalid /\
  verify_schedule valZ 2 [1; 4] [[1; 2]] = Err Invalid.
Proof.
  assert (E : verify_schedule valZ 2 [1; 4] [[1; 2]; [0; 4]] = Ok tt) by (vm_compute; reflexivity).
  split; [exact E|]. split; [|split; vm_compute; reflexivity].
  apply verify_schedule_exact_partial; [repeat constructor|exact E].
Qed.

Example ex_encoding : map (parse 3) (seq 0 7) =
  map (@Ok _) [(0,0); (0,1); (0,2); (1,0); (1,1); (1,2); (2,0)]%nat.
Proof. vm_compute. reflexivity. Qed.

(** The number of hitting costs of a SLO instance is not checked: a short vector makes
    [verify] panic instead of rejecting ... *)
Theorem verify_slo_short_hitting_cost_refuted :
  exists p : gslo Z, verify_slo valZ p = Panic.
Proof. exists (mkGSLO 1 0 [1] [1%Q] [] []). vm_compute. reflexivity. Qed.

(** ... and a long one is accepted. *)
Theorem verify_slo_long_hitting_cost_refuted :
  exists p : gslo Z, verify_slo valZ p = Ok tt /\ Z.of_nat (length (l_hitting p)) <> l_d p.
Proof. exists (mkGSLO 1 0 [1] [1%Q] [1; 7]%Q []). split; [vm_compute; reflexivity|discriminate]. Qed.

(** The dimension of configurations is not checked: shorter ones are accepted, longer ones
    panic. *)
Theorem verify_schedule_short_config_refuted :
  exists (bounds : list Z) (xs : list (list Z)),
  verify_schedule valZ 1 bounds xs = Ok tt /\ ~ feasible valZ 1 bounds xs.
Proof.
  exists [1; 1], [[1]]. split; [vm_compute; reflexivity|].
  intros [_ H]. inversion H as [|? ? H2 _]; subst. inversion H2 as [|? ? ? ? _ H3]; subst. inversion H3.
Qed.

Theorem verify_schedule_long_config_refuted :
  exists (bounds : list Z) (xs : list (list Z)), verify_schedule valZ 1 bounds xs = Panic.
Proof. exists [1], [[1; 1]]. vm_compute. reflexivity. Qed.

(** Lower bounds above upper bounds are accepted for SCO. *)
Theorem verify_sco_empty_bounds_refuted :
  exists p : gsco Z unit unit, verify_sco p = Ok tt /\
    forall x, ~ Forall2 (fun b j => (fst b <= j <= snd b)) (o_bounds p) x.
Proof.
  exists (mkGSCO 1 1 [(2, 1)] (fun _ => Ok 0%Q) []). split; [vm_compute; reflexivity|].
  intros x H. inversion H; subst. simpl in *. lia.
Qed.
