(** Proofs: costs of generated SBLO instances, and generated SCO instances. *)
From Coq Require Import Lia.
From Verif Require Import NumLemmas CostSpec ConvertSpec ConvertProofs ConvertObjective VerifyModel DataCenterModel DataCenterSpec DataCenterParts DataCenterProofs DataCenterInstances.
From Verif Require Import ProblemModel CostModel.
Local Open Scope Z_scope.

Lemma sblo_costs powf m {T} (ofZ : Z -> T) cast loads p k st :
  to_sblo powf m ofZ cast loads = Ok p -> nth_error (dc_server_types m) k = Some st ->
  exists l cf, dc_locations m = [l] /\ length (b_cost p) = length (dc_server_types m) /\ nth_error (b_cost p) k = Some cf /\
    forall t s, call_certain cf t s = if t <? 1 then Panic else server_cost powf m l st t s.
Proof.
  unfold to_sblo. intros H Hk. apply obind_Ok in H as (l & Hl & H). apply obind_Ok in H as (b & _ & H).
  apply obind_Ok in H as (sw & _ & H). apply obind_Ok in H as (lo & _ & H). injection H as <-. cbn [b_cost].
  exists l. eexists. split; [exact (proj1 (setting_single m l Hl))|]. split; [apply map_length|].
  split; [apply map_nth_error; exact Hk|]. intros t s. unfold call_certain, cf_get, cf_new. cbn [bt_insert filter fst].
  destruct (t <? 1) eqn:E.
  - apply Z.ltb_lt in E. rewrite (proj2 (Z.leb_gt 1 t)) by lia. reflexivity.
  - pose proof E as E'. apply Z.ltb_ge in E. rewrite (proj2 (Z.leb_le 1 t)) by lia.
    cbn [map last from_option obind fst snd andb Z.leb Z.compare Pos.compare Pos.compare_cont].
    unfold single_certain, single_predictive, certain. rewrite E'.
    destruct (server_cost powf m l st t s); cbn [obind length Nat.eqb negb]; try reflexivity. rewrite Bool.andb_false_r. reflexivity.
Qed.

Lemma sco_generated powf m {T} (v : value T) ofZ minimize loads q :
  to_sco powf m v ofZ minimize loads = Ok q ->
  exists p, to_ssco powf m v ofZ minimize loads = Ok p /\
    o_d q = Z.of_nat (length (dc_locations m) * length (dc_server_types m)) /\ o_tend q = Z.of_nat (length loads) /\
    o_bounds q = map (fun b => (v_zero v, b)) (g_bounds p) /\
    ((forall z, v_toQ v (ofZ z) == inject_Z z)%Q -> lawful v -> length (dc_locations m) = 1%nat -> 
      forall s xs, Forall (fun x => length x = length (dc_server_types m)) xs ->
      outcome_rel cost_eq
        (objective_o dc_hmerge s (gsco_problem v dc_vmerge OutsideDecisionSpace q) xs (repeat (v_zero v) (length (dc_server_types m))) 1 false (o_tend q))
        (objective_o dc_hmerge s (gssco_problem v dc_vmerge OutsideDecisionSpace p) xs (repeat (v_zero v) (length (dc_server_types m))) 1 false (g_tend p))).
Proof.
  unfold to_sco. intros H. apply obind_Ok in H as (p & Hp & H). injection H as <-. exists p. split; [exact Hp|].
  assert (g_d p = Z.of_nat (length (dc_locations m) * length (dc_server_types m)) /\ g_tend p = Z.of_nat (length loads)) as [Hd HT].
  { unfold to_ssco in Hp. apply obind_Ok in Hp as (b & _ & H). apply obind_Ok in H as (sw & _ & H). injection H as <-. split; reflexivity. }
  split; [exact Hd|]. split; [exact HT|]. split; [reflexivity|]. intros HZ HL H1 s xs HF.
  destruct (ssco_generated powf m T v ofZ minimize loads p HZ Hp) as (_ & _ & _ & _ & HS & _).
  rewrite H1, Nat.mul_1_l in Hd.
  pose proof (into_sco_objective v dc_vmerge dc_hmerge OutsideDecisionSpace p xs s HL) as G. unfold gzero in G. rewrite Hd, Nat2Z.id in G.
  exact (G HS HF).
Qed.
