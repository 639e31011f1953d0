(** Proofs about the effect of rounding on solving SLO problems. *)
From Coq Require Import Lia Lqa.
From Verif Require Import NumLemmas GraphSearchSpec ObjectiveProofs
  CostSpec CostProofs ConvertProofs ConvertObjective VerifySpec VerifyProofs LoadProofs LoadObjective BudgetSpec BudgetCover
  OfflineModel OfflineSpec OfflineProofs OfflineFail OfflineLoads OfflineApprox OfflineEnd OfflineEndLoads.
From Verif Require Import ProblemModel CostModel.
Local Open Scope Z_scope.

(** Where a finite hitting cost comes from. *)
Lemma hit_from minimize (p : gsblo Z) t x l c : 1 <= t -> solver_reports minimize -> solver_in_bounds minimize ->
  access (b_load p) t = Some l -> sblo_hit valZ minimize p t x = Ok c -> is_fin (c_cost c) ->
  exists zs q, Forall2 (fun b z => fst b <= z <= snd b)%Q (repeat (0, 1)%Q (Z.to_nat (b_d p) * 1 - 1)) zs /\
    objective_value (sblo_objective valZ p t x [inject_Z l] (new_fractions zs (Z.to_nat (b_d p)) 1)) = Some (Fin q).
Proof.
  intros Ht Hsol Hbox Hl HC Hfin. unfold sblo_hit, call_certain_within in HC.
  apply obind_inv in HC as (w & Hw & HC). destruct w.
  2:{ injection HC as HC. rewrite <- HC in Hfin. destruct Hfin. }
  unfold apply_loads_over_time in HC.
  rewrite certain_call_certain in HC by exact Ht.
  replace (t - 1 + 1) with t in HC by lia.
  assert (EL : access (map (fun l0 => [v_toQ valZ l0]) (b_load p)) t = Some [inject_Z l]).
  { unfold access in *. rewrite map_length. destruct (_ && _); [|discriminate].
    rewrite nth_error_map, Hl. reflexivity. }
  rewrite EL in HC. cbn [from_option obind] in HC. clear EL.
  unfold apply_loads in HC. cbn [length Nat.eqb negb] in HC.
  destruct (_ <? _)%nat in HC; [discriminate|].
  destruct (negb _) in HC; [discriminate|].
  destruct (minimize _ _ _ _) as [[zs val]|] eqn:EM in HC; cbn [from_option obind fst snd] in HC; [|discriminate].
  pose proof (Hbox _ _ _ _ _ _ EM) as HB. apply Hsol in EM. exists zs.
  destruct (sblo_objective valZ p t x [inject_Z l] (new_fractions zs (Z.to_nat (b_d p)) 1)) as [[o|f]|?|];
    cbn [obind] in EM, HC; try discriminate.
  - assert (val = obj_total o) by congruence. subst val. destruct (_ && _) in HC; [|discriminate].
    assert (Ec : c_cost c = obj_total o) by (match type of HC with Ok ?k = Ok c => assert (k = c) by congruence end; subst c; reflexivity).
    rewrite Ec in Hfin. cbn [objective_value]. destruct (obj_total o) as [q|]; [|destruct Hfin].
    exists q. split; [exact HB|reflexivity].
  - assert (Ec : c_cost c = Inf).
    { assert (c = mkCost val (MFailure f)) by congruence. subst c. simpl. unfold obj_total, obj_failure in EM. simpl in EM. congruence. }
    rewrite Ec in Hfin. contradiction.
Qed.

(** One slot of load 3, two server types. *)
Definition tight (bounds : list Z) : gslo Z := mkGSLO 2 1 bounds [1; 2]%Q [2; 1]%Q [3].

Lemma tight_needs bounds a b z q : 0 <= a -> 0 <= b -> (0 <= z <= 1)%Q ->
  objective_value (sblo_objective valZ (into_sblo (tight bounds)) 1 [a; b] [3%Q] (new_fractions [z] 2 1)) = Some (Fin q) ->
  exists k, 0 <= k <= 100 /\ 3 * k <= 100 * a /\ 3 * (100 - k) <= 100 * b.
Proof.
  intros Ha Hb Hz Hq. destruct (apply_precision_range z Hz) as (k & Hk & Ek). exists k. split; [exact Hk|].
  assert (Hk' : (0 <= inject_Z k)%Q /\ (inject_Z k <= 100)%Q).
  { split; [change 0%Q with (inject_Z 0)|change 100%Q with (inject_Z 100)]; rewrite <- Zle_Qle; lia. }
  assert (HD : distribution 2 [apply_precision z]).
  { split; [reflexivity|]. split.
    - apply Forall_cons; [|apply Forall_nil]. rewrite Ek. unfold Qdiv. lra.
    - cbn [Qsum]. rewrite Ek. unfold Qdiv. lra. }
  assert (Hab : Forall (fun j => 0 <= v_toQ valZ j)%Q [a; b]).
  { repeat constructor; cbn; change 0%Q with (inject_Z 0); rewrite <- Zle_Qle; assumption. }
  destruct (sblo_value valZ (tight bounds) 1 [a; b] 3 ltac:(lia) ltac:(cbn; lia) eq_refl eq_refl
    Hab ltac:(cbn; discriminate) [apply_precision z] HD) as (o & Ho & He).
  change (v_toQ valZ 3) with 3%Q in Ho. change (Z.to_nat (l_d (tight bounds))) with 2%nat in *.
  unfold new_fractions in Hq. cbn [map] in Hq. rewrite Ho in Hq. assert (o = Fin q) by congruence. subst o. clear Ho Hq.
  cbn [seq map fold_left] in He. unfold dim_value in He.
  destruct (Qle_bool (v_toQ valZ 3 * share valZ (tight bounds) 3 [apply_precision z] 0) _) eqn:E0;
    [|destruct (Qle_bool _ _); destruct He].
  destruct (Qle_bool (v_toQ valZ 3 * share valZ (tight bounds) 3 [apply_precision z] 1) _) eqn:E1; [|destruct He].
  clear He. apply Qle_bool_iff in E0, E1.
  unfold share in E0, E1. cbn [tight l_d] in E0, E1.
  change (Z.to_nat 2) with 2%nat in *. cbn [Nat.sub Nat.ltb Nat.leb nth Qsum] in E0, E1.
  cbn [valZ v_toQ] in E0, E1. change (Qltb 0 (inject_Z 3)) with true in E1. cbv iota in E1.
  rewrite Ek in E0, E1. change (inject_Z 3) with 3%Q in *.
  split; rewrite Zle_Qle; rewrite ?inject_Z_mult; unfold Z.sub; rewrite ?inject_Z_plus, ?inject_Z_opp;
    change (inject_Z 3) with 3%Q; change (inject_Z 100) with 100%Q; lra.
Qed.

Lemma tight_hit minimize bounds a b c : solver_reports minimize -> solver_in_bounds minimize -> 0 <= a -> 0 <= b ->
  sblo_hit valZ minimize (into_sblo (tight bounds)) 1 [a; b] = Ok c -> is_fin (c_cost c) ->
  exists k, 0 <= k <= 100 /\ 3 * k <= 100 * a /\ 3 * (100 - k) <= 100 * b.
Proof.
  intros Hsol Hbox Ha Hb Hc Hf.
  destruct (hit_from minimize (into_sblo (tight bounds)) 1 [a; b] 3 c ltac:(lia) Hsol Hbox eq_refl Hc Hf) as (zs & q & HB & Hq).
  change (Z.to_nat (b_d (into_sblo (tight bounds)))) with 2%nat in *. cbn [Nat.sub Nat.mul repeat Nat.add] in HB.
  inversion HB as [|? z ? ? Hz HB']; subst. inversion HB'; subst. cbn [fst snd] in Hz.
  eapply tight_needs; eauto.
Qed.

Definition tight_small := tight [1; 2].
Definition tight_large := tight [2; 2].

Lemma tight_small_unsolved minimize s sched o : solver_reports minimize -> solver_in_bounds minimize ->
  forall xs c, offline_solve (slo_ops s) (optimal_search_slo minimize sched o) tight_small <> Ok (xs, c).
Proof.
  intros Hsol Hbox xs c H. unfold offline_solve in H. apply obind_inv in H as (u & Hu & H).
  apply obind_inv in H as (ys & Hys & _).
  assert (Hwf : well_formed_slo valZ tight_small) by (apply slo_verified; [reflexivity|destruct u; exact Hu]).
  unfold optimal_search_slo, optimal_search_sblo in Hys.
  assert (W := image_wf minimize (into_sblo tight_small) (slo_image_wf tight_small Hwf)).
  destruct (search_needs_capacity dc_vmerge OutsideDecisionSpace _ sched o ys W Hys 1) as (d & Hd & Hf); [cbn; lia|].
  destruct (rel_right _ _ _ (into_ssco_hit valZ minimize (into_sblo tight_small) 1 [1; 2] ltac:(lia)) Hd) as (e & He & E).
  apply (is_fin_eeq _ _ E) in Hf. destruct (tight_hit minimize [1; 2] 1 2 e) as (k & Hk); auto; lia.
Qed.

Lemma tight_large_result minimize s sched o : solver_reports minimize -> solver_in_bounds minimize ->
  evaluable (sblo_hit valZ minimize (into_sblo tight_large)) 1 [2; 2] ->
  (0 <= fo_alpha o)%Q -> fo_l o = None ->
  forall xs c, offline_solve (slo_ops s) (optimal_search_slo minimize sched o) tight_large = Ok (xs, c) -> xs = [[2; 2]].
Proof.
  intros Hsol Hbox Hev Ha Hl xs c H.
  assert (HV : verify_slo valZ tight_large = Ok tt) by (vm_compute; reflexivity).
  destruct (slo_answers minimize s sched o tight_large HV eq_refl Hsol Hev Ha Hl) as [[HU _] _].
  destruct (HU (ex_intro _ xs (ex_intro _ c H))) as [HT Hcap].
  destruct (slo_solved minimize s sched o tight_large HV eq_refl HT Hsol Hev Hcap Ha Hl) as (xs' & c' & H' & _ & _ & _ & HA & HC).
  rewrite H in H'. assert (xs' = xs) by congruence. subst xs'.
  destruct HC as ([Hlen Hx] & _). cbn [tight_large tight l_tend l_bounds] in *.
  destruct xs as [|x [|? ?]]; simpl in Hlen; try lia.
  inversion Hx as [|? ? Hx1 _]; subst. inversion Hx1 as [|? a ? ? Ha1 Hx2]; subst. inversion Hx2 as [|? b ? ? Hb1 Hx3]; subst.
  inversion Hx3; subst.
  destruct (HA 0%nat [a; b] eq_refl) as (d & Hd & Hf).
  destruct (tight_hit minimize [2; 2] a b d Hsol Hbox) as (k & Hk1 & Hk2 & Hk3); auto; try lia.
  assert (a = 2 /\ b = 2) as [-> ->] by lia. reflexivity.
Qed.
