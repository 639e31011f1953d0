(** Live sessions of randomised lazy budgeting for SLO: the expected cost reported. *)
From Coq Require Import Reals Qreals Lia.
From Coquelicot Require Import Hierarchy RInt.
From Verif Require Import NumLemmas VerifySpec VerifyModel DataCenterModel StreamModel StreamSpec StreamProofs SessionSpec SessionModel BudgetSpec BalancedModel
  BalancedSpec ForesightSpec ForesightModel OfflineSpec LiveSpec LiveModel LiveStream LiveLoads LiveCompete ExpectSpec ExpectProofs.
From Verif Require Import SessionStream SessionTop ForesightBudget.
From Verif Require OfflineModel.
From Verif Require Import ProblemModel CostModel.
Local Open Scope Z_scope.

Lemma session_is_run powf m minimize cast s sched randomized gamma loads more p q :
  solver_extensional minimize -> solver_reports minimize -> (randomized = true -> (0 <= gamma)%Q) ->
  to_slo powf m (fun z => z) cast loads = Ok p -> to_slo powf m (fun z => z) cast (loads ++ more) = Ok q ->
  Forall (fun lambda => length lambda = 1%nat) more ->
  let r := at_costs_of p q in
  well_formed_slo valZ r -> Forall (fun c => 0 < c)%Q (l_hitting r) ->
  evaluable (sblo_hit valZ minimize (into_sblo r)) (l_tend r) (l_bounds r) ->
  capacity_suffices (sblo_hit valZ minimize (into_sblo r)) (l_tend r) (l_bounds r) ->
  exists off rs final,
    slo_session powf m minimize cast s sched randomized gamma 0 loads (map Input (into_online more)) = Ok (off, (map Answered rs, final)) /\
    length (of_xs off) = length loads /\ length rs = length more /\
    forall k, (k <= length more)%nat ->
      let xs := of_xs off ++ map r_x (firstn k rs) in
      let t := (length loads + k)%nat in
      let now := slo_part r t in
      let hit := fun u x => evaluated (balanced_hit minimize (into_sblo now) u x) in
      (exists c, reported off rs k c /\ slo_objective_fn s now 1 xs = Ok c) /\
      forall zs m', slo_run minimize hit sched now gamma randomized t = Ok (zs, m') -> zs = xs.
Proof.
  intros HX HR Hg Hp Hq Hmore r Hwf Hpos Hev Hcap.
  destruct (slo_session_chosen powf m minimize cast s sched HX HR randomized gamma Hg loads more p q Hp Hq Hmore Hwf Hpos Hev Hcap)
    as (off & rs & mem & R1 & HC & R2 & R3 & R4 & _ & R5). fold r in R1, HC, R4, R5.
  destruct (day_length powf m cast loads more p q Hq) as [E1 E2]. fold r in E1, E2.
  exists off, rs, (Some (mkOnline r 0, of_xs off ++ map r_x rs, mem)). split; [exact R1|]. split; [exact R2|]. split; [exact R3|].
  intros k Hk xs t now hit. split.
  - assert (HE : exists c, reported off rs k c).
    { destruct k as [|k]; [eexists; reflexivity|]. destruct (nth_error rs k) as [a|] eqn:Ea; [|apply nth_error_None in Ea; lia].
      exists (r_cost a). exists a. split; [exact Ea|reflexivity]. }
    destruct HE as [c Hc]. exists c. split; [exact Hc|]. exact (R5 k c Hk Hc).
  - intros zs m' S1. assert (Ht : (t <= length (loads ++ more))%nat) by (rewrite app_length; unfold t; lia).
    pose proof (part_ev powf m minimize cast HX loads more p q Hq Hev t Ht : evaluable (sblo_hit valZ minimize (into_sblo now)) (l_tend now) (l_bounds now)) as P4.
    destruct (live_run minimize s sched randomized gamma now P4 t zs m' S1) as (mem1 & S3 & S4); [cbn [now slo_part l_tend]; lia|].
    symmetry. assert (EF : of_xs off ++ map r_x rs = xs ++ map r_x (skipn k rs)).
    { unfold xs. rewrite <- app_assoc, <- map_app, firstn_skipn. reflexivity. }
    assert (EL : length xs = t) by (unfold xs; rewrite app_length, map_length, firstn_length; unfold t; lia).
    rewrite EF in HC. apply chooses_app in HC as (m1 & C1 & _).
    apply (part_picks minimize s sched HX randomized gamma p q t) in C1; [|cbn [length]; lia].
    eapply chooses_same; [|exact C1|exact S3]. lia.
Qed.

Local Open Scope R_scope.

Lemma session_expected powf m minimize cast s sched loads more p q draw k :
  solver_extensional minimize -> solver_reports minimize ->
  to_slo powf m (fun z => z) cast loads = Ok p -> to_slo powf m (fun z => z) cast (loads ++ more) = Ok q ->
  Forall (fun lambda => length lambda = 1%nat) more ->
  let r := at_costs_of p q in
  well_formed_slo valZ r -> Forall (fun c => 0 < c)%Q (l_hitting r) -> l_d r = 1%Z ->
  evaluable (sblo_hit valZ minimize (into_sblo r)) (l_tend r) (l_bounds r) ->
  capacity_suffices (sblo_hit valZ minimize (into_sblo r)) (l_tend r) (l_bounds r) ->
  draws r draw -> (k <= length more)%nat ->
  let now := slo_part r (length loads + k) in
  exists (cost : R -> R) (E : R),
    (forall x, 0 <= x <= 1 -> exists off rs final c w,
       slo_session powf m minimize cast s sched true (draw x) 0 loads (map Input (into_online more)) = Ok (off, (map Answered rs, final)) /\
       length (of_xs off) = length loads /\ length rs = length more /\
       reported off rs k c /\ c_cost c = Fin w /\ cost x = Q2R w) /\
    is_RInt (V := R_NormedModule) cost 0 1 E /\
    forall ys c w, feasible_schedule (l_tend now) (l_bounds now) ys ->
      slo_objective_fn s now 1 ys = Ok c -> c_cost c = Fin w ->
      E <= exp 1 / (exp 1 - 1) * Q2R w.
Proof.
  intros HX HR Hp Hq Hmore r Hwf Hpos Hd Hev Hcap HD Hk now.
  destruct (day_length powf m cast loads more p q Hq) as [E1 E2]. fold r in E1, E2.
  set (t := (length loads + k)%nat) in *. assert (Ht : (t <= length (loads ++ more))%nat) by (rewrite app_length; unfold t; lia).
  pose proof (part_wf powf m cast loads more p q Hq Hwf t Ht : well_formed_slo valZ now) as P1.
  pose proof (day_hitting powf m cast loads more p q Hp Hq : Z.of_nat (length (l_hitting now)) = l_d now) as P2.
  pose proof (part_length powf m cast loads more p q Hq t Ht : Z.of_nat (length (l_load now)) = l_tend now) as P3.
  pose proof (part_ev powf m minimize cast HX loads more p q Hq Hev t Ht : evaluable (sblo_hit valZ minimize (into_sblo now)) (l_tend now) (l_bounds now)) as P4.
  pose proof (part_cap powf m minimize cast HX loads more p q Hq Hcap t Ht : capacity_suffices (sblo_hit valZ minimize (into_sblo now)) (l_tend now) (l_bounds now)) as P5.
  pose proof (Hpos : Forall (fun c => 0 < c)%Q (l_hitting now)) as P6.
  pose proof (live_evaluates minimize now P1 P2 P6 P3 P4 P5) as P7.
  assert (P8 : Forall (fun l => 0 <= l)%Z (l_load now)).
  { destruct P1 as (_ & _ & _ & _ & _ & _ & HN). rewrite Forall_forall. intros l Hl. apply In_nth_error in Hl as [i Hi].
    assert (Hi' : (i < length (l_load now))%nat) by (apply nth_error_Some; congruence).
    specialize (HN (Z.of_nat i + 1)%Z l ltac:(lia)). rewrite access_nth in HN. specialize (HN Hi).
    unfold is_nonnegative in HN. cbn in HN. change 0%Q with (inject_Z 0) in HN. rewrite <- Zle_Qle in HN. exact HN. }
  destruct (randomized_competitive minimize (fun u x => evaluated (balanced_hit minimize (into_sblo now) u x)) sched s now t draw (live_instance now P1 P2 P6) Hd P8 HR P7)
    as (cost & E & C1 & C2 & C3); [rewrite P3; cbn [now slo_part l_tend]; lia|exact HD|].
  exists cost, E. split; [|split; [exact C2|exact C3]].
  intros x Hx. destruct (C1 x Hx) as (zs & m' & c & w & S1 & S2 & S3 & S4).
  destruct (session_is_run powf m minimize cast s sched true (draw x) loads more p q HX HR (fun _ => proj1 (HD x Hx)) Hp Hq Hmore Hwf Hpos Hev Hcap)
    as (off & rs & final & R1 & R2 & R3 & R4). specialize (R4 k Hk). cbv zeta in R4. fold r in R4. fold t in R4. fold now in R4.
  destruct R4 as [(c' & R5 & R6) R7]. specialize (R7 zs m' S1). exists off, rs, final, c', w. repeat (split; [assumption|]).
  split; [|exact S4]. rewrite <- R7 in R6. change (slo_objective_fn s now 1 zs = Ok c) in S2. congruence.
Qed.
