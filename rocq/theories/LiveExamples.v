(** Concrete cases for LiveProps.v, and what does not hold. *)
From Coq Require Import Lia Lqa String.
From Verif Require Import NumLemmas CostProofs ConvertProofs VerifySpec VerifyModel VerifyProofs DataCenterModel DataCenterExamples StreamModel SessionModel SessionSpec BudgetSpec BalancedModel BalancedSpec
  BalancedRatioSpec OfflineSpec LoadExamples BudgetExamples BalancedExamples OfflineExamples BalancedRatioExamples LiveSpec LiveModel LiveProps.
From Verif Require Import ProblemModel CostModel LoadModel.
Local Open Scope Z_scope.

(** *** SBLO: two types of servers, prices which rise; loads 2 and 0 are known, load 1 follows. *)
Definition live_sblo_day : gsblo Z :=
  Eval cbv [to_sblo obind single_setting generate_bounds switching_costs single_loads omap] in
  match to_sblo no_pow (centre [here]) (fun z => z) Qround.Qfloor [[2%Q]; [0%Q]; [1%Q]] with Ok q => q | _ => mkGSBLO 0 0 [] [] [] [] end.

Example live_sblo_generated : exists p, to_sblo no_pow (centre [here]) (fun z => z) Qround.Qfloor [[2%Q]; [0%Q]] = Ok p /\
  to_sblo no_pow (centre [here]) (fun z => z) Qround.Qfloor ([[2%Q]; [0%Q]] ++ [[1%Q]]) = Ok live_sblo_day.
Proof. eexists. split; [reflexivity|]. reflexivity. Qed.

Definition live_counts (t : Z) : Z := t + 1.
Example live_counts_ok : forall t, 1 <= t <= 3 -> determine_sub_time_slots live_sblo_day t 1 = Ok (live_counts t) /\ 0 < live_counts t.
Proof.
  intros t Ht. assert (Et : t = 1 \/ t = 2 \/ t = 3) by lia. destruct Et as [->|[->| ->]]; (split; [vm_compute; reflexivity|reflexivity]).
Qed.
Example live_sblo_ok : balanced_instance grid_solver live_sblo_day 3.
Proof.
  apply decide_instance; try (vm_compute; reflexivity); try (vm_compute; discriminate).
  repeat split; cbn; try lia; repeat constructor; cbn; lra || lia.
Qed.
Example live_sub_ok : balanced_instance grid_solver (sub_problem live_sblo_day live_counts 3) 9.
Proof.
  apply decide_instance; try (vm_compute; reflexivity); try (vm_compute; discriminate).
  repeat split; cbn; try lia; repeat constructor; cbn; lra || lia.
Qed.
Example live_sblo_best : assigns_best grid_solver live_sblo_day.
Proof. apply best_by_check; vm_compute; reflexivity. Qed.
Example live_sub_best : assigns_best grid_solver (sub_problem live_sblo_day live_counts 3).
Proof. apply best_by_check; vm_compute; reflexivity. Qed.

Definition live_power (k : nat) : Q := match k with O => 3 | _ => 2 end.
Definition live_limit (k : nat) : Q := match k with O => 1 | _ => 9 # 10 end.
Lemma live_server k t l : (k < 2)%nat -> 1 <= t <= 3 ->
  BalancedRatioSpec.server_cost live_sblo_day k t l
    = if Qle_bool l (live_limit k) then Fin (inject_Z (t + 1) * (1 * ((live_power k - 1) * l + 1)))%Q else Inf.
Proof.
  intros Hk Ht. assert (Et : t = 1 \/ t = 2 \/ t = 3) by lia.
  destruct k as [|[|k]]; [| |lia]; destruct Et as [->|[->| ->]];
    cbv [BalancedRatioSpec.server_cost live_sblo_day b_cost nth_error live_limit live_power]; cbv [call_certain cf_get cf_new single_certain single_predictive certain DataCenterModel.server_cost obind]; cbn;
    unfold limit_utilization; cbn; unfold emul; cbn; repeat match goal with |- context [Qltb ?a ?b] => let E := fresh in destruct (Qltb a b) eqn:E end; repeat match goal with |- context [Qle_bool ?a ?b] => let E := fresh in destruct (Qle_bool a b) eqn:E end; try reflexivity.
Qed.
Lemma live_known k f t l : nth_error (b_cost live_sblo_day) k = Some f -> 1 <= t <= 3 -> exists c, call_certain f t l = Ok c.
Proof.
  intros Hf Ht. assert (Et : t = 1 \/ t = 2 \/ t = 3) by lia.
  destruct k as [|[|k]]; cbn [live_sblo_day b_cost nth_error map dc_server_types centre] in Hf; [| |destruct k; discriminate Hf]; injection Hf as <-;
    destruct Et as [->|[->| ->]]; cbv [call_certain cf_get cf_new single_certain single_predictive certain DataCenterModel.server_cost obind]; cbn;
    unfold limit_utilization; cbn; (destruct (Qle_bool _ _); cbn; eexists; reflexivity).
Qed.
Lemma live_power_ge k : (0 <= live_power k - 1)%Q.
Proof. destruct k; cbn; lra. Qed.
Lemma live_price t : 1 <= t <= 3 -> (0 <= inject_Z (t + 1))%Q.
Proof. intros Ht. change 0%Q with (inject_Z 0). rewrite <- Zle_Qle. lia. Qed.

Example live_convex : convex_servers live_sblo_day.
Proof.
  constructor; change (b_tend live_sblo_day) with 3; change (b_d live_sblo_day) with 2.
  - intros k f t l Hf Ht Hl. exact (live_known k f t l Hf Ht).
  - intros k t l Hk Ht Hl. rewrite live_server by lia. destruct (Qle_bool l _); [|exact I]. cbn [ele].
    pose proof (live_power_ge k). pose proof (live_price t Ht). apply Qmult_le_0_compat; [assumption|].
    pose proof (Qmult_le_0_compat _ l H Hl). lra.
  - intros k t l l' Hk Ht Hl Hll. rewrite !live_server by lia.
    destruct (Qle_bool l' _) eqn:E2; [|destruct (Qle_bool l _); exact I]. apply Qle_bool_iff in E2.
    rewrite (proj2 (Qle_bool_iff l _)) by (eapply Qle_trans; eassumption). cbn [ele].
    pose proof (live_power_ge k). pose proof (live_price t Ht). rewrite !(Qmult_comm (inject_Z _)). apply Qmult_le_compat_r; [|assumption].
    assert ((live_power k - 1) * l <= (live_power k - 1) * l')%Q by (rewrite !(Qmult_comm (live_power k - 1)); apply Qmult_le_compat_r; assumption). lra.
  - intros k t x y s Hk Ht Hx Hy Hs. rewrite !live_server by lia. generalize (live_limit k). intros lim.
    destruct (Qle_bool x lim) eqn:E1, (Qle_bool y lim) eqn:E2; cbn [escale eadd]; try (destruct (Qle_bool ((1 - s) * x + s * y) lim); exact I).
    apply Qle_bool_iff in E1, E2.
    assert (H : ((1 - s) * x + s * y <= lim)%Q).
    { assert ((1 - s) * x <= (1 - s) * lim)%Q by (rewrite !(Qmult_comm (1 - s)); apply Qmult_le_compat_r; lra).
      assert (s * y <= s * lim)%Q by (rewrite !(Qmult_comm s); apply Qmult_le_compat_r; lra). lra. }
    rewrite (proj2 (Qle_bool_iff _ lim) H). cbn [ele]. apply Qle_lteq. right. ring.
  - intros k t Hk Ht. rewrite live_server by lia. destruct k; exact I.
Qed.

Example live_sblo_applies : exists off rs mem,
  sblo_session no_pow (centre [here]) grid_solver Qround.Qfloor Leaf (fun _ _ _ => Leaf) 1 0 [[2%Q]; [0%Q]] (map Input (into_online [[1%Q]]))
    = Ok (off, (map Answered rs, Some (mkOnline live_sblo_day 0, of_xs off ++ map r_x rs, mem))) /\
  cheapest_within 6 (sblo_objective_fn grid_solver Leaf live_sblo_day 1) 3 [2; 3] (of_xs off ++ map r_x rs).
Proof.
  destruct live_sblo_generated as (p & Ep & Eq).
  destruct (live_sblo_competitive no_pow (centre [here]) grid_solver Qround.Qfloor Leaf (fun _ _ _ => Leaf) 1 _ [[1%Q]] p live_sblo_day live_counts
    grid_extensional Ep Eq ltac:(repeat constructor) ltac:(lra) live_counts_ok live_sblo_ok live_sub_ok live_convex live_sblo_best live_sub_best)
    as (off & rs & mem & E & Hxs & Hrs & H).
  exists off, rs, mem. split; [exact E|].
  assert (Hc : exists c, reported off rs 1 c).
  { destruct rs as [|r [|]]; cbn in Hrs; try discriminate Hrs. exists (r_cost r). exists r. split; reflexivity. }
  destruct Hc as (c & Hc). destruct (H 1%nat live_sblo_day c ltac:(cbn; lia) Eq Hc) as [_ H1]. specialize (H1 ltac:(cbn; lia)).
  change 1%nat with (List.length [[1%Q]]) in H1. rewrite <- Hrs, firstn_all in H1. exact H1.
Qed.

(** *** SLO: one type of servers *)
Definition booth (price : Z -> Q) : data_center :=
  mkDataCenter 1 [here] [fast] [client] [job] (CLinear [("fast"%string, (1, 3)%Q)]) (ELinear [("here"%string, price)])
    [("job"%string, (1, 1 # 2)%Q)] [("fast"%string, startup)].
Definition rising (t : Z) : Q := inject_Z (t + 1).
(** The loads 1 and 2 are known at the start, 0 and 1 follow; the operating costs are those of the first two slots. *)
Definition booth_day : gslo Z := mkGSLO 1 4 [2] [5 # 2]%Q [9 # 2]%Q [1; 2; 0; 1].


Example booth_generated : exists p q,
  to_slo no_pow (booth rising) (fun z => z) Qround.Qfloor [[1]; [2]]%Q = Ok p /\
  to_slo no_pow (booth rising) (fun z => z) Qround.Qfloor ([[1]; [2]] ++ [[0]; [1]])%Q = Ok q /\ at_costs_of p q = booth_day.
Proof. do 2 eexists. split; [vm_compute; reflexivity|]. split; vm_compute; reflexivity. Qed.
Example booth_well_formed : well_formed_slo valZ booth_day.
Proof. apply slo_verified; vm_compute; reflexivity. Qed.
Example booth_evaluable : evaluable (sblo_hit valZ grid_solver (into_sblo booth_day)) 4 [2].
Proof. apply decide_evaluable. vm_compute. reflexivity. Qed.
Example booth_capacity : capacity_suffices (sblo_hit valZ grid_solver (into_sblo booth_day)) 4 [2].
Proof. apply decide_capacity. vm_compute. reflexivity. Qed.

Lemma all_reported {X C D M Y} (off : @offline_response X C D M Y) rs : exists c, reported off rs (List.length rs) c.
Proof.
  destruct (List.length rs) as [|j] eqn:E; [eexists; reflexivity|].
  destruct (nth_error rs j) as [r|] eqn:Er; [exists (r_cost r), r; auto|]. apply nth_error_None in Er. lia.
Qed.

Example booth_applies : exists off rs final,
  slo_session no_pow (booth rising) grid_solver Qround.Qfloor Leaf (fun _ _ _ => Leaf) false 0 0 [[1]; [2]]%Q (map Input (into_online [[0]; [1]]%Q))
    = Ok (off, (map Answered rs, final)) /\
  cheapest_within 2 (slo_objective_fn Leaf booth_day 1) 4 [2] (of_xs off ++ map r_x rs).
Proof.
  destruct booth_generated as (p & q & Ep & Eq & Er).
  pose proof (live_slo_competitive_partial no_pow (booth rising) grid_solver Qround.Qfloor Leaf (fun _ _ _ => Leaf) 0 [[1]; [2]]%Q [[0]; [1]]%Q p q
    grid_extensional grid_reports Ep Eq ltac:(repeat constructor)) as H. cbv zeta in H. rewrite Er in H.
  destruct (H booth_well_formed ltac:(repeat constructor) eq_refl booth_evaluable booth_capacity) as (off & rs & final & E & Hxs & Hrs & H1).
  exists off, rs, final. split; [exact E|].
  destruct (all_reported off rs) as (c & Hc). rewrite Hrs in Hc. destruct (H1 _ c (le_n _) Hc) as [_ H2].
  replace (firstn _ rs) with rs in H2 by (rewrite <- Hrs; symmetry; apply firstn_all).
  exact H2.
Qed.

(** *** SLO: two types of servers *)
Definition dear_startup : switching_cost := mkSwitching 1 1 2 (1 # 2) 1 0 2.
Definition shop : data_center :=
  mkDataCenter 1 [here] [fast; slow] [client] [job]
    (CLinear [("fast"%string, (1, 3)%Q); ("slow"%string, (1, 2)%Q)]) prices [("job"%string, (1, 1 # 2)%Q)]
    [("fast"%string, startup); ("slow"%string, dear_startup)].
Definition shop_day : gslo Z := mkGSLO 2 4 [2; 3] [5 # 2; 9 # 2]%Q [9 # 2; 6 # 2]%Q [1; 2; 0; 1].
Example shop_generated : exists p q,
  to_slo no_pow shop (fun z => z) Qround.Qfloor [[1]; [2]]%Q = Ok p /\
  to_slo no_pow shop (fun z => z) Qround.Qfloor ([[1]; [2]] ++ [[0]; [1]])%Q = Ok q /\ at_costs_of p q = shop_day.
Proof. do 2 eexists. split; [vm_compute; reflexivity|]. split; vm_compute; reflexivity. Qed.
Example shop_well_formed : well_formed_slo valZ shop_day.
Proof. apply slo_verified; vm_compute; reflexivity. Qed.
Example shop_evaluable : evaluable (sblo_hit valZ grid_solver (into_sblo shop_day)) 4 [2; 3].
Proof. apply decide_evaluable. vm_compute. reflexivity. Qed.
Example shop_capacity : capacity_suffices (sblo_hit valZ grid_solver (into_sblo shop_day)) 4 [2; 3].
Proof. apply decide_capacity. vm_compute. reflexivity. Qed.
Example shop_applies : exists off rs final,
  slo_session no_pow shop grid_solver Qround.Qfloor Leaf (fun _ _ _ => Leaf) true (1 # 2) 0 [[1]; [2]]%Q (map Input (into_online [[0]; [1]]%Q))
    = Ok (off, (map Answered rs, final)) /\
  covers shop_day (of_xs off ++ map r_x rs).
Proof.
  destruct shop_generated as (p & q & Ep & Eq & Er).
  pose proof (live_slo_serves_partial no_pow shop grid_solver Qround.Qfloor Leaf (fun _ _ _ => Leaf) true (1 # 2) [[1]; [2]]%Q [[0]; [1]]%Q p q
    grid_extensional grid_reports ltac:(intros _; lra) Ep Eq ltac:(repeat constructor)) as H. cbv zeta in H. rewrite Er in H.
  destruct (H shop_well_formed ltac:(repeat constructor) shop_evaluable shop_capacity) as (off & rs & mem & E & Hxs & Hrs & _ & H1 & _).
  exists off, rs. eexists. split; [exact E|exact H1].
Qed.

(** *** SLO: operating costs are not updated

    Energy is cheap during the first hour only.  A session started without loads averages the
    price over this hour, so it keeps a server running in all the slots that follow.  At the
    costs of the instance for all loads, the schedule is more than five times as expensive as
    powering down, and more than thirty times what is reported. *)
Definition cheap_hour (t : Z) : Q := if t =? 1 then 1 # 10 else 10.
Theorem live_slo_competitive_refuted :
  exists m more p q off rs final c c' ys c'',
    to_slo no_pow m (fun z => z) Qround.Qfloor [] = Ok p /\ to_slo no_pow m (fun z => z) Qround.Qfloor more = Ok q /\
    well_formed_slo valZ q /\ l_d q = 1 /\
    evaluable (sblo_hit valZ grid_solver (into_sblo q)) (l_tend q) (l_bounds q) /\
    capacity_suffices (sblo_hit valZ grid_solver (into_sblo q)) (l_tend q) (l_bounds q) /\
    slo_session no_pow m grid_solver Qround.Qfloor Leaf (fun _ _ _ => Leaf) false 0 0 [] (map Input (into_online more))
      = Ok (off, (map Answered rs, final)) /\
    reported off rs (List.length more) c /\
    slo_objective_fn Leaf q 1 (of_xs off ++ map r_x rs) = Ok c' /\
    feasible_schedule (l_tend q) (l_bounds q) ys /\ covers q ys /\ slo_objective_fn Leaf q 1 ys = Ok c'' /\
    elt (escale 5 (c_cost c'')) (c_cost c') /\ elt (escale 30 (c_cost c)) (c_cost c').
Proof.
  exists (booth cheap_hour), [[1]; [0]; [0]; [0]; [0]; [0]]%Q.
  pose (S := slo_session no_pow (booth cheap_hour) grid_solver Qround.Qfloor Leaf (fun _ _ _ => Leaf) false 0 0 [] (map Input (into_online [[1]; [0]; [0]; [0]; [0]; [0]]%Q))).
  assert (HS : exists off r1 r2 r3 r4 r5 r6 final, S = Ok (off, (map Answered [r1; r2; r3; r4; r5; r6], final)) /\
    of_xs off = [] /\ map r_x [r1; r2; r3; r4; r5; r6] = [[1]; [1]; [1]; [1]; [1]; [1]] /\ c_cost (r_cost r6) = Fin (275200000 # 64000000)).
  { do 8 eexists. split; [vm_compute; reflexivity|]. vm_compute. repeat split. }
  destruct HS as (off & r1 & r2 & r3 & r4 & r5 & r6 & final & HS & E1 & E2 & E3).
  do 2 eexists. exists off, [r1; r2; r3; r4; r5; r6], final. do 2 eexists. exists [[1]; [0]; [0]; [0]; [0]; [0]]. eexists.
  split; [vm_compute; reflexivity|]. split; [vm_compute; reflexivity|]. split; [apply slo_verified; vm_compute; reflexivity|]. split; [reflexivity|].
  split; [apply decide_evaluable; vm_compute; reflexivity|]. split; [apply decide_capacity; vm_compute; reflexivity|]. split; [exact HS|].
  split; [exists r6; split; reflexivity|]. split; [rewrite E1, E2; vm_compute; reflexivity|]. split; [split; [reflexivity|repeat constructor; cbn; lia]|].
  split; [|split; [vm_compute; reflexivity|]].
  - intros [|[|[|[|[|[|i]]]]]] x l Hx Hl; cbn in Hx, Hl; try (injection Hx as <-; injection Hl as <-; cbn; lra); destruct i; discriminate Hx.
  - rewrite E3. split; vm_compute; reflexivity.
Qed.
Print Assumptions live_slo_competitive_refuted.
