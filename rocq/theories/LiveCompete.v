(** Live sessions of lazy budgeting for SLO: every load is answered and covered; the factor 2. *)
From Coq Require Import Lia Lqa.
From Verif Require Import NumLemmas CostSpec CostProofs ConvertObjective VerifySpec VerifyProofs VerifyModel DataCenterModel StreamModel StreamSpec StreamProofs
  SessionSpec SessionModel SessionStream SessionTop LoadProofs LoadObjective BudgetSpec BudgetProofs BudgetRun BudgetProps BalancedModel BalancedSpec BalancedSearch
  ForesightSpec ForesightModel ForesightSolvers ForesightBudget OfflineSpec OfflineEndLoads SloRatioProps LiveSpec LiveModel LiveStream LiveLoads.
From Verif Require OfflineModel OfflineMore.
From Verif Require Import ProblemModel CostModel.
Local Open Scope Z_scope.

Lemma loads_upto {T} (v : value T) load n n' : n' <= n -> well_formed_loads v n load -> well_formed_loads v n' load.
Proof. intros Hn [A B]. split; [lia|]. intros t l Ht. apply B. lia. Qed.

Lemma slo_shorter {T} (v : value T) (p : gslo T) t : 0 <= t <= l_tend p -> well_formed_slo v p ->
  well_formed_slo v (mkGSLO (l_d p) t (l_bounds p) (l_switching p) (l_hitting p) (l_load p)).
Proof.
  intros Ht ((A & B & E) & F & G & H & I & J). split; [|split; [exact F|split; [exact G|split; [exact H|split; [exact I|]]]]].
  - split; [exact A|]. split; [cbn [l_tend]; lia|exact E].
  - cbn [l_tend l_load]. eapply loads_upto; [|exact J]. lia.
Qed.

Lemma sblo_shorter {T} (v : value T) (p : gsblo T) t : 0 <= t <= b_tend p -> well_formed_sblo v p ->
  well_formed_sblo v (mkGSBLO (b_d p) t (b_bounds p) (b_switching p) (b_cost p) (b_load p)).
Proof.
  intros Ht ((A & B & E) & J). split.
  - split; [exact A|]. split; [cbn [b_tend]; lia|exact E].
  - cbn [b_tend b_load]. eapply loads_upto; [|exact J]. lia.
Qed.

Lemma loads_first {T} (v : value T) load n : well_formed_loads v n load -> forall k, (Z.of_nat k <= n)%Z -> well_formed_loads v (Z.of_nat k) (firstn k load).
Proof.
  intros [A B] k Hk. split; [rewrite firstn_length; lia|]. intros t l Ht. rewrite access_firstn by lia. apply B. lia.
Qed.

Lemma search_cache {C D} (outside : D) sc (p : ssco C D) cache inv alpha ini path c :
  optimal_graph_search outside sc p cache inv alpha ini = Ok (path, c) -> ca_t c = s_tend p.
Proof.
  unfold optimal_graph_search, graph_search. intros H.
  repeat match type of H with
  | obind ?e _ = _ => destruct e; cbn [obind] in H; try discriminate H
  | (if ?b then _ else _) = _ => destruct b; try discriminate H
  | (let '(_, _) := ?e in _) = _ => destruct e
  | (match ?e with _ => _ end) = _ => destruct e; try discriminate H
  end.
  all: try (injection H as <- <-; reflexivity).
Qed.

Lemma lb_cache minimize hit sched w (p : gslo Z) t m randomized x m' :
  slo_lb minimize hit sched w p t m randomized = Ok (x, m') -> exists c, sm_cache m' = Some c /\ ca_t c = l_tend p.
Proof.
  unfold slo_lb. intros H. destruct (negb (w =? 0)); [discriminate H|]. cbv zeta in H.
  destruct (find_optimal_lanes _ _ _ _ _ _) as [[o c]| |] eqn:E; try discriminate H. cbn [obind fst snd] in H.
  destruct (omap _ _); try discriminate H. cbn [obind] in H. destruct (negb _); [discriminate H|].
  destruct (collect_config _ _); try discriminate H. cbn [obind] in H. injection H as <- <-. exists c. split; [reflexivity|].
  unfold find_optimal_lanes in E. destruct (optimal_graph_search _ _ _ _ _ _ _) as [[path c']| |] eqn:E2; try discriminate E. cbn [obind fst snd] in E.
  destruct (at_index _ _); try discriminate E. cbn [obind] in E. destruct (build_lanes _ _ _); try discriminate E. cbn [obind] in E.
  injection E as _ <-. apply search_cache in E2. exact E2.
Qed.

Section Slo.
  Variable minimize :
    (list Q -> outcome ext) -> list (Q * Q) -> list Q -> list (list Q -> outcome Q) -> option (list Q * ext).
  Variable s : split.
  Variable sched : Z -> Z -> vertice -> split.
  Hypothesis HX : solver_extensional minimize.
  Hypothesis HR : solver_reports minimize.
  Variable randomized : bool.
  Variable gamma : Q.
  Hypothesis Hgamma : randomized = true -> (0 <= gamma)%Q.
  Notation ops := (OfflineModel.slo_ops s).
  Notation alg := (slo_online minimize sched randomized).
  Notation dflt := (slo_start gamma).

  (** *** An instance *)
  Section Instance.
    Variable r : gslo Z.
    Hypothesis Hwf : well_formed_slo valZ r.
    Hypothesis Hh : Z.of_nat (length (l_hitting r)) = l_d r.
    Hypothesis Hpos : Forall (fun c => 0 < c)%Q (l_hitting r).
    Hypothesis Hlen : Z.of_nat (length (l_load r)) = l_tend r.
    Hypothesis Hev : evaluable (sblo_hit valZ minimize (into_sblo r)) (l_tend r) (l_bounds r).
    Hypothesis Hcap : capacity_suffices (sblo_hit valZ minimize (into_sblo r)) (l_tend r) (l_bounds r).
    Let hit (t : Z) (x : list Z) := evaluated (balanced_hit minimize (into_sblo r) t x).

    Lemma live_instance : slo_instance r.
    Proof.
      destruct Hwf as ((A & B & E & F & G & H) & I & J & K & L & M). constructor; auto.
      - eapply Forall_impl; [|exact G]. intros u Hu. unfold is_positive in Hu. cbn in Hu. change 0%Q with (inject_Z 0) in Hu. rewrite <- Zlt_Qlt in Hu. exact Hu.
      - eapply Forall_impl; [|exact H]. cbn. intros. lra.
      - intros i j a b Hij Ha Hb. destruct (Nat.eq_dec i j) as [->|]; [assert (a = b) by congruence; subst; lra|].
        apply Qlt_le_weak. apply (K i j); auto. lia.
      - intros i j a b Hij Ha Hb. destruct (Nat.eq_dec i j) as [->|]; [assert (a = b) by congruence; subst; lra|].
        apply Qlt_le_weak. apply (J i j); auto. lia.
    Qed.

    Lemma bounds_inside : feasible_config (l_bounds r) (l_bounds r).
    Proof.
      pose proof (si_bounds_pos r live_instance) as H. unfold feasible_config. revert H. generalize (l_bounds r). intros l H.
      induction H as [|u l Hu H IH]; constructor; [lia|exact IH].
    Qed.

    Lemma hit_evaluated t x : 1 <= t <= l_tend r -> feasible_config (l_bounds r) x ->
      exists c c', sblo_hit valZ minimize (into_sblo r) t x = Ok c /\ balanced_hit minimize (into_sblo r) t x = Ok c' /\ eeq (c_cost c) (c_cost c').
    Proof.
      intros Ht Hx. destruct (Hev t x Ht Hx) as [c Hc]. pose proof (into_ssco_hit valZ minimize (into_sblo r) t x ltac:(lia)) as HS.
      rewrite Hc in HS. unfold balanced_hit. destruct (gssco_hit _ _ _ _ _ _) as [c'| |]; cbn [outcome_rel] in HS; try contradiction.
      exists c, c'. split; [exact Hc|]. split; [reflexivity|]. apply eeq_sym. apply HS.
    Qed.

    Lemma live_evaluates : evaluates minimize r hit.
    Proof.
      split; intros t.
      - intros x Ht Hx. rewrite Hlen in Ht. destruct (hit_evaluated t x Ht Hx) as (c & c' & H1 & H2 & H3). exists c. split; [exact H1|].
        unfold hit. rewrite H2. exact H3.
      - intros Ht. rewrite Hlen in Ht. destruct (hit_evaluated t _ Ht bounds_inside) as (c & c' & H1 & H2 & H3).
        unfold hit. rewrite H2. cbn [evaluated]. destruct (Hcap t Ht) as (c2 & E & F). rewrite H1 in E. injection E as <-.
        eapply eeq_fin; [apply eeq_sym; exact H3|exact F].
    Qed.

    Lemma live_guard from t : 1 <= from -> t <= l_tend r ->
      forallb (fun t => forallb (fun x => is_ok (balanced_hit minimize (into_sblo r) t x)) (all_configs (l_bounds r))) (zrange from t) = true.
    Proof.
      intros Hf Ht. apply forallb_forall. intros u Hu. apply zrange_In in Hu. apply forallb_forall. intros x Hx. apply all_configs_spec in Hx.
      destruct (hit_evaluated u x ltac:(lia) Hx) as (c & c' & _ & -> & _). reflexivity.
    Qed.

    Lemma live_steps n : forall xs m zs m', slo_steps minimize hit sched r randomized n xs m = Ok (zs, m') ->
      Z.of_nat (length xs) + Z.of_nat n <= l_tend r ->
      (forall c, sm_cache m = Some c -> 0 <= ca_t c) ->
      forall mem, match mem with None => dflt (mkOnline r 0) | Some m0 => m0 end = m ->
      exists ys mem', zs = xs ++ ys /\ length ys = n /\ chooses ops alg dflt (mkOnline r 0) xs mem ys mem'.
    Proof.
      induction n as [|n IH]; intros xs m zs m' H Hn Hc mem Hm.
      - cbn [slo_steps] in H. injection H as <- <-. exists [], mem. rewrite app_nil_r. repeat split. constructor.
      - cbn [slo_steps] in H. cbv zeta in H. set (t := Z.of_nat (length xs) + 1) in *.
        destruct (slo_lb minimize hit sched 0 (slo_at r t) t m randomized) as [[x m1]| |] eqn:E; try discriminate H. cbn [obind fst snd] in H.
        destruct (IH (xs ++ [x]) m1 zs m' H) with (mem := Some m1) as (ys & mem' & E1 & E2 & E3).
        + rewrite app_length. cbn [length]. lia.
        + intros c Hc1. destruct (lb_cache _ _ _ _ _ _ _ _ _ _ E) as (c' & Hc' & Et). assert (c = c') by congruence. subst c'. rewrite Et. cbn [slo_at l_tend]. unfold t. lia.
        + reflexivity.
        + exists (x :: ys), mem'. rewrite E1, <- app_assoc. split; [reflexivity|]. split; [cbn [length]; lia|].
          apply chooses_one with (m1 := Some m1); [|exact E3]. fold t.
          change (at_slot ops (mkOnline r 0) t) with (mkOnline (slo_at r t) 0).
          replace (match mem with Some m0 => m0 | None => dflt (mkOnline (slo_at r t) 0) end) with m by (rewrite <- Hm; destruct mem; reflexivity).
          unfold slo_online. cbn [on_p on_w]. cbv zeta. change (negb (0 =? 0)) with false. cbv iota.
          match goal with |- (if ?b then _ else _) = _ => assert (EB : b = true) end.
          { apply (live_guard (match sm_cache m with Some c => ca_t c + 1 | None => 1 end) t); [|unfold t; lia].
            destruct (sm_cache m) as [c|]; [|lia]. specialize (Hc c eq_refl). lia. }
          rewrite EB.
          change (slo_lb minimize (fun t0 x0 => evaluated (balanced_hit minimize (into_sblo (slo_at r t)) t0 x0)) sched 0 (slo_at r t) t m randomized)
            with (slo_lb minimize hit sched 0 (slo_at r t) t m randomized).
          rewrite E. reflexivity.
    Qed.

    Lemma live_run n zs m' : slo_run minimize hit sched r gamma randomized n = Ok (zs, m') -> Z.of_nat n <= l_tend r ->
      exists mem, chooses ops alg dflt (mkOnline r 0) [] None zs mem /\ length zs = n.
    Proof.
      intros H Hn. destruct (live_steps n [] _ zs m' H) with (mem := @None slo_memory) as (ys & mem & E1 & E2 & E3).
      - cbn [length]. lia.
      - discriminate.
      - reflexivity.
      - cbn [app] in E1. subst ys. exists mem. split; [exact E3|exact E2].
    Qed.
  End Instance.
End Slo.

Lemma sum_zsum x : (Qsum (map inject_Z x) == inject_Z (zsum x))%Q.
Proof.
  induction x as [|a x IH]; [reflexivity|]. change (map inject_Z (a :: x)) with (inject_Z a :: map inject_Z x).
  change (zsum (a :: x)) with (a + zsum x). rewrite inject_Z_plus, <- IH. reflexivity.
Qed.

(** *** Sessions *)
Section SloDay.
  Variables (powf : Q -> Q -> Q) (m : data_center).
  Variable minimize :
    (list Q -> outcome ext) -> list (Q * Q) -> list Q -> list (list Q -> outcome Q) -> option (list Q * ext).
  Variable cast : Q -> Z.
  Variable s : split.
  Variable sched : Z -> Z -> vertice -> split.
  Hypothesis HX : solver_extensional minimize.
  Hypothesis HR : solver_reports minimize.
  Variable randomized : bool.
  Variable gamma : Q.
  Hypothesis Hgamma : randomized = true -> (0 <= gamma)%Q.
  Notation ops := (OfflineModel.slo_ops s).
  Notation alg := (slo_online minimize sched randomized).
  Notation dflt := (slo_start gamma).
  Notation gen := (to_slo powf m (fun z => z) cast).
  Variables (loads more : list (list Q)) (p q : gslo Z).
  Hypothesis Hp : gen loads = Ok p.
  Hypothesis Hq : gen (loads ++ more) = Ok q.
  Hypothesis Hmore : Forall (fun lambda => length lambda = 1%nat) more.
  Let r := at_costs_of p q.
  Hypothesis Hwf : well_formed_slo valZ r.
  Hypothesis Hpos : Forall (fun c => 0 < c)%Q (l_hitting r).
  Hypothesis Hev : evaluable (sblo_hit valZ minimize (into_sblo r)) (l_tend r) (l_bounds r).
  Hypothesis Hcap : capacity_suffices (sblo_hit valZ minimize (into_sblo r)) (l_tend r) (l_bounds r).

  Lemma day_hitting : Z.of_nat (length (l_hitting r)) = l_d r.
  Proof.
    unfold r, at_costs_of. cbn [l_hitting l_d]. clear - Hp Hq. unfold to_slo in Hp, Hq.
    apply obind_Ok in Hp as (l & El & H). apply obind_Ok in H as (bs & _ & H). apply obind_Ok in H as (sw & _ & H).
    apply obind_Ok in H as (hs & Eh & H). apply obind_Ok in H as (load & _ & H). injection H as <-. cbn [l_hitting].
    apply obind_Ok in Hq as (l' & _ & H). apply obind_Ok in H as (bs' & _ & H). apply obind_Ok in H as (sw' & _ & H).
    apply obind_Ok in H as (hs' & _ & H). apply obind_Ok in H as (load' & _ & H). injection H as <-. cbn [l_d].
    apply omap_length in Eh. rewrite Eh. unfold dc_d. unfold single_setting in El.
    destruct (dc_locations m) as [|a [|b ls]]; try discriminate El; cbn [length Nat.mul]; lia.
  Qed.

  Lemma day_length : Z.of_nat (length (l_load r)) = l_tend r /\ l_tend r = Z.of_nat (length (loads ++ more)).
  Proof.
    pose proof (slo_inverts powf m (fun z => z) cast _ _ Hq) as [A B]. unfold r, at_costs_of. cbn [l_load l_tend]. rewrite B. split; [|reflexivity].
    unfold single_loads in A. apply omap_length in A. rewrite A. reflexivity.
  Qed.

  Section Part.
    Variable t : nat.
    Hypothesis Ht : (t <= length (loads ++ more))%nat.
    Notation pt := (slo_part r t).

    Lemma part_wf : well_formed_slo valZ pt.
    Proof.
      destruct day_length as [E1 E2]. pose proof Hwf as ((A & B & E) & F & G & H & I & J). unfold slo_part.
      split; [|split; [exact F|split; [exact G|split; [exact H|split; [exact I|]]]]].
      - split; [exact A|]. split; [cbn [l_tend]; lia|exact E].
      - cbn [l_tend l_load]. eapply loads_first; [exact J|]. lia.
    Qed.
    Lemma part_length : Z.of_nat (length (l_load pt)) = l_tend pt.
    Proof. destruct day_length as [E1 E2]. unfold slo_part. cbn [l_load l_tend]. rewrite firstn_length. lia. Qed.
    Lemma part_agrees u x : 1 <= u <= Z.of_nat t -> sblo_hit valZ minimize (into_sblo pt) u x = sblo_hit valZ minimize (into_sblo r) u x.
    Proof.
      intros Hu. apply hit_agrees; [exact HX|lia|]. apply (into_sblo_agrees (Z.of_nat t)); [|lia]. unfold slo_part. repeat split.
      intros v Hv. cbn [l_load]. apply access_firstn. lia.
    Qed.
    Lemma part_ev : evaluable (sblo_hit valZ minimize (into_sblo pt)) (l_tend pt) (l_bounds pt).
    Proof.
      destruct day_length as [E1 E2]. intros u x Hu Hx. cbn [slo_part l_tend l_bounds] in Hu, Hx. rewrite part_agrees by exact Hu. apply Hev; [lia|exact Hx].
    Qed.
    Lemma part_cap : capacity_suffices (sblo_hit valZ minimize (into_sblo pt)) (l_tend pt) (l_bounds pt).
    Proof.
      destruct day_length as [E1 E2]. intros u Hu. cbn [slo_part l_tend l_bounds] in Hu |- *. rewrite part_agrees by exact Hu. apply Hcap. lia.
    Qed.

    Lemma part_picks : forall ys xs mm m', (length xs + length ys <= t)%nat ->
      chooses ops alg dflt (mkOnline r 0) xs mm ys m' -> chooses ops alg dflt (mkOnline pt 0) xs mm ys m'.
    Proof.
      intros ys xs mm m' Hn HC. refine (picks_first ops alg dflt r (slo_part r) t _ _ ys xs mm m' Hn HC).
      - intros u us mem Hu. apply (slo_part_step s alg (slo_waits minimize sched HX randomized) p q). exact Hu.
      - intros u Hu. apply (slo_part_blank s dflt (slo_blank gamma) p q).
    Qed.
  End Part.

  (** What the algorithm chooses for the day. *)
  Lemma day_chosen : exists xs mem, chooses ops alg dflt (mkOnline r 0) [] None xs mem /\ length xs = length (loads ++ more) /\
    feasible_schedule (l_tend r) (l_bounds r) xs /\ covers r xs.
  Proof.
    destruct day_length as [E1 E2].
    pose proof (live_instance r Hwf day_hitting Hpos) as HI.
    pose proof (live_evaluates minimize r Hwf day_hitting Hpos E1 Hev Hcap) as HE.
    destruct (slo_lb_serves_load_partial minimize _ sched r gamma randomized (length (loads ++ more)) HI HR HE Hgamma) as (xs & m' & ER & HF & HC); [lia|].
    destruct (live_run minimize s sched randomized gamma r Hev _ xs m' ER) as (mem & HP & HL); [lia|].
    exists xs, mem. split; [exact HP|]. split; [exact HL|]. rewrite E2. split; [exact HF|].
    intros i x l Hx Hl. specialize (HC i l x Hl Hx). rewrite sum_zsum, <- Zle_Qle. exact HC.
  Qed.

  Lemma day_verified t : 0 <= t <= Z.of_nat (length loads) ->
    verify_slo valZ (mkGSLO (l_d p) t (l_bounds p) (l_switching p) (l_hitting p) (l_load p)) = Ok tt.
  Proof.
    intros Ht. pose proof (slo_starts powf m (fun z => z) cast loads more p q Hp Hq) as Ep. fold r in Ep.
    assert (HW : well_formed_slo valZ p) by (rewrite Ep; apply part_wf; rewrite app_length; lia).
    assert (ET : l_tend p = Z.of_nat (length loads)) by (rewrite Ep; reflexivity).
    apply slo_verified; cbn [l_hitting l_d].
    - rewrite Ep. unfold slo_part. cbn [l_hitting l_d]. exact day_hitting.
    - apply slo_shorter; [lia|exact HW].
  Qed.

  Lemma part_objective xs t : (t <= length (loads ++ more))%nat -> feasible_schedule (l_tend r) (l_bounds r) xs ->
    exists c, slo_objective_fn s (slo_part r t) 1 (firstn t xs) = Ok c.
  Proof.
    intros Ht [HL HF]. destruct day_length as [E1 E2].
    destruct (slo_objective_total s (slo_part r t) (part_wf t Ht) day_hitting 1 (firstn t xs)) as (c & Hc & _); [|eauto].
    split.
    - cbn [slo_part l_tend]. rewrite firstn_length. lia.
    - rewrite Forall_forall in *. intros x Hx. apply HF. rewrite <- (firstn_skipn t xs). apply in_or_app. left. exact Hx.
  Qed.

  Lemma slo_session_chosen : exists off rs mem,
    slo_session powf m minimize cast s sched randomized gamma 0 loads (map Input (into_online more))
      = Ok (off, (map Answered rs, Some (mkOnline r 0, of_xs off ++ map r_x rs, mem))) /\
    chooses ops alg dflt (mkOnline r 0) [] None (of_xs off ++ map r_x rs) mem /\
    length (of_xs off) = length loads /\ length rs = length more /\
    feasible_schedule (l_tend r) (l_bounds r) (of_xs off ++ map r_x rs) /\ covers r (of_xs off ++ map r_x rs) /\
    forall k c, (k <= length more)%nat -> reported off rs k c ->
      slo_objective_fn s (slo_part r (length loads + k)) 1 (of_xs off ++ map r_x (firstn k rs)) = Ok c.
  Proof.
    destruct day_chosen as (xs & mem & HC & HL & HF & HV).
    destruct (slo_live powf m cast s alg dflt (slo_waits minimize sched HX randomized) (slo_blank gamma) loads more p q Hp Hq Hmore xs mem day_verified HC HL)
      as (off & rs & R1 & R2 & R3 & R4 & R5).
    { intros k Hk. apply part_objective; [rewrite app_length; lia|exact HF]. }
    exists off, rs, mem. unfold slo_session. rewrite Hp. cbn [obind]. rewrite <- R4. split; [exact R1|]. split; [exact HC|]. split; [exact R3|]. split; [exact R2|].
    split; [exact HF|]. split; [exact HV|]. exact R5.
  Qed.
End SloDay.

(** One type of servers. *)
Lemma slo_session_two powf m minimize cast s sched gamma loads more p q :
  solver_extensional minimize -> solver_reports minimize ->
  to_slo powf m (fun z => z) cast loads = Ok p -> to_slo powf m (fun z => z) cast (loads ++ more) = Ok q ->
  Forall (fun lambda => length lambda = 1%nat) more ->
  let r := at_costs_of p q in
  well_formed_slo valZ r -> Forall (fun c => 0 < c)%Q (l_hitting r) -> l_d r = 1 ->
  evaluable (sblo_hit valZ minimize (into_sblo r)) (l_tend r) (l_bounds r) ->
  capacity_suffices (sblo_hit valZ minimize (into_sblo r)) (l_tend r) (l_bounds r) ->
  exists off rs final,
    slo_session powf m minimize cast s sched false gamma 0 loads (map Input (into_online more)) = Ok (off, (map Answered rs, final)) /\
    length (of_xs off) = length loads /\ length rs = length more /\
    forall k c, (k <= length more)%nat -> reported off rs k c ->
      let xs := of_xs off ++ map r_x (firstn k rs) in
      let now := slo_part r (length loads + k) in
      slo_objective_fn s now 1 xs = Ok c /\
      cheapest_within 2 (slo_objective_fn s now 1) (l_tend now) (l_bounds now) xs.
Proof.
  intros HX HR Hp Hq Hmore r Hwf Hpos Hd Hev Hcap.
  assert (Hg : false = true -> (0 <= gamma)%Q) by discriminate.
  destruct (slo_session_chosen powf m minimize cast s sched HX HR false gamma Hg loads more p q Hp Hq Hmore Hwf Hpos Hev Hcap)
    as (off & rs & mem & R1 & HC & R2 & R3 & R4 & _ & R5). fold r in R1, HC, R4, R5.
  destruct (day_length powf m cast loads more p q Hq) as [E1 E2]. fold r in E1, E2.
  exists off, rs, (Some (mkOnline r 0, of_xs off ++ map r_x rs, mem)). split; [exact R1|]. split; [exact R2|]. split; [exact R3|].
  intros k c Hk Hc xs now. specialize (R5 k c Hk Hc). split; [exact R5|].
  set (t := (length loads + k)%nat) in *. assert (Ht : (t <= length (loads ++ more))%nat) by (rewrite app_length; unfold t; lia).
  pose proof (part_wf powf m cast loads more p q Hq Hwf t Ht : well_formed_slo valZ now) as P1.
  pose proof (day_hitting powf m cast loads more p q Hp Hq : Z.of_nat (length (l_hitting now)) = l_d now) as P2.
  pose proof (part_length powf m cast loads more p q Hq t Ht : Z.of_nat (length (l_load now)) = l_tend now) as P3.
  pose proof (part_ev powf m minimize cast HX loads more p q Hq Hev t Ht : evaluable (sblo_hit valZ minimize (into_sblo now)) (l_tend now) (l_bounds now)) as P4.
  pose proof (part_cap powf m minimize cast HX loads more p q Hq Hcap t Ht : capacity_suffices (sblo_hit valZ minimize (into_sblo now)) (l_tend now) (l_bounds now)) as P5.
  pose proof (Hpos : Forall (fun c => 0 < c)%Q (l_hitting now)) as P6.
  pose proof (live_evaluates minimize now P1 P2 P6 P3 P4 P5) as P7.
  destruct (slo_lb_competitive_partial minimize (fun t x => evaluated (balanced_hit minimize (into_sblo now) t x)) sched s now gamma t (live_instance now P1 P2 P6) Hd) with (3 := P7)
    as (zs & m' & S1 & S2); [|exact HR|rewrite P3; cbn [now slo_part l_tend]; lia|].
  { destruct P1 as (_ & _ & _ & _ & _ & _ & HN). rewrite Forall_forall. intros l Hl. apply In_nth_error in Hl as [i Hi].
    assert (Hi' : (i < length (l_load now))%nat) by (apply nth_error_Some; congruence).
    specialize (HN (Z.of_nat i + 1) l ltac:(lia)). rewrite access_nth in HN. specialize (HN Hi).
    unfold is_nonnegative in HN. cbn in HN. change 0%Q with (inject_Z 0) in HN. rewrite <- Zle_Qle in HN. exact HN. }
  destruct (live_run minimize s sched false gamma now P4 t zs m' S1) as (mem1 & S3 & S4); [cbn [now slo_part l_tend]; lia|].
  assert (EX : xs = zs).
  { assert (EF : of_xs off ++ map r_x rs = xs ++ map r_x (skipn k rs)).
    { unfold xs. rewrite <- app_assoc, <- map_app, firstn_skipn. reflexivity. }
    assert (EL : length xs = t) by (unfold xs; rewrite app_length, map_length, firstn_length; unfold t; lia).
    rewrite EF in HC. apply chooses_app in HC as (m1 & C1 & _).
    apply (part_picks minimize s sched HX false gamma p q t) in C1; [|cbn [length]; lia].
    eapply chooses_same; [|exact C1|exact S3]. lia. }
  rewrite EX. exact S2.
Qed.

Lemma slo_session_serves powf m minimize cast s sched randomized gamma loads more p q :
  solver_extensional minimize -> solver_reports minimize -> (randomized = true -> (0 <= gamma)%Q) ->
  to_slo powf m (fun z => z) cast loads = Ok p -> to_slo powf m (fun z => z) cast (loads ++ more) = Ok q ->
  Forall (fun lambda => length lambda = 1%nat) more ->
  let r := at_costs_of p q in
  well_formed_slo valZ r -> Forall (fun c => 0 < c)%Q (l_hitting r) ->
  evaluable (sblo_hit valZ minimize (into_sblo r)) (l_tend r) (l_bounds r) ->
  capacity_suffices (sblo_hit valZ minimize (into_sblo r)) (l_tend r) (l_bounds r) ->
  exists off rs mem,
    slo_session powf m minimize cast s sched randomized gamma 0 loads (map Input (into_online more))
      = Ok (off, (map Answered rs, Some (mkOnline r 0, of_xs off ++ map r_x rs, mem))) /\
    length (of_xs off) = length loads /\ length rs = length more /\
    feasible_schedule (l_tend r) (l_bounds r) (of_xs off ++ map r_x rs) /\ covers r (of_xs off ++ map r_x rs) /\
    forall k c, (k <= length more)%nat -> reported off rs k c ->
      slo_objective_fn s (slo_part r (length loads + k)) 1 (of_xs off ++ map r_x (firstn k rs)) = Ok c.
Proof.
  intros HX HR Hg Hp Hq Hmore r Hwf Hpos Hev Hcap.
  destruct (slo_session_chosen powf m minimize cast s sched HX HR randomized gamma Hg loads more p q Hp Hq Hmore Hwf Hpos Hev Hcap)
    as (off & rs & mem & R1 & _ & R2 & R3 & R4 & R5 & R6). exists off, rs, mem. auto 10.
Qed.
