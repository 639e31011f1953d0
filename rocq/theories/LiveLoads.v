(** Live sessions of load optimisation: the instances, and the algorithms. *)
From Coq Require Import Lia.
From Verif Require Import NumLemmas ConvertObjective VerifyModel DataCenterModel StreamModel StreamSpec StreamProofs SessionSpec SessionModel SessionStream
  BalancedSpec ForesightSpec ForesightModel ForesightSolvers ForesightBudget LiveSpec LiveStream.
From Verif Require OfflineModel OfflineMore.
From Verif Require Import ProblemModel CostModel.
Local Open Scope Z_scope.

(** Prefixes of lists. *)
Lemma access_firstn {A} (l : list A) n t : t <= Z.of_nat n -> access (firstn n l) t = access l t.
Proof.
  intros Ht. destruct (Z_le_gt_dec 1 t) as [H1|H1]; [|unfold access; rewrite (proj2 (Z.leb_gt 1 t)) by lia; reflexivity].
  replace t with (Z.of_nat (Z.to_nat (t - 1)) + 1) by lia. rewrite !access_nth.
  revert l Ht. assert (Hn : (Z.to_nat (t - 1) < n)%nat -> forall l : list A, nth_error (firstn n l) (Z.to_nat (t - 1)) = nth_error l (Z.to_nat (t - 1))).
  { generalize (Z.to_nat (t - 1)). revert n. induction n as [|n IH]; intros k Hk l; [lia|]. destruct l; [destruct k; reflexivity|]. destruct k; [reflexivity|]. cbn [firstn nth_error]. apply IH. lia. }
  intros l Ht. apply Hn. lia.
Qed.

Lemma firstn_snoc {A} (l : list A) n a : nth_error l n = Some a -> firstn (S n) l = firstn n l ++ [a].
Proof.
  revert l. induction n as [|n IH]; intros [|b l] H; try discriminate H.
  - injection H as ->. reflexivity.
  - cbn [nth_error] in H. change (firstn (S (S n)) (b :: l)) with (b :: firstn (S n) l). rewrite (IH l H). reflexivity.
Qed.

Lemma omap_firstn {A B} (f : A -> outcome B) n : forall l r, omap f l = Ok r -> omap f (firstn n l) = Ok (firstn n r).
Proof.
  induction n as [|n IH]; intros l r H; [reflexivity|]. destruct l as [|a l]; [injection H as <-; reflexivity|].
  cbn [omap firstn] in *. apply obind_Ok in H as (b & Hb & H). apply obind_Ok in H as (bs & Hbs & H). injection H as <-.
  rewrite Hb. cbn [obind]. rewrite (IH l bs Hbs). reflexivity.
Qed.
Lemma omap_nth {A B} (f : A -> outcome B) : forall l r j a, omap f l = Ok r -> nth_error l j = Some a -> exists b, nth_error r j = Some b /\ f a = Ok b.
Proof.
  induction l as [|a l IH]; intros r j a' H Hj; [destruct j; discriminate Hj|].
  cbn [omap] in H. apply obind_Ok in H as (b & Hb & H). apply obind_Ok in H as (bs & Hbs & H). injection H as <-.
  destruct j as [|j]; cbn [nth_error] in *; [injection Hj as <-; eauto|]. eapply IH; eassumption.
Qed.

Section Loads.
  Variables (powf : Q -> Q -> Q) (m : data_center).
  Context {T : Type}.
  Variable ofZ : Z -> T.
  Variable cast : Q -> T.

  Lemma single_loads_length loads l : single_loads cast loads = Ok l -> length l = length loads.
  Proof. apply omap_length. Qed.

  (** The input for slot [n + j + 1]. *)
  Lemma input_at loads more load j b : single_loads cast (loads ++ more) = Ok load ->
    Forall (fun lambda => length lambda = 1%nat) more -> nth_error (into_online more) j = Some b ->
    exists l, b = [[[l]]] /\ nth_error load (length loads + j) = Some (cast l).
  Proof.
    intros H HF Hb. unfold into_online in Hb. rewrite nth_error_map in Hb. destruct (nth_error more j) as [lambda|] eqn:E; [|discriminate Hb].
    injection Hb as <-. rewrite Forall_forall in HF. pose proof (HF lambda (nth_error_In _ _ E)) as HL1.
    destruct lambda as [|l [|? ?]]; try discriminate HL1. exists l. split; [reflexivity|].
    destruct (omap_nth _ (loads ++ more) load (length loads + j) [l] H) as (a & Ha & Hf).
    { rewrite nth_error_app2 by lia. replace (length loads + j - length loads)%nat with j by lia. exact E. }
    cbn in Hf. injection Hf as <-. exact Ha.
  Qed.

  (** *** SBLO *)

  Lemma sblo_inverts loads q : to_sblo powf m ofZ cast loads = Ok q -> single_loads cast loads = Ok (b_load q) /\ b_tend q = Z.of_nat (length loads).
  Proof.
    unfold to_sblo. intros H. apply obind_Ok in H as (l & _ & H). apply obind_Ok in H as (bs & _ & H). apply obind_Ok in H as (sw & _ & H).
    apply obind_Ok in H as (load & Hl & H). injection H as <-. cbn. auto.
  Qed.
  Lemma sblo_prefix loads q n : to_sblo powf m ofZ cast loads = Ok q -> (n <= length loads)%nat -> to_sblo powf m ofZ cast (firstn n loads) = Ok (sblo_part q n).
  Proof.
    unfold to_sblo. intros H Hn. apply obind_Ok in H as (l & -> & H). apply obind_Ok in H as (bs & -> & H). apply obind_Ok in H as (sw & -> & H).
    apply obind_Ok in H as (load & Hl & H). injection H as <-. cbn [obind]. unfold single_loads in *. rewrite (omap_firstn _ n _ _ Hl). cbn [obind].
    unfold sblo_part. cbn [b_d b_bounds b_switching b_cost b_load]. rewrite firstn_length, Nat.min_l by lia. reflexivity.
  Qed.
  Lemma sblo_total loads more p : to_sblo powf m ofZ cast loads = Ok p -> Forall (fun lambda => length lambda = 1%nat) more ->
    exists q, to_sblo powf m ofZ cast (loads ++ more) = Ok q.
  Proof.
    unfold to_sblo. intros H HF. apply obind_Ok in H as (l & -> & H). apply obind_Ok in H as (bs & -> & H). apply obind_Ok in H as (sw & -> & H).
    apply obind_Ok in H as (load & Hl & H). cbn [obind]. unfold single_loads in *. rewrite omap_app, Hl. cbn [obind].
    assert (HX : exists l2, omap (fun lambda => do x <- index lambda 0; Ok (cast x)) more = Ok l2).
    { clear -HF. induction HF as [|lambda more H _ [l2 IH]]; [eexists; reflexivity|]. destruct lambda as [|x [|? ?]]; try discriminate H. cbn [omap]. rewrite IH. eexists. reflexivity. }
    destruct HX as [l2 ->]. eexists. reflexivity.
  Qed.
  Lemma sblo_part_all (q : gsblo T) : b_tend q = Z.of_nat (length (b_load q)) -> sblo_part q (length (b_load q)) = q.
  Proof. intros H. unfold sblo_part. rewrite firstn_all, <- H. destruct q; reflexivity. Qed.

  Lemma sblo_update loads more q j b : to_sblo powf m ofZ cast (loads ++ more) = Ok q ->
    Forall (fun lambda => length lambda = 1%nat) more -> nth_error (into_online more) j = Some b ->
    update_sblo cast (mkOnline (sblo_part q (length loads + j)) 0) b = Ok (mkOnline (sblo_part q (S (length loads + j))) 0).
  Proof.
    intros Hq HF Hb. apply sblo_inverts in Hq as [Hl _]. destruct (input_at loads more (b_load q) j b Hl HF Hb) as (x & -> & Hx).
    unfold update_sblo, pushed_load. cbn [on_p on_w sblo_part b_tend b_load].
    assert (EL : length (firstn (length loads + j) (b_load q)) = (length loads + j)%nat).
    { rewrite firstn_length. assert (length loads + j < length (b_load q))%nat by (apply nth_error_Some; congruence). lia. }
    rewrite EL, Z.eqb_refl. cbn [negb]. change (verify_update 0 1) with (Ok tt). cbn [obind].
    unfold sblo_part. cbn [b_d b_bounds b_switching b_cost b_load]. rewrite (firstn_snoc _ _ _ Hx).
    replace (Z.of_nat (S (length loads + j))) with (Z.of_nat (length loads + j) + 1) by lia. reflexivity.
  Qed.

  Lemma updates_parts {P} (upd : online P -> list (list (list Q)) -> outcome (online P)) (part : nat -> P) n : forall ins k,
    (forall j b, nth_error ins j = Some b -> upd (mkOnline (part (n + (k + j))%nat) 0) b = Ok (mkOnline (part (S (n + (k + j)))) 0)) ->
    updates upd (mkOnline (part (n + k)%nat) 0) ins = Ok (mkOnline (part (n + (k + length ins))%nat) 0).
  Proof.
    induction ins as [|b ins IH]; intros k H; cbn [updates length]; [rewrite Nat.add_0_r; reflexivity|].
    pose proof (H 0%nat b eq_refl) as H0. rewrite Nat.add_0_r in H0. rewrite H0. cbn [obind].
    replace (S (n + k)) with (n + S k)%nat by lia. rewrite IH; [do 3 f_equal; lia|].
    intros j b' Hj. specialize (H (S j) b' Hj). replace (n + (S k + j))%nat with (n + (k + S j))%nat by lia. exact H.
  Qed.

  Lemma into_online_length more : length (into_online more) = length more.
  Proof. apply map_length. Qed.

  Lemma sblo_starts loads more p q : to_sblo powf m ofZ cast loads = Ok p -> to_sblo powf m ofZ cast (loads ++ more) = Ok q -> p = sblo_part q (length loads).
  Proof.
    intros Hp Hq. apply (sblo_prefix _ _ (length loads)) in Hq; [|rewrite app_length; lia]. rewrite firstn_app, firstn_all, Nat.sub_diag in Hq.
    cbn [firstn] in Hq. rewrite app_nil_r in Hq. congruence.
  Qed.
  Lemma sblo_whole loads q : to_sblo powf m ofZ cast loads = Ok q -> sblo_part q (length loads) = q.
  Proof.
    intros Hq. pose proof (sblo_starts loads [] q q Hq) as H. rewrite app_nil_r in H. symmetry. apply H. exact Hq.
  Qed.

  Lemma sblo_day loads more p : to_sblo powf m ofZ cast loads = Ok p -> Forall (fun lambda => length lambda = 1%nat) more ->
    exists q, to_sblo powf m ofZ cast (loads ++ more) = Ok q /\ updates (update_sblo cast) (mkOnline p 0) (into_online more) = Ok (mkOnline q 0).
  Proof.
    intros Hp HF. destruct (sblo_total loads more p Hp HF) as [q Hq]. exists q. split; [exact Hq|].
    rewrite (sblo_starts loads more p q Hp Hq).
    pose proof (updates_parts (update_sblo cast) (sblo_part q) (length loads) (into_online more) 0) as H. rewrite Nat.add_0_r in H.
    rewrite H by (intros; eapply sblo_update; eassumption). cbn [Nat.add]. rewrite into_online_length, <- app_length, (sblo_whole _ _ Hq). reflexivity.
  Qed.

  (** *** SLO *)

  Lemma slo_inverts loads q : to_slo powf m ofZ cast loads = Ok q -> single_loads cast loads = Ok (l_load q) /\ l_tend q = Z.of_nat (length loads).
  Proof.
    unfold to_slo. intros H. apply obind_Ok in H as (l & _ & H). apply obind_Ok in H as (bs & _ & H). apply obind_Ok in H as (sw & _ & H).
    apply obind_Ok in H as (hs & _ & H). apply obind_Ok in H as (load & Hl & H). injection H as <-. cbn. auto.
  Qed.
  Lemma slo_starts loads more p q : to_slo powf m ofZ cast loads = Ok p -> to_slo powf m ofZ cast (loads ++ more) = Ok q ->
    p = slo_part (at_costs_of p q) (length loads).
  Proof.
    intros Hp Hq. pose proof (slo_inverts _ _ Hp) as [P1 P2]. pose proof (slo_inverts _ _ Hq) as [Q1 Q2].
    unfold to_slo in Hp, Hq. apply obind_Ok in Hp as (l & El & Hp). rewrite El in Hq. cbn [obind] in Hq. apply obind_Ok in Hp as (bs & Eb & Hp). rewrite Eb in Hq. cbn [obind] in Hq.
    apply obind_Ok in Hp as (sw & Es & Hp). rewrite Es in Hq. cbn [obind] in Hq. apply obind_Ok in Hp as (hs & _ & Hp). apply obind_Ok in Hp as (load & _ & Hp). injection Hp as <-.
    apply obind_Ok in Hq as (hs' & _ & Hq). apply obind_Ok in Hq as (load' & _ & Hq). injection Hq as <-. cbn [l_load] in *.
    unfold slo_part, at_costs_of. cbn [l_d l_bounds l_switching l_hitting l_load]. f_equal.
    pose proof (omap_firstn _ (length loads) _ _ Q1) as H. rewrite firstn_app, firstn_all, Nat.sub_diag in H. cbn [firstn] in H. rewrite app_nil_r in H.
    unfold single_loads in P1. congruence.
  Qed.
  Lemma slo_update loads more load q j b : single_loads cast (loads ++ more) = Ok load -> l_load q = load ->
    Forall (fun lambda => length lambda = 1%nat) more -> nth_error (into_online more) j = Some b ->
    update_slo cast (mkOnline (slo_part q (length loads + j)) 0) b = Ok (mkOnline (slo_part q (S (length loads + j))) 0).
  Proof.
    intros Hl EL0 HF Hb. destruct (input_at loads more load j b Hl HF Hb) as (x & -> & Hx). subst load.
    unfold update_slo, pushed_load. cbn [on_p on_w slo_part l_tend l_load].
    assert (EL : length (firstn (length loads + j) (l_load q)) = (length loads + j)%nat).
    { rewrite firstn_length. assert (length loads + j < length (l_load q))%nat by (apply nth_error_Some; congruence). lia. }
    rewrite EL, Z.eqb_refl. cbn [negb]. change (verify_update 0 1) with (Ok tt). cbn [obind].
    unfold slo_part. cbn [l_d l_bounds l_switching l_hitting l_load]. rewrite (firstn_snoc _ _ _ Hx).
    replace (Z.of_nat (S (length loads + j))) with (Z.of_nat (length loads + j) + 1) by lia. reflexivity.
  Qed.
  Lemma slo_whole p loads q : to_slo powf m ofZ cast loads = Ok q -> slo_part (at_costs_of p q) (length loads) = at_costs_of p q.
  Proof.
    intros Hq. pose proof (slo_inverts _ _ Hq) as [Q1 Q2]. pose proof (single_loads_length _ _ Q1) as QL.
    unfold slo_part, at_costs_of. cbn [l_d l_bounds l_switching l_hitting l_load]. rewrite <- QL, firstn_all, QL, <- Q2. reflexivity.
  Qed.
  Lemma slo_day loads more p q : to_slo powf m ofZ cast loads = Ok p -> to_slo powf m ofZ cast (loads ++ more) = Ok q ->
    Forall (fun lambda => length lambda = 1%nat) more ->
    updates (update_slo cast) (mkOnline p 0) (into_online more) = Ok (mkOnline (at_costs_of p q) 0).
  Proof.
    intros Hp Hq HF. rewrite (slo_starts loads more p q Hp Hq) at 1.
    pose proof (updates_parts (update_slo cast) (slo_part (at_costs_of p q)) (length loads) (into_online more) 0) as H. rewrite Nat.add_0_r in H.
    rewrite H by (intros; eapply slo_update; try eassumption; [exact (proj1 (slo_inverts _ _ Hq))|reflexivity]). cbn [Nat.add].
    rewrite into_online_length, <- app_length, (slo_whole p _ _ Hq). reflexivity.
  Qed.
End Loads.

(** *** The algorithms *)
Section Algorithms.
  Variable minimize :
    (list Q -> outcome ext) -> list (Q * Q) -> list Q -> list (list Q -> outcome Q) -> option (list Q * ext).
  Variable sched : Z -> Z -> vertice -> split.

  Hypothesis HX : solver_extensional minimize.

  Lemma slo_waits randomized : waits_slo (slo_online minimize sched randomized).
  Proof.
    intros p load xs mem Ht HA. apply slo_step_alike; [exact HX|reflexivity|reflexivity|]. rewrite Z.add_0_r. unfold loaded_slo. repeat split. exact HA.
  Qed.
  Lemma slo_blank gamma : blank_slo (slo_start gamma).
  Proof. intros p load w. reflexivity. Qed.

  Lemma sblo_waits epsilon : waits_sblo (sblo_lb minimize sched epsilon).
  Proof.
    intros p load xs mem Ht HA. unfold sblo_lb. cbn [on_p on_w]. destruct (negb (0 =? 0)); [reflexivity|].
    assert (E1 : forall t, determine_sub_time_slots (loaded_sblo p load) t epsilon = determine_sub_time_slots p t epsilon) by reflexivity.
    rewrite E1. apply obind_ext; [reflexivity|]. intros n. cbv zeta.
    assert (E2 : forall l cs a b, modify_problem (loaded_sblo p load) l cs (b_tend p) n a b = modify_problem p l cs (b_tend p) n a b).
    { intros l cs a b. unfold modify_problem. cbn [loaded_sblo b_d b_bounds b_switching b_cost b_load]. rewrite HA by lia. reflexivity. }
    rewrite E2. reflexivity.
  Qed.
  Lemma sblo_blank : blank_sblo sblo_start.
  Proof. intros p load w. reflexivity. Qed.
End Algorithms.

(** *** Sessions *)
Section SbloSession.
  Variables (powf : Q -> Q -> Q) (m : data_center).
  Variable minimize :
    (list Q -> outcome ext) -> list (Q * Q) -> list Q -> list (list Q -> outcome Q) -> option (list Q * ext).
  Variable cast : Q -> Z.
  Variable s : split.
  Context {M : Type}.
  Variable alg : online (gsblo Z) -> Z -> list (list Z) -> M -> outcome (list Z * option M).
  Variable default : online (gsblo Z) -> M.
  Hypothesis HA : waits_sblo alg.
  Hypothesis HD : blank_sblo default.
  Notation ops := (OfflineModel.sblo_ops minimize s).
  Notation gen := (to_sblo powf m (fun z => z) cast).
  Variables (loads more : list (list Q)) (p q : gsblo Z).
  Hypothesis Hp : gen loads = Ok p.
  Hypothesis Hq : gen (loads ++ more) = Ok q.
  Hypothesis Hmore : Forall (fun lambda => length lambda = 1%nat) more.

  Lemma sblo_part_step n t xs mem : (1 <= t <= n)%nat ->
    alg (at_slot ops (mkOnline (sblo_part q n) 0) (Z.of_nat t)) (Z.of_nat t) xs mem = alg (at_slot ops (mkOnline q 0) (Z.of_nat t)) (Z.of_nat t) xs mem.
  Proof.
    intros Ht. unfold at_slot. cbn [on_p on_w po_set OfflineModel.sblo_ops].
    apply (HA (mkGSBLO (b_d q) (Z.of_nat t) (b_bounds q) (b_switching q) (b_cost q) (b_load q)) (firstn n (b_load q)) xs mem); [cbn; lia|].
    intros u Hu. cbn [b_tend b_load] in *. apply access_firstn. lia.
  Qed.
  Lemma sblo_part_blank n t :
    default (at_slot ops (mkOnline (sblo_part q n) 0) (Z.of_nat t)) = default (at_slot ops (mkOnline q 0) (Z.of_nat t)).
  Proof. exact (HD (mkGSBLO (b_d q) (Z.of_nat t) (b_bounds q) (b_switching q) (b_cost q) (b_load q)) (firstn n (b_load q)) 0). Qed.

  Lemma at_slot_part t : at_slot ops (mkOnline (sblo_part q t) 0) (Z.of_nat t) = mkOnline (sblo_part q t) 0.
  Proof. reflexivity. Qed.

  Lemma sblo_live xs mem : (forall t, 0 <= t <= Z.of_nat (length loads) -> verify_sblo valZ (mkGSBLO (b_d p) t (b_bounds p) (b_switching p) (b_cost p) (b_load p)) = Ok tt) ->
    chooses ops alg default (mkOnline q 0) [] None xs mem -> length xs = length (loads ++ more) ->
    (forall k today, (k <= length more)%nat -> gen (loads ++ firstn k more) = Ok today -> exists c, po_objective ops today (firstn (length loads + k) xs) = Ok c) ->
    exists off rs,
      start ops alg default (fun x => x) (fun x => x) (update_sblo cast) 0 p (map Input (into_online more))
        = Ok (off, (map Answered rs, Some (mkOnline q 0, xs, mem))) /\
      length rs = length more /\ length (of_xs off) = length loads /\ xs = of_xs off ++ map r_x rs /\
      forall k today c, (k <= length more)%nat -> gen (loads ++ firstn k more) = Ok today -> reported off rs k c ->
        po_objective ops today (of_xs off ++ map r_x (firstn k rs)) = Ok c.
  Proof.
    intros HV HC HN HO. rewrite app_length in HN.
    assert (HG : forall k, (k <= length more)%nat -> gen (loads ++ firstn k more) = Ok (sblo_part q (length loads + k))).
    { intros k Hk. rewrite <- (sblo_prefix powf m (fun z => z) cast (loads ++ more) q (length loads + k) Hq) by (rewrite app_length; lia).
      rewrite firstn_app, (firstn_all2 loads) by lia. do 3 f_equal. lia. }
    destruct (session_live ops (proj1 (OfflineMore.load_ops_lawful minimize s)) alg default (update_sblo cast) q (sblo_part q) (fun t => eq_refl) (length loads)) with (ins := into_online more) (xs := xs) (mem := mem)
      as (off & rs & R1 & R2 & R3 & R4 & R5).
    - intros t us mm Ht. apply sblo_part_step. exact Ht.
    - intros t Ht. apply sblo_part_blank.
    - intros t Ht. rewrite <- (sblo_starts powf m (fun z => z) cast loads more p q Hp Hq). apply HV. lia.
    - intros j b Hj. exact (sblo_update powf m (fun z => z) cast loads more q j b Hq Hmore Hj).
    - intros t us mm Ht. rewrite <- (at_slot_part t). apply sblo_part_step. lia.
    - intros t Ht. rewrite <- (at_slot_part t). apply sblo_part_blank.
    - exact HC.
    - rewrite into_online_length. exact HN.
    - intros t Ht. rewrite into_online_length in Ht. replace t with (length loads + (t - length loads))%nat by lia.
      apply HO; [lia|]. apply HG. lia.
    - rewrite into_online_length in *. exists off, rs. rewrite <- (sblo_starts powf m (fun z => z) cast loads more p q Hp Hq) in R1.
      rewrite <- app_length, (sblo_whole powf m (fun z => z) cast _ _ Hq) in R1. split; [exact R1|]. split; [exact R2|]. split; [exact R3|]. split; [exact R4|].
      intros k today c Hk Ht Hr. rewrite (HG k Hk) in Ht. injection Ht as <-. exact (R5 k c Hk Hr).
  Qed.
End SbloSession.

Section SloSession.
  Variables (powf : Q -> Q -> Q) (m : data_center).
  Variable cast : Q -> Z.
  Variable s : split.
  Context {M : Type}.
  Variable alg : online (gslo Z) -> Z -> list (list Z) -> M -> outcome (list Z * option M).
  Variable default : online (gslo Z) -> M.
  Hypothesis HA : waits_slo alg.
  Hypothesis HD : blank_slo default.
  Notation ops := (OfflineModel.slo_ops s).
  Notation gen := (to_slo powf m (fun z => z) cast).
  Variables (loads more : list (list Q)) (p q : gslo Z).
  Hypothesis Hp : gen loads = Ok p.
  Hypothesis Hq : gen (loads ++ more) = Ok q.
  Hypothesis Hmore : Forall (fun lambda => length lambda = 1%nat) more.
  Let r := at_costs_of p q.

  Lemma slo_part_step n t xs mem : (1 <= t <= n)%nat ->
    alg (at_slot ops (mkOnline (slo_part r n) 0) (Z.of_nat t)) (Z.of_nat t) xs mem = alg (at_slot ops (mkOnline r 0) (Z.of_nat t)) (Z.of_nat t) xs mem.
  Proof.
    intros Ht. unfold at_slot. cbn [on_p on_w po_set OfflineModel.slo_ops].
    apply (HA (mkGSLO (l_d r) (Z.of_nat t) (l_bounds r) (l_switching r) (l_hitting r) (l_load r)) (firstn n (l_load r)) xs mem); [cbn; lia|].
    intros u Hu. cbn [l_tend l_load] in *. apply access_firstn. lia.
  Qed.
  Lemma slo_part_blank n t :
    default (at_slot ops (mkOnline (slo_part r n) 0) (Z.of_nat t)) = default (at_slot ops (mkOnline r 0) (Z.of_nat t)).
  Proof. exact (HD (mkGSLO (l_d r) (Z.of_nat t) (l_bounds r) (l_switching r) (l_hitting r) (l_load r)) (firstn n (l_load r)) 0). Qed.
  Lemma at_slot_slo t : at_slot ops (mkOnline (slo_part r t) 0) (Z.of_nat t) = mkOnline (slo_part r t) 0.
  Proof. reflexivity. Qed.

  Lemma slo_live xs mem : (forall t, 0 <= t <= Z.of_nat (length loads) -> verify_slo valZ (mkGSLO (l_d p) t (l_bounds p) (l_switching p) (l_hitting p) (l_load p)) = Ok tt) ->
    chooses ops alg default (mkOnline r 0) [] None xs mem -> length xs = length (loads ++ more) ->
    (forall k, (k <= length more)%nat -> exists c, po_objective ops (slo_part r (length loads + k)) (firstn (length loads + k) xs) = Ok c) ->
    exists off rs,
      start ops alg default (fun x => x) (fun x => x) (update_slo cast) 0 p (map Input (into_online more))
        = Ok (off, (map Answered rs, Some (mkOnline r 0, xs, mem))) /\
      length rs = length more /\ length (of_xs off) = length loads /\ xs = of_xs off ++ map r_x rs /\
      forall k c, (k <= length more)%nat -> reported off rs k c ->
        po_objective ops (slo_part r (length loads + k)) (of_xs off ++ map r_x (firstn k rs)) = Ok c.
  Proof.
    intros HV HC HN HO. rewrite app_length in HN.
    pose proof (slo_starts powf m (fun z => z) cast loads more p q Hp Hq) as Ep. fold r in Ep.
    destruct (session_live ops (proj2 (OfflineMore.load_ops_lawful (fun _ _ _ _ => None) s)) alg default (update_slo cast) r (slo_part r) (fun t => eq_refl) (length loads)) with (ins := into_online more) (xs := xs) (mem := mem)
      as (off & rs & R1 & R2 & R3 & R4 & R5).
    - intros t us mm Ht. apply slo_part_step. exact Ht.
    - intros t Ht. apply slo_part_blank.
    - intros t Ht. rewrite <- Ep. apply HV. lia.
    - intros j b Hj. apply (slo_update cast loads more (l_load r)); auto. exact (proj1 (slo_inverts powf m (fun z => z) cast _ _ Hq)).
    - intros t us mm Ht. rewrite <- (at_slot_slo t). apply slo_part_step. lia.
    - intros t Ht. rewrite <- (at_slot_slo t). apply slo_part_blank.
    - exact HC.
    - rewrite into_online_length. exact HN.
    - intros t Ht. rewrite into_online_length in Ht. replace t with (length loads + (t - length loads))%nat by lia. apply HO. lia.
    - rewrite into_online_length in *. exists off, rs. rewrite <- Ep in R1.
      assert (EW : slo_part r (length (loads ++ more)) = r) by exact (slo_whole powf m (fun z => z) cast p _ _ Hq).
      rewrite <- app_length, EW in R1. split; [exact R1|]. split; [exact R2|]. split; [exact R3|]. split; [exact R4|exact R5].
  Qed.
End SloSession.
