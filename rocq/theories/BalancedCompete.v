(** Proofs about the competitive ratio of lazy budgeting for SBLO: from the sub-slots to the
    slots, and the objective function. *)
From Coq Require Import Lia Lqa Setoid.
From Verif Require Import NumLemmas ObjectiveSpec ObjectiveProofs CostSpec CostProofs ConvertProofs ConvertObjective VerifySpec LoadProofs LoadObjective
  BudgetSpec BudgetProofs StaticProofs CapacityWork GraphSearchCosts StreamSpec StreamProofs BalancedSearch OfflineModel OfflineSpec OfflineProofs OfflineLoads OfflineApprox
  BalancedModel BalancedSpec BalancedProofs BalancedRun BalancedSlots BalancedCount BalancedRatioSpec BalancedRatio BalancedCosts.
From Verif Require Import ProblemModel CostModel.
Local Open Scope Z_scope.

(** *** Switching costs *)
Lemma power_up_triangle bs : Forall (fun b => 0 <= b)%Q bs -> forall a b c, length a = length bs -> length b = length bs -> length c = length bs ->
  (power_up bs a c <= power_up bs a b + power_up bs b c)%Q.
Proof.
  induction 1 as [|w bs Hw _ IH]; intros [|i a] [|j b] [|k c] H1 H2 H3; cbn in H1, H2, H3; try discriminate H1; try discriminate H2; try discriminate H3; cbn [power_up]; [lra|].
  specialize (IH a b c ltac:(lia) ltac:(lia) ltac:(lia)).
  assert (H : (inject_Z (Z.max 0 (k - i)) <= inject_Z (Z.max 0 (j - i)) + inject_Z (Z.max 0 (k - j)))%Q)
    by (rewrite <- inject_Z_plus, <- Zle_Qle; lia).
  assert (w * inject_Z (Z.max 0 (k - i)) <= w * (inject_Z (Z.max 0 (j - i)) + inject_Z (Z.max 0 (k - j))))%Q
    by (rewrite !(Qmult_comm w); apply Qmult_le_compat_r; assumption). lra.
Qed.
Lemma power_up_same bs : forall a, (power_up bs a a == 0)%Q.
Proof.
  induction bs as [|w bs IH]; intros [|i a]; cbn [power_up]; try reflexivity. rewrite IH, Z.sub_diag, Z.max_id. change (inject_Z 0) with 0%Q. lra.
Qed.

Section Path.
  Variable bs : list Q.
  Hypothesis Hbs : Forall (fun b => 0 <= b)%Q bs.
  Notation sw := (switching bs false).

  Lemma path_direct zs : forall a z, length a = length bs -> length z = length bs -> Forall (fun y => length y = length bs) zs ->
    (sw a z <= total_switching sw a zs + sw (last zs a) z)%Q.
  Proof.
    induction zs as [|y r IH]; intros a z Ha Hz HF; [cbn [total_switching last]; lra|].
    inversion HF as [|? ? Hy Hr]; subst. rewrite last_cons_default. cbn [total_switching]. specialize (IH y z Hy Hz Hr).
    pose proof (power_up_triangle bs Hbs a y z Ha Hy Hz). unfold switching in *. lra.
  Qed.

  Lemma path_via zs : forall a x z, length a = length bs -> length z = length bs -> Forall (fun y => length y = length bs) zs -> In x zs ->
    (sw a x + sw x z <= total_switching sw a zs + sw (last zs a) z)%Q.
  Proof.
    induction zs as [|y r IH]; intros a x z Ha Hz HF Hx; [destruct Hx|].
    inversion HF as [|? ? Hy Hr]; subst. rewrite last_cons_default. cbn [total_switching]. destruct Hx as [->|Hx].
    - pose proof (path_direct r x z Hy Hz Hr). lra.
    - specialize (IH y x z Hy Hz Hr Hx). assert (Hlx : length x = length bs) by (rewrite Forall_forall in Hr; apply Hr; exact Hx).
      pose proof (power_up_triangle bs Hbs a y x Ha Hy Hlx). unfold switching in *. lra.
  Qed.

  Lemma cost_parts (f : Z -> list Z -> ext) zs : forall t a,
    eeq (total_cost f sw 1 t a zs)
        (eadd (esum (map (fun i => f (t + Z.of_nat i) (nth i zs [])) (seq 0 (length zs)))) (Fin (total_switching sw a zs))).
  Proof.
    induction zs as [|y r IH]; intros t a; [cbn; lra|]. cbn [total_cost length seq map total_switching]. rewrite IH.
    rewrite <- seq_shift, map_map. cbn [nth]. replace (t + Z.of_nat 0) with t by lia.
    rewrite (map_ext (fun i => f (t + Z.of_nat (S i)) (nth i r [])) (fun i => f (t + 1 + Z.of_nat i) (nth i r [])))
      by (intros i; f_equal; lia).
    match goal with |- context [esum (f t y :: ?l)] => change (esum (f t y :: l)) with (eadd (f t y) (esum l)) end.
    destruct (f t y), (esum _); cbn; auto. lra.
  Qed.
End Path.

Lemma esum_repeat_eeq e n : eeq (esum (repeat (escale (1 / inject_Z (Z.of_nat (S n))) e) (S n))) e.
Proof. pose proof (even_shares (Z.of_nat (S n)) e ltac:(lia)) as H. rewrite Nat2Z.id in H. exact H. Qed.

Lemma nth_in_firstn {A} (l : list A) n i d : (i < n)%nat -> nth i (firstn n l) d = nth i l d.
Proof. revert l i. induction n as [|n IH]; intros [|a l] [|i] H; cbn; auto; try lia. apply IH. lia. Qed.

Lemma nth_in_skipn {A} (l : list A) n i d : nth i (skipn n l) d = nth (n + i) l d.
Proof. revert l. induction n as [|n IH]; intros [|a l]; cbn; auto. destruct i; reflexivity. Qed.

Section SubSlots.
  Variable minimize :
    (list Q -> outcome ext) -> list (Q * Q) -> list Q -> list (list Q -> outcome Q) -> option (list Q * ext).
  Variable p : gsblo Z.
  Variable n : Z -> Z.
  Notation T := (b_tend p).
  Notation q := (sub_problem p n T).
  Notation U t := (Z.of_nat (length (sub_slots n t))).
  Notation d := (Z.to_nat (b_d p)).
  Hypothesis HT : 0 <= T.
  Hypothesis Hn : forall t, 1 <= t <= T -> 0 < n t.
  Hypothesis HIp : balanced_instance minimize p T.
  Hypothesis HC : convex_servers p.

  Lemma sub_server k u t l : (k < d)%nat -> 1 <= t <= T -> U (t - 1) < u <= U t -> (0 <= l)%Q ->
    server_cost q k u l = escale (1 / inject_Z (n t)) (server_cost p k t l).
  Proof.
    intros Hk Ht Hu Hl. unfold server_cost. cbn [sub_problem b_cost]. rewrite nth_error_map.
    pose proof (bi_costs _ _ _ HIp) as Hlc. destruct (nth_error_ex (b_cost p) k) as [f Hf]; [lia|]. rewrite Hf. cbn [option_map].
    destruct (cs_known p HC k f t l Hf Ht Hl) as (c & Hc). rewrite (sub_cost n T t u f l c Ht (Hn t Ht) Hu Hc), Hc. reflexivity.
  Qed.

  Lemma share_pos t : 1 <= t <= T -> (0 < 1 / inject_Z (n t))%Q.
  Proof. intros Ht. pose proof (inject_pos (n t) (Hn t Ht)). apply Qlt_shift_div_l; lra. Qed.

  Lemma escale_mono r a b : (0 <= r)%Q -> ele a b -> ele (escale r a) (escale r b).
  Proof. intros Hr H. destruct a, b; cbn in *; auto. rewrite !(Qmult_comm r). apply Qmult_le_compat_r; assumption. Qed.

  Lemma sub_convex : convex_servers q.
  Proof.
    assert (G : forall u, 1 <= u <= b_tend q -> exists t, 1 <= t <= T /\ U (t - 1) < u <= U t).
    { intros u Hu. apply (slot_exists n T u HT). exact Hu. }
    constructor.
    - intros k g u l Hg Hu Hl. destruct (G u Hu) as (t & Ht & Hr). cbn [sub_problem b_cost] in Hg. rewrite nth_error_map in Hg.
      destruct (nth_error (b_cost p) k) as [f|] eqn:Hf; [|discriminate]. cbn [option_map] in Hg. injection Hg as <-.
      destruct (cs_known p HC k f t l Hf Ht Hl) as (c & Hc). eexists. apply (sub_cost n T t u f l c Ht (Hn t Ht) Hr Hc).
    - intros k u l Hk Hu Hl. destruct (G u Hu) as (t & Ht & Hr). cbn [sub_problem b_d] in Hk. rewrite (sub_server k u t l) by (auto; lia).
      pose proof (cs_nonneg p HC k t l Hk Ht Hl) as H. pose proof (share_pos t Ht). apply (escale_mono (1 / inject_Z (n t))) in H; [|lra].
      eapply ele_trans; [|exact H]. cbn. lra.
    - intros k u l l' Hk Hu Hl Hll. destruct (G u Hu) as (t & Ht & Hr). cbn [sub_problem b_d] in Hk. rewrite !(sub_server k u t) by (auto; lia || lra).
      apply escale_mono; [pose proof (share_pos t Ht); lra|]. apply (cs_increasing p HC); auto.
    - intros k u a b s Hk Hu Ha Hb Hs. destruct (G u Hu) as (t & Ht & Hr). cbn [sub_problem b_d] in Hk.
      assert (0 <= (1 - s) * a + s * b)%Q by (pose proof (Qmult_le_0_compat (1 - s) a ltac:(lra) Ha); pose proof (Qmult_le_0_compat s b ltac:(lra) Hb); lra).
      rewrite !(sub_server k u t) by (auto; lia || lra).
      pose proof (cs_convex p HC k t a b s Hk Ht Ha Hb Hs) as H0. pose proof (share_pos t Ht) as Hp.
      apply (escale_mono (1 / inject_Z (n t))) in H0; [|lra]. eapply ele_trans; [exact H0|].
      destruct (server_cost p k t a), (server_cost p k t b); cbn [escale eadd ele]; auto. lra.
    - intros k u Hk Hu. destruct (G u Hu) as (t & Ht & Hr). cbn [sub_problem b_d] in Hk. rewrite (sub_server k u t) by (auto; lia || lra).
      pose proof (cs_idle p HC k t Hk Ht) as H. destruct (server_cost p k t 0); [exact I|contradiction].
  Qed.

  Lemma sub_idle epsilon : (0 < epsilon)%Q -> (forall t, 1 <= t <= T -> determine_sub_time_slots p t epsilon = Ok (n t)) ->
    idle_at_most q (repeat (epsilon / inject_Z (b_d p))%Q d).
  Proof.
    intros He Hdet. destruct (bi_form _ _ _ HIp) as (Hd & _ & HLb & HLs & HB & HS).
    assert (HdQ : (0 < inject_Z (b_d p))%Q) by (apply inject_pos; exact Hd).
    split; [rewrite repeat_length; cbn [sub_problem b_d]; lia|]. split.
    - apply Forall_forall. intros a Ha. apply repeat_spec in Ha. subst a. apply Qle_shift_div_l; lra.
    - intros k u a beta Ha Hb Hu. apply nth_error_In in Ha as Ha'. apply repeat_spec in Ha'. subst a.
      assert (Hk : (k < d)%nat) by (apply nth_error_lt in Ha; rewrite repeat_length in Ha; exact Ha).
      destruct (slot_exists n T u HT Hu) as (t & Ht & Hr). rewrite (sub_server k u t 0) by (auto; lra). cbn [sub_problem b_switching] in Hb.
      destruct (sub_slot_count p t epsilon (n t) He Hd HS (Hdet t Ht)) as [H _]. destruct (H k beta Hb ltac:(lia)) as (l & El & Hl).
      change (idle p k t) with (server_cost p k t 0) in El. rewrite (escale_eeq _ _ _ El). cbn [escale ele].
      pose proof (inject_pos (n t) (Hn t Ht)) as Hnt.
      setoid_replace (1 / inject_Z (n t) * l)%Q with (inject_Z (b_d p) * l / (inject_Z (b_d p) * inject_Z (n t)))%Q by (field; split; lra).
      apply Qle_shift_div_r; [apply (Qmult_lt_0_compat _ _ HdQ Hnt)|].
      setoid_replace (epsilon / inject_Z (b_d p) * beta * (inject_Z (b_d p) * inject_Z (n t)))%Q with (inject_Z (n t) * (epsilon * beta))%Q by (field; lra).
      exact Hl.
  Qed.

  (** *** Hitting costs *)
  Hypothesis HIq : balanced_instance minimize q (U T).
  Hypothesis HBp : assigns_best minimize p.
  Hypothesis HBq : assigns_best minimize q.
  Notation feasible := (feasible_config (b_bounds p)).

  Lemma sub_part k u t i l : (k < d)%nat -> 1 <= t <= T -> U (t - 1) < u <= U t -> (0 <= l)%Q ->
    eeq (part q u k i l) (escale (1 / inject_Z (n t)) (part p t k i l)).
  Proof.
    intros Hk Ht Hu Hl. unfold part. destruct (0 <? i) eqn:Ei.
    - pose proof (inject_pos i ltac:(lia)). rewrite (sub_server k u t) by (auto; apply Qle_shift_div_l; lra).
      destruct (server_cost p k t (l / inject_Z i)); cbn; auto. lra.
    - destruct (Qltb 0 l); cbn; auto. lra.
  Qed.

  Lemma sub_load u t : 1 <= t <= T -> U (t - 1) < u <= U t -> load q u = load p t.
  Proof.
    intros Ht Hu. unfold load. cbn [sub_problem b_load]. rewrite access_map, (slot_of n t T u Ht Hu). cbn [option_map].
    destruct (load_spec minimize p HIp t Ht) as (l & El & _). rewrite El. reflexivity.
  Qed.

  Lemma sub_hit u t x : 1 <= t <= T -> U (t - 1) < u <= U t -> feasible x ->
    eeq (hitting minimize q u x) (escale (1 / inject_Z (n t)) (hitting minimize p t x)).
  Proof.
    intros Ht Hu Hx. pose proof sub_convex as HCq.
    assert (Hub : 1 <= u <= U T) by (pose proof (U_mono n t T ltac:(lia)); lia).
    destruct (hit_best minimize q HIq HCq HBq u x Hub Hx) as [(zq & Hzq & (uq & Euq) & Eq) Hminq].
    destruct (hit_best minimize p HIp HC HBp t x Ht Hx) as [(zp & Hzp & (up & Eup) & Ep) Hminp].
    destruct (best_dims minimize p HIp) as (Hd & _). destruct (load_spec minimize p HIp t Ht) as (l & _ & _ & HL0).
    assert (EV : forall zs, distribution d zs -> eeq (total_value q u x zs) (escale (1 / inject_Z (n t)) (total_value p t x zs))).
    { intros zs Hz. unfold total_value. rewrite (sub_load u t Ht Hu). rewrite <- esum_map_escale. apply esum_map_eeq. intros k Hk.
      cbn [sub_problem b_d] in *. apply in_seq in Hk. apply sub_part; auto; [lia|]. apply portion_spec; auto; lia. }
    pose proof (share_pos t Ht). apply ele_antisym.
    - eapply ele_trans; [apply (Hminq zp up Hzp Eup)|]. rewrite (EV zp Hzp). apply escale_mono; [lra|]. apply eeq_ele, eeq_sym, Ep.
    - rewrite Eq, (EV zq Hzq). apply escale_mono; [lra|]. apply (Hminp zq uq Hzq Euq).
  Qed.

  (** *** The chosen sub-slots cost no more *)
  Notation sw := (switching (b_switching p) false).
  Notation zero := (zero_config (b_d p)).
  Notation costp := (total_cost (hitting minimize p) sw 1).
  Notation costq := (total_cost (hitting minimize q) sw 1).

  Lemma hit_finite_nonneg t x : 1 <= t <= T -> feasible x -> ele (Fin 0) (hitting minimize p t x).
  Proof.
    intros Ht Hx. destruct (hit_best minimize p HIp HC HBp t x Ht Hx) as [(zp & Hzp & _ & ->) _].
    destruct (best_dims minimize p HIp) as (Hd & _). destruct (load_spec minimize p HIp t Ht) as (l & _ & _ & HL0).
    unfold total_value. apply esum_nonneg. apply Forall_forall. intros e He. apply in_map_iff in He as (k & <- & Hk). apply in_seq in Hk.
    apply part_nonneg; auto; [lia|]. apply portion_spec; auto; lia.
  Qed.

  Lemma block_hits t zs x : 1 <= t <= T -> Z.of_nat (length zs) = n t -> Forall feasible zs -> feasible x ->
    (forall i, (i < length zs)%nat -> ele (hitting minimize q (U (t - 1) + 1 + Z.of_nat 0) x) (hitting minimize q (U (t - 1) + 1 + Z.of_nat i) (nth i zs []))) ->
    ele (hitting minimize p t x) (esum (map (fun i => hitting minimize q (U (t - 1) + 1 + Z.of_nat i) (nth i zs [])) (seq 0 (length zs)))).
  Proof.
    intros Ht Hl HF Hx Hle. pose proof (Hn t Ht) as Hnt.
    pose proof (U_snoc n (t - 1) ltac:(lia)) as EU. replace (t - 1 + 1) with t in EU by lia. specialize (EU ltac:(lia)).
    eapply ele_trans; [apply eeq_ele, eeq_sym, (even_shares (n t) _ Hnt)|].
    replace (repeat (escale (1 / inject_Z (n t)) (hitting minimize p t x)) (Z.to_nat (n t)))
      with (map (fun _ : nat => escale (1 / inject_Z (n t)) (hitting minimize p t x)) (seq 0 (length zs))).
    - apply esum_map_ele. intros i Hi. apply in_seq in Hi. eapply ele_trans; [|apply Hle; lia].
      apply eeq_ele, eeq_sym. apply sub_hit; auto. lia.
    - replace (Z.to_nat (n t)) with (length zs) by lia. clear. generalize (escale (1 / inject_Z (n t)) (hitting minimize p t x)) as e. intros e.
      generalize 0%nat. induction (length zs) as [|m IH]; intros a; [reflexivity|]. cbn [seq map repeat]. f_equal. apply IH.
  Qed.

  Lemma lens : length (b_switching p) = d /\ Forall (fun b => 0 <= b)%Q (b_switching p) /\ (forall x, feasible x -> length x = d) /\ length zero = d.
  Proof.
    destruct (betas minimize p T HIp) as (H1 & _ & H2). split; [exact H1|]. split; [apply (betas0 minimize p T HIp)|]. split; [|apply repeat_length].
    intros x Hx. rewrite (feasible_length _ _ Hx). exact H2.
  Qed.

  (** *** A schedule kept throughout the sub-slots costs the same *)
  Definition spread (ys : list (list Z)) (t : Z) : list (list Z) := map (fun s => nth (Z.to_nat (s - 1)) ys []) (sub_slots n t).

  Lemma kept_switching y k : forall a, (total_switching sw a (repeat y (S k)) == sw a y)%Q.
  Proof.
    intros a. cbn [repeat total_switching]. assert (H : (total_switching sw y (repeat y k) == 0)%Q).
    { induction k as [|k IH]; [reflexivity|]. cbn [repeat total_switching]. rewrite IH. unfold switching. rewrite power_up_same. lra. }
    rewrite H. lra.
  Qed.

  Lemma spread_cost ys m : Forall feasible ys -> Z.of_nat m <= T -> (m <= length ys)%nat ->
    eeq (costq 1 zero (spread ys (Z.of_nat m))) (costp 1 zero (firstn m ys)) /\
    last (spread ys (Z.of_nat m)) zero = last (firstn m ys) zero.
  Proof.
    intros HF. induction m as [|m IH]; intros Hm Hl; [split; reflexivity|]. destruct (IH ltac:(lia) ltac:(lia)) as [IH1 IH2]. clear IH.
    set (t := Z.of_nat (S m)). assert (Ht : 1 <= t <= T) by lia. replace (Z.of_nat m) with (t - 1) in IH1, IH2 by lia.
    pose proof (Hn t Ht) as Hnt. pose proof (U_snoc n (t - 1) ltac:(lia)) as EU. replace (t - 1 + 1) with t in EU by lia. specialize (EU ltac:(lia)).
    destruct (nth_error_ex ys m) as [y Hy]; [lia|].
    assert (Hfy : feasible y) by (rewrite Forall_forall in HF; eapply HF, nth_error_In, Hy).
    assert (EF : firstn (S m) ys = firstn m ys ++ [y]).
    { clear -Hy. revert ys Hy. induction m as [|m IH]; intros [|a r] Hy; cbn in Hy; try discriminate; [injection Hy as ->; reflexivity|].
      cbn [firstn app]. rewrite <- (IH r Hy). reflexivity. }
    assert (ES : spread ys t = spread ys (t - 1) ++ repeat y (Z.to_nat (n t))).
    { unfold spread. pose proof (sub_slots_snoc n (t - 1) ltac:(lia)) as E. replace (t - 1 + 1) with t in E by lia. rewrite E, map_app. f_equal.
      rewrite repeat_map. f_equal. replace (Z.to_nat (t - 1)) with m by lia. apply nth_error_nth. exact Hy. }
    destruct (Z.to_nat (n t)) as [|k] eqn:Ek; [lia|].
    rewrite EF, ES, last_last. split.
    - pose proof (CapacityWork.total_cost_app (hitting minimize q) sw 1 (spread ys (t - 1)) (repeat y (S k)) 1 zero) as E2. rewrite E2. clear E2.
      pose proof (total_cost_snoc (hitting minimize p) sw 1 (firstn m ys) 1 zero y) as E1. rewrite E1. clear E1.
      rewrite firstn_length_le by lia. replace (1 + Z.of_nat m) with t by lia.
      rewrite IH1, IH2. unfold spread at 1. rewrite map_length. replace (1 + U (t - 1)) with (U (t - 1) + 1) by lia.
      rewrite (cost_parts (b_switching p) (hitting minimize q) (repeat y (S k)) (U (t - 1) + 1)).
      assert (EH : eeq (esum (map (fun i => hitting minimize q (U (t - 1) + 1 + Z.of_nat i) (nth i (repeat y (S k)) [])) (seq 0 (length (repeat y (S k)))))) (hitting minimize p t y)).
      { rewrite repeat_length. eapply eeq_trans; [|apply (even_shares (n t) _ Hnt)]. rewrite Ek.
        replace (repeat (escale (1 / inject_Z (n t)) (hitting minimize p t y)) (S k))
          with (map (fun _ : nat => escale (1 / inject_Z (n t)) (hitting minimize p t y)) (seq 0 (S k))).
        - apply esum_map_eeq. intros i Hi. apply in_seq in Hi. assert (EN : nth i (repeat y (S k)) [] = y) by (apply nth_error_nth, nth_error_repeat; lia).
          rewrite EN. apply sub_hit; auto. lia.
        - clear. generalize (escale (1 / inject_Z (n t)) (hitting minimize p t y)) as e. intros e.
          generalize 0%nat. induction (S k) as [|m' IH]; intros a; [reflexivity|]. cbn [seq map repeat]. f_equal. apply IH. }
      rewrite EH. pose proof (kept_switching y k (last (firstn m ys) zero)) as EK. clear - EK.
      destruct (costp 1 zero (firstn m ys)); [|exact I]. destruct (hitting minimize p t y); [|exact I]. cbn [eadd eeq]. lra.
    - clear. cbn [repeat]. replace (y :: repeat y k) with (repeat y k ++ [y]) by (symmetry; apply repeat_cons). rewrite app_assoc, last_last. reflexivity.
  Qed.

  Lemma spread_total ys : feasible_schedule T (b_bounds p) ys ->
    feasible_schedule (U T) (b_bounds p) (spread ys T) /\ eeq (costq 1 zero (spread ys T)) (costp 1 zero ys).
  Proof.
    intros [HL HF]. pose proof (spread_cost ys (length ys) HF ltac:(lia) ltac:(lia)) as [H _]. rewrite HL, firstn_all in H. split; [|exact H].
    split; [unfold spread; rewrite map_length; reflexivity|]. apply Forall_forall. intros y Hy. unfold spread in Hy. apply in_map_iff in Hy as (s & <- & Hs).
    apply In_nth_error in Hs as [i Hi]. assert (Hi' : (i < length (sub_slots n T))%nat) by (apply nth_error_lt in Hi; exact Hi).
    destruct (slot_exists n T (Z.of_nat i + 1) HT ltac:(lia)) as (t & Ht & Hr). pose proof (slot_of n t T _ Ht Hr) as HA. apply access_spec in HA as [_ HA].
    replace (Z.to_nat (Z.of_nat i + 1 - 1)) with i in HA by lia. assert (s = t) by congruence. subst s.
    rewrite Forall_forall in HF. apply HF. apply nth_In. lia.
  Qed.

  Variables xs ms : list (list Z).
  Hypothesis Hxs : feasible_schedule T (b_bounds p) xs.
  Hypothesis Hms : feasible_schedule (U T) (b_bounds p) ms.
  Hypothesis Hpick : forall t, 1 <= t <= T -> exists u,
        first_least_slot minimize q ms (U (t - 1) + 1) (U t) u /\
        nth_error xs (Z.to_nat (t - 1)) = nth_error ms (Z.to_nat (u - 1)).

  Lemma last_feasible (l : list (list Z)) : Forall feasible l -> length (last l zero) = d.
  Proof.
    destruct lens as (_ & _ & HLx & HLz). intros HF. destruct l as [|z r]; [exact HLz|]. apply HLx.
    destruct (@exists_last _ (z :: r) ltac:(discriminate)) as (l & a & E). rewrite E in *. rewrite last_last. rewrite Forall_forall in HF.
    apply HF. apply in_or_app. right. left. reflexivity.
  Qed.

  Lemma picked_cost m : Z.of_nat m <= T -> forall z, length z = d ->
    ele (eadd (costp 1 zero (firstn m xs)) (Fin (sw (last (firstn m xs) zero) z)))
        (eadd (costq 1 zero (firstn (length (sub_slots n (Z.of_nat m))) ms))
              (Fin (sw (last (firstn (length (sub_slots n (Z.of_nat m))) ms) zero) z))).
  Proof.
    destruct lens as (HLs & HS & HLx & HLz). destruct Hxs as [HX1 HX2]. destruct Hms as [HM1 HM2].
    induction m as [|m IH]; intros Hm z Hz; [apply ele_refl|]. specialize (IH ltac:(lia)).
    set (t := Z.of_nat (S m)). assert (Ht : 1 <= t <= T) by lia. replace (Z.of_nat m) with (t - 1) in IH by lia.
    pose proof (Hn t Ht) as Hnt. pose proof (U_snoc n (t - 1) ltac:(lia)) as EU. replace (t - 1 + 1) with t in EU by lia. specialize (EU ltac:(lia)).
    pose proof (U_mono n t T ltac:(lia)) as HUT.
    destruct (Hpick t Ht) as (u & (Hu & Hu1 & Hu2) & Ex).
    destruct (nth_error_ex xs m) as [x Hx]; [lia|]. replace (Z.to_nat (t - 1)) with m in Ex by lia. rewrite Hx in Ex. symmetry in Ex.
    assert (Hfx : feasible x) by (rewrite Forall_forall in HX2; eapply HX2, nth_error_In, Hx).
    assert (EF : firstn (S m) xs = firstn m xs ++ [x]).
    { clear -Hx. revert xs Hx. induction m as [|m IH]; intros [|y r] Hx; cbn in Hx; try discriminate; [injection Hx as ->; reflexivity|].
      cbn [firstn app]. rewrite <- (IH r Hx). reflexivity. }
    set (block := skipn (length (sub_slots n (t - 1))) (firstn (length (sub_slots n t)) ms)).
    assert (EB : firstn (length (sub_slots n t)) ms = firstn (length (sub_slots n (t - 1))) ms ++ block).
    { unfold block. rewrite <- (firstn_skipn (length (sub_slots n (t - 1))) (firstn (length (sub_slots n t)) ms)) at 1. f_equal.
      rewrite firstn_firstn. f_equal. lia. }
    assert (Hbl : Z.of_nat (length block) = n t) by (unfold block; rewrite skipn_length, firstn_length_le by lia; lia).
    assert (HbF : Forall feasible block) by (apply keep_rest, keep_first; exact HM2).
    assert (Hnth : forall i, (i < length block)%nat -> nth i block [] = nth (Z.to_nat (U (t - 1) + 1 + Z.of_nat i - 1)) ms []).
    { intros i Hi. unfold block. rewrite nth_in_skipn, nth_in_firstn by lia. f_equal. lia. }
    assert (Hin : In x block).
    { assert (E : nth (Z.to_nat (u - 1 - U (t - 1))) block [] = x).
      { rewrite Hnth by lia. rewrite <- (nth_error_nth _ _ [] Ex). f_equal. lia. }
      rewrite <- E. apply nth_In. lia. }
    assert (Eux : nth (Z.to_nat (u - 1)) ms [] = x) by (apply nth_error_nth; exact Ex).
    (* all sub-slots of the slot have the same hitting costs *)
    assert (Hsame : forall v, U (t - 1) < v <= U t -> eeq (hitting minimize q v x) (hitting minimize q u x)).
    { intros v Hv. rewrite (sub_hit v t x Ht Hv Hfx), (sub_hit u t x Ht ltac:(lia) Hfx). reflexivity. }
    assert (HH : ele (hitting minimize p t x) (esum (map (fun i => hitting minimize q (U (t - 1) + 1 + Z.of_nat i) (nth i block [])) (seq 0 (length block))))).
    { apply block_hits; auto. intros i Hi. rewrite (Hsame (U (t - 1) + 1 + Z.of_nat 0)) by lia.
      rewrite Hnth by exact Hi. set (v := U (t - 1) + 1 + Z.of_nat i).
      destruct (Z_lt_ge_dec v u) as [Hlt|Hge].
      - apply elt_ele. pose proof (Hu1 v ltac:(lia)) as H. rewrite Eux in H. exact H.
      - destruct (Z.eq_dec v u) as [->|Hne]; [rewrite Eux; apply ele_refl|]. pose proof (Hu2 v ltac:(lia)) as H. rewrite Eux in H. exact H. }
    pose proof (IH x (HLx x Hfx)) as IHx.
    assert (HP : (sw (last (firstn (length (sub_slots n (t - 1))) ms) zero) x + sw x z <=
                  total_switching sw (last (firstn (length (sub_slots n (t - 1))) ms) zero) block
                  + sw (last block (last (firstn (length (sub_slots n (t - 1))) ms) zero)) z)%Q).
    { apply path_via; auto.
      - rewrite HLs. apply last_feasible. apply keep_first. exact HM2.
      - congruence.
      - eapply Forall_impl; [|exact HbF]. intros y Hy. rewrite HLs. apply HLx. exact Hy. }
    rewrite EF, EB, last_last.
    assert (EL : last (firstn (length (sub_slots n (t - 1))) ms ++ block) zero = last block (last (firstn (length (sub_slots n (t - 1))) ms) zero)).
    { assert (Hne : block <> []) by (intros E0; rewrite E0 in Hbl; cbn [length] in Hbl; lia). clearbody block. clear - Hne.
      destruct block as [|b r]; [congruence|]. destruct (@exists_last _ (b :: r) ltac:(discriminate)) as (l & a & ->).
      rewrite app_assoc, !last_last. reflexivity. }
    rewrite EL. pose proof (total_cost_snoc (hitting minimize p) sw 1 (firstn m xs) 1 zero x) as E1. rewrite E1. clear E1.
    rewrite firstn_length_le by lia. replace (1 + Z.of_nat m) with t by lia.
    pose proof (CapacityWork.total_cost_app (hitting minimize q) sw 1 (firstn (length (sub_slots n (t - 1))) ms) block 1 zero) as E2. rewrite E2. clear E2.
    rewrite firstn_length_le by lia. replace (1 + U (t - 1)) with (U (t - 1) + 1) by lia.
    rewrite (cost_parts (b_switching p) (hitting minimize q) block (U (t - 1) + 1)).
    clear - IHx HH HP.
    set (A := costp 1 zero (firstn m xs)) in *. clearbody A. set (B := costq 1 zero _) in *. clearbody B.
    set (S := esum _) in *. clearbody S. set (h := hitting minimize p t x) in *. clearbody h.
    destruct A as [A|], B as [B|], S as [S|], h as [h|]; cbn [eadd ele] in *; auto; try contradiction. lra.
  Qed.

  Lemma picked_total : ele (costp 1 zero xs) (costq 1 zero ms).
  Proof.
    destruct lens as (HLs & HS & HLx & HLz). destruct Hxs as [HX1 HX2]. destruct Hms as [HM1 HM2].
    pose proof (picked_cost (length xs) ltac:(lia) (last ms zero) (last_feasible ms HM2)) as H. rewrite firstn_all in H.
    rewrite HX1 in H. rewrite firstn_all2 in H by lia.
    assert (E : (sw (last ms zero) (last ms zero) == 0)%Q) by apply power_up_same.
    assert (E2 : (0 <= sw (last xs zero) (last ms zero))%Q).
    { destruct (best_dims minimize p HIp) as (Hd & _). destruct (nth_error_ex (b_switching p) 0) as [b0 Hb0]; [lia|].
      pose proof (power_up_entry _ _ _ Hb0 HS (last xs zero) (last ms zero) ltac:(rewrite HLs; apply last_feasible; exact HX2) ltac:(rewrite HLs; apply last_feasible; exact HM2)) as HP.
      assert (0 <= b0 * inject_Z (Z.max 0 (nth 0 (last ms zero) 0 - nth 0 (last xs zero) 0)%Z))%Q.
      { apply Qmult_le_0_compat; [|apply inject_nonneg; lia]. rewrite Forall_forall in HS. eapply HS, nth_error_In, Hb0. }
      unfold switching. lra. }
    destruct (costp 1 zero xs), (costq 1 zero ms); cbn [eadd ele] in *; auto. lra.
  Qed.
End SubSlots.

(** *** The objective function *)
Section Objective.
  Variable minimize :
    (list Q -> outcome ext) -> list (Q * Q) -> list Q -> list (list Q -> outcome Q) -> option (list Q * ext).
  Variable p : gsblo Z.
  Notation T := (b_tend p).
  Notation zero := (zero_config (b_d p)).
  Notation cost := (total_cost (hitting minimize p) (switching (b_switching p) false) 1 1 zero).
  Hypothesis HI : balanced_instance minimize p T.

  Lemma objective_hitting s ys : feasible_schedule T (b_bounds p) ys ->
    exists c, sblo_objective_fn minimize s p 1 ys = Ok c /\ eeq (c_cost c) (cost ys).
  Proof.
    intros [HL HF]. destruct (lens minimize p HI) as (HLs & _ & HLx & HLz). rewrite Forall_forall in HF.
    apply (objective_along dc_hmerge (sblo_problem valZ minimize p) (hitting minimize p) (switching (b_switching p) false) zero 1 false s ys HL).
    - intros t x Ht Hx. destruct (bi_hit _ _ _ HI t x Ht (HF x Hx)) as (c & Hc). exists c. split; [exact Hc|]. unfold hitting. rewrite Hc. reflexivity.
    - intros a b Ha Hb. cbn [sblo_problem op_move]. pose proof (HLx b (HF b Hb)) as Lb.
      assert (La : length a = Z.to_nat (b_d p)) by (destruct Ha as [->|Ha]; [exact HLz|apply HLx, HF, Ha]).
      eexists. split; [apply scaled_movement_o_total; unfold dim_cost in *; congruence|]. apply scaled_movement_switching.
  Qed.

  Lemma full_feasible : 0 <= T -> feasible_schedule T (b_bounds p) (repeat (b_bounds p) (Z.to_nat T)).
  Proof.
    intros HT. destruct (bi_form _ _ _ HI) as (_ & _ & _ & _ & HB & _). split; [rewrite repeat_length; lia|]. apply Forall_forall. intros y Hy.
    apply repeat_spec in Hy. subst y. revert HB. generalize (b_bounds p) as bs. intros bs HB. induction HB as [|b r Hb _ IH]; constructor; [|exact IH]. cbn in Hb |- *.
    unfold is_positive in Hb. cbn [valZ v_toQ] in Hb. change 0%Q with (inject_Z 0) in Hb. rewrite <- Zlt_Qlt in Hb. lia.
  Qed.

  Lemma full_finite : 0 <= T -> is_fin (cost (repeat (b_bounds p) (Z.to_nat T))).
  Proof.
    intros HT. assert (G : forall k t a, 1 <= t -> t + Z.of_nat k <= T + 1 -> is_fin (total_cost (hitting minimize p) (switching (b_switching p) false) 1 t a (repeat (b_bounds p) k))).
    { induction k as [|k IH]; intros t a H1 H2; [exact I|]. cbn [repeat total_cost]. specialize (IH (t + 1) (b_bounds p) ltac:(lia) ltac:(lia)).
      pose proof (bi_full _ _ _ HI t ltac:(lia)) as HF. destruct (hitting minimize p t (b_bounds p)); [|contradiction].
      destruct (total_cost _ _ _ _ _ _); [exact I|contradiction]. }
    apply G; lia.
  Qed.

  Lemma within_objective s r xs : 0 <= T -> feasible_schedule T (b_bounds p) xs ->
    (forall ys, feasible_schedule T (b_bounds p) ys -> ele (cost xs) (escale r (cost ys))) ->
    cheapest_within r (sblo_objective_fn minimize s p 1) T (b_bounds p) xs.
  Proof.
    intros HT HX H. split; [exact HX|]. destruct (objective_hitting s xs HX) as (c & Hc & Ec). exists c. split; [exact Hc|]. split.
    - pose proof (H _ (full_feasible HT)) as HH. pose proof (full_finite HT) as HF. eapply is_fin_eeq; [apply eeq_sym; exact Ec|].
      destruct (cost (repeat (b_bounds p) (Z.to_nat T))); [|contradiction]. destruct (cost xs); [exact I|contradiction].
    - intros ys HY _. destruct (objective_hitting s ys HY) as (c' & Hc' & Ec'). exists c'. split; [exact Hc'|].
      rewrite Ec. rewrite (escale_eeq _ _ _ Ec'). apply H. exact HY.
  Qed.
End Objective.

Lemma algb_within minimize sched s (p : gsblo Z) c :
  solver_extensional minimize -> balanced_instance minimize p (b_tend p) -> 1 <= b_tend p ->
  convex_servers p -> assigns_best minimize p -> idle_at_most p c ->
  exists o xs m,
    offline_stream (BalancedModel.sblo_ops minimize) (alg_b minimize sched) (fun _ => algb_default) (b_tend p) (mkOnline (sblo_at p 1) 0)
      = Some (o, xs, Ok (Some m)) /\
    cheapest_within (2 * inject_Z (b_d p) + 1 + Qsum c) (sblo_objective_fn minimize s p 1) (b_tend p) (b_bounds p) xs.
Proof.
  intros HX HI HT HC HB Hc. destruct (algb_lazy_run minimize sched p (b_tend p) HX HI HT) as (o & xs & m & E & HL & _).
  exists o, xs, m. split; [exact E|]. apply within_objective; [exact HI|lia|apply HL|].
  intros ys HY. apply (lazy_ratio minimize p HI HC HB (ab_init m) xs c HL ltac:(lia) Hc ys HY).
Qed.

Lemma Qsum_repeat r k : (Qsum (repeat r k) == inject_Z (Z.of_nat k) * r)%Q.
Proof.
  induction k as [|k IH]; [cbn; change (inject_Z 0) with 0%Q; lra|]. cbn [repeat Qsum]. rewrite IH.
  replace (Z.of_nat (S k)) with (Z.of_nat k + 1) by lia. rewrite inject_Z_plus. change (inject_Z 1) with 1%Q. ring.
Qed.

Lemma sblo_lb_within minimize sched s (p : gsblo Z) epsilon n :
  let T := b_tend p in
  let q := sub_problem p n T in
  solver_extensional minimize -> 1 <= T -> (0 < epsilon)%Q ->
  (forall t, 1 <= t <= T -> determine_sub_time_slots p t epsilon = Ok (n t) /\ 0 < n t) ->
  balanced_instance minimize p T -> balanced_instance minimize q (b_tend q) ->
  convex_servers p -> assigns_best minimize p -> assigns_best minimize q ->
  exists xs m, sblo_run minimize sched epsilon p (Z.to_nat T) = Ok (xs, Some m) /\
    cheapest_within (2 * inject_Z (b_d p) + 1 + epsilon) (sblo_objective_fn minimize s p 1) T (b_bounds p) xs.
Proof.
  intros T q HX HT He Hdet HI HIq HC HB HBq.
  assert (Hn : forall t, 1 <= t <= T -> 0 < n t) by (intros t Ht; apply Hdet; exact Ht).
  assert (HL : T <= Z.of_nat (length (b_load p))) by (pose proof (bi_loads _ _ _ HI) as [HL _]; unfold T; lia).
  destruct (lb_run_spec minimize sched p epsilon T n HX HT Hdet HL HIq) as (xs & m & ups & E & HF & _ & HLz & HP).
  exists xs, m. split; [exact E|]. apply within_objective; [exact HI|unfold T in HT; lia|exact HF|]. intros ys HY.
  assert (HT0 : 0 <= b_tend p) by (unfold T in HT; lia).
  pose proof (sub_convex minimize p n HT0 Hn HI HC) as HCq.
  destruct (spread_total minimize p n HT0 Hn HI HC HIq HB HBq ys HY) as [HS1 HS2].
  assert (HUT : 0 <= b_tend q) by (cbn; lia).
  pose proof (sub_idle minimize p n HT0 Hn HI HC epsilon He (fun t Ht => proj1 (Hdet t Ht))) as Hid.
  pose proof (lazy_ratio minimize q HIq HCq HBq ups (bm_xs m) _ HLz HUT Hid _ HS1) as HR.
  pose proof (picked_total minimize p n HT0 Hn HI HC HIq HB HBq xs (bm_xs m) HF (proj1 HLz) HP) as HPT.
  eapply ele_trans; [exact HPT|]. eapply ele_trans; [exact HR|]. apply eeq_ele.
  assert (HdQ : (0 < inject_Z (b_d p))%Q) by (apply inject_pos; apply (bi_form _ _ _ HI)).
  assert (EQ : (2 * inject_Z (b_d q) + 1 + Qsum (repeat (epsilon / inject_Z (b_d p)) (Z.to_nat (b_d p))) == 2 * inject_Z (b_d p) + 1 + epsilon)%Q).
  { rewrite Qsum_repeat. rewrite Z2Nat.id by (destruct (bi_form _ _ _ HI); lia). change (b_d q) with (b_d p). field. lra. }
  eapply eeq_trans; [apply escale_eeq; exact HS2|].
  destruct (total_cost (hitting minimize p) _ _ _ _ ys); cbn [escale eeq]; [|exact I]. rewrite EQ. reflexivity.
Qed.

Lemma spread_objective minimize (p : gsblo Z) n :
  let T := b_tend p in
  let q := sub_problem p n T in
  0 <= T -> (forall t, 1 <= t <= T -> 0 < n t) ->
  balanced_instance minimize p T -> convex_servers p ->
  balanced_instance minimize q (b_tend q) -> assigns_best minimize p -> assigns_best minimize q ->
  forall ys, feasible_schedule T (b_bounds p) ys ->
  let zs := map (fun t => nth (Z.to_nat (t - 1)) ys []) (sub_slots n T) in
  feasible_schedule (b_tend q) (b_bounds q) zs /\
  forall s, exists c c', sblo_objective_fn minimize s p 1 ys = Ok c /\ sblo_objective_fn minimize s q 1 zs = Ok c' /\
    eeq (c_cost c') (c_cost c).
Proof.
  intros T q HT Hn HI HC HIq HB HBq ys HY zs.
  destruct (spread_total minimize p n HT Hn HI HC HIq HB HBq ys HY) as [H1 H2]. split; [exact H1|]. intros s.
  destruct (objective_hitting minimize p HI s ys HY) as (c & Hc & E). destruct (objective_hitting minimize q HIq s zs H1) as (c' & Hc' & E').
  exists c, c'. split; [exact Hc|]. split; [exact Hc'|]. rewrite E, E'. exact H2.
Qed.

Lemma more_servers minimize (p : gsblo Z) t x y :
  balanced_instance minimize p (b_tend p) -> convex_servers p -> assigns_best minimize p ->
  1 <= t <= b_tend p -> feasible_config (b_bounds p) x -> feasible_config (b_bounds p) y ->
  (forall k, (k < length y)%nat -> nth k y 0 <= nth k x 0) ->
  exists c c' r, sblo_hit valZ minimize p t x = Ok c /\ sblo_hit valZ minimize p t y = Ok c' /\
    (forall k, (k < length y)%nat -> eeq (server_cost p k t 0) (Fin (nth k r 0%Q))) /\
    ele (c_cost c) (eadd (c_cost c') (Fin (Qsum (map (fun k => inject_Z (nth k x 0%Z - nth k y 0%Z) * nth k r 0%Q)%Q (seq 0 (length y)))))).
Proof.
  intros HI HC HB Ht Hx Hy Hle. destruct (lens minimize p HI) as (_ & _ & HLx & _). rewrite (HLx y Hy) in *.
  destruct (bi_hit _ _ _ HI t x Ht Hx) as (c & Hc). destruct (bi_hit _ _ _ HI t y Ht Hy) as (c' & Hc').
  exists c, c', (map (fun k => rate p k t) (seq 0 (Z.to_nat (b_d p)))). split; [exact Hc|]. split; [exact Hc'|].
  assert (EN : forall k, (k < Z.to_nat (b_d p))%nat -> nth k (map (fun k => rate p k t) (seq 0 (Z.to_nat (b_d p)))) 0%Q = rate p k t).
  { intros k Hk. apply nth_error_nth. rewrite nth_error_map. replace (nth_error (seq 0 (Z.to_nat (b_d p))) k) with (Some k); [reflexivity|].
    symmetry. rewrite (nth_error_nth' _ 0%nat) by (rewrite seq_length; exact Hk). rewrite seq_nth by exact Hk. reflexivity. }
  split.
  - intros k Hk. rewrite EN by exact Hk. change (server_cost p k t 0) with (idle p k t). rewrite (idle_value p HC t Ht k Hk). reflexivity.
  - pose proof (hit_more minimize p HI HC HB t x y Ht Hx Hy Hle) as H. unfold hitting in H. rewrite Hc, Hc' in H.
    eapply ele_trans; [exact H|]. apply eadd_mono; [apply ele_refl|]. cbn [ele]. apply Qsum_le. intros k Hk. apply in_seq in Hk. rewrite EN by lia. lra.
Qed.
