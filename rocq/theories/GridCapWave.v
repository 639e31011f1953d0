(** An instance on which fractional lazy capacity provisioning oscillates for ever (C84). *)
From Coq Require Import Lia Lqa Setoid Morphisms Qabs Qround.
From Verif Require Import NumLemmas ObjectiveSpec CapacitySpec CapacityWork CapacityChain CapacityModel
  CostSpec ObjectiveProofs CostProofs ConvertProofs ConvertObjective StaticProofs CapacityProofs CapacityBrcp OptimizeModel OptimizeSpec OptimizeProofs
  VerifyModel GridCapModel GridCapSpec GridCapProofs GridCapEnd GridCapRestart.
From Verif Require Import ProblemModel CostModel.
Local Open Scope Z_scope.

Lemma find_bound_last {C D} vmerge merge (outside : D) sched minimizer (q : gssco Q C D) m alpha inv t_end s c xs :
  g_d q = 1 -> g_bounds q = [m] -> 0 <= s < t_end -> t_end <= g_tend q ->
  minimizer (bound_objective vmerge merge outside sched (gssco_extend (ssco_reset q s) 0) alpha inv 0 t_end c) (repeat (0%Q, m) (Z.to_nat (t_end - s))) = Ok xs ->
  Z.of_nat (length xs) = t_end - s ->
  find_bound_f vmerge merge outside sched minimizer q alpha inv 0 t_end s c = Ok (last xs 0%Q).
Proof.
  intros Hd Hb Hs Ht Em HL. unfold find_bound_f. rewrite Hd. destruct (Z.ltb_spec (g_tend q) t_end); [lia|]. cbn [negb Z.eqb Pos.eqb].
  destruct (Z.leb_spec t_end 0); [lia|]. cbn zeta.
  replace (g_bounds (gssco_extend (ssco_reset q s) 0)) with [m] by (rewrite <- Hb; reflexivity).
  cbn [nth_error from_option obind]. rewrite Em. cbn [obind]. rewrite HL, Z.eqb_refl. cbn [negb orb].
  destruct (Z.leb_spec (t_end - s) 0); [lia|].
  destruct xs as [|y ys _] using rev_ind; [cbn in HL; lia|]. rewrite last_snoc. rewrite app_length in HL. cbn [length] in HL.
  rewrite nth_error_app2 by lia. replace (Z.to_nat (t_end - s) - 1 - length ys)%nat with 0%nat by lia. reflexivity.
Qed.

Lemma project_same x l u v : (l == v)%Q -> (u == v)%Q -> (project (v_gtb valQ) x l u == v)%Q.
Proof.
  intros Hl Hu. unfold project, vmax, vmin, v_gtb. cbn [v_toQ valQ].
  destruct (Qltb x u) eqn:E1; [apply Qltb_iff in E1|apply Qltb_false in E1];
    match goal with |- context [Qltb ?a l] => destruct (Qltb a l) eqn:E2; [apply Qltb_iff in E2|apply Qltb_false in E2] end; lra.
Qed.

(** One server whose use costs 11 in slot 1, whose absence costs 11 in slot 2, and whose use
    costs 1 in all later slots; powering up costs 10. *)
Definition wave_f (t : Z) (x : Q) : ext := Fin (if t =? 1 then 11 * x else if t =? 2 then 11 * (1 - x) else x)%Q.
Definition wave_p (t_end : Z) : gssco Q unit unit :=
  mkGSSCO 1 t_end [1%Q] [10%Q] (cf_new 1 (certain (fun t x => Ok (mkCost (wave_f t (nth 0 x 0%Q)) (MSuccess tt))))).
Definition vm1 (_ _ : unit) : outcome unit := Ok tt.
Definition m1 (_ _ : unit) : unit := tt.

(** The schedule 0, 1, 0, 1, ... *)
Definition alt (i : nat) : Q := if Nat.even i then 0%Q else 1%Q.
Definition alternate (n : nat) : list Q := map alt (seq 0 n).

Lemma alternate_S n : alternate (S n) = alternate n ++ [alt n].
Proof. unfold alternate. rewrite seq_S, map_app. reflexivity. Qed.
Lemma alternate_length n : length (alternate n) = n.
Proof. unfold alternate. rewrite map_length, seq_length. reflexivity. Qed.
Lemma alt_SS n : alt (S (S n)) = alt n.
Proof. reflexivity. Qed.
Lemma alt_S n : (alt n = 0%Q /\ alt (S n) = 1%Q) \/ (alt n = 1%Q /\ alt (S n) = 0%Q).
Proof. unfold alt. rewrite Nat.even_succ, <- Nat.negb_even. destruct (Nat.even n); auto. Qed.

Lemma wave_costs : capacity_costsQ 1 wave_f 10.
Proof.
  split.
  - lra.
  - lra.
  - intros t x y H. unfold wave_f. cbn [eeq]. destruct (t =? 1); [rewrite H; reflexivity|]. destruct (t =? 2); rewrite H; reflexivity.
  - intros t _ a b c qa qc H1 H2 H3 H4 Ea Ec. unfold wave_f in *.
    injection Ea as <-. injection Ec as <-. eexists. split; [reflexivity|]. destruct (t =? 1); [nra|]. destruct (t =? 2); nra.
  - intros. exact I.
  - intros t x _ H. unfold wave_f. cbn [ele]. destruct (t =? 1); [lra|]. destruct (t =? 2); lra.
Qed.

Lemma wave_certain T : certain_costs vm1 (wave_p T) 1 wave_f.
Proof.
  intros t x Ht Hx. split.
  - pose proof (certain_call_mean vm1 (fun t (x : list Q) => Ok (mkCost (D := unit) (wave_f t (nth 0 x 0%Q)) (MSuccess tt))) t [x] ltac:(lia)) as H.
    unfold wave_p. cbn [g_cost]. destruct (call_mean vm1 _ t [x]) as [c|e|]; cbn [outcome_rel] in H; try contradiction.
    exists c. split; [reflexivity|]. apply H.
  - intros rs H. unfold wave_p, call_predictive in H. cbn [g_cost] in H. rewrite cf_new_get in H by lia. cbn [obind fst snd] in H.
    unfold single_predictive, certain in H. rewrite (proj2 (Z.ltb_ge t 1)) in H by lia. cbn [obind] in H.
    cbn [length Nat.eqb negb] in H. rewrite andb_false_r in H. injection H as <-. reflexivity.
Qed.

(** The two slots after a restart at 0 or 1: what is optimised is minimal only if the last
    configuration is the start configuration. *)
Lemma wave_end inv (n : nat) c x1 x2 : (2 <= n)%nat -> (0 <= x1 <= 1)%Q -> (0 <= x2 <= 1)%Q -> (c == alt n)%Q ->
  let F := fun a b => eadd (total_cost (fun t => wave_f (Z.of_nat n - 1 + t)) (sw1 10 inv) 1 1 c [a; b]) (Fin (1 * sw1 10 inv b c)) in
  ele (F x1 x2) (F (if (n =? 2)%nat then 1%Q else alt n) (alt n)) -> (x2 == alt n)%Q.
Proof.
  intros Hn H1 H2 Hc F HF. unfold F in HF. cbn [total_cost] in HF. unfold wave_f, sw1 in HF. cbn [eadd ele] in HF.
  assert (E1 : (Z.of_nat n - 1 + 1 =? 1) = false) by (apply Z.eqb_neq; lia).
  assert (E2 : (Z.of_nat n - 1 + (1 + 1) =? 1) = false) by (apply Z.eqb_neq; lia).
  assert (E3 : (Z.of_nat n - 1 + (1 + 1) =? 2) = false) by (apply Z.eqb_neq; lia).
  rewrite E1, E2, E3 in HF. clear E1 E2 E3.
  destruct (Nat.eqb_spec n 2) as [->|Hne].
  - change (Z.of_nat 2 - 1 + 1 =? 2) with true in HF. unfold alt in *. cbn [Nat.even] in *.
    destruct inv; repeat match type of HF with context [qpos ?e] => destruct (qpos_cases e) as [[? E]|[? E]]; rewrite E in HF; clear E end; lra.
  - assert (E4 : (Z.of_nat n - 1 + 1 =? 2) = false) by (apply Z.eqb_neq; lia). rewrite E4 in HF. clear E4.
    unfold alt in *. destruct (Nat.even n);
      destruct inv; repeat match type of HF with context [qpos ?e] => destruct (qpos_cases e) as [[? E]|[? E]]; rewrite E in HF; clear E end; lra.
Qed.

(** The first two slots. *)
Lemma wave_first inv x : (0 <= x <= 1)%Q -> ele (J 1 10 wave_f inv [x]) (J 1 10 wave_f inv [0%Q]) -> (x == 0)%Q.
Proof.
  intros H HF. unfold J, Jf in HF. cbn [total_cost] in HF. unfold wave_f, sw1 in HF. cbn [eadd ele Z.eqb Pos.eqb] in HF.
  destruct inv; repeat match type of HF with context [qpos ?e] => destruct (qpos_cases e) as [[? E]|[? E]]; rewrite E in HF; clear E end; lra.
Qed.
Lemma wave_second inv x1 x2 : (0 <= x1 <= 1)%Q -> (0 <= x2 <= 1)%Q ->
  ele (J 1 10 wave_f inv [x1; x2]) (J 1 10 wave_f inv [0%Q; 1%Q]) -> (x2 == 1)%Q.
Proof.
  intros H1 H2 HF. unfold J, Jf in HF. cbn [total_cost] in HF. unfold wave_f, sw1 in HF. cbn [eadd ele Z.eqb Pos.eqb Z.add Pos.add] in HF.
  destruct inv; repeat match type of HF with context [qpos ?e] => destruct (qpos_cases e) as [[? E]|[? E]]; rewrite E in HF; clear E end; lra.
Qed.

Section Wave.
  Variable nlopt : nl_problem -> outcome nl_result.
  Variable sched : split.
  Hypothesis Hex : exact_nlopt nlopt.
  Notation bound := (find_bound_f vm1 m1 tt sched (point_minimize nlopt)).

  Lemma alt_grid n : (0 <= alt n <= 1)%Q /\ hundredths (alt n).
  Proof. unfold alt. destruct (Nat.even n); (split; [lra|]); [exists 0|exists 100]; reflexivity. Qed.

  Lemma hundredths_1 : hundredths 1.
  Proof. exists 100. reflexivity. Qed.

  (** Bounds after a restart. *)
  Lemma wave_bound inv n c : (2 <= n)%nat -> (c == alt n)%Q ->
    exists z, bound (wave_p (Z.of_nat n + 1)) 1 inv 0 (Z.of_nat n + 1) (Z.of_nat n - 1) c = Ok z /\ (z == alt n)%Q.
  Proof.
    intros Hn Hc. set (p := wave_p (Z.of_nat n + 1)).
    set (F := fun xs => eadd (total_cost (fun t => wave_f (Z.of_nat n - 1 + t)) (sw1 10 inv) 1 1 c xs) (Fin (1 * sw1 10 inv (last xs c) c))).
    assert (HF : forall xs, length xs = 2%nat -> Forall (fun x => (0 <= x <= 1)%Q) xs ->
      exists v, bound_objective vm1 m1 tt sched (gssco_extend (ssco_reset p (Z.of_nat n - 1)) 0) 1 inv 0 (Z.of_nat n + 1) c xs = Ok v /\ eeq v (F xs)).
    { intros xs HL HB. apply (restart_objective vm1 m1 tt sched p 1 10 wave_f eq_refl eq_refl (wave_certain _) 1 inv (Z.of_nat n - 1) c xs).
      - lia.
      - cbn [p wave_p g_tend]. lia.
      - rewrite Hc. apply alt_grid.
      - exact HB. }
    destruct (point_exact nlopt (bound_objective vm1 m1 tt sched (gssco_extend (ssco_reset p (Z.of_nat n - 1)) 0) 1 inv 0 (Z.of_nat n + 1) c)
      F (repeat (0%Q, 1%Q) 2)) as (xs & v & Em & Hbox & HP & Ev & Hmin); auto.
    - apply aligned_box; [lra|apply hundredths_1].
    - intros x y Hxy. unfold F. apply eadd_proper.
      + apply (total_cost_Qeq (fun t => wave_f (Z.of_nat n - 1 + t)) 10 inv 1); auto; [|reflexivity].
        intros t a b Hab. apply (cq_eq _ _ _ wave_costs). exact Hab.
      + cbn [eeq]. assert (HL : (last x c == last y c)%Q).
        { clear - Hxy. induction Hxy as [|a b x y Hab Hxy IH]; [reflexivity|]. destruct Hxy; [exact Hab|exact IH]. }
        assert (HW : forall a b, (a == b)%Q -> (sw1 10 inv a c == sw1 10 inv b c)%Q).
        { intros a b Hab. unfold sw1. destruct inv;
          repeat match goal with |- context [qpos ?e] => let E := fresh in destruct (qpos_cases e) as [[? E]|[? E]]; rewrite E; clear E end; lra. }
        rewrite (HW _ _ HL). reflexivity.
    - intros x [Hx _]. apply box_S in Hx. destruct Hx as [L Sx]. apply HF; [exact L|exact Sx].
    - apply box_S in Hbox. destruct Hbox as [L Sx].
      assert (HL2 : Z.of_nat (length xs) = Z.of_nat n + 1 - (Z.of_nat n - 1)) by (rewrite L; lia).
      exists (last xs 0%Q). split.
      + apply (find_bound_last vm1 m1 tt sched (point_minimize nlopt) p 1 1 inv); try reflexivity; auto; [lia|].
        replace (Z.to_nat (Z.of_nat n + 1 - (Z.of_nat n - 1))) with 2%nat by lia. exact Em.
      + destruct xs as [|x1 [|x2 [|]]]; try discriminate. cbn [last].
        pose proof (Forall_inv Sx) as S1. pose proof (Forall_inv (Forall_inv_tail Sx)) as S2.
        apply (wave_end inv n c x1 x2 Hn S1 S2 Hc).
        destruct (HF _ L Sx) as (v' & Ev' & Eq'). assert (v' = v) by congruence. subst v'.
        set (y1 := if (n =? 2)%nat then 1%Q else alt n).
        assert (G1 : (0 <= y1 <= 1)%Q /\ hundredths y1).
        { unfold y1. destruct (n =? 2)%nat; [|apply alt_grid]. split; [lra|apply hundredths_1]. }
        assert (Sy : Forall (fun x => (0 <= x <= 1)%Q) [y1; alt n]).
        { constructor; [apply G1|]. constructor; [apply alt_grid|constructor]. }
        destruct (HF [y1; alt n] eq_refl Sy) as (w & Ew & Eqw).
        change (ele (F [x1; x2]) (F [y1; alt n])). rewrite <- Eq', <- Eqw. apply (Hmin [y1; alt n] w); auto.
        * apply box_S. split; [reflexivity|exact Sy].
        * constructor; [apply G1|]. constructor; [apply alt_grid|constructor].
  Qed.

  (** Bounds of the first two slots. *)
  Lemma wave_start inv n : (n < 2)%nat ->
    exists z, bound (wave_p (Z.of_nat n + 1)) 1 inv 0 (Z.of_nat n + 1) 0 0 = Ok z /\ (z == alt n)%Q.
  Proof.
    intros Hn.
    destruct (bound_on vm1 m1 tt sched (point_minimize nlopt) hundredths 1 hundredths_1 10 1 wave_f wave_costs
      (wave_p (Z.of_nat n + 1)) eq_refl eq_refl eq_refl (wave_certain _) inv (S n)) as (z & Ez & xs & L & Sx & Ll & _ & Hmin).
    - lia.
    - cbn [wave_p g_tend]. lia.
    - apply (bound_exact vm1 m1 tt sched nlopt Hex 1 10 wave_f hundredths_1 wave_costs); try reflexivity; [apply wave_certain|].
      cbn [wave_p g_tend]. lia.
    - replace (Z.of_nat (S n)) with (Z.of_nat n + 1) in Ez by lia. exists z. split; [exact Ez|].
      rewrite <- Ll. destruct n as [|[|n]]; [| |lia].
      + destruct xs as [|x [|]]; try discriminate. cbn [last]. apply (wave_first inv); [apply (Forall_inv Sx)|].
        apply Hmin; [reflexivity|]. constructor; [|constructor]. apply (alt_grid 0).
      + destruct xs as [|x1 [|x2 [|]]]; try discriminate. cbn [last].
        apply (wave_second inv x1 x2); [apply (Forall_inv Sx)|apply (Forall_inv (Forall_inv_tail Sx))|].
        apply Hmin; [reflexivity|]. constructor; [apply (alt_grid 0)|]. constructor; [apply (alt_grid 1)|constructor].
  Qed.

  (** The run up to slot [n]. *)
  Definition waving (n : nat) (ys : list Q) (bs : list (bounds_memory Q)) : Prop :=
    Forall2 Qeq ys (alternate n) /\ Forall2 (fun b v => (bm_lower b == v)%Q /\ (bm_upper b == v)%Q) bs (alternate n).

  Lemma waving_start n ys bs : waving n ys bs ->
    exists s c, find_initial_time valQ bs = Ok (s, c) /\
      if (n <? 2)%nat then s = 0 /\ c = 0%Q else s = Z.of_nat n - 1 /\ (c == alt n)%Q.
  Proof.
    intros [_ HB].
    assert (HL : length bs = n) by (rewrite <- (alternate_length n); clear - HB; induction HB; simpl; auto).
    destruct n as [|[|n]].
    - destruct bs; [|discriminate]. exists 0, 0%Q. repeat split.
    - destruct bs as [|b [|]]; try discriminate. exists 0, 0%Q. repeat split.
    - rewrite !alternate_S, <- app_assoc in HB. cbn [app] in HB.
      apply Forall2_app_inv_r in HB as (l1 & l2 & _ & H2 & ->).
      inversion H2 as [|b ? l3 ? [Hl Hu] H3]; subst. inversion H3 as [|b' ? l4 ? [Hl' Hu'] H4]; subst. inversion H4; subst. clear H2 H3 H4.
      rewrite app_length in HL. cbn [length] in HL. assert (L1 : length l1 = n) by lia.
      exists (Z.of_nat (S n)), (bm_upper b). split.
      + unfold find_initial_time. rewrite app_length. cbn [length]. replace (length l1 + 2)%nat with (S (S n)) by lia.
        cbn [find_initial_from]. rewrite nth_error_app2 by lia. replace (n - length l1)%nat with 0%nat by lia.
        rewrite nth_error_app2 by lia. replace (S n - length l1)%nat with 1%nat by lia. cbn [nth_error from_option obind].
        assert (E1 : is_valid_initial_time valQ b b' = true).
        { unfold is_valid_initial_time, v_gtb. cbn [v_toQ valQ]. apply orb_true_intro.
          destruct (alt_S n) as [[E E']|[E E']]; rewrite E in *; rewrite E' in *; [right|left]; apply Qltb_iff; lra. }
        assert (E2 : close_bounds valQ b = true).
        { unfold close_bounds. cbn [v_toQ valQ v_sub]. apply Qltb_iff.
          assert (E : (bm_lower b - bm_upper b == 0)%Q) by lra. rewrite E. reflexivity. }
        rewrite E1, E2. reflexivity.
      + cbn [Nat.ltb Nat.leb]. split; [lia|]. rewrite alt_SS. exact Hu.
  Qed.

  Lemma waving_step T n ys bs : waving n ys bs -> exists y b,
    lcp valQ (fractional_online vm1 m1 tt sched (point_minimize nlopt) (wave_p T) 0 (Z.of_nat n + 1)) (Z.of_nat n + 1) (map (fun y => [y]) ys) bs
      = Ok ([y], bs ++ [b]) /\ waving (S n) (ys ++ [y]) (bs ++ [b]).
  Proof.
    intros HW. destruct (waving_start n ys bs HW) as (s & c & Es & Hsc). destruct HW as [HY HB].
    assert (HL : length bs = n) by (rewrite <- (alternate_length n); clear - HB; induction HB; simpl; auto).
    assert (HE : forall inv, exists z, bound (wave_p (Z.of_nat n + 1)) 1 inv 0 (Z.of_nat n + 1) s c = Ok z /\ (z == alt n)%Q).
    { intros inv. destruct (Nat.ltb_spec n 2) as [Hn|Hn]; destruct Hsc as [-> Hc].
      - rewrite Hc. apply wave_start. exact Hn.
      - apply wave_bound; assumption. }
    destruct (HE false) as (l & El & Hl). destruct (HE true) as (u & Eu & Hu).
    exists (project (v_gtb valQ) (last ys 0%Q) l u), (mkBM l u). split.
    - apply lcp_Ok. split; [reflexivity|]. split; [lia|].
      exists s, c, (last ys 0%Q), l, u. split; [exact Es|].
      split. { unfold now_value. change [v_zero valQ] with ((fun y : Q => [y]) 0%Q). rewrite last_map. reflexivity. }
      auto.
    - split; rewrite alternate_S; (apply Forall2_app; [assumption|]); constructor; try constructor; auto.
      apply project_same; assumption.
  Qed.

  Lemma waving_run T : forall n, exists ys mem,
    fractional_lcp vm1 m1 tt sched (point_minimize nlopt) (wave_p T) 0 n = Ok (map (fun y => [y]) ys, mem) /\
    waving n ys (match mem with Some b => b | None => [] end).
  Proof.
    induction n as [|n (ys & mem & E & HW)].
    - exists [], None. repeat split; constructor.
    - destruct (waving_step T n ys _ HW) as (y & b & Ey & HW').
      exists (ys ++ [y]), (Some ((match mem with Some b => b | None => [] end) ++ [b])). split; [|exact HW'].
      unfold fractional_lcp in *. rewrite (lcp_steps_snoc valQ _ n _ _ _ _ E). unfold lcp_next.
      assert (HL : length ys = n) by (rewrite <- (alternate_length n); destruct HW as [HY _]; clear - HY; induction HY; simpl; auto).
      rewrite map_length, HL, Ey. cbn [obind fst snd]. rewrite map_app. reflexivity.
  Qed.
End Wave.

(** ** Costs *)
Lemma alternate_cost k : ele (Fin (10 * inject_Z (Z.of_nat k))) (J 1 10 wave_f false (alternate (2 * k))).
Proof.
  induction k as [|k IH]; [vm_compute; discriminate|].
  replace (2 * S k)%nat with (S (S (2 * k))) by lia. rewrite !alternate_S.
  assert (E0 : alt (2 * k) = 0%Q) by (unfold alt; rewrite Nat.even_mul; reflexivity).
  assert (E1 : alt (S (2 * k)) = 1%Q) by (destruct (alt_S (2 * k)) as [[_ H]|[H _]]; [exact H|rewrite E0 in H; discriminate]).
  rewrite E0, E1. rewrite !J_snoc, last_snoc.
  assert (HN : forall t x, 1 <= t -> (0 <= x <= 1)%Q -> exists q, wave_f t x = Fin q /\ (0 <= q)%Q).
  { intros t x Ht Hx. eexists. split; [reflexivity|]. apply (cq_nonneg _ _ _ wave_costs t x Ht Hx). }
  destruct (HN (1 + Z.of_nat (length (alternate (2 * k)))) 0%Q) as (q1 & -> & H1); [lia|lra|].
  destruct (HN (1 + Z.of_nat (length (alternate (2 * k) ++ [0%Q]))) 1%Q) as (q2 & -> & H2); [lia|lra|].
  replace (Z.of_nat (S k)) with (Z.of_nat k + 1) by lia. rewrite inject_Z_plus.
  destruct (J 1 10 wave_f false (alternate (2 * k))) as [q|]; [|exact I]. cbn [ele eadd] in *. unfold kap, dist.
  change (inject_Z 1) with 1%Q.
  repeat match goal with |- context [qpos ?e] => let E := fresh in destruct (qpos_cases e) as [[? E]|[? E]]; rewrite E; clear E end; lra.
Qed.

Lemma off_cost n : ele (J 1 10 wave_f false (repeat 0%Q n)) (Fin 11).
Proof.
  assert (HR : forall n t, 3 <= t -> eeq (total_cost wave_f (sw1 10 false) 1 t 0%Q (repeat 0%Q n)) (Fin 0)).
  { clear n. induction n as [|n IH]; intros t Ht; cbn [repeat total_cost]; [reflexivity|]. rewrite IH by lia.
    unfold wave_f, sw1. rewrite (proj2 (Z.eqb_neq t 1)), (proj2 (Z.eqb_neq t 2)) by lia. vm_compute. reflexivity. }
  destruct n as [|[|n]].
  - vm_compute. discriminate.
  - vm_compute. discriminate.
  - unfold J, Jf. cbn [repeat total_cost]. rewrite HR by lia. vm_compute. discriminate.
Qed.

Lemma off_nonneg n : ele (Fin 0) (J 1 10 wave_f false (repeat 0%Q n)).
Proof.
  assert (H : forall n t, 1 <= t -> ele (Fin 0) (total_cost wave_f (sw1 10 false) 1 t 0%Q (repeat 0%Q n))).
  { clear n. induction n as [|n IH]; intros t Ht; cbn [repeat total_cost]; [apply Qle_refl|]. specialize (IH (t + 1) ltac:(lia)).
    pose proof (cq_nonneg _ _ _ wave_costs t 0%Q Ht ltac:(lra)) as H0.
    destruct (total_cost wave_f (sw1 10 false) 1 (t + 1) 0%Q (repeat 0%Q n)); [|destruct (wave_f t 0%Q); exact I].
    destruct (wave_f t 0%Q); [|exact I]. cbn [eadd ele] in *. change (sw1 10 false 0 0) with (0 # 1). lra. }
  apply H. lia.
Qed.

Lemma wave_verified t_end : 1 <= t_end -> verify_ssco valQ (wave_p t_end) = Ok tt.
Proof.
  intros H. unfold verify_ssco, verify_header, wave_p. cbn [g_d g_tend g_bounds g_switching].
  rewrite (proj2 (Z.leb_le 0 t_end)) by lia. reflexivity.
Qed.

Lemma lcp_unbounded (R : Q) : exists (n : nat) (p : gssco Q unit unit),
  verify_ssco valQ p = Ok tt /\ g_bounds p = [1%Q] /\ g_switching p = [10%Q] /\ hundredths 1 /\
  capacity_costsQ 1 wave_f 10 /\ certain_costs vm1 p 1 wave_f /\ g_tend p = Z.of_nat n /\
  forall nlopt sched, exact_nlopt nlopt -> exists ys mem zs,
    fractional_lcp vm1 m1 tt sched (point_minimize nlopt) p 0 n = Ok (map (fun y => [y]) ys, mem) /\
    servers_on hundredths 1 (Z.of_nat n) zs /\
    elt (escale R (servers_cost wave_f 10 1 false zs)) (servers_cost wave_f 10 1 false ys).
Proof.
  set (k := S (Z.to_nat (Qceiling (2 * Qabs R)))). exists (2 * k)%nat, (wave_p (Z.of_nat (2 * k))).
  split; [apply wave_verified; unfold k; lia|].
  split; [reflexivity|]. split; [reflexivity|]. split; [apply hundredths_1|]. split; [apply wave_costs|]. split; [apply wave_certain|].
  split; [reflexivity|]. intros nlopt sched Hex.
  destruct (waving_run nlopt sched Hex (Z.of_nat (2 * k)) (2 * k)) as (ys & mem & E & HY & _).
  exists ys, mem, (repeat 0%Q (2 * k)). split; [exact E|]. split.
  { split; [split; [rewrite repeat_length; reflexivity|]|]; apply Forall_forall; intros y Hy; apply repeat_spec in Hy; subst y; [lra|apply hundredths_0]. }
  pose proof (off_cost (2 * k)) as H0. rewrite <- (servers_J 10 1 wave_f false) in H0.
  assert (H1 : ele (Fin (10 * inject_Z (Z.of_nat k))) (servers_cost wave_f 10 1 false ys)).
  { rewrite servers_J. assert (EJ : eeq (J 1 10 wave_f false ys) (J 1 10 wave_f false (alternate (2 * k)))).
    { apply (total_cost_Qeq wave_f 10 false 1 (cq_eq _ _ _ wave_costs)); auto. reflexivity. }
    rewrite EJ. apply alternate_cost. }
  assert (H2 : (2 * Qabs R < inject_Z (Z.of_nat k))%Q).
  { unfold k. eapply Qle_lt_trans; [apply Qle_ceiling|]. rewrite <- Zlt_Qlt. lia. }
  assert (H3 : ele (Fin 0) (servers_cost wave_f 10 1 false (repeat 0%Q (2 * k)))).
  { rewrite servers_J. apply off_nonneg. }
  destruct (servers_cost wave_f 10 1 false (repeat 0%Q (2 * k))) as [a|]; [|contradiction].
  destruct (servers_cost wave_f 10 1 false ys) as [b|]; [|exact I]. cbn [ele elt escale] in *.
  assert (H4 : (R * a <= Qabs R * a)%Q) by (apply Qmult_le_compat_r; [apply Qle_Qabs|exact H3]).
  assert (H5 : (a * Qabs R <= 11 * Qabs R)%Q) by (apply Qmult_le_compat_r; [exact H0|apply Qabs_nonneg]).
  pose proof (Qabs_nonneg R). lra.
Qed.
