(** Proofs about the static integral solver. *)
From Coq Require Import Lia Lqa Setoid.
From Verif Require Import NumLemmas StaticModel StaticSpec CostProofs ObjectiveProofs ConvertObjective.
From Verif Require Import ProblemModel.
Local Open Scope Z_scope.

(** *** Objectives whose parts are defined along the schedule *)
Section Along.
  Context {X C D : Type}.
  Variable merge : C -> C -> C.
  Variable p : oproblem X C D.
  Variable f : Z -> X -> ext.
  Variable sw : X -> X -> Q.
  Variables (x0 : X) (alpha : Q) (inverted : bool).

  Lemma steps_along : forall xs pre,
    Z.of_nat (length pre + length xs) = op_tend p ->
    (forall t x, 1 <= t <= op_tend p -> In x xs -> exists c, op_hit p t x = Ok c /\ eeq (c_cost c) (f t x)) ->
    (forall a b, (a = last pre x0 \/ In a xs) -> In b xs -> exists m, op_move p a b inverted = Ok m /\ (m == sw a b)%Q) ->
    exists cs,
      omap (fun t => step_cost_o p alpha inverted t (get_or (pre ++ xs) x0 (t - 1)) (get_or (pre ++ xs) x0 t))
           (zrange (1 + Z.of_nat (length pre)) (op_tend p)) = Ok cs /\
      eeq (esum (map c_cost cs)) (total_cost f sw alpha (1 + Z.of_nat (length pre)) (last pre x0) xs).
  Proof.
    induction xs as [|x xs IH]; intros pre HL Hh Hm.
    - rewrite zrange_nil by (cbn [length] in HL; lia). exists []. split; reflexivity.
    - cbn [length] in HL. rewrite zrange_cons by lia. cbn [omap].
      rewrite get_or_app_at. replace (1 + Z.of_nat (length pre) - 1) with (Z.of_nat (length pre)) by lia.
      rewrite get_or_prev.
      destruct (Hh (1 + Z.of_nat (length pre)) x) as (c & Hc & Ec); [lia|left; reflexivity|].
      destruct (Hm (last pre x0) x) as (m & Hmv & Em); [left; reflexivity|left; reflexivity|].
      unfold step_cost_o at 1. rewrite (proj2 (Z.ltb_ge _ _)) by lia. rewrite Hc. cbn [obind].
      rewrite Hmv. cbn [obind].
      specialize (IH (pre ++ [x])). rewrite <- app_assoc in IH. cbn [app] in IH.
      rewrite last_last, app_length in IH. cbn [length] in IH.
      destruct IH as (cs & H1 & H2).
      + lia.
      + intros t y Ht Hy. apply Hh; [lia|right; assumption].
      + intros a b Ha Hb. apply Hm; [|right; assumption]. right. destruct Ha as [-> | Ha]; [left; reflexivity|right; assumption].
      + replace (1 + Z.of_nat (length pre) + 1) with (1 + Z.of_nat (length pre + 1)) by lia.
        rewrite H1. cbn [obind]. eexists. split; [reflexivity|].
        cbn [map esum total_cost c_cost].
        replace (1 + Z.of_nat (length pre) + 1) with (1 + Z.of_nat (length pre + 1)) by lia.
        apply eadd_proper; [|exact H2]. apply eadd_proper; [exact Ec|]. simpl. rewrite Em. reflexivity.
  Qed.

  Lemma objective_along s xs :
    Z.of_nat (length xs) = op_tend p ->
    (forall t x, 1 <= t <= op_tend p -> In x xs -> exists c, op_hit p t x = Ok c /\ eeq (c_cost c) (f t x)) ->
    (forall a b, (a = x0 \/ In a xs) -> In b xs -> exists m, op_move p a b inverted = Ok m /\ (m == sw a b)%Q) ->
    exists c, objective_o merge s p xs x0 alpha inverted (op_tend p) = Ok c /\
      eeq (c_cost c) (total_cost f sw alpha 1 x0 xs).
  Proof.
    intros HL Hh Hm. destruct (steps_along xs []) as (cs & H1 & H2); auto.
    unfold objective_o. cbn [app length] in H1. change (1 + Z.of_nat 0) with 1 in H1. rewrite H1. cbn [obind].
    eexists. split; [reflexivity|]. rewrite par_sum_cost. exact H2.
  Qed.
End Along.

(** *** The recursion *)
Lemma config_set_spec : forall pre i r j,
  config_set (pre ++ i :: r) (length pre) j = Ok (pre ++ j :: r).
Proof.
  induction pre as [|a pre IH]; intros i r j; simpl; [reflexivity|]. rewrite IH. reflexivity.
Qed.

Lemma in_range_length bounds x : in_range bounds x -> length x = length bounds.
Proof. induction 1; simpl; auto. Qed.

Lemma in_range_app b1 b2 x1 x2 : length b1 = length x1 ->
  in_range (b1 ++ b2) (x1 ++ x2) <-> in_range b1 x1 /\ in_range b2 x2.
Proof.
  unfold in_range. revert x1. induction b1 as [|b b1 IH]; intros [|x x1] HL; try discriminate; simpl.
  - split; [split; [constructor|auto]|tauto].
  - split.
    + intros H. inversion H as [|b' j' bs js H1 H2]; subst b' j' bs js. apply IH in H2; [|simpl in HL; lia].
      split; [constructor; tauto|tauto].
    + intros [H1 H2]. inversion H1 as [|b' j' bs js H3 H4]; subst b' j' bs js. constructor; auto. apply IH; [simpl in HL; lia|]. tauto.
Qed.

Lemma in_range_lower bounds : Forall (fun b => fst b <= snd b) bounds -> in_range bounds (map fst bounds).
Proof. induction 1; simpl; constructor; auto. split; [reflexivity|auto]. Qed.

Section Pick.
  (** [V j] is the best cost with the value [j], [eval j] finds it. *)
  Variable good : Z -> list Z * ext -> Prop.
  Variable eval : Z -> outcome (list Z * ext).
  Variables lo hi : Z.
  Hypothesis Heval : forall j, lo <= j <= hi -> exists r, eval j = Ok r /\ good j r.
  Hypothesis Huniq : forall j r s, good j r -> good j s -> eeq (snd r) (snd s).
  Hypothesis Huni : forall a b c r s t, lo <= a -> a <= b <= c -> c <= hi -> good a r -> good b s -> good c t ->
    ele (snd s) (emax (snd r) (snd t)).

  Lemma emax_cases a b : (emax a b = a /\ ele b a) \/ (emax a b = b /\ ele a b).
  Proof.
    unfold emax. destruct (eleb a b) eqn:E; [right|left]; split; auto.
    - apply eleb_iff in E. exact E.
    - apply eleb_false in E. apply elt_ele. exact E.
  Qed.

  (** Invariant: [picked] is the base (infinite cost) and all values before [j] are
      infinite, or it is the best for a value [i] before [j] and no value before is better. *)
  Definition picked_ok (base : list Z * ext) (j : Z) (picked : list Z * ext) : Prop :=
    ((picked = base /\ snd base = Inf) \/ exists i, lo <= i < j /\ good i picked) /\
    forall i r, lo <= i < j -> good i r -> ele (snd picked) (snd r).

  Lemma pick_value_spec base : forall n j picked, lo <= j -> n = Z.to_nat (hi - j + 1) -> j <= hi + 1 ->
    picked_ok base j picked ->
    exists res, pick_value eval (zrange j hi) picked = Ok res /\ picked_ok base (hi + 1) res.
  Proof.
    induction n as [|n IH]; intros j picked Hj Hn Hhi HP.
    - assert (j = hi + 1) as -> by lia. rewrite zrange_nil by lia. exists picked. split; [reflexivity|exact HP].
    - rewrite zrange_cons by lia. cbn [pick_value].
      destruct (Heval j) as (r & Hr & Hg); [lia|]. rewrite Hr. cbn [obind].
      destruct HP as [HP1 HP2].
      destruct (eltb (snd r) (snd picked)) eqn:E1.
      + apply eltb_iff in E1. apply IH; [lia|lia|lia|]. split.
        * right. exists j. split; [lia|exact Hg].
        * intros i r' Hi Hg'. destruct (Z.eq_dec i j) as [->|Hne].
          -- apply eeq_ele. eapply Huniq; eassumption.
          -- eapply ele_trans; [apply elt_ele; exact E1|]. eapply HP2; [|exact Hg']. lia.
      + apply eltb_false in E1. destruct (eltb (snd picked) (snd r)) eqn:E2.
        * apply eltb_iff in E2. exists picked. split; [reflexivity|]. split.
          -- destruct HP1 as [[-> HI] | (i & Hi & Hgi)].
             ++ rewrite HI in E2. destruct (snd r); simpl in E2; contradiction.
             ++ right. exists i. split; [lia|exact Hgi].
          -- intros i r' Hi Hg'. destruct (Z.lt_ge_cases i j) as [Hlt|Hge].
             ++ eapply HP2; [|exact Hg']. lia.
             ++ destruct HP1 as [[-> HI] | (i0 & Hi0 & Hgi)].
                ** rewrite HI in E2. destruct (snd r); simpl in E2; contradiction.
                ** assert (HU : ele (snd r) (emax (snd picked) (snd r'))).
                   { eapply (Huni i0 j i); eauto; lia. }
                   destruct (emax_cases (snd picked) (snd r')) as [[Em Hm]|[Em Hm]]; rewrite Em in HU; auto.
                   apply elt_not_ele in E2. contradiction.
        * apply eltb_false in E2. apply IH; [lia|lia|lia|]. split.
          -- destruct HP1 as [HP1|(i & Hi & Hgi)]; [left; exact HP1|right; exists i; split; [lia|exact Hgi]].
          -- intros i r' Hi Hg'. destruct (Z.eq_dec i j) as [->|Hne].
             ++ eapply ele_trans; [exact E1|]. apply eeq_ele. eapply Huniq; eassumption.
             ++ eapply HP2; [|exact Hg']. lia.
  Qed.
End Pick.

Section Static.
  Context {C D : Type}.
  Variable vmerge : C -> C -> outcome C.
  Variable merge : C -> C -> C.
  Variable outside : D.
  Variable sched : list Z -> split.
  Variable p : gsco Z C D.
  Variable f : Z -> list Z -> ext.
  Variable norm : list Z -> Q.
  Hypothesis Hwf : well_formed p.
  Hypothesis Hcosts : has_costs vmerge p f norm.

  Let J := static_total f norm 1 (o_d p) (o_tend p).

  Lemma static_cost_spec x : in_range (o_bounds p) x ->
    exists e, static_cost vmerge merge outside sched p x = Ok e /\ eeq e (J x).
  Proof.
    intros Hx. destruct Hwf as (Hd & Ht & Hl & Hb). destruct Hcosts as [Hh Hn].
    pose proof (in_range_length _ _ Hx) as Hlx.
    destruct (objective_along merge (gsco_problem valZ vmerge outside p) f
                (fun prev x => norm (difference x prev)) (gzero valZ (o_d p)) 1 false (sched x)
                (repeat x (Z.to_nat (o_tend p)))) as (c & H1 & H2).
    - rewrite repeat_length. simpl. lia.
    - intros t y Hty Hy. apply repeat_spec in Hy. subst y. simpl. unfold gsco_hit, call_mean_within.
      destruct (within_pairs_spec valZ (o_bounds p) x) as (b & -> & Hiff); [congruence|].
      assert (b = true) as ->.
      { apply Hiff. clear - Hx. unfold in_range, in_box2 in *. induction Hx; constructor; auto.
        simpl. rewrite <- !Zle_Qle. assumption. }
      simpl. apply Hh; assumption.
    - intros a b Ha Hb'. apply repeat_spec in Hb'. subst b. cbn [gsco_problem op_move]. unfold gsco_move.
      apply Hn. unfold difference. rewrite map_length, combine_length.
      destruct Ha as [-> | Ha].
      + unfold gzero. rewrite repeat_length. lia.
      + apply repeat_spec in Ha. subst a. lia.
    - exists (c_cost c). split; [|exact H2]. unfold static_cost.
      change (op_tend (gsco_problem valZ vmerge outside p)) with (o_tend p) in H1. rewrite H1. reflexivity.
  Qed.

  Hypothesis Huni : nested_unimodal (o_bounds p) J.

  (** [r] is a best configuration among those extending [prefix] (or infinite). *)
  Definition best (prefix : list Z) (r : list Z * ext) : Prop :=
    (snd r = Inf \/ (in_range (o_bounds p) (fst r) /\ eeq (snd r) (J (fst r)) /\
      exists s, fst r = prefix ++ s)) /\
    forall s, in_range (o_bounds p) (prefix ++ s) -> ele (snd r) (J (prefix ++ s)).

  Lemma best_unique prefix r s : best prefix r -> best prefix s -> ele (snd r) (snd s).
  Proof.
    intros [_ H1] [[H2|(H2 & H3 & (q & H4))] _].
    - rewrite H2. apply ele_Inf.
    - rewrite H3. rewrite H4 in *. apply H1. exact H2.
  Qed.

  Lemma check_configs_spec : forall n prefix rest,
    length rest = n -> (length prefix + n)%nat = length (o_bounds p) ->
    (exists suffix, in_range (o_bounds p) (prefix ++ suffix)) ->
    exists r, check_configs vmerge merge outside sched p n (length prefix) (prefix ++ rest) = Ok r /\ best prefix r.
  Proof.
    destruct Hwf as (Hd & Ht & Hl & Hb).
    induction n as [|n IH]; intros prefix rest Hr Hlen (suffix & Hs); cbn [check_configs].
    - destruct rest; [|discriminate].
      assert (suffix = []) as ->.
      { apply in_range_length in Hs. rewrite app_length in Hs. destruct suffix; [reflexivity|simpl in Hs; lia]. }
      rewrite app_nil_r in *. destruct (static_cost_spec prefix Hs) as (e & He & Ee).
      rewrite He. cbn [obind]. eexists. split; [reflexivity|]. split; simpl.
      + right. split; [exact Hs|]. split; [exact Ee|]. exists []. rewrite app_nil_r. reflexivity.
      + intros s Hs'. assert (s = []) as ->.
        { apply in_range_length in Hs'. rewrite app_length in Hs'. destruct s; [reflexivity|simpl in Hs'; lia]. }
        rewrite app_nil_r. apply eeq_ele. exact Ee.
    - destruct (nth_error (o_bounds p) (length prefix)) as [[lo hi]|] eqn:EB.
      2: { apply nth_error_None in EB. lia. }
      cbn [from_option obind fst snd].
      apply nth_error_split in EB. destruct EB as (b1 & b2 & EB & Hb1).
      assert (Hr1 : forall j s, in_range (o_bounds p) (prefix ++ j :: s) <->
                    in_range b1 prefix /\ lo <= j <= hi /\ in_range b2 s).
      { intros j s. rewrite EB. rewrite in_range_app by congruence. unfold in_range at 2. split.
        - intros [H1 H2]. inversion H2; subst. tauto.
        - intros (H1 & H2 & H3). split; [exact H1|]. constructor; [exact H2|exact H3]. }
      assert (Hpre : in_range b1 prefix).
      { rewrite EB in Hs. apply in_range_app in Hs; [tauto|congruence]. }
      assert (Hb2 : in_range b2 (map fst b2)).
      { apply in_range_lower. rewrite EB in Hb. apply Forall_app in Hb. destruct Hb as [_ Hb].
        inversion Hb; subst. assumption. }
      assert (Hlohi : lo <= hi).
      { rewrite EB in Hb. apply Forall_app in Hb. destruct Hb as [_ Hb]. inversion Hb; subst. assumption. }
      destruct rest as [|i rest]; [discriminate|].
      assert (HE : forall j, lo <= j <= hi -> exists r,
                (do x <- config_set (prefix ++ i :: rest) (length prefix) j;
                 check_configs vmerge merge outside sched p n (S (length prefix)) x) = Ok r /\ best (prefix ++ [j]) r).
      { intros j Hj. rewrite config_set_spec. cbn [obind].
        destruct (IH (prefix ++ [j]) rest) as (r & H1 & H2).
        - simpl in Hr. lia.
        - rewrite app_length. simpl. lia.
        - exists (map fst b2). rewrite <- app_assoc. simpl. apply Hr1. tauto.
        - rewrite <- app_assoc in H1. cbn [app] in H1. rewrite app_length in H1. cbn [length] in H1.
          replace (length prefix + 1)%nat with (S (length prefix)) in H1 by lia. eauto. }
      destruct (pick_value_spec (fun j r => best (prefix ++ [j]) r) _ lo hi HE) with
        (base := (prefix ++ i :: rest, Inf)) (n := Z.to_nat (hi - lo + 1)) (j := lo) (picked := (prefix ++ i :: rest, Inf))
        as (res & Hres & Hok1 & Hok2).
      + intros j r s H1 H2. apply ele_antisym; eapply best_unique; eassumption.
      + intros a b c r s t Ha Hab Hc Hra Hsb Htc.
        destruct (emax_cases (snd r) (snd t)) as [[Em Hm]|[Em Hm]]; rewrite Em.
        * destruct Hra as [[Hr'|(Hr2 & Hr3 & (q & Hq))] _]; [rewrite Hr'; apply ele_Inf|].
          assert (Htt := Htc). destruct Htt as [[Ht'|(Ht2 & Ht3 & (q' & Hq'))] _].
          { rewrite Ht' in Hm. destruct (snd r); simpl in Hm; [contradiction|apply ele_Inf]. }
          rewrite <- app_assoc in Hq, Hq'. cbn [app] in Hq, Hq'. rewrite Hq in Hr2, Hr3. rewrite Hq' in Ht2, Ht3.
          destruct (Huni prefix a b c q q' Hab Hr2 Ht2) as (w & Hw1 & Hw2).
          destruct Hsb as [_ Hsb]. specialize (Hsb w). rewrite <- app_assoc in Hsb. cbn [app] in Hsb.
          eapply ele_trans; [apply Hsb; exact Hw1|]. eapply ele_trans; [exact Hw2|].
          destruct (emax_cases (J (prefix ++ a :: q)) (J (prefix ++ c :: q'))) as [[-> _]|[-> _]].
          -- rewrite Hr3. apply ele_refl.
          -- rewrite <- Ht3. exact Hm.
        * destruct Htc as [[Ht'|(Ht2 & Ht3 & (q' & Hq'))] _]; [rewrite Ht'; apply ele_Inf|].
          destruct Hra as [[Hr'|(Hr2 & Hr3 & (q & Hq))] _].
          { rewrite Hr' in Hm. destruct (snd t); simpl in Hm; [contradiction|apply ele_Inf]. }
          rewrite <- app_assoc in Hq, Hq'. cbn [app] in Hq, Hq'. rewrite Hq in Hr2, Hr3. rewrite Hq' in Ht2, Ht3.
          destruct (Huni prefix a b c q q' Hab Hr2 Ht2) as (w & Hw1 & Hw2).
          destruct Hsb as [_ Hsb]. specialize (Hsb w). rewrite <- app_assoc in Hsb. cbn [app] in Hsb.
          eapply ele_trans; [apply Hsb; exact Hw1|]. eapply ele_trans; [exact Hw2|].
          destruct (emax_cases (J (prefix ++ a :: q)) (J (prefix ++ c :: q'))) as [[-> _]|[-> _]].
          -- rewrite <- Hr3. exact Hm.
          -- rewrite Ht3. apply ele_refl.
      + lia.
      + reflexivity.
      + lia.
      + split; [left; split; reflexivity|]. intros k r Hk. lia.
      + exists res. split; [exact Hres|].
        assert (HB : forall s, in_range (o_bounds p) (prefix ++ s) -> ele (snd res) (J (prefix ++ s))).
        { intros s Hs'. destruct s as [|j s].
          { apply in_range_length in Hs'. rewrite app_nil_r in Hs'. lia. }
          assert (Hj := proj1 (Hr1 j s) Hs'). destruct (HE j) as (rj & _ & Hbj); [lia|].
          eapply ele_trans; [apply (Hok2 j rj); [lia|exact Hbj]|].
          destruct Hbj as [_ Hbj]. specialize (Hbj s). rewrite <- app_assoc in Hbj. apply Hbj. exact Hs'. }
        split; [|exact HB].
        destruct Hok1 as [[-> HI]|(j & Hj & [Hbj _])]; [left; reflexivity|].
        destruct Hbj as [HI|(H1 & H2 & (s & H3))]; [left; exact HI|right].
        split; [exact H1|]. split; [exact H2|]. exists (j :: s). rewrite H3, <- app_assoc. reflexivity.
  Qed.

  Lemma static_integral_spec alpha l :
    (l = None \/ exists q, l = Some q /\ (q == 0)%Q) ->
    (exists y, in_range (o_bounds p) y /\ is_fin (J y)) ->
    exists x, static_integral vmerge merge outside sched p false alpha l = Ok (repeat x (Z.to_nat (o_tend p))) /\
      in_range (o_bounds p) x /\ forall y, in_range (o_bounds p) y -> ele (J x) (J y).
  Proof.
    intros Hlopt (y0 & Hy0 & Hfin). destruct Hwf as (Hd & Ht & Hl & Hb).
    destruct (check_configs_spec (Z.to_nat (o_d p)) [] (repeat 0 (Z.to_nat (o_d p)))) as (r & H1 & H2 & H3).
    - apply repeat_length.
    - simpl. auto.
    - exists y0. exact Hy0.
    - cbn [app length] in H1. exists (fst r). split.
      + unfold static_integral. assert ((match l with None => false | Some q => negb (Qeq_bool q 0) end) = false) as ->.
        { destruct Hlopt as [-> |(q & -> & Hq)]; auto. apply Qeq_bool_iff in Hq. rewrite Hq. reflexivity. }
        rewrite H1. reflexivity.
      + specialize (H3 y0 Hy0) as H4.
        destruct H2 as [HI|(H5 & H6 & _)].
        * rewrite HI in H4. simpl in H4. destruct (J y0); contradiction.
        * split; [exact H5|]. intros y Hy. rewrite <- H6. apply (H3 y Hy).
  Qed.
End Static.
