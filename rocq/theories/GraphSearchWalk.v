(** The layers of the multi-dimensional graph search, in coordinates relative to
    the base configuration. *)
From Verif Require Import NumLemmas GraphSearchModel GraphSearchOrder.
From Coq Require Import Arith.
Local Open Scope nat_scope.

(** Coordinates of [a] steps below [b]. *)
Fixpoint vsub (b a : list nat) : list nat :=
  match b, a with
  | x :: b', y :: a' => (x - y) :: vsub b' a'
  | _, _ => []
  end.

Lemma vsub_length b : forall a, length a = length b -> length (vsub b a) = length b.
Proof. induction b as [|x b IH]; intros [|y a] H; cbn in *; try discriminate; auto. Qed.

Lemma vsub_nth b : forall a k, length a = length b -> nth k (vsub b a) 0 = nth k b 0 - nth k a 0.
Proof.
  induction b as [|x b IH]; intros [|y a] [|k] H; cbn in *; try discriminate; auto.
Qed.

Lemma vsub_update b : forall a k x, length a = length b ->
  vsub b (update a k x) = update (vsub b a) k (nth k b 0 - x).
Proof.
  induction b as [|z b IH]; intros [|y a] [|k] x H; cbn in *; try discriminate; auto.
  rewrite IH by lia. reflexivity.
Qed.

Lemma vsub_invol b a : box b a -> vsub b (vsub b a) = a.
Proof. intros H. induction H; cbn; auto. f_equal; [lia|auto]. Qed.

Lemma vsub_box b a : box b a -> box b (vsub b a).
Proof. intros H. induction H; cbn; constructor; [lia|auto]. Qed.

Lemma vsub_zero b : vsub b (repeat 0 (length b)) = b.
Proof. induction b as [|x b IH]; cbn; auto. f_equal; [lia|auto]. Qed.

Section Walk.
  Variable hit : Z -> list Z -> ext.
  Variable d : Z.
  Variable bounds : list Z.
  Variable switching_cost : list Q.
  Variable alpha : Q.
  Variable inverted : bool.
  Variable vs : gvalues.
  Variable sched : Z -> vertice -> split.
  Let b := v_bound vs.
  Let dn := length b.
  Hypothesis d_dn : d = Z.of_nat dn.
  Hypothesis b_in : forall k, nth k b 0 < length (v_values vs).

  Definition val (j : nat) : Z := nth j (v_values vs) (last (v_values vs) 0%Z).
  Definition mkv (v : list nat) : iconfig := mkIC (map val v) v.
  Definition emb (up : bool) (a : list nat) : list nat := if up then a else vsub b a.
  Definition cfgof (up : bool) (a : list nat) : iconfig := mkv (emb up a).
  Hypothesis bounds_val : bounds = map val b.
  Hypothesis val_0 : val 0 = 0%Z.

  Lemma emb_box up a : box b a -> box b (emb up a).
  Proof. destruct up; cbn; auto. apply vsub_box. Qed.

  Lemma emb_invol up a : box b a -> emb up (emb up a) = a.
  Proof. destruct up; cbn; auto. apply vsub_invol. Qed.

  Lemma val_lookup j : j < length (v_values vs) -> nth_error (v_values vs) j = Some (val j).
  Proof. intros H. apply nth_error_nth_lt. exact H. Qed.

  Lemma build_forward up a k : box b a -> k < dn ->
    build_config (dir_of up) vs (cfgof up a) k =
    Ok (if Nat.eqb (nth k a 0) (nth k b 0) then None
        else Some (cfgof up (update a k (S (nth k a 0))))).
  Proof.
    intros Hb Hk. assert (Hl := box_length _ _ Hb). assert (Hn := box_nth _ _ k Hb).
    assert (Hbi := b_in k).
    assert (He := box_length _ _ (emb_box up a Hb)).
    unfold build_config, cfgof, mkv. cbn [ic_idx ic_cfg].
    rewrite (nth_error_nth_lt _ k 0) by (fold b; lia).
    rewrite (nth_error_nth_lt (v_bound vs) k 0) by (fold b; auto).
    fold b. cbn [from_option obind]. destruct up; cbn [dir_of emb].
    - destruct (Nat.eqb_spec (nth k a 0) (nth k b 0)) as [E|E]; [reflexivity|].
      rewrite val_lookup by lia. cbn [from_option obind]. rewrite map_update. reflexivity.
    - rewrite vsub_nth by auto.
      destruct (Nat.eqb_spec (nth k a 0) (nth k b 0)) as [E|E].
      + rewrite E, Nat.sub_diag. reflexivity.
      + destruct (nth k b 0 - nth k a 0) as [|i] eqn:Ei; [lia|].
        rewrite val_lookup by lia. cbn [from_option obind].
        rewrite vsub_update by auto.
        replace (nth k b 0 - S (nth k a 0)) with i by lia.
        rewrite map_update. reflexivity.
  Qed.

  Lemma build_backward (up : bool) a k : box b a -> k < dn ->
    build_config (if up then Previous else Next) vs (cfgof up a) k =
    Ok (if Nat.eqb (nth k a 0) 0 then None else Some (cfgof up (dec a k))).
  Proof.
    intros Hb Hk. assert (Hl := box_length _ _ Hb). assert (Hn := box_nth _ _ k Hb).
    assert (Hbi := b_in k).
    assert (He := box_length _ _ (emb_box up a Hb)).
    unfold build_config, cfgof, mkv. cbn [ic_idx ic_cfg].
    rewrite (nth_error_nth_lt _ k 0) by (fold b; lia).
    rewrite (nth_error_nth_lt (v_bound vs) k 0) by (fold b; auto).
    fold b. cbn [from_option obind]. unfold dec. destruct up; cbn [emb].
    - destruct (nth k a 0) as [|i] eqn:E; [reflexivity|]. cbn [Nat.eqb pred].
      rewrite val_lookup by lia. cbn [from_option obind]. rewrite map_update. reflexivity.
    - rewrite vsub_nth by auto.
      destruct (Nat.eqb_spec (nth k a 0) 0) as [E|E].
      + rewrite E, Nat.sub_0_r, Nat.eqb_refl. reflexivity.
      + rewrite (proj2 (Nat.eqb_neq _ _)) by lia.
        rewrite val_lookup by lia. cbn [from_option obind].
        rewrite vsub_update by auto.
        replace (nth k b 0 - pred (nth k a 0)) with (S (nth k b 0 - nth k a 0)) by lia.
        rewrite map_update. reflexivity.
  Qed.

  Notation hconfig := (handle_config hit d switching_cost alpha inverted vs sched).

  Fixpoint process (t : Z) (k : nat) (up : bool) (M : list (list nat)) (ps : gpaths) : outcome gpaths :=
    match M with
    | [] => Ok ps
    | a :: r => do ps' <- hconfig t k up (cfgof up a) ps; process t k up r ps'
    end.

  Lemma process_app t k up M : forall N ps,
    process t k up (M ++ N) ps = do ps' <- process t k up M ps; process t k up N ps'.
  Proof.
    induction M as [|a M IH]; intros N ps; cbn [app process obind]; auto.
    destruct (hconfig t k up (cfgof up a) ps); cbn [obind]; auto.
  Qed.

  Notation wlk := (walk hit d switching_cost alpha inverted vs sched).

  Lemma walk_process t k up : k < dn -> forall fuel a ps added,
    box b a -> nth k b 0 - nth k a 0 < fuel ->
    let chain := map (update a k) (seq (S (nth k a 0)) (nth k b 0 - nth k a 0)) in
    wlk fuel t (S k) up (cfgof up a) ps added =
    do ps' <- process t (S k) up (a :: chain) ps; Ok (ps', added ++ map (cfgof up) chain).
  Proof.
    intros Hk. induction fuel as [|fuel IH]; intros a ps added Hb Hf chain; [lia|].
    cbn [walk process]. replace (S k - 1) with k by lia.
    destruct (hconfig t (S k) up (cfgof up a) ps) as [ps1| |]; cbn [obind]; auto.
    rewrite build_forward by auto. cbn [obind].
    assert (Hn := box_nth _ _ k Hb). assert (Hl := box_length _ _ Hb).
    destruct (Nat.eqb_spec (nth k a 0) (nth k b 0)) as [E|E].
    - subst chain. rewrite E, Nat.sub_diag. cbn. rewrite app_nil_r. reflexivity.
    - set (a' := update a k (S (nth k a 0))).
      assert (Ha' : nth k a' 0 = S (nth k a 0)) by (unfold a'; apply nth_update_same; fold dn in Hl; lia).
      rewrite IH; [|apply box_update; auto; lia|rewrite Ha'; lia]. rewrite Ha'.
      assert (Ec : chain = a' :: map (update a' k) (seq (S (S (nth k a 0))) (nth k b 0 - S (nth k a 0)))).
      { unfold chain. replace (nth k b 0 - nth k a 0) with (S (nth k b 0 - S (nth k a 0))) by lia.
        cbn [seq map]. f_equal. apply map_ext. intros i. unfold a'. rewrite update_update. reflexivity. }
      rewrite Ec. cbn [process].
      destruct (hconfig t (S k) up (cfgof up a') ps1) as [ps2| |]; cbn [obind]; auto.
      destruct (process _ _ _ _ ps2); cbn [obind]; auto.
      rewrite <- app_assoc. reflexivity.
  Qed.

  Notation hbases := (handle_bases hit d switching_cost alpha inverted vs sched).

  Lemma length_values k : nth k b 0 < S (length (v_values vs)).
  Proof. assert (H := b_in k). lia. Qed.

  Lemma bases_process t k up : 1 <= k -> k < dn -> 1 <= nth k b 0 -> forall R ps added,
    (forall a, In a R -> box b a /\ nth k a 0 = 0) ->
    hbases t (S k) up (map (cfgof up) R) ps added =
    do ps' <- process t (S k) up (flat_map (ch b k) R) ps;
    Ok (ps', added ++ map (cfgof up) (flat_map (ch b k) R)).
  Proof.
    intros Hk1 Hk Hbk. induction R as [|a R IH]; intros ps added HR; cbn [map handle_bases flat_map].
    - cbn. rewrite app_nil_r. reflexivity.
    - destruct (HR a (or_introl eq_refl)) as [Ha Ha0].
      assert (Hl := box_length _ _ Ha).
      rewrite (proj2 (Nat.eqb_neq (S k) 1)) by lia. replace (S k - 1) with k by lia.
      rewrite build_forward by auto. rewrite Ha0.
      rewrite (proj2 (Nat.eqb_neq 0 (nth k b 0))) by lia. cbn [obind from_option fst snd].
      set (a' := update a k 1).
      assert (Ha' : nth k a' 0 = 1) by (unfold a'; apply nth_update_same; fold dn in Hl; lia).
      rewrite walk_process; [|auto|apply box_update; auto|rewrite Ha'; assert (X := length_values k); lia].
      rewrite Ha'.
      assert (Ec : ch b k a = a' :: map (update a' k) (seq 2 (nth k b 0 - 1))).
      { unfold ch. destruct (nth k b 0) as [|n]; [lia|]. cbn [seq map Nat.sub]. rewrite Nat.sub_0_r. f_equal.
        apply map_ext. intros i. unfold a'. rewrite update_update. reflexivity. }
      rewrite <- Ec, process_app.
      destruct (process t (S k) up (ch b k a) ps) as [ps1| |]; cbn [obind fst snd]; auto.
      rewrite IH by (intros c Hc; apply HR; right; auto).
      destruct (process _ _ _ (flat_map _ R) ps1); cbn [obind]; auto.
      rewrite Ec. cbn [map app]. rewrite map_app, <- !app_assoc. reflexivity.
  Qed.

  Lemma first_base_process t up ps : 0 < dn ->
    hbases t 1 up [cfgof up (repeat 0 dn)] ps [] =
    do ps' <- process t 1 up (stage b 1) ps;
    Ok (ps', map (cfgof up) (flat_map (ch b 0) (stage b 0))).
  Proof.
    intros Hd. cbn [handle_bases]. cbn [Nat.eqb obind fst snd].
    assert (Hz : box b (repeat 0 dn)) by (apply (stage_spec b 0); [lia|cbn; auto]).
    rewrite (walk_process t 0 up Hd); auto; [|assert (X := length_values 0); lia].
    rewrite nth_repeat_0, Nat.sub_0_r. cbn [stage flat_map]. rewrite app_nil_r.
    cbn [app]. unfold ch. fold dn.
    destruct (process _ _ _ _ ps); reflexivity.
  Qed.

    Lemma base_config_eq up : build_base_config d bounds vs up = cfgof up (repeat 0 dn).
    Proof.
      unfold build_base_config, cfgof, mkv, emb. rewrite d_dn, Nat2Z.id.
      destruct up; cbn [emb].
      - f_equal. clear - val_0. induction dn as [|n IH]; cbn; auto. rewrite val_0, <- IH. reflexivity.
      - unfold dn. rewrite vsub_zero. rewrite bounds_val. reflexivity.
    Qed.

  (** An invariant carried through the visit of one layer. *)
  Section Layer.
    Variable t : Z.
    Variable up : bool.
    Variable Inv : gpaths -> list (list nat) -> Prop.
    Hypothesis inv_mono : forall ps S S', incl S' S -> Inv ps S -> Inv ps S'.
    Hypothesis inv_step : forall k S a ps, 1 <= k <= dn -> box b a ->
      (forall l, k <= l -> nth l a 0 = 0) ->
      (forall l, 0 < nth l a 0 -> In (dec a l) S) ->
      Inv ps S -> exists ps', hconfig t k up (cfgof up a) ps = Ok ps' /\ Inv ps' (a :: S).

    Lemma process_inv k : 1 <= k <= dn -> forall M S ps,
      (forall a, In a M -> box b a /\ forall l, k <= l -> nth l a 0 = 0) ->
      ordS S M -> Inv ps S ->
      exists ps', process t k up M ps = Ok ps' /\ Inv ps' (M ++ S).
    Proof.
      intros Hk. induction M as [|a M IH]; intros S ps HM Ho HI; cbn [process].
      - exists ps. auto.
      - cbn [ordS] in Ho. destruct Ho as [Ho1 Ho2].
        destruct (HM a (or_introl eq_refl)) as [Ha Hz].
        destruct (inv_step k S a ps Hk Ha Hz Ho1 HI) as (ps1 & -> & HI1). cbn [obind].
        destruct (IH (a :: S) ps1) as (ps2 & -> & HI2); auto.
        { intros c Hc. apply HM. right; auto. }
        exists ps2. split; auto. eapply inv_mono; [|exact HI2].
        intros x. cbn. rewrite !in_app_iff. cbn. tauto.
    Qed.

    Hypothesis b_pos : forall k, 1 <= k -> k < dn -> 1 <= nth k b 0.

    Notation hdims := (handle_dims hit d switching_cost alpha inverted vs sched).

    Lemma dims_inv n : forall k ps, 1 <= k -> k + n = dn -> Inv ps (stage b k) ->
      exists ps', hdims n t (S k) up (map (cfgof up) (stage b k)) ps = Ok ps' /\ Inv ps' (stage b dn).
    Proof.
      induction n as [|n IH]; intros k ps Hk Hn HI; cbn [handle_dims].
      - exists ps. split; auto. replace dn with k by lia. exact HI.
      - rewrite bases_process; [|auto|lia|apply b_pos; lia|].
        2:{ intros a Ha. apply stage_spec in Ha; [|fold dn; lia]. destruct Ha as [H1 H2]. split; auto. }
        destruct (process_inv (S k) ltac:(lia) (flat_map (ch b k) (stage b k)) (stage b k) ps)
          as (ps1 & -> & HI1); auto.
        { intros a Ha. assert (In a (stage b (S k))) by (cbn [stage]; apply in_or_app; auto).
          apply stage_spec in H; [|fold dn; lia]. exact H. }
        { apply ordS_stage_next. fold dn. lia. }
        cbn [obind fst snd app]. rewrite <- map_app.
        change (stage b k ++ flat_map (ch b k) (stage b k)) with (stage b (S k)).
        apply IH; [lia|lia|]. eapply inv_mono; [|exact HI1]. cbn [stage].
        intros x. rewrite !in_app_iff. tauto.
    Qed.

    Lemma layer_inv ps : 0 < dn -> Inv ps [] ->
      exists ps', handle_layer hit d bounds switching_cost alpha inverted vs sched t up ps = Ok ps'
                  /\ Inv ps' (stage b dn).
    Proof.
      intros Hd HI. unfold handle_layer. rewrite base_config_eq.
      assert (E : Z.to_nat d = S (pred dn)) by lia. rewrite E.
      cbn [handle_dims]. rewrite first_base_process by lia.
      destruct (process_inv 1 ltac:(lia) (stage b 1) [] ps) as (ps1 & -> & HI1); auto.
      { intros a Ha. apply stage_spec in Ha; [|fold dn; lia]. exact Ha. }
      { apply ordS_stage. fold dn. lia. }
      cbn [obind fst snd].
      replace ([cfgof up (repeat 0 dn)] ++ map (cfgof up) (flat_map (ch b 0) (stage b 0)))
        with (map (cfgof up) (stage b 1)) by reflexivity.
      apply dims_inv; [lia|lia|]. rewrite app_nil_r in HI1. exact HI1.
    Qed.
  End Layer.
End Walk.
