(** The layers of the graph search in floating-point arithmetic (as in GraphSearchWalk.v). *)
From Verif Require Import NumLemmas GraphSearchModel GraphSearchOrder GraphSearchWalk FloatModel.
From Coq Require Import Arith.
Local Open Scope nat_scope.

Section FloatWalk.
  Variable rnd : Q -> Q.
  Variable hit : Z -> list Z -> ext.
  Variable d : Z.
  Variable bounds : list Z.
  Variable switching_cost : list Q.
  Variable alpha : Q.
  Variable inverted : bool.
  Variable vs : gvalues.
  Variable sched : Z -> vertice -> split.
  Let b := v_bound vs.
  Let dn := length b.
  Hypothesis d_dn : d = Z.of_nat dn.
  Hypothesis b_in : forall k, nth k b 0 < length (v_values vs).
  Hypothesis bounds_val : bounds = map (val vs) b.
  Hypothesis val_0 : val vs 0 = 0%Z.

  Lemma f_build_forward up a k : box b a -> k < dn ->
    build_config (dir_of up) vs (cfgof vs up a) k =
    Ok (if Nat.eqb (nth k a 0) (nth k b 0) then None
        else Some (cfgof vs up (update a k (S (nth k a 0))))).
  Proof. exact (build_forward vs b_in up a k). Qed.

  Notation hconfig := (f_handle_config rnd hit d switching_cost alpha inverted vs sched).

  Fixpoint f_process (t : Z) (k : nat) (up : bool) (M : list (list nat)) (ps : gpaths) : outcome gpaths :=
    match M with
    | [] => Ok ps
    | a :: r => do ps' <- hconfig t k up (cfgof vs up a) ps; f_process t k up r ps'
    end.

  Lemma f_process_app t k up M : forall N ps,
    f_process t k up (M ++ N) ps = do ps' <- f_process t k up M ps; f_process t k up N ps'.
  Proof.
    induction M as [|a M IH]; intros N ps; cbn [app f_process obind]; auto.
    destruct (hconfig t k up (cfgof vs up a) ps); cbn [obind]; auto.
  Qed.

  Notation wlk := (f_walk rnd hit d switching_cost alpha inverted vs sched).

  Lemma f_walk_process t k up : k < dn -> forall fuel a ps added,
    box b a -> nth k b 0 - nth k a 0 < fuel ->
    let chain := map (update a k) (seq (S (nth k a 0)) (nth k b 0 - nth k a 0)) in
    wlk fuel t (S k) up (cfgof vs up a) ps added =
    do ps' <- f_process t (S k) up (a :: chain) ps; Ok (ps', added ++ map (cfgof vs up) chain).
  Proof.
    intros Hk. induction fuel as [|fuel IH]; intros a ps added Hb Hf chain; [lia|].
    cbn [f_walk f_process]. replace (S k - 1) with k by lia.
    destruct (hconfig t (S k) up (cfgof vs up a) ps) as [ps1| |]; cbn [obind]; auto.
    rewrite f_build_forward by auto. cbn [obind].
    assert (Hn := box_nth _ _ k Hb). assert (Hl := box_length _ _ Hb).
    destruct (Nat.eqb_spec (nth k a 0) (nth k b 0)) as [E|E].
    - subst chain. rewrite E, Nat.sub_diag. cbn. rewrite app_nil_r. reflexivity.
    - set (a' := update a k (S (nth k a 0))).
      assert (Ha' : nth k a' 0 = S (nth k a 0)) by (unfold a'; apply nth_update_same; fold dn in Hl; lia).
      rewrite IH; [|apply box_update; auto; lia|rewrite Ha'; lia]. rewrite Ha'.
      assert (Ec : chain = a' :: map (update a' k) (seq (S (S (nth k a 0))) (nth k b 0 - S (nth k a 0)))).
      { unfold chain. replace (nth k b 0 - nth k a 0) with (S (nth k b 0 - S (nth k a 0))) by lia.
        cbn [seq map]. f_equal. apply map_ext. intros i. unfold a'. rewrite update_update. reflexivity. }
      rewrite Ec. cbn [f_process].
      destruct (hconfig t (S k) up (cfgof vs up a') ps1) as [ps2| |]; cbn [obind]; auto.
      destruct (f_process _ _ _ _ ps2); cbn [obind]; auto.
      rewrite <- app_assoc. reflexivity.
  Qed.

  Notation hbases := (f_handle_bases rnd hit d switching_cost alpha inverted vs sched).


  Lemma f_bases_process t k up : 1 <= k -> k < dn -> 1 <= nth k b 0 -> forall R ps added,
    (forall a, In a R -> box b a /\ nth k a 0 = 0) ->
    hbases t (S k) up (map (cfgof vs up) R) ps added =
    do ps' <- f_process t (S k) up (flat_map (ch b k) R) ps;
    Ok (ps', added ++ map (cfgof vs up) (flat_map (ch b k) R)).
  Proof.
    intros Hk1 Hk Hbk. induction R as [|a R IH]; intros ps added HR; cbn [map f_handle_bases flat_map].
    - cbn. rewrite app_nil_r. reflexivity.
    - destruct (HR a (or_introl eq_refl)) as [Ha Ha0].
      assert (Hl := box_length _ _ Ha).
      rewrite (proj2 (Nat.eqb_neq (S k) 1)) by lia. replace (S k - 1) with k by lia.
      rewrite f_build_forward by auto. rewrite Ha0.
      rewrite (proj2 (Nat.eqb_neq 0 (nth k b 0))) by lia. cbn [obind from_option fst snd].
      set (a' := update a k 1).
      assert (Ha' : nth k a' 0 = 1) by (unfold a'; apply nth_update_same; fold dn in Hl; lia).
      rewrite f_walk_process; [|auto|apply box_update; auto|rewrite Ha'; assert (X := length_values vs b_in k : nth k b 0 < S (length (v_values vs))); lia].
      rewrite Ha'.
      assert (Ec : ch b k a = a' :: map (update a' k) (seq 2 (nth k b 0 - 1))).
      { unfold ch. destruct (nth k b 0) as [|n]; [lia|]. cbn [seq map Nat.sub]. rewrite Nat.sub_0_r. f_equal.
        apply map_ext. intros i. unfold a'. rewrite update_update. reflexivity. }
      rewrite <- Ec, f_process_app.
      destruct (f_process t (S k) up (ch b k a) ps) as [ps1| |]; cbn [obind fst snd]; auto.
      rewrite IH by (intros c Hc; apply HR; right; auto).
      destruct (f_process _ _ _ (flat_map _ R) ps1); cbn [obind]; auto.
      rewrite Ec. cbn [map app]. rewrite map_app, <- !app_assoc. reflexivity.
  Qed.

  Lemma f_first_base_process t up ps : 0 < dn ->
    hbases t 1 up [cfgof vs up (repeat 0 dn)] ps [] =
    do ps' <- f_process t 1 up (stage b 1) ps;
    Ok (ps', map (cfgof vs up) (flat_map (ch b 0) (stage b 0))).
  Proof.
    intros Hd. cbn [f_handle_bases]. cbn [Nat.eqb obind fst snd].
    assert (Hz : box b (repeat 0 dn)) by (apply (stage_spec b 0); [lia|cbn; auto]).
    rewrite (f_walk_process t 0 up Hd); auto; [|assert (X := length_values vs b_in 0 : nth 0 b 0 < S (length (v_values vs))); lia].
    rewrite nth_repeat_0, Nat.sub_0_r. cbn [stage flat_map]. rewrite app_nil_r.
    cbn [app]. unfold ch. fold dn.
    destruct (f_process _ _ _ _ ps); reflexivity.
  Qed.


  (** An invariant carried through the visit of one layer. *)
  Section Layer.
    Variable t : Z.
    Variable up : bool.
    Variable Inv : gpaths -> list (list nat) -> Prop.
    Hypothesis inv_mono : forall ps S S', incl S' S -> Inv ps S -> Inv ps S'.
    Hypothesis inv_step : forall k S a ps, 1 <= k <= dn -> box b a ->
      (forall l, k <= l -> nth l a 0 = 0) ->
      (forall l, 0 < nth l a 0 -> In (dec a l) S) ->
      Inv ps S -> exists ps', hconfig t k up (cfgof vs up a) ps = Ok ps' /\ Inv ps' (a :: S).

    Lemma f_process_inv k : 1 <= k <= dn -> forall M S ps,
      (forall a, In a M -> box b a /\ forall l, k <= l -> nth l a 0 = 0) ->
      ordS S M -> Inv ps S ->
      exists ps', f_process t k up M ps = Ok ps' /\ Inv ps' (M ++ S).
    Proof.
      intros Hk. induction M as [|a M IH]; intros S ps HM Ho HI; cbn [f_process].
      - exists ps. auto.
      - cbn [ordS] in Ho. destruct Ho as [Ho1 Ho2].
        destruct (HM a (or_introl eq_refl)) as [Ha Hz].
        destruct (inv_step k S a ps Hk Ha Hz Ho1 HI) as (ps1 & -> & HI1). cbn [obind].
        destruct (IH (a :: S) ps1) as (ps2 & -> & HI2); auto.
        { intros c Hc. apply HM. right; auto. }
        exists ps2. split; auto. eapply inv_mono; [|exact HI2].
        intros x. cbn. rewrite !in_app_iff. cbn. tauto.
    Qed.

    Hypothesis b_pos : forall k, 1 <= k -> k < dn -> 1 <= nth k b 0.

    Notation hdims := (f_handle_dims rnd hit d switching_cost alpha inverted vs sched).

    Lemma f_dims_inv n : forall k ps, 1 <= k -> k + n = dn -> Inv ps (stage b k) ->
      exists ps', hdims n t (S k) up (map (cfgof vs up) (stage b k)) ps = Ok ps' /\ Inv ps' (stage b dn).
    Proof.
      induction n as [|n IH]; intros k ps Hk Hn HI; cbn [f_handle_dims].
      - exists ps. split; auto. replace dn with k by lia. exact HI.
      - rewrite f_bases_process; [|auto|lia|apply b_pos; lia|].
        2:{ intros a Ha. apply stage_spec in Ha; [|fold dn; lia]. destruct Ha as [H1 H2]. split; auto. }
        destruct (f_process_inv (S k) ltac:(lia) (flat_map (ch b k) (stage b k)) (stage b k) ps)
          as (ps1 & -> & HI1); auto.
        { intros a Ha. assert (In a (stage b (S k))) by (cbn [stage]; apply in_or_app; auto).
          apply stage_spec in H; [|fold dn; lia]. exact H. }
        { apply ordS_stage_next. fold dn. lia. }
        cbn [obind fst snd app]. rewrite <- map_app.
        change (stage b k ++ flat_map (ch b k) (stage b k)) with (stage b (S k)).
        apply IH; [lia|lia|]. eapply inv_mono; [|exact HI1]. cbn [stage].
        intros x. rewrite !in_app_iff. tauto.
    Qed.

    Lemma f_layer_inv ps : 0 < dn -> Inv ps [] ->
      exists ps', f_handle_layer rnd hit d bounds switching_cost alpha inverted vs sched t up ps = Ok ps'
                  /\ Inv ps' (stage b dn).
    Proof.
      intros Hd HI. unfold f_handle_layer. rewrite (base_config_eq d bounds vs d_dn bounds_val val_0).
      assert (E : Z.to_nat d = S (pred dn)) by lia. rewrite E.
      cbn [f_handle_dims]. rewrite f_first_base_process by lia.
      destruct (f_process_inv 1 ltac:(lia) (stage b 1) [] ps) as (ps1 & -> & HI1); auto.
      { intros a Ha. apply stage_spec in Ha; [|fold dn; lia]. exact Ha. }
      { apply ordS_stage. fold dn. lia. }
      cbn [obind fst snd].
      replace ([cfgof vs up (repeat 0 dn)] ++ map (cfgof vs up) (flat_map (ch b 0) (stage b 0)))
        with (map (cfgof vs up) (stage b 1)) by reflexivity.
      apply f_dims_inv; [lia|lia|]. rewrite app_nil_r in HI1. exact HI1.
    Qed.
  End Layer.
End FloatWalk.
