(** The paths stored by the multi-dimensional graph search are optimal. *)
From Verif Require Import NumLemmas GraphSearchModel GraphSearchSpec GraphSearchOrder GraphSearchPick
  GraphSearchWalk GraphSearchCosts ObjectiveProofs.
From Coq Require Import Arith.
Local Open Scope nat_scope.

Definition look (ps : gpaths) (e : edge) : gpath :=
  match glookup ps (e_from e) with Some p => p | None => mkGP [] Inf end.

Lemma omap_look ps preds :
  (forall e, In e preds -> exists p, glookup ps (e_from e) = Some p) ->
  omap (fun e => do p <- from_option (glookup ps (e_from e)); Ok (e, p)) preds
  = Ok (map (fun e => (e, look ps e)) preds).
Proof.
  induction preds as [|e preds IH]; intros H; cbn [omap map]; auto.
  destruct (H e (or_introl eq_refl)) as [p Hp]. unfold look at 1. rewrite Hp.
  cbn [from_option obind]. rewrite IH by (intros; apply H; right; auto). reflexivity.
Qed.

Lemma find_optimal_spec s preds ps :
  (forall e, In e preds -> exists p, glookup ps (e_from e) = Some p) ->
  (exists e, In e preds /\ is_fin (cand_cost (e, look ps e))) ->
  exists e, In e preds /\ find_optimal_predecessor s preds ps = Ok (Some (e, look ps e)) /\
    is_fin (cand_cost (e, look ps e)) /\
    forall e', In e' preds -> ele (cand_cost (e, look ps e)) (cand_cost (e', look ps e')).
Proof.
  intros Hl (e0 & Hin & Hf). unfold find_optimal_predecessor.
  assert (E : existsb (fun e => is_finb (e_cost e)) preds = true).
  { apply existsb_exists. exists e0. split; auto. unfold cand_cost in Hf. cbn [fst snd] in Hf.
    apply is_fin_eadd in Hf. destruct Hf as [_ Hf]. destruct (e_cost e0); [reflexivity|contradiction]. }
  rewrite E. replace (match preds with [] => true | _ => true end) with true by (destruct preds; auto).
  rewrite omap_look by auto. cbn [obind].
  assert (H := par_pick_spec s (map (fun e => (e, look ps e)) preds)).
  destruct (par_pick s _) as [c|].
  - apply first_least_spec in H. destruct H as (H1 & H2 & H3).
    apply in_map_iff in H1. destruct H1 as (e & <- & He). exists e. repeat split; auto.
    intros e' He'. rewrite Forall_forall in H3. apply H3. apply in_map_iff. eauto.
  - exfalso. rewrite Forall_forall in H. specialize (H (e0, look ps e0)).
    rewrite H in Hf; [contradiction|]. apply in_map_iff. eauto.
Qed.

Section DP.
  Variable hit : Z -> list Z -> ext.
  Variable d : Z.
  Variable bounds : list Z.
  Variable beta : list Q.
  Variable alpha : Q.
  Variable inverted : bool.
  Variable vs : gvalues.
  Variable sched : Z -> vertice -> ProblemModel.split.
  Let b := v_bound vs.
  Let dn := length b.
  Notation val := (val vs).
  Notation cfgof := (cfgof vs).
  Notation emb := (emb vs).
  Notation mkv := (mkv vs).
  Hypothesis d_dn : d = Z.of_nat dn.
  Hypothesis dn_pos : 0 < dn.
  Hypothesis b_in : forall k, nth k b 0 < length (v_values vs).
  Hypothesis b_pos : forall k, 1 <= k -> k < dn -> 1 <= nth k b 0.
  Hypothesis bounds_val : bounds = map val b.
  Hypothesis val_0 : val 0 = 0%Z.
  Hypothesis val_mono : forall i j, i <= j -> (val i <= val j)%Z.
  Hypothesis val_strict : forall i j, i < j -> j < length (v_values vs) -> (val i < val j)%Z.
  Hypothesis beta_len : length beta = dn.
  Hypothesis beta_nonneg : Forall (fun q => 0 <= q)%Q beta.
  Hypothesis alpha_nonneg : (0 <= alpha)%Q.

  Notation hconfig := (handle_config hit d beta alpha inverted vs sched).
  Notation gbox := (box b).

  Definition ncost (up : bool) (a : list nat) (l : nat) : Q :=
    if (up && negb inverted) || (negb up && inverted) then
      (alpha * nth l beta 0%Q * scalar_movement inject_Z
         (val (nth l (emb up a) 0%nat)) (val (nth l (emb up (dec a l)) 0%nat)) inverted)%Q
    else 0%Q.

  Definition nedge (up : bool) (a : list nat) (l : nat) : list edge :=
    if Nat.eqb (nth l a 0) 0 then []
    else [mkEdge (cfgof up (dec a l), up) (Fin (ncost up a l))].

  Lemma nth_error_map_val v l : l < length v -> nth_error (map val v) l = Some (val (nth l v 0)).
  Proof.
    revert l. induction v as [|x v IH]; intros [|l] H; cbn in *; try lia; auto. apply IH. lia.
  Qed.

  Lemma neighbour_edges_eq up a : gbox a -> forall ls, (forall l, In l ls -> l < dn) ->
    neighbour_edges beta alpha inverted vs up (cfgof up a) ls = Ok (flat_map (nedge up a) ls).
  Proof.
    intros Ha. induction ls as [|l ls IH]; intros Hls; cbn [neighbour_edges flat_map]; auto.
    rewrite build_backward by (auto; apply Hls; left; auto). cbn [obind].
    rewrite IH by (intros; apply Hls; right; auto). cbn [obind].
    assert (Hl : l < dn) by (apply Hls; left; auto).
    unfold nedge. destruct (Nat.eqb_spec (nth l a 0) 0) as [E|E]; [reflexivity|].
    unfold ncost. destruct ((up && negb inverted) || (negb up && inverted)); [|reflexivity].
    assert (H1 := box_length _ _ (emb_box vs up a Ha)).
    assert (H2 := box_length _ _ (emb_box vs up (dec a l) (box_dec _ _ l Ha))).
    fold b in H1, H2. fold dn in H1, H2.
    rewrite (nth_error_nth_lt beta l 0%Q) by lia. cbn [from_option obind].
    cbn [cfgof mkv ic_cfg]. unfold GraphSearchWalk.cfgof, GraphSearchWalk.mkv. cbn [ic_cfg].
    rewrite !nth_error_map_val by lia. cbn [from_option obind app]. reflexivity.
  Qed.

  Definition pot (v : list nat) : Q :=
    if inverted then (alpha * weighted beta (map val v))%Q else 0%Q.

  Lemma mul_diff x y : (y <= x)%Z -> (qpos (inject_Z x - inject_Z y) == inject_Z (x - y))%Q.
  Proof.
    intros H. unfold Z.sub. rewrite inject_Z_plus, inject_Z_opp.
    assert (inject_Z y <= inject_Z x)%Q by (rewrite <- Zle_Qle; auto).
    destruct (qpos_cases (inject_Z x - inject_Z y)) as [[? ->]|[? ->]]; lra.
  Qed.

  Lemma emb_dec_down a l : gbox a -> l < dn -> 0 < nth l a 0 ->
    emb false a = dec (emb false (dec a l)) l /\
    nth l (emb false (dec a l)) 0 = S (nth l (emb false a) 0).
  Proof.
    intros Ha Hl Hp. assert (H1 := box_length _ _ Ha). assert (H2 := box_nth _ _ l Ha).
    assert (E : nth l (emb false (dec a l)) 0 = S (nth l (emb false a) 0)).
    { unfold GraphSearchWalk.emb. fold b. rewrite !vsub_nth; auto.
      2:{ unfold dec. rewrite update_length. auto. }
      unfold dec. rewrite nth_update_same by (fold dn in H1; lia). lia. }
    split; auto. unfold dec at 1. rewrite E. cbn [pred].
    unfold GraphSearchWalk.emb, dec. fold b. rewrite vsub_update by auto.
    rewrite update_update. rewrite vsub_nth by auto.
    rewrite <- (vsub_nth b a l) by auto. symmetry. apply update_self.
  Qed.

  Lemma ncost_adjusted up a l : gbox a -> l < dn -> 0 < nth l a 0 ->
    (ncost up a l + pot (emb up a)
     == pot (emb up (dec a l)) + if up then alpha * step val beta a l else 0)%Q.
  Proof.
    intros Ha Hl Hp. assert (H1 := box_length _ _ Ha). fold dn in H1.
    unfold ncost, pot. destruct up.
    - cbn [andb negb orb]. unfold GraphSearchWalk.emb.
      assert (W := weighted_dec val beta a l ltac:(lia) ltac:(lia)).
      destruct inverted; cbn [andb negb orb].
      + rewrite W. ring.
      + unfold scalar_movement. unfold step.
        unfold dec. rewrite nth_update_same by lia.
        rewrite mul_diff by (apply val_mono; lia). ring.
    - cbn [andb negb orb].
      destruct (emb_dec_down a l Ha Hl Hp) as [E1 E2].
      assert (H2 := box_length _ _ (emb_box vs false (dec a l) (box_dec _ _ l Ha))).
      fold b in H2. fold dn in H2.
      assert (W := weighted_dec val beta (emb false (dec a l)) l ltac:(lia) ltac:(lia)).
      rewrite <- E1 in W.
      destruct inverted; [|ring].
      rewrite W. unfold scalar_movement, step. rewrite E2. cbn [pred].
      rewrite mul_diff by (apply val_mono; lia). ring.
  Qed.

  (** ** Invariants *)
  Let zero := repeat 0%Z dn.
  Definition gridc (x : list Z) : Prop := exists w, gbox w /\ x = map val w.
  Notation grid := (Forall gridc).
  Notation K := (total_cost hit (power_up beta) alpha 1 (repeat 0%Z (length (v_bound vs)))).
  Notation pu := (power_up beta).
  Notation lastz := (fun xs => last xs (repeat 0%Z (length (v_bound vs)))).

  Lemma map_val_zero n : map val (repeat 0 n) = repeat 0%Z n.
  Proof. induction n as [|n IH]; cbn; auto. rewrite val_0, IH. reflexivity. Qed.

  Lemma box_zero : gbox (repeat 0 dn).
  Proof. apply (stage_spec b 0); [lia|cbn; auto]. Qed.

  Lemma grid_last xs : grid xs -> gridc (lastz xs).
  Proof.
    intros H. induction H as [|x xs Hx H IH].
    - exists (repeat 0 dn). split; [apply box_zero|]. cbn [last]. symmetry. apply map_val_zero.
    - destruct xs as [|y xs]; [exact Hx|]. cbn [last] in *. exact IH.
  Qed.

  Definition GoodUp (t : Z) (v : list nat) (p : gpath) : Prop :=
    exists q, gp_cost p = Fin q /\ Z.of_nat (length (gp_xs p)) = (t - 1)%Z /\ grid (gp_xs p) /\
      ele (eadd (K (gp_xs p)) (Fin (alpha * pu (lastz (gp_xs p)) (map val v)))) (Fin (q + pot v)) /\
      forall ys, grid ys -> Z.of_nat (length ys) = (t - 1)%Z ->
        ele (Fin (q + pot v)) (eadd (K ys) (Fin (alpha * pu (lastz ys) (map val v)))).

  Definition above (v : list nat) (xs : list (list Z)) : Prop :=
    exists w, gbox w /\ lastz xs = map val w /\ Forall2 le v w.

  Definition GoodDn (t : Z) (v : list nat) (p : gpath) : Prop :=
    exists q, gp_cost p = Fin q /\ Z.of_nat (length (gp_xs p)) = t /\ grid (gp_xs p) /\
      above v (gp_xs p) /\
      ele (K (gp_xs p)) (Fin (q + pot v)) /\
      forall ys, grid ys -> Z.of_nat (length ys) = t -> above v ys ->
        ele (Fin (q + pot v)) (K ys).

  Definition stored (ps : gpaths) (v : vertice) (G : gpath -> Prop) : Prop :=
    exists p, glookup ps v = Some p /\ G p.

  Definition InvUp (t : Z) (ps : gpaths) (S : list (list nat)) : Prop :=
    ((1 < t)%Z -> forall v, gbox v -> stored ps (mkv v, false) (GoodDn (t - 1) v)) /\
    forall a, In a S -> stored ps (cfgof true a, true) (GoodUp t (emb true a)).

  Definition InvDn (t : Z) (ps : gpaths) (S : list (list nat)) : Prop :=
    (forall v, gbox v -> stored ps (mkv v, true) (GoodUp t v)) /\
    forall a, In a S -> stored ps (cfgof false a, false) (GoodDn t (emb false a)).

  Lemma stored_insert_same ps v p (G : gpath -> Prop) : G p -> stored (ginsert ps v p) v G.
  Proof. intros H. exists p. split; auto. apply glookup_same. Qed.

  Lemma stored_insert_other ps v w p G : v <> w -> stored ps w G -> stored (ginsert ps v p) w G.
  Proof. intros Hne (q & H1 & H2). exists q. split; auto. rewrite glookup_other; auto. Qed.

  Lemma cfgof_inj up a c : cfgof up a = cfgof up c -> emb up a = emb up c.
  Proof. unfold GraphSearchWalk.cfgof, GraphSearchWalk.mkv. intros H. inversion H. auto. Qed.

  Lemma In_nedges e up a k : In e (flat_map (nedge up a) (seq 0 k)) <->
    exists l, l < k /\ 0 < nth l a 0 /\ e = mkEdge (cfgof up (dec a l), up) (Fin (ncost up a l)).
  Proof.
    rewrite in_flat_map. split.
    - intros (l & Hl & He). apply in_seq in Hl. unfold nedge in He.
      destruct (Nat.eqb_spec (nth l a 0) 0) as [E|E]; [contradiction|].
      destruct He as [<-|[]]. exists l. repeat split; try lia.
    - intros (l & Hl & Hp & ->). exists l. split; [apply in_seq; lia|]. unfold nedge.
      rewrite (proj2 (Nat.eqb_neq _ _)) by lia. left. reflexivity.
  Qed.

  Lemma zero_of_all a : gbox a -> (forall l, nth l a 0 = 0) -> a = repeat 0 dn.
  Proof.
    intros Ha H. apply box_length in Ha. apply nth_ext with (d := 0) (d' := 0).
    - rewrite repeat_length. exact Ha.
    - intros n _. rewrite H, nth_repeat_0. reflexivity.
  Qed.

  Lemma nonzero_dec (a : list nat) : (forall l, nth l a 0 = 0) \/ exists l, 0 < nth l a 0.
  Proof.
    induction a as [|x a IH].
    - left. intros [|l]; reflexivity.
    - destruct x as [|x]; [|right; exists 0; cbn; lia].
      destruct IH as [H|[l H]]; [left; intros [|l]; cbn; auto|right; exists (S l); auto].
  Qed.

  Lemma nth_pos_lt a l : gbox a -> 0 < nth l a 0 -> l < dn.
  Proof.
    intros Ha H. apply box_length in Ha. fold dn in Ha.
    destruct (lt_dec l dn); auto. rewrite nth_overflow in H by lia. lia.
  Qed.

  (** Generic part of handling one vertex that has predecessors. *)
  Lemma handle_config_spec t k up a ps (S : list (list nat)) (G : list nat -> gpath -> Prop) :
    1 <= k <= dn -> gbox a -> (forall l, k <= l -> nth l a 0 = 0) ->
    (forall l, 0 < nth l a 0 -> In (dec a l) S) ->
    (forall c, In c S -> stored ps (cfgof up c, up) (G (emb up c))) ->
    (forall v p, G v p -> is_fin (gp_cost p)) ->
    let inaction := mkEdge (cfgof up a, negb up) (if up then Fin 0 else hit t (map val (emb up a))) in
    let preds := flat_map (nedge up a) (seq 0 k)
                 ++ (if (1 <? t)%Z || negb up then [inaction] else []) in
    ((1 <? t)%Z || negb up = true -> exists p, glookup ps (cfgof up a, negb up) = Some p) ->
    (exists e, In e preds /\ is_fin (cand_cost (e, look ps e))) ->
    exists e, In e preds /\
      hconfig t k up (cfgof up a) ps = Ok (gupdate_paths ps (Some (e, look ps e)) (cfgof up a, up)) /\
      is_fin (cand_cost (e, look ps e)) /\
      forall e', In e' preds -> ele (cand_cost (e, look ps e)) (cand_cost (e', look ps e')).
  Proof.
    intros Hk Ha Hz HS Hst HG inaction preds Hin Hfin.
    destruct (find_optimal_spec (sched t (cfgof up a, up)) preds ps) as (e & He1 & He2 & He3 & He4).
    - intros e He. apply in_app_or in He. destruct He as [He|He].
      + apply In_nedges in He. destruct He as (l & Hl & Hp & ->). cbn [e_from].
        destruct (Hst (dec a l) (HS l Hp)) as (p & Hp' & _). eauto.
      + destruct ((1 <? t)%Z || negb up) eqn:E; [|contradiction].
        destruct He as [<-|[]]. cbn [e_from inaction]. apply Hin. auto.
    - exact Hfin.
    - exists e. split; auto. split; auto.
      unfold handle_config, find_immediate_predecessors.
      rewrite neighbour_edges_eq; auto.
      2:{ intros l Hl. apply in_seq in Hl. lia. }
      cbn [obind].
      assert (Ep : (if (1 <? t)%Z || negb up
                    then flat_map (nedge up a) (seq 0 k) ++
                         [mkEdge (cfgof up a, negb up) (if up then Fin 0 else hit t (ic_cfg (cfgof up a)))]
                    else flat_map (nedge up a) (seq 0 k)) = preds).
      { unfold preds, inaction. destruct ((1 <? t)%Z || negb up); [reflexivity|]. rewrite app_nil_r. reflexivity. }
      rewrite Ep.
      assert (Em : preds <> []) by (intros E; rewrite E in He1; contradiction).
      destruct ((t =? 1)%Z && up && _); [|destruct preds; [contradiction|]]; cbn [obind]; rewrite He2; reflexivity.
  Qed.

  Lemma box_bound w l : gbox w -> nth l w 0 < length (v_values vs).
  Proof. intros H. apply (box_nth _ _ l) in H. assert (X := b_in l). lia. Qed.

  Lemma look_stored ps v c p : glookup ps v = Some p -> look ps (mkEdge v c) = p.
  Proof. unfold look. cbn [e_from]. intros ->. reflexivity. Qed.

  Lemma pot_zero : (pot (repeat 0%nat dn) == 0)%Q.
  Proof.
    unfold pot. rewrite map_val_zero. destruct inverted; [|reflexivity]. rewrite weighted_zero. ring.
  Qed.

  Lemma alpha_pu_nonneg x y : (0 <= alpha * pu x y)%Q.
  Proof. apply Qmult_le_0_compat; auto. apply P_nonneg; auto. Qed.

  Lemma box_le_zero v : Forall2 le v (repeat 0 dn) -> v = repeat 0 dn.
  Proof.
    intros H. assert (Hl : length v = length (repeat 0 dn)) by (clear - H; induction H; cbn; auto).
    apply nth_ext with (d := 0) (d' := 0); auto. intros k _.
    apply (Forall2_le_nth' _ _ k) in H. rewrite nth_repeat_0 in *. lia.
  Qed.

  Lemma Good_init : GoodUp 1 (repeat 0 dn) (mkGP [] (Fin 0)).
  Proof.
    exists 0%Q. cbn [gp_cost gp_xs length]. split; [reflexivity|]. split; [reflexivity|]. split; [constructor|].
    assert (E : (pu (repeat 0%Z (length (v_bound vs))) (map val (repeat 0%nat dn)) == 0)%Q).
    { rewrite <- map_val_zero. apply P_ge; auto. fold b. fold dn. clear. induction dn; cbn; constructor; auto. }
    assert (Ep := pot_zero).
    split.
    - cbn [total_cost last eadd ele]. rewrite E, Ep. lra.
    - intros ys _ Hy. destruct ys; [|cbn in Hy; lia]. cbn [total_cost last eadd ele]. rewrite E, Ep. lra.
  Qed.

  Lemma InvUp_insert t ps S a p : GoodUp t (emb true a) p -> InvUp t ps S ->
    InvUp t (ginsert ps (cfgof true a, true) p) (a :: S).
  Proof.
    intros HG [H1 H2]. split.
    - intros Ht v Hv. apply stored_insert_other; auto. intros E; inversion E.
    - intros c [<-|Hc]; [apply stored_insert_same; auto|].
      destruct (vertice_eqb (cfgof true a, true) (cfgof true c, true)) eqn:E.
      + apply vertice_eqb_spec in E. rewrite <- E.
        assert (E' : emb true a = emb true c) by (apply cfgof_inj; congruence).
        rewrite <- E'. apply stored_insert_same; auto.
      + apply stored_insert_other; auto. intros E'. apply vertice_eqb_spec in E'. congruence.
  Qed.

  Lemma InvDn_insert t ps S a p : GoodDn t (emb false a) p -> InvDn t ps S ->
    InvDn t (ginsert ps (cfgof false a, false) p) (a :: S).
  Proof.
    intros HG [H1 H2]. split.
    - intros v Hv. apply stored_insert_other; auto. intros E; inversion E.
    - intros c [<-|Hc]; [apply stored_insert_same; auto|].
      destruct (vertice_eqb (cfgof false a, false) (cfgof false c, false)) eqn:E.
      + apply vertice_eqb_spec in E. rewrite <- E.
        assert (E' : emb false a = emb false c) by (apply cfgof_inj; congruence).
        rewrite <- E'. apply stored_insert_same; auto.
      + apply stored_insert_other; auto. intros E'. apply vertice_eqb_spec in E'. congruence.
  Qed.

  Lemma up_step_pred t : (1 <= t)%Z -> forall k S a ps, 1 <= k <= dn -> gbox a ->
    (forall l, k <= l -> nth l a 0 = 0) ->
    (forall l, 0 < nth l a 0 -> In (dec a l) S) ->
    ((1 < t)%Z \/ exists l, 0 < nth l a 0) ->
    InvUp t ps S ->
    exists ps', hconfig t k true (cfgof true a) ps = Ok ps' /\ InvUp t ps' (a :: S).
  Proof.
    intros Ht k S a ps Hk Ha Hz HS Hsrc HI.
    assert (Hlen := box_length _ _ Ha). fold dn in Hlen.
    destruct HI as [HI1 HI2].
    destruct (handle_config_spec t k true a ps S (GoodUp t)) as (e & He1 & He2 & He3 & He4); auto.
    { intros v p (q & -> & _). exact I. }
    { cbn [negb]. rewrite orb_false_r. intros E. destruct (HI1 ltac:(lia) a Ha) as (p & Hp & _).
      exists p. exact Hp. }
    { destruct Hsrc as [Hsrc|(l & Hl)].
      - destruct (HI1 Hsrc a Ha) as (p & Hp & q & Hq & _).
        eexists. split; [apply in_or_app; right|].
        + cbn [negb]. rewrite orb_false_r. rewrite (proj2 (Z.ltb_lt _ _)) by lia. left. reflexivity.
        + cbn [negb]. rewrite (look_stored _ _ _ p Hp). unfold cand_cost. cbn [fst snd e_cost].
          rewrite Hq. exact I.
      - destruct (HI2 _ (HS l Hl)) as (p & Hp & q & Hq & _).
        exists (mkEdge (cfgof true (dec a l), true) (Fin (ncost true a l))). split; [apply in_or_app; left|].
        + apply In_nedges. exists l. repeat split; auto.
          destruct (lt_dec l k); auto. rewrite Hz in Hl by lia. lia.
        + rewrite (look_stored _ _ _ p Hp). unfold cand_cost. cbn [fst snd e_cost]. rewrite Hq. exact I. }
    rewrite He2. eexists. split; [reflexivity|]. unfold gupdate_paths.
    apply InvUp_insert; [|split; auto]. change (emb true a) with a.
    (* adjusted cost of the chosen candidate *)
    assert (Hmin : forall q0, gp_cost (look ps e) = Fin q0 -> forall qe, e_cost e = Fin qe ->
      forall ys, grid ys -> Z.of_nat (length ys) = (t - 1)%Z ->
        ele (Fin (q0 + qe + pot a)) (eadd (K ys) (Fin (alpha * pu (lastz ys) (map val a))))).
    { intros q0 Hq0 qe Hqe ys Hgy Hly.
      destruct (grid_last ys Hgy) as (w & Hw & Ew). cbv beta in Ew.
      assert (Hwl := box_length _ _ Hw). fold dn in Hwl.
      destruct (Forall2_le_dec a w ltac:(lia)) as [Hle|(l & Hl & Hlt)].
      - (* stay *)
        assert (Hnn := alpha_pu_nonneg (lastz ys) (map val a)). cbv beta in Hnn.
        destruct Hsrc as [Hsrc|(l & Hl)].
        + destruct (HI1 Hsrc a Ha) as (p & Hp & q & Hq & _ & _ & _ & _ & Hopt).
          specialize (Hopt ys Hgy Hly ltac:(exists w; auto)).
          assert (Hc : ele (Fin (q0 + qe)) (Fin (q + 0))).
          { specialize (He4 (mkEdge (cfgof true a, negb true) (Fin 0))).
            unfold cand_cost in He4. cbn [fst snd e_cost] in He4.
            rewrite Hq0, Hqe, (look_stored _ _ _ p Hp), Hq in He4. apply He4.
            apply in_or_app; right. cbn [negb]. rewrite orb_false_r.
            rewrite (proj2 (Z.ltb_lt _ _)) by lia. left. reflexivity. }
          destruct (K ys) as [ky|]; cbn [eadd ele] in *; auto. lra.
        + (* t = 1: then w is zero and a is zero *)
          destruct (Z.eq_dec t 1) as [->|Hne].
          * exfalso. destruct ys; [|cbn in Hly; lia]. cbn [last] in Ew.
            apply (Forall2_le_nth' _ _ l) in Hle.
            assert (Hv : val (nth l w 0) = 0%Z).
            { assert (Hlw : l < dn) by (apply (nth_pos_lt a); auto).
              assert (X := nth_error_map_val w l ltac:(lia)). rewrite <- Ew in X.
              assert (Y : nth_error (repeat 0%Z (length (v_bound vs))) l = Some 0%Z).
              { fold b. fold dn. clear - Hlw. revert l Hlw. induction dn as [|n IH]; intros [|l] H; cbn; try lia; auto.
                apply IH. lia. }
              congruence. }
            assert (H0 : (val 0%nat < val (nth l w 0%nat))%Z) by (apply val_strict; [lia|apply (box_bound w); auto]).
            rewrite val_0 in H0. lia.
          * destruct (HI1 ltac:(lia) a Ha) as (p & Hp & q & Hq & _ & _ & _ & _ & Hopt).
            specialize (Hopt ys Hgy Hly ltac:(exists w; auto)).
            assert (Hc : ele (Fin (q0 + qe)) (Fin (q + 0))).
            { specialize (He4 (mkEdge (cfgof true a, negb true) (Fin 0))).
              unfold cand_cost in He4. cbn [fst snd e_cost] in He4.
              rewrite Hq0, Hqe, (look_stored _ _ _ p Hp), Hq in He4. apply He4.
              apply in_or_app; right. cbn [negb]. rewrite orb_false_r.
              rewrite (proj2 (Z.ltb_lt _ _)) by lia. left. reflexivity. }
            destruct (K ys) as [ky|]; cbn [eadd ele] in *; auto. lra.
      - (* through the neighbour in dimension l *)
        assert (Hp0 : 0 < nth l a 0) by lia.
        destruct (HI2 _ (HS l Hp0)) as (p & Hp & q & Hq & _ & _ & _ & Hopt).
        change (emb true (dec a l)) with (dec a l) in *.
        specialize (Hopt ys Hgy Hly).
        assert (Hc : ele (Fin (q0 + qe)) (Fin (q + ncost true a l))).
        { specialize (He4 (mkEdge (cfgof true (dec a l), true) (Fin (ncost true a l)))).
          unfold cand_cost in He4. cbn [fst snd e_cost] in He4.
          rewrite Hq0, Hqe, (look_stored _ _ _ p Hp), Hq in He4. apply He4.
          apply in_or_app; left. apply In_nedges. exists l. repeat split; auto.
          destruct (lt_dec l k); auto. rewrite Hz in Hp0 by lia. lia. }
        assert (Hadj := ncost_adjusted true a l Ha ltac:(lia) Hp0).
        change (emb true a) with a in Hadj. change (emb true (dec a l)) with (dec a l) in Hadj. cbv iota in Hadj.
        assert (Hpe := P_dec_eq val val_mono beta w a l ltac:(lia) ltac:(lia) ltac:(lia) Hlt).
        cbv beta in Hopt |- *. rewrite Ew in Hopt |- *.
        destruct (K ys) as [ky|]; cbn [eadd ele] in *; auto.
        rewrite Hpe, Qmult_plus_distr_r. lra. }
    apply in_app_or in He1. destruct He1 as [He1|He1].
    - apply In_nedges in He1. destruct He1 as (l & Hl & Hp0 & Ee).
      destruct (HI2 _ (HS l Hp0)) as (p & Hp & q & Hq & Hlx & Hgx & Hfe & _).
      change (emb true (dec a l)) with (dec a l) in *.
      assert (El : look ps e = p) by (subst e; apply look_stored; auto).
      rewrite El. subst e. cbn [e_from e_cost fst snd andb negb gp_xs gp_cost].
      exists (q + ncost true a l)%Q. cbn [gp_cost gp_xs]. rewrite Hq. cbn [eadd].
      repeat split; auto.
      + assert (Hadj := ncost_adjusted true a l Ha ltac:(lia) Hp0).
        change (emb true a) with a in Hadj. change (emb true (dec a l)) with (dec a l) in Hadj. cbv iota in Hadj.
        destruct (grid_last _ Hgx) as (w & Hw & Ew). cbv beta in Ew.
        assert (Hwl := box_length _ _ Hw). fold dn in Hwl.
        assert (Hle := P_dec_le val val_mono beta beta_nonneg w a l ltac:(lia) ltac:(lia) ltac:(lia)).
        cbv beta in Hfe |- *. rewrite Ew in Hfe |- *.
        destruct (K (gp_xs p)) as [kx|]; cbn [eadd ele] in *; auto.
        assert (alpha * pu (map val w) (map val a)
                <= alpha * (pu (map val w) (map val (dec a l)) + step val beta a l))%Q.
        { rewrite !(Qmult_comm alpha). apply Qmult_le_compat_r; auto. }
        rewrite Qmult_plus_distr_r in H. lra.
      + apply Hmin; auto. rewrite El. exact Hq.
    - cbn [negb] in He1. rewrite orb_false_r in He1. destruct (1 <? t)%Z eqn:E1; [|contradiction].
      destruct He1 as [<-|[]]. apply Z.ltb_lt in E1.
      destruct (HI1 E1 a Ha) as (p & Hp & q & Hq & Hlx & Hgx & (w & Hw & Ew & Hle) & Hfe & _).
      assert (El := look_stored ps (cfgof true a, false) (Fin 0) p Hp).
      rewrite El in *. cbn [e_from e_cost fst snd andb negb gp_xs gp_cost].
      exists (q + 0)%Q. cbn [gp_cost gp_xs]. rewrite Hq. cbn [eadd].
      repeat split; auto.
      cbv beta in Ew. assert (HP := P_ge val val_mono beta w a Hle).
      rewrite <- Ew in HP. cbv beta.
      destruct (K (gp_xs p)) as [kx|]; cbn [eadd ele] in *; auto.
      rewrite HP. lra.
  Qed.

  Lemma up_step t : (1 <= t)%Z -> forall k S a ps, 1 <= k <= dn -> gbox a ->
    (forall l, k <= l -> nth l a 0 = 0) ->
    (forall l, 0 < nth l a 0 -> In (dec a l) S) ->
    InvUp t ps S ->
    exists ps', hconfig t k true (cfgof true a) ps = Ok ps' /\ InvUp t ps' (a :: S).
  Proof.
    intros Ht k S a ps Hk Ha Hz HS HI.
    assert (Hlen := box_length _ _ Ha). fold dn in Hlen.
    destruct (Z.eq_dec t 1) as [E1|E1]; [destruct (nonzero_dec a) as [E0|Hnz]|].
    - (* the initial vertex *)
      assert (Ea := zero_of_all a Ha E0). subst t. exists (gupdate_paths ps None (cfgof true a, true)). split.
      + unfold handle_config, find_immediate_predecessors.
        rewrite neighbour_edges_eq; auto.
        2:{ intros l Hl. apply in_seq in Hl. lia. }
        cbn [obind].
        replace (flat_map (nedge true a) (seq 0 k)) with (@nil edge).
        2:{ symmetry. generalize (seq 0 k). intros ls. induction ls as [|l ls IH]; cbn [flat_map]; auto.
            unfold nedge. rewrite E0. cbn. exact IH. }
        cbn [Z.ltb Z.compare Pos.compare Pos.compare_cont orb negb Z.eqb Pos.eqb andb].
        destruct (list_eq_dec _ _ _) as [_|Hne].
        * cbn [obind find_optimal_predecessor omap]. rewrite par_pick_pick. reflexivity.
        * exfalso. apply Hne. unfold GraphSearchWalk.cfgof, GraphSearchWalk.mkv, GraphSearchWalk.emb.
          cbn [ic_cfg]. rewrite Ea, map_val_zero. f_equal. lia.
      + apply InvUp_insert; auto. unfold GraphSearchWalk.emb. rewrite Ea. apply Good_init.
    - (* t = 1, not initial *)
      apply up_step_pred; auto.
    - apply up_step_pred; auto. left. lia.
  Qed.


  Lemma Forall2_length_eq (x y : list nat) : Forall2 le x y -> length x = length y.
  Proof. intros H. induction H; cbn; auto. Qed.

  Lemma above_snoc v xs x : above v (xs ++ [x]) <->
    exists w, gbox w /\ x = map val w /\ Forall2 le v w.
  Proof. unfold above. rewrite last_last. reflexivity. Qed.

  Lemma K_snoc t xs x : Z.of_nat (length xs) = (t - 1)%Z ->
    eeq (K (xs ++ [x])) (eadd (K xs) (eadd (hit t x) (Fin (alpha * pu (lastz xs) x)))).
  Proof.
    intros H. rewrite total_cost_snoc. replace (1 + Z.of_nat (length xs))%Z with t by lia. reflexivity.
  Qed.

  Lemma dn_step t : (1 <= t)%Z -> is_fin (hit t bounds) -> forall k S a ps, 1 <= k <= dn -> gbox a ->
    (forall l, k <= l -> nth l a 0 = 0) ->
    (forall l, 0 < nth l a 0 -> In (dec a l) S) ->
    InvDn t ps S ->
    exists ps', hconfig t k false (cfgof false a) ps = Ok ps' /\ InvDn t ps' (a :: S).
  Proof.
    intros Ht Hfin k S a ps Hk Ha Hz HS HI.
    assert (Hlen := box_length _ _ Ha). fold dn in Hlen.
    destruct HI as [HI1 HI2]. set (v := emb false a).
    assert (Hv : gbox v) by (apply (emb_box vs false a); auto).
    assert (Hvl := box_length _ _ Hv). fold dn in Hvl.
    destruct (HI1 v Hv) as (pu0 & Hpu0 & qu & Hqu & Hlxu & Hgxu & Hfeu & Hoptu).
    destruct (handle_config_spec t k false a ps S (GoodDn t)) as (e & He1 & He2 & He3 & He4); auto.
    { intros u p (q & -> & _). exact I. }
    { intros _. exists pu0. exact Hpu0. }
    { destruct (nonzero_dec a) as [E0|(l & Hl)].
      - eexists. split; [apply in_or_app; right|].
        + cbn [negb]. rewrite orb_true_r. left. reflexivity.
        + cbn [negb]. rewrite (look_stored _ _ _ pu0 Hpu0). unfold cand_cost. cbn [fst snd e_cost].
          rewrite Hqu. apply is_fin_eadd. split; [exact I|]. fold v.
          replace (map val v) with bounds; auto. rewrite bounds_val. unfold v. rewrite (zero_of_all a Ha E0).
          unfold GraphSearchWalk.emb. fold b. unfold dn. rewrite vsub_zero. reflexivity.
      - destruct (HI2 _ (HS l Hl)) as (p & Hp & q & Hq & _).
        exists (mkEdge (cfgof false (dec a l), false) (Fin (ncost false a l))). split; [apply in_or_app; left|].
        + apply In_nedges. exists l. repeat split; auto.
          destruct (lt_dec l k); auto. rewrite Hz in Hl by lia. lia.
        + rewrite (look_stored _ _ _ p Hp). unfold cand_cost. cbn [fst snd e_cost]. rewrite Hq. exact I. }
    rewrite He2. eexists. split; [reflexivity|]. unfold gupdate_paths.
    apply InvDn_insert; [|split; auto]. fold v. fold v in He1, He4.
    cbn [negb] in He1, He4. rewrite orb_true_r in He1, He4.
    set (inact := mkEdge (cfgof false a, true) (hit t (map val v))) in *.
    assert (Hla : look ps inact = pu0) by (apply look_stored; exact Hpu0).
    assert (Hmin : forall q0, gp_cost (look ps e) = Fin q0 -> forall qe, e_cost e = Fin qe ->
      forall ys, grid ys -> Z.of_nat (length ys) = t -> above v ys ->
        ele (Fin (q0 + qe + pot v)) (K ys)).
    { intros q0 Hq0 qe Hqe ys Hgy Hly (w & Hw & Ew & Hle).
      assert (Hwl := box_length _ _ Hw). fold dn in Hwl.
      destruct (Forall2_le_split v w Hle) as [<-|(l & Hl & Hlt)].
      - (* the last configuration is v itself *)
        destruct ys as [|y0 ys0] eqn:Ey; [cbn in Hly; lia|]. rewrite <- Ey in *.
        assert (Hne : ys <> []) by (rewrite Ey; discriminate).
        destruct (exists_last Hne) as (zs & z & Ez). rewrite Ez in *. clear ys Ez Hne Ey y0 ys0.
        cbv beta in Ew. rewrite last_last in Ew. subst z.
        rewrite app_length in Hly. cbn in Hly.
        apply Forall_app in Hgy. destruct Hgy as [Hgz _].
        specialize (Hoptu zs Hgz ltac:(lia)).
        rewrite (K_snoc t) by lia.
        specialize (He4 inact ltac:(apply in_or_app; right; left; reflexivity)).
        unfold cand_cost in He4. cbn [fst snd] in He4. rewrite Hla, Hq0, Hqe, Hqu in He4.
        cbn [inact e_cost] in He4.
        destruct (hit t (map val v)) as [h|]; [|rewrite eadd_Inf_r; exact I].
        destruct (K zs) as [kz|]; cbn [eadd ele] in *; auto. lra.
      - (* from a larger configuration *)
        assert (Hp0 : 0 < nth l a 0).
        { apply (box_nth _ _ l) in Hw. unfold v in Hlt. unfold GraphSearchWalk.emb in Hlt. fold b in Hlt.
          rewrite vsub_nth in Hlt by auto. lia. }
        destruct (HI2 _ (HS l Hp0)) as (p & Hp & q & Hq & _ & _ & _ & _ & Hopt).
        destruct (emb_dec_down a l Ha ltac:(lia) Hp0) as [Ed1 Ed2]. fold v in Ed1, Ed2.
        set (u := emb false (dec a l)) in *.
        assert (Hul : length u = dn) by (unfold u; apply box_length; apply (emb_box vs false); apply box_dec; auto).
        assert (Hab : above u ys).
        { exists w. repeat split; auto. apply Forall2_le_nth; [lia|]. intros j.
          destruct (Nat.eq_dec j l) as [->|Hj]; [lia|].
          assert (E : nth j u 0 = nth j v 0) by (rewrite Ed1; unfold dec; rewrite nth_update_other; auto).
          rewrite E. apply Forall2_le_nth'; auto. }
        specialize (Hopt ys Hgy Hly Hab).
        assert (Hc : ele (Fin (q0 + qe)) (Fin (q + ncost false a l))).
        { specialize (He4 (mkEdge (cfgof false (dec a l), false) (Fin (ncost false a l)))).
          unfold cand_cost in He4. cbn [fst snd e_cost] in He4.
          rewrite Hq0, Hqe, (look_stored _ _ _ p Hp), Hq in He4. apply He4.
          apply in_or_app; left. apply In_nedges. exists l. repeat split; auto.
          destruct (lt_dec l k); auto. rewrite Hz in Hp0 by lia. lia. }
        assert (Hadj := ncost_adjusted false a l Ha ltac:(lia) Hp0). cbv iota in Hadj. fold v u in Hadj.
        destruct (K ys) as [ky|]; cbn [eadd ele] in *; auto. lra. }
    apply in_app_or in He1. destruct He1 as [He1|He1].
    - apply In_nedges in He1. destruct He1 as (l & Hl & Hp0 & Ee).
      destruct (HI2 _ (HS l Hp0)) as (p & Hp & q & Hq & Hlx & Hgx & (w & Hw & Ew & Hle) & Hfe & _).
      assert (El : look ps e = p) by (subst e; apply look_stored; auto).
      rewrite El. subst e. cbn [e_from e_cost fst snd andb negb gp_xs gp_cost].
      destruct (emb_dec_down a l Ha ltac:(lia) Hp0) as [Ed1 Ed2]. fold v in Ed1, Ed2.
      set (u := emb false (dec a l)) in *.
      exists (q + ncost false a l)%Q. cbn [gp_cost gp_xs]. rewrite Hq. cbn [eadd].
      assert (Hadj := ncost_adjusted false a l Ha ltac:(lia) Hp0). cbv iota in Hadj. fold v u in Hadj.
      repeat split; auto.
      + exists w. repeat split; auto.
        assert (Hul := Forall2_length_eq _ _ Hle).
        apply Forall2_le_nth; [apply box_length in Hw; fold dn in Hw; lia|]. intros j.
        apply (Forall2_le_nth' _ _ j) in Hle.
        destruct (Nat.eq_dec j l) as [->|Hj]; [lia|].
        assert (E : nth j u 0 = nth j v 0) by (rewrite Ed1; unfold dec; rewrite nth_update_other; auto).
        lia.
      + destruct (K (gp_xs p)) as [kx|]; cbn [eadd ele] in *; auto. lra.
      + intros ys Hgy Hly Hab. apply Hmin; auto. rewrite El. exact Hq.
    - destruct He1 as [<-|[]]. rewrite Hla in *.
      change (snd (e_from inact) && negb (snd (cfgof false a, false))) with true. cbv iota.
      change (ic_cfg (fst (cfgof false a, false))) with (map val v).
      cbn [inact e_cost] in Hmin |- *.
      unfold cand_cost in He3. cbn [fst snd inact e_cost] in He3. rewrite Hqu in He3.
      destruct (hit t (map val v)) as [h|] eqn:Eh; [|contradiction].
      exists (qu + h)%Q. cbn [gp_cost gp_xs]. rewrite Hqu. cbn [eadd].
      repeat split; auto.
      + rewrite app_length. cbn. lia.
      + apply Forall_app. split; auto. constructor; auto. exists v. auto.
      + apply above_snoc. exists v. repeat split; auto. clear. induction v; constructor; auto.
      + rewrite (K_snoc t) by auto. rewrite Eh.
        destruct (K (gp_xs pu0)) as [kx|]; cbn [eadd ele] in *; auto. lra.
  Qed.

End DP.
