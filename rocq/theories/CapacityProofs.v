(** Proofs for integral lazy capacity provisioning (C23, C24, C25, C50). *)
From Coq Require Import Lia Lqa Setoid Morphisms Qround.
From Verif Require Import NumLemmas ObjectiveSpec CapacitySpec CapacityWork CapacityChain Search1DTop CapacityModel.
From Verif Require Import ProblemModel.
Local Open Scope Z_scope.

(** ** Bridge between integers and rationals *)
Definition single (z : Z) : list Z := [z].

Lemma total_cost_Qeq (f : Z -> Q -> ext) beta inv alpha :
  (forall t x y, (x == y)%Q -> eeq (f t x) (f t y)) ->
  forall xs ys, Forall2 Qeq xs ys -> forall t a b, (a == b)%Q ->
  eeq (total_cost f (sw1 beta inv) alpha t a xs) (total_cost f (sw1 beta inv) alpha t b ys).
Proof.
  intros Hf. induction 1 as [|x y xs ys H _ IH]; intros t a b Hab; cbn [total_cost]; [reflexivity|].
  apply eadd_proper; [|apply IH; exact H].
  apply eadd_proper; [apply Hf; exact H|]. simpl. unfold sw1. destruct inv; rewrite H, Hab; reflexivity.
Qed.

Lemma total_cost_shift {X} (f : Z -> X -> ext) sw alpha s : forall xs t prev,
  total_cost (fun t => f (t + s)) sw alpha t prev xs = total_cost f sw alpha (t + s) prev xs.
Proof.
  induction xs as [|x xs IH]; intros t prev; cbn [total_cost]; [reflexivity|].
  rewrite IH. replace (t + 1 + s) with (t + s + 1) by lia. reflexivity.
Qed.

Lemma total_cost_ext {X} (f g : Z -> X -> ext) sw alpha : forall xs t prev,
  (forall t' x, t <= t' -> f t' x = g t' x) ->
  total_cost f sw alpha t prev xs = total_cost g sw alpha t prev xs.
Proof.
  induction xs as [|x xs IH]; intros t prev H; cbn [total_cost]; [reflexivity|].
  rewrite (H t x) by lia. rewrite IH; [reflexivity|]. intros; apply H; lia.
Qed.

Section Bridge.
  Variable hit : Z -> list Z -> ext.
  Variable m : Z.
  Variable beta : Q.
  Hypothesis CC : capacity_costs hit m beta.

  Definition SZ (x : Q) : Prop := exists z, (x == inject_Z z)%Q /\ 0 <= z <= m.
  Definition fZ (t : Z) (x : Q) : ext := hit t [Qfloor x].

  Lemma SZ_proper x y : (x == y)%Q -> SZ x -> SZ y.
  Proof. intros H (z & E & Hz). exists z. split; [rewrite <- H; exact E|exact Hz]. Qed.

  Lemma SZ_range x : SZ x -> (0 <= x <= inject_Z m)%Q.
  Proof. intros (z & E & Hz). rewrite E. change 0%Q with (inject_Z 0). rewrite <- !Zle_Qle. lia. Qed.

  Lemma SZ_inject z : 0 <= z <= m -> SZ (inject_Z z).
  Proof. intros H. exists z. split; [reflexivity|exact H]. Qed.

  Lemma SZ_0 : SZ 0.
  Proof. apply (SZ_inject 0). pose proof (cc_m _ _ _ CC). lia. Qed.

  Lemma SZ_m : SZ (inject_Z m).
  Proof. apply SZ_inject. pose proof (cc_m _ _ _ CC). lia. Qed.

  Lemma SZ_floor x : SZ x -> (inject_Z (Qfloor x) == x)%Q /\ 0 <= Qfloor x <= m.
  Proof. intros (z & E & Hz). rewrite E at 1. assert (Qfloor x = z) by (rewrite E; apply Qfloor_Z). rewrite Qfloor_Z. split; [symmetry; exact E|lia]. Qed.

  Lemma fZ_proper t x y : (x == y)%Q -> eeq (fZ t x) (fZ t y).
  Proof. intros H. unfold fZ. rewrite (Qfloor_comp x y H). reflexivity. Qed.

  Lemma fZ_convex t : 1 <= t -> convexS SZ (fZ t).
  Proof.
    intros Ht a b c qa qc Sa Sb Sc Hab Hbc Ea Ec. unfold fZ in *.
    destruct (SZ_floor a Sa) as [Fa Ra]. destruct (SZ_floor b Sb) as [Fb Rb]. destruct (SZ_floor c Sc) as [Fc Rc].
    destruct (cc_convex _ _ _ CC t Ht (Qfloor a) (Qfloor b) (Qfloor c) qa qc) as (qb & Eb & H); auto.
    { split; [lia|]. apply Qfloor_resp_le; exact Hab. }
    { split; [apply Qfloor_resp_le; exact Hbc|lia]. }
    exists qb. split; [exact Eb|]. unfold Z.sub in H. rewrite !inject_Z_plus, !inject_Z_opp, Fa, Fb, Fc in H. lra.
  Qed.

  Lemma fZ_nonneg t x : 1 <= t -> SZ x -> ele (Fin 0) (fZ t x).
  Proof. intros Ht Sx. apply (cc_nonneg _ _ _ CC); auto. apply SZ_floor; auto. Qed.

  Lemma total_cost_bridge inv alpha : forall zs t z0,
    eeq (total_cost hit (switching [beta] inv) alpha t [z0] (map single zs))
        (total_cost fZ (sw1 beta inv) alpha t (inject_Z z0) (map inject_Z zs)).
  Proof.
    induction zs as [|z zs IH]; intros t z0; cbn [map total_cost]; [reflexivity|].
    apply eadd_proper; [|apply (IH (t + 1) z)]. apply eadd_proper.
    - unfold fZ. rewrite Qfloor_Z. reflexivity.
    - simpl. unfold sw1, switching. change Z.max with (fun a b => Z.max a b). destruct inv; simpl;
        unfold Qminus; rewrite <- inject_Z_opp, <- inject_Z_plus, qpos_inject; unfold zpos;
        rewrite Qplus_0_r; reflexivity.
  Qed.

  Lemma feasible_singles n xs : feasible_schedule n [m] xs ->
    exists zs, xs = map single zs /\ Z.of_nat (length zs) = n /\ Forall (fun z => 0 <= z <= m) zs.
  Proof.
    intros [Hl Hf]. revert n Hl. induction Hf as [|x xs Hx _ IH]; intros n Hl.
    - exists []. auto.
    - destruct (IH _ eq_refl) as (zs & -> & L & F).
      inversion Hx as [|? z ? r Hz Hr]; subst. inversion Hr; subst.
      exists (z :: zs). simpl in *. repeat split; auto. lia.
  Qed.

  Lemma singles_feasible zs : Forall (fun z => 0 <= z <= m) zs ->
    feasible_schedule (Z.of_nat (length zs)) [m] (map single zs).
  Proof.
    intros H. split; [rewrite map_length; reflexivity|]. induction H; constructor; auto.
    repeat constructor; lia.
  Qed.

  Lemma singles_S zs : Forall (fun z => 0 <= z <= m) zs -> Forall SZ (map inject_Z zs).
  Proof. induction 1; constructor; auto. apply SZ_inject; auto. Qed.

  Lemma floors xs : Forall SZ xs ->
    Forall2 Qeq xs (map inject_Z (map Qfloor xs)) /\ Forall (fun z => 0 <= z <= m) (map Qfloor xs).
  Proof.
    induction 1 as [|x xs Hx _ [IH1 IH2]]; split; cbn [map]; constructor; auto.
    - symmetry. apply SZ_floor; auto.
    - apply SZ_floor; auto.
  Qed.

  Definition OE (inv : bool) (n : nat) (z : Z) : Prop := opt_end SZ 1 beta fZ inv n (inject_Z z).

  Lemma last_map {A B} (g : A -> B) xs d : last (map g xs) (g d) = g (last xs d).
  Proof. induction xs as [|x [|y xs] IH]; [reflexivity|reflexivity|exact IH]. Qed.

  Lemma J_prefix inv zs : eeq (prefix_cost hit beta inv (map single zs)) (J 1 beta fZ inv (map inject_Z zs)).
  Proof. unfold prefix_cost, J, Jf. apply (total_cost_bridge inv 1 zs 1 0). Qed.

  Lemma OE_spec inv n z : OE inv n z <-> ends_optimally hit m beta inv (Z.of_nat n) z.
  Proof.
    split.
    - intros (xs & Lx & Sx & Ex & Fx & Mx). destruct (floors xs Sx) as [Hq Hf].
      set (zs := map Qfloor xs) in *.
      assert (EJ : eeq (prefix_cost hit beta inv (map single zs)) (J 1 beta fZ inv xs)).
      { rewrite J_prefix. apply eeq_sym. apply (total_cost_Qeq fZ beta inv 1 fZ_proper xs _ Hq). reflexivity. }
      exists (map single zs). split; [split; [|split]|].
      + replace (Z.of_nat n) with (Z.of_nat (length zs)) by (unfold zs; rewrite map_length; lia).
        apply singles_feasible; auto.
      + rewrite EJ. exact Fx.
      + intros ys Hy. destruct (feasible_singles _ _ Hy) as (zy & -> & Ly & Fy).
        rewrite EJ, J_prefix. apply Mx; [rewrite map_length; lia|apply singles_S; auto].
      + change [0] with (single 0). rewrite last_map. unfold single. f_equal.
        unfold zs. change 0 with (Qfloor 0). rewrite last_map. rewrite Ex. apply Qfloor_Z.
    - intros (xs & (Hf & Fx & Mx) & Ex). destruct (feasible_singles _ _ Hf) as (zs & -> & Lz & Fz).
      exists (map inject_Z zs). split; [rewrite map_length; lia|]. split; [apply singles_S; auto|].
      split; [|split].
      + change 0%Q with (inject_Z 0). rewrite last_map. change [0] with (single 0) in Ex. rewrite last_map in Ex.
        injection Ex as ->. reflexivity.
      + rewrite <- J_prefix. exact Fx.
      + intros ys Ly Sy. destruct (floors ys Sy) as [Hq Hf']. rewrite <- J_prefix.
        assert (EJ : eeq (prefix_cost hit beta inv (map single (map Qfloor ys))) (J 1 beta fZ inv ys)).
        { rewrite J_prefix. apply eeq_sym. apply (total_cost_Qeq fZ beta inv 1 fZ_proper ys _ Hq). reflexivity. }
        rewrite <- EJ. apply Mx. replace (Z.of_nat n) with (Z.of_nat (length (map Qfloor ys))) by (rewrite map_length; lia).
        apply singles_feasible; auto.
  Qed.

  (** An optimal schedule of the slots after [s], from the stable configuration [c]. *)
  Lemma restart_Z inv (s k : nat) c zs : OE false s c -> OE true s c ->
    length zs = k -> Forall (fun z => 0 <= z <= m) zs ->
    (let Js := total_cost (fun t => hit (t + Z.of_nat s)) (switching [beta] inv) 1 1 [c] in
     is_fin (Js (map single zs)) /\
     forall ys, feasible_schedule (Z.of_nat k) [m] ys -> ele (Js (map single zs)) (Js ys)) ->
    OE inv (s + k) (last zs c).
  Proof.
    intros Hl Hu Lz Fz [Hfin Hmin].
    assert (EJ : forall ws, eeq (total_cost (fun t => hit (t + Z.of_nat s)) (switching [beta] inv) 1 1 [c] (map single ws))
                              (Jf 1 beta fZ inv (slot s) (inject_Z c) (map inject_Z ws))).
    { intros ws. rewrite total_cost_shift. apply total_cost_bridge. }
    unfold OE. rewrite <- last_map.
    apply (restart_optimal SZ 1 beta ltac:(lra) (cc_beta _ _ _ CC) fZ inv s k (inject_Z c) (map inject_Z zs) Hl Hu).
    - rewrite map_length. exact Lz.
    - apply singles_S; auto.
    - rewrite <- EJ. exact Hfin.
    - intros ys Ly Sy. destruct (floors ys Sy) as [Hq Hf]. rewrite <- EJ.
      assert (EY : eeq (Jf 1 beta fZ inv (slot s) (inject_Z c) ys)
                       (Jf 1 beta fZ inv (slot s) (inject_Z c) (map inject_Z (map Qfloor ys)))).
      { apply (total_cost_Qeq fZ beta inv 1 fZ_proper ys _ Hq). reflexivity. }
      rewrite EY, <- EJ. apply Hmin.
      replace (Z.of_nat k) with (Z.of_nat (length (map Qfloor ys))) by (rewrite map_length; lia).
      apply singles_feasible; auto.
  Qed.
End Bridge.

(** ** The bounds computed by the code *)
Section Bounds.
  Context {C D : Type}.
  Variable outside : D.
  Variable p : ssco C D.
  Variables (m : Z) (beta : Q).
  Hypothesis Hd : s_d p = 1.
  Hypothesis Hb : s_bounds p = [m].
  Hypothesis Hs : s_switching p = [beta].
  Let hit (t : Z) (x : list Z) : ext := c_cost (s_hit p t x).
  Hypothesis CC : capacity_costs hit m beta.

  (** The search of [find_bound]. *)
  Lemma bound_search inv w s x_start : 0 <= s -> 0 <= w -> 0 <= s_tend p - s + w -> x_start <= m ->
    let Js := total_cost (fun t => hit (t + s)) (switching [beta] inv) 1 1 [x_start] in
    exists r,
      optimal_graph_search_1d outside (ssco_extend (ssco_shift p s) w) x_start inv 1 None = Ok r /\
      feasible_schedule (s_tend p - s + w) [m] (map single (pa_xs r)) /\
      is_fin (Js (map single (pa_xs r))) /\
      forall ys, feasible_schedule (s_tend p - s + w) [m] ys -> ele (Js (map single (pa_xs r))) (Js ys).
  Proof.
    intros Hs0 Hw Ht Hx.
    assert (Hhit : forall t x, 1 <= t -> s_hit (ssco_extend (ssco_shift p s) w) t x = s_hit p (t + s) x).
    { intros t x H. simpl. destruct (1 <=? t + s) eqn:E; [reflexivity|]. apply Z.leb_gt in E. lia. }
    destruct (search_1d_any outside (ssco_extend (ssco_shift p s) w) x_start inv 1%Q beta m)
      as (r & Er & Fr & Hf & Ec & Hm); auto.
    - apply (cc_m _ _ _ CC).
    - lra.
    - apply (cc_beta _ _ _ CC).
    - intros t Ht' a b c qa qc. rewrite !Hhit by lia. apply (cc_convex _ _ _ CC (t + s)). lia.
    - intros t Ht'. rewrite Hhit by lia. apply (cc_fin _ _ _ CC). lia.
    - intros t j Ht' Hj. rewrite Hhit by lia. apply (cc_nonneg _ _ _ CC); lia.
    - exists r. split; [exact Er|]. change (map single (pa_xs r)) with (map (fun j => [j]) (pa_xs r)).
      simpl s_tend in Hf, Hm.
      assert (EJ : forall ys, total_cost (fun t x => c_cost (s_hit (ssco_extend (ssco_shift p s) w) t x))
                     (switching [beta] inv) 1 1 [x_start] ys
                   = total_cost (fun t => hit (t + s)) (switching [beta] inv) 1 1 [x_start] ys).
      { intros ys. apply total_cost_ext. intros t' x H. unfold hit. rewrite Hhit by lia. reflexivity. }
      rewrite EJ in Ec. split; [exact Hf|]. split.
      + rewrite <- Ec. exact Fr.
      + intros ys Hy. rewrite <- Ec, <- EJ. apply Hm. exact Hy.
  Qed.

  (** The bounds without restart: a position of an optimal schedule. *)
  Lemma bound_on_optimum inv w t : 0 <= w -> 1 <= t <= s_tend p ->
    exists z xs, find_bound_i outside p 1 inv w t 0 0 = Ok z /\
      optimal_prefix hit m beta inv (s_tend p + w) xs /\
      nth_error xs (Z.to_nat (t - 1)) = Some [z].
  Proof.
    intros Hw Ht.
    destruct (bound_search inv w 0 0) as (r & Er & Hf & Fr & Hm); try lia. { apply (cc_m _ _ _ CC). }
    replace (s_tend p - 0 + w) with (s_tend p + w) in * by lia.
    assert (Hlen : Z.of_nat (length (pa_xs r)) = s_tend p + w).
    { destruct Hf as [Hf _]. rewrite map_length in Hf. exact Hf. }
    destruct (nth_error (pa_xs r) (Z.to_nat (t - 1))) as [z|] eqn:Ez.
    2: { apply nth_error_None in Ez. lia. }
    exists z, (map single (pa_xs r)). split; [|split].
    - unfold find_bound_i. rewrite Hd. destruct (Z.ltb_spec (s_tend p) t); [lia|]. cbn [negb Z.eqb Pos.eqb].
      destruct (Z.leb_spec t 0); [lia|]. rewrite Er. cbn [obind].
      destruct (Z.leb_spec (t - 0) 0); [lia|]. replace (Z.to_nat (t - 0) - 1)%nat with (Z.to_nat (t - 1)) by lia.
      rewrite Ez. reflexivity.
    - split; [exact Hf|]. unfold prefix_cost.
      assert (EJ : forall ys, total_cost (fun t => hit (t + 0)) (switching [beta] inv) 1 1 [0] ys
                   = total_cost hit (switching [beta] inv) 1 1 [0] ys).
      { intros ys. apply total_cost_ext. intros. rewrite Z.add_0_r. reflexivity. }
      rewrite !EJ in *. split; [exact Fr|]. intros ys Hy. pose proof (Hm ys Hy) as H. rewrite EJ in H. exact H.
    - rewrite nth_error_map, Ez. reflexivity.
  Qed.

  (** The bound computed from a stable point [s], [c]. *)
  Lemma bound_restart inv (s : nat) c : Z.of_nat s < s_tend p -> c <= m ->
    OE hit m beta false s c -> OE hit m beta true s c ->
    exists z, find_bound_i outside p 1 inv 0 (s_tend p) (Z.of_nat s) c = Ok z /\ 0 <= z <= m /\
      OE hit m beta inv (Z.to_nat (s_tend p)) z.
  Proof.
    intros Hst Hc Hl Hu.
    destruct (bound_search inv 0 (Z.of_nat s) c) as (r & Er & Hf & Fr & Hm); try lia.
    rewrite Z.add_0_r in Hf, Hm.
    destruct (feasible_singles m _ _ Hf) as (zs & Ezs & Lz & Fz).
    assert (E : pa_xs r = zs).
    { revert Ezs. generalize (pa_xs r) zs. induction l as [|a l IH]; intros [|b l'] H; try discriminate; auto.
      injection H as -> H. f_equal. auto. }
    rewrite E in *. set (k := length zs) in *.
    assert (Hk : (k > 0)%nat) by lia.
    destruct (snoc_form zs (k - 1)) as (ys & z & Ey & Ly); [unfold k in *; lia|].
    exists z. split; [|split].
    - unfold find_bound_i. rewrite Hd. rewrite Z.ltb_irrefl. cbn [negb Z.eqb Pos.eqb].
      destruct (Z.leb_spec (s_tend p) 0); [lia|]. rewrite Er. cbn [obind].
      destruct (Z.leb_spec (s_tend p - Z.of_nat s) 0); [lia|]. rewrite E, Ey.
      replace (Z.to_nat (s_tend p - Z.of_nat s) - 1)%nat with (length ys) by lia.
      rewrite nth_error_app2, Nat.sub_diag by lia. reflexivity.
    - rewrite Ey in Fz. apply Forall_app in Fz. destruct Fz as [_ Fz]. inversion Fz; auto.
    - replace (Z.to_nat (s_tend p)) with (s + k)%nat by lia.
      replace z with (last zs c) by (rewrite Ey; apply last_snoc).
      apply restart_Z; auto. cbn beta zeta. split; [exact Fr|].
      intros ws Hw. apply Hm. replace (s_tend p - Z.of_nat s) with (Z.of_nat k) by lia. exact Hw.
  Qed.

End Bounds.

(** ** Lazy capacity provisioning *)
Section Generic.
  Context {T : Type}.
  Variable v : value T.

  Lemma find_initial_from_spec bounds : forall n, (n <= length bounds)%nat ->
    exists s c, find_initial_from v bounds n = Ok (s, c) /\
    ((s = 0 /\ c = v_zero v) \/
     exists k b b', s = Z.of_nat (S k) /\ (S k < n)%nat /\ nth_error bounds k = Some b /\
       nth_error bounds (S k) = Some b' /\ c = bm_upper b /\ close_bounds v b = true /\
       is_valid_initial_time v b b' = true) /\
    forall k b b', s <= Z.of_nat k -> (S k < n)%nat -> nth_error bounds k = Some b ->
      nth_error bounds (S k) = Some b' -> close_bounds v b = true -> is_valid_initial_time v b b' = false.
  Proof.
    intros n. induction n as [|[|k] IH]; intros Hn.
    - exists 0, (v_zero v). split; [reflexivity|]. split; [auto|]. intros; lia.
    - exists 0, (v_zero v). split; [reflexivity|]. split; [auto|]. intros; lia.
    - change (find_initial_from v bounds (S (S k))) with
        (do prev_bound <- from_option (nth_error bounds k);
         do bound <- from_option (nth_error bounds (S k));
         if is_valid_initial_time v prev_bound bound && close_bounds v prev_bound
         then Ok (Z.of_nat (S k), bm_upper prev_bound)
         else find_initial_from v bounds (S k)).
      destruct (nth_error bounds k) as [b|] eqn:Eb. 2: { apply nth_error_None in Eb. lia. }
      destruct (nth_error bounds (S k)) as [b'|] eqn:Eb'. 2: { apply nth_error_None in Eb'. lia. }
      cbn [from_option obind].
      destruct (is_valid_initial_time v b b' && close_bounds v b) eqn:E.
      + apply andb_prop in E. destruct E as [E1 E2].
        exists (Z.of_nat (S k)), (bm_upper b). split; [reflexivity|]. split.
        * right. exists k, b, b'. repeat split; auto.
        * intros. lia.
      + destruct (IH ltac:(lia)) as (s & c & Er & Hc & Hl). exists s, c. split; [exact Er|]. split.
        * destruct Hc as [Hc|(k0 & b0 & b0' & H1 & H2 & H3)]; [auto|]. right. exists k0, b0, b0'. repeat split; try tauto. lia.
        * intros k0 b0 b0' Hs Hk E0 E0' Hcl. destruct (Nat.eq_dec k0 k) as [->|].
          -- rewrite Eb in E0. rewrite Eb' in E0'. injection E0 as <-. injection E0' as <-.
             rewrite Hcl, andb_true_r in E. exact E.
          -- eapply Hl; eauto. lia.
  Qed.

  Lemma lcp_Ok o t xs bounds x b :
    lcp v o t xs bounds = Ok (x, b) <->
    bo_d o = 1 /\ t - 1 = Z.of_nat (length bounds) /\
    exists s c i l u, find_initial_time v bounds = Ok (s, c) /\ now_value v xs = Ok i /\
      bo_lower o (bo_w o) (bo_tend o) s c = Ok l /\ bo_upper o (bo_w o) (bo_tend o) s c = Ok u /\
      x = [project (v_gtb v) i l u] /\ b = bounds ++ [mkBM l u].
  Proof.
    unfold lcp. destruct (Z.eqb_spec (bo_d o) 1) as [Hd|Hd]; cbn [negb].
    2: { split; [discriminate|tauto]. }
    destruct (Z.eqb_spec (t - 1) (Z.of_nat (length bounds))) as [Ht|Ht]; cbn [negb].
    2: { split; [discriminate|tauto]. }
    split.
    - intros H. apply obind_Ok in H as ([s c] & E1 & H). apply obind_Ok in H as (i & E2 & H).
      apply obind_Ok in H as (l & E3 & H). apply obind_Ok in H as (u & E4 & H).
      repeat split; auto. exists s, c, i, l, u. cbn [fst snd] in *. injection H as <- <-. repeat split; auto.
    - intros (_ & _ & s & c & i & l & u & E1 & E2 & E3 & E4 & -> & ->).
      rewrite E1. cbn [obind]. rewrite E2. cbn [obind fst snd]. rewrite E3. cbn [obind]. rewrite E4. reflexivity.
  Qed.
End Generic.

Lemma project_nearest (x l u : Z) : l <= u ->
  nearest l u x (project (v_gtb valZ) x l u).
Proof.
  intros H. unfold project, vmax, vmin, v_gtb, nearest. cbn [v_toQ valZ].
  assert (E : forall a b, Qltb (inject_Z a) (inject_Z b) = (a <? b)).
  { intros a b. destruct (Z.ltb_spec a b) as [Hab|Hab].
    - apply Qltb_iff. rewrite <- Zlt_Qlt. exact Hab.
    - apply Qltb_false. rewrite <- Zle_Qle. exact Hab. }
  rewrite !E. destruct (Z.ltb_spec x u).
  - destruct (Z.ltb_spec x l); repeat split; intros; lia.
  - destruct (Z.ltb_spec u l); repeat split; intros; lia.
Qed.

Lemma project_clamp (x l u : Z) :
  inject_Z (project (v_gtb valZ) x l u) = clamp (inject_Z l) (umax (inject_Z l) (inject_Z u)) (inject_Z x).
Proof.
  unfold project, vmax, vmin, v_gtb, clamp, umax. cbn [v_toQ valZ].
  assert (E : forall a b, Qltb (inject_Z a) (inject_Z b) = (a <? b)).
  { intros a b. destruct (Z.ltb_spec a b) as [Hab|Hab].
    - apply Qltb_iff. rewrite <- Zlt_Qlt. exact Hab.
    - apply Qltb_false. rewrite <- Zle_Qle. exact Hab. }
  assert (E' : forall a b, Qle_bool (inject_Z a) (inject_Z b) = (a <=? b)).
  { intros a b. destruct (Z.leb_spec a b) as [Hab|Hab].
    - apply Qle_bool_iff. rewrite <- Zle_Qle. exact Hab.
    - apply Qle_bool_false. rewrite <- Zlt_Qlt. exact Hab. }
  rewrite !E, !E'.
  destruct (Z.leb_spec l u); rewrite ?E'; destruct (Z.ltb_spec x u);
    repeat match goal with |- context [?a <? ?b] => destruct (Z.ltb_spec a b) end;
    repeat match goal with |- context [?a <=? ?b] => destruct (Z.leb_spec a b) end;
    try reflexivity; try lia; f_equal; lia.
Qed.

Lemma close_Z b : close_bounds valZ b = true -> bm_lower b = bm_upper b.
Proof.
  unfold close_bounds, precision10. cbn [v_toQ valZ v_sub]. intros H. apply Qltb_iff in H.
  apply Qabs.Qabs_Qlt_condition in H. destruct H as [H1 H2].
  assert (-1 < bm_lower b - bm_upper b < 1).
  { rewrite !Zlt_Qlt. change (inject_Z (-1)) with (-1)%Q. change (inject_Z 1) with 1%Q. lra. }
  lia.
Qed.

Section Run.
  Context {C D : Type}.
  Variable outside : D.
  Variable p : ssco C D.
  Variables (m : Z) (beta : Q).
  Hypothesis Hd : s_d p = 1.
  Hypothesis Hb : s_bounds p = [m].
  Hypothesis Hs : s_switching p = [beta].
  Let hit (t : Z) (x : list Z) : ext := c_cost (s_hit p t x).
  Hypothesis CC : capacity_costs hit m beta.

  Definition at_slot (t : Z) : ssco C D := mkSSCO (s_d p) t (s_bounds p) (s_switching p) (s_hit p).

  Record lcp_state (k : nat) (zs : list Z) (bs : list (bounds_memory Z)) : Prop := {
    st_zs : length zs = k;
    st_bs : length bs = k;
    st_range : Forall (fun z => 0 <= z <= m) zs;
    st_lazy : lazy (SZ m) 1 beta (fZ hit) k (map inject_Z zs);
    st_ends : forall i b, nth_error bs i = Some b ->
      OE hit m beta false (S i) (bm_lower b) /\ OE hit m beta true (S i) (bm_upper b);
    st_proj : forall i b z, nth_error bs i = Some b -> nth_error zs i = Some z ->
      z = project (v_gtb valZ) (last (firstn i zs) 0) (bm_lower b) (bm_upper b)
  }.

  Lemma lcp_step k zs bs : lcp_state k zs bs ->
    exists z b, lcp valZ (integral_online outside p 0 (Z.of_nat k + 1)) (Z.of_nat k + 1) (map single zs) bs
                = Ok ([z], bs ++ [b]) /\ lcp_state (S k) (zs ++ [z]) (bs ++ [b]).
  Proof.
    intros [Lz Lb Hr Hlazy Hends Hproj].
    destruct (find_initial_from_spec valZ bs (length bs) (le_n _)) as (s & c & Ef & Hc & _).
    assert (Hst : exists s', s = Z.of_nat s' /\ (s' <= k)%nat /\ c <= m /\
              OE hit m beta false s' c /\ OE hit m beta true s' c).
    { destruct Hc as [[-> ->]|(j & b & b' & -> & Hj & Eb & _ & -> & Hcl & _)].
      - exists 0%nat. split; [reflexivity|]. split; [lia|]. split; [apply (cc_m _ _ _ CC)|].
        split; apply opt_end_0.
      - exists (S j). split; [reflexivity|]. split; [lia|]. destruct (Hends j b Eb) as [H1 H2].
        apply close_Z in Hcl. split; [|rewrite <- Hcl at 1; auto].
        pose proof (opt_end_S (SZ m) 1 beta (SZ_proper m) (SZ_0 hit m beta CC) (fZ hit) true (S j) _ H2) as HS.
        apply SZ_floor in HS. rewrite Qfloor_Z in HS. lia. }
    destruct Hst as (s' & -> & Hs' & Hcm & H1 & H2).
    assert (HL : forall inv, exists z, find_bound_i outside (at_slot (Z.of_nat k + 1)) 1 inv 0 (Z.of_nat k + 1) (Z.of_nat s') c = Ok z
              /\ 0 <= z <= m /\ OE hit m beta inv (S k) z).
    { intros inv. destruct (bound_restart outside (at_slot (Z.of_nat k + 1)) m beta Hd Hb Hs CC inv s' c) as (z & Ez & Rz & Oz); auto.
      - simpl. lia.
      - exists z. simpl s_tend in Ez, Oz. replace (Z.to_nat (Z.of_nat k + 1)) with (S k) in Oz by lia. auto. }
    destruct (HL false) as (l & El & Rl & Ol). destruct (HL true) as (u & Eu & Ru & Ou).
    set (x := last zs 0).
    exists (project (v_gtb valZ) x l u), (mkBM l u). split.
    - apply lcp_Ok. split; [exact Hd|]. split; [lia|].
      exists (Z.of_nat s'), c, x, l, u. split; [exact Ef|]. split; [|auto].
      unfold now_value. change [v_zero valZ] with (single 0). rewrite last_map. reflexivity.
    - split.
      + rewrite app_length. simpl. lia.
      + rewrite app_length. simpl. lia.
      + apply Forall_app. split; [exact Hr|]. constructor; [|constructor].
        unfold project, vmax, vmin. assert (0 <= x <= m).
        { unfold x. destruct zs as [|y ys] using rev_ind; [pose proof (cc_m _ _ _ CC); simpl; lia|].
          rewrite last_snoc. apply Forall_app in Hr. destruct Hr as [_ Hr]. inversion Hr; auto. }
        destruct (v_gtb valZ u x); destruct (v_gtb valZ l _); lia.
      + rewrite map_app. cbn [map]. rewrite project_clamp.
        replace (inject_Z x) with (last (map inject_Z zs) 0%Q).
        2: { unfold x. change 0%Q with (inject_Z 0). apply last_map. }
        apply lazy_S; auto.
      + intros i b Eb. destruct (Nat.lt_ge_cases i (length bs)) as [Hi|Hi].
        * rewrite nth_error_app1 in Eb by auto. auto.
        * rewrite nth_error_app2 in Eb by auto. destruct (i - length bs)%nat as [|j] eqn:Ei; [|destruct j; discriminate].
          injection Eb as <-. replace i with k by lia. auto.
      + intros i b z Eb Ez. destruct (Nat.lt_ge_cases i (length bs)) as [Hi|Hi].
        * rewrite nth_error_app1 in Eb by auto. rewrite nth_error_app1 in Ez by lia.
          rewrite firstn_app. replace (i - length zs)%nat with 0%nat by lia. rewrite app_nil_r. eauto.
        * rewrite nth_error_app2 in Eb by auto. destruct (i - length bs)%nat as [|j] eqn:Ei; [|destruct j; discriminate].
          rewrite nth_error_app2 in Ez by lia. replace (i - length zs)%nat with 0%nat in Ez by lia.
          injection Eb as <-. injection Ez as <-. replace i with (length zs) by lia.
          rewrite firstn_app, Nat.sub_diag, firstn_all, app_nil_r. reflexivity.
  Qed.

  Lemma lcp_steps_spec : forall n k zs bs mem, lcp_state k zs bs ->
    (match mem with Some b => b | None => [] end) = bs ->
    exists zs' bs', lcp_steps valZ (integral_online outside p 0) n (map single zs) mem
      = Ok (map single zs', match n with O => mem | _ => Some bs' end) /\ lcp_state (k + n) zs' bs'.
  Proof.
    induction n as [|n IH]; intros k zs bs mem H Hm.
    - exists zs, bs. rewrite Nat.add_0_r. auto.
    - destruct (lcp_step k zs bs H) as (z & b & E & H').
      cbn [lcp_steps]. unfold lcp_next. rewrite Hm.
      replace (Z.of_nat (length (map single zs)) + 1) with (Z.of_nat k + 1)
        by (rewrite map_length, (st_zs _ _ _ H); reflexivity).
      rewrite E. cbn [obind fst snd].
      destruct (IH (S k) (zs ++ [z]) (bs ++ [b]) (Some (bs ++ [b])) H' eq_refl) as (zs' & bs' & E' & H'').
      rewrite map_app in E'. cbn [map] in E'.
      exists zs', (match n with O => bs ++ [b] | _ => bs' end). unfold single in *. rewrite E'. split; [destruct n; reflexivity|].
      replace (k + S n)%nat with (S k + n)%nat by lia. destruct n as [|n]; [|exact H''].
      cbn [lcp_steps] in E'. assert (Ezs : zs' = zs ++ [z]).
      { assert (Hinj : forall a b : list Z, map (fun z => [z]) a = map (fun z => [z]) b -> a = b).
        { induction a as [|a0 a IHa]; intros [|b0 b'] Hab; try discriminate; auto.
          injection Hab as -> Hab. f_equal. auto. }
        apply Hinj. rewrite map_app. cbn [map]. congruence. }
      rewrite Ezs. rewrite Nat.add_0_r. exact H'.
  Qed.

  Lemma lcp_run_state n : exists zs bs,
    integral_lcp outside p 0 n = Ok (map single zs, match n with O => None | _ => Some bs end) /\
    lcp_state n zs bs.
  Proof.
    apply (lcp_steps_spec n 0 [] [] None); [|reflexivity].
    split; auto; try (intros [|]; discriminate). apply lazy_0.
  Qed.

  Lemma bounds_ordered n l u : (0 < beta)%Q -> ends_optimally hit m beta false n l -> ends_optimally hit m beta true n u ->
    l <= u.
  Proof.
    intros Hbe Hl Hu.
    assert (Hn : exists k, n = Z.of_nat k).
    { destruct Hl as (xs & ((Hl & _) & _) & _). eauto. }
    destruct Hn as (k & ->).
    apply OE_spec in Hl; auto. apply OE_spec in Hu; auto.
    rewrite Zle_Qle. apply (opt_ends_ordered (SZ m) 1 beta (fZ hit) k); auto. unfold kap. lra.
  Qed.

  Lemma lcp_run n : exists zs bs,
    integral_lcp outside p 0 n = Ok (map single zs, match n with O => None | _ => Some bs end) /\
    length bs = n /\ feasible_schedule (Z.of_nat n) [m] (map single zs) /\
    forall i, (i < n)%nat -> exists b z,
      nth_error bs i = Some b /\ nth_error zs i = Some z /\
      ends_optimally hit m beta false (Z.of_nat i + 1) (bm_lower b) /\
      ends_optimally hit m beta true (Z.of_nat i + 1) (bm_upper b) /\
      ((0 < beta)%Q -> bm_lower b <= bm_upper b /\
                       nearest (bm_lower b) (bm_upper b) (last (firstn i zs) 0) z).
  Proof.
    destruct (lcp_run_state n) as (zs & bs & E & [Lz Lb Hr Hl He Hp]). exists zs, bs. split; [exact E|].
    split; [exact Lb|]. split; [rewrite <- Lz; apply singles_feasible; auto|].
    intros i Hi. destruct (nth_error bs i) as [b|] eqn:Eb. 2: { apply nth_error_None in Eb. lia. }
    destruct (nth_error zs i) as [z|] eqn:Ez. 2: { apply nth_error_None in Ez. lia. }
    exists b, z. destruct (He i b Eb) as [H1 H2].
    apply OE_spec in H1; auto. apply OE_spec in H2; auto.
    replace (Z.of_nat (S i)) with (Z.of_nat i + 1) in * by lia.
    repeat split; auto; intros.
    - eapply bounds_ordered; eauto.
    - assert (Hlu : bm_lower b <= bm_upper b) by (eapply bounds_ordered; eauto).
      rewrite (Hp i b z Eb Ez). apply project_nearest; auto.
    - assert (Hlu : bm_lower b <= bm_upper b) by (eapply bounds_ordered; eauto).
      rewrite (Hp i b z Eb Ez). apply project_nearest; auto.
    - assert (Hlu : bm_lower b <= bm_upper b) by (eapply bounds_ordered; eauto).
      rewrite (Hp i b z Eb Ez). apply project_nearest; auto.
  Qed.

  Lemma lcp_competitive n ys : feasible_schedule (Z.of_nat n) [m] ys ->
    exists xs mem, integral_lcp outside p 0 n = Ok (xs, mem) /\
      feasible_schedule (Z.of_nat n) [m] xs /\
      ele (prefix_cost hit beta false xs) (escale 3 (prefix_cost hit beta false ys)).
  Proof.
    intros Hy. destruct (lcp_run_state n) as (zs & bs & E & [Lz Lb Hr Hl He Hp]).
    exists (map single zs), (match n with O => None | _ => Some bs end). split; [exact E|].
    split; [rewrite <- Lz; apply singles_feasible; auto|].
    destruct (feasible_singles m _ _ Hy) as (wy & -> & Ly & Fy).
    rewrite (J_prefix hit beta).
    assert (EY := J_prefix hit beta false wy).
    eapply ele_trans.
    - apply (lazy_competitive (SZ m) (inject_Z m) 1 beta (SZ_proper m) (SZ_range m) (SZ_m hit m beta CC) (SZ_0 hit m beta CC)
               ltac:(lra) (cc_beta _ _ _ CC) (fZ hit) (fZ_proper hit) (fZ_convex hit m beta CC) (fZ_nonneg hit m beta CC)
               n (map inject_Z zs) (map inject_Z wy) Hl).
      + rewrite map_length. lia.
      + apply singles_S; auto.
    - destruct (prefix_cost hit beta false (map single wy)), (J 1 beta (fZ hit) false (map inject_Z wy)); simpl in *; auto; try contradiction. lra.
  Qed.
End Run.
