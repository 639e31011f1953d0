(** The one-dimensional graph search on arbitrary bounds: power-of-two bounds and
    padded instances. *)
From Verif Require Import NumLemmas ObjectiveSpec ObjectiveProofs Search1DModel Search1DProofs Search1DExchange Search1DLevels.
Local Open Scope Z_scope.

Lemma inject_pos z : 0 < z -> (0 < inject_Z z)%Q.
Proof. intros. change 0%Q with (inject_Z 0). rewrite <- Zlt_Qlt. lia. Qed.

(** The slope of the padded cost beyond the bound exceeds every slope below it. *)
Lemma pad_slope (E A B eps : Q) (dl h y : Z) :
  0 < dl -> dl <= h -> h <= y -> (0 <= A)%Q -> (0 <= B)%Q -> (0 <= eps)%Q ->
  (E * inject_Z dl <= inject_Z h * (B - A))%Q ->
  (E <= inject_Z y * (B + eps) - A)%Q.
Proof.
  intros Hd Hdh Hhy HA HB He H.
  assert (H1 : (0 < inject_Z dl)%Q) by (apply inject_pos; lia).
  assert (H2 : (inject_Z dl <= inject_Z h)%Q) by (rewrite <- Zle_Qle; lia).
  assert (H3 : (inject_Z h <= inject_Z y)%Q) by (rewrite <- Zle_Qle; lia).
  assert (H4 : (1 <= inject_Z dl)%Q) by (change 1%Q with (inject_Z 1); rewrite <- Zle_Qle; lia).
  set (d := inject_Z dl) in *. set (hh := inject_Z h) in *. set (yy := inject_Z y) in *. clearbody d hh yy.
  assert (H5 : (0 <= yy * eps)%Q) by (apply Qmult_le_0_compat; lra).
  assert (H6 : (hh * B <= yy * B)%Q) by (apply Qmult_le_compat_r; lra).
  assert (H7 : (1 * B <= hh * B)%Q) by (apply Qmult_le_compat_r; lra).
  assert (H8 : (1 * A <= hh * A)%Q) by (apply Qmult_le_compat_r; lra).
  destruct (Qlt_le_dec B A) as [HBA|HBA].
  - (* B < A *)
    assert (E * d <= (B - A) * d)%Q.
    { assert (d * (A - B) <= hh * (A - B))%Q by (apply Qmult_le_compat_r; lra). lra. }
    assert (E <= B - A)%Q by (apply Qmult_lt_0_le_reg_r with (z := d); auto). lra.
  - destruct (Qlt_le_dec E 0).
    + lra.
    + assert (E * 1 <= E * d)%Q by (rewrite !(Qmult_comm E); apply Qmult_le_compat_r; lra). lra.
Qed.

Section Clamp.
  Variable hit : Z -> Z -> ext.
  Variable beta alpha : Q.
  Variable inverted : bool.
  Hypothesis kappa_nonneg : (0 <= alpha * beta)%Q.
  Variables n : nat.
  Variables m c : Z.
  Hypothesis hit_clamp : forall t z q, 1 <= t <= Z.of_nat n -> c < z <= m -> hit t z = Fin q ->
    exists q', hit t c = Fin q' /\ (q' < q)%Q.

  Lemma clamp_cost : forall xs t prev q,
    1 <= t -> t + Z.of_nat (length xs) <= Z.of_nat n + 1 ->
    Forall (fun z => 0 <= z <= m) xs ->
    pc hit beta alpha inverted t prev xs = Fin q ->
    exists q', pc hit beta alpha inverted t (Z.min c prev) (map (Z.min c) xs) = Fin q' /\
      (q' <= q)%Q /\ (Forall (fun z => z <= c) xs \/ (q' < q)%Q).
  Proof.
    induction xs as [|x xs IH]; intros t prev q Ht Hn Hb Hq.
    - cbn in *. inversion Hq; subst. exists 0%Q. split; auto. split; [lra|auto].
    - apply pc_cons_fin in Hq. destruct Hq as (h & r & Hh & Hr & Eq).
      inversion Hb as [|? ? Hx Hb']; subst. cbn [length] in Hn.
      destruct (IH (t + 1) x r) as (r' & Hr' & Hle & Hor); auto; [lia|lia|].
      assert (Hhit : exists h', hit t (Z.min c x) = Fin h' /\ (h' <= h)%Q /\ (x <= c \/ (h' < h)%Q)).
      { destruct (Z_le_gt_dec x c).
        - rewrite Z.min_r by lia. exists h. split; auto. split; [lra|auto].
        - rewrite Z.min_l by lia. destruct (hit_clamp t x h) as (h' & Hh' & Hlt); auto; [lia|lia|].
          exists h'. split; auto. split; [lra|auto]. }
      destruct Hhit as (h' & Hh' & Hhle & Hhor).
      cbn [map]. destruct (pc_cons_fin_intro hit beta alpha inverted t (Z.min c prev) (Z.min c x) (map (Z.min c) xs) h' r' Hh' Hr')
        as (q' & Hq' & Eq').
      exists q'. split; [exact Hq'|].
      assert (Hmv : (alpha * beta * inject_Z (mvz inverted (Z.min c prev) (Z.min c x))
                     <= alpha * beta * inject_Z (mvz inverted prev x))%Q).
      { rewrite !(Qmult_comm (alpha * beta)). apply Qmult_le_compat_r; [|exact kappa_nonneg].
        rewrite <- Zle_Qle. unfold mvz. destruct inverted; lia. }
      rewrite Eq, Eq'. split; [lra|].
      destruct Hhor as [Hxc|Hlt]; [|right; lra].
      destruct Hor as [HF|Hlt]; [left; constructor; auto|right; lra].
  Qed.
End Clamp.

Lemma pc_const_fin hit beta alpha inverted z (n : nat) : forall (k : nat) t prev,
  1 <= t -> t + Z.of_nat k <= Z.of_nat n + 1 ->
  (forall t, 1 <= t <= Z.of_nat n -> is_fin (hit t z)) ->
  is_fin (pc hit beta alpha inverted t prev (repeat z k)).
Proof.
  induction k as [|k IH]; intros t prev Ht Hn Hf; cbn [repeat pc]; [exact I|].
  apply is_fin_eadd. split.
  - unfold build_cost. apply is_fin_eadd. split; [apply Hf; lia|exact I].
  - apply IH; auto; lia.
Qed.

Section Cases.
  Variable hit : Z -> Z -> ext.
  Variable beta alpha : Q.
  Variable inverted : bool.
  Variable x_start : Z.
  Hypothesis kappa_nonneg : (0 <= alpha * beta)%Q.
  Variable n : nat.
  Variable j : Z.
  Hypothesis j_nonneg : 0 <= j.
  Local Notation m := (2 ^ j).
  Local Notation pc := (pc hit beta alpha inverted 1 x_start).

  Definition optimal_upto (b : Z) (r : path) : Prop :=
    length (pa_xs r) = n /\ Forall (fun z => 0 <= z <= b) (pa_xs r) /\
    is_fin (pa_cost r) /\ eeq (pa_cost r) (pc (pa_xs r)) /\
    forall ys, length ys = n -> Forall (fun z => 0 <= z <= b) ys -> ele (pa_cost r) (pc ys).

  Lemma opt_optimal (c : Z -> Z) r :
    opt hit beta alpha inverted x_start n c 1 (pa_xs r) -> eeq (pa_cost r) (pc (pa_xs r)) ->
    optimal_upto (c 1) r.
  Proof.
    intros (H1 & H2 & H3 & H4) Hc. split; [exact H1|]. split.
    { eapply Forall_impl; [|exact H2]. intros z [_ Hz]; exact Hz. }
    split; [eapply eeq_fin; eauto|]. split; [exact Hc|].
    intros ys Hy Hb. rewrite Hc. apply H4; auto.
    eapply Forall_impl; [|exact Hb]. intros z Hz. split; [exists z; lia|exact Hz].
  Qed.

  (** Power-of-two bounds. *)
  Lemma pow2_case :
    (forall t, 1 <= t <= Z.of_nat n -> convex_on m (hit t)) ->
    (forall t, 1 <= t <= Z.of_nat n -> is_fin (hit t m)) ->
    exists r, search_pow2 hit beta alpha inverted x_start (Z.of_nat n) m = Ok r /\ optimal_upto m r.
  Proof.
    intros Hconv Hfin.
    assert (Hm : 0 < m) by (apply Z.pow_pos_nonneg; lia).
    assert (Hgrid : forall k, 0 <= k -> 2 ^ k <= m -> on_grid (2 ^ k) m).
    { intros k Hk Hkm. assert (k <= j).
      { destruct (Z_le_gt_dec k j); auto. assert (2 ^ j < 2 ^ k) by (apply Z.pow_lt_mono_r; lia). lia. }
      exists (2 ^ (j - k)). rewrite <- Z.pow_add_r by lia. f_equal. lia. }
    destruct (search_pow2_spec hit beta alpha inverted x_start kappa_nonneg n m (fun _ => m)) with (j := j)
      as (r & Hr & Ho & Hc).
    - intros; lia.
    - intros k Hk _. assert (0 < 2 ^ k) by (apply Z.pow_pos_nonneg; lia). lia.
    - intros; lia.
    - exact Hgrid.
    - intros k Hk Hkm. apply convex_exchange with (m := m); [apply Z.pow_pos_nonneg; lia|exact Hconv|lia].
    - intros k xs Hk Hkm Hlen Hg _. left. eapply Forall_impl; [|exact Hg]. intros z [_ Hz]. lia.
    - exact j_nonneg.
    - reflexivity.
    - exists (repeat m n). split; [apply repeat_length|]. split.
      + apply Forall_forall. intros z Hz. apply repeat_spec in Hz. subst z. split; [|lia].
        apply Hgrid; [lia|]. apply (k_init_m m j); auto.
      + apply pc_const_fin with (n := n); [lia|lia|exact Hfin].
    - exists r. split; [exact Hr|]. apply (opt_optimal (fun _ => m)); auto.
  Qed.

  (** Padded bounds. *)
  Variable m0 : Z.
  Hypothesis m0_range : 0 <= m0 <= m.
  Variable f : Z -> Z -> ext.
  Variable eps : Q.
  Hypothesis eps_pos : (0 < eps)%Q.
  Hypothesis hit_low : forall t z, 0 <= z <= m0 -> hit t z = f t z.
  Hypothesis hit_high : forall t z, m0 < z <= m ->
    hit t z = escale (inject_Z z) (eadd (f t m0) (Fin eps)).
  Hypothesis f_conv : forall t, 1 <= t <= Z.of_nat n -> convex_on m0 (f t).
  Hypothesis f_fin : forall t, 1 <= t <= Z.of_nat n -> is_fin (f t m0).
  Hypothesis f_nonneg : forall t z, 1 <= t <= Z.of_nat n -> 0 <= z <= m0 -> ele (Fin 0) (f t z).
  Hypothesis x_start_le : x_start <= m0.

  Definition cpad (g : Z) : Z := (m0 + g - 1) / g * g.

  Lemma cpad_spec g : 0 < g -> m0 <= cpad g < m0 + g /\ on_grid g (cpad g).
  Proof.
    intros Hg. unfold cpad. split.
    - assert (E := Z.div_mod (m0 + g - 1) g ltac:(lia)).
      assert (B := Z.mod_pos_bound (m0 + g - 1) g Hg). nia.
    - exists ((m0 + g - 1) / g). ring.
  Qed.

  Lemma cpad_least g z : 0 < g -> m0 <= z -> on_grid g z -> cpad g <= z.
  Proof.
    intros Hg Hz [k ->]. destruct (cpad_spec g Hg) as [Hb [l Hl]]. rewrite Hl in *. assert (l < k + 1) by (apply Z.mul_lt_mono_pos_l with (p := g); lia). nia.
  Qed.

  Lemma pad_exchange g : 0 < g -> cpad (2 * g) <= m -> cpad g <= m ->
    hit_exchange hit g (cpad (2 * g)) (cpad g) n.
  Proof.
    intros Hg Hc2 Hc1 s M t x y qx qy Ht HM (Hxg & Hx) (Hyg & Hy) Hs Hqx Hqy.
    assert (HMg : 3 * g <= M * g) by nia.
    assert (Eg : (0 < inject_Z g)%Q) by (apply inject_pos; lia).
    assert (Hf0 := f_fin t Ht). apply is_fin_ex in Hf0. destruct Hf0 as [B HB].
    assert (HB0 : (0 <= B)%Q) by (generalize (f_nonneg t m0 Ht ltac:(lia)); rewrite HB; auto).
    unfold sgn in *. destruct s.
    - (* truncation from above *)
      replace (x + 2 * 1 * g) with (x + 2 * g) by lia. replace (y - 1 * g) with (y - g) by lia.
      destruct (Z_le_gt_dec y m0) as [Hym|Hym].
      + rewrite hit_low in Hqx, Hqy by lia.
        destruct (convex_slopes m0 (f t) x (x + 2 * g) (y - g) y qx qy) as (qb & qc & Hb & Hc & H); auto; try lia.
        exists qb, qc. rewrite !hit_low by lia. repeat split; auto.
        replace (y - (y - g)) with g in H by lia. replace (x + 2 * g - x) with (2 * g) in H by lia.
        rewrite inject_Z_mult in H. change (inject_Z 2) with 2%Q in H.
        apply Qmult_lt_0_le_reg_r with (z := inject_Z g); [exact Eg|]. lra.
      + assert (Hyc : y < m0 + g) by (destruct (cpad_spec g Hg); lia).
        rewrite hit_low in Hqx by lia. rewrite hit_high in Hqy by lia. rewrite HB in Hqy. cbn in Hqy.
        inversion Hqy; subst qy; clear Hqy.
        destruct (convex_slopes m0 (f t) x (x + 2 * g) (y - g) m0 qx B) as (qb & A & Hb & HA & H); auto; try lia.
        exists qb, A. rewrite !hit_low by lia. repeat split; auto.
        assert (HA0 : (0 <= A)%Q) by (generalize (f_nonneg t (y - g) Ht ltac:(lia)); rewrite HA; auto).
        replace (x + 2 * g - x) with (2 * g) in H by lia. rewrite inject_Z_mult in H. change (inject_Z 2) with 2%Q in H.
        assert (S := pad_slope ((qb - qx) / 2) A B eps (m0 - (y - g)) g y).
        assert ((qb - qx) / 2 <= inject_Z y * (B + eps) - A)%Q.
        { apply S; try lia; try lra. field_simplify. unfold Qdiv. change (/ 2)%Q with (1 # 2)%Q. 
          set (u := inject_Z (m0 - (y - g))) in *. clearbody u. lra. }
        unfold Qdiv in H0. change (/ 2)%Q with (1 # 2)%Q in H0. lra.
    - (* truncation from below *)
      replace (x + 2 * -1 * g) with (x - 2 * g) by lia. replace (y - -1 * g) with (y + g) by lia.
      destruct (Z_le_gt_dec x m0) as [Hxm|Hxm].
      + rewrite hit_low in Hqx, Hqy by lia.
        destruct (convex_slopes m0 (f t) y (y + g) (x - 2 * g) x qy qx) as (qb & qc & Hb & Hc & H); auto; try lia.
        exists qc, qb. rewrite !hit_low by lia. repeat split; auto.
        replace (y + g - y) with g in H by lia. replace (x - (x - 2 * g)) with (2 * g) in H by lia.
        rewrite inject_Z_mult in H. change (inject_Z 2) with 2%Q in H.
        apply Qmult_lt_0_le_reg_r with (z := inject_Z g); [exact Eg|]. lra.
      + assert (Hxc : x < m0 + 2 * g) by (destruct (cpad_spec (2 * g) ltac:(lia)); lia).
        rewrite hit_high in Hqx by lia. rewrite hit_low in Hqy by lia. rewrite HB in Hqx. cbn in Hqx.
        inversion Hqx; subst qx; clear Hqx.
        destruct (convex_slopes m0 (f t) y (y + g) (x - 2 * g) m0 qy B) as (qb & A & Hb & HA & H); auto; try lia.
        exists A, qb. rewrite !hit_low by lia. repeat split; auto.
        assert (HA0 : (0 <= A)%Q) by (generalize (f_nonneg t (x - 2 * g) Ht ltac:(lia)); rewrite HA; auto).
        replace (y + g - y) with g in H by lia.
        assert (S := pad_slope (2 * (qb - qy)) A B eps (m0 - (x - 2 * g)) (2 * g) x).
        assert (2 * (qb - qy) <= inject_Z x * (B + eps) - A)%Q.
        { apply S; try lia; try lra. rewrite inject_Z_mult. change (inject_Z 2) with 2%Q.
          set (u := inject_Z (m0 - (x - 2 * g))) in *. clearbody u. lra. }
        lra.
  Qed.

  Lemma cpad_m k : 0 <= k -> 2 ^ k <= m -> cpad (2 ^ k) <= m.
  Proof.
    intros Hk Hkm. apply cpad_least; [apply Z.pow_pos_nonneg; lia|lia|].
    assert (k <= j).
    { destruct (Z_le_gt_dec k j); auto. assert (2 ^ j < 2 ^ k) by (apply Z.pow_lt_mono_r; lia). lia. }
    exists (2 ^ (j - k)). rewrite <- Z.pow_add_r by lia. f_equal. lia.
  Qed.

  Lemma pad_clamp c t z q : m0 <= c -> 1 <= t <= Z.of_nat n -> c < z <= m -> hit t z = Fin q ->
    exists q', hit t c = Fin q' /\ (q' < q)%Q.
  Proof.
    intros Hc Ht Hz Hq.
    assert (Hf0 := f_fin t Ht). apply is_fin_ex in Hf0. destruct Hf0 as [B HB].
    assert (HB0 : (0 <= B)%Q) by (generalize (f_nonneg t m0 Ht ltac:(lia)); rewrite HB; auto).
    rewrite hit_high, HB in Hq by lia. cbn in Hq. inversion Hq; subst q; clear Hq.
    assert (H1 : (1 <= inject_Z z)%Q) by (change 1%Q with (inject_Z 1); rewrite <- Zle_Qle; lia).
    destruct (Z.eq_dec c m0) as [->|Hne].
    - exists B. rewrite hit_low by lia. split; auto.
      assert (1 * (B + eps) <= inject_Z z * (B + eps))%Q by (apply Qmult_le_compat_r; lra). lra.
    - rewrite hit_high, HB by lia. cbn. eexists. split; [reflexivity|].
      apply Qmult_lt_compat_r; [lra|]. rewrite <- Zlt_Qlt. lia.
  Qed.

  Lemma pad_case :
    exists r, search_pow2 hit beta alpha inverted x_start (Z.of_nat n) m = Ok r /\ optimal_upto m0 r.
  Proof.
    assert (Hm : 0 < m) by (apply Z.pow_pos_nonneg; lia).
    assert (Hpow : forall k, 0 <= k -> 0 < 2 ^ k) by (intros; apply Z.pow_pos_nonneg; lia).
    assert (Hkb : forall k, 0 <= k -> 2 ^ k <= m -> 0 <= cpad (2 ^ k) <= m).
    { intros k Hk Hkm. split; [|apply cpad_m; auto]. destruct (cpad_spec (2 ^ k) (Hpow k Hk)); lia. }
    assert (Hk2 : forall k, 0 <= k -> 2 ^ (k + 1) = 2 * 2 ^ k).
    { intros k Hk. rewrite Z.pow_add_r by lia. lia. }
    destruct (search_pow2_spec hit beta alpha inverted x_start kappa_nonneg n m cpad) with (j := j)
      as (r & Hr & Ho & Hc).
    - intros k Hk Hkm. specialize (Hpow k Hk). apply cpad_least; [lia| |].
      + destruct (cpad_spec (2 * 2 ^ k)); lia.
      + destruct (cpad_spec (2 * 2 ^ k)) as [_ [l Hl]]; [lia|]. exists (2 * l). rewrite Hl. ring.
    - intros k Hk Hkm. specialize (Hpow k Hk).
      destruct (cpad_spec (2 * 2 ^ k)); [lia|]. destruct (cpad_spec (2 ^ k)); [lia|]. lia.
    - exact Hkb.
    - intros k Hk Hkm. destruct (cpad_spec (2 ^ k)); auto.
    - intros k Hk Hkm. specialize (Hpow k Hk). apply pad_exchange; [lia| |apply Hkb; lia].
      rewrite <- Hk2 by lia. apply Hkb; [lia|]. rewrite Hk2; lia.
    - intros k xs Hk Hkm Hlen Hg Hfin. apply is_fin_ex in Hfin. destruct Hfin as [q Hq].
      specialize (Hkb k Hk Hkm). specialize (Hpow k Hk). destruct (cpad_spec (2 ^ k)) as [Hcs _]; auto.
      destruct (clamp_cost hit beta alpha inverted kappa_nonneg n m (cpad (2 ^ k))) with (xs := xs) (t := 1) (prev := x_start) (q := q)
        as (q' & Hq' & _ & Hor); auto.
      + intros t z q0 Ht Hz Hh. eapply pad_clamp; eauto. lia.
      + lia.
      + lia.
      + eapply Forall_impl; [|exact Hg]. intros z [_ Hz]; exact Hz.
      + destruct Hor as [H|H]; [left; exact H|right]. rewrite Z.min_r in Hq' by lia. rewrite Hq, Hq'. exact H.
    - exact j_nonneg.
    - reflexivity.
    - assert (Hki : 2 ^ Z.of_nat (k_init m) <= m) by (apply (k_init_m m j); auto).
      set (g := 2 ^ Z.of_nat (k_init m)) in *.
      assert (Hg : 0 < g) by (apply Hpow; lia).
      destruct (cpad_spec g Hg) as [Hcs Hcg]. specialize (Hkb (Z.of_nat (k_init m)) ltac:(lia) Hki). fold g in Hkb.
      exists (repeat (cpad g) n). split; [apply repeat_length|]. split.
      + apply Forall_forall. intros z Hz. apply repeat_spec in Hz. subst z. split; [exact Hcg|lia].
      + apply pc_const_fin with (n := n); [lia|lia|].
        intros t Ht. assert (Hf0 := f_fin t Ht). apply is_fin_ex in Hf0. destruct Hf0 as [B HB].
        destruct (Z.eq_dec (cpad g) m0) as [->|]; [rewrite hit_low, HB by lia; exact I|].
        rewrite hit_high, HB by lia. exact I.
    - exists r. split; [exact Hr|]. 
      assert (E : cpad 1 = m0) by (unfold cpad; rewrite Z.div_1_r; lia).
      rewrite <- E. apply opt_optimal; auto.
  Qed.
End Cases.

(** * Relation to the specification *)
Lemma pc_total_cost hit beta alpha inverted : forall xs t prev,
  eeq (pc hit beta alpha inverted t prev xs)
      (total_cost (fun t x => match x with [z] => hit t z | _ => Inf end)
                  (switching [beta] inverted) alpha t [prev] (map (fun z => [z]) xs)).
Proof.
  induction xs as [|x xs IH]; intros t prev; cbn [map total_cost pc]; [reflexivity|].
  rewrite IH. apply eadd_proper; [|reflexivity].
  rewrite build_cost_mvz. apply eadd_proper; [reflexivity|]. cbn.
  unfold switching, power_up, mvz. destruct inverted; ring.
Qed.

Lemma total_cost_ext {X} (P : X -> Prop) f g sw alpha : forall xs t prev,
  (forall t' x, t <= t' < t + Z.of_nat (length xs) -> P x -> eeq (f t' x) (g t' x)) ->
  Forall P xs ->
  eeq (total_cost f sw alpha t prev xs) (total_cost g sw alpha t prev xs).
Proof.
  induction xs as [|x xs IH]; intros t prev H HP; cbn [total_cost]; [reflexivity|].
  inversion HP; subst. cbn [length] in H.
  apply eadd_proper; [apply eadd_proper; [apply H; auto; lia|reflexivity]|].
  apply IH; auto. intros t' y Ht Hy. apply H; auto. lia.
Qed.

Lemma is_pow_of_2_spec m : 0 <= m -> is_pow_of_2 m = true -> exists j, 0 <= j /\ m = 2 ^ j.
Proof.
  intros Hm H. unfold is_pow_of_2 in H. apply andb_true_iff in H. destruct H as [H1 H2].
  apply negb_true_iff, Z.eqb_neq in H1. apply Z.eqb_eq in H2.
  exists (Z.log2 m). split; [apply Z.log2_nonneg|].
  assert (Hs := Z.log2_spec m ltac:(lia)).
  destruct (Z_le_gt_dec m (2 ^ Z.log2 m)); [lia|exfalso].
  assert (E : Z.testbit (Z.land m (m - 1)) (Z.log2 m) = true).
  { rewrite Z.land_spec. rewrite Z.bit_log2 by lia.
    assert (El : Z.log2 (m - 1) = Z.log2 m).
    { apply Z.log2_unique; [apply Z.log2_nonneg|]. lia. }
    rewrite <- El. rewrite Z.bit_log2; [reflexivity|].
    assert (0 < 2 ^ Z.log2 m) by (apply Z.pow_pos_nonneg; [lia|apply Z.log2_nonneg]). lia. }
  rewrite H2, Z.bits_0 in E. discriminate.
Qed.

Lemma padded_bound_spec m : 0 <= m -> is_pow_of_2 m = false -> m <= padded_bound m.
Proof.
  intros Hm _. unfold padded_bound. destruct (Z.eq_dec m 0) as [->|]; [cbn; lia|].
  destruct (Z.eq_dec m 1) as [->|]; [cbn; lia|]. apply Z.log2_up_spec. lia.
Qed.

Section Final.
  Context {C D : Type}.
  Variable outside : D.

  Lemma feasible_singletons n m0 (ys : list (list Z)) :
    feasible_schedule n [m0] ys ->
    exists zs, ys = map (fun z => [z]) zs /\ Z.of_nat (length zs) = n /\ Forall (fun z => 0 <= z <= m0) zs.
  Proof.
    intros [Hl HF].
    assert (exists zs, ys = map (fun z => [z]) zs /\ Forall (fun z => 0 <= z <= m0) zs) as (zs & -> & Hz).
    { clear Hl. induction HF as [|y ys Hy _ (zs & -> & Hz)].
      - exists []. split; auto.
      - inversion Hy as [|? ? ? ? Hb Hnil]; subst. inversion Hnil; subst.
        eexists (_ :: zs). split; [reflexivity|]. constructor; auto. }
    exists zs. rewrite map_length in Hl. auto.
  Qed.

  Lemma singletons_feasible n m0 (zs : list Z) :
    Z.of_nat (length zs) = n -> Forall (fun z => 0 <= z <= m0) zs ->
    feasible_schedule n [m0] (map (fun z => [z]) zs).
  Proof.
    intros Hl HF. split; [rewrite map_length; exact Hl|].
    rewrite Forall_map. eapply Forall_impl; [|exact HF]. intros z Hz. constructor; [exact Hz|constructor].
  Qed.

  Lemma search_1d_final (p : ssco C D) (x_start : Z) (inverted : bool) (alpha beta : Q) (m0 : Z) :
    s_d p = 1 -> s_bounds p = [m0] -> s_switching p = [beta] -> 0 <= s_tend p -> 0 <= m0 ->
    (0 <= alpha)%Q -> (0 <= beta)%Q ->
    (forall t, 1 <= t <= s_tend p -> convex_on m0 (fun j => c_cost (s_hit p t [j]))) ->
    (forall t, 1 <= t <= s_tend p -> is_fin (c_cost (s_hit p t [m0]))) ->
    (is_pow_of_2 m0 = false ->
       x_start <= m0 /\
       forall t j, 1 <= t <= s_tend p -> 0 <= j <= m0 -> ele (Fin 0) (c_cost (s_hit p t [j]))) ->
    let J := total_cost (fun t x => c_cost (s_hit p t x)) (switching [beta] inverted) alpha 1 [x_start] in
    exists r,
      optimal_graph_search_1d outside p x_start inverted alpha None = Ok r /\
      is_fin (pa_cost r) /\
      let xs := map (fun j => [j]) (pa_xs r) in
      feasible_schedule (s_tend p) [m0] xs /\
      eeq (pa_cost r) (J xs) /\
      forall ys, feasible_schedule (s_tend p) [m0] ys -> ele (pa_cost r) (J ys).
  Proof.
    intros Hd Hb Hsw Ht Hm0 Ha Hbe Hconv Hfin Hpad J.
    set (hit := fun t j => c_cost (ssco_hit_cost outside
                   (if is_pow_of_2 m0 then p else make_pow_of_2 outside p m0) t [j])).
    set (m := if is_pow_of_2 m0 then m0 else padded_bound m0).
    assert (Hk : (0 <= alpha * beta)%Q) by (apply Qmult_le_0_compat; auto).
    set (n := Z.to_nat (s_tend p)). assert (Hn : s_tend p = Z.of_nat n) by (unfold n; lia).
    assert (Hm : m0 <= m).
    { unfold m. destruct (is_pow_of_2 m0) eqn:E; [lia|]. apply padded_bound_spec; auto. }
    assert (Hlow : forall t z, 0 <= z <= m0 -> hit t z = c_cost (s_hit p t [z])).
    { intros t z Hz. unfold hit, m in *. destruct (is_pow_of_2 m0).
      - unfold ssco_hit_cost. rewrite Hb. cbn. replace (0 <=? z) with true by lia.
        replace (z <=? m0) with true by lia. reflexivity.
      - unfold ssco_hit_cost at 1. cbn. replace (0 <=? z) with true by lia.
        replace (z <=? padded_bound m0) with true by lia. replace (z <=? m0) with true by lia. cbn.
        unfold ssco_hit_cost. rewrite Hb. cbn. replace (0 <=? z) with true by lia.
        replace (z <=? m0) with true by lia. reflexivity. }
    assert (Hsearch : exists r, search_pow2 hit beta alpha inverted x_start (Z.of_nat n) m = Ok r /\
                        optimal_upto hit beta alpha inverted x_start n m0 r).
    { assert (Hconv' : forall t, 1 <= t <= Z.of_nat n -> convex_on m0 (hit t)).
      { intros t Htt a b c qa qc Hab Hbc Hqa Hqc. rewrite Hlow in * by lia.
        apply (Hconv t); auto; lia. }
      unfold m in *. destruct (is_pow_of_2 m0) eqn:E.
      - destruct (is_pow_of_2_spec m0 Hm0 E) as (j & Hj & Ej). rewrite Ej in Hconv' |- *.
        apply pow2_case; auto. intros t Htt. rewrite <- Ej. rewrite Hlow by lia. apply Hfin; lia.
      - destruct (Hpad eq_refl) as [Hxs Hnn].
        apply pad_case with (f := fun t z => c_cost (s_hit p t [z])) (eps := f64_epsilon); auto.
        + apply Z.log2_up_nonneg.
        + reflexivity.
        + intros t z Hz. unfold hit, ssco_hit_cost at 1. cbn.
          change (2 ^ Z.log2_up m0) with (padded_bound m0) in Hz.
          replace (0 <=? z) with true by lia. replace (z <=? padded_bound m0) with true by lia.
          replace (z <=? m0) with false by lia. cbn.
          unfold ssco_hit_cost. rewrite Hb. cbn. replace (0 <=? m0) with true by lia.
          rewrite Z.leb_refl. reflexivity.
        + intros t Htt. apply Hconv; lia.
        + intros t Htt. apply Hfin; lia.
        + intros t z Htt Hz. apply Hnn; lia. }
    destruct Hsearch as (r & Hr & Rlen & Rb & Rfin & Rc & Rmin).
    assert (HJ : forall zs, length zs = n -> Forall (fun z => 0 <= z <= m0) zs ->
              eeq (pc hit beta alpha inverted 1 x_start zs) (J (map (fun z => [z]) zs))).
    { intros zs Hl HF. rewrite pc_total_cost. unfold J.
      apply total_cost_ext with (P := fun x => exists z, x = [z] /\ 0 <= z <= m0).
      - intros t' x Htt (z & -> & Hz). rewrite Hlow by lia. reflexivity.
      - rewrite Forall_map. eapply Forall_impl; [|exact HF]. intros z Hz. exists z. auto. }
    exists r. split.
    { unfold optimal_graph_search_1d. rewrite Hd, Hb, Hsw. cbn [Z.eqb negb Pos.eqb].
      rewrite Hn. exact Hr. }
    split; [exact Rfin|]. cbv zeta. split; [apply singletons_feasible; auto; lia|]. split.
    - rewrite Rc. apply HJ; auto.
    - intros ys Hys. apply feasible_singletons in Hys. destruct Hys as (zs & -> & Hl & HF).
      rewrite <- HJ by (auto; lia). apply Rmin; auto. lia.
  Qed.
End Final.

(** * What is reported, without any assumption on the costs *)
Section Sound.
  Variable hit : Z -> Z -> ext.
  Variable beta alpha : Q.
  Variable inverted : bool.
  Variable x_start : Z.
  Variable n : nat.
  Variable m : Z.
  Hypothesis m_nonneg : 0 <= m.

  Definition sound (r : path) : Prop :=
    r = mkPath [] Inf \/
    (length (pa_xs r) = n /\ Forall (fun z => 0 <= z <= m) (pa_xs r) /\ is_fin (pa_cost r) /\
     eeq (pa_cost r) (pc hit beta alpha inverted 1 x_start (pa_xs r))).

  Lemma in_rows_Forall (P : Z -> Prop) R : forall ys t,
    (forall t z, In z (R t) -> P z) -> in_rows R t ys -> Forall P ys.
  Proof.
    induction ys as [|y ys IH]; intros t HP H; constructor; destruct H as [H1 H2]; eauto.
  Qed.

  Lemma quarter_bound z : In z (map (fun e => e * m / 4) [0; 1; 2; 3; 4]) -> 0 <= z <= m.
  Proof.
    cbn [map In]. intros H. 
    repeat (destruct H as [<-|H]; [split; [apply Z.div_pos; lia|apply Z.div_le_upper_bound; lia]|]).
    destruct H.
  Qed.

  Lemma initial_sound r :
    find_schedule hit beta alpha inverted x_start (Z.of_nat n) (select_initial_rows m) = Ok r -> sound r.
  Proof.
    intros Hr.
    destruct (find_schedule_spec hit beta alpha inverted x_start
                (fun _ => map (fun e => e * m / 4) [0; 1; 2; 3; 4]) (select_initial_rows m) n)
      as (r' & Hr' & _ & Hor).
    { intros i Hi. split; [reflexivity|discriminate]. }
    rewrite Hr in Hr'. inversion Hr'; subst r'. destruct Hor as [->|(H1 & H2 & H3 & H4)]; [left; reflexivity|right].
    split; [exact H1|]. split; [|split; [exact H4|exact H3]].
    eapply in_rows_Forall; [|exact H2]. cbv beta. intros _ z Hz. apply quarter_bound; exact Hz.
  Qed.

  Lemma next_sound p k r : sound p ->
    find_schedule hit beta alpha inverted x_start (Z.of_nat n) (select_next_rows m (pa_xs p) k) = Ok r -> sound r.
  Proof.
    intros Hp Hr.
    destruct (Nat.eq_dec n 0) as [Hn|Hn].
    { rewrite Hn in Hr. cbn in Hr. rewrite Z.eqb_refl in Hr. cbn in Hr. inversion Hr; subst r. right. cbn.
      split; [lia|]. split; [constructor|]. split; [exact I|reflexivity]. }
    destruct Hp as [->|(H1 & H2 & _)].
    { exfalso. unfold find_schedule in Hr. rewrite zrange_cons in Hr by lia. cbn in Hr. discriminate. }
    set (R := fun t => match nth_error (pa_xs p) (Z.to_nat (t - 1)) with
                       | Some x => window m k x | None => [] end).
    destruct (find_schedule_spec hit beta alpha inverted x_start R (select_next_rows m (pa_xs p) k) n)
      as (r' & Hr' & _ & Hor).
    { intros i Hi. unfold select_next_rows, R.
      destruct (nth_error (pa_xs p) (Z.to_nat (Z.of_nat i - 1))) as [x|] eqn:E.
      2:{ apply nth_error_None in E. lia. }
      cbn [from_option obind]. split; [reflexivity|].
      apply nth_error_In in E. rewrite Forall_forall in H2. apply H2 in E. intros Hempty.
      assert (In x (window m k x)) by (apply In_window; split; [lia|exists 0; lia]).
      rewrite Hempty in H. destruct H. }
    rewrite Hr in Hr'. inversion Hr'; subst r'. destruct Hor as [->|(G1 & G2 & G3 & G4)]; [left; reflexivity|right].
    split; [exact G1|]. split; [|split; [exact G4|exact G3]].
    eapply in_rows_Forall; [|exact G2]. cbv beta. intros t z Hz. unfold R in Hz.
    destruct (nth_error (pa_xs p) (Z.to_nat (t - 1))); [|destruct Hz]. apply In_window in Hz. lia.
  Qed.

  Lemma search_pow2_sound r :
    search_pow2 hit beta alpha inverted x_start (Z.of_nat n) m = Ok r -> sound r.
  Proof.
    unfold search_pow2. intros H. apply obind_Ok in H. destruct H as (p & Hp & H).
    apply initial_sound in Hp. revert p Hp H. induction (k_init m) as [|k IH]; intros p Hp H; cbn [refine] in H.
    - inversion H; subst; exact Hp.
    - apply obind_Ok in H. destruct H as (p' & Hp' & H). apply next_sound in Hp'; auto. eapply IH; eauto.
  Qed.
End Sound.

Section Report.
  Context {C D : Type}.
  Variable outside : D.

  Lemma search_1d_report (p : ssco C D) (x_start : Z) (inverted : bool) (alpha beta : Q) (m0 : Z) r :
    s_bounds p = [m0] -> s_switching p = [beta] -> 0 <= s_tend p -> 0 <= m0 ->
    optimal_graph_search_1d outside p x_start inverted alpha None = Ok r ->
    let q := if is_pow_of_2 m0 then p else make_pow_of_2 outside p m0 in
    let xs := map (fun j => [j]) (pa_xs r) in
    (xs = [] /\ pa_cost r = Inf) \/
    (feasible_schedule (s_tend p) (s_bounds q) xs /\ is_fin (pa_cost r) /\
     eeq (pa_cost r)
       (total_cost (fun t x => c_cost (ssco_hit_cost outside q t x))
                   (switching [beta] inverted) alpha 1 [x_start] xs)).
  Proof.
    intros Hb Hsw Ht Hm0 Hr q xs.
    unfold optimal_graph_search_1d in Hr. destruct (negb (s_d p =? 1)); [discriminate|].
    rewrite Hb, Hsw in Hr. fold q in Hr.
    set (m := if is_pow_of_2 m0 then m0 else padded_bound m0) in *.
    assert (Hm : 0 <= m).
    { unfold m. destruct (is_pow_of_2 m0) eqn:E; auto. assert (H := padded_bound_spec m0 Hm0 E). lia. }
    assert (Hbq : s_bounds q = [m]).
    { unfold q, m. destruct (is_pow_of_2 m0); auto. }
    replace (s_tend p) with (Z.of_nat (Z.to_nat (s_tend p))) in Hr by lia.
    apply search_pow2_sound in Hr; [|exact Hm].
    destruct Hr as [->|(H1 & H2 & H3 & H4)]; [left; split; reflexivity|right].
    split.
    { rewrite Hbq. apply singletons_feasible; auto. lia. }
    split; [exact H3|]. rewrite H4, pc_total_cost.
    apply total_cost_ext with (P := fun x => exists z, x = [z]).
    - intros t' x _ (z & ->). reflexivity.
    - unfold xs. rewrite Forall_map. apply Forall_forall. intros z _. eauto.
  Qed.

  Lemma padded_bound_least m k : 0 <= m -> 0 <= k -> m <= 2 ^ k -> padded_bound m <= 2 ^ k.
  Proof.
    intros Hm Hk H. unfold padded_bound. apply Z.pow_le_mono_r; [lia|].
    destruct (Z_le_gt_dec m 1).
    - rewrite Z.log2_up_eqn0 by lia. exact Hk.
    - apply Z.log2_up_le_pow2; lia.
  Qed.

  Lemma pad_costs (p : ssco C D) m0 t j : s_bounds p = [m0] -> 0 <= j <= m0 ->
    ssco_hit_cost outside (make_pow_of_2 outside p m0) t [j] = ssco_hit_cost outside p t [j].
  Proof.
    intros Hb Hj. unfold ssco_hit_cost at 1. cbn.
    assert (m0 <= padded_bound m0).
    { unfold padded_bound. destruct (Z.eq_dec m0 0) as [->|]; [cbn; lia|].
      destruct (Z.eq_dec m0 1) as [->|]; [cbn; lia|]. apply Z.log2_up_spec. lia. }
    rewrite !(proj2 (Z.leb_le _ _)) by lia. reflexivity.
  Qed.
End Report.

Section Statements.
  Context {C D : Type}.

  Lemma search_1d_pow2 (outside : D) (p : ssco C D) (x_start : Z) (inverted : bool) (alpha beta : Q) (m : Z) :
    s_d p = 1 -> s_bounds p = [m] -> s_switching p = [beta] -> 0 <= s_tend p ->
    (exists k, 0 <= k /\ m = 2 ^ k) ->
    (0 <= alpha)%Q -> (0 <= beta)%Q ->
    (forall t, 1 <= t <= s_tend p -> convex_on m (fun j => c_cost (s_hit p t [j]))) ->
    (forall t, 1 <= t <= s_tend p -> is_fin (c_cost (s_hit p t [m]))) ->
    let J := total_cost (fun t x => c_cost (s_hit p t x)) (switching [beta] inverted) alpha 1 [x_start] in
    exists r,
      optimal_graph_search_1d outside p x_start inverted alpha None = Ok r /\
      is_fin (pa_cost r) /\
      let xs := map (fun j => [j]) (pa_xs r) in
      feasible_schedule (s_tend p) [m] xs /\
      eeq (pa_cost r) (J xs) /\
      forall ys, feasible_schedule (s_tend p) [m] ys -> ele (pa_cost r) (J ys).
  Proof.
    intros Hd Hb Hs Ht (k & Hk & Em) Ha Hbe Hc Hf.
    assert (Hm : 0 < m) by (rewrite Em; apply Z.pow_pos_nonneg; lia).
    apply search_1d_final; auto; [lia|].
    intros E. exfalso. unfold is_pow_of_2 in E. replace (m =? 0) with false in E by lia. cbn in E.
    apply Z.eqb_neq in E. apply E. rewrite Em.
    replace (2 ^ k - 1) with (Z.ones k) by (rewrite Z.ones_equiv; lia).
    rewrite Z.land_ones by lia. apply Z.mod_same. lia.
  Qed.

  Lemma search_1d_any (outside : D) (p : ssco C D) (x_start : Z) (inverted : bool) (alpha beta : Q) (m : Z) :
    s_d p = 1 -> s_bounds p = [m] -> s_switching p = [beta] -> 0 <= s_tend p ->
    0 <= m -> x_start <= m ->
    (0 <= alpha)%Q -> (0 <= beta)%Q ->
    (forall t, 1 <= t <= s_tend p -> convex_on m (fun j => c_cost (s_hit p t [j]))) ->
    (forall t, 1 <= t <= s_tend p -> is_fin (c_cost (s_hit p t [m]))) ->
    (forall t j, 1 <= t <= s_tend p -> 0 <= j <= m -> ele (Fin 0) (c_cost (s_hit p t [j]))) ->
    let J := total_cost (fun t x => c_cost (s_hit p t x)) (switching [beta] inverted) alpha 1 [x_start] in
    exists r,
      optimal_graph_search_1d outside p x_start inverted alpha None = Ok r /\
      is_fin (pa_cost r) /\
      let xs := map (fun j => [j]) (pa_xs r) in
      feasible_schedule (s_tend p) [m] xs /\
      eeq (pa_cost r) (J xs) /\
      forall ys, feasible_schedule (s_tend p) [m] ys -> ele (pa_cost r) (J ys).
  Proof. intros. apply search_1d_final; auto. Qed.

  Lemma padding_spec (outside : D) (p : ssco C D) (m : Z) :
    s_bounds p = [m] -> 0 <= m ->
    (forall t j, 0 <= j <= m ->
       ssco_hit_cost outside (make_pow_of_2 outside p m) t [j] = ssco_hit_cost outside p t [j]) /\
    exists k, 0 <= k /\ s_bounds (make_pow_of_2 outside p m) = [2 ^ k] /\ m <= 2 ^ k /\
              forall i, 0 <= i -> m <= 2 ^ i -> 2 ^ k <= 2 ^ i.
  Proof.
    intros Hb Hm. split; [intros; apply pad_costs; auto|].
    exists (Z.log2_up m). split; [apply Z.log2_up_nonneg|]. split; [reflexivity|]. split.
    - destruct (Z.eq_dec m 0) as [->|]; [cbn; lia|].
      destruct (Z.eq_dec m 1) as [->|]; [cbn; lia|]. apply Z.log2_up_spec. lia.
    - intros i Hi H. apply (padded_bound_least m i); auto.
  Qed.

  Lemma search_1d_objective (merge : C -> C -> C) (outside : D) (p : ssco C D) (x_start : Z)
         (inverted : bool) (alpha beta : Q) (m : Z) (r : path) :
    s_bounds p = [m] -> s_switching p = [beta] -> 0 <= s_tend p -> 0 <= m ->
    optimal_graph_search_1d outside p x_start inverted alpha None = Ok r ->
    let q := if is_pow_of_2 m then p else make_pow_of_2 outside p m in
    let xs := map (fun j => [j]) (pa_xs r) in
    (xs = [] /\ pa_cost r = Inf) \/
    (feasible_schedule (s_tend p) (s_bounds q) xs /\ is_fin (pa_cost r) /\
     forall s, eeq (pa_cost r)
       (c_cost (objective_with_default merge s (ssco_problem outside q) xs [x_start] alpha inverted (s_tend p)))).
  Proof.
    intros Hb Hs Ht Hm Hr q xs.
    destruct (search_1d_report outside p x_start inverted alpha beta m r Hb Hs Ht Hm Hr) as [H|(H1 & H2 & H3)];
      [left; exact H|right].
    split; [exact H1|]. split; [exact H2|]. intros s.
    fold q xs in H3. rewrite H3. symmetry.
    assert (Eq : s_tend q = s_tend p) by (unfold q; destruct (is_pow_of_2 m); reflexivity).
    assert (Es : s_switching q = [beta]) by (unfold q; destruct (is_pow_of_2 m); auto).
    rewrite <- Eq. rewrite objective_exact; [rewrite Es; reflexivity|].
    rewrite Eq. destruct H1 as [H1 _]. exact H1.
  Qed.

  Lemma search_1d_unsupported (outside : D) (p : ssco C D) (x_start : Z) (inverted : bool) (alpha : Q) (l : option Q) :
    (l <> None -> optimal_graph_search_1d outside p x_start inverted alpha l = Err UnsupportedLConstrainedMovement) /\
    (l = None -> s_d p <> 1 ->
       optimal_graph_search_1d outside p x_start inverted alpha l = Err UnsupportedProblemDimension).
  Proof.
    split.
    - destruct l; [reflexivity|congruence].
    - intros -> Hd. unfold optimal_graph_search_1d. rewrite (proj2 (Z.eqb_neq _ _) Hd). reflexivity.
  Qed.
End Statements.
