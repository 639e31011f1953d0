(** Correctness of the whole refinement of the one-dimensional graph search. *)
From Verif Require Import NumLemmas ObjectiveSpec Search1DModel Search1DProofs Search1DExchange.
Local Open Scope Z_scope.

Lemma in_rows_Forall2 (F : Z -> list Z) : forall xs pre ys,
  length ys = length xs ->
  (in_rows (fun t => match nth_error (pre ++ xs) (Z.to_nat (t - 1)) with
                     | Some x => F x | None => [] end)
           (1 + Z.of_nat (length pre)) ys
   <-> Forall2 (fun x y => In y (F x)) xs ys).
Proof.
  induction xs as [|x xs IH]; intros pre ys Hlen; destruct ys as [|y ys]; try discriminate.
  - cbn. split; auto.
  - cbn [in_rows].
    replace (Z.to_nat (1 + Z.of_nat (length pre) - 1)) with (length pre) by lia.
    rewrite nth_error_app2 by lia. rewrite Nat.sub_diag. cbn [nth_error].
    specialize (IH (pre ++ [x]) ys). rewrite <- app_assoc in IH. cbn [app] in IH.
    replace (1 + Z.of_nat (length (pre ++ [x]))) with (1 + Z.of_nat (length pre) + 1) in IH
      by (rewrite app_length; cbn [length]; lia).
    cbn [length] in Hlen.
    split.
    + intros [H1 H2]. constructor; [exact H1|]. apply IH; [lia|exact H2].
    + intros H. inversion H; subst. split; [assumption|]. apply IH; [lia|assumption].
Qed.

Section Levels.
  Variable hit : Z -> Z -> ext.
  Variable beta alpha : Q.
  Variable inverted : bool.
  Variable x_start : Z.
  Hypothesis kappa_nonneg : (0 <= alpha * beta)%Q.
  Variable n : nat.
  Variable m : Z.
  Variable c : Z -> Z.

  Local Notation pc := (pc hit beta alpha inverted 1 x_start).

  Definition on_grid (g : Z) (z : Z) : Prop := exists k, z = g * k.
  Definition grid (g : Z) (z : Z) : Prop := on_grid g z /\ 0 <= z <= c g.
  Definition grid_m (g : Z) (z : Z) : Prop := on_grid g z /\ 0 <= z <= m.

  Hypothesis c_mono : forall k, 0 <= k -> 2 * 2 ^ k <= m -> c (2 ^ k) <= c (2 * 2 ^ k).
  Hypothesis c_near : forall k, 0 <= k -> 2 * 2 ^ k <= m -> c (2 * 2 ^ k) - 2 * 2 ^ k <= c (2 ^ k).
  Hypothesis c_m : forall k, 0 <= k -> 2 ^ k <= m -> 0 <= c (2 ^ k) <= m.
  Hypothesis c_grid : forall k, 0 <= k -> 2 ^ k <= m -> on_grid (2 ^ k) (c (2 ^ k)).
  Hypothesis Hhit : forall k, 0 <= k -> 2 * 2 ^ k <= m ->
    hit_exchange hit (2 ^ k) (c (2 * 2 ^ k)) (c (2 ^ k)) n.
  Hypothesis Hclamp : forall k xs, 0 <= k -> 2 ^ k <= m -> length xs = n -> Forall (grid_m (2 ^ k)) xs ->
    is_fin (pc xs) ->
    Forall (fun z => z <= c (2 ^ k)) xs \/ elt (pc (map (Z.min (c (2 ^ k))) xs)) (pc xs).

  Definition opt (g : Z) (xs : list Z) : Prop :=
    length xs = n /\ Forall (grid g) xs /\ is_fin (pc xs) /\
    forall ys, length ys = n -> Forall (grid g) ys -> ele (pc xs) (pc ys).

  Definition window (k x : Z) : list Z :=
    filter (fun j => (0 <=? j) && (j <=? m)) (map (fun e => x + e * 2 ^ k) [-2; -1; 0; 1; 2]).

  Lemma In_window k x z : In z (window k x) <->
    0 <= z <= m /\ exists e, -2 <= e <= 2 /\ z = x + e * 2 ^ k.
  Proof.
    unfold window. rewrite filter_In, in_map_iff. split.
    - intros [(e & <- & He) Hb]. split; [lia|]. exists e. split; [|reflexivity].
      cbn in He. lia.
    - intros [Hb (e & He & ->)]. split; [|lia]. exists e. split; [reflexivity|].
      cbn. lia.
  Qed.

  Lemma level_step k xs : 0 <= k -> 2 * 2 ^ k <= m -> opt (2 * 2 ^ k) xs ->
    exists r, find_schedule hit beta alpha inverted x_start (Z.of_nat n) (select_next_rows m xs k) = Ok r /\
      opt (2 ^ k) (pa_xs r) /\ eeq (pa_cost r) (pc (pa_xs r)).
  Proof.
    intros Hk Hkm (Hlen & Hgrid & Hfin & Hopt).
    set (g := 2 ^ k) in *. assert (Hg : 0 < g) by (apply Z.pow_pos_nonneg; lia).
    assert (Hcm := c_mono k Hk Hkm). assert (Hcn := c_near k Hk Hkm).
    assert (Hcb := c_m k Hk ltac:(fold g; lia)).
    assert (Hc2 : c (2 * g) <= m).
    { assert (E : 2 ^ (k + 1) = 2 * g) by (rewrite Z.pow_add_r by lia; fold g; lia).
      generalize (c_m (k + 1) ltac:(lia)). rewrite E. lia. }
    fold g in Hcm, Hcn, Hcb.
    set (R := fun t => match nth_error xs (Z.to_nat (t - 1)) with
                       | Some x => window k x | None => [] end).
    assert (Hrow : forall ys, length ys = n ->
              (in_rows R 1 ys <-> Forall2 (fun x y => In y (window k x)) xs ys)).
    { intros ys Hy. apply (in_rows_Forall2 (window k) xs [] ys). lia. }
    destruct (find_schedule_spec hit beta alpha inverted x_start R (select_next_rows m xs k) n)
      as (r & Hr & Hmin & Hor).
    { intros i Hi. unfold select_next_rows, R.
      destruct (nth_error xs (Z.to_nat (Z.of_nat i - 1))) as [x|] eqn:E.
      2:{ apply nth_error_None in E. lia. }
      cbn [from_option obind]. split; [reflexivity|].
      apply nth_error_In in E. rewrite Forall_forall in Hgrid. apply Hgrid in E.
      destruct E as [_ Hb]. intros Hempty.
      assert (In x (window k x)) by (apply In_window; split; [lia|exists 0; lia]).
      rewrite Hempty in H. destruct H. }
    exists r. split; [exact Hr|].
    assert (Hxs_rows : in_rows R 1 xs).
    { apply Hrow; auto. clear -Hgrid Hc2. induction Hgrid as [|x l [_ Hb] _ IH]; constructor; auto.
      apply In_window; split; [lia|exists 0; lia]. }
    assert (Hcheap := Hmin xs Hlen Hxs_rows).
    destruct Hor as [->|(Rlen & Rrow & Rcost & Rfin)].
    { exfalso. cbn in Hcheap. destruct (pc xs); cbn in *; contradiction. }
    assert (Rfin' : is_fin (pc (pa_xs r))).
    { eapply eeq_fin; [symmetry; exact Rcost|exact Rfin]. }
    split; [|exact Rcost].
    assert (RF := Rrow). apply Hrow in RF; auto.
    assert (Rgm : Forall (grid_m g) (pa_xs r)).
    { clear -RF Hgrid. revert Hgrid. induction RF as [|x y l l' Hin RF IH]; intros Hgrid; constructor.
      - inversion Hgrid as [|? ? [[q Hq] _] ?]; subst. apply In_window in Hin. destruct Hin as [Hb (e & _ & ->)].
        split; [|exact Hb]. exists (2 * q + e). fold g. ring.
      - inversion Hgrid; subst. apply IH; auto. }
    assert (Rle : Forall (fun z => z <= c g) (pa_xs r)).
    { destruct (Hclamp k (pa_xs r) Hk ltac:(fold g; lia) Rlen Rgm Rfin') as [H|H]; [exact H|exfalso].
      fold g in H.
      apply elt_not_ele in H. apply H. rewrite <- Rcost. apply Hmin; [rewrite map_length; lia|].
      apply Hrow; [rewrite map_length; lia|].
      destruct (c_grid k Hk ltac:(fold g; lia)) as [cq Hcq]. fold g in Hcq.
      clear -RF Hgrid Hcq Hcn Hcm Hcb Hg. revert Hgrid.
      induction RF as [|x y l l' Hin RF IH]; intros Hgrid; cbn [map]; constructor.
      - inversion Hgrid as [|? ? [[q Hq] Hxb] ?]; subst. apply In_window in Hin.
        destruct Hin as [Hb (e & He & ->)]. apply In_window. split; [lia|].
        fold g. destruct (Z.min_spec (c g) (2 * g * q + e * g)) as [[? ->]|[? ->]].
        + exists (cq - 2 * q). split; [|rewrite Hcq; ring]. rewrite Hcq in *. nia.
        + exists e. split; [lia|ring].
      - inversion Hgrid; subst. apply IH; auto. }
    split; [exact Rlen|]. split.
    { clear -Rgm Rle. induction Rgm as [|z l [Hz Hb] _ IH]; constructor; inversion Rle; subst; auto.
      split; [exact Hz|lia]. }
    split; [exact Rfin'|].
    intros ys Hylen Hygrid.
    destruct (pc ys) as [qy|] eqn:Ey; [|apply ele_Inf].
    destruct (refine_window hit beta alpha inverted kappa_nonneg x_start g Hg (c (2 * g)) (c g)
                Hcm Hcn n (Hhit k Hk Hkm) xs Hlen Hgrid Hfin Hopt ys Hylen Hygrid)
      as (zs & Z1 & Z2 & Z3 & Z4).
    { rewrite Ey; exact I. }
    rewrite <- Rcost, <- Ey. eapply ele_trans; [|exact Z3]. apply Hmin; auto. apply Hrow; auto.
    clear -Z2 Z4 Hgrid Hcb Hg. revert Z2 Hgrid.
    induction Z4 as [|x z l l' Hxz Z4 IH]; intros Z2 Hgrid; constructor.
    - inversion Z2 as [|? ? [[a Ha] Hzb] ?]; inversion Hgrid as [|? ? [[b Hb] Hxb] ?]; subst.
      apply In_window. split; [lia|]. fold g. exists (a - 2 * b). split; [nia|ring].
    - inversion Z2; inversion Hgrid; subst. apply IH; auto.
  Qed.

  Variable j : Z.
  Hypothesis j_nonneg : 0 <= j.
  Hypothesis m_pow : m = 2 ^ j.

  Lemma refine_spec : forall (k : nat) p,
    2 ^ Z.of_nat k <= m -> opt (2 ^ Z.of_nat k) (pa_xs p) -> eeq (pa_cost p) (pc (pa_xs p)) ->
    exists r, refine hit beta alpha inverted x_start (Z.of_nat n) m k p = Ok r /\
      opt 1 (pa_xs r) /\ eeq (pa_cost r) (pc (pa_xs r)).
  Proof.
    induction k as [|k IH]; intros p Hkm Hopt Hc.
    - exists p. split; [reflexivity|]. split; [exact Hopt|exact Hc].
    - cbn [refine].
      assert (E : 2 ^ Z.of_nat (S k) = 2 * 2 ^ Z.of_nat k).
      { rewrite Nat2Z.inj_succ, Z.pow_succ_r by lia. reflexivity. }
      rewrite E in *.
      destruct (level_step (Z.of_nat k) (pa_xs p)) as (r & Hr & Ho & Hcr); [lia|lia|exact Hopt|].
      rewrite Hr. cbn [obind]. apply IH; auto.
      assert (0 < 2 ^ Z.of_nat k) by (apply Z.pow_pos_nonneg; lia). lia.
  Qed.

  Lemma k_init_pow : 2 ^ Z.of_nat (k_init m) = if 2 <? m then m / 4 else 1.
  Proof.
    unfold k_init. destruct (2 <? m) eqn:E; [|reflexivity].
    assert (2 <= j). { destruct (Z_lt_le_dec j 2); [|lia]. assert (j = 0 \/ j = 1) as [Hj | Hj] by lia; rewrite m_pow, Hj in E; discriminate. }
    rewrite m_pow, Z.log2_pow2 by lia. rewrite Z2Nat.id by lia.
    replace j with ((j - 2) + 2) at 2 by lia. rewrite Z.pow_add_r by lia.
    change (2 ^ 2) with 4. rewrite Z.div_mul by lia. reflexivity.
  Qed.

  Lemma initial_rows_grid z :
    In z (map (fun e => e * m / 4) [0; 1; 2; 3; 4]) <-> grid_m (2 ^ Z.of_nat (k_init m)) z.
  Proof.
    rewrite k_init_pow.
    destruct (Z_lt_le_dec j 2) as [Hj|Hj].
    - unfold grid_m, on_grid.
      assert (j = 0 \/ j = 1) as [Hj0 | Hj0] by lia; rewrite m_pow, Hj0; cbn.
      + split; [intros H; split; [exists z; destruct z; reflexivity|lia]|lia].
      + split; [intros H; split; [exists z; destruct z; reflexivity|lia]|lia].
    - assert (E : m = 4 * (m / 4)).
      { rewrite m_pow. replace j with ((j - 2) + 2) by lia. rewrite Z.pow_add_r by lia.
        change (2 ^ 2) with 4. rewrite Z.div_mul by lia. lia. }
      assert (0 < 2 ^ j) by (apply Z.pow_pos_nonneg; lia).
      assert (0 < m / 4) by lia.
      replace (2 <? m) with true by lia.
      set (g := m / 4) in *. unfold grid_m. clearbody g. rewrite E.
      replace (map (fun e => e * (4 * g) / 4) [0; 1; 2; 3; 4]) with [0 * g; 1 * g; 2 * g; 3 * g; 4 * g].
      2:{ cbn [map]. repeat match goal with |- context [?a * (4 * g) / 4] =>
            replace (a * (4 * g) / 4) with (a * g) by
              (replace (a * (4 * g)) with ((a * g) * 4) by ring; rewrite Z.div_mul by lia; reflexivity) end.
          reflexivity. }
      unfold on_grid. split.
      + cbn [In]. intros Hin.
        assert (exists q, 0 <= q <= 4 /\ z = q * g) as (q & Hq & ->).
        { repeat (destruct Hin as [<-|Hin]; [eexists; split; [|reflexivity]; lia|]). destruct Hin. }
        split; [exists q; ring|nia].
      + intros [[q ->] Hb]. assert (0 <= q <= 4) by nia.
        assert (q = 0 \/ q = 1 \/ q = 2 \/ q = 3 \/ q = 4) as Hq by lia.
        cbn [In]. destruct Hq as [-> | [-> | [-> | [-> | ->]]]]; lia.
  Qed.

  Lemma k_init_m : 2 ^ Z.of_nat (k_init m) <= m.
  Proof.
    rewrite k_init_pow. assert (0 < 2 ^ j) by (apply Z.pow_pos_nonneg; lia).
    destruct (2 <? m) eqn:E; [|lia]. apply Z.div_le_upper_bound; lia.
  Qed.

  Lemma initial_spec :
    (exists ys, length ys = n /\ Forall (grid_m (2 ^ Z.of_nat (k_init m))) ys /\ is_fin (pc ys)) ->
    exists r, find_schedule hit beta alpha inverted x_start (Z.of_nat n) (select_initial_rows m) = Ok r /\
      opt (2 ^ Z.of_nat (k_init m)) (pa_xs r) /\ eeq (pa_cost r) (pc (pa_xs r)).
  Proof.
    intros (fs & Flen & Fgrid & Ffin).
    set (k := Z.of_nat (k_init m)) in *. set (g := 2 ^ k) in *.
    assert (Hk : 0 <= k) by lia.
    assert (Hgm : g <= m) by apply k_init_m.
    set (R := fun _ : Z => map (fun e => e * m / 4) [0; 1; 2; 3; 4]).
    assert (Hrow : forall ys t, in_rows R t ys <-> Forall (grid_m g) ys).
    { induction ys as [|y ys IH]; intros t; cbn [in_rows]; [split; auto|].
      rewrite IH. unfold R at 1. rewrite initial_rows_grid. split.
      - intros [? ?]; constructor; auto.
      - intros H; inversion H; subst; auto. }
    destruct (find_schedule_spec hit beta alpha inverted x_start R (select_initial_rows m) n)
      as (r & Hr & Hmin & Hor).
    { intros i Hi. split; [reflexivity|]. unfold R. discriminate. }
    exists r. split; [exact Hr|].
    assert (Hcheap : ele (pa_cost r) (pc fs)) by (apply Hmin; auto; apply Hrow; auto).
    destruct Hor as [->|(Rlen & Rrow & Rcost & Rfin)].
    { exfalso. cbn in Hcheap. destruct (pc fs); cbn in *; contradiction. }
    assert (Rfin' : is_fin (pc (pa_xs r))).
    { eapply eeq_fin; [symmetry; exact Rcost|exact Rfin]. }
    split; [|exact Rcost].
    apply Hrow in Rrow.
    assert (Hcb := c_m k Hk Hgm). fold g in Hcb.
    assert (Rle : Forall (fun z => z <= c g) (pa_xs r)).
    { destruct (Hclamp k (pa_xs r) Hk Hgm Rlen Rrow Rfin') as [H|H]; [exact H|exfalso].
      fold g in H. apply elt_not_ele in H. apply H. rewrite <- Rcost.
      apply Hmin; [rewrite map_length; lia|]. apply Hrow.
      rewrite Forall_map. eapply Forall_impl; [|exact Rrow]. intros z [Hz Hb].
      destruct (Z.min_spec (c g) z) as [[? ->]|[? ->]]; [|split; auto].
      split; [apply c_grid; auto|lia]. }
    split; [exact Rlen|]. split.
    { clear -Rrow Rle. induction Rrow as [|z l [Hz Hb] _ IH]; constructor; inversion Rle; subst; auto.
      split; [exact Hz|lia]. }
    split; [exact Rfin'|]. intros ys Hy Hgy. rewrite <- Rcost. apply Hmin; auto. apply Hrow.
    eapply Forall_impl; [|exact Hgy]. intros z [Hz Hb]. split; [exact Hz|lia].
  Qed.

  Theorem search_pow2_spec :
    (exists ys, length ys = n /\ Forall (grid_m (2 ^ Z.of_nat (k_init m))) ys /\ is_fin (pc ys)) ->
    exists r, search_pow2 hit beta alpha inverted x_start (Z.of_nat n) m = Ok r /\
      opt 1 (pa_xs r) /\ eeq (pa_cost r) (pc (pa_xs r)).
  Proof.
    intros Hf. unfold search_pow2. destruct (initial_spec Hf) as (r & -> & Ho & Hc).
    cbn [obind]. apply refine_spec; auto. apply k_init_m.
  Qed.
End Levels.
