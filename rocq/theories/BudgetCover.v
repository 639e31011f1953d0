(** A configuration of finite cost in the SBLO image of a SLO instance covers the load. *)
From Coq Require Import Lia Lqa Setoid.
From Verif Require Import NumLemmas LoadModel LoadSpec CostSpec CostProofs ConvertProofs ConvertObjective LoadProofs LoadObjective
  BudgetModel BudgetSpec.
From Verif Require Import ProblemModel.
Local Open Scope Z_scope.

Lemma obind_inv {A B} (m : outcome A) (k : A -> outcome B) b :
  obind m k = Ok b -> exists a, m = Ok a /\ k a = Ok b.
Proof. destruct m; simpl; try discriminate. eauto. Qed.

Lemma from_option_inv {A} (o : option A) a : from_option o = Ok a -> o = Some a.
Proof. destruct o; simpl; congruence. Qed.

Lemma obj_add_fin a b : is_fin (obj_total (obj_add a b)) -> is_fin (obj_total a) /\ is_fin (obj_total b).
Proof.
  unfold obj_total, obj_add. simpl. rewrite !is_fin_eadd. tauto.
Qed.

Lemma sum_results_fin : forall l acc c, sum_results obj_add l acc = Ok (ROk c) -> is_fin (obj_total c) ->
  is_fin (obj_total acc) /\ forall m, In m l -> exists a, m = Ok (ROk a) /\ is_fin (obj_total a).
Proof.
  induction l as [|m l IH]; intros acc c H Hc; simpl in H.
  - assert (acc = c) by congruence. subst. split; [exact Hc|]. intros m [].
  - destruct m as [[a|f]|f|]; simpl in H; try discriminate.
    destruct (IH _ _ H Hc) as [H1 H2]. apply obj_add_fin in H1 as [H1 H3]. split; [exact H1|].
    intros m [<-|Hm]; eauto.
Qed.

Lemma sum_first_fin l z c : sum_first obj_add z l = Ok (ROk c) -> is_fin (obj_total c) ->
  forall m, In m l -> exists a, m = Ok (ROk a) /\ is_fin (obj_total a).
Proof.
  destruct l as [|m l]; intros H Hc; [intros ? []|]. simpl in H.
  destruct m as [[a|f]|f|]; simpl in H; try discriminate.
  destruct (sum_results_fin _ _ _ H Hc) as [H1 H2]. intros m [<-|Hm]; eauto.
Qed.

Section Cover.
  Context {T : Type}.
  Variable v : value T.
  Variable p : gslo T.
  Variable t : Z.
  Variable x : list T.
  Variable L : Q.
  Hypothesis Ht : 1 <= t.
  Hypothesis Hd : 0 < l_d p.
  Hypothesis Hx : Z.of_nat (length x) = l_d p.
  Hypothesis Hx0 : Forall (fun j => 0 <= v_toQ v j)%Q x.
  Let n := Z.to_nat (l_d p).

  Lemma fractions_total zs gs : (0 < L)%Q ->
    omap (fun k => get_fraction (mkFractions zs n 1) k 0 [L]) (seq 0 n) = Ok gs -> (Qsum gs == 1)%Q.
  Proof.
    intros HL H. assert (Hn : (0 < n)%nat) by (unfold n; lia).
    rewrite (seq_split_last n Hn), omap_app in H.
    rewrite (omap_ext _ (fun j => from_option (nth_error zs (j * 1 + 0))) (seq 0 (n - 1))) in H.
    2:{ intros k Hk. apply in_seq in Hk. rewrite get_fraction_S by exact Hn.
        replace (Nat.compare k (n - 1)) with Lt by (symmetry; apply Nat.compare_lt_iff; lia). reflexivity. }
    apply obind_inv in H as (js & Hjs & H). simpl in H.
    rewrite get_fraction_S in H by exact Hn. rewrite Nat.compare_refl in H.
    assert (E : Qltb 0 (load_total [L]) = true).
    { apply Qltb_iff. unfold load_total. simpl. lra. }
    rewrite E in H. cbn [nth_error from_option obind] in H. rewrite Hjs in H. cbn [obind] in H.
    assert (gs = js ++ [L / load_total [L] - Qsum js]%Q) by congruence. subst gs.
    rewrite Qsum_app. simpl. unfold load_total. simpl.
    assert (L / (L + 0) == 1)%Q as -> by (field; lra). ring.
  Qed.

  Lemma sblo_finite_covers zs c :
    sblo_objective v (into_sblo p) t x [L] (mkFractions zs n 1) = Ok (ROk c) -> is_fin (obj_total c) ->
    (L <= config_total v x)%Q.
  Proof.
    intros H Hc. unfold sblo_objective in H. simpl b_d in H. rewrite Hx, Z.eqb_refl in H.
    cbn [negb] in H. fold n in H.
    pose proof (sum_first_fin _ _ _ H Hc) as HT. clear H.
    assert (HK : forall k, (k < n)%nat -> exists g xk, get_fraction (mkFractions zs n 1) k 0 [L] = Ok g /\
      nth_error x k = Some xk /\ (L * g <= v_toQ v xk)%Q).
    { intros k Hk. destruct (HT _ (in_map _ (seq 0 n) k ltac:(apply in_seq; lia))) as (a & Ha & Hf).
      apply obind_inv in Ha as (ls & Hls & Ha). apply obind_inv in Ha as (q & Hq & Ha).
      apply obind_inv in Ha as (xk & Hxk & Ha). apply from_option_inv in Hq, Hxk.
      unfold select_loads in Hls. simpl in Hls. apply obind_inv in Hls as (q' & Hq' & Hls). simpl in Hls.
      apply obind_inv in Hq' as (g & Hg & Hq'). assert (ls = [q']) by congruence. subst ls.
      simpl in Hq. assert (q' = q) by congruence. subst q'. assert (q = L * g)%Q by congruence. subst q.
      exists g, xk. split; [exact Hg|]. split; [exact Hxk|].
      assert (Hxk0 : (0 <= v_toQ v xk)%Q).
      { rewrite Forall_forall in Hx0. apply Hx0. eapply nth_error_In, Hxk. }
      unfold safe_balancing in Ha. destruct (Qltb 0 (v_toQ v xk)) eqn:E1.
      - apply Qltb_iff in E1.
        destruct (from_option (nth_error (b_cost (into_sblo p)) k)) as [f|?|] eqn:Ef; simpl in Ha; try discriminate.
        apply from_option_inv in Ef. simpl in Ef. rewrite nth_error_map in Ef.
        destruct (nth_error (l_hitting p) k) as [ck|]; simpl in Ef; [|discriminate].
        assert (Ef' := f_equal (fun o => match o with Some y => y | None => f end) Ef). simpl in Ef'. subst f.
        match type of Ha with context [call_mean ?vm ?cf ?t' ?a'] =>
          pose proof (certain_call_mean unit_vmerge (fun _ l0 => Ok (if Qle_bool l0 1
            then mkCost (Fin ck) (MSuccess tt)
            else mkCost (D := dc_failure) Inf (MFailure SLOMaxUtilizationExceeded))) t a' Ht) as HC;
          destruct (call_mean vm cf t' a') as [cc|?|] end; simpl in HC; try contradiction.
        destruct HC as [HC _]. simpl in Ha.
        assert (Ea : a = (escale (v_toQ v xk) (c_cost cc), Fin 0)) by congruence. subst a.
        unfold obj_total in Hf. simpl in Hf. apply is_fin_eadd in Hf as [Hf _].
        destruct (Qle_bool (L * g / v_toQ v xk) 1) eqn:E2.
        + apply Qle_bool_iff in E2.
          assert (Hm : (L * g / v_toQ v xk * v_toQ v xk <= 1 * v_toQ v xk)%Q).
          { apply Qmult_le_compat_r; [exact E2|lra]. }
          assert (Hr : (L * g / v_toQ v xk * v_toQ v xk == L * g)%Q) by (field; lra).
          rewrite Hr in Hm. lra.
        + simpl in HC. destruct (c_cost cc); simpl in *; contradiction.
      - destruct (Qltb 0 (L * g)) eqn:E2; [discriminate|].
        apply Qltb_false in E2. lra. }
    destruct (Qlt_le_dec 0 L) as [HL|HL].
    2:{ assert (0 <= config_total v x)%Q; [|lra]. unfold config_total.
        assert (G : forall y, Forall (fun j => 0 <= v_toQ v j)%Q y -> (0 <= Qsum (map (v_toQ v) y))%Q).
        { intros y Hy. induction Hy as [|a y Ha Hy IH]; simpl; lra. }
        apply G, Hx0. }
    destruct (omap_exists (fun k => get_fraction (mkFractions zs n 1) k 0 [L]) (seq 0 n)) as [gs Hgs].
    { intros k Hk. apply in_seq in Hk. destruct (HK k) as (g & _ & Hg & _); [lia|]. eauto. }
    pose proof (fractions_total zs gs HL Hgs) as Hsum.
    assert (G : forall m, (m <= n)%nat -> forall hs, omap (fun k => get_fraction (mkFractions zs n 1) k 0 [L]) (seq 0 m) = Ok hs ->
      (L * Qsum hs <= Qsum (map (v_toQ v) (firstn m x)))%Q).
    { induction m as [|m IH]; intros Hm hs Hhs.
      - simpl in *. assert (hs = []) by congruence. subst. simpl. lra.
      - rewrite seq_S, omap_app in Hhs. apply obind_inv in Hhs as (hs1 & Hhs1 & Hhs).
        simpl in Hhs. destruct (HK m ltac:(lia)) as (g & xk & Hg & Hxk & Hle). rewrite Hg in Hhs. simpl in Hhs.
        assert (hs = hs1 ++ [g]) by congruence. subst hs.
        specialize (IH ltac:(lia) hs1 Hhs1).
        assert (Ef : firstn (S m) x = firstn m x ++ [xk]).
        { clear - Hxk. revert x Hxk. induction m as [|m IHm]; intros [|a x] Hxk; simpl in *; try discriminate; [congruence|].
          f_equal. apply IHm. exact Hxk. }
        rewrite Ef, map_app, !Qsum_app. simpl.
        assert (L * (Qsum hs1 + (g + 0)) == L * Qsum hs1 + L * g)%Q by ring. lra. }
    specialize (G n (le_n _) gs Hgs). rewrite firstn_all2 in G by (unfold n; lia).
    unfold config_total. rewrite Hsum in G. lra.
  Qed.
End Cover.

(** The hitting cost of the image computed with a solver that reports objective values. *)
Lemma image_cost_covers minimize (p : gslo Z) t x l c :
  1 <= t -> 0 < l_d p -> Z.of_nat (length x) = l_d p -> Forall (fun j => 0 <= j) x ->
  solver_reports minimize -> access (l_load p) t = Some l ->
  sblo_hit valZ minimize (into_sblo p) t x = Ok c -> is_fin (c_cost c) -> l <= zsum x.
Proof.
  intros Ht Hd Hx Hx0 Hsol Hl Hhit Hfin.
  assert (HZ : (inject_Z l <= config_total valZ x)%Q -> l <= zsum x).
  { unfold config_total. simpl. intros H. rewrite Zle_Qle.
    assert (E : (Qsum (map inject_Z x) == inject_Z (zsum x))%Q).
    { clear. induction x as [|a x IH]; simpl; [reflexivity|]. rewrite IH, inject_Z_plus. reflexivity. }
    rewrite <- E. exact H. }
  apply HZ. clear HZ.
  unfold sblo_hit, call_certain_within in Hhit.
  apply obind_inv in Hhit as (w & Hw & Hhit). destruct w.
  2:{ injection Hhit as Hc. rewrite <- Hc in Hfin. destruct Hfin. }
  unfold apply_loads_over_time in Hhit.
  rewrite certain_call_certain in Hhit by exact Ht.
  replace (t - 1 + 1) with t in Hhit by lia.
  assert (EL : access (map (fun l0 => [v_toQ valZ l0]) (b_load (into_sblo p))) t = Some [inject_Z l]).
  { unfold access in *. simpl b_load. rewrite map_length. destruct (_ && _); [|discriminate].
    rewrite nth_error_map, Hl. reflexivity. }
  rewrite EL in Hhit. cbn [from_option obind] in Hhit. clear EL.
  unfold apply_loads in Hhit. cbn [length Nat.eqb negb] in Hhit.
  destruct (_ <? _)%nat in Hhit; [discriminate|].
  destruct (negb _) in Hhit; [discriminate|].
  destruct (minimize _ _ _ _) as [[zs val]|] eqn:EM in Hhit; cbn [from_option obind fst snd] in Hhit; [|discriminate].
  apply Hsol in EM.
  destruct (sblo_objective valZ (into_sblo p) t x [inject_Z l] (new_fractions zs (Z.to_nat (b_d (into_sblo p))) 1))
    as [[o|f]|?|] eqn:EO; cbn [obind] in EM, Hhit; try discriminate.
  - assert (val = obj_total o) by congruence. subst val.
    destruct (_ && _) in Hhit; [|discriminate].
    assert (Ec : c_cost c = obj_total o) by (assert (c = mkCost (obj_total o) (MSuccess (mkDCS (fst o) (snd o) [[zs]]))) by congruence; subst c; reflexivity).
    rewrite Ec in Hfin. refine (sblo_finite_covers valZ p t x (inject_Z l) Ht Hd Hx _ _ _ EO Hfin).
    + rewrite Forall_forall in *. intros j Hj. specialize (Hx0 j Hj). simpl. change 0%Q with (inject_Z 0).
      rewrite <- Zle_Qle. exact Hx0.
  - assert (Ec : c_cost c = Inf).
    { assert (c = mkCost val (MFailure f)) by congruence. subst c. simpl. unfold obj_total, obj_failure in EM. simpl in EM. congruence. }
    rewrite Ec in Hfin. contradiction.
Qed.
