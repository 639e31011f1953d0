(** Further proofs about load distributions: conservation, consistency of hitting costs,
    sampling, SBLO as SSCO. *)
From Coq Require Import Lia Lqa Setoid.
From Verif Require Import NumLemmas LoadModel LoadSpec CostSpec CostProofs ConvertProofs ObjectiveProofs ConvertObjective LoadProofs.
From Verif Require Import ProblemModel.
Local Open Scope Z_scope.

(** *** Conservation *)
Lemma assigned_share zs d e lambda i l :
  (0 < d)%nat -> length zs = ((d - 1) * e)%nat -> length lambda = e ->
  (i < e)%nat -> nth_error lambda i = Some l -> (0 < load_total lambda)%Q ->
  exists assigned, omap (select_loads (mkFractions zs d e) lambda) (seq 0 d) = Ok assigned /\
    (Qsum (map (fun loads => nth i loads 0%Q) assigned) == l * (l / load_total lambda))%Q.
Proof.
  intros Hd Hz Hlam Hi Hl HL.
  destruct (fractions_sum zs d e lambda Hd Hz Hlam i l Hi Hl HL) as (gs & Hgs & Hsum).
  assert (G : forall ks gs, (forall k, In k ks -> (k < d)%nat) ->
    omap (fun k => get_fraction (mkFractions zs d e) k i lambda) ks = Ok gs ->
    exists assigned, omap (select_loads (mkFractions zs d e) lambda) ks = Ok assigned /\
      (Qsum (map (fun loads => nth i loads 0%Q) assigned) == l * Qsum gs)%Q).
  { clear gs Hgs Hsum. induction ks as [|k ks IH]; intros gs Hk H; simpl in H.
    - injection H as <-. exists []. split; [reflexivity|]. simpl. ring.
    - destruct (get_fraction _ k i lambda) as [g|?|] eqn:E; simpl in H; try discriminate.
      destruct (omap _ ks) as [gs'|?|] eqn:E' in H; simpl in H; try discriminate.
      assert (gs = g :: gs') by congruence. subst gs.
      destruct (IH gs') as (assigned & H1 & H2); [intros; apply Hk; right; assumption|exact E'|].
      destruct (select_ok zs d e lambda Hd Hz Hlam k) as (ls & H3 & H4 & H5); [apply Hk; left; reflexivity|].
      destruct (H5 i l Hi Hl) as (g' & Hg' & Hn). assert (g' = g) by congruence. subst g'.
      exists (ls :: assigned). simpl. rewrite H3. simpl. rewrite H1. split; [reflexivity|].
      simpl. rewrite (nth_error_nth ls i 0%Q Hn), H2. ring. }
  destruct (G (seq 0 d) gs) as (assigned & H1 & H2); [intros k Hk; apply in_seq in Hk; lia|exact Hgs|].
  exists assigned. split; [exact H1|]. rewrite H2, Hsum. reflexivity.
Qed.

Lemma fraction_nonneg zs d L k g : (0 < d)%nat -> distribution d zs -> (0 <= L)%Q -> (k < d)%nat ->
  get_fraction (mkFractions zs d 1) k 0 [L] = Ok g -> (0 <= g)%Q.
Proof.
  intros Hd (Hlen & Hz & Hs) HL Hk Hg.
  rewrite (fractions_ok zs d 1 [L]) with (l := L) in Hg; auto; try lia; try reflexivity.
  destruct (k <? d - 1)%nat eqn:E.
  - apply Nat.ltb_lt in E. assert (g = nth (k * 1 + 0) zs 0%Q) as -> by congruence.
    rewrite Forall_forall in Hz. apply Hz, nth_In. lia.
  - destruct (Qltb 0 (load_total [L])) eqn:EL.
    + assert (g = L / load_total [L] - Qsum (column zs 1 0 (d - 1)))%Q as -> by congruence.
      apply Qltb_iff in EL. unfold load_total in *. simpl in *.
      assert (Ec : column zs 1 0 (d - 1) = zs).
      { unfold column. apply nth_ext with (d := 0%Q) (d' := 0%Q).
        - rewrite map_length, seq_length. lia.
        - intros j Hj. rewrite map_length, seq_length in Hj.
          rewrite (nth_map_seq (fun j => nth (j * 1 + 0) zs 0%Q)) by exact Hj. f_equal. lia. }
      rewrite Ec. assert (L / (L + 0) == 1)%Q as -> by (field; lra). lra.
    + assert (g = 0%Q) as -> by congruence. lra.
Qed.

(** One job type: the whole load is assigned, in non-negative parts. *)
Lemma single_load_conserved zs d L :
  (0 < d)%nat -> distribution d zs -> (0 <= L)%Q ->
  exists assigned, omap (select_loads (mkFractions zs d 1) [L]) (seq 0 d) = Ok assigned /\
    Forall (fun loads => exists q, loads = [q] /\ (0 <= q)%Q) assigned /\
    (Qsum (map (fun loads => nth 0 loads 0%Q) assigned) == L)%Q.
Proof.
  intros Hd Hz HL. assert (Hz' := Hz). destruct Hz' as (Hlen & Hz0 & Hs).
  assert (Hlen' : length zs = ((d - 1) * 1)%nat) by lia.
  assert (HE : exists assigned, omap (select_loads (mkFractions zs d 1) [L]) (seq 0 d) = Ok assigned).
  { apply omap_exists. intros k Hk. apply in_seq in Hk.
    destruct (select_ok zs d 1 [L] Hd Hlen' eq_refl k) as (ls & H & _); [lia|]. eauto. }
  destruct HE as (assigned & HA).
  assert (HF : Forall (fun loads => exists q, loads = [q] /\ (0 <= q)%Q) assigned).
  { rewrite Forall_forall. intros loads Hin. apply In_nth_error in Hin as (k & Hk).
    assert (Hkd : (k < d)%nat).
    { assert (k < length assigned)%nat by (apply nth_error_Some; congruence).
      apply omap_length in HA. rewrite seq_length in HA. lia. }
    destruct (nth_error_omap _ _ _ k k HA) as (b & Hb & Hn).
    { rewrite (nth_error_nth' _ 0%nat) by (rewrite seq_length; lia). f_equal. apply seq_nth. lia. }
    assert (b = loads) by congruence. subst b.
    destruct (select_ok zs d 1 [L] Hd Hlen' eq_refl k Hkd) as (ls & H1 & H2 & H3).
    assert (ls = loads) by congruence. subst ls.
    destruct loads as [|q [|? ?]]; simpl in H2; try lia. exists q. split; [reflexivity|].
    destruct (H3 0%nat L) as (g & Hg & Hq); [lia|reflexivity|]. simpl in Hq. assert (q = L * g)%Q as -> by congruence.
    apply Qmult_le_0_compat; [exact HL|]. eapply fraction_nonneg; eauto. }
  exists assigned. split; [exact HA|]. split; [exact HF|].
  destruct (Qlt_le_dec 0 L) as [HP|HN].
  - destruct (assigned_share zs d 1 [L] 0%nat L Hd Hlen' eq_refl) as (assigned' & H1 & H2); [lia|reflexivity| |].
    + unfold load_total. simpl. lra.
    + assert (assigned' = assigned) by congruence. subst assigned'. rewrite H2. unfold load_total. simpl. field. lra.
  - assert (E : (L == 0)%Q) by lra.
    assert (G : forall ks asg, (forall k, In k ks -> (k < d)%nat) -> omap (select_loads (mkFractions zs d 1) [L]) ks = Ok asg ->
      (Qsum (map (fun loads => nth 0 loads 0%Q) asg) == 0)%Q).
    { induction ks as [|k ks IH]; intros asg Hk H; simpl in H.
      - injection H as <-. reflexivity.
      - destruct (select_loads _ [L] k) as [ls|?|] eqn:E1; simpl in H; try discriminate.
        destruct (omap _ ks) as [asg'|?|] eqn:E2 in H; simpl in H; try discriminate.
        assert (asg = ls :: asg') by congruence. subst asg. simpl. rewrite (IH asg'); auto.
        2:{ intros. apply Hk. right. assumption. }
        destruct (select_ok zs d 1 [L] Hd Hlen' eq_refl k) as (ls' & H1 & H2 & H3); [apply Hk; left; reflexivity|].
        assert (ls' = ls) by congruence. subst ls'.
        destruct (H3 0%nat L) as (g & _ & Hq); [lia|reflexivity|]. rewrite (nth_error_nth ls 0 0%Q Hq), E. ring. }
    rewrite (G (seq 0 d) assigned); [lra| |exact HA]. intros k Hk. apply in_seq in Hk. lia.
Qed.

(** *** Hitting costs *)
Lemma apply_loads_matches {T} (v : value T) minimize d e objective lambda t x c :
  apply_loads v minimize d e objective lambda t x = Ok c ->
  exists zs, match c_out c with
  | MSuccess s => exists energy revenue,
      objective t x lambda (new_fractions zs d e) = Ok (ROk (energy, revenue)) /\
      s = mkDCS energy revenue [[zs]] /\ eeq (c_cost c) (eadd energy revenue)
  | MFailure f => objective t x lambda (new_fractions zs d e) = Ok (RErr f)
  | MNone => False
  end.
Proof.
  unfold apply_loads. intros H.
  destruct (negb _); [discriminate|]. destruct (_ <? _)%nat; [discriminate|].
  destruct (negb _) in H; [discriminate|].
  destruct (minimize _ _ _ _) as [[zs val]|]; simpl in H; [|discriminate].
  destruct (objective t x lambda (new_fractions zs d e)) as [[[en re]|f]|?|] eqn:E; simpl in H; try discriminate.
  - destruct (eleb val _ && eleb _ val) eqn:EB; [|discriminate]. apply andb_true_iff in EB as [B1 B2].
    exists zs. assert (c = mkCost val (MSuccess (mkDCS en re [[zs]]))) by congruence. subst c. simpl.
    exists en, re. repeat split; auto. unfold obj_total in *. simpl in *.
    destruct val as [a|], (eadd en re) as [b|]; simpl in *; try discriminate; auto.
    apply Qle_bool_iff in B1, B2. lra.
  - exists zs. assert (c = mkCost val (MFailure f)) by congruence. subst c. simpl. exact E.
Qed.

Lemma apply_loads_job_types {T} (v : value T) minimize d e objective lambda t x :
  length lambda <> e -> apply_loads v minimize d e objective lambda t x = Panic.
Proof.
  intros H. unfold apply_loads. rewrite (proj2 (Nat.eqb_neq _ _)); [reflexivity|lia].
Qed.

(** *** Sampling *)
Lemma fold_min_le : forall l a, (fold_left Nat.min l a <= a)%nat /\ Forall (fun b => fold_left Nat.min l a <= b)%nat l.
Proof.
  induction l as [|b l IH]; intros a; simpl; [split; [lia|constructor]|].
  destruct (IH (Nat.min a b)) as [H1 H2]. split; [lia|]. constructor; [lia|exact H2].
Qed.
Lemma fold_max_ge : forall l a, (a <= fold_left Nat.max l a)%nat /\ Forall (fun b => b <= fold_left Nat.max l a)%nat l.
Proof.
  induction l as [|b l IH]; intros a; simpl; [split; [lia|constructor]|].
  destruct (IH (Nat.max a b)) as [H1 H2]. split; [lia|]. constructor; [lia|exact H2].
Qed.
Lemma fold_min_const : forall l a n, a = n -> Forall (fun b => b = n) l -> fold_left Nat.min l a = n.
Proof. induction l as [|b l IH]; intros a n Ha H; simpl; [auto|]. inversion H; subst. apply IH; auto. lia. Qed.
Lemma fold_max_const : forall l a n, a = n -> Forall (fun b => b = n) l -> fold_left Nat.max l a = n.
Proof. induction l as [|b l IH]; intros a n Ha H; simpl; [auto|]. inversion H; subst. apply IH; auto. lia. Qed.

(** The profiles are the chosen samples of the single job types. *)
Lemma samples_of_types choose l ps :
  sample_load_profiles choose l = Ok ps ->
  exists n, length ps = length l /\ Forall (fun zs => n <= length zs)%nat l /\
    forall i zs, nth_error l i = Some zs -> nth_error ps i = Some (choose i zs n).
Proof.
  unfold sample_load_profiles. intros H.
  destruct (smallest_sample_size l) as [s|]; simpl in H; [|discriminate].
  destruct (largest_sample_size l) as [m|]; simpl in H; [|discriminate].
  set (n := Nat.min (Nat.max s max_sample_size) m) in *. exists n.
  assert (Hlen : length (combine (seq 0 (length l)) l) = length l) by (rewrite combine_length, seq_length; lia).
  assert (HC : forall i zs, nth_error l i = Some zs -> nth_error (combine (seq 0 (length l)) l) i = Some (i, zs)).
  { assert (G : forall (l : list (list Q)) i zs k0, nth_error l i = Some zs ->
                nth_error (combine (seq k0 (length l)) l) i = Some ((k0 + i)%nat, zs)).
    { clear. induction l as [|a l IH]; intros i zs k0 E; simpl in *; [destruct i; discriminate|].
      destruct i as [|i]; simpl in *; [injection E as ->; f_equal; f_equal; lia|].
      rewrite (IH i zs (S k0) E). f_equal. f_equal. lia. }
    intros i zs E. apply (G l i zs 0%nat E). }
  split; [rewrite (omap_length _ _ _ H); exact Hlen|]. split.
  - rewrite Forall_forall. intros zs Hin. apply In_nth_error in Hin as (i & Hi).
    destruct (nth_error_omap _ _ _ i (i, zs) H (HC i zs Hi)) as (b & Hb & _). simpl in Hb.
    destruct (n <=? length zs)%nat eqn:E; [|discriminate]. apply Nat.leb_le in E. exact E.
  - intros i zs Hi. destruct (nth_error_omap _ _ _ i (i, zs) H (HC i zs Hi)) as (b & Hb & Hn). simpl in Hb.
    destruct (n <=? length zs)%nat; [|discriminate]. rewrite Hn. congruence.
Qed.

(** Samples that are all of size [n] are handled. *)
Lemma samples_equal_size choose l n :
  l <> [] -> Forall (fun zs => length zs = n) l -> 
  exists ps, sample_load_profiles choose l = Ok ps.
Proof.
  intros Hne HF. unfold sample_load_profiles, smallest_sample_size, largest_sample_size.
  destruct l as [|a l]; [contradiction|]. inversion HF; subst. cbn [map].
  assert (HF' : Forall (fun b => b = length a) (map (@length Q) l)).
  { rewrite Forall_forall in *. intros b Hb. apply in_map_iff in Hb as (zs & <- & Hz). auto. }
  rewrite (fold_min_const _ _ (length a)), (fold_max_const _ _ (length a)) by auto.
  cbn [from_option obind]. replace (Nat.min (Nat.max (length a) max_sample_size) (length a)) with (length a) by lia.
  apply omap_exists. intros (i, zs) Hin. simpl. apply in_combine_r in Hin.
  rewrite Forall_forall in HF. rewrite (HF zs Hin), Nat.leb_refl. eauto.
Qed.

(** Two job types with different numbers of samples, all below the maximum: panic. *)
Lemma samples_different_size choose l a b :
  In a l -> In b l -> (length a < length b)%nat -> (length a < max_sample_size)%nat ->
  sample_load_profiles choose l = Panic.
Proof.
  intros Ha Hb Hlt Hmax.
  destruct (sample_load_profiles choose l) as [ps|f|] eqn:E; [| |reflexivity].
  - exfalso. unfold sample_load_profiles in E.
    destruct l as [|a0 l]; [destruct Ha|].
    unfold smallest_sample_size, largest_sample_size in E. cbn [map from_option obind] in E.
    set (n := Nat.min _ _) in E.
    assert (Hn : (length a < n)%nat).
    { subst n. apply Nat.min_glb_lt.
      - lia.
      - destruct (fold_max_ge (map (@length Q) l) (length a0)) as [H1 H2]. destruct Hb as [->|Hb]; [lia|].
        rewrite Forall_forall in H2. specialize (H2 (length b) (in_map _ _ _ Hb)). lia. }
    apply In_nth_error in Ha as (i & Hi).
    assert (G : forall (l : list (list Q)) i zs k0, nth_error l i = Some zs ->
                nth_error (combine (seq k0 (length l)) l) i = Some ((k0 + i)%nat, zs)).
    { clear. induction l as [|a l IH]; intros i zs k0 E; simpl in *; [destruct i; discriminate|].
      destruct i as [|i]; simpl in *; [injection E as ->; f_equal; f_equal; lia|].
      rewrite (IH i zs (S k0) E). f_equal. f_equal. lia. }
    destruct (nth_error_omap _ _ _ i (i, a) E (G _ _ _ 0%nat Hi)) as (c & Hc & _). simpl in Hc.
    rewrite (proj2 (Nat.leb_gt _ _)) in Hc by lia. discriminate.
  - exfalso. unfold sample_load_profiles in E.
    destruct (smallest_sample_size l) as [sm|]; simpl in E; [|discriminate].
    destruct (largest_sample_size l) as [la|]; simpl in E; [|discriminate].
    set (n := Nat.min _ _) in E. clearbody n. revert E. generalize (combine (seq 0 (length l)) l). clear.
    intros l. induction l as [|[i zs] l IH]; intros E; simpl in E; [discriminate|].
    destruct (n <=? length zs)%nat; simpl in E; [|discriminate].
    destruct (omap _ l) as [?|?|]; simpl in E; try discriminate. apply IH. congruence.
Qed.

(** *** SBLO as SSCO *)
Lemma objective_o_rel {X C D} (merge : C -> C -> C) s (p q : oproblem X C D) xs x0 alpha inverted t_end :
  op_tend p = op_tend q ->
  (forall t x, 1 <= t <= t_end -> outcome_rel cost_eq (op_hit p t x) (op_hit q t x)) ->
  (forall prev x, op_move p prev x inverted = op_move q prev x inverted) ->
  outcome_rel cost_eq (objective_o merge s p xs x0 alpha inverted t_end)
                      (objective_o merge s q xs x0 alpha inverted t_end).
Proof.
  intros Ht Hh Hm. unfold objective_o.
  assert (G : forall ts, (forall t, In t ts -> 1 <= t <= t_end) ->
    match omap (fun t => step_cost_o p alpha inverted t (get_or xs x0 (t - 1)) (get_or xs x0 t)) ts,
          omap (fun t => step_cost_o q alpha inverted t (get_or xs x0 (t - 1)) (get_or xs x0 t)) ts with
    | Ok a, Ok b => eeq (esum (map c_cost a)) (esum (map c_cost b)) /\ map c_out a = map c_out b
    | Err e, Err e' => e = e'
    | Panic, Panic => True
    | _, _ => False
    end).
  { induction ts as [|t ts IH]; intros Hts; simpl.
    - split; reflexivity.
    - specialize (IH (fun t' H' => Hts t' (or_intror H'))).
      assert (HS : outcome_rel cost_eq
        (step_cost_o p alpha inverted t (get_or xs x0 (t - 1)) (get_or xs x0 t))
        (step_cost_o q alpha inverted t (get_or xs x0 (t - 1)) (get_or xs x0 t))).
      { specialize (Hh t (get_or xs x0 t) (Hts t (or_introl eq_refl))).
        unfold step_cost_o. rewrite Ht, Hm.
        destruct (op_tend q <? t); cbn [obind].
        - destruct (op_move q _ _ inverted); simpl; auto. split; reflexivity.
        - destruct (op_hit p t _) as [a|f|], (op_hit q t _) as [b|f'|]; simpl in *; try contradiction; auto.
          destruct (op_move q _ _ inverted); simpl; auto. destruct Hh as [H1 H2].
          split; simpl; [rewrite H1; reflexivity|exact H2]. }
      destruct (step_cost_o p _ _ _ _ _) as [a|f|], (step_cost_o q _ _ _ _ _) as [b|f'|];
        simpl in HS; try contradiction; cbn [obind]; auto.
      destruct (omap (fun t => step_cost_o p _ _ _ _ _) ts) as [as_|f|],
               (omap (fun t => step_cost_o q _ _ _ _ _) ts) as [bs|f'|]; cbn [obind] in *; try contradiction; auto.
      destruct IH as [I1 I2]. destruct HS as [H1 H2]. split; simpl; [|congruence].
      rewrite I1, H1. reflexivity. }
  specialize (G (zrange 1 t_end) (fun t H => proj1 (zrange_In 1 t_end t) H)).
  destruct (omap _ (zrange 1 t_end)) as [a|f|]; destruct (omap _ (zrange 1 t_end)) as [b|f'|];
    simpl in *; try contradiction; auto.
  destruct G as [G1 G2]. split; [rewrite !par_sum_cost; exact G1|apply par_sum_out_ext; exact G2].
Qed.

Lemma into_ssco_hit {T} (v : value T) minimize (p : gsblo T) t x : 1 <= t ->
  outcome_rel cost_eq (gssco_hit v dc_vmerge OutsideDecisionSpace (into_ssco v minimize p) t x)
                      (sblo_hit v minimize p t x).
Proof.
  intros Ht. unfold gssco_hit, call_mean_within. cbn [into_ssco g_bounds g_cost].
  pose proof (certain_call_mean dc_vmerge (fun t x => sblo_hit v minimize p t x) t x Ht) as HC.
  destruct (within_upper v (b_bounds p) x) as [b|f|] eqn:E; cbn [obind].
  - destruct b; [exact HC|]. unfold sblo_hit, call_certain_within. rewrite E. cbn [obind].
    apply outcome_cost_refl.
  - unfold sblo_hit, call_certain_within. rewrite E. simpl. reflexivity.
  - unfold sblo_hit, call_certain_within. rewrite E. simpl. exact I.
Qed.

Lemma into_ssco_objective {T} (v : value T) minimize merge s (p : gsblo T) xs x0 alpha inverted :
  outcome_rel cost_eq
    (objective_o merge s (gssco_problem v dc_vmerge OutsideDecisionSpace (into_ssco v minimize p)) xs x0 alpha inverted (b_tend p))
    (objective_o merge s (sblo_problem v minimize p) xs x0 alpha inverted (b_tend p)).
Proof.
  apply objective_o_rel; [reflexivity| |reflexivity].
  intros t x Ht. apply into_ssco_hit. lia.
Qed.

(** *** SLO as SBLO *)
Lemma slo_finite_iff {T} (v : value T) (p : gslo T) t x l :
  0 < l_d p -> Z.of_nat (length (l_hitting p)) = l_d p -> Z.of_nat (length x) = l_d p ->
  access (l_load p) t = Some l ->
  (exists q, cost_number (slo_hit v p t x) = Some (Fin q)) <-> (v_toQ v l <= config_total v x)%Q.
Proof.
  intros Hd Hh Hx Hl. rewrite (slo_value v p t x l Hd Hh Hx Hl).
  destruct (Qltb (config_total v x) (v_toQ v l)) eqn:E; simpl.
  - apply Qltb_iff in E. split; [intros (q & H); discriminate|intros; lra].
  - apply Qltb_false in E. split; [intros _; exact E|intros _; eauto].
Qed.

Lemma into_sblo_covers {T} (v : value T) (p : gslo T) t x l :
  1 <= t -> 0 < l_d p -> Z.of_nat (length (l_hitting p)) = l_d p -> Z.of_nat (length x) = l_d p ->
  Forall (fun j => 0 <= v_toQ v j)%Q x -> access (l_load p) t = Some l -> (0 <= v_toQ v l)%Q ->
  let finite zs q := distribution (length x) zs /\
    objective_value (sblo_objective v (into_sblo p) t x [v_toQ v l] (mkFractions zs (length x) 1)) = Some (Fin q) in
  ((exists zs q, finite zs q) <-> (v_toQ v l <= config_total v x)%Q) /\
  (forall zs q, finite zs q -> (q == dot (l_hitting p) (map (v_toQ v) x))%Q /\
     exists q', cost_number (slo_hit v p t x) = Some (Fin q') /\ (q == q')%Q).
Proof.
  intros Ht Hd Hh Hx Hx0 Hl Hl0. cbv zeta.
  replace (length x) with (Z.to_nat (l_d p)) by lia.
  assert (HA : forall zs q, distribution (Z.to_nat (l_d p)) zs /\
    objective_value (sblo_objective v (into_sblo p) t x [v_toQ v l] (mkFractions zs (Z.to_nat (l_d p)) 1)) = Some (Fin q) ->
    exists q', cost_number (slo_hit v p t x) = Some (Fin q') /\ (q == q')%Q).
  { intros zs q [H1 H2]. eapply sblo_finite; eauto. }
  split; [split|].
  - intros (zs & q & H). destruct (HA zs q H) as (q' & Hq & _). eapply slo_finite_iff; eauto.
  - intros H. apply sblo_supported; auto.
  - intros zs q H. destruct (HA zs q H) as (q' & Hq & Heq). split; [|eauto].
    rewrite (slo_value v p t x l Hd Hh Hx Hl) in Hq.
    destruct (Qltb _ _); simpl in Hq; [discriminate|].
    assert (q' = Qsum (map (fun k => nth k (l_hitting p) 0%Q * v_toQ v (nth k x l))%Q (seq 0 (Z.to_nat (l_d p))))) by congruence.
    rewrite Heq. subst q'. unfold dot.
    assert (G : forall (h : list Q) (y : list T), length h = length y ->
      map (fun k => nth k h 0%Q * v_toQ v (nth k y l))%Q (seq 0 (length y)) =
      map (fun p => fst p * snd p)%Q (combine h (map (v_toQ v) y))).
    { clear. induction h as [|a h IH]; intros [|j y] H; simpl in *; try lia; [reflexivity|].
      f_equal. rewrite <- seq_shift, map_map. simpl. apply IH. lia. }
    replace (Z.to_nat (l_d p)) with (length x) by lia. rewrite G by lia. reflexivity.
Qed.

(** Movement costs do not change. *)
Lemma into_sblo_movement {T} (v : value T) minimize (p : gslo T) prev x inverted :
  op_move (sblo_problem v minimize (into_sblo p)) prev x inverted = op_move (slo_problem v p) prev x inverted.
Proof. reflexivity. Qed.

(** *** Predicted loads *)
Lemma predicted_panics {T} (v : value T) minimize choose d e objective predicted t_start t x profile n :
  (forall i zs m, (m <= length zs)%nat -> length (choose i zs m) = m) ->
  access predicted (t - t_start + 1) = Some profile ->
  profile <> [] -> Forall (fun zs => length zs = n) profile -> n <> e ->
  apply_predicted_loads v minimize choose d e objective predicted t_start t x = Panic.
Proof.
  intros Hc Hp Hne HF Hn. unfold apply_predicted_loads. rewrite Hp. cbn [from_option obind].
  unfold sample_load_profiles, smallest_sample_size, largest_sample_size.
  destruct profile as [|a l]; [contradiction|]. inversion HF; subst. cbn [map].
  assert (HF' : Forall (fun b => b = length a) (map (@length Q) l)).
  { rewrite Forall_forall in *. intros b Hb. apply in_map_iff in Hb as (zs & <- & Hz). auto. }
  rewrite (fold_min_const _ _ (length a)), (fold_max_const _ _ (length a)) by auto.
  cbn [from_option obind]. replace (Nat.min (Nat.max (length a) max_sample_size) (length a)) with (length a) by lia.
  destruct (omap_exists (fun izs : nat * list Q => if (length a <=? length (snd izs))%nat
      then Ok (choose (fst izs) (snd izs) (length a)) else Panic) (combine (seq 0 (length (a :: l))) (a :: l))) as (ps & Hps).
  { intros (i, zs) Hin. simpl. apply in_combine_r in Hin.
    rewrite Forall_forall in HF. rewrite (HF zs Hin), Nat.leb_refl. eauto. }
  rewrite Hps. cbn [obind]. simpl in Hps. rewrite Nat.leb_refl in Hps. cbn [obind] in Hps.
  destruct (omap _ (combine (seq 1 (length l)) l)) as [ps'|?|]; cbn [obind] in Hps; try discriminate.
  assert (ps = choose 0%nat a (length a) :: ps') by congruence. subst ps. cbn [omap].
  rewrite apply_loads_job_types; [reflexivity|]. rewrite Hc by lia. exact Hn.
Qed.

Lemma predicted_costs {T} (v : value T) minimize choose d e objective predicted t_start t x cs :
  apply_predicted_loads v minimize choose d e objective predicted t_start t x = Ok cs ->
  t_start <= t /\ exists profile ps, nth_error predicted (Z.to_nat (t - t_start)) = Some profile /\
    sample_load_profiles choose profile = Ok ps /\
    Forall2 (fun lambda c => apply_loads v minimize d e objective lambda t x = Ok c) ps cs.
Proof.
  unfold apply_predicted_loads. intros H. destruct (access predicted (t - t_start + 1)) as [profile|] eqn:E; [|discriminate].
  cbn [from_option obind] in H. apply access_spec in E as [E1 E2]. replace (t - t_start + 1 - 1) with (t - t_start) in E2 by lia.
  split; [lia|]. apply obind_Ok in H as (ps & Hps & H). exists profile, ps. split; [exact E2|]. split; [exact Hps|].
  clear - H. revert cs H. induction ps as [|a ps IH]; cbn [omap]; intros cs H; [injection H as <-; constructor|].
  apply obind_Ok in H as (c & Hc & H). apply obind_Ok in H as (cs' & Hcs & H). injection H as <-. constructor; [exact Hc|apply IH; exact Hcs].
Qed.

(** A certain load of several job types, seen as a prediction, panics. *)
Lemma certain_prediction_panics {T} (v : value T) minimize choose d objective lambda t x :
  (forall i zs m, (m <= length zs)%nat -> length (choose i zs m) = m) ->
  (2 <= length lambda)%nat ->
  apply_predicted_loads v minimize choose d (length lambda) objective [into_predicted lambda] t t x = Panic.
Proof.
  intros Hc Hl. eapply predicted_panics with (profile := into_predicted lambda) (n := 1%nat); auto.
  - replace (t - t + 1) with 1 by lia. reflexivity.
  - destruct lambda; simpl in *; [lia|discriminate].
  - unfold into_predicted. rewrite Forall_forall. intros zs Hz. apply in_map_iff in Hz as (q & <- & _). reflexivity.
  - lia.
Qed.

(** *** Rounding of fractions *)
Lemma apply_precision_range z : (0 <= z <= 1)%Q ->
  exists k, 0 <= k <= 100 /\ (apply_precision z == inject_Z k * (1 # 100))%Q.
Proof.
  intros Hz. exists (round (z / PRECISION)). split; [|reflexivity].
  unfold round. assert (HP : (z / PRECISION == z * 100)%Q) by (unfold PRECISION; field).
  assert (E : Qltb (z / PRECISION) 0 = false) by (apply Qltb_false; lra). rewrite E.
  split.
  - change 0 with (Qfloor 0). apply Qfloor_resp_le. lra.
  - assert (H : (inject_Z (Qfloor (z / PRECISION + (1 # 2))) < inject_Z 101)%Q).
    { eapply Qle_lt_trans; [apply Qfloor_le|]. change (inject_Z 101) with 101%Q. lra. }
    rewrite <- Zlt_Qlt in H. lia.
Qed.

Definition tight_slo : gslo Z := mkGSLO 2 1 [1; 2] [1; 2]%Q [2; 1]%Q [3].

Lemma tight_infeasible zs : distribution 2 zs ->
  exists o, objective_value (sblo_objective valZ (into_sblo tight_slo) 1 [1; 2] [3%Q] (new_fractions zs 2 1)) = Some o
            /\ o = Inf.
Proof.
  intros (Hlen & Hz & Hs). destruct zs as [|z [|? ?]]; simpl in Hlen; try lia.
  inversion Hz; subst. simpl in Hs. destruct (apply_precision_range z) as (k & Hk & Ek); [lra|].
  assert (Hk' : (0 <= inject_Z k)%Q /\ (inject_Z k <= 100)%Q).
  { split; [change 0%Q with (inject_Z 0)|change 100%Q with (inject_Z 100)]; rewrite <- Zle_Qle; lia. }
  assert (HD : distribution 2 [apply_precision z]).
  { split; [reflexivity|]. split.
    - apply Forall_cons; [|apply Forall_nil]. rewrite Ek. unfold Qdiv. lra.
    - cbn [Qsum]. rewrite Ek. unfold Qdiv. lra. }
  destruct (sblo_value valZ tight_slo 1 [1; 2] 3 ltac:(lia) ltac:(cbn; lia) eq_refl eq_refl
    ltac:(repeat constructor; cbn; discriminate) ltac:(cbn; discriminate) [apply_precision z] HD) as (o & Ho & He).
  exists o. split; [exact Ho|].
  assert (E : fold_left eadd (map (dim_value valZ tight_slo [1; 2] 3 [apply_precision z]) (seq 0 (Z.to_nat (l_d tight_slo)))) (Fin 0) = Inf).
  { change (Z.to_nat (l_d tight_slo)) with 2%nat. cbn [seq map fold_left].
    unfold dim_value. 
    destruct (Qle_bool (v_toQ valZ 3 * share valZ tight_slo 3 [apply_precision z] 0) _) eqn:E0; [|destruct (Qle_bool _ _); reflexivity].
    destruct (Qle_bool (v_toQ valZ 3 * share valZ tight_slo 3 [apply_precision z] 1) _) eqn:E1; [|reflexivity].
    exfalso. apply Qle_bool_iff in E0, E1.
    unfold share in E0, E1. cbn [tight_slo l_d] in E0, E1. 
    change (Z.to_nat 2) with 2%nat in *. cbn [Nat.sub Nat.ltb Nat.leb nth Qsum] in E0, E1.
    cbn [valZ v_toQ] in E0, E1. change (Qltb 0 (inject_Z 3)) with true in E1. cbv iota in E1.
    rewrite Ek in E0, E1. change (inject_Z 3) with 3%Q in *. change (inject_Z 1) with 1%Q in *. change (inject_Z 2) with 2%Q in *.
    assert (A : (inject_Z (3 * k) <= inject_Z 100)%Q).
    { rewrite inject_Z_mult. change (inject_Z 3) with 3%Q. change (inject_Z 100) with 100%Q. unfold Qdiv in E0. lra. }
    assert (B : (inject_Z 100 <= inject_Z (3 * k))%Q).
    { rewrite inject_Z_mult. change (inject_Z 3) with 3%Q. change (inject_Z 100) with 100%Q. unfold Qdiv in E1. lra. }
    rewrite <- Zle_Qle in A, B. lia. }
  change (v_toQ valZ 3) with 3%Q in *. rewrite E in He. destruct o; [contradiction|reflexivity].
Qed.

(** *** Loads over time *)
Lemma loads_over_time {T} (v : value T) minimize d e objective loads t_start t x : 1 <= t_start ->
  call_certain (apply_loads_over_time v minimize d e objective loads t_start) t x =
    if t <? t_start then Panic else
    match nth_error loads (Z.to_nat (t - t_start)) with
    | Some lambda => apply_loads v minimize d e objective lambda t x
    | None => Panic
    end.
Proof.
  intros HS. unfold apply_loads_over_time, call_certain, cf_get, cf_new. cbn [bt_insert filter fst].
  rewrite (proj2 (Z.leb_le 1 t_start)) by lia. cbn [andb].
  destruct (t <? t_start) eqn:E.
  - apply Z.ltb_lt in E. rewrite (proj2 (Z.leb_gt t_start t)) by lia. destruct (1 <=? t); reflexivity.
  - pose proof E as E'. apply Z.ltb_ge in E. rewrite (proj2 (Z.leb_le t_start t)), (proj2 (Z.leb_le 1 t)) by lia.
    cbn [map last from_option obind fst snd]. unfold single_certain, single_predictive, certain. rewrite E'. unfold access.
    replace (t - t_start + 1 - 1) with (t - t_start) by lia.
    destruct (nth_error loads (Z.to_nat (t - t_start))) as [lambda|] eqn:EN.
    + assert (Z.to_nat (t - t_start) < length loads)%nat by (apply nth_error_Some; congruence).
      rewrite (proj2 (Z.leb_le _ _)) by lia. rewrite (proj2 (Z.leb_le _ _)) by lia. cbn [andb from_option obind].
      destruct (apply_loads _ _ _ _ _ _ _ _); cbn [obind length Nat.eqb negb]; try reflexivity.
      rewrite Bool.andb_false_r. reflexivity.
    + apply nth_error_None in EN.
      rewrite (proj2 (Z.leb_gt (t - t_start + 1) _)) by lia. rewrite Bool.andb_false_r. reflexivity.
Qed.
