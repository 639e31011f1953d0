(** Proofs about objective functions of converted and shifted problems. *)
From Coq Require Import Qabs.
From Verif Require Import NumLemmas ObjectiveProofs CostProofs ConvertSpec ConvertProofs.
Local Open Scope Z_scope.

(** ** Running lists of computations *)
Lemma omap_app {A B} (f : A -> outcome B) l l' :
  omap f (l ++ l') = do bs <- omap f l; do bs' <- omap f l'; Ok (bs ++ bs').
Proof.
  induction l as [|a l IH]; simpl.
  - destruct (omap f l'); reflexivity.
  - destruct (f a); simpl; auto. rewrite IH. destruct (omap f l); simpl; auto.
    destruct (omap f l'); reflexivity.
Qed.

Lemma omap_ext {A B} (f g : A -> outcome B) l : (forall a, In a l -> f a = g a) -> omap f l = omap g l.
Proof.
  induction l as [|a l IH]; simpl; intros H; auto. rewrite (H a) by auto.
  rewrite IH by auto. reflexivity.
Qed.

Lemma omap_map {A B E} (f : B -> outcome E) (h : A -> B) l : omap f (map h l) = omap (fun a => f (h a)) l.
Proof. induction l as [|a l IH]; simpl; auto. rewrite IH. reflexivity. Qed.

Lemma omap_Ok {A B} (f : A -> B) l : omap (fun a => Ok (f a)) l = Ok (map f l).
Proof. induction l as [|a l IH]; simpl; auto. rewrite IH. reflexivity. Qed.

Lemma omap_length {A B} (f : A -> outcome B) l : forall bs, omap f l = Ok bs -> length bs = length l.
Proof.
  induction l as [|a l IH]; simpl; intros bs H.
  - injection H as <-. reflexivity.
  - apply obind_Ok in H. destruct H as (b & _ & H). apply obind_Ok in H. destruct H as (bs' & H' & H).
    injection H as <-. simpl. rewrite (IH _ H'). reflexivity.
Qed.

(** The panicking model agrees with the total one when nothing panics. *)
Lemma objective_o_total {X C D} (merge : C -> C -> C) s (p : oproblem X C D) (q : problem X C D) xs x0 alpha inverted t_end :
  op_tend p = p_tend q ->
  (forall t x, 1 <= t <= p_tend q -> op_hit p t x = Ok (p_hit q t x)) ->
  (forall a b i, op_move p a b i = Ok (p_move q a b i)) ->
  objective_o merge s p xs x0 alpha inverted t_end = Ok (objective_with_default merge s q xs x0 alpha inverted t_end).
Proof.
  intros HT Hh Hm. unfold objective_o, objective_with_default, sum_over_schedule.
  rewrite omap_ext with (g := fun t => Ok (step_cost q alpha inverted t (get_or xs x0 (t - 1)) (get_or xs x0 t))).
  - rewrite omap_Ok. reflexivity.
  - intros t Ht. apply zrange_In in Ht. unfold step_cost_o, step_cost. rewrite HT.
    destruct (p_tend q <? t) eqn:E; simpl.
    + rewrite Hm. reflexivity.
    + rewrite Hh by lia. simpl. rewrite Hm. reflexivity.
Qed.

Lemma par_sum_out_ext {C D} (merge : C -> C -> C) s : forall l l' : list (cost C D),
  map c_out l = map c_out l' -> c_out (par_sum merge s l) = c_out (par_sum merge s l').
Proof.
  induction s as [|n a IHa b IHb]; intros l l' H; cbn [par_sum cost_add c_out].
  - f_equal. destruct l as [|c l], l' as [|c' l']; try discriminate; auto. cbn [cost_sum].
    rewrite !fold_cost_out. simpl in H. injection H as H1 H2. rewrite H1, H2. reflexivity.
  - f_equal; [apply IHa|apply IHb]; rewrite <- ?firstn_map, <- ?skipn_map, H; reflexivity.
Qed.

(** ** SSCO to SCO *)
Section IntoSCO.
  Context {T C D : Type}.
  Variable v : value T.
  Hypothesis Hlaw : lawful v.
  Variable vmerge : C -> C -> outcome C.
  Variable merge : C -> C -> C.
  Variable outside : D.
  Variable p : gssco T C D.
  Let n := Z.to_nat (g_d p).
  Hypothesis Hsw : length (g_switching p) = n.

  Fixpoint halfw (sw : list Q) (x : list T) : Q :=
    match sw, x with
    | b :: bs, j :: x' => (b / 2 * v_toQ v j + halfw bs x')%Q
    | _, _ => 0%Q
    end.

  Lemma halfw_zero : forall sw k, (halfw sw (repeat (v_zero v) k) == 0)%Q.
  Proof.
    induction sw as [|b sw IH]; intros [|k]; simpl; try reflexivity. rewrite IH.
    destruct Hlaw as [Hz _]. rewrite Hz. lra.
  Qed.

  Lemma moves : forall sw x y, length x = length sw -> length y = length sw ->
    exists m N, scaled_movement_o (v_toQ v) sw x y false = Ok m /\
      manhattan_scaled v sw (config_sub v x y) = Ok N /\
      (N == m - (halfw sw x - halfw sw y))%Q.
  Proof.
    induction sw as [|b sw IH]; intros [|j x] [|i y] Hx Hy; try discriminate.
    - exists 0%Q, 0%Q. repeat split.
    - injection Hx as Hx. injection Hy as Hy. destruct (IH x y Hx Hy) as (m & N & Hm & HN & E).
      simpl. rewrite Hm. unfold config_sub in HN. rewrite HN. simpl.
      eexists _, _. split; [reflexivity|]. split; [reflexivity|].
      rewrite E. unfold scalar_movement. destruct Hlaw as [_ Hs]. rewrite Hs.
      destruct (qpos_cases (v_toQ v j - v_toQ v i)) as [[H ->]|[H ->]].
      + rewrite Qabs_pos by auto. field.
      + rewrite Qabs_neg by auto. field.
  Qed.

  Lemma manhattan_inside : forall sw bounds x, length x = length sw -> in_box v bounds x ->
    exists N, manhattan_scaled v sw x = Ok N /\ (N == halfw sw x)%Q.
  Proof.
    induction sw as [|b sw IH]; intros bounds [|j x] Hx Hb; try discriminate.
    - exists 0%Q. split; simpl; reflexivity.
    - injection Hx as Hx. inversion Hb; subst. destruct (IH _ x Hx H3) as (N & HN & E).
      simpl. rewrite HN. simpl. eexists. split; [reflexivity|]. rewrite E.
      rewrite Qabs_pos by tauto. reflexivity.
  Qed.

  Lemma manhattan_total : forall sw x, length x = length sw -> exists N, manhattan_scaled v sw x = Ok N.
  Proof.
    induction sw as [|b sw IH]; intros [|j x] Hx; try discriminate; simpl; [eauto|].
    destruct (IH x) as (N & ->); [auto|]. simpl. eauto.
  Qed.

  Lemma within_same (bounds x : list T) :
    within_pairs v (map (fun u => (v_zero v, u)) bounds) x = within_upper v bounds x.
  Proof.
    unfold within_pairs, within_upper. rewrite map_length.
    destruct (_ =? _)%nat; [|reflexivity]. f_equal.
    revert x. induction bounds as [|u bs IH]; intros [|j x]; simpl; auto. rewrite IH. reflexivity.
  Qed.

  Definition hit_rel (t : Z) (x : list T) (ha hb : cost C D) : Prop :=
    c_out hb = c_out ha /\
    eeq (c_cost hb) (eadd (c_cost ha) (Fin (if t =? g_tend p then halfw (g_switching p) x else 0))).

  Lemma hits t x : 1 <= t -> length x = n ->
    match gssco_hit v vmerge outside p t x, gsco_hit v vmerge outside (into_sco v vmerge outside p) t x with
    | Ok ha, Ok hb => hit_rel t x ha hb
    | Err e, Err e' => e = e'
    | Panic, Panic => True
    | _, _ => False
    end.
  Proof.
    intros Ht Hx. unfold gsco_hit, call_mean_within. cbn [into_sco o_bounds o_cost].
    rewrite within_same.
    pose proof (certain_call_mean vmerge (fun t x =>
         if t =? g_tend p then
           do hitting_cost <- gssco_hit v vmerge outside p t x;
           do m <- manhattan_scaled v (g_switching p) x;
           Ok (mkCost (eadd (c_cost hitting_cost) (Fin m)) (c_out hitting_cost))
         else gssco_hit v vmerge outside p t x) t x Ht) as HC.
    destruct (Nat.eq_dec (length x) (length (g_bounds p))) as [Hl|Hl].
    2: { unfold gssco_hit, call_mean_within, within_upper. rewrite (proj2 (Nat.eqb_neq _ _) Hl). exact I. }
    destruct (within_upper_spec v (g_bounds p) x (proj1 Hlaw) Hl) as (b & Hb & Hiff).
    rewrite Hb. cbn [obind]. destruct b.
    - destruct (call_mean vmerge (cf_new 1 _) t x) as [hb|e|]; destruct (t =? g_tend p) eqn:Et;
        (destruct (gssco_hit v vmerge outside p t x) as [ha|e'|]; cbn [obind] in HC); simpl in HC;
        try contradiction; auto;
        try (destruct (manhattan_inside (g_switching p) (g_bounds p) x) as (N & HN & EN);
             [congruence|tauto|rewrite HN in HC; simpl in HC]); try contradiction; auto.
      + unfold hit_rel. rewrite Et. destruct HC as [H1 H2]. simpl in *. split; auto.
        rewrite H1. destruct (c_cost ha); simpl; auto. rewrite EN. reflexivity.
      + unfold hit_rel. rewrite Et. destruct HC as [H1 H2]. simpl in *. split; auto.
        rewrite H1. symmetry. apply eadd_0_r.
    - rewrite gssco_hit_outside; auto.
      + split; simpl; auto.
      + exact (proj1 Hlaw).
      + intros HH. apply Hiff in HH. discriminate.
  Qed.

  Variable xs : list (list T).
  Hypothesis Hxs : Forall (fun x => length x = n) xs.
  Let x_ (t : Z) := get_or xs (gzero v (g_d p)) t.
  Let H (t : Z) : Q := if t =? g_tend p then 0%Q else halfw (g_switching p) (x_ t).

  Lemma x_length t : length (x_ t) = n.
  Proof.
    unfold x_, get_or, gzero. destruct (access xs t) as [x|] eqn:E.
    - apply access_spec in E. destruct E as [_ E]. apply nth_error_In in E.
      rewrite Forall_forall in Hxs. auto.
    - apply repeat_length.
  Qed.

  Let A (t : Z) := step_cost_o (gssco_problem v vmerge outside p) 1 false t (x_ (t - 1)) (x_ t).
  Let B (t : Z) := step_cost_o (gsco_problem v vmerge outside (into_sco v vmerge outside p)) 1 false t (x_ (t - 1)) (x_ t).

  Lemma steps t : 1 <= t <= g_tend p ->
    match A t, B t with
    | Ok a, Ok b => c_out b = c_out a /\ eeq (eadd (c_cost b) (Fin (H t - H (t - 1)))) (c_cost a)
    | Err e, Err e' => e = e'
    | Panic, Panic => True
    | _, _ => False
    end.
  Proof.
    intros Ht. unfold A, B, step_cost_o. cbn [gssco_problem gsco_problem op_tend op_hit op_move into_sco o_tend].
    rewrite (proj2 (Z.ltb_ge _ _)) by lia.
    pose proof (hits t (x_ t) ltac:(lia) (x_length t)) as HH.
    destruct (moves (g_switching p) (x_ t) (x_ (t - 1))) as (m & N & Hm & HN & EN);
      [rewrite x_length; auto|rewrite x_length; auto|].
    unfold gssco_move, gsco_move. change (o_norm (into_sco v vmerge outside p)) with (manhattan_scaled v (g_switching p)).
    rewrite Hm, HN.
    destruct (gssco_hit v vmerge outside p t (x_ t)) as [ha|e|];
      destruct (gsco_hit v vmerge outside (into_sco v vmerge outside p) t (x_ t)) as [hb|e'|];
      simpl; try contradiction; auto.
    destruct HH as [H1 H2]. split; auto. rewrite H2. unfold H.
    assert (t - 1 =? g_tend p = false) as -> by lia.
    destruct (c_cost ha); simpl; auto. destruct (t =? g_tend p); rewrite EN; ring.
  Qed.

  Lemma prefixes k : Z.of_nat k <= g_tend p ->
    match omap A (zrange 1 (Z.of_nat k)), omap B (zrange 1 (Z.of_nat k)) with
    | Ok a, Ok b => map c_out b = map c_out a /\
        eeq (eadd (esum (map c_cost b)) (Fin (H (Z.of_nat k) - H 0))) (esum (map c_cost a))
    | Err e, Err e' => e = e'
    | Panic, Panic => True
    | _, _ => False
    end.
  Proof.
    induction k as [|k IH]; intros Hk.
    - simpl. split; auto. simpl. ring.
    - rewrite Nat2Z.inj_succ. unfold Z.succ. rewrite zrange_snoc by lia. rewrite !omap_app.
      specialize (IH ltac:(lia)).
      destruct (omap A (zrange 1 (Z.of_nat k))) as [a|e|];
        destruct (omap B (zrange 1 (Z.of_nat k))) as [b|e'|]; cbn [obind]; try contradiction; auto.
      destruct IH as [I1 I2]. pose proof (steps (Z.of_nat k + 1) ltac:(lia)) as HS.
      replace (Z.of_nat k + 1 - 1) with (Z.of_nat k) in HS by lia. cbn [omap].
      destruct (A (Z.of_nat k + 1)) as [a1|e|]; destruct (B (Z.of_nat k + 1)) as [b1|e'|];
        cbn [obind]; try contradiction; auto.
      destruct HS as [S1 S2]. rewrite !map_app. simpl. split; [congruence|].
      rewrite !esum_app. rewrite <- I2. simpl. rewrite <- S2.
      destruct (esum (map c_cost b)), (c_cost b1); simpl; auto. ring.
  Qed.

  Lemma into_sco_objective_1 s :
    outcome_rel cost_eq
      (objective_o merge s (gsco_problem v vmerge outside (into_sco v vmerge outside p)) xs (gzero v (g_d p)) 1 false (g_tend p))
      (objective_o merge s (gssco_problem v vmerge outside p) xs (gzero v (g_d p)) 1 false (g_tend p)).
  Proof.
    unfold objective_o. fold x_. change (fun t => step_cost_o _ 1 false t (get_or xs (gzero v (g_d p)) (t - 1)) _) with B at 1.
    change (fun t => step_cost_o (gssco_problem v vmerge outside p) 1 false t (get_or xs (gzero v (g_d p)) (t - 1)) _) with A.
    destruct (Z_le_gt_dec (g_tend p) 0) as [H0|H0].
    - destruct (Z.eq_dec (g_tend p) 0) as [E|E].
      + rewrite E. simpl. apply cost_eq_refl.
      + rewrite zrange_nil by lia. simpl. apply cost_eq_refl.
    - pose proof (prefixes (Z.to_nat (g_tend p)) ltac:(lia)) as HP.
      rewrite Z2Nat.id in HP by lia.
      destruct (omap A (zrange 1 (g_tend p))) as [a|e|];
        destruct (omap B (zrange 1 (g_tend p))) as [b|e'|]; simpl; try contradiction; auto.
      destruct HP as [P1 P2]. split; [|apply par_sum_out_ext; auto].
      rewrite !par_sum_cost. rewrite <- P2. unfold H. rewrite Z.eqb_refl.
      assert (0 =? g_tend p = false) as -> by lia.
      assert (halfw (g_switching p) (x_ 0) == 0)%Q as E0.
      { unfold x_, get_or. replace (access xs 0) with (@None (list T)) by reflexivity. apply halfw_zero. }
      destruct (esum (map c_cost b)); simpl; auto. rewrite E0. ring.
  Qed.
End IntoSCO.

Lemma into_sco_objective {T C D : Type} (v : value T) (vmerge : C -> C -> outcome C) (merge : C -> C -> C)
    (outside : D) (p : gssco T C D) (xs : list (list T)) s :
  lawful v -> length (g_switching p) = Z.to_nat (g_d p) ->
  Forall (fun x => length x = Z.to_nat (g_d p)) xs ->
  outcome_rel cost_eq
    (objective_o merge s (gsco_problem v vmerge outside (into_sco v vmerge outside p)) xs (gzero v (g_d p)) 1 false (g_tend p))
    (objective_o merge s (gssco_problem v vmerge outside p) xs (gzero v (g_d p)) 1 false (g_tend p)).
Proof. intros. apply into_sco_objective_1; auto. Qed.

(** ** Shifting time *)
Section Reset.
  Context {X C D : Type}.
  Variable vmerge : C -> C -> outcome C.

  Lemma call_predictive_nonempty (cf : cost_fn X C D) t x rs : call_predictive cf t x = Ok rs -> rs <> [].
  Proof.
    unfold call_predictive, single_predictive. intros H. apply obind_Ok in H. destruct H as ((s, f) & _ & H).
    simpl in H. destruct (t <? s); [discriminate|]. apply obind_Ok in H. destruct H as (r & _ & H).
    destruct (_ && _); [discriminate|]. destruct r; [discriminate|]. congruence.
  Qed.

  Lemma reset_predictive (cf : cost_fn X C D) t0 t x : 1 <= t ->
    call_predictive (cf_reset cf t0) t x =
    if 1 <=? t0 + t then
      do rs <- call_predictive cf (t0 + t) x;
      if (t =? 1) && negb (length rs =? 1)%nat then Panic else Ok rs
    else Ok [cost_default].
  Proof.
    intros Ht. unfold call_predictive at 1, cf_reset. rewrite cf_new_get by auto. cbn [obind fst snd].
    unfold single_predictive at 1, shift_time. rewrite (proj2 (Z.ltb_ge t 1)) by lia.
    replace (t + (t0 + 1) - 1) with (t0 + t) by lia. destruct (1 <=? t0 + t) eqn:E.
    - destruct (call_predictive cf (t0 + t) x) as [rs|e|] eqn:Er; cbn [obind]; auto.
      apply call_predictive_nonempty in Er. destruct (_ && _); auto. destruct rs; congruence.
    - cbn [obind length Nat.eqb negb]. rewrite andb_false_r. reflexivity.
  Qed.

  Lemma reset_same (cf : cost_fn X C D) t0 t x : 1 <= t -> 1 <= t0 + t ->
    (t = 1 -> forall rs, call_predictive cf (t0 + 1) x = Ok rs -> length rs = 1%nat) ->
    call_predictive (cf_reset cf t0) t x = call_predictive cf (t0 + t) x /\
    call_certain (cf_reset cf t0) t x = call_certain cf (t0 + t) x /\
    call_mean vmerge (cf_reset cf t0) t x = call_mean vmerge cf (t0 + t) x.
  Proof.
    intros Ht Ht' Hc.
    assert (call_predictive (cf_reset cf t0) t x = call_predictive cf (t0 + t) x) as E.
    { rewrite reset_predictive by auto. rewrite (proj2 (Z.leb_le _ _)) by lia.
      destruct (call_predictive cf (t0 + t) x) as [rs|e|] eqn:Er; simpl; auto.
      destruct (t =? 1) eqn:E1; simpl; auto. assert (t = 1) as -> by lia.
      rewrite (Hc eq_refl rs Er). reflexivity. }
    split; auto. rewrite !call_certain_of_predictive, !call_mean_of_predictive, E. auto.
  Qed.

  Lemma reset_uncertain (cf : cost_fn X C D) t0 x rs : 0 <= t0 ->
    call_predictive cf (t0 + 1) x = Ok rs -> length rs <> 1%nat ->
    call_predictive (cf_reset cf t0) 1 x = Panic.
  Proof.
    intros H0 Hr Hl. rewrite reset_predictive by lia. rewrite (proj2 (Z.leb_le _ _)) by lia.
    rewrite Hr. cbn [obind]. rewrite (proj2 (Nat.eqb_neq _ _) Hl). reflexivity.
  Qed.

  Lemma reset_nested (cf : cost_fn X C D) a b t x : 0 <= a -> 0 <= b -> 1 <= t ->
    call_predictive (cf_reset (cf_reset cf a) b) t x = call_predictive (cf_reset cf (a + b)) t x.
  Proof.
    intros Ha Hb Ht. rewrite !reset_predictive by lia.
    rewrite !(proj2 (Z.leb_le _ _)) by lia. replace (a + (b + t)) with (a + b + t) by lia.
    destruct (call_predictive cf (a + b + t) x) as [rs|e|]; simpl; auto.
    destruct (t =? 1) eqn:E1; simpl.
    - destruct (length rs =? 1)%nat eqn:El; simpl.
      + rewrite andb_false_r. simpl. rewrite El. reflexivity.
      + destruct ((b + t =? 1) && true); simpl; auto. rewrite El. reflexivity.
    - assert (b + t =? 1 = false) as -> by lia. reflexivity.
  Qed.

  Lemma access_skip (xs : list X) t0 t : 0 <= t0 -> 1 <= t ->
    access (schedule_skip xs t0) t = access xs (t0 + t).
  Proof.
    intros H0 H1. unfold schedule_skip. rewrite (proj2 (Z.ltb_ge t0 0)) by lia.
    destruct (access xs (t0 + t)) as [x|] eqn:E.
    - apply access_spec in E. destruct E as [_ E]. apply access_spec. split; [lia|].
      rewrite <- E. replace (Z.to_nat (t0 + t - 1)) with (Z.to_nat t0 + Z.to_nat (t - 1))%nat by lia.
      clear. revert xs. induction (Z.to_nat t0) as [|k IH]; intros xs; simpl; auto.
      destruct xs; simpl; auto. destruct (Z.to_nat (t - 1)); auto.
    - unfold access in *. rewrite skipn_length. rewrite (proj2 (Z.leb_le 1 t)) by lia.
      rewrite (proj2 (Z.leb_le 1 (t0 + t))) in E by lia. simpl in *.
      destruct (t <=? _) eqn:E2; auto. exfalso. apply Z.leb_le in E2.
      assert (t0 + t <=? Z.of_nat (length xs) = true) as E3 by (apply Z.leb_le; clear E; lia).
      rewrite E3 in E. apply Z.leb_le in E3. apply nth_error_None in E. lia.
  Qed.
End Reset.

Section ResetObjective.
  Context {T C D : Type}.
  Variable v : value T.
  Variable vmerge : C -> C -> outcome C.
  Variable merge : C -> C -> C.
  Variable outside : D.

  Lemma zrange_shift a b k : map (fun t => k + t) (zrange a b) = zrange (k + a) (k + b).
  Proof.
    unfold zrange. rewrite map_map. replace (k + b - (k + a) + 1) with (b - a + 1) by lia.
    apply map_ext. intros; lia.
  Qed.
  Lemma zrange_split a m b : a <= m + 1 -> m <= b -> zrange a b = zrange a m ++ zrange (m + 1) b.
  Proof.
    intros H1 H2. unfold zrange.
    replace (Z.to_nat (b - a + 1)) with (Z.to_nat (m - a + 1) + Z.to_nat (b - (m + 1) + 1))%nat by lia.
    rewrite seq_app, map_app. f_equal. simpl.
    remember (Z.to_nat (m - a + 1)) as k. assert (a + Z.of_nat k = m + 1) as Hk by lia.
    clear Heqk. generalize (Z.to_nat (b - (m + 1) + 1)). intros n.
    assert (forall n k' j, a + Z.of_nat k' = m + 1 + Z.of_nat j ->
      map (fun i => a + Z.of_nat i) (seq k' n) = map (fun i => m + 1 + Z.of_nat i) (seq j n)) as HA.
    { clear. induction n as [|n IH]; intros k' j E; simpl; auto. f_equal; [lia|]. apply IH. lia. }
    apply HA. lia.
  Qed.

  Lemma reset_hit (p : gssco T C D) t0 t x : 1 <= t -> 0 <= t0 ->
    (t = 1 -> forall rs, call_predictive (g_cost p) (t0 + 1) x = Ok rs -> length rs = 1%nat) ->
    gssco_hit v vmerge outside (ssco_reset p t0) t x = gssco_hit v vmerge outside p (t0 + t) x.
  Proof.
    intros Ht H0 Hc. unfold gssco_hit, call_mean_within. cbn [ssco_reset g_bounds g_cost].
    destruct (within_upper v (g_bounds p) x) as [[|]|e|]; simpl; auto.
    apply reset_same; auto. lia.
  Qed.

  Lemma reset_split (p : gssco T C D) (xs : list (list T)) x0 alpha inverted t0 s s1 s2 :
    0 <= t0 <= g_tend p -> g_tend p <= Z.of_nat (length xs) ->
    (t0 < g_tend p -> forall rs, call_predictive (g_cost p) (t0 + 1) (get_or xs x0 (t0 + 1)) = Ok rs -> length rs = 1%nat) ->
    match objective_o merge s (gssco_problem v vmerge outside p) xs x0 alpha inverted (g_tend p),
          objective_o merge s1 (gssco_problem v vmerge outside p) xs x0 alpha inverted t0,
          objective_o merge s2 (gssco_problem v vmerge outside (ssco_reset p t0)) (schedule_skip xs t0)
            (get_or xs x0 t0) alpha inverted (g_tend p - t0) with
    | Ok c, Ok c1, Ok c2 => eeq (c_cost c) (eadd (c_cost c1) (c_cost c2))
    | Ok _, _, _ => False
    | _, Ok _, Ok _ => False
    | _, _, _ => True
    end.
  Proof.
    intros H0 Hl Hc. unfold objective_o.
    rewrite (zrange_split 1 t0 (g_tend p)) by lia. rewrite omap_app.
    set (f := fun t => step_cost_o (gssco_problem v vmerge outside p) alpha inverted t (get_or xs x0 (t - 1)) (get_or xs x0 t)).
    match goal with |- context [omap ?g (zrange 1 (g_tend p - t0))] => set (g1 := g) end.
    assert (omap f (zrange (t0 + 1) (g_tend p)) = omap g1 (zrange 1 (g_tend p - t0))) as E.
    { replace (g_tend p) with (t0 + (g_tend p - t0)) at 1 by lia.
      rewrite <- zrange_shift, omap_map. apply omap_ext. intros t Ht. apply zrange_In in Ht.
      unfold f, g1, step_cost_o. cbn [gssco_problem op_tend op_hit op_move ssco_reset g_tend].
      change (gssco_hit v vmerge outside {| g_d := _; g_tend := _; g_bounds := _; g_switching := _; g_cost := _ |})
        with (gssco_hit v vmerge outside (ssco_reset p t0)).
      assert (get_or (schedule_skip xs t0) (get_or xs x0 t0) t = get_or xs x0 (t0 + t)) as E1.
      { unfold get_or at 1 3. rewrite access_skip by lia.
        destruct (access xs (t0 + t)) as [x|] eqn:Ex; auto.
        exfalso. unfold access in Ex.
        rewrite (proj2 (Z.leb_le 1 (t0 + t))), (proj2 (Z.leb_le (t0 + t) _)) in Ex by lia.
        simpl in Ex. apply nth_error_None in Ex. lia. }
      assert (get_or (schedule_skip xs t0) (get_or xs x0 t0) (t - 1) = get_or xs x0 (t0 + t - 1)) as E2.
      { destruct (Z.eq_dec t 1) as [->|Hne].
        - replace (t0 + 1 - 1) with t0 by lia. unfold get_or at 1.
          replace (access (schedule_skip xs t0) (1 - 1)) with (@None (list T)) by reflexivity. reflexivity.
        - unfold get_or at 1 3. rewrite access_skip by lia. replace (t0 + (t - 1)) with (t0 + t - 1) by lia.
          destruct (access xs (t0 + t - 1)) as [x|] eqn:Ex; auto.
          exfalso. unfold access in Ex.
          rewrite (proj2 (Z.leb_le 1 (t0 + t - 1))), (proj2 (Z.leb_le (t0 + t - 1) _)) in Ex by lia.
          simpl in Ex. apply nth_error_None in Ex. lia. }
      rewrite E1, E2. rewrite !(proj2 (Z.ltb_ge _ _)) by lia.
      rewrite reset_hit; [reflexivity|lia|lia|]. intros -> . apply Hc. lia. }
    rewrite E. destruct (omap f (zrange 1 t0)) as [c1|e|]; cbn [obind]; auto.
    destruct (omap g1 (zrange 1 (g_tend p - t0))) as [c2|e|]; cbn [obind]; auto.
    rewrite !par_sum_cost, map_app, esum_app. reflexivity.
  Qed.
End ResetObjective.
