(** Lazy capacity provisioning with a prediction window (C23) and restart points (C24). *)
From Coq Require Import Lia Lqa Setoid Morphisms.
From Verif Require Import NumLemmas ObjectiveSpec CapacitySpec CapacityWork CapacityChain CapacityModel CapacityProofs.
From Verif Require Import ProblemModel.
Local Open Scope Z_scope.

Lemma project_nearest_v {T} (v : value T) x l u : (v_toQ v l <= v_toQ v u)%Q ->
  nearestQ (v_toQ v l) (v_toQ v u) (v_toQ v x) (v_toQ v (project (v_gtb v) x l u)).
Proof.
  intros H. unfold project, vmax, vmin, v_gtb, nearestQ.
  destruct (Qltb (v_toQ v x) (v_toQ v u)) eqn:E1; [apply Qltb_iff in E1|apply Qltb_false in E1];
    match goal with |- context [Qltb ?a (v_toQ v l)] => destruct (Qltb a (v_toQ v l)) eqn:E2; [apply Qltb_iff in E2|apply Qltb_false in E2] end;
    repeat split; intros; lra.
Qed.

Lemma lcp_is_lazy {T} (v : value T) (o : bounded_online T) t xs bounds x bounds' :
  lcp v o t xs bounds = Ok (x, bounds') ->
  exists prev y l u,
    now_value v xs = Ok prev /\ x = [y] /\ bounds' = bounds ++ [mkBM l u] /\
    Z.of_nat (length bounds') = t /\
    (exists s c, find_initial_time v bounds = Ok (s, c) /\
       bo_lower o (bo_w o) (bo_tend o) s c = Ok l /\ bo_upper o (bo_w o) (bo_tend o) s c = Ok u) /\
    (y = prev \/ y = l \/ y = u) /\
    ((v_toQ v l <= v_toQ v u)%Q -> nearestQ (v_toQ v l) (v_toQ v u) (v_toQ v prev) (v_toQ v y)).
Proof.
  intros H. apply lcp_Ok in H. destruct H as (_ & Ht & s & c & i & l & u & E1 & E2 & E3 & E4 & -> & ->).
  exists i, (project (v_gtb v) i l u), l, u. repeat split; auto.
  - rewrite app_length. simpl. lia.
  - exists s, c. auto.
  - unfold project, vmax, vmin. destruct (v_gtb v u i), (v_gtb v l _); auto.
  - apply project_nearest_v; auto.
  - apply project_nearest_v; auto.
  - apply project_nearest_v; auto.
Qed.

Lemma lcp_rejects {T} (v : value T) (o : bounded_online T) t xs bounds :
  (bo_d o <> 1 -> lcp v o t xs bounds = Err UnsupportedProblemDimension) /\
  (bo_d o = 1 -> t - 1 <> Z.of_nat (length bounds) -> lcp v o t xs bounds = Err OnlineOutOfDateMemory).
Proof.
  unfold lcp. split.
  - intros H. destruct (Z.eqb_spec (bo_d o) 1); [contradiction|reflexivity].
  - intros -> H. cbn [Z.eqb Pos.eqb negb]. destruct (Z.eqb_spec (t - 1) (Z.of_nat (length bounds))); [contradiction|reflexivity].
Qed.

Lemma restart_point {T} (v : value T) (bounds : list (bounds_memory T)) :
  exists s c, find_initial_time v bounds = Ok (s, c) /\ 0 <= s /\
    (s = 0 -> c = v_zero v) /\
    (0 < s -> exists b next,
       nth_error bounds (Z.to_nat (s - 1)) = Some b /\ nth_error bounds (Z.to_nat s) = Some next /\
       c = bm_upper b /\ (Qabs.Qabs (v_toQ v (v_sub v (bm_lower b) (bm_upper b))) < 1 # 10)%Q /\
       ((v_toQ v (bm_upper next) < v_toQ v (bm_upper b))%Q \/ (v_toQ v (bm_lower b) < v_toQ v (bm_lower next))%Q)) /\
    (forall s' b next, s < s' -> nth_error bounds (Z.to_nat (s' - 1)) = Some b ->
       nth_error bounds (Z.to_nat s') = Some next ->
       (Qabs.Qabs (v_toQ v (v_sub v (bm_lower b) (bm_upper b))) < 1 # 10)%Q ->
       (v_toQ v (bm_upper b) <= v_toQ v (bm_upper next))%Q /\ (v_toQ v (bm_lower next) <= v_toQ v (bm_lower b))%Q).
Proof.
  destruct (find_initial_from_spec v bounds (length bounds) (le_n _)) as (s & c & E & Hc & Hl).
  exists s, c. split; [exact E|].
  assert (Hs : 0 <= s) by (destruct Hc as [[-> _]|(k & b & b' & -> & _)]; lia).
  split; [exact Hs|]. split; [|split].
  - intros ->. destruct Hc as [[_ ->]|(k & b & b' & Hk & _)]; [reflexivity|lia].
  - intros H0. destruct Hc as [[-> _]|(k & b & b' & -> & Hk & E1 & E2 & -> & Hcl & Hv)]; [lia|].
    exists b, b'. replace (Z.to_nat (Z.of_nat (S k) - 1)) with k by lia. rewrite Nat2Z.id.
    unfold close_bounds, precision10 in Hcl. apply Qltb_iff in Hcl.
    repeat split; auto. unfold is_valid_initial_time, v_gtb in Hv. apply orb_prop in Hv. rewrite !Qltb_iff in Hv. tauto.
  - intros s' b next Hs' Eb En Hcl.
    assert (Hn : (Z.to_nat s' < length bounds)%nat) by (apply nth_error_Some; congruence).
    assert (Hv : is_valid_initial_time v b next = false).
    { apply (Hl (Z.to_nat (s' - 1)) b next); auto; try lia.
      - replace (S (Z.to_nat (s' - 1))) with (Z.to_nat s') by lia. exact En.
      - unfold close_bounds, precision10. apply Qltb_iff. exact Hcl. }
    unfold is_valid_initial_time, v_gtb in Hv. apply orb_false_elim in Hv. rewrite !Qltb_false in Hv. tauto.
Qed.

Section Window.
  Context {C D : Type}.
  Variable outside : D.
  Variable p : ssco C D.
  Variables (m : Z) (beta : Q) (w : Z).
  Hypothesis Hd : s_d p = 1.
  Hypothesis Hb : s_bounds p = [m].
  Hypothesis Hs : s_switching p = [beta].
  Let hit (t : Z) (x : list Z) : ext := c_cost (s_hit p t x).
  Hypothesis CC : capacity_costs hit m beta.
  Hypothesis Hw : 0 <= w.

  Lemma restart_sound inv s c : 0 <= s < s_tend p ->
    ends_optimally hit m beta false s c -> ends_optimally hit m beta true s c ->
    exists z, find_bound_i outside p 1 inv 0 (s_tend p) s c = Ok z /\
      ends_optimally hit m beta inv (s_tend p) z.
  Proof.
    intros Hst Hl Hu. replace s with (Z.of_nat (Z.to_nat s)) in * by lia. set (s' := Z.to_nat s) in *.
    apply OE_spec in Hl; auto. apply OE_spec in Hu; auto.
    destruct (bound_restart outside p m beta Hd Hb Hs CC inv s' c) as (z & Ez & Rz & Oz); auto.
    - lia.
    - pose proof (opt_end_S (SZ m) 1 beta (SZ_proper m) (SZ_0 hit m beta CC) (fZ hit) _ _ _ Hl) as HS.
      apply SZ_floor in HS. rewrite Qround.Qfloor_Z in HS. lia.
    - exists z. split; [exact Ez|]. apply OE_spec in Oz; auto. rewrite Z2Nat.id in Oz by lia. exact Oz.
  Qed.

  (** The bound is always found, within the range. *)
  Lemma bound_in_range inv t (s : nat) c : s_tend p = t -> Z.of_nat s < t -> c <= m ->
    exists z, find_bound_i outside p 1 inv w t (Z.of_nat s) c = Ok z /\ 0 <= z <= m.
  Proof.
    intros Ht Hst Hc. subst t.
    destruct (bound_search outside p m beta Hd Hb Hs CC inv w (Z.of_nat s) c) as (r & Er & Hf & _); try lia.
    destruct (feasible_singles m _ _ Hf) as (zs & Ezs & Lz & Fz).
    assert (E : pa_xs r = zs).
    { revert Ezs. generalize (pa_xs r) zs. induction l as [|a l IH]; intros [|b l'] H; try discriminate; auto.
      injection H as -> H. f_equal. auto. }
    destruct (nth_error zs (Z.to_nat (s_tend p - Z.of_nat s) - 1)) as [z|] eqn:Ez.
    2: { apply nth_error_None in Ez. lia. }
    exists z. split.
    - unfold find_bound_i. rewrite Hd, Z.ltb_irrefl. cbn [negb Z.eqb Pos.eqb].
      destruct (Z.leb_spec (s_tend p) 0); [lia|]. rewrite Er. cbn [obind].
      destruct (Z.leb_spec (s_tend p - Z.of_nat s) 0); [lia|]. rewrite E, Ez. reflexivity.
    - rewrite Forall_forall in Fz. apply Fz. eapply nth_error_In; eauto.
  Qed.
End Window.

Section WindowRun.
  Context {C D : Type}.
  Variable outside : D.
  Variable p : ssco C D.
  Variables (m : Z) (beta : Q) (w : Z).
  Hypothesis Hd : s_d p = 1.
  Hypothesis Hb : s_bounds p = [m].
  Hypothesis Hs : s_switching p = [beta].
  Hypothesis CC : capacity_costs (fun t x => c_cost (s_hit p t x)) m beta.
  Hypothesis Hw : 0 <= w.

  Definition wstate (k : nat) (zs : list Z) (bs : list (bounds_memory Z)) : Prop :=
    length zs = k /\ length bs = k /\ Forall (fun z => 0 <= z <= m) zs /\
    Forall (fun b => bm_upper b <= m) bs /\
    forall i b z, nth_error bs i = Some b -> nth_error zs i = Some z ->
      z = project (v_gtb valZ) (last (firstn i zs) 0) (bm_lower b) (bm_upper b).

  Lemma wstep k zs bs : wstate k zs bs ->
    exists z b, lcp valZ (integral_online outside p w (Z.of_nat k + 1)) (Z.of_nat k + 1) (map single zs) bs
                = Ok ([z], bs ++ [b]) /\ wstate (S k) (zs ++ [z]) (bs ++ [b]).
  Proof.
    intros (Lz & Lb & Hr & Hbs & Hproj).
    destruct (find_initial_from_spec valZ bs (length bs) (le_n _)) as (s & c & Ef & Hc & _).
    assert (Hst : exists s', s = Z.of_nat s' /\ (s' <= k)%nat /\ c <= m).
    { destruct Hc as [[-> ->]|(j & b & b' & -> & Hj & Eb & _ & -> & Hcl & _)].
      - exists 0%nat. split; [reflexivity|]. split; [lia|]. apply (cc_m _ _ _ CC).
      - exists (S j). split; [reflexivity|]. split; [lia|]. rewrite Forall_forall in Hbs.
        apply Hbs. eapply nth_error_In; eauto. }
    destruct Hst as (s' & -> & Hs' & Hcm).
    destruct (bound_in_range outside (at_slot p (Z.of_nat k + 1)) m beta w Hd Hb Hs CC Hw false (Z.of_nat k + 1) s' c)
      as (l & El & Rl); [reflexivity|lia|exact Hcm|].
    destruct (bound_in_range outside (at_slot p (Z.of_nat k + 1)) m beta w Hd Hb Hs CC Hw true (Z.of_nat k + 1) s' c)
      as (u & Eu & Ru); [reflexivity|lia|exact Hcm|].
    set (x := last zs 0).
    exists (project (v_gtb valZ) x l u), (mkBM l u). split.
    - apply lcp_Ok. split; [exact Hd|]. split; [lia|].
      exists (Z.of_nat s'), c, x, l, u. split; [exact Ef|]. split; [|auto].
      unfold now_value. change [v_zero valZ] with (single 0). rewrite last_map. reflexivity.
    - split; [rewrite app_length; simpl; lia|]. split; [rewrite app_length; simpl; lia|]. split; [|split].
      + apply Forall_app. split; [exact Hr|]. constructor; [|constructor].
        unfold project, vmax, vmin. assert (0 <= x <= m).
        { unfold x. destruct zs as [|y ys] using rev_ind; [pose proof (cc_m _ _ _ CC); simpl; lia|].
          rewrite last_snoc. apply Forall_app in Hr. destruct Hr as [_ Hr]. inversion Hr; auto. }
        destruct (v_gtb valZ u x); destruct (v_gtb valZ l _); lia.
      + apply Forall_app. split; [exact Hbs|]. constructor; [simpl; lia|constructor].
      + intros i b z Eb Ez. destruct (Nat.lt_ge_cases i (length bs)) as [Hi|Hi].
        * rewrite nth_error_app1 in Eb by auto. rewrite nth_error_app1 in Ez by lia.
          rewrite firstn_app. replace (i - length zs)%nat with 0%nat by lia. rewrite app_nil_r. eauto.
        * rewrite nth_error_app2 in Eb by auto. destruct (i - length bs)%nat as [|j] eqn:Ei; [|destruct j; discriminate].
          rewrite nth_error_app2 in Ez by lia. replace (i - length zs)%nat with 0%nat in Ez by lia.
          injection Eb as <-. injection Ez as <-. replace i with (length zs) by lia.
          rewrite firstn_app, Nat.sub_diag, firstn_all, app_nil_r. reflexivity.
  Qed.

  Lemma wsteps : forall n k zs bs mem, wstate k zs bs ->
    (match mem with Some b => b | None => [] end) = bs ->
    exists zs' bs' mem', lcp_steps valZ (integral_online outside p w) n (map single zs) mem
      = Ok (map single zs', mem') /\ (match mem' with Some b => b | None => [] end) = bs' /\ wstate (k + n) zs' bs'.
  Proof.
    induction n as [|n IH]; intros k zs bs mem H Hm.
    - exists zs, bs, mem. rewrite Nat.add_0_r. auto.
    - destruct (wstep k zs bs H) as (z & b & E & H').
      cbn [lcp_steps]. unfold lcp_next. rewrite Hm.
      replace (Z.of_nat (length (map single zs)) + 1) with (Z.of_nat k + 1)
        by (rewrite map_length; destruct H as [-> _]; reflexivity).
      rewrite E. cbn [obind fst snd].
      destruct (IH (S k) (zs ++ [z]) (bs ++ [b]) (Some (bs ++ [b])) H' eq_refl) as (zs' & bs' & mem' & E' & H'').
      rewrite map_app in E'. cbn [map] in E'.
      exists zs', bs', mem'. unfold single in *. rewrite E'. split; [reflexivity|].
      replace (k + S n)%nat with (S k + n)%nat by lia. exact H''.
  Qed.

  Lemma lcp_window_run n : exists zs mem,
    integral_lcp outside p w n = Ok (map single zs, mem) /\
    let bs := match mem with Some b => b | None => [] end in
    length bs = n /\ feasible_schedule (Z.of_nat n) [m] (map single zs) /\
    forall i b z, nth_error bs i = Some b -> nth_error zs i = Some z -> bm_lower b <= bm_upper b ->
      nearest (bm_lower b) (bm_upper b) (last (firstn i zs) 0) z.
  Proof.
    destruct (wsteps n 0 [] [] None) as (zs & bs & mem & E & Em & (Lz & Lb & Hr & _ & Hp)).
    - repeat split; try constructor. intros [|]; discriminate.
    - reflexivity.
    - exists zs, mem. split; [exact E|]. cbn zeta. rewrite Em. split; [exact Lb|]. split.
      + rewrite <- Lz at 1. apply singles_feasible. exact Hr.
      + intros i b z Eb Ez Hlu. rewrite (Hp i b z Eb Ez). apply project_nearest. exact Hlu.
  Qed.
End WindowRun.

Lemma bounds_on_optima {C D : Type} (outside : D) (p : ssco C D) (m : Z) (beta : Q) :
  s_d p = 1 -> s_bounds p = [m] -> s_switching p = [beta] ->
  let hit t x := c_cost (s_hit p t x) in
  capacity_costs hit m beta ->
  forall (inverted : bool) (w t : Z), 0 <= w -> 1 <= t <= s_tend p ->
  exists z xs, (if inverted then upper_bound_i outside p w t 0 0 else lower_bound_i outside p w t 0 0) = Ok z /\
    optimal_prefix hit m beta inverted (s_tend p + w) xs /\
    nth_error xs (Z.to_nat (t - 1)) = Some [z].
Proof.
  intros Hd Hb Hs hit CC inverted w t Hw Ht.
  destruct (bound_on_optimum outside p m beta Hd Hb Hs CC inverted w t Hw Ht) as (z & xs & H).
  exists z, xs. destruct inverted; exact H.
Qed.

Lemma optimal_ends_ordered hit m beta : capacity_costs hit m beta -> (0 < beta)%Q ->
  forall n l u, ends_optimally hit m beta false n l -> ends_optimally hit m beta true n u -> l <= u.
Proof.
  intros CC Hbe n l u Hl Hu.
  assert (Hn : exists k, n = Z.of_nat k).
  { destruct Hl as (xs & ((Hl & _) & _) & _). eauto. }
  destruct Hn as (k & ->).
  apply OE_spec in Hl; auto. apply OE_spec in Hu; auto.
  rewrite Zle_Qle. apply (opt_ends_ordered (SZ m) 1 beta (fZ hit) k); auto. unfold kap. lra.
Qed.
