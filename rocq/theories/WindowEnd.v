(** Proofs: offline and online algorithms over windows of slots, with NLopt as this library calls it. *)
From Coq Require Import Lia Lqa Qabs.
From Verif Require Import NumLemmas CostSpec CostProofs VerifySpec VerifyProofs OptimizeModel OptimizeSpec OptimizeProofs HorizonModel HorizonSpec HorizonProofs
  HorizonRunModel HorizonRunSpec HorizonRunProofs HorizonRunAveraging StaticModel StaticSpec StaticProofs DescentModel DescentSpec DescentProofs DescentAlgorithms DescentBounds
  GraphSearchSpec ConvertSpec ConvertProofs ConvertObjective OfflineSpec OfflineProofs OfflineEnd WindowModel WindowSpec WindowProofs.
From Verif Require Import ProblemModel CostModel.
Local Open Scope Z_scope.

(** ** Horizon control *)
Section Streams.
  Context {C D : Type}.
  Variable vmerge : C -> C -> outcome C.
  Variable merge : C -> C -> C.
  Variable outside : D.
  Variable sched : list Q -> split.
  Variable nlopt : nl_problem -> outcome nl_result.
  Hypothesis Hex : exact_nlopt nlopt.
  Variable p : gssco Q C D.
  Variable hit : Z -> list Q -> ext.
  Variables (e : list Q) (c : Q) (w : Z) (n : nat).
  Hypothesis HV : verify_ssco valQ p = Ok tt.
  Hypothesis Ht : g_tend p = 1.
  Hypothesis Hw : 0 <= w.
  Hypothesis Hn : (1 <= n)%nat.
  Hypothesis Hb : Forall hundredths (g_bounds p).
  Hypothesis Hcost : forall t x, 1 <= t <= Z.of_nat n -> within_bounds (g_bounds p) x ->
    exists o, call_predictive (g_cost p) t x = Ok [mkCost (hit t x) o].
  Hypothesis HH : forall t, respects_eq eeq (hit t).
  Hypothesis Hop : costly_operation hit (g_switching p) e (g_bounds p) c (Z.of_nat n).

  Lemma stream_aligned : aligned (map (fun u => (0%Q, u)) (g_bounds p)).
  Proof.
    apply aligned_pairs. apply ssco_verified in HV. destruct HV as (_ & _ & _ & _ & Hp & _).
    rewrite Forall_forall in Hb, Hp |- *. intros u Hu. split; [apply Hb; exact Hu|]. specialize (Hp u Hu). unfold is_positive in Hp. cbn in Hp. lra.
  Qed.

  Lemma rhc_window (s : split) :
    let ops := ssco_ops valQ merge vmerge outside s in
    let o := mkOnline p w in
    let o' := at_slot ops o (Z.of_nat n) in
    exists xs v,
      offline_stream ops (rhc_alg vmerge merge outside sched (window_minimize nlopt)) (fun _ => tt) (Z.of_nat n + w) o
        = Some (o', xs, Ok None) /\
      fractional_schedule (g_bounds p) (Z.of_nat n) xs /\ Forall (Forall hundredths) xs /\
      po_objective ops (on_p o') xs = Ok v /\
      forall ys, fractional_schedule (g_bounds p) (Z.of_nat n) ys -> Forall (Forall hundredths) ys -> exists v',
        po_objective ops (on_p o') ys = Ok v' /\ ele (c_cost v) (escale (1 + c) (c_cost v')).
  Proof.
    apply (rhc_stream_ratio C D vmerge merge outside sched (window_minimize nlopt) s p hit e c w n HV Ht Hw Hn Hcost Hop (Forall hundredths) (1 # 1000)).
    - apply hundredths_zero.
    - intros m xs _ _. apply nlopt_solves; [exact Hex|exact stream_aligned| |constructor].
      apply plan_rows. exact HH.
  Qed.

  Lemma afhc_window (s : split) : convex_hitting hit (g_bounds p) (Z.of_nat n) ->
    let ops := ssco_ops valQ merge vmerge outside s in
    let o := mkOnline p w in
    let o' := at_slot ops o (Z.of_nat n) in
    exists xs mem v,
      offline_stream ops (afhc_alg vmerge merge outside sched (window_minimize nlopt)) afhc_dflt (Z.of_nat n + w) o
        = Some (o', xs, Ok mem) /\
      fractional_schedule (g_bounds p) (Z.of_nat n) xs /\
      po_objective ops (on_p o') xs = Ok v /\
      forall ys, fractional_schedule (g_bounds p) (Z.of_nat n) ys -> Forall (Forall hundredths) ys -> exists v',
        po_objective ops (on_p o') ys = Ok v' /\ ele (c_cost v) (escale ((1 + c) * (1 + c)) (c_cost v')).
  Proof.
    intros Hconv.
    apply (afhc_ratio vmerge merge outside sched (window_minimize nlopt) p hit e c w n HV Hw Hcost Hop Hconv (Forall hundredths) (1 # 1000)); auto.
    - apply hundredths_zero.
    - intros m xs mem k prev _ _ _. apply nlopt_solves; [exact Hex|exact stream_aligned| |constructor].
      apply plan_rows. exact HH.
  Qed.
End Streams.

(** ** Fractional offline algorithms *)
Lemma grid_rows_iff T bounds xs : 0 <= T -> grid_schedule T bounds xs <-> rows (Forall hundredths) bounds (Z.to_nat T) xs.
Proof.
  intros HT. unfold grid_schedule, rows, grid. split.
  - intros [HL HF]. split; [lia|]. split; eapply Forall_impl; try exact HF; cbn; intros; tauto.
  - intros (HL & H1 & H2). split; [lia|]. rewrite Forall_forall in *. intros x Hx. split; auto.
Qed.

Section Offline.
  Context {C D : Type}.
  Variable vmerge : C -> C -> outcome C.
  Variable merge : C -> C -> C.
  Variable outside : D.
  Variable nlopt : nl_problem -> outcome nl_result.
  Hypothesis Hex : exact_nlopt nlopt.
  Variable sched : list Q -> split.
  Variable p : gsco Q C D.
  Hypothesis HV : verify_sco p = Ok tt.
  Hypothesis Hal : aligned (o_bounds p).
  Hypothesis Hcp : computable vmerge p.

  Let bounds := o_bounds p.
  Let d := length bounds.

  Lemma sco_shape : o_d p = Z.of_nat d /\ 0 <= o_tend p.
  Proof.
    apply sco_verified in HV. destruct HV as (H1 & H2 & H3). unfold d, bounds. split; [lia|exact H2].
  Qed.

  (** The costs, extended to all arguments. *)
  Definition ehit (t : Z) (x : list Q) : ext :=
    match within_pairs valQ bounds x with
    | Ok true => if (1 <=? t) && (t <=? o_tend p) then cost_of (call_mean vmerge (o_cost p) t x) else Fin 0
    | _ => Fin 0
    end.
  Definition enorm (x : list Q) : Q := if (length x =? d)%nat then match o_norm p x with Ok q => q | _ => 0%Q end else 0%Q.

  Lemma Qeq_length (x y : list Q) : Forall2 Qeq x y -> length x = length y.
  Proof. induction 1; cbn; auto. Qed.

  Lemma within_pairs_eq x y : Forall2 Qeq x y -> within_pairs valQ bounds x = within_pairs valQ bounds y.
  Proof.
    intros E. pose proof (Qeq_length _ _ E) as L. destruct (Nat.eq_dec (length x) (length bounds)) as [H|H].
    - destruct (within_pairs_spec valQ bounds x H) as (b & -> & Hb). destruct (within_pairs_spec valQ bounds y) as (b' & -> & Hb'); [lia|].
      f_equal. apply eq_true_iff_eq. rewrite Hb, Hb'. split; [apply in_box_eq; exact E|apply in_box_eq; apply Forall2_Qeq_sym; exact E].
    - unfold within_pairs. rewrite <- L. destruct (length x =? length bounds)%nat eqn:EN; [apply Nat.eqb_eq in EN; contradiction|reflexivity].
  Qed.

  Lemma ehit_eq t : respects_eq eeq (ehit t).
  Proof.
    intros x y E. unfold ehit. rewrite <- (within_pairs_eq x y E).
    destruct (within_pairs valQ bounds x) as [[]| |] eqn:EW; try reflexivity.
    destruct (1 <=? t) eqn:E1; [|reflexivity]. destruct (t <=? o_tend p) eqn:E2; [|reflexivity]. cbn [andb].
    apply (cp_hit_eq _ _ Hcp); [lia| |exact E].
    assert (length x = length bounds) as L.
    { unfold within_pairs in EW. destruct (length x =? length bounds)%nat eqn:EN; [apply Nat.eqb_eq; exact EN|discriminate]. }
    destruct (within_pairs_spec valQ bounds x L) as (b & Eb & Hb). apply Hb. congruence.
  Qed.

  Lemma enorm_eq : respects_eq Qeq enorm.
  Proof.
    intros x y E. unfold enorm. rewrite <- (Qeq_length _ _ E). destruct (length x =? d)%nat eqn:EN; [|reflexivity].
    apply Nat.eqb_eq in EN. destruct (cp_norm _ _ Hcp x EN) as (q & Eq). destruct (cp_norm _ _ Hcp y) as (q' & Eq').
    { rewrite <- (Qeq_length _ _ E). exact EN. }
    rewrite Eq, Eq'. exact (cp_norm_eq _ _ Hcp x y q q' EN E Eq Eq').
  Qed.

  Lemma ehit_spec s x : 1 <= s <= o_tend p -> in_boxQ bounds x ->
    exists c, call_mean vmerge (o_cost p) s x = Ok c /\ eeq (c_cost c) (ehit s x).
  Proof.
    intros Hs Hx. destruct (cp_hit _ _ Hcp s x Hs Hx) as (c & Hc). exists c. split; [exact Hc|]. unfold ehit.
    destruct (within_pairs_spec valQ bounds x (in_boxQ_length _ _ Hx)) as (b & -> & Hb).
    assert (b = true) as -> by (apply Hb; exact Hx).
    rewrite (proj2 (Z.leb_le 1 s)), (proj2 (Z.leb_le s (o_tend p))) by lia. cbn [andb]. rewrite Hc. reflexivity.
  Qed.

  Lemma enorm_spec x : length x = d -> exists q, o_norm p x = Ok q /\ (q == enorm x)%Q.
  Proof.
    intros L. destruct (cp_norm _ _ Hcp x L) as (q & Eq). exists q. split; [exact Eq|]. unfold enorm.
    rewrite L, Nat.eqb_refl, Eq. reflexivity.
  Qed.

  Lemma zero_eq : gzero valQ (o_d p) = repeat 0%Q d.
  Proof. unfold gzero. rewrite (proj1 sco_shape), Nat2Z.id. reflexivity. Qed.

  Lemma sco_objective_rows s alpha xs : Z.of_nat (length xs) = o_tend p -> Forall (in_boxQ bounds) xs ->
    exists c, sco_objective valQ merge vmerge outside s p alpha xs = Ok c /\ eeq (c_cost c) (alpha_cost ehit enorm d alpha xs).
  Proof.
    intros HL HB. rewrite Forall_forall in HB. unfold sco_objective. change (repeat (v_zero valQ) (Z.to_nat (o_d p))) with (gzero valQ (o_d p)). rewrite zero_eq.
    apply (objective_along merge (gsco_problem valQ vmerge outside p) ehit (fun prev x => enorm (differenceQ x prev)) (repeat 0%Q d) alpha false s xs).
    - exact HL.
    - intros t x Ht Hx. cbn [gsco_problem op_hit]. rewrite gsco_hit_inside by (apply HB; exact Hx). apply ehit_spec; auto.
    - intros a b Ha Hb. cbn [gsco_problem op_move]. unfold gsco_move. change (config_sub valQ b a) with (differenceQ b a). apply enorm_spec.
      pose proof (in_boxQ_length _ _ (HB b Hb)) as L. rewrite difference_length; [exact L|].
      destruct Ha as [-> | Ha]; [rewrite repeat_length; exact L|]. rewrite (in_boxQ_length _ _ (HB a Ha)). exact L.
  Qed.

  Lemma movement_same xs : Forall (in_boxQ bounds) xs -> movement_of enorm d xs = sco_movement p xs.
  Proof.
    intros HF. unfold sco_movement, movement_of. fold bounds. fold d.
    assert (forall a, length a = d -> total_switching (fun prev x => enorm (differenceQ x prev)) a xs =
      total_switching (fun prev x => match o_norm p (differenceQ x prev) with Ok q => q | _ => 0%Q end) a xs) as G.
    { induction HF as [|x xs Hx HF IH]; intros a La; [reflexivity|]. cbn [total_switching].
      pose proof (in_boxQ_length _ _ Hx) as L. rewrite IH by exact L. f_equal. unfold enorm.
      rewrite difference_length by (rewrite La; exact L). fold d in L. rewrite L, Nat.eqb_refl. reflexivity. }
    apply G. apply repeat_length.
  Qed.

  Lemma solve_sco s alg xs : alg p = Ok xs -> Z.of_nat (length xs) = o_tend p -> Forall (in_boxQ bounds) xs ->
    exists c, offline_solve (sco_ops valQ merge vmerge outside s) alg p = Ok (xs, c) /\ sco_objective valQ merge vmerge outside s p 1 xs = Ok c.
  Proof.
    intros Ha HL HB. destruct (sco_objective_rows s 1 xs HL HB) as (c & Hc & _). exists c. split; [|exact Hc].
    unfold offline_solve. cbn [sco_ops po_verify po_objective]. rewrite HV. cbn [obind]. rewrite Ha. cbn [obind].
    change (objective_o merge s (gsco_problem valQ vmerge outside p) xs (gzero valQ (o_d p)) 1 false (o_tend p)) with (sco_objective valQ merge vmerge outside s p 1 xs).
    rewrite Hc. reflexivity.
  Qed.

  Lemma compared s alpha xs ys : grid_schedule (o_tend p) bounds xs -> grid_schedule (o_tend p) bounds ys ->
    ele (alpha_cost ehit enorm d alpha xs) (alpha_cost ehit enorm d alpha ys) ->
    exists a b, sco_objective valQ merge vmerge outside s p alpha xs = Ok a /\ sco_objective valQ merge vmerge outside s p alpha ys = Ok b /\ ele (c_cost a) (c_cost b).
  Proof.
    intros [L1 F1] [L2 F2] HL.
    destruct (sco_objective_rows s alpha xs L1) as (a & Ha & Ea). { eapply Forall_impl; [|exact F1]. intros x [H _]. exact H. }
    destruct (sco_objective_rows s alpha ys L2) as (b & Hb & Eb). { eapply Forall_impl; [|exact F2]. intros x [H _]. exact H. }
    exists a, b. split; [exact Ha|]. split; [exact Hb|]. rewrite Ea, Eb. exact HL.
  Qed.

  Theorem co_solved s o : fo_inverted o = false ->
    exists xs c,
      offline_solve (sco_ops valQ merge vmerge outside s) (co_solver vmerge merge outside nlopt sched o) p = Ok (xs, c) /\
      grid_schedule (o_tend p) bounds xs /\ sco_objective valQ merge vmerge outside s p 1 xs = Ok c /\
      forall ys, grid_schedule (o_tend p) bounds ys -> (forall l, fo_l o = Some l -> (sco_movement p ys <= l)%Q) ->
        (forall l, fo_l o = Some l -> (sco_movement p xs <= l + (1 # 1000))%Q) /\
        exists a b, sco_objective valQ merge vmerge outside s p (fo_alpha o) xs = Ok a /\
          sco_objective valQ merge vmerge outside s p (fo_alpha o) ys = Ok b /\ ele (c_cost a) (c_cost b).
  Proof.
    intros Hi. destruct sco_shape as [Hd HT].
    destruct (co_spec vmerge merge outside sched (window_minimize nlopt) p ehit enorm Hd HT) with (P := Forall hundredths) (tol := 1 # 1000) (alpha := fo_alpha o) (l := fo_l o)
      as (xs & E & Hr & Hbest).
    - intros t x Ht Hx. apply ehit_spec; assumption.
    - intros x L. apply enorm_spec. exact L.
    - apply nlopt_solves; [exact Hex|exact Hal| |].
      + apply alpha_rows; [exact ehit_eq|exact enorm_eq].
      + destruct (fo_l o); constructor; [|constructor]. intros xs ys Exy. rewrite (movement_rows enorm _ enorm_eq xs ys Exy). reflexivity.
    - assert (grid_schedule (o_tend p) bounds xs) as Hg by (apply grid_rows_iff; assumption).
      assert (Forall (in_boxQ bounds) xs) as Hbx by (destruct Hr as (_ & H & _); exact H).
      destruct (solve_sco s (co_solver vmerge merge outside nlopt sched o) xs) as (c & Hc & Hc1); [| |exact Hbx|].
      + unfold co_solver. rewrite Hi. exact E.
      + destruct Hg as [H _]. exact H.
      + exists xs, c. split; [exact Hc|]. split; [exact Hg|]. split; [exact Hc1|]. intros ys Hys Hl.
        assert (Forall (in_boxQ bounds) ys) as Hby by (destruct Hys as [_ H]; eapply Forall_impl; [|exact H]; intros y [Hy _]; exact Hy).
        destruct (Hbest ys) as [H1 H2].
        * apply grid_rows_iff; assumption.
        * intros l El. fold bounds. fold d. rewrite (movement_same ys Hby). apply Hl. exact El.
        * split.
          -- intros l El. rewrite <- (movement_same xs Hbx). apply H1. exact El.
          -- apply compared; assumption.
  Qed.

  Lemma repeat_grid x : grid bounds x -> grid_schedule (o_tend p) bounds (repeat x (Z.to_nat (o_tend p))).
  Proof.
    intros Hx. destruct sco_shape as [_ HT]. split; [rewrite repeat_length; lia|]. apply Forall_forall. intros y Hy. apply repeat_spec in Hy. subst. exact Hx.
  Qed.

  Theorem static_fractional_solved s o : fo_inverted o = false -> (fo_l o = None \/ exists q, fo_l o = Some q /\ (q == 0)%Q) ->
    exists x c,
      let xs := repeat x (Z.to_nat (o_tend p)) in
      offline_solve (sco_ops valQ merge vmerge outside s) (static_fractional_solver vmerge merge outside nlopt sched o) p = Ok (xs, c) /\
      grid bounds x /\ sco_objective valQ merge vmerge outside s p 1 xs = Ok c /\
      forall y, grid bounds y -> exists a b, sco_objective valQ merge vmerge outside s p (fo_alpha o) xs = Ok a /\
        sco_objective valQ merge vmerge outside s p (fo_alpha o) (repeat y (Z.to_nat (o_tend p))) = Ok b /\ ele (c_cost a) (c_cost b).
  Proof.
    intros Hi Hl. destruct sco_shape as [Hd HT].
    destruct (static_spec vmerge merge outside nlopt Hex sched p ehit enorm Hal Hd HT) with (alpha := fo_alpha o) (l := fo_l o) as (x & E & Hg & Hbest); auto.
    - exact ehit_spec.
    - exact ehit_eq.
    - exact enorm_spec.
    - exact enorm_eq.
    - pose proof (repeat_grid x Hg) as Hgs.
      destruct (solve_sco s (static_fractional_solver vmerge merge outside nlopt sched o) (repeat x (Z.to_nat (o_tend p)))) as (c & Hc & Hc1).
      + unfold static_fractional_solver. rewrite Hi. exact E.
      + destruct Hgs as [H _]. exact H.
      + destruct Hgs as [_ H]. eapply Forall_impl; [|exact H]. intros y [Hy _]. exact Hy.
      + exists x, c. split; [exact Hc|]. split; [exact Hg|]. split; [exact Hc1|]. intros y Hy.
        apply compared; [exact Hgs|apply repeat_grid; exact Hy|]. apply Hbest. exact Hy.
  Qed.
End Offline.
