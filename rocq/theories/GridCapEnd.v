(** Capacity provisioning for fractional instances with NLopt (C84). *)
From Coq Require Import Lia Lqa Setoid Morphisms.
From Verif Require Import NumLemmas ObjectiveSpec CapacitySpec CapacityWork CapacityChain CapacityModel
  CapacityProofs CapacityBrcp OptimizeModel OptimizeSpec OptimizeProofs OfflineSpec OfflineProofs VerifyProofs Offline1DModel OneTypeSpec Offline1DProofs
  DescentProofs WindowProofs GridCapModel GridCapSpec GridCapProofs.
From Verif Require Import ProblemModel CostModel.
Local Open Scope Z_scope.

Lemma point_exact nlopt g G bs : exact_nlopt nlopt -> aligned bs -> respects_eq eeq G ->
  (forall x, grid bs x -> exists c, g x = Ok c /\ eeq c (G x)) ->
  exact_on hundredths (point_minimize nlopt) g bs.
Proof.
  intros Hex Hal HG Hg.
  destruct (minimize_spec nlopt Hex (fun x => do v <- g x; Ok (num_of v)) (fun x => num_of (G x)) bs None [] [])
    as (x & v & E & Hx & _ & _ & _ & Hopt); auto.
  - intros x Hx. destruct (Hg x Hx) as (c & Hc & Ec). rewrite Hc. cbn [obind]. eexists. split; [reflexivity|]. apply num_of_eq. exact Ec.
  - intros x y Hxy. apply num_of_eq. apply HG. exact Hxy.
  - destruct (Hg x Hx) as (c & Hc & Ec). exists x, c. unfold point_minimize, find_minimizer. rewrite E. cbn [obind fst].
    split; [reflexivity|]. split; [apply Hx|]. split; [apply Hx|]. split; [exact Hc|].
    intros ys c' Hy HP Ey. destruct (Hg ys (conj Hy HP)) as (d & Hd & Ed). assert (d = c') by congruence. subst d.
    rewrite Ec, Ed. apply num_of_le. destruct Hopt as [_ H].
    + exists x. split; [exact Hx|constructor].
    + apply H; [split; assumption|constructor].
Qed.

Lemma aligned_box m n : (0 <= m)%Q -> hundredths m -> aligned (repeat (0%Q, m) n).
Proof.
  intros Hm Hh. apply Forall_forall. intros b Hb. apply repeat_spec in Hb. subst b. cbn [fst snd].
  split; [exists 0; reflexivity|]. auto.
Qed.

Lemma hundredths_proper x y : (x == y)%Q -> hundredths x -> hundredths y.
Proof. intros E (z & Hz). exists z. rewrite <- E. exact Hz. Qed.

Lemma hundredths_0 : hundredths 0.
Proof. exists 0. reflexivity. Qed.

Section Nlopt.
  Context {C D : Type}.
  Variable vmerge : C -> C -> outcome C.
  Variable merge : C -> C -> C.
  Variable outside : D.
  Variables s sched : split.
  Variable nlopt : nl_problem -> outcome nl_result.
  Hypothesis Hex : exact_nlopt nlopt.
  Variable p : gssco Q C D.
  Variables (m beta : Q) (f : Z -> Q -> ext).
  Hypothesis HV : verify_ssco valQ p = Ok tt.
  Hypothesis Hb : g_bounds p = [m].
  Hypothesis Hs : g_switching p = [beta].
  Hypothesis Hm : hundredths m.
  Hypothesis CQ : capacity_costsQ m f beta.
  Hypothesis Hcosts : certain_costs vmerge p m f.

  Lemma bound_exact q alpha inv n : g_bounds q = [m] -> g_switching q = [beta] -> certain_costs vmerge q m f -> Z.of_nat n <= g_tend q ->
    exact_on hundredths (point_minimize nlopt)
      (bound_objective vmerge merge outside sched (gssco_extend (ssco_reset q 0) 0) alpha inv 0 (Z.of_nat n) 0)
      (repeat (0%Q, m) n).
  Proof.
    intros H1 H2 H3 H4. apply (point_exact nlopt _ (J alpha beta f inv)); auto.
    - apply aligned_box; [apply (cq_m _ _ _ CQ)|exact Hm].
    - intros x y Hxy. apply (total_cost_Qeq f beta inv alpha (cq_eq _ _ _ CQ)); auto. reflexivity.
    - intros x [Hx _]. apply box_S in Hx. destruct Hx as [L Sx].
      apply (bound_objective_spec vmerge merge outside sched q m beta alpha f H1 H2 H3 inv n x H4 L Sx).
  Qed.

  Lemma one_dimension : g_d p = 1 /\ 0 <= g_tend p.
  Proof.
    pose proof HV as HV'. apply ssco_verified in HV'. destruct HV' as (W1 & W2 & W3 & W4 & _ & _).
    rewrite Hb in W3. cbn in W3. lia.
  Qed.

  Lemma brcp_grid o : (0 <= fo_alpha o)%Q -> fo_l o = None -> fo_inverted o = false ->
    exists ys c, let xs := map (fun y => [y]) ys in
      offline_solve (ssco_ops valQ merge vmerge outside s) (brcp_ssco vmerge outside merge sched (point_minimize nlopt) o) p = Ok (xs, c) /\
      objective_1dQ merge vmerge outside s p 1 xs = Ok c /\ is_fin (c_cost c) /\
      servers_on hundredths m (g_tend p) ys /\
      forall zs, servers_on hundredths m (g_tend p) zs -> exists a b,
        objective_1dQ merge vmerge outside s p (fo_alpha o) xs = Ok a /\
        objective_1dQ merge vmerge outside s p (fo_alpha o) (map (fun z => [z]) zs) = Ok b /\ ele (c_cost a) (c_cost b).
  Proof.
    intros Ha Hl Hi. destruct one_dimension as [Hd HT].
    destruct (brcp_on vmerge merge outside sched (point_minimize nlopt) hundredths m hundredths_proper hundredths_0 Hm beta (fo_alpha o) f Ha CQ
      p Hd Hb Hs Hcosts HT (fun inv n _ Hn => bound_exact p (fo_alpha o) inv n Hb Hs Hcosts Hn)) as (ys & bs & Hr & Hok & Hopt).
    pose proof Hok as [Hok' _].
    assert (Hfin : forall a, is_fin (servers_cost f beta a false ys)).
    { intros a. apply (servers_finite beta f (fo_alpha o)). eapply ele_fin; [apply (Hopt (repeat m (Z.to_nat (g_tend p))))|].
      - split; [split|]; try (apply Forall_forall; intros y Hy; apply repeat_spec in Hy; subst y; pose proof (cq_m _ _ _ CQ); first [exact Hm|lra]).
        rewrite repeat_length. lia.
      - eapply is_fin_eeq; [apply eeq_sym, servers_J|]. apply (J_full m beta (fo_alpha o) f CQ). }
    destruct (objective_servers merge vmerge outside s p m beta f Hb Hs Hcosts 1 ys Hok') as (c & Hc & Ec). exists ys, c. cbv zeta.
    split; [|split; [exact Hc|split; [eapply is_fin_eeq; [apply eeq_sym; exact Ec|apply Hfin]|split; [exact Hok|]]]].
    - unfold offline_solve. cbn [ssco_ops po_verify po_objective]. rewrite HV. cbn [obind]. unfold brcp_ssco. rewrite Hi, Hl, Hr. cbn [obind fst].
      unfold objective_1dQ in Hc. unfold gzero. rewrite Hd. cbn [Z.to_nat Pos.to_nat Pos.iter_op repeat valQ v_zero]. change (Pos.to_nat 1) with 1%nat. cbn [repeat].
      rewrite Hc. reflexivity.
    - intros zs Hz. destruct (objective_servers merge vmerge outside s p m beta f Hb Hs Hcosts (fo_alpha o) ys Hok') as (c1 & Hc1 & Ec1).
      pose proof Hz as [Hz' _]. destruct (objective_servers merge vmerge outside s p m beta f Hb Hs Hcosts (fo_alpha o) zs Hz') as (c2 & Hc2 & Ec2).
      exists c1, c2. split; [exact Hc1|]. split; [exact Hc2|]. rewrite Ec1, Ec2. apply Hopt. exact Hz.
  Qed.

  Lemma part_exact inv n : (1 <= n)%nat -> Z.of_nat n <= g_tend p ->
    exact_on hundredths (point_minimize nlopt)
      (bound_objective vmerge merge outside sched
        (gssco_extend (ssco_reset (mkGSSCO (g_d p) (Z.of_nat n) (g_bounds p) (g_switching p) (g_cost p)) 0) 0) 1 inv 0 (Z.of_nat n) 0)
      (repeat (0%Q, m) n).
  Proof.
    intros _ Hn. apply bound_exact; auto; cbn [g_tend]; [|lia].
    intros t x Ht Hx. apply Hcosts; [cbn [g_tend] in Ht; lia|exact Hx].
  Qed.

  Lemma lcp_grid n xs bs : Z.of_nat n <= g_tend p ->
    fractional_lcp vmerge merge outside sched (point_minimize nlopt) p 0 n = Ok (xs, Some bs) ->
    ~ suspected (removelast bs) ->
    exists ys, xs = map (fun y => [y]) ys /\ servers_on hundredths m (Z.of_nat n) ys /\
      forall zs, servers_on hundredths m (Z.of_nat n) zs ->
        ele (servers_cost f beta 1 false ys) (escale 3 (servers_cost f beta 1 false zs)).
  Proof.
    destruct one_dimension as [Hd HT].
    apply (lazy_on vmerge merge outside sched (point_minimize nlopt) hundredths m hundredths_proper hundredths_0 Hm beta 1 f ltac:(lra) CQ p Hd Hb Hs Hcosts eq_refl part_exact).
  Qed.

  Lemma lcp_grid_first : 1 <= g_tend p -> exists xs bs,
    fractional_lcp vmerge merge outside sched (point_minimize nlopt) p 0 1 = Ok (xs, Some bs).
  Proof.
    destruct one_dimension as [Hd HT].
    apply (lazy_first vmerge merge outside sched (point_minimize nlopt) hundredths m Hm beta 1 f CQ p Hd Hb Hs Hcosts eq_refl part_exact).
  Qed.

  Lemma lcp_grid_more n xs bs : Z.of_nat n + 1 <= g_tend p ->
    fractional_lcp vmerge merge outside sched (point_minimize nlopt) p 0 n = Ok (xs, Some bs) -> ~ suspected bs ->
    exists x b, fractional_lcp vmerge merge outside sched (point_minimize nlopt) p 0 (S n) = Ok (xs ++ [x], Some (bs ++ [b])).
  Proof.
    destruct one_dimension as [Hd HT].
    apply (lazy_more vmerge merge outside sched (point_minimize nlopt) hundredths m Hm beta 1 f CQ p Hd Hb Hs Hcosts eq_refl part_exact).
  Qed.
End Nlopt.
