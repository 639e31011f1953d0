(** Proofs for backward-recurrent capacity provisioning (C26). *)
From Coq Require Import Lia Lqa Setoid Morphisms.
From Verif Require Import NumLemmas ObjectiveSpec CapacitySpec CapacityWork CapacityChain CapacityModel
  ObjectiveProofs ConvertObjective StaticProofs CapacityProofs.
From Verif Require Import ProblemModel.
Local Open Scope Z_scope.

Lemma project_nearestQ x l u : (l <= u)%Q -> nearestQ l u x (project qgtb x l u).
Proof.
  intros H. unfold project, vmax, vmin, qgtb, nearestQ.
  destruct (Qltb x u) eqn:E1; [apply Qltb_iff in E1|apply Qltb_false in E1];
    match goal with |- context [Qltb ?a l] => destruct (Qltb a l) eqn:E2; [apply Qltb_iff in E2|apply Qltb_false in E2] end;
    repeat split; intros; lra.
Qed.

Lemma project_clampQ x y l u : (x == y)%Q -> (project qgtb x l u == clamp l (umax l u) y)%Q.
Proof.
  intros H. unfold project, vmax, vmin, qgtb, umax.
  destruct (Qle_bool l u) eqn:E0; [apply Qle_bool_iff in E0|apply Qle_bool_false in E0];
  (destruct (Qltb x u) eqn:E1; [apply Qltb_iff in E1|apply Qltb_false in E1]);
    match goal with |- context [Qltb ?a l] => destruct (Qltb a l) eqn:E2; [apply Qltb_iff in E2|apply Qltb_false in E2] end;
  match goal with |- context [clamp ?a ?b ?c] => destruct (clamp_cases a b c) as [[? ->]|[(? & ? & ->)|[? ->]]] end; lra.
Qed.

Lemma objective_horizon {X C D} merge s (p : oproblem X C D) xs x0 alpha inv n : n <= op_tend p ->
  objective_o merge s p xs x0 alpha inv n
  = objective_o merge s (mkOProblem n (op_hit p) (op_move p)) xs x0 alpha inv n.
Proof.
  intros H. unfold objective_o.
  assert (E : forall ts, (forall t, In t ts -> t <= n) ->
    omap (fun t => step_cost_o p alpha inv t (get_or xs x0 (t - 1)) (get_or xs x0 t)) ts
    = omap (fun t => step_cost_o (mkOProblem n (op_hit p) (op_move p)) alpha inv t (get_or xs x0 (t - 1)) (get_or xs x0 t)) ts).
  { induction ts as [|t ts IH]; intros Hts; cbn [omap]; [reflexivity|].
    rewrite IH by (intros; apply Hts; right; assumption).
    unfold step_cost_o at 1 3. cbn [op_tend op_hit op_move]. pose proof (Hts t (or_introl eq_refl)).
    rewrite !(proj2 (Z.ltb_ge _ _)) by lia. reflexivity. }
  rewrite E; [reflexivity|]. intros t Ht. apply zrange_In in Ht. lia.
Qed.

Section Brcp.
  Context {C D : Type}.
  Variable vmerge : C -> C -> outcome C.
  Variable merge : C -> C -> C.
  Variable outside : D.
  Variable sched : split.
  Variable minimizer : (list Q -> outcome ext) -> list (Q * Q) -> outcome (list Q).
  Let bound := find_bound_f vmerge merge outside sched minimizer.

  (** *** Shape of the result *)
  Lemma brcp_loop_spec (p : gssco Q C D) alpha : forall n x xs0 bs0 xs bs,
    brcp_loop vmerge merge outside sched minimizer p alpha n x xs0 bs0 = Ok (xs, bs) ->
    exists ys cs, xs = map (fun y => [y]) ys ++ xs0 /\ bs = cs ++ bs0 /\ length ys = n /\ length cs = n /\
      forall i, (i < n)%nat -> exists l u,
        bound p alpha false 0 (Z.of_nat i + 1) 0 0 = Ok l /\ bound p alpha true 0 (Z.of_nat i + 1) 0 0 = Ok u /\
        nth_error cs i = Some (mkBM l u) /\
        nth_error ys i = Some (project qgtb (nth (S i) ys x) l u).
  Proof.
    induction n as [|n IH]; intros x xs0 bs0 xs bs H.
    - injection H as <- <-. exists [], []. repeat split; auto. intros; lia.
    - cbn [brcp_loop] in H. apply obind_Ok in H as (r & Hr & H).
      unfold brcp_next in Hr. apply obind_Ok in Hr as (l & El & Hr). apply obind_Ok in Hr as (u & Eu & Hr).
      injection Hr as <-. cbn [fst snd] in H.
      destruct (IH _ _ _ _ _ H) as (ys & cs & -> & -> & Ly & Lc & Hi).
      exists (ys ++ [project qgtb x l u]), (cs ++ [mkBM l u]). rewrite map_app, <- !app_assoc, !app_length.
      repeat split; auto; try (simpl; lia).
      intros i Hlt. destruct (Nat.eq_dec i n) as [->|Hne].
      + exists l, u. replace (Z.of_nat n + 1) with (Z.of_nat (S n)) by lia.
        repeat split; auto.
        * rewrite nth_error_app2, Lc, Nat.sub_diag by lia. reflexivity.
        * rewrite nth_error_app2, Ly, Nat.sub_diag by lia. simpl. f_equal.
          rewrite nth_overflow by (rewrite app_length; simpl; lia). reflexivity.
      + destruct (Hi i ltac:(lia)) as (l' & u' & H1 & H2 & H3 & H4). exists l', u'. repeat split; auto.
        * rewrite nth_error_app1 by lia. exact H3.
        * rewrite nth_error_app1 by lia. rewrite H4. f_equal. f_equal.
          destruct (Nat.eq_dec (S i) n) as [E|E].
          -- rewrite nth_overflow by lia. rewrite app_nth2 by lia. replace (S i - length ys)%nat with 0%nat by lia. reflexivity.
          -- rewrite app_nth1 by lia. apply nth_indep. lia.
  Qed.

  Lemma brcp_shape (p : gssco Q C D) alpha xs bs :
    brcp vmerge merge outside sched minimizer p false alpha None = Ok (xs, bs) ->
    exists ys, xs = map (fun y => [y]) ys /\ length ys = Z.to_nat (g_tend p) /\ length bs = Z.to_nat (g_tend p) /\
      forall i b, nth_error bs i = Some b ->
        bound p alpha false 0 (Z.of_nat i + 1) 0 0 = Ok (bm_lower b) /\
        bound p alpha true 0 (Z.of_nat i + 1) 0 0 = Ok (bm_upper b) /\
        nth_error ys i = Some (project qgtb (nth (S i) ys 0%Q) (bm_lower b) (bm_upper b)).
  Proof.
    unfold brcp. destruct (g_d p =? 1); cbn [negb]; [|discriminate]. intros H.
    destruct (brcp_loop_spec p alpha _ _ _ _ _ _ H) as (ys & cs & -> & -> & Ly & Lc & Hi).
    rewrite !app_nil_r. exists ys. repeat split; auto; destruct (Hi i) as (l & u & H1 & H2 & H3 & H4);
      try (rewrite <- Lc; apply nth_error_Some; congruence);
      assert (b = mkBM l u) by congruence; subst b; assumption.
  Qed.

  Lemma brcp_projection (p : gssco Q C D) alpha xs bs :
    brcp vmerge merge outside sched minimizer p false alpha None = Ok (xs, bs) ->
    exists ys, xs = map (fun y => [y]) ys /\ length ys = Z.to_nat (g_tend p) /\ length bs = Z.to_nat (g_tend p) /\
      forall i b, nth_error bs i = Some b ->
        bound p alpha false 0 (Z.of_nat i + 1) 0 0 = Ok (bm_lower b) /\
        bound p alpha true 0 (Z.of_nat i + 1) 0 0 = Ok (bm_upper b) /\
        ((bm_lower b <= bm_upper b)%Q ->
         exists y, nth_error ys i = Some y /\ nearestQ (bm_lower b) (bm_upper b) (nth (S i) ys 0%Q) y).
  Proof.
    intros H. destruct (brcp_shape p alpha xs bs H) as (ys & E & Ly & Lb & Hi). exists ys. repeat split; auto; try apply (Hi i b H0).
    intros Hlu. destruct (Hi i b H0) as (_ & _ & Hn). eexists. split; [exact Hn|]. apply project_nearestQ; exact Hlu.
  Qed.

  (** *** Optimality when the optimiser is exact *)
  Variable p : gssco Q C D.
  Variables (m beta alpha : Q).
  Variable f : Z -> Q -> ext.
  Hypothesis Hd : g_d p = 1.
  Hypothesis Hb : g_bounds p = [m].
  Hypothesis Hs : g_switching p = [beta].
  Hypothesis Ht : 0 <= g_tend p.
  Hypothesis Ha : (0 <= alpha)%Q.
  Hypothesis CQ : capacity_costsQ m f beta.
  Hypothesis Hcosts : forall t x, 1 <= t <= g_tend p -> (0 <= x <= m)%Q ->
    (exists c, call_mean vmerge (g_cost p) t [x] = Ok c /\ eeq (c_cost c) (f t x)) /\
    (forall rs, call_predictive (g_cost p) t [x] = Ok rs -> length rs = 1%nat).
  Hypothesis Hexact : forall inv n, (1 <= n)%nat -> Z.of_nat n <= g_tend p ->
    exact_answer minimizer
      (bound_objective vmerge merge outside sched (gssco_extend (ssco_reset p 0) 0) alpha inv 0 (Z.of_nat n) 0)
      (repeat (0%Q, m) n).

  Definition SQ (x : Q) : Prop := (0 <= x <= m)%Q.

  Lemma servers_J inv xs : eeq (servers_cost f beta alpha inv xs) (J alpha beta f inv xs).
  Proof.
    unfold servers_cost, J, Jf.
    match goal with |- eeq (total_cost f ?sw alpha 1 0%Q xs) _ =>
      assert (H : forall t a, eeq (total_cost f sw alpha t a xs) (total_cost f (sw1 beta inv) alpha t a xs));
      [|apply H] end.
    induction xs as [|x xs IH]; intros t a; cbn [total_cost]; [reflexivity|].
    apply eadd_proper; [|apply IH]. apply eadd_proper; [reflexivity|]. simpl. apply Qmult_comp; [reflexivity|].
    unfold sw1. apply Qmult_comp; [reflexivity|].
    destruct inv; match goal with |- context [Qle_bool ?e 0] =>
      destruct (Qle_bool e 0) eqn:E; [apply Qle_bool_iff in E|apply Qle_bool_false in E];
      destruct (qpos_cases e) as [[? ->]|[? ->]]; lra end.
  Qed.

  Lemma total_cost_hd inv : forall xs t a,
    total_cost (fun t (x : list Q) => f t (hd 0%Q x)) (fun a b => sw1 beta inv (hd 0%Q a) (hd 0%Q b)) alpha t [a]
      (map (fun x => [x]) xs)
    = total_cost f (sw1 beta inv) alpha t a xs.
  Proof. induction xs as [|x xs IH]; intros t a; cbn [map total_cost hd]; [reflexivity|]. rewrite IH. reflexivity. Qed.

  Lemma box_S n xs : in_boxQ (repeat (0%Q, m) n) xs <-> length xs = n /\ Forall SQ xs.
  Proof.
    unfold in_boxQ. revert xs. induction n as [|n IH]; intros xs; split; intros H.
    - inversion H; subst. auto.
    - destruct H as [H _]. destruct xs; [constructor|discriminate].
    - inversion H as [|? x ? r Hx Hr]; subst. apply IH in Hr. destruct Hr as [L F]. split; [simpl; lia|]. constructor; auto.
    - destruct H as [L F]. destruct xs as [|x xs]; [discriminate|]. inversion F; subst. constructor; [assumption|].
      apply IH. split; [simpl in L; lia|assumption].
  Qed.

  Lemma hit_reset t x : 1 <= t <= g_tend p -> SQ x ->
    exists c, gssco_hit valQ vmerge outside (gssco_extend (ssco_reset p 0) 0) t [x] = Ok c /\ eeq (c_cost c) (f t x).
  Proof.
    intros Hti Hx. destruct (Hcosts t x Hti Hx) as [(c & Ec & Eq) _]. exists c. split; [|exact Eq].
    change (gssco_hit valQ vmerge outside (ssco_reset p 0) t [x] = Ok c).
    rewrite reset_hit; [|lia|lia|].
    - unfold gssco_hit, call_mean_within, within_upper. rewrite Hb. cbn [length Nat.eqb combine forallb fst snd].
      unfold v_leb. cbn [valQ v_toQ v_zero]. destruct Hx as [H1 H2].
      apply Qle_bool_iff in H1. apply Qle_bool_iff in H2. rewrite H1, H2. cbn [andb obind].
      exact Ec.
    - intros -> rs. apply (Hcosts 1 x); auto; lia.
  Qed.

  Lemma bound_objective_spec inv n xs : Z.of_nat n <= g_tend p -> length xs = n -> Forall SQ xs ->
    exists c, bound_objective vmerge merge outside sched (gssco_extend (ssco_reset p 0) 0) alpha inv 0 (Z.of_nat n) 0 xs = Ok c /\
      eeq c (J alpha beta f inv xs).
  Proof.
    intros Hn Ln Sx. unfold bound_objective.
    set (q := gssco_extend (ssco_reset p 0) 0).
    destruct (objective_along merge
      (mkOProblem (Z.of_nat n) (gssco_hit valQ vmerge outside q) (gssco_move valQ q))
      (fun t (x : list Q) => f t (hd 0%Q x)) (fun a b => sw1 beta inv (hd 0%Q a) (hd 0%Q b)) [0%Q] alpha inv sched
      (map (fun x => [x]) xs)) as (c & E & Ec).
    - rewrite map_length. simpl. lia.
    - intros t y Hty Hy. apply in_map_iff in Hy. destruct Hy as (x & <- & Hin). cbn [op_hit hd].
      apply hit_reset; [simpl in Hty; lia|]. rewrite Forall_forall in Sx. auto.
    - intros a b Hab Hy. apply in_map_iff in Hy. destruct Hy as (x & <- & Hin).
      assert (Ea : exists z, a = [z]).
      { destruct Hab as [->|Hab]; [eauto|]. apply in_map_iff in Hab. destruct Hab as (z & <- & _). eauto. }
      destruct Ea as (z & ->). cbn [op_move]. unfold gssco_move, q. cbn [gssco_extend ssco_reset g_switching]. rewrite Hs.
      rewrite scaled_movement_o_total by reflexivity. eexists. split; [reflexivity|]. cbn [hd].
      unfold scaled_movement, sw1. simpl. unfold scalar_movement. destruct inv; ring.
    - exists (c_cost c). split.
      + rewrite Z.add_0_r. rewrite objective_horizon by (simpl; lia).
        cbn [op_tend] in E. cbn [gssco_problem op_hit op_move]. rewrite E. reflexivity.
      + rewrite Ec. rewrite total_cost_hd. reflexivity.
  Qed.

  Lemma J_full n inv : is_fin (J alpha beta f inv (repeat m n)).
  Proof.
    unfold J, Jf. assert (H : forall n t a, 1 <= t -> is_fin (total_cost f (sw1 beta inv) alpha t a (repeat m n))).
    { clear n. induction n as [|n IH]; intros t a Hti; cbn [repeat total_cost]; [exact I|].
      apply is_fin_eadd. split; [|apply IH; lia]. apply is_fin_eadd. split; [|exact I]. apply (cq_fin _ _ _ CQ). exact Hti. }
    apply H. lia.
  Qed.

  Lemma bound_optimal inv n : (1 <= n)%nat -> Z.of_nat n <= g_tend p ->
    exists z, bound p alpha inv 0 (Z.of_nat n) 0 0 = Ok z /\ opt_end SQ alpha beta f inv n z.
  Proof.
    intros Hn Hle. destruct (Hexact inv n Hn Hle) as (xs & c & Em & Hbox & Eg & Hmin).
    apply box_S in Hbox. destruct Hbox as [Ln Sx].
    destruct (bound_objective_spec inv n xs Hle Ln Sx) as (c' & E' & Ec').
    assert (c' = c) by congruence. subst c'.
    destruct (snoc_form xs (n - 1)) as (ys & z & -> & Ly); [lia|].
    exists z. split.
    - unfold bound, find_bound_f. rewrite Hd. destruct (Z.ltb_spec (g_tend p) (Z.of_nat n)); [lia|]. cbn [negb Z.eqb Pos.eqb].
      destruct (Z.leb_spec (Z.of_nat n) 0); [lia|]. cbn zeta.
      replace (g_bounds (gssco_extend (ssco_reset p 0) 0)) with [m] by (rewrite <- Hb; reflexivity).
      cbn [nth_error from_option obind].
      replace (Z.to_nat (Z.of_nat n - 0)) with n by lia. rewrite Em. cbn [obind].
      rewrite Ln. rewrite Z.sub_0_r, Z.eqb_refl. cbn [negb orb]. destruct (Z.leb_spec (Z.of_nat n) 0); [lia|].
      rewrite nth_error_app2 by lia. replace (n - 1 - length ys)%nat with 0%nat by lia. reflexivity.
    - exists (ys ++ [z]). split; [exact Ln|]. split; [exact Sx|]. split; [rewrite last_snoc; reflexivity|].
      assert (HM : forall ws, length ws = n -> Forall SQ ws -> ele (J alpha beta f inv (ys ++ [z])) (J alpha beta f inv ws)).
      { intros ws Lw Sw. destruct (bound_objective_spec inv n ws Hle Lw Sw) as (cw & Ew & Ecw).
        rewrite <- Ec', <- Ecw. eapply Hmin; [|exact Ew]. apply box_S. auto. }
      split; [|exact HM].
      eapply ele_fin; [apply (HM (repeat m n))|apply J_full].
      + apply repeat_length.
      + apply Forall_forall. intros y Hy. apply repeat_spec in Hy. subst y. pose proof (cq_m _ _ _ CQ). unfold SQ. lra.
  Qed.

  Lemma SQ_proper x y : (x == y)%Q -> SQ x -> SQ y.
  Proof. unfold SQ. intros H H'. rewrite <- H. exact H'. Qed.

  Lemma brcp_loop_back : forall n x x' xs0 bs0, Z.of_nat n <= g_tend p -> (x == x')%Q ->
    exists ys ys' cs, brcp_loop vmerge merge outside sched minimizer p alpha n x xs0 bs0
      = Ok (map (fun y => [y]) ys ++ xs0, cs ++ bs0) /\
      Forall2 Qeq ys ys' /\ back SQ alpha beta f n x' ys'.
  Proof.
    induction n as [|n IH]; intros x x' xs0 bs0 Hn Hx.
    - exists [], [], []. repeat split; constructor.
    - cbn [brcp_loop]. unfold brcp_next.
      destruct (bound_optimal false (S n)) as (l & El & Ol); [lia|lia|].
      destruct (bound_optimal true (S n)) as (u & Eu & Ou); [lia|lia|].
      fold bound. rewrite El. cbn [obind]. rewrite Eu. cbn [obind fst snd].
      destruct (IH (project qgtb x l u) (clamp l (umax l u) x') ([project qgtb x l u] :: xs0) (mkBM l u :: bs0))
        as (ys & ys' & cs & E & F & B); [lia|apply project_clampQ; exact Hx|].
      exists (ys ++ [project qgtb x l u]), (ys' ++ [clamp l (umax l u) x']), (cs ++ [mkBM l u]).
      rewrite map_app, <- !app_assoc. split; [exact E|]. split.
      + apply Forall2_app; [exact F|]. constructor; [apply project_clampQ; exact Hx|constructor].
      + apply back_S; auto.
  Qed.

  Lemma brcp_is_optimal : exists ys bs,
    brcp vmerge merge outside sched minimizer p false alpha None = Ok (map (fun y => [y]) ys, bs) /\
    servers_ok m (g_tend p) ys /\
    forall zs, servers_ok m (g_tend p) zs ->
      ele (servers_cost f beta alpha false ys) (servers_cost f beta alpha false zs).
  Proof.
    destruct (brcp_loop_back (Z.to_nat (g_tend p)) 0 0 [] []) as (ys & ys' & cs & E & F & B); [lia|reflexivity|].
    exists ys, cs. split.
    { unfold brcp. rewrite Hd. cbn [negb Z.eqb Pos.eqb]. rewrite E, !app_nil_r. reflexivity. }
    pose proof (cq_m _ _ _ CQ) as Hm.
    assert (S0 : SQ 0) by (unfold SQ; lra). assert (Sm : SQ m) by (unfold SQ; lra).
    assert (Hc : forall t, 1 <= t -> convexS SQ (f t)).
    { intros t Hti a b c qa qc Sa Sb Sc Hab Hbc Ea Ec. unfold SQ in *. eapply (cq_convex _ _ _ CQ); eauto; lra. }
    destruct (back_work SQ m alpha beta SQ_proper (fun x H => H) S0 Ha (cq_beta _ _ _ CQ) f (cq_eq _ _ _ CQ) Hc
      _ _ _ B S0) as (Ln & Sx & _).
    assert (Sy : Forall SQ ys).
    { clear - F Sx. induction F; [constructor|]. inversion Sx; subst. constructor; auto. eapply SQ_proper; [symmetry|]; eauto. }
    assert (Ly : length ys = length ys') by (clear - F; induction F; simpl; auto).
    split. { split; [lia|exact Sy]. }
    intros zs [Lz Sz]. rewrite !servers_J.
    assert (EJ : eeq (J alpha beta f false ys) (J alpha beta f false ys')).
    { apply (total_cost_Qeq f beta false alpha (cq_eq _ _ _ CQ)); auto. reflexivity. }
    rewrite EJ. eapply (back_optimal SQ m); eauto.
    - apply SQ_proper.
    - apply (cq_beta _ _ _ CQ).
    - apply (cq_eq _ _ _ CQ).
    - lia.
  Qed.
End Brcp.

Lemma brcp_unsupported {C D} vmerge merge (outside : D) sched minimizer (p : gssco Q C D) inverted alpha l :
  (inverted = true -> brcp vmerge merge outside sched minimizer p inverted alpha l = Err UnsupportedInvertedCost) /\
  (inverted = false -> l <> None -> brcp vmerge merge outside sched minimizer p inverted alpha l = Err UnsupportedLConstrainedMovement) /\
  (inverted = false -> l = None -> g_d p <> 1 ->
     brcp vmerge merge outside sched minimizer p inverted alpha l = Err UnsupportedProblemDimension).
Proof.
  split; [intros ->; reflexivity|]. split.
  - intros -> H. destruct l; [reflexivity|congruence].
  - intros -> -> H. unfold brcp. destruct (Z.eqb_spec (g_d p) 1); [contradiction|reflexivity].
Qed.
