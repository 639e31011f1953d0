(** Capacity provisioning for fractional instances, with an optimiser that is exact on a set of
    numbers (C84). *)
From Coq Require Import Lia Lqa Setoid Morphisms Qabs.
From Verif Require Import NumLemmas ObjectiveSpec CapacitySpec CapacityWork CapacityChain CapacityModel
  ObjectiveProofs ConvertObjective StaticProofs CapacityProofs CapacityBrcp OptimizeModel OptimizeSpec OptimizeProofs
  GridCapModel GridCapSpec.
From Verif Require Import ProblemModel CostModel.
Local Open Scope Z_scope.

Section OnSet.
  Context {C D : Type}.
  Variable vmerge : C -> C -> outcome C.
  Variable merge : C -> C -> C.
  Variable outside : D.
  Variable sched : split.
  Variable minimizer : (list Q -> outcome ext) -> list (Q * Q) -> outcome (list Q).
  Let bound := find_bound_f vmerge merge outside sched minimizer.
  Variable P : Q -> Prop.
  Variable m : Q.
  Hypothesis P_proper : forall x y, (x == y)%Q -> P x -> P y.
  Hypothesis P_0 : P 0.
  Hypothesis P_m : P m.
  Variables beta alpha : Q.
  Variable f : Z -> Q -> ext.
  Hypothesis Ha : (0 <= alpha)%Q.
  Hypothesis CQ : capacity_costsQ m f beta.

  Definition SP (x : Q) : Prop := (0 <= x <= m)%Q /\ P x.

  Lemma SP_proper x y : (x == y)%Q -> SP x -> SP y.
  Proof. intros H [H1 H2]. split; [rewrite <- H; exact H1|exact (P_proper x y H H2)]. Qed.
  Lemma SP_range x : SP x -> (0 <= x <= m)%Q.
  Proof. intros [H _]. exact H. Qed.
  Lemma SP_0 : SP 0.
  Proof. split; [|exact P_0]. pose proof (cq_m _ _ _ CQ). lra. Qed.
  Lemma SP_m : SP m.
  Proof. split; [|exact P_m]. pose proof (cq_m _ _ _ CQ). lra. Qed.
  Lemma SP_SQ xs : Forall SP xs <-> Forall (SQ m) xs /\ Forall P xs.
  Proof.
    split.
    - intros H. split; (eapply Forall_impl; [|exact H]); intros a [H1 H2]; assumption.
    - intros [H1 H2]. induction H1; [constructor|]. inversion H2; subst. constructor; [split; assumption|auto].
  Qed.
  Lemma SP_convex t : 1 <= t -> convexS SP (f t).
  Proof.
    intros Hti a b c qa qc [Sa _] [Sb _] [Sc _] Hab Hbc Ea Ec. eapply (cq_convex _ _ _ CQ); eauto; lra.
  Qed.

  Section Bounds.
    Variable p : gssco Q C D.
    Hypothesis Hd : g_d p = 1.
    Hypothesis Hb : g_bounds p = [m].
    Hypothesis Hs : g_switching p = [beta].
    Hypothesis Hcosts : certain_costs vmerge p m f.

    Lemma bound_on inv n : (1 <= n)%nat -> Z.of_nat n <= g_tend p ->
      exact_on P minimizer
        (bound_objective vmerge merge outside sched (gssco_extend (ssco_reset p 0) 0) alpha inv 0 (Z.of_nat n) 0)
        (repeat (0%Q, m) n) ->
      exists z, bound p alpha inv 0 (Z.of_nat n) 0 0 = Ok z /\ opt_end SP alpha beta f inv n z.
    Proof.
      intros Hn Hle (xs & c & Em & Hbox & HP & Eg & Hmin).
      apply box_S in Hbox. destruct Hbox as [Ln Sx].
      destruct (bound_objective_spec vmerge merge outside sched p m beta alpha f Hb Hs Hcosts inv n xs Hle Ln Sx) as (c' & E' & Ec').
      assert (c' = c) by congruence. subst c'.
      destruct (snoc_form xs (n - 1)) as (ys & z & -> & Ly); [lia|].
      exists z. split.
      - unfold bound, find_bound_f. rewrite Hd. destruct (Z.ltb_spec (g_tend p) (Z.of_nat n)); [lia|]. cbn [negb Z.eqb Pos.eqb].
        destruct (Z.leb_spec (Z.of_nat n) 0); [lia|]. cbn zeta.
        replace (g_bounds (gssco_extend (ssco_reset p 0) 0)) with [m] by (rewrite <- Hb; reflexivity).
        cbn [nth_error from_option obind].
        replace (Z.to_nat (Z.of_nat n - 0)) with n by lia. rewrite Em. cbn [obind].
        rewrite Ln. rewrite Z.sub_0_r, Z.eqb_refl. cbn [negb orb]. destruct (Z.leb_spec (Z.of_nat n) 0); [lia|].
        rewrite nth_error_app2 by lia. replace (n - 1 - length ys)%nat with 0%nat by lia. reflexivity.
      - exists (ys ++ [z]). split; [exact Ln|]. split; [apply SP_SQ; auto|]. split; [rewrite last_snoc; reflexivity|].
        assert (HM : forall ws, length ws = n -> Forall SP ws -> ele (J alpha beta f inv (ys ++ [z])) (J alpha beta f inv ws)).
        { intros ws Lw Sw. apply SP_SQ in Sw. destruct Sw as [Sw Pw].
          destruct (bound_objective_spec vmerge merge outside sched p m beta alpha f Hb Hs Hcosts inv n ws Hle Lw Sw) as (cw & Ew & Ecw).
          rewrite <- Ec', <- Ecw. eapply Hmin; [|exact Pw|exact Ew]. apply box_S. auto. }
        split; [|exact HM].
        eapply ele_fin; [apply (HM (repeat m n))|apply (J_full m beta alpha f CQ)].
        + apply repeat_length.
        + apply Forall_forall. intros y Hy. apply repeat_spec in Hy. subst y. exact SP_m.
    Qed.

    (** *** Backward-recurrent capacity provisioning *)
    Hypothesis Ht : 0 <= g_tend p.
    Hypothesis Hexact : forall inv n, (1 <= n)%nat -> Z.of_nat n <= g_tend p ->
      exact_on P minimizer
        (bound_objective vmerge merge outside sched (gssco_extend (ssco_reset p 0) 0) alpha inv 0 (Z.of_nat n) 0)
        (repeat (0%Q, m) n).

    Lemma brcp_loop_on : forall n x x' xs0 bs0, Z.of_nat n <= g_tend p -> (x == x')%Q ->
      exists ys ys' cs, brcp_loop vmerge merge outside sched minimizer p alpha n x xs0 bs0
        = Ok (map (fun y => [y]) ys ++ xs0, cs ++ bs0) /\
        Forall2 Qeq ys ys' /\ back SP alpha beta f n x' ys'.
    Proof.
      induction n as [|n IH]; intros x x' xs0 bs0 Hn Hx.
      - exists [], [], []. repeat split; constructor.
      - cbn [brcp_loop]. unfold brcp_next.
        destruct (bound_on false (S n)) as (l & El & Ol); [lia|lia|apply Hexact; lia|].
        destruct (bound_on true (S n)) as (u & Eu & Ou); [lia|lia|apply Hexact; lia|].
        fold bound. rewrite El. cbn [obind]. rewrite Eu. cbn [obind fst snd].
        destruct (IH (project qgtb x l u) (clamp l (umax l u) x') ([project qgtb x l u] :: xs0) (mkBM l u :: bs0))
          as (ys & ys' & cs & E & F & B); [lia|apply project_clampQ; exact Hx|].
        exists (ys ++ [project qgtb x l u]), (ys' ++ [clamp l (umax l u) x']), (cs ++ [mkBM l u]).
        rewrite map_app, <- !app_assoc. split; [exact E|]. split.
        + apply Forall2_app; [exact F|]. constructor; [apply project_clampQ; exact Hx|constructor].
        + apply back_S; auto.
    Qed.

    Lemma brcp_on : exists ys bs,
      brcp vmerge merge outside sched minimizer p false alpha None = Ok (map (fun y => [y]) ys, bs) /\
      servers_on P m (g_tend p) ys /\
      forall zs, servers_on P m (g_tend p) zs ->
        ele (servers_cost f beta alpha false ys) (servers_cost f beta alpha false zs).
    Proof.
      destruct (brcp_loop_on (Z.to_nat (g_tend p)) 0 0 [] []) as (ys & ys' & cs & E & F & B); [lia|reflexivity|].
      exists ys, cs. split.
      { unfold brcp. rewrite Hd. cbn [negb Z.eqb Pos.eqb]. rewrite E, !app_nil_r. reflexivity. }
      destruct (back_work SP m alpha beta SP_proper SP_range SP_0 Ha (cq_beta _ _ _ CQ) f (cq_eq _ _ _ CQ) SP_convex
        _ _ _ B SP_0) as (Ln & Sx & _).
      assert (Sy : Forall SP ys).
      { clear - F Sx P_proper. induction F; [constructor|]. inversion Sx; subst. constructor; auto. eapply SP_proper; [symmetry|]; eauto. }
      assert (Ly : length ys = length ys') by (clear - F; induction F; simpl; auto).
      split. { apply SP_SQ in Sy. destruct Sy as [S1 S2]. split; [|exact S2]. split; [lia|exact S1]. }
      intros zs [[Lz Sz] Pz]. rewrite !servers_J.
      assert (EJ : eeq (J alpha beta f false ys) (J alpha beta f false ys')).
      { apply (total_cost_Qeq f beta false alpha (cq_eq _ _ _ CQ)); auto. reflexivity. }
      rewrite EJ. eapply (back_optimal SP m); eauto.
      - apply SP_proper.
      - apply SP_range.
      - apply SP_0.
      - apply (cq_beta _ _ _ CQ).
      - apply (cq_eq _ _ _ CQ).
      - apply SP_convex.
      - lia.
      - apply SP_SQ. auto.
    Qed.
  End Bounds.

  (** *** Lazy capacity provisioning *)
  Section Lazy.
    Variable p : gssco Q C D.
    Hypothesis Hd : g_d p = 1.
    Hypothesis Hb : g_bounds p = [m].
    Hypothesis Hs : g_switching p = [beta].
    Hypothesis Hcosts : certain_costs vmerge p m f.
    Hypothesis Halpha : alpha = 1%Q.
    Let part t := mkGSSCO (g_d p) t (g_bounds p) (g_switching p) (g_cost p).
    Hypothesis Hexact : forall inv n, (1 <= n)%nat -> Z.of_nat n <= g_tend p ->
      exact_on P minimizer
        (bound_objective vmerge merge outside sched (gssco_extend (ssco_reset (part (Z.of_nat n)) 0) 0) alpha inv 0 (Z.of_nat n) 0)
        (repeat (0%Q, m) n).

    Lemma part_bound inv n : (1 <= n)%nat -> Z.of_nat n <= g_tend p ->
      exists z, bound (part (Z.of_nat n)) alpha inv 0 (Z.of_nat n) 0 0 = Ok z /\ opt_end SP alpha beta f inv n z.
    Proof.
      intros Hn Hle. apply bound_on; auto.
      - intros t x Ht Hx. apply Hcosts; [cbn [part g_tend] in Ht; lia|exact Hx].
      - cbn [part g_tend]. lia.
    Qed.

    Lemma unsuspected_start bs : ~ suspected bs -> find_initial_time valQ bs = Ok (0, 0%Q).
    Proof.
      intros H. unfold find_initial_time.
      destruct (find_initial_from_spec valQ bs (length bs)) as (s & c & E & Hc & _); [lia|]. rewrite E.
      destruct Hc as [[-> ->]|(k & b & b' & _ & Hk & Eb & Eb' & _ & Hcl & Hv)]; [reflexivity|].
      exfalso. apply H. clear - Hk Eb Eb' Hcl Hv.
      apply nth_error_split in Eb'. destruct Eb' as (l1 & l2 & -> & L).
      destruct l1 as [|a l1] using rev_ind; [discriminate|]. rewrite app_length in L. cbn [length] in L.
      rewrite <- app_assoc in Eb. cbn [app] in Eb. rewrite nth_error_app2 in Eb by lia.
      replace (k - length l1)%nat with 0%nat in Eb by lia. injection Eb as ->.
      exists l1, b, b', l2. rewrite <- app_assoc. split; [reflexivity|]. split.
      - unfold close_bounds in Hcl. apply Qltb_iff in Hcl. exact Hcl.
      - unfold is_valid_initial_time, v_gtb in Hv. apply orb_prop in Hv. destruct Hv as [Hv|Hv]; apply Qltb_iff in Hv; auto.
    Qed.

    Lemma unsuspected_prefix bs bs' : ~ suspected (bs ++ bs') -> ~ suspected bs.
    Proof.
      intros H (b1 & b & b' & b2 & -> & H'). apply H. exists b1, b, b', (b2 ++ bs'). split; [|exact H'].
      rewrite <- app_assoc. reflexivity.
    Qed.

    (** The run so far: its configurations, up to the way rationals are written, are those of the
        lazy algorithm. *)
    Definition so_far (k : nat) (xs : list (list Q)) (bs : list (bounds_memory Q)) : Prop :=
      exists ys ys', xs = map (fun y => [y]) ys /\ length ys = k /\ length bs = k /\
        Forall2 Qeq ys ys' /\ lazy SP alpha beta f k ys'.

    Lemma last_Qeq : forall ys ys', Forall2 Qeq ys ys' -> (last ys 0 == last ys' 0)%Q.
    Proof.
      induction 1 as [|x y xs ys Hx F IH]; [reflexivity|]. destruct F; [exact Hx|exact IH].
    Qed.

    Lemma lazy_next k xs bs : so_far k xs bs -> ~ suspected bs -> Z.of_nat k + 1 <= g_tend p ->
      exists x b, lcp valQ (fractional_online vmerge merge outside sched minimizer p 0 (Z.of_nat k + 1)) (Z.of_nat k + 1) xs bs
        = Ok (x, bs ++ [b]) /\ so_far (S k) (xs ++ [x]) (bs ++ [b]).
    Proof.
      intros (ys & ys' & -> & L1 & L2 & F & HL) Hq Hk.
      destruct (part_bound false (S k)) as (l & El & Ol); [lia|lia|].
      destruct (part_bound true (S k)) as (u & Eu & Ou); [lia|lia|].
      replace (Z.of_nat (S k)) with (Z.of_nat k + 1) in El, Eu by lia.
      exists [project (v_gtb valQ) (last ys 0%Q) l u], (mkBM l u). split.
      - apply lcp_Ok. split; [exact Hd|]. split; [lia|].
        exists 0, 0%Q, (last ys 0%Q), l, u. split; [apply unsuspected_start; exact Hq|].
        split. { unfold now_value. change [v_zero valQ] with ((fun y : Q => [y]) 0%Q). rewrite last_map. reflexivity. }
        unfold bound in El, Eu. rewrite Halpha in El, Eu. auto.
      - exists (ys ++ [project (v_gtb valQ) (last ys 0%Q) l u]), (ys' ++ [clamp l (umax l u) (last ys' 0%Q)]).
        rewrite map_app, !app_length. cbn [map length]. split; [reflexivity|]. split; [lia|]. split; [lia|]. split.
        + apply Forall2_app; [exact F|]. constructor; [|constructor].
          change (v_gtb valQ) with qgtb. apply project_clampQ. apply last_Qeq. exact F.
        + apply lazy_S; assumption.
    Qed.

    Lemma lazy_steps : forall n k xs bs mem xs' mem', so_far k xs bs -> (match mem with Some b => b | None => [] end) = bs ->
      Z.of_nat (k + n) <= g_tend p ->
      lcp_steps valQ (fractional_online vmerge merge outside sched minimizer p 0) n xs mem = Ok (xs', mem') ->
      exists more, (match mem' with Some b => b | None => [] end) = bs ++ more /\
        (~ suspected (removelast (bs ++ more)) -> so_far (k + n) xs' (bs ++ more)).
    Proof.
      induction n as [|n IH]; intros k xs bs mem xs' mem' HS Hm Hk E.
      - cbn [lcp_steps] in E. injection E as <- <-. exists []. rewrite app_nil_r, Nat.add_0_r. auto.
      - cbn [lcp_steps] in E. apply obind_Ok in E as ([x b] & E & E'). cbn [fst snd] in E'.
        assert (Lx : length xs = k) by (destruct HS as (ys & ? & -> & <- & _); apply map_length).
        unfold lcp_next in E. rewrite Hm, Lx in E.
        pose proof E as E0. apply lcp_Ok in E0 as (_ & _ & s & c & i & l & u & _ & _ & _ & _ & _ & Eb).
        assert (Lb : length bs = k) by (destruct HS as (ys & ? & _ & _ & H & _); exact H).
        (* without suspicion the step is lazy; otherwise the remaining claim is void *)
        assert (Hdec : suspected bs \/ ~ suspected bs).
        { clear. assert (H : forall l, suspected l \/ ~ suspected l); [|apply H].
          assert (Hp : forall b b' : bounds_memory Q,
            let A := (Qabs (bm_lower b - bm_upper b) < 1 # 10)%Q /\ (bm_upper b' < bm_upper b \/ bm_lower b < bm_lower b')%Q in A \/ ~ A).
          { intros b b'. cbv zeta. destruct (Qlt_le_dec (Qabs (bm_lower b - bm_upper b)) (1 # 10)) as [H1|H1]; [|right; intros [H _]; lra].
            destruct (Qlt_le_dec (bm_upper b') (bm_upper b)) as [H2|H2]; [tauto|].
            destruct (Qlt_le_dec (bm_lower b) (bm_lower b')) as [H3|H3]; [tauto|]. right. intros [_ [H|H]]; lra. }
          induction l as [|b [|b' l] IHl].
          - right. intros (b1 & b & b' & b2 & E & _). destruct b1; discriminate.
          - right. intros (b1 & b0 & b' & b2 & E & _). destruct b1 as [|? [|]]; discriminate.
          - destruct (Hp b b') as [H|H]; [left; exists [], b, b', l; split; [reflexivity|exact H]|].
            destruct IHl as [(b1 & c & c' & b2 & E & H')|IHl]; [left; exists (b :: b1), c, c', b2; rewrite E; split; [reflexivity|exact H']|].
            right. intros (b1 & c & c' & b2 & E & H'). destruct b1 as [|a b1].
            + injection E as <- <- _. exact (H H').
            + injection E as <- E. apply IHl. exists b1, c, c', b2. rewrite <- E. auto. }
        destruct Hdec as [Hsus|Hno].
        + (* the memory only grows *)
          assert (Hgrow : forall n xs mem bs xs' mem', (match mem with Some b => b | None => [] end) = bs ->
            lcp_steps valQ (fractional_online vmerge merge outside sched minimizer p 0) n xs mem = Ok (xs', mem') ->
            exists more, (match mem' with Some b => b | None => [] end) = bs ++ more).
          { clear. induction n as [|n IH]; intros xs mem bs xs' mem' Hm E; cbn [lcp_steps] in E.
            - injection E as <- <-. exists []. rewrite app_nil_r. exact Hm.
            - apply obind_Ok in E as ([x b] & E & E'). unfold lcp_next in E. rewrite Hm in E.
              apply lcp_Ok in E as (_ & _ & s & c & i & l & u & _ & _ & _ & _ & _ & ->).
              destruct (IH _ _ _ _ _ eq_refl E') as (more & ->). cbn [fst snd]. rewrite <- app_assoc. eexists. reflexivity. }
          destruct (Hgrow n _ (Some b) b _ _ eq_refl E') as (more & Em). rewrite Eb, <- app_assoc in Em.
          exists ([mkBM l u] ++ more). split; [exact Em|]. intros Hno. exfalso. revert Hno.
          assert (Hr : exists q, removelast (bs ++ [mkBM l u] ++ more) = bs ++ q).
          { destruct more as [|a more] using rev_ind.
            - exists []. rewrite app_nil_r. rewrite removelast_last, app_nil_r. reflexivity.
            - exists ([mkBM l u] ++ more). rewrite !app_assoc. rewrite removelast_last. reflexivity. }
          destruct Hr as (q & ->). intros Hno. exact (unsuspected_prefix _ _ Hno Hsus).
        + destruct (lazy_next k xs bs HS Hno ltac:(lia)) as (x' & b' & Ex & HS').
          rewrite E in Ex. injection Ex as <- ->.
          destruct (IH (S k) (xs ++ [x]) (bs ++ [b']) (Some (bs ++ [b'])) xs' mem' HS' eq_refl ltac:(lia) E') as (more & Em & HC).
          exists (b' :: more). rewrite <- app_assoc in Em, HC. cbn [app] in Em, HC.
          split; [exact Em|]. replace (k + S n)%nat with (S k + n)%nat by lia. exact HC.
    Qed.

    Lemma lazy_run n xs bs : Z.of_nat n <= g_tend p ->
      fractional_lcp vmerge merge outside sched minimizer p 0 n = Ok (xs, Some bs) ->
      ~ suspected (removelast bs) -> so_far n xs bs.
    Proof.
      intros Hn E Hq. unfold fractional_lcp in E.
      destruct (lazy_steps n 0%nat [] [] None xs (Some bs)) as (more & Em & HC); auto.
      - exists [], []. repeat split; constructor.
      - cbn [app] in Em, HC. subst more. apply HC. exact Hq.
    Qed.

    Lemma lazy_on n xs bs : Z.of_nat n <= g_tend p ->
      fractional_lcp vmerge merge outside sched minimizer p 0 n = Ok (xs, Some bs) ->
      ~ suspected (removelast bs) ->
      exists ys, xs = map (fun y => [y]) ys /\ servers_on P m (Z.of_nat n) ys /\
        forall zs, servers_on P m (Z.of_nat n) zs ->
          ele (servers_cost f beta alpha false ys) (escale 3 (servers_cost f beta alpha false zs)).
    Proof.
      intros Hn E Hq. destruct (lazy_run n xs bs Hn E Hq) as (ys & ys' & -> & L1 & _ & F & HL).
      exists ys. split; [reflexivity|].
      destruct (lazy_work SP m alpha beta SP_proper SP_range SP_m SP_0 Ha (cq_beta _ _ _ CQ) f (cq_eq _ _ _ CQ) SP_convex
        (fun t x Ht Hx => cq_nonneg _ _ _ CQ t x Ht (SP_range x Hx)) n ys' HL) as (Ln & Sx & _).
      assert (Sy : Forall SP ys).
      { clear - F Sx P_proper. induction F; [constructor|]. inversion Sx; subst. constructor; auto. eapply SP_proper; [symmetry|]; eauto. }
      split. { apply SP_SQ in Sy. destruct Sy as [S1 S2]. split; [|exact S2]. split; [lia|exact S1]. }
      intros zs [[Lz Sz] Pz]. rewrite servers_J.
      assert (EJ : eeq (J alpha beta f false ys) (J alpha beta f false ys')).
      { apply (total_cost_Qeq f beta false alpha (cq_eq _ _ _ CQ)); auto. reflexivity. }
      rewrite EJ.
      assert (Ez : eeq (escale 3 (J alpha beta f false zs)) (escale 3 (servers_cost f beta alpha false zs))).
      { pose proof (servers_J beta alpha f false zs) as Ez. destruct (servers_cost f beta alpha false zs), (J alpha beta f false zs);
          cbn [eeq escale] in *; try tauto. rewrite Ez. reflexivity. }
      rewrite <- Ez.
      apply (lazy_competitive SP m alpha beta SP_proper SP_range SP_m SP_0 Ha (cq_beta _ _ _ CQ) f (cq_eq _ _ _ CQ) SP_convex
        (fun t x Ht Hx => cq_nonneg _ _ _ CQ t x Ht (SP_range x Hx)) n ys' zs HL); [lia|].
      apply SP_SQ. auto.
    Qed.

    Lemma lazy_first : 1 <= g_tend p -> exists xs bs,
      fractional_lcp vmerge merge outside sched minimizer p 0 1 = Ok (xs, Some bs).
    Proof.
      intros H1. destruct (lazy_next 0 [] []) as (x & b & E & _).
      - exists [], []. repeat split; constructor.
      - intros (b1 & b & b' & b2 & E & _). destruct b1; discriminate.
      - lia.
      - exists [x], [b]. unfold fractional_lcp. cbn [lcp_steps]. unfold lcp_next. cbn [length]. rewrite E. reflexivity.
    Qed.

    Lemma lcp_steps_snoc {T} (v : value T) o : forall n xs mem xs' mem',
      lcp_steps v o n xs mem = Ok (xs', mem') ->
      lcp_steps v o (S n) xs mem =
        (do r <- lcp_next v (o (Z.of_nat (length xs') + 1)) xs' mem'; Ok (xs' ++ [fst r], Some (snd r))).
    Proof.
      induction n as [|n IH]; intros xs mem xs' mem' E.
      - cbn [lcp_steps] in *. injection E as <- <-. destruct (lcp_next v (o (Z.of_nat (length xs) + 1)) xs mem); reflexivity.
      - cbn [lcp_steps] in E. apply obind_Ok in E as (r & E & E').
        change (lcp_steps v o (S (S n)) xs mem) with
          (do r <- lcp_next v (o (Z.of_nat (length xs) + 1)) xs mem; lcp_steps v o (S n) (xs ++ [fst r]) (Some (snd r))).
        rewrite E. cbn [obind]. apply IH. exact E'.
    Qed.

    Lemma unsuspected_init (bs : list (bounds_memory Q)) : ~ suspected bs -> ~ suspected (removelast bs).
    Proof.
      intros H. destruct bs as [|b bs _] using rev_ind; [exact H|]. rewrite removelast_last. exact (unsuspected_prefix _ _ H).
    Qed.

    Lemma lazy_more n xs bs : Z.of_nat n + 1 <= g_tend p ->
      fractional_lcp vmerge merge outside sched minimizer p 0 n = Ok (xs, Some bs) -> ~ suspected bs ->
      exists x b, fractional_lcp vmerge merge outside sched minimizer p 0 (S n) = Ok (xs ++ [x], Some (bs ++ [b])).
    Proof.
      intros Hn E Hq. pose proof (lazy_run n xs bs ltac:(lia) E (unsuspected_init bs Hq)) as HS.
      destruct (lazy_next n xs bs HS Hq Hn) as (x & b & Ex & _). exists x, b.
      unfold fractional_lcp in *. rewrite (lcp_steps_snoc valQ _ n _ _ _ _ E). unfold lcp_next.
      destruct HS as (ys & _ & -> & L & _). rewrite map_length, L in *. rewrite Ex. reflexivity.
    Qed.
  End Lazy.
End OnSet.
