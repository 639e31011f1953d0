(** Proofs about algorithm B (lazy budgeting for SBLO). *)
From Coq Require Import Lia Lqa Setoid.
From Verif Require Import NumLemmas CostSpec ConvertObjective LoadProofs BudgetProofs BudgetRun
  StreamSpec StreamProofs VerifyProofs BalancedModel BalancedSpec BalancedSearch.
From Verif Require Import CostModel ProblemModel.
Local Open Scope Z_scope.

Lemma esum_app a b : eeq (esum (a ++ b)) (eadd (esum a) (esum b)).
Proof.
  induction a as [|x a IH]; [apply eeq_sym; cbn [app]; apply eadd_0_l|]. cbn [app]. unfold esum in *. cbn [fold_right].
  eapply eeq_trans; [|apply eadd_assoc]. destruct x as [x|]; [|exact I].
  destruct (fold_right eadd (Fin 0) (a ++ b)), (eadd (fold_right eadd (Fin 0) a) (fold_right eadd (Fin 0) b));
    cbn in *; try contradiction; auto. lra.
Qed.

Lemma fold_left_esum {A} (c : A -> ext) l : forall a, eeq (fold_left (fun s x => eadd s (c x)) l a) (eadd a (esum (map c l))).
Proof.
  induction l as [|x l IH]; intros a; cbn [fold_left map]; [apply eeq_sym; apply eadd_0_r|].
  eapply eeq_trans; [apply IH|]. unfold esum. cbn [fold_right]. apply eeq_sym, eadd_assoc.
Qed.

Lemma esum_nonneg l : Forall (ele (Fin 0)) l -> ele (Fin 0) (esum l).
Proof.
  induction 1 as [|x l Hx _ IH]; [cbn; lra|]. unfold esum in *. cbn [fold_right].
  destruct x, (fold_right eadd (Fin 0) l); cbn in *; auto. lra.
Qed.

Lemma eleb_eeq a b c : eeq a b -> eleb a c = eleb b c.
Proof.
  intros H. destruct (eleb a c) eqn:E, (eleb b c) eqn:E'; auto; rewrite ?eleb_iff, ?eleb_false in *; exfalso;
    destruct a, b, c; cbn in *; try contradiction; lra.
Qed.

Lemma eltb_eeq a b c : eeq a b -> eltb c a = eltb c b.
Proof.
  intros H. destruct (eltb c a) eqn:E, (eltb c b) eqn:E'; auto; rewrite ?eltb_iff, ?eltb_false in *; exfalso;
    destruct a, b, c; cbn in *; try contradiction; lra.
Qed.

Lemma fold_left_zsum l : forall a, fold_left Z.add l a = a + zsum l.
Proof. induction l as [|x l IH]; intros a; cbn [fold_left]; [cbn; lia|]. rewrite IH. change (zsum (x :: l)) with (x + zsum l). lia. Qed.

Lemma zsum_app a b : zsum (a ++ b) = zsum a + zsum b.
Proof. induction a as [|x a IH]; [reflexivity|]. cbn [app]. change (x + zsum (a ++ b) = x + zsum a + zsum b). lia. Qed.

Lemma omap_exact {A B} (f : A -> outcome B) (g : A -> B) l : (forall a, In a l -> f a = Ok (g a)) -> omap f l = Ok (map g l).
Proof.
  induction l as [|a l IH]; intros H; [reflexivity|]. cbn [omap map]. rewrite H by (left; reflexivity). cbn [obind].
  rewrite IH by (intros; apply H; right; assumption). reflexivity.
Qed.

(** Weighted count of the slots satisfying [P]. *)
Definition wsum (w : Z -> Z) (P : Z -> bool) (l : list Z) : Z := zsum (map w (filter P l)).

Lemma wsum_cons w P a l : wsum w P (a :: l) = (if P a then w a else 0) + wsum w P l.
Proof. unfold wsum. cbn [filter]. destruct (P a); cbn [map zsum fold_right]; reflexivity. Qed.

Lemma wsum_ext w w' P P' l : (forall s, In s l -> w s = w' s /\ P s = P' s) -> wsum w P l = wsum w' P' l.
Proof.
  induction l as [|a l IH]; intros H; [reflexivity|]. rewrite !wsum_cons.
  destruct (H a) as [-> ->]; [left; reflexivity|]. rewrite IH; auto. intros; apply H; right; auto.
Qed.

Lemma wsum_app w P a b : wsum w P (a ++ b) = wsum w P a + wsum w P b.
Proof. unfold wsum. rewrite filter_app, map_app, zsum_app. reflexivity. Qed.

Lemma wsum_diff w P R l : (forall s, In s l -> R s = true -> P s = true) ->
  wsum w P l - wsum w (fun s => P s && negb (R s)) l = wsum w R l.
Proof.
  induction l as [|a l IH]; intros H; [reflexivity|]. rewrite !wsum_cons.
  specialize (IH (fun s Hs => H s (or_intror Hs))). pose proof (H a (or_introl eq_refl)) as Ha.
  destruct (P a), (R a); cbn [andb negb] in *; try lia; specialize (Ha eq_refl); discriminate.
Qed.

Lemma wsum_le w P R l : (forall s, In s l -> 0 <= w s) -> (forall s, In s l -> R s = true -> P s = true) -> wsum w R l <= wsum w P l.
Proof.
  induction l as [|a l IH]; intros Hw H; [cbn; lia|]. rewrite !wsum_cons.
  specialize (IH (fun s Hs => Hw s (or_intror Hs)) (fun s Hs => H s (or_intror Hs))).
  pose proof (Hw a (or_introl eq_refl)). pose proof (H a (or_introl eq_refl)) as Ha.
  destruct (P a), (R a); try lia; specialize (Ha eq_refl); discriminate.
Qed.

Lemma wsum_nonneg w P l : (forall s, In s l -> 0 <= w s) -> 0 <= wsum w P l.
Proof.
  induction l as [|a l IH]; intros Hw; [cbn; lia|]. rewrite wsum_cons. specialize (IH (fun s Hs => Hw s (or_intror Hs))).
  pose proof (Hw a (or_introl eq_refl)). destruct (P a); lia.
Qed.

Lemma entry_app_l (l l' : list (list Z)) u k : 1 <= u <= Z.of_nat (length l) -> entry (l ++ l') u k = entry l u k.
Proof. intros H. unfold entry. rewrite app_nth1 by lia. reflexivity. Qed.

Lemma entry_last (l : list (list Z)) r k : entry (l ++ [r]) (Z.of_nat (length l) + 1) k = nth k r 0.
Proof. unfold entry. rewrite app_nth2 by lia. replace (_ - _)%nat with 0%nat by lia. reflexivity. Qed.

Lemma last_nth {A} (l : list A) d : l <> [] -> last l d = nth (length l - 1) l d.
Proof.
  intros H. destruct (exists_last H) as (l' & a & ->). rewrite last_last, app_length, app_nth2; cbn; [|lia].
  replace (_ - _)%nat with 0%nat by lia. reflexivity.
Qed.

Section AlgB.
  Variable minimize :
    (list Q -> outcome ext) -> list (Q * Q) -> list Q -> list (list Q -> outcome Q) -> option (list Q * ext).
  Variable sched : Z -> Z -> vertice -> split.
  Hypothesis HX : solver_extensional minimize.
  Variable p : gsblo Z.
  Variable T : Z.
  Hypothesis HI : balanced_instance minimize p T.

  Notation d := (Z.to_nat (b_d p)).
  Notation io := (idle_over p).

  Lemma d_pos : 0 < b_d p.
  Proof. apply (bi_form _ _ _ HI). Qed.
  Lemma dims k : (k < d)%nat -> exists f beta bound, nth_error (b_cost p) k = Some f /\
    nth_error (b_switching p) k = Some beta /\ nth_error (b_bounds p) k = Some bound /\ (0 < beta)%Q.
  Proof.
    intros Hk. destruct (bi_form _ _ _ HI) as (Hd & _ & HLb & HLs & HB & HS). pose proof (bi_costs _ _ _ HI).
    destruct (nth_error_ex (b_cost p) k) as [f Hf]; [lia|]. destruct (nth_error_ex (b_switching p) k) as [beta Hbeta]; [lia|].
    destruct (nth_error_ex (b_bounds p) k) as [bound Hbound]; [lia|]. exists f, beta, bound. repeat split; auto.
    eapply Forall_forall in HS; [exact HS|]. eapply nth_error_In; exact Hbeta.
  Qed.

  Lemma idle_nonneg k u : (k < d)%nat -> 1 <= u <= T -> ele (Fin 0) (idle p k u).
  Proof.
    intros Hk Hu. destruct (dims k Hk) as (f & beta & bound & Hf & _). unfold idle. rewrite Hf.
    destruct (bi_idle _ _ _ HI k f u Hf Hu) as (c & -> & Hc). exact Hc.
  Qed.

  Lemma io_snoc k s u : s <= u -> eeq (io k s (u + 1)) (eadd (io k s u) (idle p k (u + 1))).
  Proof.
    intros H. unfold idle_over. rewrite zrange_snoc by lia. rewrite map_app. eapply eeq_trans; [apply esum_app|].
    cbn [map]. unfold esum at 2. cbn [fold_right]. destruct (esum _), (idle p k (u + 1)); cbn; auto. lra.
  Qed.

  Lemma io_mono k s u beta : (k < d)%nat -> 0 <= s <= u -> u + 1 <= T ->
    eleb (io k s (u + 1)) (Fin beta) = true -> eleb (io k s u) (Fin beta) = true.
  Proof.
    intros Hk Hs Hu H. rewrite eleb_iff in *. pose proof (io_snoc k s u ltac:(lia)) as E.
    pose proof (idle_nonneg k (u + 1) Hk ltac:(lia)) as HN.
    destruct (io k s (u + 1)), (io k s u), (idle p k (u + 1)); cbn in *; try contradiction; auto. lra.
  Qed.

  (** Algorithm B has handled the slots 1..u. *)
  Definition InvB (u : Z) (xs : list (list Z)) (m : algb_memory) : Prop :=
    0 <= u /\ lazy_schedule minimize p u (ab_init m) xs /\ cache_for minimize p u (ab_cache m).

  Lemma InvB_init : InvB 0 [] algb_default.
  Proof.
    split; [lia|]. split; [|reflexivity]. split; [split; [reflexivity|constructor]|]. split; [reflexivity|]. split; [constructor|]. intros; lia.
  Qed.

  Lemma entries_nonneg u ups xs : lazy_schedule minimize p u ups xs -> forall s k, (k < d)%nat -> 1 <= s <= u -> 0 <= entry ups s k.
  Proof.
    intros (_ & _ & _ & H) s k Hk Hs. destruct (H s Hs) as (opts & opt & _ & HC).
    destruct (dims k Hk) as (f & beta & bound & _ & Hbeta & _). destruct (HC k beta Hbeta) as (o & _ & _ & ->). lia.
  Qed.

  (** Active servers: those powered up and not yet deactivated. *)
  Lemma active_servers u ups xs k beta : lazy_schedule minimize p u ups xs -> 1 <= u -> (k < d)%nat ->
    nth_error (b_switching p) k = Some beta ->
    entry xs u k = wsum (fun s => entry ups s k) (fun s => eleb (io k s u) (Fin beta)) (zrange 1 u).
  Proof.
    intros HL Hu Hk Hbeta. pose proof HL as (_ & _ & _ & H). destruct (H u ltac:(lia)) as (opts & opt & _ & HC).
    destruct (HC k beta Hbeta) as (o & _ & E1 & E2).
    assert (EZ : zrange 1 u = zrange 1 (u - 1) ++ [u]).
    { pose proof (zrange_snoc 1 (u - 1) ltac:(lia)) as E. replace (u - 1 + 1) with u in E by lia. exact E. }
    rewrite EZ, wsum_app, wsum_cons.
    assert (Ez : eleb (io k u u) (Fin beta) = true).
    { unfold idle_over. rewrite zrange_nil by lia. cbn [map]. unfold esum. cbn [fold_right]. apply eleb_iff. cbn.
      destruct (dims k Hk) as (f & b & bound & _ & Hb & _ & Hpos). rewrite Hbeta in Hb. injection Hb as ->. lra. }
    rewrite Ez. change (wsum _ _ []) with 0.
    change (kept p ups u k beta) with (wsum (fun s => entry ups s k) (fun s => eleb (io k s u) (Fin beta)) (zrange 1 (u - 1))) in *. lia.
  Qed.

  Section Step.
    Variable q : gsblo Z.
    Variable u : Z.
    Hypothesis Hu : 1 <= u <= T.
    Hypothesis Hq : agrees_upto q p u.

    Lemma q_idle k f c t : nth_error (b_cost q) k = Some f -> (k < d)%nat -> 1 <= t <= u -> call_certain f t 0%Q = Ok c -> c_cost c = idle p k t.
    Proof.
      intros Hf Hk Ht Hc. pose proof (ag_cost _ _ _ (Hq t Ht) k) as HC. rewrite Hf in HC.
      destruct (dims k Hk) as (g & beta & bound & Hg & _). rewrite Hg in HC. unfold idle. rewrite Hg.
      rewrite call_certain_pred in Hc |- *. rewrite <- HC, Hc. reflexivity.
    Qed.

    Lemma q_idle_ok k f t : nth_error (b_cost q) k = Some f -> (k < d)%nat -> 1 <= t <= u -> exists c, call_certain f t 0%Q = Ok c.
    Proof.
      intros Hf Hk Ht. pose proof (ag_cost _ _ _ (Hq t Ht) k) as HC. rewrite Hf in HC.
      destruct (dims k Hk) as (g & beta & bound & Hg & _). rewrite Hg in HC.
      destruct (bi_idle _ _ _ HI k g t Hg ltac:(lia)) as (c & Hc & _). exists c.
      rewrite call_certain_pred in Hc |- *. rewrite HC. exact Hc.
    Qed.

    Lemma cumulative_ok k f a b : nth_error (b_cost q) k = Some f -> (k < d)%nat -> 0 <= a -> b <= u ->
      exists e, cumulative_idle f (a + 1) b = Ok e /\ eeq e (io k a b).
    Proof.
      intros Hf Hk Ha Hb. unfold cumulative_idle.
      destruct (omap_exists (fun t => call_certain f t 0%Q) (zrange (a + 1) b)) as [cs Hcs].
      { intros t Ht. apply zrange_In in Ht. eapply q_idle_ok; eauto. lia. }
      rewrite Hcs. cbn [obind]. eexists. split; [reflexivity|].
      eapply eeq_trans; [apply fold_left_esum|]. eapply eeq_trans; [apply eadd_0_l|].
      unfold idle_over. assert (EM : map (idle p k) (zrange (a + 1) b) = map c_cost cs); [|rewrite EM; apply eeq_refl].
      apply nth_ext with (d := Inf) (d' := Inf).
      - rewrite !map_length. rewrite (omap_length _ _ _ Hcs). reflexivity.
      - intros i Hi. rewrite map_length in Hi. destruct (nth_error_ex (zrange (a + 1) b) i Hi) as [t Ht].
        destruct (nth_error_omap _ _ _ _ _ Hcs Ht) as (c & Hc & Hi').
        rewrite (nth_error_nth (map _ _) i Inf (map_nth_error (idle p k) i _ Ht)).
        rewrite (nth_error_nth (map _ cs) i Inf (map_nth_error _ i _ Hi')).
        symmetry. eapply q_idle; eauto. apply nth_error_In in Ht. apply zrange_In in Ht. lia.
    Qed.

    Lemma deactivated_ok k f beta ups : nth_error (b_cost q) k = Some f -> (k < d)%nat ->
      Z.of_nat (length ups) = u - 1 -> Forall (fun r => Z.of_nat (length r) = b_d p) ups ->
      deactivated_quantity f beta ups u k =
        Ok (wsum (fun s => entry ups s k) (fun s => eleb (io k s (u - 1)) (Fin beta) && negb (eleb (io k s u) (Fin beta))) (zrange 1 (u - 1))).
    Proof.
      intros Hf Hk HL HR. unfold deactivated_quantity.
      rewrite (omap_exact _ (fun s => if eleb (io k s (u - 1)) (Fin beta) && negb (eleb (io k s u) (Fin beta)) then entry ups s k else 0)).
      - cbn [obind]. rewrite fold_left_zsum. f_equal. cbn [Z.add].
        generalize (zrange 1 (u - 1)) as l. intros l. induction l as [|a l IH]; [reflexivity|]. rewrite wsum_cons, <- IH. reflexivity.
      - intros s Hs. apply zrange_In in Hs.
        destruct (cumulative_ok k f s (u - 1) Hf Hk ltac:(lia) ltac:(lia)) as (e & Ee & He). rewrite Ee. cbn [obind].
        destruct (q_idle_ok k f u Hf Hk ltac:(lia)) as [c Hc]. rewrite Hc. cbn [obind].
        assert (E1 : eleb e (Fin beta) = eleb (io k s (u - 1)) (Fin beta)) by (apply eleb_eeq; exact He).
        assert (E2 : eltb (Fin beta) (eadd e (c_cost c)) = negb (eleb (io k s u) (Fin beta))).
        { rewrite (eltb_eeq _ (io k s u)).
          - destruct (eleb (io k s u) (Fin beta)) eqn:E; rewrite ?eleb_iff, ?eleb_false in E; cbn [negb]; [apply eltb_false|apply eltb_iff]; exact E.
          - rewrite (q_idle k f c u Hf Hk ltac:(lia) Hc). apply eeq_sym. pose proof (io_snoc k s (u - 1) ltac:(lia)) as E. replace (u - 1 + 1) with u in E by lia.
            eapply eeq_trans; [exact E|]. destruct (idle p k u), e, (io k s (u - 1)); cbn in *; try contradiction; auto. lra. }
        rewrite E1, E2. destruct (_ && _); [|reflexivity].
        unfold access. rewrite (proj2 (Z.leb_le _ _)) by lia. rewrite (proj2 (Z.leb_le _ _)) by lia. cbn [andb].
        destruct (nth_error_ex ups (Z.to_nat (s - 1))) as [r Hr]; [lia|]. rewrite Hr. cbn [from_option obind].
        eapply Forall_forall in HR; [|eapply nth_error_In; exact Hr]. destruct (nth_error_ex r k) as [a Ha]; [lia|]. rewrite Ha.
        unfold entry. rewrite (nth_error_nth ups _ [] Hr), (nth_error_nth r _ 0 Ha). reflexivity.
    Qed.
  End Step.

  Lemma feasible_entry u xs s k bound : feasible_schedule u (b_bounds p) xs -> 1 <= s <= u ->
    nth_error (b_bounds p) k = Some bound -> 0 <= entry xs s k <= bound.
  Proof.
    intros (HL & HF) Hs Hb. destruct (nth_error_ex xs (Z.to_nat (s - 1))) as [x Hx]; [lia|].
    unfold entry. rewrite (nth_error_nth xs _ [] Hx). eapply Forall_forall in HF; [|eapply nth_error_In; exact Hx].
    destruct (nth_error_ex x k) as [a Ha]. { rewrite (feasible_length _ _ HF). eapply nth_error_lt; exact Hb. }
    rewrite (nth_error_nth x _ 0 Ha). exact (feasible_nth _ _ _ _ _ HF Hb Ha).
  Qed.

  Lemma kept_ext ups ups' u k beta : (forall s, 1 <= s < u -> entry ups s k = entry ups' s k) -> kept p ups u k beta = kept p ups' u k beta.
  Proof.
    intros H. unfold kept. f_equal. apply map_ext_in. intros s Hs. apply filter_In in Hs as [Hs _]. apply zrange_In in Hs. apply H. lia.
  Qed.

  (** One slot of algorithm B on a problem agreeing with the instance so far. *)
  Lemma algb_step q w u xs m : 0 <= u < T -> agrees_upto q p (u + 1) -> b_tend q = u + 1 -> InvB u xs m ->
    exists x m', alg_b minimize sched (mkOnline q w) (u + 1) xs m = Ok (x, Some m') /\ InvB (u + 1) (xs ++ [x]) m'.
  Proof.
    intros Hu Hq Hend (_ & HL & HC).
    destruct (find_optimal_ok minimize sched HX p T HI q (u + 1) ltac:(lia) Hq Hend (ab_cache m)) as (opts & opt & cache' & EF & HO & HC').
    { replace (u + 1 - 1) with u by lia. exact HC. }
    pose proof HL as ((HLx & HFx) & HLu & HRu & HS).
    set (ups := ab_init m) in *.
    pose proof HO as ((HLo & HFo) & _ & _). apply Forall_app in HFo as [_ HFo]. apply Forall_cons_iff in HFo as [HFo _].
    destruct (q_same p T q (u + 1) ltac:(lia) Hq) as (Ad & Ab & As).
    set (K k := match nth_error (b_switching p) k with Some beta => kept p ups (u + 1) k beta | None => 0 end).
    set (g k := (Z.max 0 (nth k opt 0 - K k), Z.max (nth k opt 0) (K k))).
    assert (EK : forall k beta bound, (k < d)%nat -> nth_error (b_switching p) k = Some beta -> nth_error (b_bounds p) k = Some bound ->
      0 <= K k <= bound).
    { intros k beta bound Hk Hbeta Hbound. unfold K. rewrite Hbeta. unfold kept. replace (u + 1 - 1) with u by lia.
      change (0 <= wsum (fun s => entry ups s k) (fun s => eleb (io k s (u + 1)) (Fin beta)) (zrange 1 u) <= bound).
      split.
      - apply wsum_nonneg. intros s Hs. apply zrange_In in Hs. eapply entries_nonneg; eauto.
      - destruct (Z.eq_dec u 0) as [->|Hn].
        + rewrite zrange_nil by lia. change (0 <= bound).
          destruct (bi_form _ _ _ HI) as (_ & _ & _ & _ & HB & _). eapply Forall_forall in HB; [|eapply nth_error_In; exact Hbound].
          unfold is_positive in HB. cbn in HB. change 0%Q with (inject_Z 0) in HB. rewrite <- Zlt_Qlt in HB. lia.
        + transitivity (entry xs u k).
          * rewrite (active_servers u ups xs k beta HL ltac:(lia) Hk Hbeta). apply wsum_le.
            -- intros s Hs. apply zrange_In in Hs. eapply entries_nonneg; eauto.
            -- intros s Hs. apply zrange_In in Hs. apply io_mono; auto; lia.
          * eapply (feasible_entry u xs u k bound); [split; assumption|lia|exact Hbound]. }
    assert (EO : omap (algb_dimension q (u + 1) (last xs (repeat 0 (Z.to_nat (b_d q)))) ups opt) (seq 0 (Z.to_nat (b_d q))) = Ok (map g (seq 0 d))).
    { rewrite Ad. apply omap_exact. intros k Hk. apply in_seq in Hk. assert (Hk' : (k < d)%nat) by lia.
      destruct (dims k Hk') as (f0 & beta & bound & Hf0 & Hbeta & Hbound & Hpos).
      pose proof (ag_cost _ _ _ (Hq (u + 1) ltac:(lia)) k) as HCk. rewrite Hf0 in HCk.
      destruct (nth_error (b_cost q) k) as [f|] eqn:Hf; [|contradiction].
      destruct (nth_error_ex opt k) as [o Ho]. { rewrite (feasible_length _ _ HFo). eapply nth_error_lt; exact Hbound. }
      unfold algb_dimension. rewrite Hf, As, Hbeta, Ho.
      assert (EP : exists prev, nth_error (last xs (repeat 0 d)) k = Some prev /\
        prev - wsum (fun s => entry ups s k) (fun s => eleb (io k s (u + 1 - 1)) (Fin beta) && negb (eleb (io k s (u + 1)) (Fin beta))) (zrange 1 (u + 1 - 1)) = K k).
      { unfold K. rewrite Hbeta. unfold kept. replace (u + 1 - 1) with u by lia. destruct (Z.eq_dec u 0) as [->|Hn].
        - assert (xs = []) as -> by (destruct xs; [reflexivity|cbn in HLx; lia]). cbn [last]. exists 0.
          rewrite nth_error_repeat by lia. rewrite zrange_nil by lia. split; reflexivity.
        - assert (Hne : xs <> []) by (intros E; rewrite E in HLx; cbn in HLx; lia).
          destruct (nth_error_ex xs (length xs - 1)) as [x Hx]; [destruct xs; cbn in *; [congruence|lia]|].
          rewrite (last_nth xs _ Hne), (nth_error_nth xs _ _ Hx).
          pose proof HFx as HFx'. eapply Forall_forall in HFx'; [|eapply nth_error_In; exact Hx].
          destruct (nth_error_ex x k) as [a Ha]. { rewrite (feasible_length _ _ HFx'). eapply nth_error_lt; exact Hbound. }
          exists a. split; [exact Ha|].
          assert (a = entry xs u k) as ->.
          { unfold entry. replace (Z.to_nat (u - 1)) with (length xs - 1)%nat by lia. rewrite (nth_error_nth xs _ [] Hx), (nth_error_nth x _ 0 Ha). reflexivity. }
          rewrite (active_servers u ups xs k beta HL ltac:(lia) Hk' Hbeta). rewrite wsum_diff; [reflexivity|].
          intros s Hs. apply zrange_In in Hs. apply io_mono; auto; lia. }
      destruct EP as (prev & Hprev & EP). rewrite Hprev. cbn [from_option obind].
      rewrite (deactivated_ok q (u + 1) ltac:(lia) Hq k f beta ups Hf Hk' ltac:(lia) HRu). cbn [obind]. rewrite EP.
      unfold g. rewrite (nth_error_nth opt _ 0 Ho). destruct (K k <? o) eqn:E; [apply Z.ltb_lt in E|apply Z.ltb_ge in E]; f_equal; f_equal; lia. }
    exists (map snd (map g (seq 0 d))). eexists. split.
    { unfold alg_b. cbn [on_p]. rewrite EF. cbn [obind fst snd]. fold ups. rewrite EO. cbn [obind]. reflexivity. }
    split; [lia|]. split; [|exact HC'].
    change (lazy_schedule minimize p (u + 1) (ups ++ [map fst (map g (seq 0 d))]) (xs ++ [map snd (map g (seq 0 d))])).
    assert (Hlen : length (seq 0 d) = d) by apply seq_length.
    assert (Hg : forall {B} (h : Z * Z -> B) (k : nat) dflt, (k < d)%nat -> nth k (map h (map g (seq 0 d))) dflt = h (g k)).
    { intros B h k dflt Hk. rewrite map_map. apply nth_error_nth. rewrite nth_error_map.
      assert (nth_error (seq 0 d) k = Some k) as ->.
      { rewrite (nth_error_nth' (seq 0 d) 0%nat) by lia. rewrite seq_nth by lia. reflexivity. }
      reflexivity. }
    split; [split|split; [|split]].
    - rewrite app_length. cbn [length]. lia.
    - apply Forall_app. split; [exact HFx|]. constructor; [|constructor]. apply feasible_from_nth.
      + rewrite !map_length, Hlen. destruct (bi_form _ _ _ HI) as (_ & _ & HLb & _). lia.
      + intros k bound Hbound.
        assert (Hk : (k < d)%nat) by (apply nth_error_lt in Hbound; destruct (bi_form _ _ _ HI) as (_ & _ & HLb & _); lia).
        exists (nth k (map snd (map g (seq 0 d))) 0). split; [apply nth_error_nth'; rewrite !map_length; lia|].
        rewrite Hg by exact Hk. cbn [g snd].
        destruct (dims k Hk) as (f0 & beta & bound' & _ & Hbeta & Hbound' & _). assert (bound' = bound) by congruence. subst bound'.
        specialize (EK k beta bound Hk Hbeta Hbound).
        destruct (nth_error_ex opt k) as [o Ho]. { rewrite (feasible_length _ _ HFo). eapply nth_error_lt; exact Hbound. }
        pose proof (feasible_nth _ _ _ _ _ HFo Hbound Ho). rewrite ?(nth_error_nth opt _ 0 Ho). unfold g. cbn [snd]. rewrite ?(nth_error_nth opt _ 0 Ho). lia.
    - cbn [ab_init]. rewrite app_length. cbn [length]. lia.
    - apply Forall_app. split; [exact HRu|]. constructor; [|constructor]. rewrite !map_length, Hlen. pose proof d_pos. lia.
    - intros s Hs. destruct (Z.eq_dec s (u + 1)) as [->|Hn].
      + exists opts, opt. split; [exact HO|]. intros k beta Hbeta.
        assert (Hk : (k < d)%nat). { apply nth_error_lt in Hbeta. destruct (bi_form _ _ _ HI) as (_ & _ & _ & HLs & _). lia. }
        destruct (dims k Hk) as (f0 & beta' & bound & _ & Hbeta' & Hbound & _).
        destruct (nth_error_ex opt k) as [o Ho]. { rewrite (feasible_length _ _ HFo). eapply nth_error_lt; exact Hbound. }
        exists o. split; [exact Ho|].
        assert (EKk : kept p (ups ++ [map fst (map g (seq 0 d))]) (u + 1) k beta = K k).
        { unfold K. rewrite Hbeta. apply kept_ext. intros s Hs'. apply entry_app_l. lia. }
        rewrite EKk.
        replace (u + 1) with (Z.of_nat (length xs) + 1) at 1 by lia. rewrite entry_last, Hg by exact Hk.
        replace (u + 1) with (Z.of_nat (length ups) + 1) by lia. rewrite entry_last, Hg by exact Hk.
        cbn [g fst snd]. rewrite (nth_error_nth opt _ 0 Ho). split; reflexivity.
      + destruct (HS s ltac:(lia)) as (os & o & HOs & HCs). exists os, o. split; [exact HOs|]. intros k beta Hbeta.
        destruct (HCs k beta Hbeta) as (ok & Hok & E1 & E2). exists ok. split; [exact Hok|].
        rewrite !entry_app_l by lia. rewrite (kept_ext _ ups); [split; assumption|]. intros s' Hs'. apply entry_app_l. lia.
  Qed.
End AlgB.
