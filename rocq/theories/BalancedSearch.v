(** Proofs about lazy budgeting for SBLO: problems agreeing up to a slot, the search. *)
From Coq Require Import Lia Lqa Setoid.
From Verif Require Import NumLemmas CostSpec CostProofs ConvertProofs ConvertObjective LoadProofs LoadObjective
  GraphSearchProofs VerifyProofs BudgetProofs BudgetRun BalancedModel BalancedSpec.
From Verif Require Import CostModel ProblemModel.
Local Open Scope Z_scope.

Lemma call_mean_pred {X C D} (vm : C -> C -> outcome C) (f : cost_fn X C D) t x :
  call_mean vm f t x = do rs <- call_predictive f t x; cost_mean vm rs.
Proof. unfold call_mean, call_predictive. destruct (cf_get f t) as [e| |]; reflexivity. Qed.

Lemma call_certain_pred {X C D} (f : cost_fn X C D) t x :
  call_certain f t x = do rs <- call_predictive f t x; match rs with [c] => Ok c | _ => Panic end.
Proof. unfold call_certain, call_predictive. destruct (cf_get f t) as [e| |]; reflexivity. Qed.

(** Two instances agree at slot [u]. *)
Record agrees_at (p q : gsblo Z) (u : Z) : Prop := {
  ag_d : b_d p = b_d q;
  ag_bounds : b_bounds p = b_bounds q;
  ag_switching : b_switching p = b_switching q;
  ag_load : access (b_load p) u = access (b_load q) u;
  ag_cost : forall k, match nth_error (b_cost p) k, nth_error (b_cost q) k with
                      | Some f, Some g => forall z, call_predictive f u z = call_predictive g u z
                      | None, None => True
                      | _, _ => False
                      end
}.
Definition agrees_upto (p q : gsblo Z) (U : Z) : Prop := forall u, 1 <= u <= U -> agrees_at p q u.

Lemma agrees_refl p u : agrees_at p p u.
Proof. constructor; try reflexivity. intros k. destruct (nth_error _ _); auto. Qed.

Lemma agrees_sym p q u : agrees_at p q u -> agrees_at q p u.
Proof.
  intros [A B S L C]. constructor; auto. intros k. specialize (C k).
  destruct (nth_error (b_cost p) k), (nth_error (b_cost q) k); auto.
Qed.

Lemma agrees_trans p q r u : agrees_at p q u -> agrees_at q r u -> agrees_at p r u.
Proof.
  intros [A B S L C] [A' B' S' L' C']. constructor; try congruence. intros k. specialize (C k). specialize (C' k).
  destruct (nth_error (b_cost p) k), (nth_error (b_cost q) k), (nth_error (b_cost r) k); auto; try contradiction.
  intros z. rewrite C. auto.
Qed.

Lemma agrees_at_slot p t u : agrees_at (sblo_at p t) p u.
Proof. constructor; try reflexivity. intros k. cbn [sblo_at b_cost]. destruct (nth_error _ _); auto. Qed.

Lemma sum_results_ext {A} (add : A -> A -> A) (f g : nat -> outcome (result A)) l : (forall k, In k l -> f k = g k) ->
  map f l = map g l.
Proof. intros H. apply map_ext_in. exact H. Qed.

Lemma objective_agrees p q u x lambda zs : agrees_at p q u ->
  sblo_objective valZ p u x lambda zs = sblo_objective valZ q u x lambda zs.
Proof.
  intros [A B S L C]. unfold sblo_objective. rewrite A. destruct (negb _); [reflexivity|]. f_equal. apply map_ext_in. intros k _.
  destruct (select_loads zs lambda k) as [loads| |]; [|reflexivity|reflexivity]. cbn [obind].
  destruct (nth_error loads 0) as [tl|]; [|reflexivity]. cbn [from_option obind].
  destruct (nth_error x k) as [xk|]; [|reflexivity]. cbn [from_option obind]. f_equal. f_equal.
  specialize (C k). destruct (nth_error (b_cost p) k) as [f|], (nth_error (b_cost q) k) as [g|]; try contradiction; [|reflexivity].
  cbn [from_option obind]. rewrite !call_mean_pred, C. reflexivity.
Qed.

Section Search.
  Variable minimize :
    (list Q -> outcome ext) -> list (Q * Q) -> list Q -> list (list Q -> outcome Q) -> option (list Q * ext).
  Variable sched : Z -> Z -> vertice -> split.
  Hypothesis HX : solver_extensional minimize.

  Lemma apply_loads_ext d e (o1 o2 : objective_fn Z) lambda t x : (forall zs, o1 t x lambda zs = o2 t x lambda zs) ->
    apply_loads valZ minimize d e o1 lambda t x = apply_loads valZ minimize d e o2 lambda t x.
  Proof.
    intros H. unfold apply_loads. destruct (negb _); [reflexivity|]. destruct (_ <? _)%nat; [reflexivity|].
    destruct (negb _); [reflexivity|].
    erewrite HX. 2:{ intros z. rewrite H. reflexivity. }
    destruct (minimize _ _ _ _) as [[zs c]|]; [|reflexivity]. cbn [from_option obind fst snd]. rewrite H. reflexivity.
  Qed.

  Lemma hit_agrees p q u x : 1 <= u -> agrees_at p q u -> sblo_hit valZ minimize p u x = sblo_hit valZ minimize q u x.
  Proof.
    intros Hu H. unfold sblo_hit, call_certain_within. rewrite (ag_bounds _ _ _ H).
    destruct (within_upper valZ (b_bounds q) x) as [[|]| |]; try reflexivity. cbn [obind].
    rewrite !loads_over_time by lia. destruct (u <? 1); [reflexivity|]. rewrite !nth_error_map.
    pose proof (ag_load _ _ _ H) as HL. unfold access in HL.
    assert (EL : nth_error (b_load p) (Z.to_nat (u - 1)) = nth_error (b_load q) (Z.to_nat (u - 1))).
    { destruct (1 <=? u) eqn:E1; [|apply Z.leb_gt in E1; lia]. cbn [andb] in HL.
      destruct (u <=? Z.of_nat (length (b_load p))) eqn:E2, (u <=? Z.of_nat (length (b_load q))) eqn:E3; auto;
        rewrite ?Z.leb_le, ?Z.leb_gt in *.
      - exfalso. symmetry in HL. revert HL. destruct (nth_error_ex (b_load p) (Z.to_nat (u - 1))) as [a Ha]; [lia|congruence].
      - exfalso. revert HL. destruct (nth_error_ex (b_load q) (Z.to_nat (u - 1))) as [a Ha]; [lia|congruence].
      - rewrite (proj2 (nth_error_None (b_load p) _)), (proj2 (nth_error_None (b_load q) _)) by lia. reflexivity. }
    rewrite EL. destruct (nth_error (b_load q) _); [|reflexivity]. cbn [option_map]. rewrite (ag_d _ _ _ H).
    apply apply_loads_ext. intros zs. apply objective_agrees. exact H.
  Qed.

  Lemma hitting_agrees p q u x : 1 <= u -> agrees_at p q u -> hitting minimize p u x = hitting minimize q u x.
  Proof. intros Hu H. unfold hitting. rewrite (hit_agrees p q) by auto. reflexivity. Qed.

  Lemma balanced_hit_agrees p q u x : 1 <= u -> agrees_at p q u -> balanced_hit minimize p u x = balanced_hit minimize q u x.
  Proof.
    intros Hu H. unfold balanced_hit, gssco_hit, call_mean_within. cbn [into_ssco g_bounds g_cost].
    rewrite (ag_bounds _ _ _ H). destruct (within_upper valZ (b_bounds q) x) as [[|]| |]; try reflexivity. cbn [obind].
    rewrite !call_mean_pred. unfold call_predictive. rewrite !cf_new_get by lia. cbn [obind fst snd].
    unfold single_predictive, certain. rewrite (hit_agrees p q) by auto. reflexivity.
  Qed.

  Lemma all_configs_spec bounds : forall x, In x (all_configs bounds) <-> feasible_config bounds x.
  Proof.
    unfold feasible_config. induction bounds as [|u r IH]; intros x; cbn [all_configs].
    - split; [intros [<-|[]]; constructor|]. inversion 1. left. reflexivity.
    - rewrite in_flat_map. split.
      + intros (j & Hj & Hx). apply in_map_iff in Hx as (y & <- & Hy). apply zrange_In in Hj. constructor; [lia|]. apply IH. exact Hy.
      + inversion 1 as [|a b l l' Hab HF]; subst. exists b. split; [apply zrange_In; lia|]. apply in_map. apply IH. exact HF.
  Qed.

  Section Instance.
    Variable p : gsblo Z.
    Variable T : Z.
    Hypothesis HI : balanced_instance minimize p T.

    Lemma balanced_evaluates u x : 1 <= u <= T -> feasible_config (b_bounds p) x ->
      exists c, balanced_hit minimize p u x = Ok c /\ eeq (c_cost c) (hitting minimize p u x).
    Proof.
      intros Hu Hx. destruct (bi_hit _ _ _ HI u x Hu Hx) as [c Hc]. unfold hitting. rewrite Hc.
      pose proof (into_ssco_hit valZ minimize p u x ltac:(lia)) as HR. rewrite Hc in HR. unfold balanced_hit.
      destruct (gssco_hit _ _ _ _ _ _) as [c'| |]; cbn [outcome_rel] in HR; try contradiction. exists c'. split; [reflexivity|]. apply HR.
    Qed.

    Lemma bounds_feasible : feasible_config (b_bounds p) (b_bounds p).
    Proof.
      destruct (bi_form _ _ _ HI) as (_ & _ & _ & _ & HB & _). unfold feasible_config.
      induction HB as [|u r Hu _ IH]; constructor; auto. unfold is_positive in Hu. cbn in Hu.
      change 0%Q with (inject_Z 0) in Hu. rewrite <- Zlt_Qlt in Hu. lia.
    Qed.

    (** A problem agreeing with the instance up to slot [u]. *)
    Section At.
      Variable q : gsblo Z.
      Variable u : Z.
      Hypothesis Hu : 1 <= u <= T.
      Hypothesis Hq : agrees_upto q p u.
      Hypothesis Hend : b_tend q = u.

      Notation search cache := (optimal_graph_search OutsideDecisionSpace (sched u) (balanced_search minimize q) cache false 1 None).

      Lemma q_same : b_d q = b_d p /\ b_bounds q = b_bounds p /\ b_switching q = b_switching p.
      Proof. destruct (Hq u ltac:(lia)) as [A B S _ _]. auto. Qed.

      Lemma q_evaluates t x : 1 <= t <= u -> feasible_config (b_bounds p) x ->
        exists c, balanced_hit minimize q t x = Ok c /\ eeq (c_cost c) (hitting minimize p t x).
      Proof. intros Ht Hx. rewrite (balanced_hit_agrees q p) by (try apply Hq; lia). apply balanced_evaluates; auto. lia. Qed.

      Lemma searchable_balanced : searchable (balanced_search minimize q).
      Proof.
        destruct q_same as (A & B & S). destruct (bi_form _ _ _ HI) as (Hd & _ & HLb & HLs & HB & HS).
        unfold searchable. cbn [balanced_search into_ssco s_bounds s_d s_switching s_tend s_hit g_d g_tend g_bounds g_switching].
        rewrite A, B, S, Hend.
        assert (HBz : Forall (fun b => 0 < b) (b_bounds p)).
        { eapply Forall_impl; [|exact HB]. intros b Hb. unfold is_positive in Hb. cbn in Hb.
          change 0%Q with (inject_Z 0) in Hb. rewrite <- Zlt_Qlt in Hb. exact Hb. }
        split; [intros E; rewrite E in *; cbn in *; lia|]. split; [lia|]. split; [lia|].
        split; [eapply Forall_impl; [|exact HS]; cbn; intros; lra|]. split; [lia|].
        split; [eapply Forall_impl; [|exact HBz]; cbn; intros; lia|].
        split; [destruct (b_bounds p); [constructor|]; apply Forall_cons_iff in HBz; apply HBz|].
        intros t Ht. destruct (q_evaluates t (b_bounds p) Ht bounds_feasible) as (c & E & Hc).
        rewrite E. cbn [evaluated]. eapply eeq_fin; [exact Hc|]. apply (bi_full _ _ _ HI). lia.
      Qed.

      Lemma total_cost_eeq_feasible (f g : Z -> list Z -> ext) bounds sw alpha xs : forall t prev,
        (forall s x, t <= s < t + Z.of_nat (length xs) -> feasible_config bounds x -> eeq (f s x) (g s x)) ->
        Forall (feasible_config bounds) xs ->
        eeq (total_cost f sw alpha t prev xs) (total_cost g sw alpha t prev xs).
      Proof.
        induction xs as [|x xs IH]; intros t prev H HF; cbn [total_cost]; [apply eeq_refl|].
        inversion HF; subst.
        assert (A : eeq (f t x) (g t x)) by (apply H; [cbn; lia|auto]).
        assert (B : eeq (total_cost f sw alpha (t + 1) x xs) (total_cost g sw alpha (t + 1) x xs)).
        { apply IH; auto. intros. apply H; auto. cbn [length]. lia. }
        destruct (f t x), (g t x); try contradiction; try exact I;
          destruct (total_cost f _ _ _ _ _), (total_cost g _ _ _ _ _); try contradiction; try exact I;
          cbn in *; lra.
      Qed.

      Lemma search_balanced : exists path cache, search None = Ok (path, cache) /\ optimal_prefix minimize p u (gp_xs path).
      Proof.
        destruct (optimal_graph_search_correct OutsideDecisionSpace (sched u) _ false 1 searchable_balanced ltac:(lra))
          as (path & cache & E & HF & Hfin & Hc & Hopt).
        exists path, cache. split; [exact E|]. unfold schedule_cost in *.
        destruct q_same as (A & B & S).
        cbn [balanced_search into_ssco s_bounds s_d s_switching s_tend s_hit g_d g_tend g_bounds g_switching] in HF, Hc, Hopt.
        rewrite A, B, S in *. rewrite Hend in *.
        assert (EQ : forall ys, feasible_schedule u (b_bounds p) ys ->
          eeq (total_cost (restricted (b_bounds p) (fun t x => c_cost (evaluated (balanced_hit minimize q t x)))) (switching (b_switching p) false) 1 1
                 (zero_config (b_d p)) ys)
              (total_cost (hitting minimize p) (switching (b_switching p) false) 1 1 (zero_config (b_d p)) ys)).
        { intros ys (HL & HFe). rewrite total_cost_restricted by exact HFe.
          apply total_cost_eeq_feasible with (bounds := b_bounds p); [|exact HFe].
          intros s x Hs Hx. destruct (q_evaluates s x ltac:(lia) Hx) as (c & Ec & Hcc). rewrite Ec. exact Hcc. }
        split; [exact HF|]. split.
        - eapply eeq_fin; [|exact Hfin]. apply eeq_sym. eapply eeq_trans; [exact Hc|]. apply EQ. exact HF.
        - intros ys Hys. specialize (Hopt ys Hys).
          eapply ele_trans; [apply eeq_ele; apply eeq_sym; eapply eeq_trans; [exact Hc|]; apply EQ; exact HF|].
          eapply ele_trans; [exact Hopt|]. apply eeq_ele. apply EQ. exact Hys.
      Qed.

      Lemma guard_true from : 1 <= from ->
        forallb (fun t => forallb (fun x => is_ok (balanced_hit minimize q t x)) (all_configs (b_bounds q))) (zrange from (b_tend q)) = true.
      Proof.
        intros Hf. apply forallb_forall. intros t Ht. apply zrange_In in Ht. apply forallb_forall. intros x Hx.
        apply all_configs_spec in Hx. destruct q_same as (_ & B & _). rewrite B in Hx. rewrite Hend in Ht.
        destruct (q_evaluates t x ltac:(lia) Hx) as (c & -> & _). reflexivity.
      Qed.

      (** The cache: none at the first slot, otherwise that of a search on a problem agreeing up
          to the previous slot. *)
      Definition cache_for (u0 : Z) (cache : option gcache) : Prop :=
        match cache with
        | None => u0 = 0
        | Some c => 1 <= u0 /\ ca_t c = u0 /\ exists r s path, agrees_upto r p u0 /\ b_tend r = u0 /\
            optimal_graph_search OutsideDecisionSpace s (balanced_search minimize r) None false 1 None = Ok (path, c)
        end.

      Lemma find_optimal_ok cache : cache_for (u - 1) cache ->
        exists opts opt cache', find_optimal_config minimize sched cache q = Ok (opt, cache') /\
          optimal_prefix minimize p u (opts ++ [opt]) /\ cache_for u (Some cache').
      Proof.
        intros HC. unfold find_optimal_config.
        rewrite guard_true by (destruct cache as [c|]; [destruct HC as (? & -> & _); lia|lia]).
        destruct search_balanced as (path & cache' & E & HO).
        assert (ES : optimal_graph_search OutsideDecisionSpace (sched u) (balanced_search minimize q) cache false 1 None = Ok (path, cache')).
        { destruct cache as [c|]; [|exact E]. destruct HC as (H1 & _ & r & s & path0 & Hr & Hrend & E0). rewrite <- E.
          destruct (Hq u ltac:(lia)) as [A B S _ _]. destruct (Hr 1 ltac:(lia)) as [A' B' S' _ _].
          eapply (optimal_resume OutsideDecisionSpace s (sched u) (sched u) (balanced_search minimize r) (balanced_search minimize q)); [..|exact E0];
            cbn [balanced_search into_ssco s_bounds s_d s_switching s_tend s_hit g_d g_tend g_bounds g_switching]; try congruence.
          - lia.
          - intros t x Ht. rewrite Hrend in Ht.
            assert (AG : agrees_at r q t) by (eapply agrees_trans; [apply Hr; lia|apply agrees_sym; apply Hq; lia]).
            rewrite (balanced_hit_agrees r q) by (auto; lia). reflexivity. }
        rewrite Hend, ES. cbn [obind fst snd].
        pose proof HO as ((HL & _) & _).
        destruct (exists_last (l := gp_xs path)) as (opts & opt & EP); [intros EP; rewrite EP in HL; cbn in HL; lia|].
        rewrite EP in *. rewrite app_length. cbn [length]. replace (length opts + 1 - 1)%nat with (length opts) by lia.
        rewrite nth_error_app2, Nat.sub_diag by lia. cbn [nth_error from_option obind].
        exists opts, opt, cache'. split; [reflexivity|]. split; [exact HO|]. split; [lia|]. split.
        - unfold optimal_graph_search in E. apply obind_Ok in E as (mb & _ & E). unfold graph_search in E.
          apply obind_Ok in E as (ps & _ & E). apply obind_Ok in E as (pt & _ & E). injection E as _ <-. cbn. exact Hend.
        - exists q, (sched u), path. split; [exact Hq|]. split; [exact Hend|]. exact E.
      Qed.
    End At.
  End Instance.
End Search.
