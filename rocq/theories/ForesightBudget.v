(** Lazy budgeting does not look into the future. *)
From Coq Require Import Lia.
From Verif Require Import NumLemmas ConvertProofs ConvertObjective GraphSearchProofs LoadObjective StreamSpec StreamProofs BalancedSpec BalancedSearch BalancedRun
  ForesightSpec ForesightModel ForesightStream ForesightSolvers ForesightDescent.
From Verif Require OfflineModel OfflineMore.
From Verif Require Import ProblemModel CostModel.
Local Open Scope Z_scope.

(** *** Loads known so far *)
Lemma access_nth {A} (l : list A) (k : nat) : access l (Z.of_nat k + 1) = nth_error l k.
Proof.
  unfold access. rewrite (proj2 (Z.leb_le 1 _)) by lia. cbn [andb]. destruct (_ <=? _) eqn:E.
  - f_equal. lia.
  - apply Z.leb_gt in E. symmetry. apply nth_error_None. lia.
Qed.
Lemma loads_covered {A} (l l' : list A) t : (forall u, 1 <= u <= t -> access l u = access l' u) ->
  (Z.to_nat t <=? length l)%nat = (Z.to_nat t <=? length l')%nat.
Proof.
  intros H. destruct (Z_le_gt_dec 1 t) as [Ht|Ht]; [|replace (Z.to_nat t) with 0%nat by lia; reflexivity].
  specialize (H t ltac:(lia)). replace t with (Z.of_nat (Z.to_nat (t - 1)) + 1) in H by lia. rewrite !access_nth in H.
  destruct (Z.to_nat t <=? length l)%nat eqn:E, (Z.to_nat t <=? length l')%nat eqn:E'; try reflexivity;
    rewrite ?Nat.leb_le, ?Nat.leb_gt in *; exfalso.
  - rewrite (proj2 (nth_error_None l' _)) in H by lia. apply nth_error_None in H. lia.
  - rewrite (proj2 (nth_error_None l _)) in H by lia. symmetry in H. apply nth_error_None in H. lia.
Qed.
Lemma for_each_ext {A} (l : list A) f g : (forall a, In a l -> f a = g a) -> for_each l f = for_each l g.
Proof.
  induction l as [|a l IH]; intros H; [reflexivity|]. cbn [for_each]. apply obind_ext; [apply H; left; reflexivity|]. intros _. apply IH. intros b Hb. apply H. right. exact Hb.
Qed.
Lemma loads_verified {T} (v : value T) (l l' : list T) t : (forall u, 1 <= u <= t -> access l u = access l' u) -> verify_loads v l t = verify_loads v l' t.
Proof.
  intros H. unfold verify_loads. apply for_each_ext. intros u Hu. apply in_seq in Hu. unfold index. rewrite <- !access_nth, H by lia. reflexivity.
Qed.

Section Budget.
  Variable minimize :
    (list Q -> outcome ext) -> list (Q * Q) -> list Q -> list (list Q -> outcome Q) -> option (list Q * ext).
  Variable sched : Z -> Z -> vertice -> split.
  Hypothesis HX : solver_extensional minimize.

  (** *** The search *)
  Lemma search_ext s (p q : ssco dc_success dc_failure) cache : s_d p = s_d q -> s_tend p = s_tend q -> s_bounds p = s_bounds q ->
    s_switching p = s_switching q -> (forall t x, t <= s_tend q -> s_hit p t x = s_hit q t x) ->
    optimal_graph_search OutsideDecisionSpace s p cache false 1 None = optimal_graph_search OutsideDecisionSpace s q cache false 1 None.
  Proof.
    intros A B E F H. unfold optimal_graph_search. rewrite E. apply obind_ext; [reflexivity|]. intros mb. unfold graph_search. rewrite A, B, E, F. cbv zeta.
    apply obind_ext; [|reflexivity]. apply handle_slots_ext. intros t x Ht. apply zrange_In in Ht. unfold ssco_hit_cost. rewrite E. rewrite H by lia. reflexivity.
  Qed.

  Lemma hits_alike p q u x : agrees_at p q u -> balanced_hit minimize p u x = balanced_hit minimize q u x.
  Proof.
    intros H. destruct (Z_le_gt_dec 1 u) as [Hu|Hu]; [apply balanced_hit_agrees; assumption|].
    unfold balanced_hit, gssco_hit, call_mean_within. cbn [into_ssco g_bounds g_cost]. rewrite (ag_bounds _ _ _ H).
    destruct (within_upper valZ (b_bounds q) x) as [[|]| |]; try reflexivity. cbn [obind]. unfold call_mean, cf_get.
    rewrite (proj2 (Z.leb_gt 1 u)) by lia. reflexivity.
  Qed.

  Lemma forallb_same {A} (l : list A) f g : (forall a, In a l -> f a = g a) -> forallb f l = forallb g l.
  Proof.
    induction l as [|a l IH]; intros H; [reflexivity|]. cbn [forallb]. rewrite (H a (or_introl eq_refl)), IH; [reflexivity|]. intros b Hb. apply H. right. exact Hb.
  Qed.

  Lemma guards_alike p q from t : (forall u, u <= t -> agrees_at p q u) -> forall bounds,
    forallb (fun t => forallb (fun x => is_ok (balanced_hit minimize p t x)) (all_configs bounds)) (zrange from t) =
    forallb (fun t => forallb (fun x => is_ok (balanced_hit minimize q t x)) (all_configs bounds)) (zrange from t).
  Proof.
    intros H bounds. apply forallb_same. intros u Hu. apply zrange_In in Hu. apply forallb_same. intros x _. rewrite (hits_alike p q) by (apply H; lia). reflexivity.
  Qed.

  (** Slots before the first one are never known. *)
  Lemma agrees_before (p q : gsblo Z) u : u < 1 -> b_d p = b_d q -> b_bounds p = b_bounds q -> b_switching p = b_switching q ->
    length (b_cost p) = length (b_cost q) -> agrees_at p q u.
  Proof.
    intros Hu A B E L. constructor; auto.
    - unfold access. rewrite (proj2 (Z.leb_gt 1 u)) by lia. reflexivity.
    - intros k. destruct (nth_error (b_cost p) k) eqn:E1, (nth_error (b_cost q) k) eqn:E2; auto.
      + intros z. unfold call_predictive, cf_get. rewrite (proj2 (Z.leb_gt 1 u)) by lia. reflexivity.
      + apply nth_error_None in E2. assert (nth_error (b_cost p) k <> None) by congruence. apply nth_error_Some in H. lia.
      + apply nth_error_None in E1. assert (nth_error (b_cost q) k <> None) by congruence. apply nth_error_Some in H. lia.
  Qed.

  (** *** SLO *)
  Lemma into_sblo_agrees n p q u : agree_slo n p q -> u <= n -> agrees_at (into_sblo p) (into_sblo q) u.
  Proof.
    intros (A & B & E & F & L) Hu. destruct (Z_le_gt_dec 1 u) as [H1|H1].
    - constructor; cbn [into_sblo b_d b_bounds b_switching b_load b_cost]; auto. rewrite F. intros k. destruct (nth_error _ k); auto.
    - apply agrees_before; cbn [into_sblo b_d b_bounds b_switching b_load b_cost]; auto; [lia|]. rewrite !map_length, F. reflexivity.
  Qed.

  Lemma slo_step_alike randomized p q w t xs m : l_tend p = t -> l_tend q = t -> agree_slo (t + w) p q ->
    slo_online minimize sched randomized (mkOnline p w) t xs m = slo_online minimize sched randomized (mkOnline q w) t xs m.
  Proof.
    intros Hp Hq HA. pose proof HA as (A & B & E & F & L). unfold slo_online. cbn [on_p on_w]. cbv zeta.
    destruct (negb (w =? 0)) eqn:EW; [reflexivity|]. apply negb_false_iff, Z.eqb_eq in EW. subst w. rewrite Z.add_0_r in HA.
    rewrite Hp, Hq, B. rewrite (guards_alike (into_sblo p) (into_sblo q)) by (intros u Hu; eapply into_sblo_agrees; eassumption).
    destruct (forallb _ _); [|reflexivity]. apply obind_ext; [|reflexivity]. unfold slo_lb. cbn [Z.eqb negb]. rewrite A, B. cbv zeta.
    assert (EF : find_optimal_lanes minimize (fun t x => evaluated (balanced_hit minimize (into_sblo p) t x)) sched (sm_cache m) p (zsum (l_bounds q))
               = find_optimal_lanes minimize (fun t x => evaluated (balanced_hit minimize (into_sblo q) t x)) sched (sm_cache m) q (zsum (l_bounds q))).
    { unfold find_optimal_lanes. rewrite A, Hp, Hq. apply obind_ext; [|reflexivity].
      apply search_ext; cbn [slo_search_problem into_ssco into_sblo s_d s_tend s_bounds s_switching s_hit g_d g_tend g_bounds g_switching b_d b_tend b_bounds b_switching]; try congruence.
      intros u x Hu. rewrite (hits_alike (into_sblo p) (into_sblo q)); [reflexivity|]. eapply into_sblo_agrees; [exact HA|lia]. }
    rewrite EF. apply obind_ext; [reflexivity|]. intros o. apply obind_ext; [|reflexivity]. apply omap_ext. intros j _.
    unfold update_lane. rewrite E, F. reflexivity.
  Qed.

  Lemma slo_unforeseeing s randomized gamma : unforeseeing (OfflineModel.slo_ops s) agree_slo (slo_online minimize sched randomized) (slo_start gamma).
  Proof.
    intros p q w n T T' HT HT' HA. unfold offline_stream.
    apply (stream_alike (OfflineModel.slo_ops s) agree_slo (@eq slo_memory) (slo_online minimize sched randomized) (slo_online minimize sched randomized)
             (slo_start gamma) (slo_start gamma) (proj2 (OfflineMore.load_ops_lawful minimize s))) with (G := fun _ _ => True) (k := n).
    - intros n0 p0 q0 t t' H. exact H.
    - intros n0 n' p0 q0 Hn (A & B & E & F & L). repeat split; auto. intros t Ht. apply L. lia.
    - intros n0 w0 p0 q0 Ht Hn (A & B & E & F & L). unfold verify_o. cbn [on_w on_p OfflineModel.slo_ops po_verify po_tend] in *. unfold verify_slo.
      rewrite <- Ht, A, B, E, F. rewrite (loads_covered (l_load p0) (l_load q0)), (loads_verified valZ (l_load p0) (l_load q0)) by (intros; apply L; lia). reflexivity.
    - auto.
    - intros p0 q0 w0 t xs m m' _ Hp Hq Ht H <-. apply same_answer_eq. apply slo_step_alike; assumption.
    - intros p0 q0 w0 _ _ (A & B & _). unfold slo_start, slo_default. cbn [on_p]. rewrite B. reflexivity.
    - exact I.
    - cbn. lia.
    - cbn. lia.
    - reflexivity.
    - reflexivity.
    - exact HT.
    - exact HT'.
    - exact HA.
    - exact I.
  Qed.

  (** *** SBLO *)
  (** Cost functions with the same keys and values. *)
  Definition twin_cost (f g : cost_fn Q unit dc_failure) : Prop := Forall2 (fun e e' => fst e = fst e' /\ forall t x, snd e t x = snd e' t x) f g.
  Definition twin (p q : gsblo Z) : Prop :=
    b_d p = b_d q /\ b_tend p = b_tend q /\ b_bounds p = b_bounds q /\ b_switching p = b_switching q /\ b_load p = b_load q /\
    Forall2 twin_cost (b_cost p) (b_cost q).

  Lemma twin_predictive f g t x : twin_cost f g -> call_predictive f t x = call_predictive g t x.
  Proof.
    intros H. unfold call_predictive, cf_get. destruct (1 <=? t); [|reflexivity].
    set (keep := fun e : Z * single_fn Q unit dc_failure => (1 <=? fst e) && (fst e <=? t)).
    assert (HF : Forall2 (fun e e' : Z * single_fn Q unit dc_failure => fst e = fst e' /\ forall t x, snd e t x = snd e' t x) (filter keep f) (filter keep g)).
    { induction H as [|[k fk] [k' gk] f g [E1 E2] _ IH]; [constructor|]. cbn [fst snd] in E1, E2. subst k'. cbn [filter]. change (keep (k, gk)) with (keep (k, fk)).
      destruct (keep (k, fk)); [constructor; auto|exact IH]. }
    assert (HL : match last (map Some (filter keep f)) None, last (map Some (filter keep g)) None with
                 | Some e, Some e' => fst e = fst e' /\ forall t x, snd e t x = snd e' t x | None, None => True | _, _ => False end).
    { induction HF as [|e e' l l' H1 HF IH]; [exact I|]. destruct HF; [cbn; exact H1|]. exact IH. }
    destruct (last (map Some (filter keep f)) None) as [e|], (last (map Some (filter keep g)) None) as [e'|]; try contradiction; [|reflexivity].
    destruct HL as [E1 E2]. cbn [from_option obind]. unfold single_predictive. rewrite E1, E2. reflexivity.
  Qed.
  Lemma twin_add f g u a b : twin_cost f g -> (forall t x, a t x = b t x) -> twin_cost (cf_add f u a) (cf_add g u b).
  Proof.
    intros H Hab. unfold cf_add. induction H as [|e e' f g [E1 E2] H IH]; cbn [bt_insert]; [constructor; [split; auto|constructor]|].
    destruct e as [k fk], e' as [k' gk]. cbn [fst snd] in *. subst k'. destruct (u <? k); [constructor; [split; auto|constructor; auto]|].
    destruct (u =? k); constructor; auto.
  Qed.
  Lemma forall2_nth {A B} (R : A -> B -> Prop) l l' k : Forall2 R l l' ->
    match nth_error l k, nth_error l' k with Some a, Some b => R a b | None, None => True | _, _ => False end.
  Proof. intros H. revert k. induction H as [|a b l l' HR _ IH]; intros [|k]; cbn [nth_error]; auto. apply IH. Qed.

  Lemma twin_agrees p q u : twin p q -> agrees_at p q u.
  Proof.
    intros (A & _ & B & E & L & F). constructor; auto; [rewrite L; reflexivity|]. intros k. pose proof (forall2_nth twin_cost _ _ k F) as H.
    destruct (nth_error (b_cost p) k), (nth_error (b_cost q) k); auto. intros z. apply twin_predictive. exact H.
  Qed.

  Lemma alg_b_twin p q w t xs m : twin p q -> alg_b minimize sched (mkOnline p w) t xs m = alg_b minimize sched (mkOnline q w) t xs m.
  Proof.
    intros H. pose proof H as (A & T & B & E & L & F). unfold alg_b. cbn [on_p]. cbv zeta. apply obind_ext.
    - unfold find_optimal_config. rewrite T, B. rewrite (guards_alike p q) by (intros; apply twin_agrees; exact H). destruct (forallb _ _); [|reflexivity].
      apply obind_ext; [|reflexivity]. apply search_ext; cbn [balanced_search into_ssco s_d s_tend s_bounds s_switching s_hit g_d g_tend g_bounds g_switching]; try congruence.
      intros u x _. rewrite (hits_alike p q) by (apply twin_agrees; exact H). reflexivity.
    - intros r. rewrite A. apply obind_ext; [|reflexivity]. apply omap_ext. intros k _. unfold algb_dimension. apply obind_ext; [reflexivity|]. intros prev.
      rewrite E. pose proof (forall2_nth twin_cost _ _ k F) as HK. destruct (nth_error (b_cost p) k) as [f|], (nth_error (b_cost q) k) as [g|]; try contradiction; [|reflexivity].
      cbn [from_option obind]. apply obind_ext; [reflexivity|]. intros beta. apply obind_ext; [|reflexivity].
      assert (EC : forall t x, call_certain f t x = call_certain g t x) by (intros; rewrite !call_certain_pred, (twin_predictive f g) by exact HK; reflexivity).
      unfold deactivated_quantity. apply obind_ext; [|reflexivity]. apply omap_ext. intros u _. unfold cumulative_idle.
      rewrite EC. apply obind_ext; [|reflexivity]. apply obind_ext; [|reflexivity]. apply omap_ext. intros s _. apply EC.
  Qed.

  Lemma twin_set p q t : twin p q -> twin (po_set (sblo_ops minimize) p t) (po_set (sblo_ops minimize) q t).
  Proof. intros (A & T & B & E & L & F). repeat split; auto. Qed.
  Lemma twin_verify p q w : twin p q -> verify_o (sblo_ops minimize) (mkOnline p w) = verify_o (sblo_ops minimize) (mkOnline q w).
  Proof. intros (A & T & B & E & L & F). unfold verify_o. cbn [on_w on_p sblo_ops po_verify]. unfold verify_sblo. rewrite A, T, B, E, L. reflexivity. Qed.

  Definition twin_result (r r' : option (online (gsblo Z) * list (list Z) * outcome (option algb_memory))) : Prop :=
    match r, r' with
    | Some (o, xs, m), Some (o', xs', m') => twin (on_p o) (on_p o') /\ xs = xs' /\ m = m'
    | None, None => True
    | _, _ => False
    end.
  Notation osf := (offline_stream_from (sblo_ops minimize) (alg_b minimize sched) (fun _ => algb_default)).

  Lemma twin_stream k : forall T w p q xs m, k = Z.to_nat (T - w - b_tend p) -> twin p q ->
    twin_result (osf T (mkOnline p w) xs m) (osf T (mkOnline q w) xs m).
  Proof.
    induction k as [|k IH]; intros T w p q xs m Hk H; rewrite !(offline_unfold _ _ _ (sblo_ops_lawful minimize));
      pose proof H as (_ & Ht & _); unfold online_next; cbn [on_p on_w sblo_ops po_tend]; rewrite Ht;
      (destruct (negb _); [cbn; auto|]); unfold alg_next; rewrite (alg_b_twin p q w _ xs _ H);
      destruct (alg_b _ _ _ _ _ _) as [[x m1]|f|]; try (cbn; auto; fail).
    - rewrite (proj2 (Z.ltb_ge (b_tend q) (T - w))) by lia. cbn. auto.
    - destruct (b_tend q <? T - w) eqn:E; [|cbn; auto]. apply Z.ltb_lt in E. unfold inc. cbn [on_p on_w sblo_ops po_tend]. rewrite Ht.
      pose proof (twin_set p q (b_tend q + 1) H) as HT. change (po_set (sblo_ops minimize) p (b_tend q + 1)) with (sblo_at p (b_tend q + 1)) in *.
      change (po_set (sblo_ops minimize) q (b_tend q + 1)) with (sblo_at q (b_tend q + 1)) in *.
      change (mkOps _ _ _ _) with (sblo_ops minimize).
      rewrite (twin_verify _ _ w HT). destruct (verify_o _ _) as [u| |]; [|cbn; auto|cbn; auto]. apply IH; [cbn [sblo_at b_tend]; lia|exact HT].
  Qed.

  Definition same_budget (m m' : sblo_memory) : Prop :=
    bm_load m = bm_load m' /\ bm_xs m = bm_xs m' /\ bm_prev m = bm_prev m' /\ Forall2 twin_cost (bm_cost m) (bm_cost m').

  Lemma same_entries n (p q : gsblo Z) k : agree_sblo n p q ->
    match nth_error (b_cost p) k, nth_error (b_cost q) k with Some f, Some g => same_costs n f g | None, None => True | _, _ => False end.
  Proof. intros (_ & _ & _ & F & _). exact (forall2_nth _ _ _ k F). Qed.

  Definition twin_outcome (a b : outcome (gsblo Z)) : Prop :=
    match a, b with Ok p, Ok q => twin p q | Err f, Err g => f = g | Panic, Panic => True | _, _ => False end.

  Lemma omap_rel {A B} (R : B -> B -> Prop) (f g : A -> outcome B) l :
    (forall a, match f a, g a with Ok x, Ok y => R x y | Err e, Err e' => e = e' | Panic, Panic => True | _, _ => False end) ->
    match omap f l, omap g l with Ok x, Ok y => Forall2 R x y | Err e, Err e' => e = e' | Panic, Panic => True | _, _ => False end.
  Proof.
    intros H. induction l as [|a l IH]; cbn [omap]; [constructor|]. specialize (H a). destruct (f a), (g a); try contradiction; cbn [obind]; auto.
    destruct (omap f l), (omap g l); try contradiction; cbn [obind]; auto.
  Qed.
  Lemma forall2_skipn {A B} (R : A -> B -> Prop) l l' k : Forall2 R l l' -> Forall2 R (skipn k l) (skipn k l').
  Proof. intros H. revert k. induction H; intros [|k]; cbn [skipn]; auto. Qed.

  Lemma modify_alike p q load costs costs' t n a b : 1 <= t -> agree_sblo t p q -> Forall2 twin_cost costs costs' ->
    twin_outcome (modify_problem p load costs t n a b) (modify_problem q load costs' t n a b).
  Proof.
    intros Ht HA HC. pose proof HA as (A & B & E & F & L). unfold modify_problem. destruct (negb _); [exact I|]. rewrite A, (L t) by lia.
    pose proof (omap_rel twin_cost
      (fun k => do raw <- from_option (nth_error (b_cost p) k); do f <- from_option (nth_error costs k); Ok (cf_add f a (sub_slot_cost raw t n a b)))
      (fun k => do raw <- from_option (nth_error (b_cost q) k); do f <- from_option (nth_error costs' k); Ok (cf_add f a (sub_slot_cost raw t n a b)))
      (seq 0 (Z.to_nat (b_d q)))) as HO.
    destruct (omap _ _) as [new| |]; destruct (omap _ _) as [new'| |]; try (exfalso; apply HO; fail); cbn [obind].
    all: match type of HO with ?X -> _ => assert (HX' : X) end;
      [intros k; pose proof (same_entries t p q k HA) as HK; destruct (nth_error (b_cost p) k) as [cf|], (nth_error (b_cost q) k) as [cg|]; try contradiction;
       cbn [from_option obind]; [|exact I]; pose proof (forall2_nth twin_cost _ _ k HC) as HK'; unfold dim_cost in *; destruct (nth_error costs k), (nth_error costs' k); try contradiction;
       cbn [from_option obind]; [|exact I]; apply twin_add; [exact HK'|]; intros u x; unfold sub_slot_cost, certain; rewrite (same_certain t cf cg t x HK) by lia; reflexivity|].
    all: specialize (HO HX'); try contradiction; try exact HO.
    destruct (from_option (access (b_load q) t)); cbn [obind]; try exact I; try reflexivity. destruct (n <? 0); [exact I|]. destruct (negb _); [exact I|].
    repeat split; cbn [b_d b_bounds b_switching b_tend b_load b_cost]; auto. apply Forall2_app; [exact HO|]. apply forall2_skipn. exact HC.
  Qed.

  Lemma determine_alike p q xs a b : 1 <= a -> twin p q -> determine_config minimize p xs a b = determine_config minimize q xs a b.
  Proof.
    intros Ha H. unfold determine_config. apply obind_ext; [reflexivity|]. intros x0. rewrite (hit_agrees minimize HX p q) by (try apply twin_agrees; assumption).
    apply obind_ext; [reflexivity|]. intros c0. apply obind_ext; [|reflexivity].
    assert (HF : Forall (fun u => 1 <= u) (zrange (a + 1) b)) by (apply Forall_forall; intros u Hu; apply zrange_In in Hu; lia).
    generalize (a, c_cost c0). induction HF as [|u us Hu HF IH]; intros best; [reflexivity|]. cbn [least_slot]. apply obind_ext; [reflexivity|]. intros x.
    rewrite (hit_agrees minimize HX p q) by (try apply twin_agrees; assumption). apply obind_ext; [reflexivity|]. intros c. apply IH.
  Qed.

  Lemma sblo_step_alike epsilon p q w t xs m m' : 1 <= t -> agree_sblo (t + w) p q -> same_budget m m' ->
    same_answer same_budget (sblo_lb minimize sched epsilon (mkOnline p w) t xs m) (sblo_lb minimize sched epsilon (mkOnline q w) t xs m').
  Proof.
    intros Ht HA (M1 & M2 & M3 & M4). unfold sblo_lb. cbn [on_p on_w]. destruct (negb (w =? 0)) eqn:EW; [exact I|]. apply negb_false_iff, Z.eqb_eq in EW. subst w.
    rewrite Z.add_0_r in HA. pose proof HA as (A & B & E & F & L).
    assert (ED : determine_sub_time_slots p t epsilon = determine_sub_time_slots q t epsilon).
    { unfold determine_sub_time_slots. rewrite A. apply obind_ext; [|reflexivity]. apply omap_ext. intros k _. rewrite E.
      pose proof (same_entries t p q k HA) as HK. destruct (nth_error (b_cost p) k) as [f|], (nth_error (b_cost q) k) as [g|]; try contradiction; [|reflexivity].
      cbn [from_option obind]. rewrite (same_certain t f g t _ HK) by lia. reflexivity. }
    rewrite ED, M1, M2, M3. destruct (determine_sub_time_slots q t epsilon) as [n| |]; cbn [obind]; try exact I. cbv zeta.
    set (a := Z.of_nat (length (bm_load m')) + 1). assert (Ha : 1 <= a) by (unfold a; lia).
    pose proof (modify_alike p q (bm_load m') (bm_cost m) (bm_cost m') t n a (a + n - 1) Ht HA M4) as HM. unfold twin_outcome in HM.
    destruct (modify_problem p _ _ _ _ _ _) as [p'| |]; destruct (modify_problem q _ _ _ _ _ _) as [q'| |]; try contradiction; cbn [obind]; try exact I.
    pose proof (twin_stream _ (a + n - 1) 0 p' q' (bm_xs m') (bm_prev m') eq_refl HM) as HS. unfold twin_result in HS.
    destruct (osf _ (mkOnline p' 0) _ _) as [[[o ys] r]|]; destruct (osf _ (mkOnline q' 0) _ _) as [[[o' ys'] r']|]; try contradiction; try exact I.
    destruct HS as (HT & <- & <-). destruct r as [prev| |]; try exact I. rewrite (determine_alike _ _ _ _ _ Ha HT).
    destruct (determine_config _ _ _ _ _) as [config| |]; cbn [obind]; try exact I. cbn [same_answer same_memory]. split; [reflexivity|].
    destruct HM as (_ & _ & _ & _ & L' & F'). repeat split; cbn [bm_load bm_xs bm_prev bm_cost]; auto.
  Qed.

  Lemma sblo_unforeseeing epsilon : unforeseeing (sblo_ops minimize) agree_sblo (sblo_lb minimize sched epsilon) sblo_start.
  Proof.
    intros p q w n T T' HT HT' HA. unfold offline_stream.
    apply (stream_alike (sblo_ops minimize) agree_sblo same_budget (sblo_lb minimize sched epsilon) (sblo_lb minimize sched epsilon)
             sblo_start sblo_start (sblo_ops_lawful minimize)) with (G := fun _ _ => True) (k := n).
    - intros n0 p0 q0 t t' H. exact H.
    - intros n0 n' p0 q0 Hn (A & B & E & F & L). repeat split; auto; [|intros t Ht; apply L; lia].
      clear -F Hn. induction F as [|f g l l' H _ IH]; constructor; auto. intros t x Ht. apply H. lia.
    - intros n0 w0 p0 q0 Ht Hn (A & B & E & F & L). unfold verify_o. cbn [on_w on_p sblo_ops po_verify po_tend] in *. unfold verify_sblo.
      rewrite <- Ht, A, B, E. rewrite (loads_covered (b_load p0) (b_load q0)), (loads_verified valZ (b_load p0) (b_load q0)) by (intros; apply L; lia). reflexivity.
    - auto.
    - intros p0 q0 w0 t xs m m' _ Hp Hq Ht H HM. apply sblo_step_alike; [lia|exact H|exact HM].
    - intros p0 q0 w0 _ _ (A & B & _). unfold sblo_start, sblo_default. cbn [on_p]. rewrite A. repeat split; cbn [bm_load bm_xs bm_prev bm_cost].
      induction (Z.to_nat (b_d q0)); cbn [repeat]; constructor; auto. constructor.
    - exact I.
    - cbn. lia.
    - cbn. lia.
    - reflexivity.
    - reflexivity.
    - exact HT.
    - exact HT'.
    - exact HA.
    - exact I.
  Qed.
End Budget.
