(** Concrete cases for OfflineProps.v and behaviours deviating from the expected ones. *)
From Coq Require Import Lia Lqa.
From Verif Require Import NumLemmas GraphSearchSpec ObjectiveProofs CostSpec CostProofs ConvertProofs VerifySpec VerifyProofs
  LoadProofs LoadObjective BudgetSpec BalancedModel BalancedSearch OfflineModel OfflineSpec OfflineProofs OfflineFail OfflineEnd
  OfflineEndLoads OfflineRounding OfflineProps.
From Verif Require Import OfflineModel ProblemModel CostModel.
Local Open Scope Z_scope.

(** A solver for at most one unknown in [0,1]: the best hundredth. *)
Fixpoint best_of (f : list Q -> outcome ext) (ks : list Z) : option (list Q * ext) :=
  match ks with
  | [] => None
  | k :: r =>
      match f [inject_Z k * PRECISION]%Q with
      | Ok e => match best_of f r with
                | Some (z, e') => if eltb e e' then Some ([inject_Z k * PRECISION]%Q, e) else Some (z, e')
                | None => Some ([inject_Z k * PRECISION]%Q, e)
                end
      | _ => best_of f r
      end
  end.
Definition grid_solver (f : list Q -> outcome ext) (bs : list (Q * Q)) (_ : list Q)
    (_ : list (list Q -> outcome Q)) : option (list Q * ext) :=
  match bs with
  | [] => match f [] with Ok e => Some ([], e) | _ => None end
  | [b] => if Qle_bool (fst b) 0 && Qle_bool 1 (snd b) then best_of f (zrange 0 100) else None
  | _ => None
  end.

Lemma best_of_value f : forall ks z e, best_of f ks = Some (z, e) ->
  f z = Ok e /\ exists k, In k ks /\ z = [inject_Z k * PRECISION]%Q.
Proof.
  induction ks as [|k ks IH]; intros z e H; cbn [best_of] in H; [discriminate|].
  destruct (f [inject_Z k * PRECISION]%Q) as [e0| |] eqn:E.
  - destruct (best_of f ks) as [[z' e']|] eqn:EB.
    + destruct (eltb e0 e').
      * assert (z = [inject_Z k * PRECISION]%Q) by congruence. assert (e = e0) by congruence. subst.
        split; [exact E|]. exists k. split; [left; reflexivity|reflexivity].
      * assert (z = z') by congruence. assert (e = e') by congruence. subst.
        destruct (IH _ _ eq_refl) as (H1 & k' & H2 & H3). split; [exact H1|]. exists k'. split; [right; exact H2|exact H3].
    + assert (z = [inject_Z k * PRECISION]%Q) by congruence. assert (e = e0) by congruence. subst.
      split; [exact E|]. exists k. split; [left; reflexivity|reflexivity].
  - destruct (IH _ _ H) as (H1 & k' & H2 & H3). split; [exact H1|]. exists k'. split; [right; exact H2|exact H3].
  - destruct (IH _ _ H) as (H1 & k' & H2 & H3). split; [exact H1|]. exists k'. split; [right; exact H2|exact H3].
Qed.

Example grid_reports : solver_reports grid_solver.
Proof.
  intros f bs init cs z c H. unfold grid_solver in H. destruct bs as [|b [|? ?]]; try discriminate.
  - destruct (f []) as [e| |] eqn:E; try discriminate. assert (z = []) by congruence. assert (c = e) by congruence. subst. exact E.
  - destruct (_ && _); [|discriminate]. eapply best_of_value, H.
Qed.

Example grid_in_bounds : solver_in_bounds grid_solver.
Proof.
  intros f bs init cs z c H. unfold grid_solver in H. destruct bs as [|b [|? ?]]; try discriminate.
  - destruct (f []); try discriminate. assert (z = []) by congruence. subst. constructor.
  - destruct (Qle_bool (fst b) 0 && Qle_bool 1 (snd b))%bool eqn:E; [|discriminate]. apply andb_true_iff in E as [E1 E2].
    apply Qle_bool_iff in E1, E2. apply best_of_value in H as (_ & k & Hk & ->). apply zrange_In in Hk.
    constructor; [|constructor]. unfold PRECISION.
    assert (Hk' : (0 <= inject_Z k)%Q /\ (inject_Z k <= 100)%Q).
    { split; [change 0%Q with (inject_Z 0)|change 100%Q with (inject_Z 100)]; rewrite <- Zle_Qle; lia. }
    lra.
Qed.

(** *** An SBLO instance: each server costs 1 plus its load, which is at most 1. *)
Definition affine (a b : Q) : cost_fn Q unit dc_failure :=
  cf_new 1 (certain (fun _ l => Ok (if Qle_bool l 1 then mkCost (Fin (a + b * l)) (MSuccess tt)
                                    else mkCost Inf (MFailure SLOMaxUtilizationExceeded)))).
Definition off_sblo : gsblo Z := mkGSBLO 2 2 [2; 2] [3; 1]%Q [affine 1 1; affine 2 (1 # 2)] [1; 2].

Lemma decide_evaluable {C D} (hit : Z -> list Z -> outcome (cost C D)) T bounds :
  forallb (fun u => forallb (fun x => is_ok (hit u x)) (all_configs bounds)) (zrange 1 T) = true ->
  evaluable hit T bounds.
Proof.
  intros H u x Hu Hx. rewrite forallb_forall in H. specialize (H u (proj2 (zrange_In 1 T u) Hu)). rewrite forallb_forall in H.
  specialize (H x (proj2 (all_configs_spec _ _) Hx)). destruct (hit u x) as [c| |]; try discriminate. eauto.
Qed.
Lemma decide_capacity {C D} (hit : Z -> list Z -> outcome (cost C D)) T bounds :
  forallb (fun u => match hit u bounds with Ok c => match c_cost c with Fin _ => true | Inf => false end | _ => false end)
          (zrange 1 T) = true ->
  capacity_suffices hit T bounds.
Proof.
  intros H u Hu. rewrite forallb_forall in H. specialize (H u (proj2 (zrange_In 1 T u) Hu)).
  destruct (hit u bounds) as [c| |]; try discriminate. exists c. split; [reflexivity|]. destruct (c_cost c); [exact I|discriminate].
Qed.

Example off_sblo_evaluable : evaluable (sblo_hit valZ grid_solver off_sblo) 2 [2; 2].
Proof. apply decide_evaluable. vm_compute. reflexivity. Qed.
Example off_sblo_capacity : capacity_suffices (sblo_hit valZ grid_solver off_sblo) 2 [2; 2].
Proof. apply decide_capacity. vm_compute. reflexivity. Qed.

Definition first_of {A B} (r : outcome (A * B)) : option A := match r with Ok (a, _) => Some a | _ => None end.

Example off_sblo_solved :
  first_of (offline_solve (sblo_ops grid_solver Leaf) (optimal_search_sblo grid_solver (fun _ _ => Leaf) default_options) off_sblo)
  = Some [[0; 1]; [0; 2]].
Proof. vm_compute. reflexivity. Qed.

Example off_sblo_applies : exists xs c,
  offline_solve (sblo_ops grid_solver Leaf) (optimal_search_sblo grid_solver (fun _ _ => Leaf) default_options) off_sblo = Ok (xs, c) /\
  cheapest (sblo_objective_fn grid_solver Leaf off_sblo 1) 2 [2; 2] xs.
Proof.
  destruct (offline_sblo_optimal_partial grid_solver Leaf (fun _ _ => Leaf) default_options off_sblo) as (xs & c & H1 & _ & _ & H2);
    [vm_compute; reflexivity|cbn; lia|exact off_sblo_evaluable|exact off_sblo_capacity|cbn; lra|reflexivity|].
  exists xs, c. split; assumption.
Qed.

Lemma affine_call a b t l : 1 <= t ->
  exists c, call_mean unit_vmerge (affine a b) t l = Ok c /\
    eeq (c_cost c) (if Qle_bool l 1 then Fin (a + b * l) else Inf).
Proof.
  intros Ht. pose proof (certain_call_mean unit_vmerge (fun _ l => Ok (if Qle_bool l 1 then mkCost (D := dc_failure) (Fin (a + b * l)) (MSuccess tt)
    else mkCost Inf (MFailure SLOMaxUtilizationExceeded))) t l Ht) as H.
  unfold affine. destruct (call_mean _ _ t l) as [c| |]; cbn [outcome_rel] in H; try contradiction.
  exists c. split; [reflexivity|]. destruct H as [H _]. destruct (Qle_bool l 1); exact H.
Qed.

Example off_sblo_regular : regular_costs off_sblo.
Proof.
  split; [reflexivity|]. intros f t Hf Ht.
  assert (G : exists a b, f = affine a b /\ (0 <= a)%Q /\ (0 <= b)%Q).
  { destruct Hf as [<-|[<-|[]]]; [exists 1%Q, 1%Q|exists 2%Q, (1 # 2)%Q]; repeat split; lra. }
  destruct G as (a & b & -> & Ha & Hb). split.
  - intros l Hl. destruct (affine_call a b t l ltac:(lia)) as (c & Hc & E). exists c. split; [exact Hc|].
    rewrite E. destruct (Qle_bool l 1); simpl; [|exact I]. nra.
  - intros l l' c c' Hl Hll Hc Hc'.
    destruct (affine_call a b t l ltac:(lia)) as (d & Hd & E). destruct (affine_call a b t l' ltac:(lia)) as (d' & Hd' & E').
    assert (d = c) by congruence. assert (d' = c') by congruence. subst d d'. rewrite E, E'.
    destruct (Qle_bool l 1) eqn:E1, (Qle_bool l' 1) eqn:E2; simpl; try exact I.
    + nra.
    + apply Qle_bool_iff in E2. assert (Qle_bool l 1 = true) by (apply Qle_bool_iff; lra). congruence.
Qed.

(** Rounded fractions are hundredths. *)
Lemma hundredth z : (0 <= apply_precision z)%Q -> (apply_precision z <= 1)%Q ->
  exists k, In k (zrange 0 100) /\ apply_precision z = (inject_Z k * PRECISION)%Q.
Proof.
  unfold apply_precision. intros H0 H1. exists (round (z / PRECISION)). split; [|reflexivity].
  apply zrange_In. unfold PRECISION in H0, H1 at 2. set (k := round _) in *.
  assert (A : (inject_Z 0 <= inject_Z k)%Q) by (change (inject_Z 0) with 0%Q; unfold PRECISION in H0; lra).
  assert (B : (inject_Z k <= inject_Z 100)%Q) by (change (inject_Z 100) with 100%Q; unfold PRECISION in H1; lra).
  rewrite <- Zle_Qle in A, B. lia.
Qed.

Definition value_at (p : gsblo Z) (t : Z) (x : list Z) (l : Z) (k : Z) : option ext :=
  objective_value (sblo_objective valZ p t x [inject_Z l] (mkFractions [inject_Z k * PRECISION]%Q 2 1)).

Definition best_check (p : gsblo Z) : bool :=
  forallb (fun t => forallb (fun x => match access (b_load p) t, sblo_hit valZ grid_solver p t x with
    | Some l, Ok c =>
        existsb (fun k => match value_at p t x l k with
                          | Some o => eleb o (c_cost c) && eleb (c_cost c) o
                          | None => false end) (zrange 0 100) &&
        forallb (fun k => match value_at p t x l k with Some o => eleb (c_cost c) o | None => true end) (zrange 0 100)
    | _, _ => false
    end) (all_configs (b_bounds p))) (zrange 1 (b_tend p)).

Lemma best_by_check p : length (b_bounds p) = 2%nat -> best_check p = true -> assigns_best grid_solver p.
Proof.
  intros H2 HB.
  intros t x l c Ht Hx Hl Hc cost allowed. unfold best_check in HB. rewrite forallb_forall in HB.
  specialize (HB t (proj2 (zrange_In 1 (b_tend p) t) Ht)). rewrite forallb_forall in HB.
  specialize (HB x (proj2 (all_configs_spec _ _) Hx)). rewrite Hl, Hc in HB. apply andb_true_iff in HB as [HE HF].
  assert (Hlen : length x = 2%nat) by (rewrite (feasible_length _ _ Hx); exact H2).
  assert (HK : forall k, In k (zrange 0 100) -> apply_precision (inject_Z k * PRECISION)%Q = (inject_Z k * PRECISION)%Q).
  { assert (G : forallb (fun k => round (inject_Z k * PRECISION / PRECISION) =? k) (zrange 0 100) = true) by (vm_compute; reflexivity).
    rewrite forallb_forall in G. intros k Hk. specialize (G k Hk). apply Z.eqb_eq in G. unfold apply_precision. rewrite G. reflexivity. }
  split.
  - apply existsb_exists in HE as (k & Hk & HV). destruct (value_at p t x l k) as [o|] eqn:EV; [|discriminate].
    apply andb_true_iff in HV as [V1 V2]. apply eleb_iff in V1, V2.
    exists [inject_Z k * PRECISION]%Q, o. unfold allowed, cost, new_fractions. cbn [map]. rewrite (HK k Hk), Hlen.
    split; [|split; [exact EV|]].
    + apply zrange_In in Hk.
      assert (Hk' : (0 <= inject_Z k)%Q /\ (inject_Z k <= 100)%Q).
      { split; [change 0%Q with (inject_Z 0)|change 100%Q with (inject_Z 100)]; rewrite <- Zle_Qle; lia. }
      split; [reflexivity|]. unfold PRECISION. split; [repeat constructor; lra|cbn [Qsum]; lra].
    + destruct o, (c_cost c); simpl in *; try tauto. lra.
  - intros zs o (Hz1 & Hz2 & Hz3) Hv. unfold cost, new_fractions in Hv. rewrite Hlen in *. rewrite map_length in Hz1.
    destruct zs as [|z [|? ?]]; cbn [length] in Hz1; try lia. cbn [map] in *. inversion Hz2; subst. cbn [Qsum] in Hz3.
    destruct (hundredth z) as (k & Hk & Ek); [assumption|lra|]. rewrite Ek in Hv.
    rewrite forallb_forall in HF. specialize (HF k Hk). unfold value_at in HF. rewrite Hv in HF. apply eleb_iff. exact HF.
Qed.

Example off_sblo_best : assigns_best grid_solver off_sblo.
Proof. apply best_by_check; vm_compute; reflexivity. Qed.

Example off_sblo_approximated : exists N, forall sched fuel, (N <= fuel)%nat -> exists xs c,
  offline_solve (sblo_ops grid_solver Leaf) (approx_search_sblo grid_solver sched fuel default_gamma default_options) off_sblo = Ok (xs, c) /\
  cheapest_within (2 * default_gamma - 1) (sblo_objective_fn grid_solver Leaf off_sblo 1) 2 [2; 2] xs.
Proof.
  destruct (offline_sblo_approximate grid_solver Leaf default_gamma default_options off_sblo) as (N & HN);
    [vm_compute; reflexivity|cbn; lia|exact off_sblo_evaluable|exact off_sblo_capacity|exact off_sblo_regular|exact off_sblo_best
    |unfold default_gamma; lra|cbn; lra|reflexivity|].
  exists N. intros sched fuel Hf. destruct (HN sched fuel Hf) as (xs & c & H1 & _ & _ & H2). exists xs, c. split; assumption.
Qed.

(** *** An SLO instance *)
Definition off_slo : gslo Z := mkGSLO 2 3 [2; 2] [1; 2]%Q [2; 1]%Q [1; 2; 0].

Example off_slo_evaluable : evaluable (sblo_hit valZ grid_solver (into_sblo off_slo)) 3 [2; 2].
Proof. apply decide_evaluable. vm_compute. reflexivity. Qed.
Example off_slo_capacity : capacity_suffices (sblo_hit valZ grid_solver (into_sblo off_slo)) 3 [2; 2].
Proof. apply decide_capacity. vm_compute. reflexivity. Qed.
Example off_slo_applies : exists xs c,
  offline_solve (slo_ops Leaf) (optimal_search_slo grid_solver (fun _ _ => Leaf) (alpha_unfair 2)) off_slo = Ok (xs, c) /\ covers off_slo xs.
Proof.
  destruct (offline_slo_optimal_partial grid_solver Leaf (fun _ _ => Leaf) (alpha_unfair 2) off_slo) as (xs & c & H1 & _ & _ & H2 & _);
    [vm_compute; reflexivity|reflexivity|cbn; lia|exact grid_reports|exact off_slo_evaluable|exact off_slo_capacity|cbn; lra|reflexivity|].
  exists xs, c. split; assumption.
Qed.
Example off_slo_solved :
  first_of (offline_solve (slo_ops Leaf) (optimal_search_slo grid_solver (fun _ _ => Leaf) default_options) off_slo)
  = Some [[0; 1]; [1; 1]; [0; 0]].
Proof. vm_compute. reflexivity. Qed.

Example off_slo_approximated : exists N, forall sched fuel, (N <= fuel)%nat -> exists xs c,
  offline_solve (slo_ops Leaf) (approx_search_slo grid_solver sched fuel default_gamma default_options) off_slo = Ok (xs, c) /\ covers off_slo xs.
Proof.
  destruct (offline_slo_approximate grid_solver Leaf default_gamma default_options off_slo) as (N & HN);
    [vm_compute; reflexivity|reflexivity|cbn; lia|exact grid_reports|exact off_slo_evaluable|exact off_slo_capacity
    |apply best_by_check; vm_compute; reflexivity|unfold default_gamma; lra|cbn; lra|reflexivity|].
  exists N. intros sched fuel Hf. destruct (HN sched fuel Hf) as (xs & c & H1 & _ & _ & H2 & _). exists xs, c. split; assumption.
Qed.
Example off_slo_default : exists N, forall sched fuel, (N <= fuel)%nat -> exists xs c,
  offline_solve (slo_ops Leaf) (approx_search_slo grid_solver sched fuel default_gamma default_options) off_slo = Ok (xs, c) /\ covers off_slo xs.
Proof.
  destruct (offline_slo_default grid_solver Leaf off_slo) as (N & HN);
    [vm_compute; reflexivity|reflexivity|cbn; lia|exact grid_reports|exact off_slo_evaluable|exact off_slo_capacity
    |apply best_by_check; vm_compute; reflexivity|].
  exists N. intros sched fuel Hf. destruct (HN sched fuel Hf) as (xs & c & H1 & _ & _ & H2 & _). exists xs, c. split; assumption.
Qed.

Definition off_single : gslo Z := mkGSLO 1 3 [3] [4]%Q [1]%Q [2; 0; 3].
Example off_single_applies : exists xs c,
  offline_solve (slo_ops Leaf) (optimal_search_slo grid_solver (fun _ _ => Leaf) default_options) off_single = Ok (xs, c) /\
  cheapest (slo_objective_fn Leaf off_single 1) 3 [3] xs.
Proof.
  destruct (offline_slo_single_type grid_solver Leaf (fun _ _ => Leaf) default_options off_single) as (xs & c & H1 & _ & _ & _ & H2);
    [vm_compute; reflexivity|reflexivity|reflexivity|cbn; lia|exact grid_reports|apply decide_evaluable; vm_compute; reflexivity| |cbn; lra|reflexivity|].
  - intros t l Ht Hl. apply access_spec in Hl as [_ Hl]. apply nth_error_In in Hl. cbn in Hl. cbn. lia.
  - exists xs, c. split; assumption.
Qed.

(** *** The static algorithm *)
Example off_single_static : exists xs c,
  offline_solve (slo_ops Leaf) (static_integral_slo grid_solver (fun _ => Leaf) default_options) off_single = Ok (xs, c) /\
  cheapest_among (constant 3) (slo_objective_fn Leaf off_single 1) 3 [3] xs.
Proof.
  destruct (offline_static_slo_single grid_solver Leaf (fun _ => Leaf) default_options off_single) as (xs & c & H1 & _ & _ & _ & _ & H2);
    [vm_compute; reflexivity|reflexivity|reflexivity|exact grid_reports|apply decide_evaluable; vm_compute; reflexivity| |reflexivity|left; reflexivity|].
  - intros t l Ht Hl. apply access_spec in Hl as [_ Hl]. apply nth_error_In in Hl. cbn in Hl. cbn. lia.
  - exists xs, c. split; assumption.
Qed.
Example off_single_static_answer :
  first_of (offline_solve (slo_ops Leaf) (static_integral_slo grid_solver (fun _ => Leaf) default_options) off_single) = Some [[3]; [3]; [3]].
Proof. vm_compute. reflexivity. Qed.

(** Unimodality can be decided for two dimensions: compare the best completions. *)
Definition emin_list (es : list ext) : ext := fold_right (fun a b => if eleb a b then a else b) Inf es.
Definition unimodal_values (h : Z) (f : Z -> ext) : bool :=
  forallb (fun a => forallb (fun b => forallb (fun c => eleb (f b) (StaticSpec.emax (f a) (f c)))
    (zrange b h)) (zrange a h)) (zrange 0 h).
Definition unimodal_check (u w : Z) (J : list Z -> ext) : bool :=
  unimodal_values u (fun j => emin_list (map (fun k => J [j; k]) (zrange 0 w))) &&
  forallb (fun j => unimodal_values w (fun k => J [j; k])) (zrange 0 u).
Lemma emin_list_le es : forall e, In e es -> ele (emin_list es) e.
Proof.
  induction es as [|a es IH]; intros e []; cbn [emin_list fold_right]; fold (emin_list es).
  - subst. destruct (eleb e (emin_list es)) eqn:E; [apply ele_refl|]. destruct e, (emin_list es); simpl in *; auto; try discriminate.
    assert (~ (q <= q0)%Q) by (intros L; apply Qle_bool_iff in L; congruence). lra.
  - destruct (eleb a (emin_list es)) eqn:E; [|auto]. apply eleb_iff in E. eapply ele_trans; [exact E|auto].
Qed.
Lemma emin_list_in es : es <> [] -> exists e, In e es /\ ele e (emin_list es).
Proof.
  induction es as [|a es IH]; intros H; [congruence|]. cbn [emin_list fold_right]. fold (emin_list es).
  destruct (eleb a (emin_list es)) eqn:E; [exists a; split; [left; reflexivity|apply ele_refl]|].
  destruct es as [|b es]; [exists a; split; [left; reflexivity|destruct a; exact I]|].
  destruct IH as (e & He & Hle); [discriminate|]. exists e. split; [right; exact He|exact Hle].
Qed.
Lemma unimodal_values_spec h f : unimodal_values h f = true -> forall a b c, 0 <= a <= b -> b <= c <= h ->
  ele (f b) (StaticSpec.emax (f a) (f c)).
Proof.
  unfold unimodal_values. intros H a b c Ha Hc. rewrite forallb_forall in H. specialize (H a (proj2 (zrange_In 0 h a) ltac:(lia))).
  rewrite forallb_forall in H. specialize (H b (proj2 (zrange_In a h b) ltac:(lia))). rewrite forallb_forall in H.
  specialize (H c (proj2 (zrange_In b h c) ltac:(lia))). apply eleb_iff. exact H.
Qed.
Lemma emax_mono a b a' b' : ele a a' -> ele b b' -> ele (StaticSpec.emax a b) (StaticSpec.emax a' b').
Proof.
  intros Ha Hb. destruct (StaticProofs.emax_cases a b) as [[-> _]|[-> _]]; destruct (StaticProofs.emax_cases a' b') as [[-> H]|[-> H]]; auto;
    eapply ele_trans; eauto.
Qed.
Lemma decide_unimodal u w J : unimodal_check u w J = true -> StaticSpec.nested_unimodal [(0, u); (0, w)] J.
Proof.
  intros H prefix a b c r s Habc Ha Hc. apply andb_true_iff in H as [H1 H2].
  destruct prefix as [|j prefix]; cbn [app] in *.
  - inversion Ha as [|? ? ? ra Ha1 Ha2]; subst. inversion Ha2 as [|? k ? ? Hk Hk2]; subst. inversion Hk2; subst.
    inversion Hc as [|? ? ? rc Hc1 Hc2]; subst. inversion Hc2 as [|? k' ? ? Hk' Hk2']; subst. inversion Hk2'; subst. cbn [fst snd] in *.
    pose proof (unimodal_values_spec _ _ H1 a b c ltac:(lia) ltac:(lia)) as HU. cbv beta in HU.
    destruct (emin_list_in (map (fun k => J [b; k]) (zrange 0 w))) as (e & He & Hle).
    { rewrite zrange_cons by lia. discriminate. }
    apply in_map_iff in He as (m & <- & Hm). apply zrange_In in Hm. exists [m]. split; [repeat constructor; simpl; lia|].
    eapply ele_trans; [exact Hle|]. eapply ele_trans; [exact HU|]. apply emax_mono; apply emin_list_le, in_map_iff; eexists; (split; [reflexivity|]); apply zrange_In; lia.
  - inversion Ha as [|? ? ? ra Ha1 Ha2]; subst. inversion Hc as [|? ? ? rc Hc1 Hc2]; subst. cbn [fst snd] in *.
    destruct prefix as [|j' prefix]; [|inversion Ha2 as [|? ? ? ? ? Hx]; inversion Hx; destruct prefix; discriminate].
    cbn [app] in *. inversion Ha2 as [|? ? ? ? Hk Hk2]; subst. inversion Hk2; subst. inversion Hc2 as [|? ? ? ? Hk' Hk2']; subst. inversion Hk2'; subst.
    cbn [fst snd] in *. rewrite forallb_forall in H2. specialize (H2 j (proj2 (zrange_In 0 u j) ltac:(lia))).
    exists []. split; [repeat constructor; simpl; lia|]. exact (unimodal_values_spec _ _ H2 a b c ltac:(lia) ltac:(lia)).
Qed.
Example off_sblo_static : exists xs c,
  offline_solve (sblo_ops grid_solver Leaf) (static_integral_sblo grid_solver (fun _ => Leaf) default_options) off_sblo = Ok (xs, c) /\
  cheapest_among (constant 2) (sblo_objective_fn grid_solver Leaf off_sblo 1) 2 [2; 2] xs.
Proof.
  destruct (offline_static_sblo grid_solver Leaf (fun _ => Leaf) default_options off_sblo) as (xs & c & H1 & _ & _ & _ & H2);
    [vm_compute; reflexivity|exact off_sblo_evaluable|apply decide_unimodal; vm_compute; reflexivity| |reflexivity|left; reflexivity|].
  - exists [0; 2]. split; [repeat constructor; lia|]. vm_compute. exact I.
  - exists xs, c. split; assumption.
Qed.

(** *** Deviations *)

(** An instance without slots is valid, but solving it panics. *)
Theorem offline_no_slots_refuted :
  exists p : gslo Z, verify_slo valZ p = Ok tt /\
    forall minimize s sched o, fo_l o = None -> offline_solve (slo_ops s) (optimal_search_slo minimize sched o) p = Panic.
Proof.
  exists (mkGSLO 1 0 [1] [1]%Q [1]%Q []). split; [vm_compute; reflexivity|].
  intros minimize s sched o Hl. unfold offline_solve. cbn [slo_ops po_verify po_objective].
  replace (verify_slo valZ (mkGSLO 1 0 [1] [1]%Q [1]%Q [])) with (Ok tt) by (vm_compute; reflexivity). cbn [obind].
  unfold optimal_search_slo, optimal_search_sblo, optimal_search_ssco, optimal_graph_search, graph_search. rewrite Hl. reflexivity.
Qed.

(** A valid SLO instance whose servers suffice exactly for the load: there is a schedule, but
    whatever the numerical solver, solving yields no answer, since the fractions of the load are
    rounded to hundredths. *)
Theorem offline_slo_answers_refuted :
  exists (p : gslo Z) (ys : list (list Z)),
    verify_slo valZ p = Ok tt /\ feasible_schedule (l_tend p) (l_bounds p) ys /\ covers p ys /\
    (forall s, exists c, slo_objective_fn s p 1 ys = Ok c /\ eeq (c_cost c) (Fin 9)) /\
    forall minimize s sched o, solver_reports minimize -> solver_in_bounds minimize ->
      forall xs c, offline_solve (slo_ops s) (optimal_search_slo minimize sched o) p <> Ok (xs, c).
Proof.
  exists tight_small, [[1; 2]]. split; [vm_compute; reflexivity|]. split.
  { split; [reflexivity|]. repeat constructor; lia. }
  split.
  { intros [|i] x l Hx Hl; [|destruct i; discriminate]. cbn in Hx, Hl.
    assert (x = [1; 2]) by congruence. assert (l = 3) by congruence. subst. vm_compute. discriminate. }
  split; [|intros; apply tight_small_unsolved; assumption].
  intros s. destruct (slo_objective_total s tight_small) with (alpha := 1%Q) (xs := [[1; 2]]) as (c & Hc & E).
  - apply slo_verified; [reflexivity|vm_compute; reflexivity].
  - reflexivity.
  - split; [reflexivity|]. repeat constructor; lia.
  - exists c. split; [exact Hc|]. rewrite E. vm_compute. reflexivity.
Qed.

(** With one more server, the answer costs 12 where 9 suffice. *)
Theorem offline_slo_optimal_refuted :
  exists (p : gslo Z) (ys : list (list Z)),
    verify_slo valZ p = Ok tt /\ feasible_schedule (l_tend p) (l_bounds p) ys /\
    (forall s, exists c, slo_objective_fn s p 1 ys = Ok c /\ eeq (c_cost c) (Fin 9)) /\
    (forall minimize s sched, solver_reports minimize -> solver_in_bounds minimize ->
       evaluable (sblo_hit valZ minimize (into_sblo p)) (l_tend p) (l_bounds p) ->
       forall xs c, offline_solve (slo_ops s) (optimal_search_slo minimize sched default_options) p = Ok (xs, c) ->
         eeq (c_cost c) (Fin 12)) /\
    exists xs c, offline_solve (slo_ops Leaf) (optimal_search_slo grid_solver (fun _ _ => Leaf) default_options) p = Ok (xs, c).
Proof.
  assert (HW : well_formed_slo valZ tight_large) by (apply slo_verified; [reflexivity|vm_compute; reflexivity]).
  exists tight_large, [[1; 2]]. split; [vm_compute; reflexivity|]. split.
  { split; [reflexivity|]. repeat constructor; lia. }
  split; [|split].
  - intros s. destruct (slo_objective_total s tight_large HW eq_refl 1 [[1; 2]]) as (c & Hc & E).
    + split; [reflexivity|]. repeat constructor; lia.
    + exists c. split; [exact Hc|]. rewrite E. vm_compute. reflexivity.
  - intros minimize s sched Hsol Hbox Hev xs c H.
    assert (xs = [[2; 2]]) by (eapply tight_large_result; eauto; cbn; [lra|reflexivity]). subst xs.
    unfold offline_solve in H. apply BudgetCover.obind_inv in H as (u & _ & H). apply BudgetCover.obind_inv in H as (zs & _ & H).
    apply BudgetCover.obind_inv in H as (d & Hd & H). assert (zs = [[2; 2]]) by congruence. assert (d = c) by congruence. subst zs d.
    destruct (slo_objective_total s tight_large HW eq_refl 1 [[2; 2]]) as (c' & Hc' & E).
    + split; [reflexivity|]. repeat constructor; lia.
    + assert (c' = c). { cbn [slo_ops po_objective] in Hd. unfold slo_objective_fn in Hc'.
        change (gzero valZ (l_d tight_large)) with (repeat 0 (Z.to_nat (l_d tight_large))) in Hd. congruence. }
      subst c'. rewrite E. vm_compute. reflexivity.
  - eexists. eexists. vm_compute. reflexivity.
Qed.
