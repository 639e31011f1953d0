(** Proofs about searches that do not answer. *)
From Coq Require Import Lia Lqa.
From Verif Require Import NumLemmas GraphSearchSpec GraphSearchProofs ObjectiveProofs CostSpec CostProofs VerifySpec VerifyProofs OfflineModel OfflineSpec OfflineProofs.
From Verif Require Import ProblemModel CostModel GraphSearchModel.
Local Open Scope Z_scope.

(** No error (an answer or a panic). *)
Definition no_err {A} (o : outcome A) : Prop := match o with Err _ => False | _ => True end.

Lemma no_err_bind {A B} (m : outcome A) (k : A -> outcome B) :
  no_err m -> (forall a, m = Ok a -> no_err (k a)) -> no_err (obind m k).
Proof. destruct m; simpl; auto. Qed.

Lemma no_err_option {A} (o : option A) : no_err (from_option o).
Proof. destruct o; exact I. Qed.

Lemma no_err_omap {A B} (f : A -> outcome B) l : (forall a, no_err (f a)) -> no_err (GraphSearchModel.omap f l).
Proof.
  intros H. induction l as [|a l IH]; simpl; [exact I|].
  apply no_err_bind; [apply H|]. intros b _. apply no_err_bind; [exact IH|]. intros; exact I.
Qed.

Ltac ne := repeat (first
  [ exact I
  | apply no_err_bind; [|intros]
  | apply no_err_option
  | match goal with
    | |- no_err (if ?b then _ else _) => destruct b
    | |- no_err (match ?b with _ => _ end) => destruct b
    end ]).

Lemma build_config_ne dir vs c k : no_err (build_config dir vs c k).
Proof. unfold build_config. ne. Qed.

Section Search.
  Variable hit : Z -> list Z -> ext.
  Variable d : Z.
  Variable bounds : list Z.
  Variable sw : list Q.
  Variable alpha : Q.
  Variable inverted : bool.
  Variable vs : gvalues.
  Variable sched : Z -> vertice -> split.

  Lemma neighbour_edges_ne up c ls : no_err (neighbour_edges sw alpha inverted vs up c ls).
  Proof.
    induction ls as [|l ls IH]; simpl; [exact I|].
    apply no_err_bind; [apply build_config_ne|]. intros o _. apply no_err_bind; [exact IH|]. intros r _. ne.
  Qed.

  Lemma handle_config_ne t k up c ps : no_err (handle_config hit d sw alpha inverted vs sched t k up c ps).
  Proof.
    unfold handle_config, find_immediate_predecessors. apply no_err_bind.
    - apply no_err_bind; [apply neighbour_edges_ne|]. intros ns _. ne.
    - intros preds _. apply no_err_bind; [|intros; exact I]. unfold find_optimal_predecessor.
      destruct (match preds with [] => true | _ => _ end); [|exact I].
      apply no_err_bind; [|intros; exact I]. apply no_err_omap. intros e. ne.
  Qed.

  Lemma walk_ne fuel : forall t k up c ps added, no_err (walk hit d sw alpha inverted vs sched fuel t k up c ps added).
  Proof.
    induction fuel as [|f IH]; intros; simpl; [exact I|].
    apply no_err_bind; [apply handle_config_ne|]. intros ps' _.
    apply no_err_bind; [apply build_config_ne|]. intros [c'|] _; [apply IH|exact I].
  Qed.

  Lemma handle_bases_ne t k up bases : forall ps added,
    no_err (handle_bases hit d sw alpha inverted vs sched t k up bases ps added).
  Proof.
    induction bases as [|b bases IH]; intros; cbn [handle_bases]; [exact I|].
    apply no_err_bind.
    { destruct (Nat.eqb k 1); [exact I|]. apply no_err_bind; [apply build_config_ne|]. intros o _. ne. }
    intros [c0 a0] _. apply no_err_bind; [apply walk_ne|]. intros r _. apply IH.
  Qed.

  Lemma handle_dims_ne n : forall t k up configs ps,
    no_err (handle_dims hit d sw alpha inverted vs sched n t k up configs ps).
  Proof.
    induction n as [|n IH]; intros; simpl; [exact I|].
    apply no_err_bind; [apply handle_bases_ne|]. intros r _. apply IH.
  Qed.

  Lemma handle_slots_ne ts : forall ps, no_err (handle_slots hit d bounds sw alpha inverted vs sched ts ps).
  Proof.
    induction ts as [|t ts IH]; intros; simpl; [exact I|].
    apply no_err_bind; [apply handle_dims_ne|]. intros ps1 _.
    apply no_err_bind; [apply handle_dims_ne|]. intros ps2 _. apply IH.
  Qed.

  (** Powering down starts at full capacity, whose only edge carries its hitting cost. *)
  Lemma layer_needs_capacity t ps r : 0 < d -> handle_layer hit d bounds sw alpha inverted vs sched t false ps = Ok r ->
    is_fin (hit t bounds).
  Proof.
    intros Hd H. unfold handle_layer in H. destruct (Z.to_nat d) as [|n] eqn:En; [lia|].
    cbn [handle_dims handle_bases] in H. rewrite Nat.eqb_refl in H. cbn [obind fst snd] in H.
    destruct (walk _ _ _ _ _ _ _ _ _ _ _ _ _ _) as [rw| |] eqn:EW; cbn [obind] in H; try discriminate. clear H.
    cbn [walk] in EW. unfold handle_config in EW.
    destruct (find_immediate_predecessors _ _ _ _ _ _ _ _ _ _) as [preds| |] eqn:EP; cbn [obind] in EW; try discriminate.
    destruct (find_optimal_predecessor _ _ _) as [opt| |] eqn:EO; cbn [obind] in EW; try discriminate. clear EW.
    unfold find_immediate_predecessors in EP. cbn [seq neighbour_edges] in EP.
    unfold build_config in EP. cbn [build_base_config ic_idx] in EP.
    destruct (nth_error (v_bound vs) 0) as [ik|]; cbn [from_option obind] in EP; [|discriminate].
    rewrite Nat.eqb_refl in EP. cbn [obind] in EP. rewrite orb_true_r in EP. cbn [app ic_cfg] in EP.
    rewrite andb_false_r in EP. cbn [andb] in EP.
    assert (E : preds = [mkEdge (mkIC bounds (v_bound vs), negb false) (hit t bounds)]) by congruence. subst preds.
    unfold find_optimal_predecessor in EO. cbn [existsb e_cost] in EO.
    destruct (hit t bounds); [exact I|discriminate].
  Qed.

  Lemma slots_need_capacity ts : 0 < d -> forall ps r,
    handle_slots hit d bounds sw alpha inverted vs sched ts ps = Ok r ->
    forall t, In t ts -> is_fin (hit t bounds).
  Proof.
    intros Hd. induction ts as [|a ts IH]; intros ps r H t Ht; [destruct Ht|]. cbn [handle_slots] in H.
    destruct (handle_layer _ _ _ _ _ _ _ _ _ true ps) as [ps1| |]; cbn [obind] in H; try discriminate.
    destruct (handle_layer _ _ _ _ _ _ _ _ _ false ps1) as [ps2| |] eqn:E2; cbn [obind] in H; try discriminate.
    destruct Ht as [<-|Ht]; [eapply layer_needs_capacity; eauto|eapply IH; eauto].
  Qed.
End Search.

Section SSCO.
  Context {C D : Type}.
  Variable vmerge : C -> C -> outcome C.
  Variable outside : D.
  Variable p : gssco Z C D.
  Notation hit := (gssco_hit valZ vmerge outside p).
  Notation view := (search_view vmerge outside p).
  Hypothesis Hwf : well_formed_ssco valZ p.
  Hypothesis Hev : evaluable hit (g_tend p) (g_bounds p).

  Lemma search_panics sched o : fo_l o = None ->
    ~ (1 <= g_tend p /\ capacity_suffices hit (g_tend p) (g_bounds p)) ->
    optimal_search_ssco vmerge outside sched o p = Panic.
  Proof.
    intros Hl Hno. pose proof (wf_bounds_pos p Hwf) as Hpos.
    assert (Hnn : Forall (fun u => 0 <= u) (g_bounds p)) by (eapply Forall_impl; [|exact Hpos]; intros; simpl in *; lia).
    assert (HF := full_feasible _ Hnn). destruct Hwf as (H1 & H2 & _).
    unfold optimal_search_ssco, optimal_graph_search. rewrite Hl.
    change (s_bounds view) with (g_bounds p).
    destruct (max_of (g_bounds p)) as [m|]; cbn [from_option obind]; [|reflexivity].
    unfold graph_search. cbn [fst snd].
    change (s_tend view) with (g_tend p). change (s_d view) with (g_d p). change (s_bounds view) with (g_bounds p).
    match goal with |- context [handle_slots ?h ?d ?b ?s ?a ?i ?v ?sc ?ts ?ps] =>
      pose proof (handle_slots_ne h d b s a i v sc ts ps) as NE;
      pose proof (slots_need_capacity h d b s a i v sc ts H1 ps) as NC;
      destruct (handle_slots h d b s a i v sc ts ps) as [r| |] eqn:ES end;
      cbn [obind]; [|destruct NE|reflexivity].
    destruct (Z.eq_dec (g_tend p) 0) as [E0|E0].
    - rewrite E0 in ES. cbn in ES. assert (r = []) by congruence. subst r. reflexivity.
    - exfalso. apply Hno. split; [lia|]. intros t Ht. destruct (Hev t _ Ht HF) as (c & Hc). exists c. split; [exact Hc|].
      specialize (NC r eq_refl t (proj2 (zrange_In 1 (g_tend p) t) Ht)). cbv beta in NC.
      pose proof (view_inside vmerge outside p t _ HF) as E1.
      pose proof (view_hit vmerge outside p t _ c HF Hc) as E2.
      rewrite E2 in E1. rewrite <- E1. exact NC.
  Qed.
End SSCO.

(** Whether or not all costs can be evaluated: an answer requires a finite cost at full capacity. *)
Lemma search_needs_capacity {C D} (vmerge : C -> C -> outcome C) (outside : D) (p : gssco Z C D) sched o xs :
  well_formed_ssco valZ p -> optimal_search_ssco vmerge outside sched o p = Ok xs ->
  forall t, 1 <= t <= g_tend p -> exists c, gssco_hit valZ vmerge outside p t (g_bounds p) = Ok c /\ is_fin (c_cost c).
Proof.
  intros Hwf H t Ht. pose proof (wf_bounds_pos p Hwf) as Hpos.
  assert (Hnn : Forall (fun u => 0 <= u) (g_bounds p)) by (eapply Forall_impl; [|exact Hpos]; intros; simpl in *; lia).
  assert (HF := full_feasible _ Hnn). destruct Hwf as (H1 & H2 & _).
  unfold optimal_search_ssco, optimal_graph_search, searched in H.
  change (s_bounds (search_view vmerge outside p)) with (g_bounds p) in H.
  destruct (max_of (g_bounds p)) as [m|]; cbn [from_option obind] in H; [|discriminate].
  unfold graph_search in H. destruct (fo_l o); [discriminate|]. cbn [fst snd] in H.
  change (s_tend (search_view vmerge outside p)) with (g_tend p) in H.
  change (s_d (search_view vmerge outside p)) with (g_d p) in H.
  change (s_bounds (search_view vmerge outside p)) with (g_bounds p) in H.
  match type of H with context [handle_slots ?h ?d ?b ?s ?a ?i ?v ?sc ?ts ?ps] =>
    pose proof (slots_need_capacity h d b s a i v sc ts H1 ps) as NC;
    destruct (handle_slots h d b s a i v sc ts ps) as [r| |] eqn:ES end;
    cbn [obind] in H; try discriminate.
  specialize (NC r eq_refl t (proj2 (zrange_In 1 (g_tend p) t) Ht)). cbv beta in NC.
  rewrite (view_inside vmerge outside p t _ HF) in NC.
  rewrite gssco_hit_inside; [|reflexivity|apply feasible_box; exact HF].
  cbn [search_view s_hit] in NC. destruct (call_mean vmerge (g_cost p) t (g_bounds p)) as [c| |]; [|destruct NC|destruct NC].
  exists c. split; [reflexivity|exact NC].
Qed.

Lemma limited_search {C D} (vmerge : C -> C -> outcome C) (outside : D) (p : gssco Z C D) sched o l :
  well_formed_ssco valZ p -> fo_l o = Some l ->
  optimal_search_ssco vmerge outside sched o p = Err UnsupportedLConstrainedMovement.
Proof.
  intros (H1 & _ & H3 & _) Hl. unfold optimal_search_ssco, optimal_graph_search, searched.
  change (s_bounds (search_view vmerge outside p)) with (g_bounds p). rewrite Hl.
  destruct (g_bounds p) as [|u bs] eqn:E; [simpl in H3; lia|].
  destruct (max_of_ex (u :: bs)) as (m & Hm); [discriminate|]. rewrite Hm. reflexivity.
Qed.
