(** Total costs of schedules under relaxation and discretisation of problems (C14). *)
From Verif Require Import NumLemmas CostSpec CostProofs ConvertSpec ConvertProofs ConvertObjective ObjectiveProofs.
From Verif Require Import ProblemModel CostModel.
From Coq Require Import Lqa.
Local Open Scope Z_scope.

Lemma mean_certain {X C D} (vmerge : C -> C -> outcome C) (cf : cost_fn X C D) t x :
  (forall rs, call_predictive cf t x = Ok rs -> length rs = 1%nat) ->
  outcome_rel cost_eq (call_mean vmerge cf t x) (call_certain cf t x).
Proof.
  intros H. rewrite call_mean_of_predictive, call_certain_of_predictive.
  destruct (call_predictive cf t x) as [rs| |]; cbn [obind]; try reflexivity.
  specialize (H rs eq_refl). destruct rs as [|c [|? ?]]; try discriminate. apply cost_mean_single.
Qed.

Lemma within_to bounds x : within_upper valQ (config_to bounds) (config_to x) = within_upper valZ bounds x.
Proof.
  unfold within_upper, config_to. rewrite !map_length. destruct (length x =? length bounds)%nat; [|reflexivity]. f_equal.
  revert x. induction bounds as [|b bounds IH]; intros [|j x]; try reflexivity. cbn [map combine forallb fst snd]. rewrite IH. f_equal.
Qed.
Lemma within_floor bounds x : within_upper valZ (config_floor bounds) x = within_upper valQ bounds (config_to x).
Proof.
  unfold within_upper, config_to, config_floor. rewrite !map_length. destruct (length x =? length bounds)%nat; [|reflexivity]. f_equal.
  revert x. induction bounds as [|b bounds IH]; intros [|j x]; try reflexivity. cbn [map combine forallb fst snd]. rewrite IH. f_equal.
  unfold v_leb. cbn [v_toQ v_zero valQ valZ]. apply f_equal2; [reflexivity|].
  apply Bool.eq_iff_eq_true. rewrite !Qle_bool_iff. split; intros H.
  - apply Qle_trans with (inject_Z (Qfloor b)); [exact H|apply Qfloor_le].
  - rewrite <- Zle_Qle. rewrite <- (Qfloor_inject j). apply Qfloor_resp_le. exact H.
Qed.

Lemma moves_to sw : forall x y inverted,
  scaled_movement_o (v_toQ valQ) sw (config_to x) (config_to y) inverted = scaled_movement_o (v_toQ valZ) sw x y inverted.
Proof.
  induction sw as [|b sw IH]; intros [|j x] [|i y] inverted; try reflexivity. cbn [config_to map scaled_movement_o].
  unfold config_to in IH. rewrite IH. reflexivity.
Qed.

Lemma access_map {A B} (f : A -> B) xs t : access (map f xs) t = option_map f (access xs t).
Proof.
  unfold access. rewrite map_length. destruct (_ && _); [apply nth_error_map|reflexivity].
Qed.
Lemma get_or_to xs x0 t : get_or (schedule_to xs) (config_to x0) t = config_to (get_or xs x0 t).
Proof. unfold get_or, schedule_to. rewrite access_map. destruct (access xs t); reflexivity. Qed.
Lemma get_or_in {A} (xs : list A) x0 t : get_or xs x0 t = x0 \/ In (get_or xs x0 t) xs.
Proof.
  unfold get_or. destruct (access xs t) eqn:E; [|auto]. right. apply access_spec in E as [_ E]. eapply nth_error_In; eauto.
Qed.

(** Problems which agree slot by slot. *)
Lemma objective_rel {X Y C D} (merge : C -> C -> C) s (p : oproblem X C D) (q : oproblem Y C D) (f : Y -> X) xs ys x0 y0 alpha inverted t_end :
  op_tend p = op_tend q ->
  (forall t, get_or xs x0 t = f (get_or ys y0 t)) ->
  (forall t y, 1 <= t -> y = y0 \/ In y ys -> outcome_rel cost_eq (op_hit p t (f y)) (op_hit q t y)) ->
  (forall a y, op_move p (f a) (f y) inverted = op_move q a y inverted) ->
  outcome_rel cost_eq (objective_o merge s p xs x0 alpha inverted t_end) (objective_o merge s q ys y0 alpha inverted t_end).
Proof.
  intros HT HX HH HM. unfold objective_o.
  set (F := fun t => step_cost_o p alpha inverted t (get_or xs x0 (t - 1)) (get_or xs x0 t)).
  set (G := fun t => step_cost_o q alpha inverted t (get_or ys y0 (t - 1)) (get_or ys y0 t)).
  assert (S : forall t, 1 <= t -> outcome_rel cost_eq (F t) (G t)).
  { intros t Ht. unfold F, G, step_cost_o. rewrite HT, !HX, HM.
    assert (R : outcome_rel cost_eq (if op_tend q <? t then Ok cost_default else op_hit p t (f (get_or ys y0 t)))
                                    (if op_tend q <? t then Ok cost_default else op_hit q t (get_or ys y0 t))).
    { destruct (op_tend q <? t); [apply cost_eq_refl|]. apply HH; [exact Ht|apply get_or_in]. }
    destruct (if op_tend q <? t then Ok cost_default else op_hit p t (f (get_or ys y0 t))) as [a|e|],
             (if op_tend q <? t then Ok cost_default else op_hit q t (get_or ys y0 t)) as [b|e'|]; cbn [obind outcome_rel] in *; auto; try contradiction.
    destruct (op_move q (get_or ys y0 (t - 1)) (get_or ys y0 t) inverted); cbn [obind outcome_rel]; auto.
    destruct R as [R1 R2]. split; [cbn [c_cost]; rewrite R1; reflexivity|exact R2]. }
  assert (L : forall l, Forall (fun t => 1 <= t) l -> outcome_rel (Forall2 cost_eq) (omap F l) (omap G l)).
  { induction l as [|t l IH]; intros Hl; [constructor|]. cbn [omap]. specialize (S t (Forall_inv Hl)). specialize (IH (Forall_inv_tail Hl)).
    destruct (F t), (G t); cbn [obind outcome_rel] in *; auto; try contradiction.
    destruct (omap F l), (omap G l); cbn [obind outcome_rel] in *; auto; try contradiction. }
  specialize (L (zrange 1 t_end) ltac:(apply Forall_forall; intros t Ht; apply zrange_In in Ht; lia)).
  destruct (omap F (zrange 1 t_end)) as [a|e|], (omap G (zrange 1 t_end)) as [b|e'|]; cbn [obind outcome_rel] in *; auto; try contradiction.
  split.
  - rewrite !par_sum_cost. clear -L. induction L as [|x y a b [H _] _ IH]; [reflexivity|]. cbn [map]. cbn [esum]. rewrite H, IH. reflexivity.
  - apply par_sum_out_ext. clear -L. induction L as [|x y a b [_ H] _ IH]; [reflexivity|]. cbn [map]. congruence.
Qed.

Lemma relaxed_objective {C D} (vmerge : C -> C -> outcome C) (merge : C -> C -> C) (outside : D) (p : gssco Z C D) xs x0 s alpha inverted t_end :
  length x0 = 1%nat -> Forall (fun x => length x = 1%nat) xs ->
  (forall t x rs, 1 <= t -> x = x0 \/ In x xs -> call_predictive (g_cost p) t x = Ok rs -> length rs = 1%nat) ->
  outcome_rel cost_eq
    (objective_o merge s (gssco_problem valQ vmerge outside (ssco_into_f vmerge p)) (schedule_to xs) (config_to x0) alpha inverted t_end)
    (objective_o merge s (gssco_problem valZ vmerge outside p) xs x0 alpha inverted t_end).
Proof.
  intros H0 HX HC. apply objective_rel with (f := config_to).
  - reflexivity.
  - apply get_or_to.
  - intros t y Ht Hy. assert (length y = 1%nat) as Ly.
    { destruct Hy as [->|Hy]; [exact H0|]. rewrite Forall_forall in HX. auto. }
    cbn [gssco_problem op_hit]. unfold gssco_hit, call_mean_within. cbn [ssco_into_f g_bounds g_cost]. rewrite within_to.
    destruct (within_upper valZ (g_bounds p) y) as [[|]| |]; cbn [obind outcome_rel]; auto; [|apply cost_eq_refl].
    destruct y as [|z [|? ?]]; try discriminate.
    eapply outcome_cost_trans; [apply certain_call_mean; exact Ht|].
    cbn [config_to map]. rewrite Qfloor_inject. rewrite (proj2 (Qeq_bool_iff _ _) (Qeq_refl _)).
    apply outcome_cost_sym. apply mean_certain. intros rs E. apply (HC t [z]); auto.
  - intros a y. cbn [gssco_problem op_move]. unfold gssco_move. cbn [ssco_into_f g_switching]. apply moves_to.
Qed.

Lemma discretised_objective {C D} (vmerge : C -> C -> outcome C) (merge : C -> C -> C) (outside : D) (p : gssco Q C D) xs x0 s alpha inverted t_end :
  (forall t x rs, 1 <= t -> x = x0 \/ In x xs -> call_predictive (g_cost p) t (config_to x) = Ok rs -> length rs = 1%nat) ->
  outcome_rel cost_eq
    (objective_o merge s (gssco_problem valZ vmerge outside (ssco_into_i p)) xs x0 alpha inverted t_end)
    (objective_o merge s (gssco_problem valQ vmerge outside p) (schedule_to xs) (config_to x0) alpha inverted t_end).
Proof.
  intros HC. apply outcome_cost_sym. apply objective_rel with (f := config_to).
  - reflexivity.
  - apply get_or_to.
  - intros t y Ht Hy.
    cbn [gssco_problem op_hit]. unfold gssco_hit, call_mean_within. cbn [ssco_into_i g_bounds g_cost]. rewrite within_floor.
    destruct (within_upper valQ (g_bounds p) (config_to y)) as [[|]| |]; cbn [obind outcome_rel]; auto; [|apply cost_eq_refl].
    eapply outcome_cost_trans; [apply mean_certain; intros rs; apply (HC t y rs Ht Hy)|]. apply outcome_cost_sym.
    unfold cf_into_i. apply (certain_call_mean vmerge (fun t x => call_certain (g_cost p) t (config_to x))). exact Ht.
  - intros a y. cbn [gssco_problem op_move]. unfold gssco_move. cbn [ssco_into_i g_switching]. apply moves_to.
Qed.

Lemma ssco_back {C D} (vmerge : C -> C -> outcome C) (p : gssco Z C D) :
  g_d (ssco_into_i (ssco_into_f vmerge p)) = g_d p /\ g_tend (ssco_into_i (ssco_into_f vmerge p)) = g_tend p /\
  g_bounds (ssco_into_i (ssco_into_f vmerge p)) = g_bounds p /\ g_switching (ssco_into_i (ssco_into_f vmerge p)) = g_switching p.
Proof. repeat split. cbn [ssco_into_i ssco_into_f g_bounds]. apply config_floor_to. Qed.
