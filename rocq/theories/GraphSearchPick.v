(** The parallel choice of a predecessor, and the hash map of paths. *)
From Verif Require Import NumLemmas GraphSearchModel GraphSearchSpec.
Local Open Scope Z_scope.

Lemma join_pred_None_r a : join_pred a None = a.
Proof. destruct a; reflexivity. Qed.

(** Left-most minimum, recursively. *)
Fixpoint pick (l : list (edge * gpath)) : option (edge * gpath) :=
  match l with
  | [] => None
  | c :: r => join_pred (pick_pred None c) (pick r)
  end.

Lemma eadd_comm_eq_le a b c d : eleb (eadd a b) (eadd c d) = eleb (eadd b a) (eadd d c).
Proof.
  apply eq_true_iff_eq. rewrite !eleb_iff.
  rewrite (eadd_comm a b), (eadd_comm c d). reflexivity.
Qed.

Lemma pick_pred_join picked c :
  (forall x, picked = Some x -> is_fin (cand_cost x)) ->
  pick_pred picked c = join_pred picked (pick_pred None c).
Proof.
  intros Hf. unfold pick_pred. destruct c as [e p]. cbn [fst snd].
  destruct picked as [[e' p']|]; cbn [join_pred]; [|reflexivity].
  specialize (Hf _ eq_refl). unfold cand_cost in Hf. cbn [fst snd] in *.
  destruct (eltb (eadd (gp_cost p) (e_cost e)) Inf) eqn:E1.
  - rewrite eadd_comm_eq_le.
    destruct (eltb (eadd (gp_cost p) (e_cost e)) (eadd (gp_cost p') (e_cost e'))) eqn:E2; cbn [fst snd].
    + apply eltb_iff, elt_not_ele in E2. destruct (eleb _ _) eqn:E3; [|reflexivity].
      apply eleb_iff in E3. contradiction.
    + apply eltb_false in E2. apply eleb_iff in E2. rewrite E2. reflexivity.
  - destruct (eltb (eadd (gp_cost p) (e_cost e)) (eadd (gp_cost p') (e_cost e'))) eqn:E2; [|reflexivity].
    apply eltb_iff in E2. apply eltb_false in E1.
    destruct (eadd (gp_cost p) (e_cost e)); cbn in *; contradiction.
Qed.

Lemma join_pred_assoc a b c : join_pred a (join_pred b c) = join_pred (join_pred a b) c.
Proof.
  destruct a as [a|], b as [b|], c as [c|]; try reflexivity. cbn [join_pred].
  set (ca := eadd (e_cost (fst a)) (gp_cost (snd a))).
  set (cb := eadd (e_cost (fst b)) (gp_cost (snd b))).
  set (cc := eadd (e_cost (fst c)) (gp_cost (snd c))).
  destruct (eleb cb cc) eqn:E1; destruct (eleb ca cb) eqn:E2; fold ca cb cc; rewrite ?E1, ?E2; try reflexivity.
  - apply eleb_iff in E1, E2. rewrite (proj2 (eleb_iff ca cc)); [reflexivity|]. eapply ele_trans; eauto.
  - destruct (eleb ca cc) eqn:E3; [|reflexivity].
    apply eleb_false in E1, E2. apply eleb_iff in E3. exfalso.
    apply elt_not_ele in E2. apply E2. eapply ele_trans; [exact E3|]. apply elt_ele; exact E1.
Qed.

Lemma pick_pred_fin picked c x :
  (forall x, picked = Some x -> is_fin (cand_cost x)) ->
  pick_pred picked c = Some x -> is_fin (cand_cost x).
Proof.
  intros Hf. unfold pick_pred. destruct (eltb _ _) eqn:E; [|apply Hf].
  intros H; inversion H; subst x. apply eltb_iff in E.
  unfold cand_cost. destruct (eadd (gp_cost (snd c)) (e_cost (fst c))); [exact I|]. cbn in E. contradiction.
Qed.

Lemma fold_pick l : forall picked,
  (forall x, picked = Some x -> is_fin (cand_cost x)) ->
  fold_left pick_pred l picked = join_pred picked (pick l).
Proof.
  induction l as [|c l IH]; intros picked Hf; cbn [fold_left pick].
  - symmetry. apply join_pred_None_r.
  - rewrite IH.
    + rewrite pick_pred_join by exact Hf. symmetry. apply join_pred_assoc.
    + intros x Hx. eapply pick_pred_fin; eauto.
Qed.

Lemma pick_app a b : pick (a ++ b) = join_pred (pick a) (pick b).
Proof.
  induction a as [|c a IH]; [reflexivity|]. cbn [app pick]. rewrite IH. apply join_pred_assoc.
Qed.

Lemma par_pick_pick s : forall l, par_pick s l = pick l.
Proof.
  induction s as [|n a IHa b IHb]; intros l; cbn [par_pick].
  - rewrite fold_pick by discriminate. reflexivity.
  - rewrite IHa, IHb, <- pick_app, firstn_skipn. reflexivity.
Qed.

Lemma cand_comm (c : edge * gpath) : eeq (eadd (e_cost (fst c)) (gp_cost (snd c))) (cand_cost c).
Proof. unfold cand_cost. apply eadd_comm. Qed.

Lemma pick_first_least l :
  match pick l with
  | None => Forall (fun c => cand_cost c = Inf) l
  | Some c => first_least cand_cost l c
  end.
Proof.
  induction l as [|c l IH]; [constructor|]. cbn [pick].
  assert (E : pick_pred None c = if eltb (cand_cost c) Inf then Some c else None) by reflexivity.
  rewrite E. destruct (cand_cost c) as [q|] eqn:Ec; cbn [eltb].
  - destruct (pick l) as [x|]; cbn [join_pred].
    + destruct (eleb _ _) eqn:El.
      * apply eleb_iff in El. rewrite !cand_comm in El.
        destruct IH as (l1 & l2 & -> & Hx & H1 & H2).
        exists [], (l1 ++ x :: l2). split; [reflexivity|]. rewrite Ec. split; [exact I|].
        split; [constructor|]. apply Forall_app. rewrite Ec in El. split.
        -- eapply Forall_impl; [|exact H1]. intros y Hy. eapply ele_trans; [exact El|]. apply elt_ele; exact Hy.
        -- constructor; [exact El|]. eapply Forall_impl; [|exact H2]. intros y Hy. eapply ele_trans; eauto.
      * apply eleb_false in El. rewrite !cand_comm in El.
        destruct IH as (l1 & l2 & -> & Hx & H1 & H2).
        exists (c :: l1), l2. split; [reflexivity|]. split; [exact Hx|]. split; [|exact H2].
        constructor; auto.
    + exists [], l. split; [reflexivity|]. rewrite Ec. split; [exact I|]. split; [constructor|].
      eapply Forall_impl; [|exact IH]. intros y ->. exact I.
  - cbn [join_pred]. destruct (pick l) as [x|].
    + destruct IH as (l1 & l2 & -> & Hx & H1 & H2).
      exists (c :: l1), l2. split; [reflexivity|]. split; [exact Hx|]. split; [|exact H2].
      constructor; [|exact H1]. rewrite Ec. destruct (cand_cost x); [exact I|destruct Hx].
    + constructor; auto.
Qed.

Lemma par_pick_spec s l :
  match par_pick s l with
  | None => Forall (fun c => cand_cost c = Inf) l
  | Some c => first_least cand_cost l c
  end.
Proof. rewrite par_pick_pick. apply pick_first_least. Qed.

Lemma first_least_spec {A} (cost : A -> ext) l c :
  first_least cost l c -> In c l /\ is_fin (cost c) /\ Forall (fun x => ele (cost c) (cost x)) l.
Proof.
  intros (l1 & l2 & -> & Hf & H1 & H2). split; [apply in_elt|]. split; [exact Hf|].
  apply Forall_app. split.
  - eapply Forall_impl; [|exact H1]. intros x. apply elt_ele.
  - constructor; [apply ele_refl|exact H2].
Qed.

(** * The hash map *)
Lemma vertice_eqb_spec a b : vertice_eqb a b = true <-> a = b.
Proof.
  unfold vertice_eqb. destruct a as [[ca ia] ua], b as [[cb ib] ub]. cbn [fst snd ic_cfg ic_idx].
  destruct (list_eq_dec Z.eq_dec ca cb), (list_eq_dec Nat.eq_dec ia ib); cbn [andb]; subst;
    try (split; [discriminate|intros H; inversion H; congruence]).
  split.
  - intros H. apply eqb_prop in H. subst. reflexivity.
  - intros H. inversion H. apply eqb_reflx.
Qed.

Lemma glookup_same ps v p : glookup (ginsert ps v p) v = Some p.
Proof. cbn [glookup ginsert]. rewrite (proj2 (vertice_eqb_spec v v) eq_refl). reflexivity. Qed.

Lemma glookup_other ps v w p : v <> w -> glookup (ginsert ps v p) w = glookup ps w.
Proof.
  intros H. cbn [glookup ginsert]. destruct (vertice_eqb v w) eqn:E; [|reflexivity].
  apply vertice_eqb_spec in E. contradiction.
Qed.
