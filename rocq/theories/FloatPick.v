(** The parallel choice of a predecessor in floating-point arithmetic. *)
From Verif Require Import NumLemmas GraphSearchPick FloatModel FloatSpec.
Local Open Scope Z_scope.

(** Sums of fractions commute literally. *)
Lemma Qplus_comm_eq (x y : Q) : (x + y)%Q = (y + x)%Q.
Proof. destruct x, y. unfold Qplus. cbn. f_equal; [lia|apply Pos.mul_comm]. Qed.

Section FloatPick.
Variable rnd : Q -> Q.

Definition f_cand_cost (c : edge * gpath) : ext := fadd rnd (gp_cost (snd c)) (e_cost (fst c)).

Lemma f_join_pred_None_r a : (f_join_pred rnd) a None = a.
Proof. destruct a; reflexivity. Qed.

(** Left-most minimum, recursively. *)
Fixpoint f_pick (l : list (edge * gpath)) : option (edge * gpath) :=
  match l with
  | [] => None
  | c :: r => (f_join_pred rnd) ((f_pick_pred rnd) None c) (f_pick r)
  end.

Lemma fadd_comm a b : fadd rnd a b = fadd rnd b a.
Proof. destruct a, b; cbn; auto. rewrite Qplus_comm_eq. reflexivity. Qed.

Lemma fadd_comm_eq_le a b c d : eleb (fadd rnd a b) (fadd rnd c d) = eleb (fadd rnd b a) (fadd rnd d c).
Proof. rewrite (fadd_comm a b), (fadd_comm c d). reflexivity. Qed.

Lemma f_pick_pred_join picked c :
  (forall x, picked = Some x -> is_fin (f_cand_cost x)) ->
  (f_pick_pred rnd) picked c = (f_join_pred rnd) picked ((f_pick_pred rnd) None c).
Proof.
  intros Hf. unfold f_pick_pred. destruct c as [e p]. cbn [fst snd].
  destruct picked as [[e' p']|]; cbn [f_join_pred]; [|reflexivity].
  specialize (Hf _ eq_refl). unfold f_cand_cost in Hf. cbn [fst snd] in *.
  destruct (eltb (fadd rnd (gp_cost p) (e_cost e)) Inf) eqn:E1.
  - rewrite fadd_comm_eq_le.
    destruct (eltb (fadd rnd (gp_cost p) (e_cost e)) (fadd rnd (gp_cost p') (e_cost e'))) eqn:E2; cbn [fst snd].
    + apply eltb_iff, elt_not_ele in E2. destruct (eleb _ _) eqn:E3; [|reflexivity].
      apply eleb_iff in E3. contradiction.
    + apply eltb_false in E2. apply eleb_iff in E2. rewrite E2. reflexivity.
  - destruct (eltb (fadd rnd (gp_cost p) (e_cost e)) (fadd rnd (gp_cost p') (e_cost e'))) eqn:E2; [|reflexivity].
    apply eltb_iff in E2. apply eltb_false in E1.
    destruct (fadd rnd (gp_cost p) (e_cost e)); cbn in *; contradiction.
Qed.

Lemma f_join_pred_assoc a b c : (f_join_pred rnd) a ((f_join_pred rnd) b c) = (f_join_pred rnd) ((f_join_pred rnd) a b) c.
Proof.
  destruct a as [a|], b as [b|], c as [c|]; try reflexivity. cbn [f_join_pred].
  set (ca := fadd rnd (e_cost (fst a)) (gp_cost (snd a))).
  set (cb := fadd rnd (e_cost (fst b)) (gp_cost (snd b))).
  set (cc := fadd rnd (e_cost (fst c)) (gp_cost (snd c))).
  destruct (eleb cb cc) eqn:E1; destruct (eleb ca cb) eqn:E2; fold ca cb cc; rewrite ?E1, ?E2; try reflexivity.
  - apply eleb_iff in E1, E2. rewrite (proj2 (eleb_iff ca cc)); [reflexivity|]. eapply ele_trans; eauto.
  - destruct (eleb ca cc) eqn:E3; [|reflexivity].
    apply eleb_false in E1, E2. apply eleb_iff in E3. exfalso.
    apply elt_not_ele in E2. apply E2. eapply ele_trans; [exact E3|]. apply elt_ele; exact E1.
Qed.

Lemma f_pick_pred_fin picked c x :
  (forall x, picked = Some x -> is_fin (f_cand_cost x)) ->
  (f_pick_pred rnd) picked c = Some x -> is_fin (f_cand_cost x).
Proof.
  intros Hf. unfold f_pick_pred. destruct (eltb _ _) eqn:E; [|apply Hf].
  intros H; inversion H; subst x. apply eltb_iff in E.
  unfold f_cand_cost. destruct (fadd rnd (gp_cost (snd c)) (e_cost (fst c))); [exact I|]. cbn in E. contradiction.
Qed.

Lemma f_fold_pick l : forall picked,
  (forall x, picked = Some x -> is_fin (f_cand_cost x)) ->
  fold_left (f_pick_pred rnd) l picked = (f_join_pred rnd) picked (f_pick l).
Proof.
  induction l as [|c l IH]; intros picked Hf; cbn [fold_left f_pick].
  - symmetry. apply f_join_pred_None_r.
  - rewrite IH.
    + rewrite f_pick_pred_join by exact Hf. symmetry. apply f_join_pred_assoc.
    + intros x Hx. eapply f_pick_pred_fin; eauto.
Qed.

Lemma f_pick_app a b : f_pick (a ++ b) = (f_join_pred rnd) (f_pick a) (f_pick b).
Proof.
  induction a as [|c a IH]; [reflexivity|]. cbn [app f_pick]. rewrite IH. apply f_join_pred_assoc.
Qed.

Lemma f_par_pick_pick s : forall l, (f_par_pick rnd) s l = f_pick l.
Proof.
  induction s as [|n a IHa b IHb]; intros l; cbn [f_par_pick].
  - rewrite f_fold_pick by discriminate. reflexivity.
  - rewrite IHa, IHb, <- f_pick_app, firstn_skipn. reflexivity.
Qed.

Lemma f_cand_comm (c : edge * gpath) : eeq (fadd rnd (e_cost (fst c)) (gp_cost (snd c))) (f_cand_cost c).
Proof. unfold f_cand_cost. rewrite fadd_comm. reflexivity. Qed.

Lemma f_pick_first_least l :
  match f_pick l with
  | None => Forall (fun c => f_cand_cost c = Inf) l
  | Some c => first_least f_cand_cost l c
  end.
Proof.
  induction l as [|c l IH]; [constructor|]. cbn [f_pick].
  assert (E : (f_pick_pred rnd) None c = if eltb (f_cand_cost c) Inf then Some c else None) by reflexivity.
  rewrite E. destruct (f_cand_cost c) as [q|] eqn:Ec; cbn [eltb].
  - destruct (f_pick l) as [x|]; cbn [f_join_pred].
    + destruct (eleb _ _) eqn:El.
      * apply eleb_iff in El. rewrite !f_cand_comm in El.
        destruct IH as (l1 & l2 & -> & Hx & H1 & H2).
        exists [], (l1 ++ x :: l2). split; [reflexivity|]. rewrite Ec. split; [exact I|].
        split; [constructor|]. apply Forall_app. rewrite Ec in El. split.
        -- eapply Forall_impl; [|exact H1]. intros y Hy. eapply ele_trans; [exact El|]. apply elt_ele; exact Hy.
        -- constructor; [exact El|]. eapply Forall_impl; [|exact H2]. intros y Hy. eapply ele_trans; eauto.
      * apply eleb_false in El. rewrite !f_cand_comm in El.
        destruct IH as (l1 & l2 & -> & Hx & H1 & H2).
        exists (c :: l1), l2. split; [reflexivity|]. split; [exact Hx|]. split; [|exact H2].
        constructor; auto.
    + exists [], l. split; [reflexivity|]. rewrite Ec. split; [exact I|]. split; [constructor|].
      eapply Forall_impl; [|exact IH]. intros y ->. exact I.
  - cbn [f_join_pred]. destruct (f_pick l) as [x|].
    + destruct IH as (l1 & l2 & -> & Hx & H1 & H2).
      exists (c :: l1), l2. split; [reflexivity|]. split; [exact Hx|]. split; [|exact H2].
      constructor; [|exact H1]. rewrite Ec. destruct (f_cand_cost x); [exact I|destruct Hx].
    + constructor; auto.
Qed.

Lemma f_par_pick_spec s l :
  match (f_par_pick rnd) s l with
  | None => Forall (fun c => f_cand_cost c = Inf) l
  | Some c => first_least f_cand_cost l c
  end.
Proof. rewrite f_par_pick_pick. apply f_pick_first_least. Qed.
End FloatPick.
