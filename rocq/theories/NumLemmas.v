(** Lemmas about the shared definitions of Num.v. *)
From Verif Require Export Num.
From Coq Require Export Lia Lqa Setoid Morphisms.
Local Open Scope Z_scope.

(** ** Extended numbers *)
Lemma eeq_refl a : eeq a a.
Proof. destruct a; simpl; [reflexivity|exact I]. Qed.
Lemma eeq_sym a b : eeq a b -> eeq b a.
Proof. destruct a, b; simpl; intros; auto. symmetry; assumption. Qed.
Lemma eeq_trans a b c : eeq a b -> eeq b c -> eeq a c.
Proof. destruct a, b, c; simpl; intros; try contradiction; auto. lra. Qed.
Global Instance eeq_equiv : Equivalence eeq.
Proof. split; [exact eeq_refl|exact eeq_sym|exact eeq_trans]. Qed.

Lemma ele_refl a : ele a a.
Proof. destruct a; simpl; [lra|exact I]. Qed.
Lemma ele_trans a b c : ele a b -> ele b c -> ele a c.
Proof. destruct a, b, c; simpl; intros; try contradiction; auto. lra. Qed.
Lemma ele_antisym a b : ele a b -> ele b a -> eeq a b.
Proof. destruct a, b; simpl; intros; try contradiction; auto. lra. Qed.
Lemma ele_total a b : ele a b \/ ele b a.
Proof. destruct a, b; simpl; auto. lra. Qed.
Lemma eeq_ele a b : eeq a b -> ele a b.
Proof. destruct a, b; simpl; intros; try contradiction; auto. lra. Qed.
Lemma ele_Inf a : ele a Inf.
Proof. destruct a; exact I. Qed.
Lemma elt_ele a b : elt a b -> ele a b.
Proof. destruct a, b; simpl; intros; try contradiction; auto. lra. Qed.
Lemma elt_not_ele a b : elt a b <-> ~ ele b a.
Proof. destruct a, b; simpl; split; intros; try tauto; lra. Qed.

Global Instance ele_proper : Proper (eeq ==> eeq ==> iff) ele.
Proof.
  intros a a' Ha b b' Hb; destruct a, a', b, b'; simpl in *; try tauto; split; intros; lra.
Qed.
Global Instance elt_proper : Proper (eeq ==> eeq ==> iff) elt.
Proof.
  intros a a' Ha b b' Hb; destruct a, a', b, b'; simpl in *; try tauto; split; intros; lra.
Qed.
Global Instance eadd_proper : Proper (eeq ==> eeq ==> eeq) eadd.
Proof.
  intros a a' Ha b b' Hb; destruct a, a', b, b'; simpl in *; try tauto; lra.
Qed.

Global Instance Fin_proper : Proper (Qeq ==> eeq) Fin.
Proof. intros x y H; exact H. Qed.

Lemma Qltb_iff x y : Qltb x y = true <-> (x < y)%Q.
Proof.
  unfold Qltb. destruct (Qle_bool y x) eqn:E; simpl.
  - apply Qle_bool_iff in E. split; [discriminate|lra].
  - split; [intros _|auto]. destruct (Qlt_le_dec x y) as [?|H]; auto.
    apply Qle_bool_iff in H. congruence.
Qed.
Lemma Qltb_false x y : Qltb x y = false <-> (y <= x)%Q.
Proof.
  destruct (Qltb x y) eqn:E.
  - apply Qltb_iff in E. split; [discriminate|lra].
  - split; [intros _|auto]. destruct (Qlt_le_dec x y) as [H|?]; auto.
    apply Qltb_iff in H. congruence.
Qed.
Lemma Qle_bool_false x y : Qle_bool x y = false <-> (y < x)%Q.
Proof.
  rewrite <- Qltb_iff. unfold Qltb. destruct (Qle_bool x y); simpl; split; congruence.
Qed.

Lemma eltb_iff a b : eltb a b = true <-> elt a b.
Proof.
  destruct a as [x|], b as [y|]; simpl; try (split; [discriminate|contradiction]); try tauto.
  apply (Qltb_iff x y).
Qed.
Lemma eltb_false a b : eltb a b = false <-> ele b a.
Proof.
  destruct a as [x|], b as [y|]; simpl; try tauto; try (split; [discriminate|contradiction]).
  apply (Qltb_false x y).
Qed.
Lemma eleb_iff a b : eleb a b = true <-> ele a b.
Proof.
  destruct a as [x|], b as [y|]; simpl; try tauto; try (split; [discriminate|contradiction]).
  apply Qle_bool_iff.
Qed.
Lemma eleb_false a b : eleb a b = false <-> elt b a.
Proof.
  destruct a as [x|], b as [y|]; simpl; try tauto; try (split; [discriminate|contradiction]).
  apply Qle_bool_false.
Qed.

Lemma eadd_assoc a b c : eeq (eadd a (eadd b c)) (eadd (eadd a b) c).
Proof. destruct a, b, c; simpl; auto. lra. Qed.
Lemma eadd_comm a b : eeq (eadd a b) (eadd b a).
Proof. destruct a, b; simpl; auto. lra. Qed.
Lemma eadd_0_l a : eeq (eadd (Fin 0) a) a.
Proof. destruct a; simpl; auto. lra. Qed.
Lemma eadd_0_r a : eeq (eadd a (Fin 0)) a.
Proof. destruct a; simpl; auto. lra. Qed.
Lemma eadd_mono a b c d : ele a c -> ele b d -> ele (eadd a b) (eadd c d).
Proof. destruct a, b, c, d; simpl; intros; try contradiction; auto. lra. Qed.
Lemma eadd_fin a b q : eadd a b = Fin q -> exists x y, a = Fin x /\ b = Fin y /\ q = (x + y)%Q.
Proof. destruct a, b; simpl; intros H; try discriminate. inversion H; eauto. Qed.
Lemma eadd_Inf_r a : eadd a Inf = Inf.
Proof. destruct a; reflexivity. Qed.
Lemma is_fin_ex a : is_fin a <-> exists q, a = Fin q.
Proof. destruct a; simpl; split; eauto; intros; try contradiction. destruct H; discriminate. Qed.
Lemma is_fin_eadd a b : is_fin (eadd a b) <-> is_fin a /\ is_fin b.
Proof. destruct a, b; simpl; tauto. Qed.
Lemma ele_fin a b : ele a b -> is_fin b -> is_fin a.
Proof. destruct a, b; simpl; tauto. Qed.
Lemma eeq_fin a b : eeq a b -> is_fin b -> is_fin a.
Proof. destruct a, b; simpl; tauto. Qed.

(** ** Outcomes *)
Lemma obind_Ok {A B} (m : outcome A) (k : A -> outcome B) b :
  obind m k = Ok b <-> exists a, m = Ok a /\ k a = Ok b.
Proof.
  destruct m; simpl; split; intros H; try discriminate; eauto.
  all: destruct H as (x & Hx & Hk); try discriminate. inversion Hx; subst; auto.
Qed.

(** ** Ranges *)
Lemma zrange_nil a b : b < a -> zrange a b = [].
Proof. intros H; unfold zrange. replace (Z.to_nat (b - a + 1)) with 0%nat by lia. reflexivity. Qed.

Lemma zrange_cons a b : a <= b -> zrange a b = a :: zrange (a + 1) b.
Proof.
  intros H; unfold zrange.
  replace (Z.to_nat (b - a + 1)) with (S (Z.to_nat (b - (a + 1) + 1))) by lia.
  cbn [seq map]. rewrite <- seq_shift, map_map. f_equal; [lia|].
  apply map_ext; intros i; lia.
Qed.

Lemma zrange_snoc a b : a <= b + 1 -> zrange a (b + 1) = zrange a b ++ [b + 1].
Proof.
  intros H; unfold zrange.
  replace (Z.to_nat (b + 1 - a + 1)) with (S (Z.to_nat (b - a + 1))) by lia.
  rewrite seq_S, map_app. cbn [map]. f_equal. f_equal. lia.
Qed.

Lemma zrange_In a b x : In x (zrange a b) <-> a <= x <= b.
Proof.
  unfold zrange. rewrite in_map_iff. split.
  - intros (i & <- & Hi). apply in_seq in Hi. lia.
  - intros H. exists (Z.to_nat (x - a)). split; [lia|]. apply in_seq. lia.
Qed.

Lemma zrange_length a b : length (zrange a b) = Z.to_nat (b - a + 1).
Proof. unfold zrange. rewrite map_length, seq_length. reflexivity. Qed.

(** ** Positive part *)
Lemma qpos_spec x : (qpos x == if Qltb x 0 then 0 else x)%Q.
Proof. reflexivity. Qed.

Lemma qpos_cases x : (0 <= x)%Q /\ (qpos x == x)%Q \/ (x <= 0)%Q /\ (qpos x == 0)%Q.
Proof.
  unfold qpos. destruct (Qltb x 0) eqn:E.
  - apply Qltb_iff in E. right; split; [lra|reflexivity].
  - apply Qltb_false in E. left; split; [lra|reflexivity].
Qed.

Global Instance qpos_proper : Proper (Qeq ==> Qeq) qpos.
Proof.
  intros x y H. destruct (qpos_cases x) as [[? ->]|[? ->]], (qpos_cases y) as [[? ->]|[? ->]]; lra.
Qed.

Lemma qpos_inject x : (qpos (inject_Z x) == inject_Z (zpos x))%Q.
Proof.
  unfold zpos. destruct (qpos_cases (inject_Z x)) as [[H ->]|[H ->]];
    change 0%Q with (inject_Z 0) in *; rewrite <- Zle_Qle in H.
  - rewrite Z.max_r by lia. reflexivity.
  - rewrite Z.max_l by lia. reflexivity.
Qed.

Lemma qpos_nonneg x : (0 <= qpos x)%Q.
Proof. destruct (qpos_cases x) as [[? ->]|[? ->]]; lra. Qed.

Lemma access_spec {A} (xs : list A) (i : Z) x :
  access xs i = Some x <-> 1 <= i /\ nth_error xs (Z.to_nat (i - 1)) = Some x.
Proof.
  unfold access. destruct (1 <=? i) eqn:E1; simpl.
  - destruct (i <=? Z.of_nat (length xs)) eqn:E2.
    + split; [split; [lia|auto]|tauto].
    + split; [discriminate|]. intros [_ H].
      assert (Z.to_nat (i - 1) < length xs)%nat by (apply nth_error_Some; congruence). lia.
  - split; [discriminate|lia].
Qed.

Lemma Qsum_app a b : (Qsum (a ++ b) == Qsum a + Qsum b)%Q.
Proof. induction a as [|x a IH]; simpl; [lra|]. rewrite IH. lra. Qed.
