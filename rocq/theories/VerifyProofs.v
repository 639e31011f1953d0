(** Proofs about verifiers and index encodings. *)
From Coq Require Import Lia Lqa.
From Verif Require Import NumLemmas VerifyModel VerifySpec CostSpec.
Local Open Scope Z_scope.

(** [m] accepts exactly when [P] holds and rejects otherwise. *)
Definition decides (m : outcome unit) (P : Prop) : Prop :=
  (P -> m = Ok tt) /\ (~ P -> m = Err Invalid) /\ (P \/ ~ P).

Lemma decides_assert : forall b (P : Prop), (b = true <-> P) -> decides (assert_validity b) P.
Proof.
  intros [|] P H; repeat split; intros; try reflexivity.
  - exfalso. apply H0, H. reflexivity.
  - left. apply H. reflexivity.
  - apply H in H0. discriminate.
  - right. intro HP. apply H in HP. discriminate.
Qed.

Lemma decides_seq : forall m k (P R : Prop),
  decides m P -> (P -> decides k R) -> decides (do _ <- m; k) (P /\ R).
Proof.
  intros m k P R (H1 & H2 & [HP|HP]) Hk.
  - rewrite (H1 HP). destruct (Hk HP) as (K1 & K2 & K3). simpl. repeat split.
    + intros [_ HR]; auto.
    + intros HN. apply K2. intro. apply HN; auto.
    + destruct K3; [left|right]; tauto.
  - rewrite (H2 HP). simpl. repeat split; try tauto. 
Qed.

Lemma decides_iff : forall m (P R : Prop), (P <-> R) -> decides m P -> decides m R.
Proof. intros m P R H (A & B & C). repeat split; try tauto. Qed.

Lemma decides_for : forall {A} (l : list A) body (P : A -> Prop),
  (forall a, In a l -> decides (body a) (P a)) -> decides (for_each l body) (Forall P l).
Proof.
  induction l as [|a l IH]; intros body P H; simpl.
  - repeat split; intros; auto. exfalso. auto.
  - eapply decides_iff; [symmetry; apply Forall_cons_iff|].
    apply decides_seq; [apply H; left; reflexivity|]. intros _. apply IH. intros b Hb. apply H. right. exact Hb.
Qed.

Lemma decides_true : decides (Ok tt) True.
Proof. repeat split; tauto. Qed.

Lemma index_some : forall {A} (l : list A) k, (k < length l)%nat -> exists a, nth_error l k = Some a /\ index l k = Ok a.
Proof.
  intros A l k H. destruct (nth_error l k) eqn:E.
  - exists a. unfold index. rewrite E. auto.
  - apply nth_error_None in E. lia.
Qed.

Lemma Qle_bool_P : forall a b, Qle_bool a b = true <-> (a <= b)%Q.
Proof. intros. apply Qle_bool_iff. Qed.
Lemma Qltb_P : forall a b, Qltb a b = true <-> (a < b)%Q.
Proof.
  intros. unfold Qltb. rewrite negb_true_iff. destruct (Qle_bool b a) eqn:E.
  - apply Qle_bool_iff in E. split; [discriminate|lra].
  - split; [intros _|reflexivity]. apply Qnot_le_lt. intro H. apply Qle_bool_iff in H. congruence.
Qed.

Lemma Forall_seq : forall n (P : nat -> Prop),
  Forall P (seq 0 n) <-> (forall k, (k < n)%nat -> P k).
Proof.
  intros n P. rewrite Forall_forall. split; intros H k Hk.
  - apply H, in_seq. lia.
  - apply H. apply in_seq in Hk. lia.
Qed.

Lemma Forall_nth_error : forall {A} (P : A -> Prop) l,
  Forall P l <-> (forall k a, (k < length l)%nat -> nth_error l k = Some a -> P a).
Proof.
  intros A P l. rewrite Forall_forall. split; intros H.
  - intros k a _ E. apply H. eapply nth_error_In, E.
  - intros a Ha. apply In_nth_error in Ha as [k Hk]. apply (H k a); [|exact Hk].
    apply nth_error_Some. congruence.
Qed.

Section Proofs.
  Context {T : Type}.
  Variable v : value T.

  Lemma header_decides : forall d t_end (bounds : list T) switching,
    decides (verify_header d t_end bounds switching)
      (0 < d /\ 0 <= t_end /\ Z.of_nat (length bounds) = d /\ Z.of_nat (length switching) = d).
  Proof.
    intros. unfold verify_header.
    apply decides_seq; [apply decides_assert; lia|]. intros Hd.
    apply decides_seq; [apply decides_assert; lia|]. intros Ht.
    apply decides_seq; [apply decides_assert; rewrite Nat.eqb_eq; lia|]. intros Hb.
    apply decides_assert; rewrite Nat.eqb_eq; lia.
  Qed.

  Lemma dimension_decides : forall (bounds : list T) switching k b s,
    nth_error bounds k = Some b -> nth_error switching k = Some s ->
    decides (verify_dimension v bounds switching k) (is_positive v b /\ (0 < s)%Q).
  Proof.
    intros bounds switching k b s Hb Hs. unfold verify_dimension, index. rewrite Hb, Hs. simpl.
    apply decides_seq; [apply decides_assert; apply Qltb_P|]. intros _. apply decides_assert; apply Qltb_P.
  Qed.

  Lemma dims_decides : forall d (bounds : list T) switching,
    length bounds = d -> length switching = d ->
    decides (for_each (seq 0 d) (verify_dimension v bounds switching))
      (Forall (is_positive v) bounds /\ Forall (fun b => 0 < b)%Q switching).
  Proof.
    intros d bounds switching Hb Hs.
    apply decides_iff with (P := Forall (fun k => forall b s, nth_error bounds k = Some b ->
        nth_error switching k = Some s -> is_positive v b /\ (0 < s)%Q) (seq 0 d)).
    - rewrite Forall_seq, !Forall_nth_error. rewrite Hb, Hs. split.
      + intros H. split; intros k a Hk Ha.
        * destruct (index_some switching k) as (s & Es & _); [lia|]. apply (H k Hk a s Ha Es).
        * destruct (index_some bounds k) as (b & Eb & _); [lia|]. apply (H k Hk b a Eb Ha).
      + intros [H1 H2] k Hk b s Eb Es. split; eauto.
    - apply decides_for. intros k Hk. apply in_seq in Hk.
      destruct (index_some bounds k) as (b & Eb & _); [lia|].
      destruct (index_some switching k) as (s & Es & _); [lia|].
      eapply decides_iff; [|apply dimension_decides; eassumption].
      split; [|intros H; apply H; assumption]. intros H b' s' Hb' Hs'. congruence.
  Qed.

  Lemma base_decides : forall d t_end (bounds : list T) switching,
    decides (do _ <- verify_header d t_end bounds switching;
             for_each (seq 0 (Z.to_nat d)) (verify_dimension v bounds switching))
      (well_formed_base v d t_end bounds switching).
  Proof.
    intros. eapply decides_iff; [|apply decides_seq; [apply header_decides|]].
    2:{ intros H. apply dims_decides; lia. }
    unfold well_formed_base. tauto.
  Qed.

  Lemma loads_decides : forall t_end (load : list T),
    0 <= t_end -> t_end <= Z.of_nat (length load) ->
    decides (verify_loads v load t_end)
      (forall t l, 1 <= t <= t_end -> access load t = Some l -> is_nonnegative v l).
  Proof.
    intros t_end load H0 Hl. unfold verify_loads.
    apply decides_iff with (P := Forall (fun k => forall l, nth_error load k = Some l -> is_nonnegative v l)
                                        (seq 0 (Z.to_nat t_end))).
    - rewrite Forall_seq. split.
      + intros H t l Ht. unfold access.
        replace ((1 <=? t) && (t <=? Z.of_nat (length load))) with true
          by (symmetry; apply andb_true_iff; split; apply Z.leb_le; lia).
        intros E. apply (H (Z.to_nat (t - 1))); [lia|exact E].
      + intros H k Hk l E. apply (H (Z.of_nat k + 1) l); [lia|]. unfold access.
        replace ((1 <=? Z.of_nat k + 1) && (Z.of_nat k + 1 <=? Z.of_nat (length load))) with true
          by (symmetry; apply andb_true_iff; split; apply Z.leb_le; lia).
        replace (Z.to_nat (Z.of_nat k + 1 - 1)) with k by lia. exact E.
    - apply decides_for. intros k Hk. apply in_seq in Hk.
      destruct (index_some load k) as (l & El & Ei); [lia|]. rewrite Ei. simpl.
      eapply decides_iff; [|apply decides_assert; apply Qle_bool_P].
      split; [intros H l' E; assert (l' = l) by congruence; subst; exact H|intros H; apply H, El].
  Qed.

  Theorem sco_verify : forall {C D} (p : gsco T C D), decides (verify_sco p) (well_formed_sco p).
  Proof.
    intros. unfold verify_sco, well_formed_sco.
    apply decides_seq; [apply decides_assert; lia|]. intros Hd.
    apply decides_seq; [apply decides_assert; lia|]. intros Ht.
    apply decides_assert; rewrite Nat.eqb_eq; lia.
  Qed.

  Theorem ssco_verify : forall {C D} (p : gssco T C D), decides (verify_ssco v p) (well_formed_ssco v p).
  Proof. intros. apply base_decides. Qed.

  Theorem sblo_verify : forall (p : gsblo T), decides (verify_sblo v p) (well_formed_sblo v p).
  Proof.
    intros p. unfold verify_sblo, well_formed_sblo, well_formed_loads, well_formed_base.
    eapply decides_iff; [|apply decides_seq; [apply header_decides|]].
    2:{ intros (Hd & Ht & Hb & Hs).
        apply decides_seq with (P := b_tend p <= Z.of_nat (length (b_load p)))
          (R := (Forall (is_positive v) (b_bounds p) /\ Forall (fun b => 0 < b)%Q (b_switching p)) /\
                (forall t l, 1 <= t <= b_tend p -> access (b_load p) t = Some l -> is_nonnegative v l)).
        - apply decides_assert. rewrite Nat.leb_le. lia.
        - intros Hl. apply decides_seq; [apply dims_decides; lia|]. intros _. apply loads_decides; lia. }
    simpl. tauto.
  Qed.

  (** Consecutive comparisons give comparisons of all pairs. *)
  Lemma descending_iff : forall l,
    strictly_descending l <->
    (forall k a b, (1 <= k < length l)%nat -> nth_error l k = Some a -> nth_error l (k - 1) = Some b -> (a < b)%Q).
  Proof.
    intros l. split.
    - intros H k a b Hk Ha Hb. apply (H (k - 1)%nat k); [lia|exact Hb|exact Ha].
    - intros H i j. induction j as [|j IH]; intros a b Hij Ha Hb; [lia|].
      assert (Hj : (S j < length l)%nat) by (apply nth_error_Some; congruence).
      destruct (index_some l j) as (c & Ec & _); [lia|].
      assert (Hcb : (b < c)%Q).
      { apply (H (S j)); [lia|exact Hb|]. replace (S j - 1)%nat with j by lia. exact Ec. }
      destruct (Nat.eq_dec i j) as [->|]; [assert (a = c) by congruence; subst; exact Hcb|].
      assert (c < a)%Q by (apply IH; [lia|exact Ha|exact Ec]). lra.
  Qed.

  Lemma ascending_iff : forall l,
    strictly_ascending l <->
    (forall k a b, (1 <= k < length l)%nat -> nth_error l k = Some a -> nth_error l (k - 1) = Some b -> (b < a)%Q).
  Proof.
    intros l. split.
    - intros H k a b Hk Ha Hb. apply (H (k - 1)%nat k); [lia|exact Hb|exact Ha].
    - intros H i j. induction j as [|j IH]; intros a b Hij Ha Hb; [lia|].
      assert (Hj : (S j < length l)%nat) by (apply nth_error_Some; congruence).
      destruct (index_some l j) as (c & Ec & _); [lia|].
      assert (Hcb : (c < b)%Q).
      { apply (H (S j)); [lia|exact Hb|]. replace (S j - 1)%nat with j by lia. exact Ec. }
      destruct (Nat.eq_dec i j) as [->|]; [assert (a = c) by congruence; subst; exact Hcb|].
      assert (a < c)%Q by (apply IH; [lia|exact Ha|exact Ec]). lra.
  Qed.

  Lemma slo_dims_decides : forall (p : gslo T) d,
    d = Z.to_nat (l_d p) ->
    length (l_bounds p) = d -> length (l_switching p) = d -> length (l_hitting p) = d ->
    decides (for_each (seq 0 d) (fun k =>
      do _ <- verify_dimension v (l_bounds p) (l_switching p) k;
      do hk <- index (l_hitting p) k;
      do _ <- assert_validity (Qle_bool 0 hk);
      for_each (seq 0 d) (fun l =>
        if (k =? l)%nat then Ok tt else
        do hl <- index (l_hitting p) l;
        if Qle_bool hl hk then
          do sk <- index (l_switching p) k;
          do sl <- index (l_switching p) l;
          assert_validity (negb (Qle_bool sl sk))
        else Ok tt)))
     ((Forall (is_positive v) (l_bounds p) /\ Forall (fun b => 0 < b)%Q (l_switching p)) /\
      Forall (fun c => 0 <= c)%Q (l_hitting p) /\ efficient (l_hitting p) (l_switching p)).
  Proof.
    intros p d Hd Hb Hs Hh.
    apply decides_iff with (P := Forall (fun k => forall b s h,
        nth_error (l_bounds p) k = Some b -> nth_error (l_switching p) k = Some s ->
        nth_error (l_hitting p) k = Some h ->
        (is_positive v b /\ (0 < s)%Q) /\ (0 <= h)%Q /\
        Forall (fun l => forall sl hl, k <> l -> nth_error (l_switching p) l = Some sl ->
           nth_error (l_hitting p) l = Some hl -> (h < hl)%Q \/ (s < sl)%Q) (seq 0 d)) (seq 0 d)).
    - rewrite Forall_seq, !Forall_nth_error, Hb, Hs, Hh. split.
      + intros H. split; [split|split].
        * intros k a Hk Ha. destruct (index_some (l_switching p) k) as (s & Es & _); [lia|].
          destruct (index_some (l_hitting p) k) as (h & Eh & _); [lia|].
          apply (H k Hk a s h Ha Es Eh).
        * intros k a Hk Ha. destruct (index_some (l_bounds p) k) as (b & Eb & _); [lia|].
          destruct (index_some (l_hitting p) k) as (h & Eh & _); [lia|].
          apply (H k Hk b a h Eb Ha Eh).
        * intros k a Hk Ha. destruct (index_some (l_bounds p) k) as (b & Eb & _); [lia|].
          destruct (index_some (l_switching p) k) as (s & Es & _); [lia|].
          apply (H k Hk b s a Eb Es Ha).
        * intros k l hk hl sk sl Hkl Ehk Ehl Esk Esl.
          assert (Hk : (k < d)%nat) by (rewrite <- Hh; apply nth_error_Some; congruence).
          assert (Hl : (l < d)%nat) by (rewrite <- Hh; apply nth_error_Some; congruence).
          destruct (index_some (l_bounds p) k) as (b & Eb & _); [lia|].
          destruct (H k Hk b sk hk Eb Esk Ehk) as (_ & _ & HF). rewrite Forall_seq in HF.
          apply (HF l Hl sl hl Hkl Esl Ehl).
      + intros ((H1 & H2) & H3 & H4) k Hk b s h Eb Es Eh. split; [split; eauto|]. split; [eauto|].
        rewrite Forall_seq. intros l Hl sl hl Hkl Esl Ehl. apply (H4 k l h hl s sl Hkl Eh Ehl Es Esl).
    - apply decides_for. intros k Hk. apply in_seq in Hk.
      destruct (index_some (l_bounds p) k) as (b & Eb & _); [lia|].
      destruct (index_some (l_switching p) k) as (s & Es & Eis); [lia|].
      destruct (index_some (l_hitting p) k) as (h & Eh & Eih); [lia|].
      rewrite Eih. simpl.
      apply decides_iff with (P := (is_positive v b /\ (0 < s)%Q) /\ (0 <= h)%Q /\
        Forall (fun l => forall sl hl, k <> l -> nth_error (l_switching p) l = Some sl ->
           nth_error (l_hitting p) l = Some hl -> (h < hl)%Q \/ (s < sl)%Q) (seq 0 d)).
      { split; [|intros H; apply H; assumption].
        intros H b' s' h' E1 E2 E3. assert (b' = b) by congruence. assert (s' = s) by congruence.
        assert (h' = h) by congruence. subst. exact H. }
      apply decides_seq; [apply dimension_decides; assumption|]. intros _.
      apply decides_seq; [apply decides_assert, Qle_bool_P|]. intros _.
      apply decides_for. intros l Hl. apply in_seq in Hl.
      destruct (Nat.eqb_spec k l) as [->|Hkl].
      { eapply decides_iff; [|apply decides_true]. split; [intros _ sl hl Hn; congruence|tauto]. }
      destruct (index_some (l_switching p) l) as (sl & Esl & Eisl); [lia|].
      destruct (index_some (l_hitting p) l) as (hl & Ehl & Eihl); [lia|].
      rewrite Eihl. simpl.
      apply decides_iff with (P := (h < hl)%Q \/ (s < sl)%Q).
      { split; [|intros H; apply H; assumption].
        intros H sl' hl' _ E1 E2. assert (sl' = sl) by congruence. assert (hl' = hl) by congruence. subst. exact H. }
      destruct (Qle_bool hl h) eqn:E.
      + rewrite Eis, Eisl. simpl. apply Qle_bool_P in E.
        eapply decides_iff; [|apply decides_assert; fold (Qltb s sl); apply Qltb_P].
        split; [tauto|]. intros [H|H]; [lra|exact H].
      + eapply decides_iff; [|apply decides_true].
        split; [|tauto]. intros _. left. apply Qnot_le_lt. intro H. apply Qle_bool_P in H. congruence.
  Qed.

  Theorem slo_verify : forall (p : gslo T),
    Z.of_nat (length (l_hitting p)) = l_d p -> decides (verify_slo v p) (well_formed_slo v p).
  Proof.
    intros p Hh. unfold verify_slo, well_formed_slo, well_formed_loads, well_formed_base.
    eapply decides_iff; [|apply decides_seq; [apply header_decides|]].
    2:{ intros (Hd & Ht & Hb & Hs).
        apply decides_seq with (P := l_tend p <= Z.of_nat (length (l_load p)))
          (R := ((Forall (is_positive v) (l_bounds p) /\ Forall (fun b => 0 < b)%Q (l_switching p)) /\
                 Forall (fun c => 0 <= c)%Q (l_hitting p) /\ efficient (l_hitting p) (l_switching p)) /\
                (strictly_descending (l_hitting p) /\ strictly_ascending (l_switching p)) /\
                (forall t l, 1 <= t <= l_tend p -> access (l_load p) t = Some l -> is_nonnegative v l)).
        - apply decides_assert. rewrite Nat.leb_le. lia.
        - intros Hl. apply decides_seq; [apply slo_dims_decides; lia|]. intros _.
          apply decides_seq; [|intros _; apply loads_decides; lia].
          apply decides_iff with (P := Forall (fun k => forall hk hp sk sp,
            nth_error (l_hitting p) k = Some hk -> nth_error (l_hitting p) (k - 1) = Some hp ->
            nth_error (l_switching p) k = Some sk -> nth_error (l_switching p) (k - 1) = Some sp ->
            (hk < hp)%Q /\ (sp < sk)%Q) (seq 1 (Z.to_nat (l_d p) - 1))).
          + rewrite descending_iff, ascending_iff, Forall_forall. split.
            * intros H. split; intros k a b Hk Ea Eb;
                (assert (Hin : In k (seq 1 (Z.to_nat (l_d p) - 1))) by (apply in_seq; lia)).
              -- destruct (index_some (l_switching p) k) as (s & Es & _); [lia|].
                 destruct (index_some (l_switching p) (k - 1)) as (s' & Es' & _); [lia|].
                 apply (H k Hin a b s s'); assumption.
              -- destruct (index_some (l_hitting p) k) as (s & Es & _); [lia|].
                 destruct (index_some (l_hitting p) (k - 1)) as (s' & Es' & _); [lia|].
                 apply (H k Hin s s' a b); assumption.
            * intros [H1 H2] k Hk hk hp sk sp E1 E2 E3 E4. apply in_seq in Hk.
              split; [apply (H1 k); [lia|assumption..]|apply (H2 k); [lia|assumption..]].
          + apply decides_for. intros k Hk. apply in_seq in Hk.
            destruct (index_some (l_hitting p) k) as (hk & E1 & I1); [lia|].
            destruct (index_some (l_hitting p) (k - 1)) as (hp & E2 & I2); [lia|].
            destruct (index_some (l_switching p) k) as (sk & E3 & I3); [lia|].
            destruct (index_some (l_switching p) (k - 1)) as (sp & E4 & I4); [lia|].
            rewrite I1, I2. simpl.
            apply decides_iff with (P := (hk < hp)%Q /\ (sp < sk)%Q).
            { split; [|intros H; apply H; assumption].
              intros H a b c d A B C' D'. assert (a = hk) by congruence. assert (b = hp) by congruence.
              assert (c = sk) by congruence. assert (d = sp) by congruence. subst. exact H. }
            apply decides_seq; [apply decides_assert, Qltb_P|]. intros _.
            rewrite I3, I4. simpl. apply decides_assert, Qltb_P. }
    simpl. tauto.
  Qed.

  Theorem online_verify : forall w m (P : Prop),
    decides m P -> decides (verify_online w m) (0 <= w /\ P).
  Proof. intros. apply decides_seq; [apply decides_assert; lia|]. intros _. exact H. Qed.

  (** *** Schedules *)
  Lemma config_decides_from : forall bounds x k0,
    (k0 + length x <= length bounds)%nat ->
    decides (for_each (combine (seq k0 (length x)) x) (fun kj =>
        do _ <- assert_validity (v_nonneg v (snd kj));
        do u <- index bounds (fst kj);
        assert_validity (v_leb v (snd kj) u)))
      (Forall2 (fun u j => (0 <= v_toQ v j <= v_toQ v u)%Q) (firstn (length x) (skipn k0 bounds)) x).
  Proof.
    intros bounds x. induction x as [|j x IH]; intros k0 Hk; simpl.
    - simpl. repeat split; intros; try constructor; auto. exfalso. apply H. constructor.
    - simpl in Hk.
      destruct (index_some bounds k0) as (u & Eu & Iu); [lia|]. rewrite Iu. simpl.
      assert (Hsk : skipn k0 bounds = u :: skipn (S k0) bounds).
      { clear - Eu. revert k0 Eu. induction bounds as [|b bs IHb]; intros [|k0] E; simpl in *; try discriminate.
        - injection E as <-. reflexivity.
        - apply IHb, E. }
      rewrite Hsk.
      apply decides_iff with (P := ((0 <= v_toQ v j)%Q /\ (v_toQ v j <= v_toQ v u)%Q) /\
        Forall2 (fun u j => (0 <= v_toQ v j <= v_toQ v u)%Q) (firstn (length x) (skipn (S k0) bounds)) x).
      { split; [intros [H1 H2]; constructor; assumption|]. intros H. inversion H; subst. split; assumption. }
      apply decides_seq; [|intros _; apply IH; lia].
      apply decides_seq; [apply decides_assert, Qle_bool_P|]. intros _. apply decides_assert, Qle_bool_P.
  Qed.

  Lemma config_verify : forall bounds x, length x = length bounds ->
    decides (verify_config v bounds x) (in_box v bounds x).
  Proof.
    intros bounds x H. unfold verify_config, in_box.
    pose proof (config_decides_from bounds x 0) as D. simpl in D. rewrite H, firstn_all in D.
    rewrite H. apply D. lia.
  Qed.

  Theorem schedule_verify : forall t_end bounds xs,
    Forall (fun x => length x = length bounds) xs ->
    decides (verify_schedule v t_end bounds xs) (feasible v t_end bounds xs).
  Proof.
    intros t_end bounds xs H. unfold verify_schedule, feasible.
    apply decides_seq; [apply decides_assert; lia|]. intros _.
    apply decides_for. intros x Hx. apply config_verify. rewrite Forall_forall in H. auto.
  Qed.

  (** Whatever the dimensions: an accepted schedule has the right length and every entry
      is within the bound of its position. *)
  Lemma for_each_ok : forall {A} (l : list A) body, for_each l body = Ok tt -> Forall (fun a => body a = Ok tt) l.
  Proof.
    induction l as [|a l IH]; intros body H; simpl in *; [constructor|].
    destruct (body a) as [[]|f|] eqn:E; simpl in H; try discriminate. constructor; auto.
  Qed.

  Theorem schedule_accepted : forall t_end bounds xs,
    verify_schedule v t_end bounds xs = Ok tt ->
    Z.of_nat (length xs) = t_end /\
    Forall (fun x => (length x <= length bounds)%nat /\ in_box v (firstn (length x) bounds) x) xs.
  Proof.
    intros t_end bounds xs H. unfold verify_schedule in H.
    destruct (Z.of_nat (length xs) =? t_end) eqn:E; [|discriminate]. simpl in H.
    split; [lia|]. apply for_each_ok in H. rewrite Forall_forall in *. intros x Hx.
    specialize (H x Hx). unfold verify_config in H.
    assert (Hlen : (length x <= length bounds)%nat).
    { apply for_each_ok in H. destruct (Nat.le_gt_cases (length x) (length bounds)) as [|Hgt]; [assumption|].
      exfalso. destruct (index_some x (length bounds) Hgt) as (j & Ej & _).
      assert (Hin : In (length bounds, j) (combine (seq 0 (length x)) x)).
      { apply nth_error_In with (n := length bounds).
        clear - Ej Hgt. revert Ej Hgt. generalize (length bounds) as n.
        assert (G : forall (x : list T) n k0, nth_error x n = Some j -> (n < length x)%nat ->
                  nth_error (combine (seq k0 (length x)) x) n = Some ((k0 + n)%nat, j)).
        { clear. induction x as [|a x IH]; intros n k0 E H; simpl in *; [lia|].
          destruct n as [|n]; simpl in *; [injection E as ->; f_equal; f_equal; lia|].
          rewrite (IH n (S k0) E) by lia. f_equal. f_equal. lia. }
        intros n E H. apply (G x n 0%nat E H). }
      rewrite Forall_forall in H. specialize (H _ Hin). simpl in H.
      destruct (v_nonneg v j); simpl in H; [|discriminate].
      unfold index in H. rewrite (proj2 (nth_error_None bounds (length bounds))) in H by lia. discriminate. }
    split; [exact Hlen|].
    destruct (config_decides_from bounds x 0) as (D1 & D2 & D3); [simpl; lia|]. simpl in *.
    destruct D3 as [D3|D3]; [exact D3|]. rewrite (D2 D3) in H. discriminate.
  Qed.
End Proofs.

(** *** Encodings *)
Theorem parse_encode : forall n outer inner, (inner < n)%nat -> parse n (encode n outer inner) = Ok (outer, inner).
Proof.
  intros n outer inner H. unfold parse, encode. destruct n as [|n]; [lia|].
  assert (E : ((outer * S n + inner) / S n)%nat = outer).
  { rewrite Nat.add_comm, Nat.div_add by lia. rewrite Nat.div_small by lia. lia. }
  rewrite E. f_equal. f_equal. lia.
Qed.

Theorem encode_parse : forall n m i outer inner, parse n i = Ok (outer, inner) -> (i < m * n)%nat ->
  encode n outer inner = i /\ (outer < m)%nat /\ (inner < n)%nat.
Proof.
  intros n m i outer inner H Hi. unfold parse, encode in *. destruct n as [|n]; [discriminate|].
  injection H as Ho Hin. 
  assert (Hd := Nat.div_mod i (S n)). assert (Hm := Nat.mod_upper_bound i (S n)).
  change (fst (Nat.divmod i n 0 n)) with (i / S n)%nat in *. 
  assert (Hod : (i / S n < m)%nat) by (apply Nat.div_lt_upper_bound; lia).
  assert (outer = i / S n)%nat as -> by (symmetry; exact Ho). clear Ho.
  repeat split; nia.
Qed.

Theorem parse_total : forall n i, (0 < n)%nat -> exists outer inner, parse n i = Ok (outer, inner).
Proof. intros [|n] i H; [lia|]. eexists. eexists. reflexivity. Qed.

Theorem parse_zero : forall i, parse 0 i = Panic.
Proof. reflexivity. Qed.

Theorem encode_range : forall n m outer inner, (outer < m)%nat -> (inner < n)%nat -> (encode n outer inner < m * n)%nat.
Proof. intros. unfold encode. nia. Qed.

(** *** The form used by the property theorems *)
Lemma decides_out : forall m P, decides m P -> (m = Ok tt <-> P) /\ (m = Ok tt \/ m = Err Invalid).
Proof.
  intros m P (H1 & H2 & [H|H]).
  - split; [split; auto|left; auto].
  - split; [split; [intros E; rewrite (H2 H) in E; discriminate|contradiction]|right; auto].
Qed.

Lemma sco_verified : forall (T C D : Type) (p : gsco T C D),
  (verify_sco p = Ok tt <-> well_formed_sco p) /\ (verify_sco p = Ok tt \/ verify_sco p = Err Invalid).
Proof. intros. apply decides_out, sco_verify. Qed.

Lemma ssco_verified : forall (T C D : Type) (v : value T) (p : gssco T C D),
  (verify_ssco v p = Ok tt <-> well_formed_ssco v p) /\
  (verify_ssco v p = Ok tt \/ verify_ssco v p = Err Invalid).
Proof. intros. apply decides_out, ssco_verify. Qed.

Lemma sblo_verified : forall (T : Type) (v : value T) (p : gsblo T),
  (verify_sblo v p = Ok tt <-> well_formed_sblo v p) /\
  (verify_sblo v p = Ok tt \/ verify_sblo v p = Err Invalid).
Proof. intros. apply decides_out, sblo_verify. Qed.

Lemma slo_verified : forall (T : Type) (v : value T) (p : gslo T),
  Z.of_nat (length (l_hitting p)) = l_d p ->
  (verify_slo v p = Ok tt <-> well_formed_slo v p) /\
  (verify_slo v p = Ok tt \/ verify_slo v p = Err Invalid).
Proof. intros. apply decides_out, slo_verify; auto. Qed.

Lemma online_verified : forall (T C D : Type) (v : value T) (p : gssco T C D) (q : gsblo T) (w : Z),
  (verify_online w (verify_ssco v p) = Ok tt <-> 0 <= w /\ well_formed_ssco v p) /\
  (verify_online w (verify_ssco v p) = Ok tt \/ verify_online w (verify_ssco v p) = Err Invalid) /\
  (verify_online w (verify_sblo v q) = Ok tt <-> 0 <= w /\ well_formed_sblo v q) /\
  (verify_online w (verify_sblo v q) = Ok tt \/ verify_online w (verify_sblo v q) = Err Invalid).
Proof.
  intros. destruct (decides_out _ _ (online_verify w _ _ (ssco_verify v p))) as [A B].
  destruct (decides_out _ _ (online_verify w _ _ (sblo_verify v q))) as [A' B']. auto.
Qed.

Lemma schedule_verified : forall (T : Type) (v : value T) (t_end : Z) (bounds : list T) (xs : list (list T)),
  Forall (fun x => length x = length bounds) xs ->
  (verify_schedule v t_end bounds xs = Ok tt <-> feasible v t_end bounds xs) /\
  (verify_schedule v t_end bounds xs = Ok tt \/ verify_schedule v t_end bounds xs = Err Invalid).
Proof. intros. apply decides_out, schedule_verify; auto. Qed.

Lemma encoding_bijection : forall n m : nat,
  (forall outer inner, (outer < m)%nat -> (inner < n)%nat ->
     (encode n outer inner < m * n)%nat /\ parse n (encode n outer inner) = Ok (outer, inner)) /\
  (forall i, (i < m * n)%nat -> exists outer inner,
     parse n i = Ok (outer, inner) /\ (outer < m)%nat /\ (inner < n)%nat /\ encode n outer inner = i).
Proof.
  intros n m. split.
  - intros. split; [apply encode_range; auto|apply parse_encode; auto].
  - intros i Hi. destruct (parse_total n i) as (o & k & E); [destruct n; lia|].
    exists o, k. destruct (encode_parse n m i o k E Hi) as (A & B & C). auto.
Qed.
