(** Proofs about cost functions that arrive over time and decision spaces. *)
From Verif Require Import NumLemmas CostSpec.
Local Open Scope Z_scope.

Section Map.
  Context {X C D : Type}.
  Notation F := (single_fn X C D).

  (** Keys are strictly increasing. *)
  Fixpoint sorted_keys (m : cost_fn X C D) : Prop :=
    match m with
    | [] => True
    | (k, _) :: r => (forall k' f', In (k', f') r -> k < k') /\ sorted_keys r
    end.

  Lemma bt_insert_In k (f : F) (m : cost_fn X C D) : forall k' f', In (k', f') (bt_insert k f m) -> (k', f') = (k, f) \/ In (k', f') m.
  Proof.
    induction m as [|(k0, f0) r IH]; simpl; intros k' f' H.
    - destruct H as [H|[]]; auto.
    - destruct (k <? k0) eqn:E1; [|destruct (k =? k0) eqn:E2].
      + destruct H as [H|H]; auto.
      + destruct H as [H|H]; auto.
      + destruct H as [H|H]; auto. apply IH in H. tauto.
  Qed.

  Lemma bt_insert_sorted k (f : F) (m : cost_fn X C D) : sorted_keys m -> sorted_keys (bt_insert k f m).
  Proof.
    induction m as [|(k0, f0) r IH]; simpl; intros H.
    - split; [intros ? ? []|exact I].
    - destruct H as [H1 H2]. destruct (k <? k0) eqn:E1; [|destruct (k =? k0) eqn:E2].
      + simpl. split; [|tauto]. intros k' f' [H|H].
        * inversion H; subst. lia.
        * apply H1 in H. lia.
      + simpl. split; auto. intros k' f' H. apply H1 in H. lia.
      + simpl. split; auto. intros k' f' H. apply bt_insert_In in H. destruct H as [H|H].
        * inversion H; subst. lia.
        * eauto.
  Qed.

  (** Lookup of a single key. *)
  Definition at_key (m : cost_fn X C D) (k : Z) (f : F) : Prop := In (k, f) m.

  Lemma bt_insert_at k (f : F) (m : cost_fn X C D) : sorted_keys m ->
    forall k' f', at_key (bt_insert k f m) k' f' <-> (k' = k /\ f' = f) \/ (k' <> k /\ at_key m k' f').
  Proof.
    unfold at_key. induction m as [|(k0, f0) r IH]; simpl; intros Hs k' f'.
    - split.
      + intros [H|[]]. inversion H; auto.
      + intros [[-> ->]|[_ []]]. auto.
    - destruct Hs as [H1 H2]. destruct (k <? k0) eqn:E1; [|destruct (k =? k0) eqn:E2]; simpl.
      + split.
        * intros [H|[H|H]].
          -- inversion H; auto.
          -- inversion H; subst. right. split; [lia|auto].
          -- right. split; [|auto]. apply H1 in H. lia.
        * intros [[-> ->]|[Hn [H|H]]]; auto.
      + assert (k = k0) by lia. subst k0. split.
        * intros [H|H].
          -- inversion H; auto.
          -- right. split; [|auto]. apply H1 in H. lia.
        * intros [[-> ->]|[Hn [H|H]]]; auto. inversion H; subst. contradiction.
      + rewrite (IH H2). split.
        * intros [H|[H|[Hn H]]]; auto. inversion H; subst. right. split; [lia|auto].
        * intros [[-> ->]|[Hn [H|H]]]; auto.
  Qed.

  Lemma last_filter (m : cost_fn X C D) (P : Z * F -> bool) : sorted_keys m ->
    match last (map Some (filter P m)) None with
    | Some (k, f) => In (k, f) m /\ P (k, f) = true /\
        (forall k' f', In (k', f') m -> P (k', f') = true -> k' <= k)
    | None => forall k' f', In (k', f') m -> P (k', f') = false
    end.
  Proof.
    induction m as [|(k0, f0) r IH]; simpl; intros Hs.
    - intros ? ? [].
    - destruct Hs as [H1 H2]. specialize (IH H2).
      destruct (P (k0, f0)) eqn:E; simpl.
      + destruct (map Some (filter P r)) as [|o l] eqn:El.
        * simpl in IH. repeat split; auto. intros k' f' [H|H] HP.
          -- inversion H; subst. lia.
          -- rewrite (IH _ _ H) in HP. discriminate.
        * destruct (last (o :: l) None) as [(k, f)|] eqn:Elast.
          -- destruct IH as (I1 & I2 & I3). repeat split; auto.
             intros k' f' [H|H] HP; [|eauto]. inversion H; subst.
             apply H1 in I1. lia.
          -- exfalso. clear -El Elast.
             assert (forall q : list (Z * F), q <> [] -> last (map Some q) None <> None) as HA.
             { induction q as [|a q IHq]; [congruence|]. intros _. simpl.
               destruct (map Some q) eqn:Eq; [discriminate|]. apply IHq.
               destruct q; [discriminate|congruence]. }
             apply (HA (filter P r)).
             ++ intros HH. rewrite HH in El. discriminate.
             ++ rewrite El. exact Elast.
      + destruct (last (map Some (filter P r)) None) as [(k, f)|].
        * destruct IH as (I1 & I2 & I3). repeat split; auto.
          intros k' f' [H|H] HP; [|eauto]. inversion H; subst. congruence.
        * intros k' f' [H|H]; [inversion H; subst; auto|eauto].
  Qed.

  Lemma sorted_keys_unique (m : cost_fn X C D) : sorted_keys m -> forall k f f', In (k, f) m -> In (k, f') m -> f = f'.
  Proof.
    induction m as [|(k0, f0) r IH]; simpl; [tauto|]. intros [H1 H2] k f f' [A|A] [B|B].
    - congruence.
    - inversion A; subst. apply H1 in B. lia.
    - inversion B; subst. apply H1 in A. lia.
    - eauto.
  Qed.

  Lemma cf_get_spec (m : cost_fn X C D) t s (f : F) : sorted_keys m ->
    cf_get m t = Ok (s, f) <->
    1 <= s <= t /\ In (s, f) m /\ (forall k' f', In (k', f') m -> 1 <= k' <= t -> k' <= s).
  Proof.
    intros Hs. unfold cf_get. destruct (1 <=? t) eqn:E.
    2: { split; [discriminate|]. intros (? & _). lia. }
    pose proof (last_filter m (fun e => (1 <=? fst e) && (fst e <=? t)) Hs) as HL.
    destruct (last _ None) as [(k, g)|]; simpl.
    - destruct HL as (L1 & L2 & L3). simpl in *. apply andb_true_iff in L2.
      rewrite !Z.leb_le in L2. split.
      + intros H; inversion H; subst. repeat split; try tauto.
        intros k' f' Hin Hr. apply (L3 k' f'); auto. simpl. lia.
      + intros (Hr & Hin & Hmax). assert (k = s) as ->.
        { specialize (L3 s f Hin). simpl in L3. specialize (Hmax k g L1). lia. }
        rewrite (sorted_keys_unique m Hs s g f); auto.
    - split; [discriminate|]. intros (Hr & Hin & _). specialize (HL s f Hin). simpl in HL. lia.
  Qed.

  Lemma cf_get_none (m : cost_fn X C D) t : sorted_keys m ->
    (forall k f, In (k, f) m -> ~ (1 <= k <= t)) -> cf_get m t = Panic.
  Proof.
    intros Hs H. destruct (cf_get m t) as [(s, f)|e|] eqn:E; auto.
    - apply cf_get_spec in E; auto. destruct E as (E1 & E2 & _). exfalso. eapply H; eauto.
    - exfalso. unfold cf_get in E. destruct (1 <=? t); [|discriminate].
      destruct (last _ _); discriminate.
  Qed.

  (** ** Histories *)
  Lemma of_history_snoc (hist : list (Z * F)) s (f : F) : of_history (hist ++ [(s, f)]) = cf_add (of_history hist) s f.
  Proof. unfold of_history. rewrite fold_left_app. reflexivity. Qed.

  Lemma of_history_sorted (hist : list (Z * F)) : sorted_keys (of_history hist).
  Proof.
    induction hist as [|(s, f) h IH] using rev_ind.
    - exact I.
    - rewrite of_history_snoc. apply bt_insert_sorted, IH.
  Qed.

  Lemma of_history_In (hist : list (Z * F)) s (f : F) :
    In (s, f) (of_history hist) <->
    exists before after, hist = before ++ (s, f) :: after /\ forall s' f', In (s', f') after -> s' <> s.
  Proof.
    induction hist as [|(s0, f0) h IH] using rev_ind.
    - split; [intros []|]. intros (b & a & H & _). destruct b; discriminate.
    - rewrite of_history_snoc. unfold cf_add. change (In (s, f) (bt_insert s0 f0 (of_history h))) with (at_key (bt_insert s0 f0 (of_history h)) s f).
      rewrite (bt_insert_at s0 f0 _ (of_history_sorted h) s f).
      unfold at_key. rewrite IH. split.
      + intros [[-> ->]|[Hn (b & a & -> & Ha)]].
        * exists h, []. split; auto.
        * exists b, (a ++ [(s0, f0)]). rewrite <- app_assoc. split; auto.
          intros s' f' H. apply in_app_or in H. destruct H as [H|[H|[]]]; eauto.
          inversion H; subst; auto.
      + intros (b & a & H & Ha). destruct a as [|e a] using rev_ind.
        * apply app_inj_tail in H. destruct H as [-> H]. inversion H; subst. auto.
        * clear IHa. rewrite app_comm_cons, app_assoc in H. apply app_inj_tail in H.
          destruct H as [-> <-]. right. split.
          -- intros ->. eapply Ha; [|reflexivity]. apply in_or_app; right; left; reflexivity.
          -- exists b, a. split; auto. intros s' f' Hin. eapply Ha. apply in_or_app; left; eauto.
  Qed.

  Lemma answers_unique (hist : list (Z * F)) t s (f : F) s' f' : answers hist t s f -> answers hist t s' f' -> s = s' /\ f = f'.
  Proof.
    intros (Hr & b & a & -> & Hb & Ha) (Hr' & b' & a' & HE & Hb' & Ha').
    assert (s = s') as <-.
    { apply Z.le_antisymm.
      - assert (In (s, f) (b' ++ (s', f') :: a')) as Hin by (rewrite <- HE; apply in_or_app; right; left; reflexivity).
        apply in_app_or in Hin. destruct Hin as [Hin|[Hin|Hin]].
        + eauto.
        + inversion Hin; lia.
        + apply Ha' in Hin; lia.
      - assert (In (s', f') (b ++ (s, f) :: a)) as Hin by (rewrite HE; apply in_or_app; right; left; reflexivity).
        apply in_app_or in Hin. destruct Hin as [Hin|[Hin|Hin]].
        + eauto.
        + inversion Hin; lia.
        + apply Ha in Hin; lia. }
    split; auto.
    assert (In (s, f) (of_history (b ++ (s, f) :: a))) as H1.
    { apply of_history_In. exists b, a. split; auto. intros s' g Hin ->. apply Ha in Hin; lia. }
    assert (In (s, f') (of_history (b ++ (s, f) :: a))) as H2.
    { rewrite HE. apply of_history_In. exists b', a'. split; auto. intros s' g Hin ->. apply Ha' in Hin; lia. }
    eapply sorted_keys_unique; [|exact H1|exact H2]. apply of_history_sorted.
  Qed.

  Lemma get_answers (hist : list (Z * F)) t s (f : F) : cf_get (of_history hist) t = Ok (s, f) <-> answers hist t s f.
  Proof.
    rewrite cf_get_spec by apply of_history_sorted. rewrite of_history_In. unfold answers. split.
    - intros (Hr & (b & a & HE & Hn) & Hmax). split; auto. exists b, a. split; auto.
      assert (forall s' f', In (s', f') hist -> 1 <= s' <= t -> s' <= s) as Hall.
      { intros s' f' Hin Hr'.
        assert (exists g, In (s', g) (of_history hist)) as (g & Hg).
        { clear -Hin. induction hist as [|(s0, f0) h IH] using rev_ind; [destruct Hin|].
          rewrite of_history_snoc. unfold cf_add. destruct (Z.eq_dec s' s0) as [->|Hne].
          - exists f0. apply (bt_insert_at _ _ _ (of_history_sorted h)). auto.
          - apply in_app_or in Hin. destruct Hin as [Hin|[Hin|[]]].
            + destruct (IH Hin) as (g & Hg). exists g.
              apply (bt_insert_at _ _ _ (of_history_sorted h)). right. split; auto.
            + inversion Hin; subst; contradiction. }
        eauto. }
      rewrite HE in Hall. split.
      + intros s' f' Hin. eapply Hall. apply in_or_app; left; eauto.
      + intros s' f' Hin Hr'. assert (s' <= s) by (eapply Hall; eauto; apply in_or_app; right; right; eauto).
        specialize (Hn _ _ Hin). lia.
    - intros (Hr & b & a & HE & Hb & Ha). split; auto. split.
      + exists b, a. split; auto. intros s' f' Hin ->. apply Ha in Hin; lia.
      + intros k f' Hin Hk.
        apply of_history_In in Hin. destruct Hin as (b' & a' & HE' & _).
        assert (In (k, f') (b ++ (s, f) :: a)) as Hin by (rewrite <- HE, HE'; apply in_or_app; right; left; reflexivity).
        apply in_app_or in Hin. destruct Hin as [Hin|[Hin|Hin]].
        * eauto.
        * inversion Hin; lia.
        * apply Ha in Hin; lia.
  Qed.

  Lemma get_unanswered (hist : list (Z * F)) t : unanswered hist t -> cf_get (of_history hist) t = Panic.
  Proof.
    intros H. apply cf_get_none; [apply of_history_sorted|]. intros k f Hin.
    apply of_history_In in Hin. destruct Hin as (b & a & -> & _). eapply H.
    apply in_or_app; right; left; reflexivity.
  Qed.

  Lemma answers_or_unanswered (hist : list (Z * F)) t : unanswered hist t \/ exists s f, answers hist t s f.
  Proof.
    destruct (cf_get (of_history hist) t) as [(s, f)|e|] eqn:E.
    - right. exists s, f. apply get_answers, E.
    - exfalso. unfold cf_get in E. destruct (1 <=? t); [|discriminate].
      destruct (last _ _); discriminate.
    - left. intros s f Hin Hr.
      assert (exists s' f', cf_get (of_history hist) t = Ok (s', f')) as (s' & f' & HH); [|congruence].
      unfold cf_get. destruct (1 <=? t) eqn:Et; [|lia].
      pose proof (last_filter (of_history hist) (fun e => (1 <=? fst e) && (fst e <=? t)) (of_history_sorted hist)) as HL.
      destruct (last _ None) as [(k, g)|]; simpl; eauto. exfalso.
      assert (exists g, In (s, g) (of_history hist)) as (g & Hg).
      { clear -Hin. induction hist as [|(s0, f0) h IH] using rev_ind; [destruct Hin|].
        rewrite of_history_snoc. unfold cf_add. destruct (Z.eq_dec s s0) as [->|Hne].
        - exists f0. apply (bt_insert_at _ _ _ (of_history_sorted h)). auto.
        - apply in_app_or in Hin. destruct Hin as [Hin|[Hin|[]]].
          + destruct (IH Hin) as (g & Hg). exists g.
            apply (bt_insert_at _ _ _ (of_history_sorted h)). right. split; auto.
          + inversion Hin; subst; contradiction. }
      specialize (HL _ _ Hg). simpl in HL. lia.
  Qed.

  Lemma get_later (hist : list (Z * F)) s (f : F) t : t < s ->
    cf_get (of_history (hist ++ [(s, f)])) t = cf_get (of_history hist) t.
  Proof.
    intros Hlt. destruct (answers_or_unanswered hist t) as [Hu|(s' & f' & Ha)].
    - rewrite !get_unanswered; auto. intros s' f' Hin. apply in_app_or in Hin.
      destruct Hin as [Hin|[Hin|[]]]; [eauto|]. inversion Hin; lia.
    - rewrite (proj2 (get_answers hist t s' f') Ha). apply get_answers.
      destruct Ha as (Hr & b & a & -> & Hb & Ha). split; auto.
      exists b, (a ++ [(s, f)]). rewrite <- app_assoc. split; auto. split; auto.
      intros k g Hin Hk. apply in_app_or in Hin. destruct Hin as [Hin|[Hin|[]]]; eauto.
      inversion Hin; lia.
  Qed.
End Map.

(** ** Averages *)
Lemma fold_eadd l : forall a, (exists qs b, l = map Fin qs /\ a = Fin b /\ exists c, fold_left eadd l a = Fin c /\ (c == b + Qsum qs)%Q)
  \/ ((a = Inf \/ In Inf l) /\ fold_left eadd l a = Inf).
Proof.
  induction l as [|x l IH]; intros a; simpl.
  - destruct a as [b|]; [left; exists [], b; repeat split; auto; exists b; split; auto; simpl; lra|right; auto].
  - destruct (IH (eadd a x)) as [(qs & b & -> & Hb & c & Hc & Hq)|[H1 H2]].
    + apply eadd_fin in Hb. destruct Hb as (y & z & -> & -> & ->).
      left. exists (z :: qs), y. repeat split; auto. exists c. split; auto. simpl. rewrite Hq. lra.
    + right. split; auto. destruct H1 as [H1|H1]; auto.
      destruct a, x; simpl in H1; try discriminate; auto.
Qed.

Lemma emean_average l m : emean l = Ok m -> is_average l m.
Proof.
  unfold emean. destruct l as [|x l]; [discriminate|]. set (L := x :: l). intros H.
  assert (m = escale (/ inject_Z (Z.of_nat (length L))) (fold_left eadd L (Fin 0))) as -> by congruence.
  clear H. assert (length L <> 0)%nat as HL by discriminate. clearbody L.
  destruct (fold_eadd L (Fin 0)) as [(qs & b & HE & Hb & c & -> & Hq)|[[H1|H1] ->]].
  - injection Hb as <-. simpl. exists qs. split; auto. rewrite Hq, HE, map_length.
    field. change 0%Q with (inject_Z 0). rewrite inject_Z_injective.
    rewrite HE, map_length in HL. lia.
  - discriminate.
  - exact H1.
Qed.

Lemma emean_nonempty l : l <> [] -> exists m, emean l = Ok m.
Proof. destruct l; [congruence|]. intros _. simpl. eauto. Qed.

Section Mean.
  Context {C D : Type}.
  Variable vmerge : C -> C -> outcome C.

  Lemma cost_mean_cost (cs : list (cost C D)) m :
    cost_mean vmerge cs = Ok m ->
    is_average (map c_cost cs) (c_cost m) /\ vertical_reduce vmerge (map c_out cs) = Ok (c_out m).
  Proof.
    unfold cost_mean. intros H. apply obind_Ok in H. destruct H as (c & Hc & H).
    apply obind_Ok in H. destruct H as (o & Ho & H). injection H as <-. simpl.
    split; auto. apply emean_average; auto.
  Qed.

  Lemma cost_mean_single (c : cost C D) :
    outcome_rel cost_eq (cost_mean vmerge [c]) (Ok c).
  Proof.
    unfold cost_mean. simpl. split; simpl; [|reflexivity].
    destruct (c_cost c); simpl; auto. rewrite Qplus_0_l.
    change (/ inject_Z 1)%Q with 1%Q. rewrite Qmult_1_l. reflexivity.
  Qed.
End Mean.

(** ** Calls *)
Section Calls.
  Context {X C D : Type}.
  Variable vmerge : C -> C -> outcome C.
  Notation F := (single_fn X C D).

  Lemma call_predictive_answers (hist : list (Z * F)) t s (f : F) x :
    answers hist t s f ->
    call_predictive (of_history hist) t x =
    match f t x with
    | Ok rs => if (length rs =? 0)%nat || ((t =? s) && negb (length rs =? 1)%nat) then Panic else Ok rs
    | Err e => Err e
    | Panic => Panic
    end.
  Proof.
    intros Ha. pose proof Ha as Hg. apply get_answers in Hg.
    unfold call_predictive. rewrite Hg. simpl. unfold single_predictive.
    destruct Ha as (Hr & _). rewrite (proj2 (Z.ltb_ge _ _)) by lia.
    destruct (f t x) as [rs| |]; simpl; auto. destruct rs as [|r rs]; simpl.
    - rewrite andb_true_r. destruct (t =? s); reflexivity.
    - destruct ((t =? s) && _); reflexivity.
  Qed.

  Lemma call_certain_predictive (hist : list (Z * F)) t x c :
    call_certain (of_history hist) t x = Ok c <-> call_predictive (of_history hist) t x = Ok [c].
  Proof.
    unfold call_certain, call_predictive, single_certain.
    destruct (cf_get (of_history hist) t) as [(s, f)| |]; simpl; try (split; discriminate).
    destruct (single_predictive f s t x) as [rs| |]; simpl; try (split; discriminate).
    destruct rs as [|r [|r' rs]]; split; intros H; try discriminate; congruence.
  Qed.

  Lemma call_mean_predictive (hist : list (Z * F)) t x :
    call_mean vmerge (of_history hist) t x =
    do rs <- call_predictive (of_history hist) t x; cost_mean vmerge rs.
  Proof.
    unfold call_mean, call_predictive, single_mean.
    destruct (cf_get (of_history hist) t) as [(s, f)| |]; simpl; auto.
  Qed.

  Lemma call_mean_average (hist : list (Z * F)) t x c :
    call_mean vmerge (of_history hist) t x = Ok c ->
    exists rs, call_predictive (of_history hist) t x = Ok rs /\
      is_average (map c_cost rs) (c_cost c) /\
      vertical_reduce vmerge (map c_out rs) = Ok (c_out c).
  Proof.
    rewrite call_mean_predictive. intros H. apply obind_Ok in H. destruct H as (rs & Hrs & H).
    exists rs. split; auto. apply cost_mean_cost; auto.
  Qed.

  Lemma calls_unanswered (hist : list (Z * F)) t x :
    unanswered hist t ->
    call_predictive (of_history hist) t x = Panic /\
    call_certain (of_history hist) t x = Panic /\
    call_mean vmerge (of_history hist) t x = Panic.
  Proof.
    intros H. unfold call_predictive, call_certain, call_mean. rewrite (get_unanswered hist t H). auto.
  Qed.

  Lemma calls_later (hist : list (Z * F)) s (f : F) t x : t < s ->
    call_predictive (cf_add (of_history hist) s f) t x = call_predictive (of_history hist) t x /\
    call_certain (cf_add (of_history hist) s f) t x = call_certain (of_history hist) t x /\
    call_mean vmerge (cf_add (of_history hist) s f) t x = call_mean vmerge (of_history hist) t x.
  Proof.
    intros H. rewrite <- of_history_snoc. unfold call_predictive, call_certain, call_mean.
    rewrite (get_later hist s f t H). auto.
  Qed.

  Lemma answers_total (hist : list (Z * F)) t :
    (exists s f, answers hist t s f /\ forall s' f', answers hist t s' f' -> s' = s /\ f' = f)
    \/ unanswered hist t.
  Proof.
    destruct (answers_or_unanswered hist t) as [H|(s & f & H)]; auto.
    left. exists s, f. split; auto. intros s' f' H'. eapply answers_unique; eauto.
  Qed.
End Calls.

(** ** Decision spaces *)
Section Space.
  Context {T : Type}.
  Variable v : value T.

  Lemma within_upper_spec (bounds x : list T) :
    (v_toQ v (v_zero v) == 0)%Q -> length x = length bounds ->
    exists b, within_upper v bounds x = Ok b /\ (b = true <-> in_box v bounds x).
  Proof.
    intros Hz Hl. unfold within_upper. rewrite Hl, Nat.eqb_refl. eexists; split; [reflexivity|].
    unfold in_box. revert x Hl. induction bounds as [|u bs IH]; intros [|j x] Hl; try discriminate; simpl.
    - split; auto.
    - injection Hl as Hl. rewrite andb_true_iff, (IH x Hl). unfold v_leb. simpl.
      rewrite andb_true_iff, !Qle_bool_iff. rewrite Hz. split.
      + intros [[? ?] ?]. constructor; auto.
      + intros H. inversion H; subst. tauto.
  Qed.

  Lemma within_pairs_spec (bounds : list (T * T)) (x : list T) :
    length x = length bounds ->
    exists b, within_pairs v bounds x = Ok b /\ (b = true <-> in_box2 v bounds x).
  Proof.
    intros Hl. unfold within_pairs. rewrite Hl, Nat.eqb_refl. eexists; split; [reflexivity|].
    unfold in_box2. revert x Hl. induction bounds as [|u bs IH]; intros [|j x] Hl; try discriminate; simpl.
    - split; auto.
    - injection Hl as Hl. rewrite andb_true_iff, (IH x Hl). unfold v_leb. simpl.
      rewrite andb_true_iff, !Qle_bool_iff. split.
      + intros [[? ?] ?]. constructor; auto.
      + intros H. inversion H; subst. tauto.
  Qed.

  Lemma within_scalar_spec u x :
    within_scalar v u x = true <-> (0 <= v_toQ v x <= v_toQ v u)%Q.
  Proof.
    unfold within_scalar. rewrite negb_true_iff, orb_false_iff, !Qltb_false. tauto.
  Qed.

  Context {C D : Type}.
  Variable vmerge : C -> C -> outcome C.
  Variable outside : D.

  Lemma gssco_hit_inside (p : gssco T C D) t x :
    (v_toQ v (v_zero v) == 0)%Q -> in_box v (g_bounds p) x ->
    gssco_hit v vmerge outside p t x = call_mean vmerge (g_cost p) t x.
  Proof.
    intros Hz Hb. assert (length x = length (g_bounds p)) as Hl.
    { revert Hb. unfold in_box. generalize (g_bounds p). intros bs H. induction H; simpl; auto. }
    unfold gssco_hit, call_mean_within.
    destruct (within_upper_spec (g_bounds p) x Hz Hl) as (b & -> & Hiff). simpl.
    rewrite (proj2 Hiff Hb). reflexivity.
  Qed.

  Lemma gssco_hit_outside (p : gssco T C D) t x :
    (v_toQ v (v_zero v) == 0)%Q -> length x = length (g_bounds p) -> ~ in_box v (g_bounds p) x ->
    gssco_hit v vmerge outside p t x = Ok (mkCost Inf (MFailure outside)).
  Proof.
    intros Hz Hl Hb. unfold gssco_hit, call_mean_within.
    destruct (within_upper_spec (g_bounds p) x Hz Hl) as (b & -> & Hiff). simpl.
    destruct b; [tauto|reflexivity].
  Qed.

  Lemma gssco_hit_wrong_dim (p : gssco T C D) t x :
    length x <> length (g_bounds p) -> gssco_hit v vmerge outside p t x = Panic.
  Proof.
    intros Hl. unfold gssco_hit, call_mean_within, within_upper.
    rewrite (proj2 (Nat.eqb_neq _ _) Hl). reflexivity.
  Qed.

  Lemma gsco_hit_inside (p : gsco T C D) t x :
    in_box2 v (o_bounds p) x ->
    gsco_hit v vmerge outside p t x = call_mean vmerge (o_cost p) t x.
  Proof.
    intros Hb. assert (length x = length (o_bounds p)) as Hl.
    { revert Hb. unfold in_box2. generalize (o_bounds p). intros bs H. induction H; simpl; auto. }
    unfold gsco_hit, call_mean_within.
    destruct (within_pairs_spec (o_bounds p) x Hl) as (b & -> & Hiff). simpl.
    rewrite (proj2 Hiff Hb). reflexivity.
  Qed.

  Lemma gsco_hit_outside (p : gsco T C D) t x :
    length x = length (o_bounds p) -> ~ in_box2 v (o_bounds p) x ->
    gsco_hit v vmerge outside p t x = Ok (mkCost Inf (MFailure outside)).
  Proof.
    intros Hl Hb. unfold gsco_hit, call_mean_within.
    destruct (within_pairs_spec (o_bounds p) x Hl) as (b & -> & Hiff). simpl.
    destruct b; [tauto|reflexivity].
  Qed.
End Space.

Lemma valZ_lawful : lawful valZ.
Proof.
  split; simpl; [reflexivity|]. intros a b. unfold Qminus. rewrite <- inject_Z_opp, <- inject_Z_plus.
  reflexivity.
Qed.
Lemma valQ_lawful : lawful valQ.
Proof. split; simpl; reflexivity. Qed.

(** Problems with a norm refuse inverted movement. *)
Lemma gsco_inverted_refused {T C D} (v : value T) (vmerge : C -> C -> outcome C) (merge : C -> C -> C) (outside : D)
  s (p : gsco T C D) xs default alpha t_end c :
  1 <= t_end -> objective_o merge s (gsco_problem v vmerge outside p) xs default alpha true t_end <> Ok c.
Proof.
  intros Ht. unfold objective_o. rewrite zrange_cons by lia. cbn [omap]. unfold step_cost_o at 1.
  cbn [gsco_problem op_tend op_hit op_move gsco_move].
  destruct (if o_tend p <? 1 then _ else _); cbn [obind]; discriminate.
Qed.
