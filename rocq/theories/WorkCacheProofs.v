(** Calls of randomly biased greedy that share the cache: invariants. *)
From Verif Require Import NumLemmas DescentModel ForesightSpec ForesightDescent WorkCacheModel.
From Verif Require Import ProblemModel CostModel.
Local Open Scope Z_scope.

Lemma ask_ext s f g : (forall x, f x = g x) -> ask s f = ask s g.
Proof.
  intros H. induction s as [r|x k IH]; cbn [ask]; [reflexivity|]. rewrite H. destruct (g x); cbn [obind]; auto.
Qed.

Lemma by_asking_observes opt : observes_nlopt (by_asking opt).
Proof.
  intros a dir f g bounds cs ds x0 Hf _. unfold by_asking. cbn [nl_algorithm nl_target nl_bounds nl_init nl_objective].
  apply ask_ext, Hf.
Qed.

(** ** The cache *)
Lemma cache_get_In k v c : cache_get k c = Some v -> In (k, v) c.
Proof.
  unfold cache_get. induction c as [|[k' v'] c IH]; cbn; [discriminate|].
  destruct (key_eq_dec k' k); cbn; [intros [= ->]; subst; left; reflexivity|]. auto.
Qed.

(** ** What a thread returns if everything it may find in the cache is right *)
Section Means.
  Context {A : Type}.
  Variable known : key -> fnum -> Prop.
  Fixpoint means (m : thread A) (res : outcome A) : Prop :=
    match m with
    | Done r => r = res
    | Get k next => means (next None) res /\ forall v, known k v -> means (next (Some v)) res
    | Set_ k v next => known k v /\ means next res
    | Clear next => means next res
    end.
End Means.

Lemma means_tbind {A B} known (m : thread A) (f : A -> thread B) (g : A -> outcome B) : forall r,
  means known m r -> (forall a, r = Ok a -> means known (f a) (g a)) -> means known (tbind m f) (obind r g).
Proof.
  induction m as [r'|k next IH|k v next IH|next IH]; intros r Hm Hf; cbn [means tbind] in *.
  - subst r'. destruct r as [a|e|]; cbn; auto.
  - destruct Hm as [H1 H2]. split; [apply IH; auto|]. intros v Hv. apply IH; auto.
  - destruct Hm as [H1 H2]. split; auto.
  - apply IH; auto.
Qed.

Lemma means_ask known s f g : (forall x, means known (f x) (g x)) -> means known (ask_thread s f) (ask s g).
Proof.
  intros H. induction s as [r|x k IH]; cbn [ask_thread ask]; [reflexivity|].
  apply means_tbind; [apply H|]. intros v _. apply IH.
Qed.

Section Rbg.
  Context {C D : Type}.
  Variable vmerge : C -> C -> outcome C.
  Variable outside : D.
  Variable opt : optimizer.
  Notation nlopt := (by_asking opt).

  Lemma means_find_minimizer known f g bounds : (forall x, means known (f x) (g x)) ->
    means known (find_minimizer_thread opt f bounds) (find_minimizer nlopt g bounds).
  Proof.
    intros H. unfold find_minimizer_thread, find_minimizer, minimize, optimize. apply means_tbind; [reflexivity|].
    intros x _. apply means_tbind.
    - unfold by_asking. cbn [nl_algorithm nl_target nl_bounds nl_init nl_objective length]. apply means_ask. intros y. apply H.
    - intros r _. reflexivity.
  Qed.

  Lemma means_work known p theta n :
    (forall t x v, (t <= n)%nat -> known (t, x) v <-> work vmerge outside nlopt p theta t x = Ok v) ->
    forall t x, (t <= n)%nat -> means known (work_thread vmerge outside opt p theta t x) (work vmerge outside nlopt p theta t x).
  Proof.
    intros HK. induction t as [|t IH]; intros x Ht; cbn [work_thread].
    - cbn [means]. split.
      2:{ intros v Hv. cbn [means]. symmetry. apply HK; auto. }
      assert (W := HK 0%nat x). cbn [work] in W |- *.
      destruct (do n0 <- o_norm p x; Ok (Num (theta * n0))) as [v|e|]; cbn [tbind means]; auto.
      split; [apply W; auto|reflexivity].
    - cbn [means]. split.
      2:{ intros v Hv. cbn [means]. symmetry. apply HK; auto. }
      assert (E : forall m : outcome fnum, obind m (fun v => Ok v) = m) by (intros []; reflexivity).
      rewrite <- (E (work vmerge outside nlopt p theta (S t) x)). apply means_tbind.
      + cbn [work]. apply means_tbind; [|intros r _; reflexivity]. apply means_find_minimizer. intros y.
        apply means_tbind; [apply IH; lia|]. intros w _. reflexivity.
      + intros v Hv. cbn [means]. split; [apply HK; auto|reflexivity].
  Qed.

  (** ** Processes *)
  Variable theta : Q.
  Variable calls : list (call C D).
  Hypothesis times : Forall (fun ca => 0 <= ca_t ca) calls.
  Hypothesis agreement : forall a b, In a calls -> In b calls ->
    agree_sco (Z.min (ca_t a) (ca_t b)) (on_p (ca_o a)) (on_p (ca_o b)).

  (** What some call stores. *)
  Definition stored (k : key) (v : fnum) : Prop :=
    exists ca, In ca calls /\ Z.of_nat (fst k) <= ca_t ca /\
      work vmerge outside nlopt (on_p (ca_o ca)) theta (fst k) (snd k) = Ok v.

  Lemma stored_spec ca : In ca calls -> forall t x v, (t <= Z.to_nat (ca_t ca))%nat ->
    stored (t, x) v <-> work vmerge outside nlopt (on_p (ca_o ca)) theta t x = Ok v.
  Proof.
    intros Hc t x v Ht. assert (T0 : 0 <= ca_t ca) by (rewrite Forall_forall in times; auto).
    split.
    - intros (cb & Hb & Hl & E). cbn [fst snd] in *. rewrite <- E.
      apply (work_alike vmerge outside nlopt (by_asking_observes opt) _ theta _ _ (agreement _ _ Hc Hb)). lia.
    - intros E. exists ca. cbn [fst snd]. split; [auto|]. split; [lia|exact E].
  Qed.

  Definition started {A} (m : thread A) : bool := match m with Clear _ | Done _ => false | _ => true end.
  Definition expected (ca : call C D) (xs : list (list Q)) : outcome (list Q * option Q) :=
    rbg vmerge outside nlopt theta (ca_o ca) (ca_t ca) xs (ca_r ca).

  Record inv (s : process (list Q * option Q)) : Prop := mkInv {
    i_threads : Forall2 (fun ca m => means stored m (expected ca [])) calls (pr_threads s);
    i_cache : (forall k v, In (k, v) (pr_cache s) -> stored k v) \/ Forall (fun m => started m = false) (pr_threads s)
  }.

  Lemma inv_start c0 : inv (mkProcess c0 (map (fun ca => rbg_thread vmerge outside opt theta (ca_o ca) (ca_t ca) (ca_r ca)) calls)).
  Proof.
    split; cbn [pr_threads pr_cache].
    - assert (H : forall ca, In ca calls -> means stored (rbg_thread vmerge outside opt theta (ca_o ca) (ca_t ca) (ca_r ca)) (expected ca [])).
      { intros ca Hc. unfold rbg_thread, expected, rbg. destruct (negb (on_w (ca_o ca) =? 0)); [reflexivity|]. cbv zeta.
        destruct (negb (o_d (on_p (ca_o ca)) =? 1)); [reflexivity|]. cbn [means].
        apply means_tbind; [|intros x _; reflexivity]. apply means_find_minimizer. intros x.
        apply means_tbind; [|intros w _; reflexivity].
        apply (means_work stored _ _ (Z.to_nat (ca_t ca))); [apply stored_spec; exact Hc|lia]. }
      clear - H. induction calls as [|ca l IH]; cbn [map]; constructor; [apply H; left; reflexivity|].
      apply IH. intros cb Hb. apply H. right. exact Hb.
    - right. apply Forall_forall. intros m Hm. apply in_map_iff in Hm as (ca & <- & _).
      unfold rbg_thread. destruct (negb (on_w (ca_o ca) =? 0)); [reflexivity|]. cbv zeta.
      destruct (negb (o_d (on_p (ca_o ca)) =? 1)); reflexivity.
  Qed.

  Lemma Forall2_replace {X Y} (R : X -> Y -> Prop) l l' i y x : Forall2 R l l' -> nth_error l i = Some x -> R x y ->
    Forall2 R l (replace_nth i y l').
  Proof.
    intros H. revert i. induction H as [|a b l l' Hab H IH]; intros [|i] E HR; try discriminate; cbn in E |- *.
    - injection E as ->. constructor; auto.
    - constructor; auto. apply IH; auto.
  Qed.
  Lemma Forall2_nth {X Y} (R : X -> Y -> Prop) l l' i y : Forall2 R l l' -> nth_error l' i = Some y ->
    exists x, nth_error l i = Some x /\ R x y.
  Proof.
    intros H. revert i. induction H as [|a b l l' Hab H IH]; intros [|i] E; try discriminate; cbn in E |- *.
    - injection E as ->. eauto.
    - apply IH. exact E.
  Qed.
  Lemma Forall_replace {X} (P : X -> Prop) l i y : Forall P l -> P y -> Forall P (replace_nth i y l).
  Proof.
    intros H Hy. unfold replace_nth. rewrite Forall_forall in H. apply Forall_forall. intros z Hz.
    apply in_app_or in Hz as [Hz|[<- |Hz]]; auto; apply H.
    - rewrite <- (firstn_skipn i l). apply in_or_app. auto.
    - rewrite <- (firstn_skipn (S i) l). apply in_or_app. auto.
  Qed.

  Lemma inv_step s s' : inv s -> step s s' -> inv s'.
  Proof.
    intros [I1 I2] [i (m & c' & m' & Hm & Ha & ->)|keep ->].
    - destruct (Forall2_nth _ _ _ _ _ I1 Hm) as (ca & Hca & Hmean).
      assert (Hst : started m = true -> forall k v, In (k, v) (pr_cache s) -> stored k v).
      { intros Hs. destruct I2 as [I2|I2]; auto. rewrite Forall_forall in I2.
        rewrite (I2 m (nth_error_In _ _ Hm)) in Hs. discriminate. }
      destruct m as [r|k next|k v next|next]; cbn [access_cache] in Ha; try discriminate; injection Ha as <- <-; cbn [means] in Hmean.
      + specialize (Hst eq_refl). split; cbn [pr_threads pr_cache]; [|auto]. eapply Forall2_replace; eauto. cbn beta.
        destruct (cache_get k (pr_cache s)) as [v|] eqn:E; [|apply Hmean].
        apply Hmean, Hst, cache_get_In, E.
      + specialize (Hst eq_refl). split; cbn [pr_threads pr_cache].
        * eapply Forall2_replace; eauto. apply Hmean.
        * left. intros k' v' [[= <- <-]|Hin]; [apply Hmean|]. apply filter_In in Hin as [Hin _]. apply Hst, Hin.
      + split; cbn [pr_threads pr_cache].
        * eapply Forall2_replace; eauto.
        * left. intros k v [].
    - split; cbn [pr_threads pr_cache]; [exact I1|]. destruct I2 as [I2|I2]; [left|right; exact I2].
      intros k v Hin. apply filter_In in Hin as [Hin _]. auto.
  Qed.

  Lemma shared_cache_right c0 s i ca res xs :
    steps (mkProcess c0 (map (fun ca => rbg_thread vmerge outside opt theta (ca_o ca) (ca_t ca) (ca_r ca)) calls)) s ->
    nth_error calls i = Some ca -> nth_error (pr_threads s) i = Some (Done res) ->
    res = rbg vmerge outside nlopt theta (ca_o ca) (ca_t ca) xs (ca_r ca).
  Proof.
    intros Hs Hca Hd. assert (HI : inv s).
    { clear Hd. induction Hs as [|s' s'' Hs IH Hst]; [apply inv_start|]. eapply inv_step; [exact IH|exact Hst]. }
    destruct HI as [I1 _]. destruct (Forall2_nth _ _ _ _ _ I1 Hd) as (ca' & Hca' & Hm). cbn [means] in Hm.
    rewrite Hca in Hca'. injection Hca' as <-. exact Hm.
  Qed.
End Rbg.

Lemma single_cache_right {C D} (vmerge : C -> C -> outcome C) (outside : D) opt theta (o : online (gsco Q C D)) t r xs c0 s res :
  0 <= t -> steps (mkProcess c0 [rbg_thread vmerge outside opt theta o t r]) s -> pr_threads s = [Done res] ->
  res = rbg vmerge outside (by_asking opt) theta o t xs r.
Proof.
  intros Ht Hs E.
  apply (shared_cache_right vmerge outside opt theta [mkCall o t r]) with (c0 := c0) (s := s) (i := 0%nat) (ca := mkCall o t r).
  - constructor; [exact Ht|constructor].
  - intros a b [<- |[]] [<- |[]]. unfold agree_sco, same_costs. auto.
  - exact Hs.
  - reflexivity.
  - rewrite E. reflexivity.
Qed.

(** ** Every call returns *)
Definition child {A} (m' m : thread A) : Prop := exists c c', access_cache c m = Some (c', m').

Lemma child_acc {A} (m : thread A) : Acc child m.
Proof.
  induction m as [r|k next IH|k v next IH|next IH]; constructor; intros m' (c & c' & E); cbn in E; try discriminate;
    injection E as _ <-; auto.
Qed.

(** One thread of a list makes an access. *)
Definition below {A} (l' l : list (thread A)) : Prop :=
  exists i m m', nth_error l i = Some m /\ child m' m /\ l' = replace_nth i m' l.

Lemma below_nil {A} : Acc (@below A) [].
Proof. constructor. intros l' (i & m & m' & E & _). destruct i; discriminate. Qed.

Lemma below_acc {A} (l : list (thread A)) : Acc below l.
Proof.
  induction l as [|a l IH]; [apply below_nil|]. revert l IH.
  induction (child_acc a) as [a _ IHa]. intros l Hl.
  induction Hl as [l Hl IHl].
  constructor. intros l' ([|i] & m & m' & E & Hc & ->); cbn in E.
  - injection E as ->. apply (IHa m' Hc). constructor. exact Hl.
  - apply (IHl (replace_nth i m' l)). exists i, m, m'. auto.
Qed.

(** Some thread of the process makes an access. *)
Definition after {A} (s' s : process A) : Prop := exists i, access_by i s s'.

Lemma calls_end {A} (s : process A) : Acc after s.
Proof.
  assert (H : forall l, Acc (@below A) l -> forall c, Acc after (mkProcess c l)).
  { intros l Hl. induction Hl as [l _ IH]. intros c. constructor. intros [c' l'] (i & m & c2 & m' & E & Ea & [= -> ->]).
    cbn [pr_threads pr_cache] in *. apply IH. exists i, m, m'. split; [exact E|]. split; [|reflexivity]. exists c, c2. exact Ea. }
  destruct s as [c l]. apply H, below_acc.
Qed.

Lemma never_blocked {A} (s : process A) i m : nth_error (pr_threads s) i = Some m ->
  (exists res, m = Done res) \/ exists s', access_by i s s'.
Proof.
  intros E. destruct (access_cache (pr_cache s) m) as [[c' m']|] eqn:Ea.
  - right. eexists. exists m, c', m'. eauto.
  - left. destruct m; try discriminate. eauto.
Qed.
