(** The values used by the approximate graph search. *)
From Verif Require Import NumLemmas GraphSearchModel GraphSearchSpec GraphSearchProofs ApproxSearchModel.
From Coq Require Import Arith Qpower Permutation.
Local Open Scope Z_scope.

Lemma containsb_spec vs j : containsb vs j = true <-> In j vs.
Proof.
  unfold containsb. rewrite existsb_exists. split.
  - intros (x & Hx & E). apply Z.eqb_eq in E. subst; auto.
  - intros H. exists j. split; auto. apply Z.eqb_refl.
Qed.

Lemma push_new_In vs j x : In x (push_new vs j) <-> In x vs \/ x = j.
Proof.
  unfold push_new. destruct (containsb vs j) eqn:E.
  - apply containsb_spec in E. split; [auto|intros [H| ->]; auto].
  - rewrite in_app_iff. cbn. intuition.
Qed.

Lemma push_new_NoDup vs j : NoDup vs -> NoDup (push_new vs j).
Proof.
  intros H. unfold push_new. destruct (containsb vs j) eqn:E; auto.
  apply (Permutation_NoDup (l := j :: vs)).
  - apply Permutation_cons_append.
  - constructor; auto. intros Hin. apply containsb_spec in Hin. congruence.
Qed.

Lemma push_all_In bounds : forall vs x, In x (fold_left push_new bounds vs) <-> In x vs \/ In x bounds.
Proof.
  induction bounds as [|u bounds IH]; intros vs x; cbn [fold_left In]; [tauto|].
  rewrite IH, push_new_In. intuition.
Qed.

Lemma push_all_NoDup bounds : forall vs, NoDup vs -> NoDup (fold_left push_new bounds vs).
Proof.
  induction bounds as [|u bounds IH]; intros vs H; cbn [fold_left]; auto.
  apply IH. apply push_new_NoDup; auto.
Qed.

(** ** Sorting *)
Lemma insert_sorted_perm j l : Permutation (j :: l) (insert_sorted j l).
Proof.
  induction l as [|a l IH]; cbn; [auto|]. destruct (j <=? a); [auto|].
  apply (perm_trans (perm_swap a j l)). constructor. exact IH.
Qed.

Lemma sort_values_perm l : Permutation l (sort_values l).
Proof.
  induction l as [|a l IH]; cbn; auto. apply (perm_trans (perm_skip a IH)). apply insert_sorted_perm.
Qed.

Lemma increasing_cons a l : Forall (fun x => a < x) l -> increasing l -> increasing (a :: l).
Proof. intros H1 H2. destruct l; cbn; auto. inversion H1; subst. cbn in H2. tauto. Qed.

Lemma insert_sorted_inc j l : increasing l -> ~ In j l -> increasing (insert_sorted j l).
Proof.
  induction l as [|a l IH]; intros Hi Hn; cbn [insert_sorted]; [cbn; auto|].
  destruct (j <=? a) eqn:E.
  - apply Z.leb_le in E. assert (j < a) by (assert (j <> a) by (intros ->; apply Hn; left; auto); lia).
    apply increasing_cons; auto. constructor; auto.
    assert (F := increasing_head _ _ Hi). eapply Forall_impl; [|exact F]. cbn. intros; lia.
  - apply Z.leb_gt in E. apply increasing_cons.
    + apply Forall_forall. intros x Hx.
      apply (Permutation_in _ (Permutation_sym (insert_sorted_perm j l))) in Hx. destruct Hx as [<-|Hx]; auto.
      assert (F := increasing_head _ _ Hi). rewrite Forall_forall in F. apply F; auto.
    + apply IH; [apply (increasing_tail _ _ Hi)|]. intros H; apply Hn; right; auto.
Qed.

Lemma sort_values_inc l : NoDup l -> increasing (sort_values l).
Proof.
  induction l as [|a l IH]; intros H; cbn; auto. inversion H; subst.
  apply insert_sorted_inc; auto. intros Hin.
  apply (Permutation_in _ (Permutation_sym (sort_values_perm l))) in Hin. contradiction.
Qed.

Lemma sort_values_In l x : In x (sort_values l) <-> In x l.
Proof.
  split; apply Permutation_in; [apply Permutation_sym|]; apply sort_values_perm.
Qed.

(** ** Powers *)
Section Powers.
  Variable gamma : Q.
  Hypothesis gamma_gt : (1 < gamma)%Q.
  Notation pw := (Qpower gamma).

  Lemma pw_succ i : (pw (i + 1) == pw i * gamma)%Q.
  Proof. rewrite Qpower_plus by lra. cbn. reflexivity. Qed.

  Lemma pw_ge_1 i : 0 <= i -> (1 <= pw i)%Q.
  Proof.
    revert i. apply natlike_ind.
    - cbn. lra.
    - intros i Hi IH. unfold Z.succ. rewrite pw_succ. nra.
  Qed.

  Lemma pw_bernoulli i : 0 <= i -> (1 + inject_Z i * (gamma - 1) <= pw i)%Q.
  Proof.
    revert i. apply natlike_ind.
    - cbn. change (inject_Z 0) with 0%Q. lra.
    - intros i Hi IH. unfold Z.succ. rewrite pw_succ, inject_Z_plus. change (inject_Z 1) with 1%Q.
      assert (H := pw_ge_1 i Hi). nra.
  Qed.

  Lemma pw_mono i j : 0 <= i <= j -> (pw i <= pw j)%Q.
  Proof.
    intros [H0 H]. replace j with (i + Z.of_nat (Z.to_nat (j - i))) by lia.
    induction (Z.to_nat (j - i)) as [|n IH]; [rewrite Z.add_0_r; lra|].
    replace (i + Z.of_nat (S n)) with (i + Z.of_nat n + 1) by lia. rewrite pw_succ.
    assert (X := pw_ge_1 (i + Z.of_nat n) ltac:(lia)). nra.
  Qed.

  Lemma pw_unbounded (m : Z) : exists n, 1 <= n /\ (inject_Z m <= pw n)%Q.
  Proof.
    set (q := (inject_Z m / (gamma - 1))%Q).
    exists (Z.max 1 (Qceiling q)). split; [lia|].
    set (n := Z.max 1 (Qceiling q)).
    assert (H := pw_bernoulli n ltac:(lia)).
    assert (Hq : (q <= inject_Z n)%Q).
    { apply (Qle_trans _ (inject_Z (Qceiling q))); [apply Qle_ceiling|rewrite <- Zle_Qle; lia]. }
    assert (E : (q * (gamma - 1) == inject_Z m)%Q) by (unfold q; field; lra).
    assert (q * (gamma - 1) <= inject_Z n * (gamma - 1))%Q by (apply Qmult_le_compat_r; lra).
    lra.
  Qed.

  Lemma le_floor (m : Z) (q : Q) : (inject_Z m <= q)%Q <-> m <= Qfloor q.
  Proof.
    split; intros H.
    - apply Qfloor_resp_le in H. rewrite Qfloor_Z in H. exact H.
    - apply (Qle_trans _ (inject_Z (Qfloor q))); [rewrite <- Zle_Qle; auto|apply Qfloor_le].
  Qed.

  Lemma ceil_le_floor_1 q : Qceiling q <= Qfloor q + 1.
  Proof.
    destruct (Z_lt_le_dec (Qfloor q + 1) (Qceiling q)) as [H|H]; auto. exfalso.
    assert (H1 := Qceiling_lt q). assert (H2 := Qlt_floor q).
    assert (inject_Z (Qfloor q + 1) <= inject_Z (Qceiling q - 1))%Q by (rewrite <- Zle_Qle; lia).
    lra.
  Qed.

  Lemma floor_le_ceil q : Qfloor q <= Qceiling q.
  Proof.
    rewrite Zle_Qle. apply (Qle_trans _ q); [apply Qfloor_le|apply Qle_ceiling].
  Qed.

  Variable mx : Z.

  Lemma build_loop_terminates fuel : forall i vs, 1 <= i ->
    (0 < fuel)%nat -> (inject_Z (mx + 1) <= pw (i + Z.of_nat fuel - 1))%Q ->
    exists vs', build_loop fuel gamma mx i vs = Some vs'.
  Proof.
    induction fuel as [|f IH]; intros i vs Hi Hf H; [lia|]. cbn [build_loop].
    destruct (mx <? Qfloor (pw i)) eqn:E1; [eauto|].
    destruct (mx <? Qceiling (pw i)) eqn:E2; [eauto|].
    destruct f as [|f].
    - exfalso. replace (i + Z.of_nat 1 - 1) with i in H by lia. apply le_floor in H.
      apply Z.ltb_ge in E1. lia.
    - apply IH; [lia|lia|]. replace (i + 1 + Z.of_nat (S f) - 1) with (i + Z.of_nat (S (S f)) - 1) by lia. exact H.
  Qed.

  Definition is_power (i v : Z) : Prop := v = Qfloor (pw i) \/ v = Qceiling (pw i).

  Lemma build_loop_In fuel : forall i vs vs', 1 <= i -> build_loop fuel gamma mx i vs = Some vs' ->
    forall x, In x vs' <-> In x vs \/ exists j, i <= j /\ is_power j x /\ x <= mx.
  Proof.
    induction fuel as [|f IH]; intros i vs vs' Hi H x; cbn [build_loop] in H; [discriminate|].
    destruct (mx <? Qfloor (pw i)) eqn:E1.
    - inversion H; subst vs'. apply Z.ltb_lt in E1. split; [auto|].
      intros [Hx|(j & Hj & Hp & Hle)]; auto. exfalso.
      assert (M := pw_mono i j ltac:(lia)). apply Qfloor_resp_le in M.
      assert (FC := floor_le_ceil (pw j)). destruct Hp; lia.
    - apply Z.ltb_ge in E1. destruct (mx <? Qceiling (pw i)) eqn:E2.
      + inversion H; subst vs'. apply Z.ltb_lt in E2. rewrite push_new_In. split.
        * intros [Hx| ->]; auto. right. exists i. split; [lia|]. split; [left; auto|lia].
        * intros [Hx|(j & Hj & Hp & Hle)]; auto. right.
          assert (M := pw_mono i j ltac:(lia)). apply Qfloor_resp_le in M.
          assert (FC := floor_le_ceil (pw j)). assert (CF := ceil_le_floor_1 (pw i)).
          destruct (Z.eq_dec i j) as [<-|Hne]; destruct Hp; lia.
      + apply Z.ltb_ge in E2. rewrite (IH (i + 1) _ _ ltac:(lia) H), !push_new_In. split.
        * intros [[[Hx| ->]| ->]|(j & Hj & Hp & Hle)]; auto.
          -- right. exists i. split; [lia|]. split; [left; auto|lia].
          -- right. exists i. split; [lia|]. split; [right; auto|lia].
          -- right. exists j. split; [lia|auto].
        * intros [Hx|(j & Hj & Hp & Hle)]; auto.
          destruct (Z.eq_dec i j) as [<-|Hne]; [destruct Hp; auto|].
          right. exists j. split; [lia|auto].
  Qed.

  Lemma build_loop_NoDup fuel : forall i vs vs', build_loop fuel gamma mx i vs = Some vs' ->
    NoDup vs -> NoDup vs'.
  Proof.
    induction fuel as [|f IH]; intros i vs vs' H Hn; cbn [build_loop] in H; [discriminate|].
    destruct (mx <? Qfloor (pw i)); [inversion H; subst; auto|].
    destruct (mx <? Qceiling (pw i)); [inversion H; subst; apply push_new_NoDup; auto|].
    apply (IH _ _ _ H). apply push_new_NoDup, push_new_NoDup, Hn.
  Qed.

  Lemma power_above j : 1 <= j -> exists i, 1 <= i /\ (inject_Z j <= pw i)%Q /\ (pw i <= gamma * inject_Z j)%Q.
  Proof.
    intros Hj. destruct (pw_unbounded j) as (n & Hn & Hle).
    revert Hle. replace n with (Z.of_nat (Z.to_nat n - 1) + 1) by lia.
    generalize (Z.to_nat n - 1)%nat. clear n Hn. intros n.
    assert (J1 : (1 <= inject_Z j)%Q) by (change 1%Q with (inject_Z 1); rewrite <- Zle_Qle; lia).
    induction n as [|n IH]; intros Hle.
    - exists 1. split; [lia|]. change (Z.of_nat 0 + 1) with 1 in Hle. split; auto. cbn. nra.
    - replace (Z.of_nat (S n) + 1) with (Z.of_nat n + 1 + 1) in Hle by lia.
      destruct (Qlt_le_dec (pw (Z.of_nat n + 1)) (inject_Z j)) as [Hlt|Hge]; [|apply IH; auto].
      exists (Z.of_nat n + 1 + 1). split; [lia|]. split; auto. rewrite pw_succ. nra.
  Qed.
End Powers.

Lemma position_spec m l : In m l -> exists k, position m l = Some k /\ nth_error l k = Some m.
Proof.
  induction l as [|a l IH]; intros H; [contradiction|]. cbn [position].
  destruct (Z.eqb_spec a m) as [->|Hne]; [exists O; auto|].
  destruct H as [H|H]; [contradiction|]. destruct (IH H) as (k & -> & Hk). exists (S k). auto.
Qed.

Lemma bound_indices_spec values bounds : (forall u, In u bounds -> In u values) ->
  exists idx, cache_bound_indices values bounds = Ok (mkValues values idx) /\
    Forall2 (fun k u => nth_error values k = Some u) idx bounds.
Proof.
  intros H. unfold cache_bound_indices.
  assert (G : exists idx, omap (fun m => from_option (position m values)) bounds = Ok idx /\
                     Forall2 (fun k u => nth_error values k = Some u) idx bounds).
  { induction bounds as [|u bounds IH]; [exists []; split; [reflexivity|constructor]|].
    destruct (position_spec u values (H u (or_introl eq_refl))) as (k & Hk & Hn).
    destruct IH as (idx & Hi & Hf); [intros; apply H; right; auto|].
    exists (k :: idx). cbn [omap]. rewrite Hk. cbn [from_option obind]. rewrite Hi. cbn [obind].
    split; [reflexivity|constructor; auto]. }
  destruct G as (idx & -> & Hf). exists idx. split; auto.
Qed.

Lemma build_values_spec bounds gamma mx : (1 < gamma)%Q -> max_of bounds = Some mx ->
  Forall (fun u => 0 <= u) bounds ->
  exists N values, (forall fuel, (N <= fuel)%nat -> build_values fuel bounds gamma = Some (Ok values)) /\
    increasing values /\ hd_error values = Some 0 /\
    (forall v, In v values <-> v = 0 \/ In v bounds \/
       exists i, 1 <= i /\ (v = Qfloor (Qpower gamma i) \/ v = Qceiling (Qpower gamma i)) /\ v <= mx) /\
    (forall u j, In u bounds -> 1 <= j <= u ->
       exists v, In v values /\ j <= v <= u /\ (inject_Z v <= gamma * inject_Z j)%Q).
Proof.
  intros Hg Hm Hb. destruct (max_of_spec _ _ Hm) as [Hmi Hmx].
  destruct (pw_unbounded gamma Hg (mx + 1)) as (n & Hn & Hle).
  assert (Hex : exists vs', build_loop (Z.to_nat n) gamma mx 1 [0] = Some vs').
  { apply build_loop_terminates; [lia|lia|]. replace (1 + Z.of_nat (Z.to_nat n) - 1) with n by lia. exact Hle. }
  destruct Hex as (vs0 & Hvs0).
  assert (Hfuel : forall f f' i vs vs', build_loop f gamma mx i vs = Some vs' -> (f <= f')%nat ->
            build_loop f' gamma mx i vs = Some vs').
  { induction f as [|f IH]; intros [|f'] i vs vs' H Hf; cbn [build_loop] in *; try discriminate; try lia.
    destruct (mx <? _); auto. destruct (mx <? _); auto. apply IH; auto. lia. }
  set (values := sort_values (fold_left push_new bounds vs0)).
  assert (HIn : forall v, In v values <-> v = 0 \/ In v bounds \/
       exists i, 1 <= i /\ (v = Qfloor (Qpower gamma i) \/ v = Qceiling (Qpower gamma i)) /\ v <= mx).
  { intros v. unfold values. rewrite sort_values_In, push_all_In.
    rewrite (build_loop_In gamma Hg mx (Z.to_nat n) 1 [0] vs0 ltac:(lia) Hvs0). unfold is_power. cbn [In].
    intuition. }
  assert (Hinc : increasing values).
  { apply sort_values_inc. apply push_all_NoDup. eapply build_loop_NoDup; eauto.
    constructor; [cbn; tauto|constructor]. }
  exists (Z.to_nat n), values. split; [|split; [|split; [|split]]]; auto.
  - intros fuel Hf. unfold build_values. rewrite Hm. rewrite (Hfuel _ fuel _ _ _ Hvs0 Hf). reflexivity.
  - assert (H0 : In 0 values) by (apply HIn; auto).
    destruct values as [|a r] eqn:E; [contradiction|]. cbn. f_equal.
    destruct H0 as [H0|H0]; auto. assert (F := increasing_head _ _ Hinc). rewrite Forall_forall in F.
    apply F in H0. exfalso.
    assert (Ha : In a (a :: r)) by (left; auto). apply HIn in Ha.
    destruct Ha as [Ha|[Ha|(i & Hi & Hp & _)]]; [lia| |].
    + rewrite Forall_forall in Hb. apply Hb in Ha. lia.
    + assert (P := pw_ge_1 gamma Hg i ltac:(lia)). change 1%Q with (inject_Z 1) in P. apply le_floor in P.
      assert (FC := floor_le_ceil (Qpower gamma i)). destruct Hp; lia.
  - intros u j Hu Hj. destruct (power_above gamma Hg j ltac:(lia)) as (i & Hi & Hp1 & Hp2).
    assert (Hju := Hp1). apply le_floor in Hju.
    assert (Hum : u <= mx) by (rewrite Forall_forall in Hmx; apply Hmx; auto).
    assert (Hfl := Qfloor_le (Qpower gamma i)).
    destruct (Z_le_gt_dec (Qfloor (Qpower gamma i)) u) as [Hle'|Hgt].
    + exists (Qfloor (Qpower gamma i)). split; [|split; [lia|lra]].
      apply HIn. right; right. exists i. split; auto. split; auto. lia.
    + exists u. split; [apply HIn; auto|]. split; [lia|].
      assert (inject_Z u <= inject_Z (Qfloor (Qpower gamma i)))%Q by (rewrite <- Zle_Qle; lia). lra.
Qed.

(** With gamma = 1 the loop never ends. *)
Lemma build_loop_diverges fuel mx : 1 <= mx -> forall i vs, build_loop fuel 1 mx i vs = None.
Proof.
  intros Hm. induction fuel as [|f IH]; intros i vs; cbn [build_loop]; auto.
  assert (E : (Qpower 1 i == 1)%Q) by apply Qpower_1.
  assert (E1 : Qfloor (Qpower 1 i) = 1) by (rewrite E; reflexivity).
  assert (E2 : Qceiling (Qpower 1 i) = 1) by (rewrite E; reflexivity).
  rewrite E1, E2. rewrite (proj2 (Z.ltb_ge mx 1)) by lia. apply IH.
Qed.

Lemma approx_correct {C D} (outside : D) (p : ssco C D) gamma inverted alpha :
  searchable p -> (1 < gamma)%Q -> (0 <= alpha)%Q ->
  exists N values, 
    (forall fuel, (N <= fuel)%nat -> build_values fuel (s_bounds p) gamma = Some (Ok values)) /\
    forall sched fuel, (N <= fuel)%nat -> exists path cache,
      approx_graph_search outside sched fuel p gamma None inverted alpha None = Some (Ok (path, cache)) /\
      allowed_schedule (s_tend p) values (s_bounds p) (gp_xs path) /\
      is_fin (gp_cost path) /\
      eeq (gp_cost path) (schedule_cost p alpha false (gp_xs path)) /\
      forall ys, allowed_schedule (s_tend p) values (s_bounds p) ys ->
        ele (gp_cost path) (schedule_cost p alpha false ys).
Proof.
  intros Hs Hg Ha. assert (Hs' := Hs). destruct Hs' as (Hne & _ & _ & _ & _ & Hb0 & _).
  destruct (max_of_ex (s_bounds p) Hne) as (m & Hm).
  destruct (build_values_spec (s_bounds p) gamma m Hg Hm Hb0) as (N & values & HN & Hinc & H0 & HIn & _).
  exists N, values. split; auto. intros sched fuel Hf.
  destruct (bound_indices_spec values (s_bounds p)) as (idx & Hidx & Hfa).
  { intros u Hu. apply HIn. auto. }
  destruct (graph_search_correct outside sched p (mkValues values idx) inverted alpha Hs) as (path & cache & H1 & H2).
  { split; [|split]; auto. }
  { exact Ha. }
  exists path, cache. split; [|exact H2].
  unfold approx_graph_search. rewrite HN by auto. cbn [obind]. rewrite Hidx. cbn [obind]. rewrite H1. reflexivity.
Qed.
