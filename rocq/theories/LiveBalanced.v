(** Live sessions of lazy budgeting for SBLO: every load is answered; the competitive ratio. *)
From Coq Require Import Lia Lqa.
From Verif Require Import NumLemmas CostSpec CostProofs ConvertProofs ConvertObjective ConvertCosts VerifySpec VerifyProofs VerifyModel DataCenterModel StreamModel StreamSpec StreamProofs
  SessionSpec SessionModel SessionStream SessionTop LoadProofs LoadObjective GraphSearchProofs BalancedModel BalancedSpec BalancedSearch BalancedRatioSpec BalancedRatioProps
  ForesightSpec ForesightModel ForesightSolvers ForesightBudget OfflineSpec OfflineEndLoads LiveSpec LiveModel LiveStream LiveLoads LiveCompete.
From Verif Require OfflineModel OfflineMore.
From Verif Require Import ProblemModel CostModel LoadModel.
Local Open Scope Z_scope.

Section Shorter.
  Variable minimize :
    (list Q -> outcome ext) -> list (Q * Q) -> list Q -> list (list Q -> outcome Q) -> option (list Q * ext).
  Hypothesis HX : solver_extensional minimize.

  (** An instance which agrees with a longer one. *)
  Section Agreeing.
    Variables (p1 p2 : gsblo Z) (U T : Z).
    Hypothesis HU : 0 <= U <= T.
    Hypothesis Hd : b_d p1 = b_d p2.
    Hypothesis Hb : b_bounds p1 = b_bounds p2.
    Hypothesis Hs : b_switching p1 = b_switching p2.
    Hypothesis Hc : length (b_cost p1) = length (b_cost p2).
    Hypothesis Hl : U <= Z.of_nat (length (b_load p1)).
    Hypothesis HA : agrees_upto p1 p2 U.

    Lemma shorter_instance : balanced_instance minimize p2 T -> balanced_instance minimize p1 U.
    Proof.
      intros [(F1 & F2 & F3) [L1 L2] C I H F]. constructor.
      - unfold well_formed_base. rewrite Hd, Hb, Hs. split; [exact F1|]. split; [lia|exact F3].
      - split; [exact Hl|]. intros t l Ht E. rewrite (ag_load _ _ _ (HA t Ht)) in E. eapply L2; [|exact E]. lia.
      - rewrite Hc, Hd. exact C.
      - intros k f u Hf Hu. pose proof (ag_cost _ _ _ (HA u Hu) k) as HC. rewrite Hf in HC.
        destruct (nth_error (b_cost p2) k) as [g|] eqn:Eg; [|contradiction]. rewrite call_certain_pred, HC, <- call_certain_pred.
        apply (I k); [exact Eg|lia].
      - intros u x Hu Hx. rewrite (hit_agrees minimize HX p1 p2) by (try apply HA; lia). rewrite Hb in Hx. apply H; [lia|exact Hx].
      - intros u Hu. rewrite (hitting_agrees minimize HX p1 p2) by (try apply HA; lia). rewrite Hb. apply F. lia.
    Qed.

    Lemma shorter_best : b_tend p1 = U -> b_tend p2 = T -> assigns_best minimize p2 -> assigns_best minimize p1.
    Proof.
      intros E1 E2 H t x l c Ht Hx Hl' Hh. rewrite E1 in Ht. rewrite (hit_agrees minimize HX p1 p2) in Hh by (try apply HA; lia).
      rewrite Hb in Hx. rewrite (ag_load _ _ _ (HA t Ht)) in Hl'. specialize (H t x l c ltac:(lia) Hx Hl' Hh). cbv zeta in H |- *.
      destruct H as [(zs & o & A1 & A2 & A3) B]. split.
      - exists zs, o. split; [exact A1|]. split; [|exact A3]. rewrite (objective_agrees p1 p2) by (apply HA; exact Ht). exact A2.
      - intros zs' o' A1' A2'. rewrite (objective_agrees p1 p2) in A2' by (apply HA; exact Ht). exact (B zs' o' A1' A2').
    Qed.
  End Agreeing.

  Variable q : gsblo Z.
  Variable N : nat.
  Hypothesis HN : b_tend q = Z.of_nat N.
  Hypothesis HLq : length (b_load q) = N.
  Variable t : nat.
  Hypothesis Ht : (t <= N)%nat.
  Notation pt := (sblo_part q t).

  Lemma part_upto : agrees_upto pt q (Z.of_nat t).
  Proof.
    intros u Hu. constructor; try reflexivity.
    - cbn [sblo_part b_load]. apply access_firstn. lia.
    - intros k. cbn [sblo_part b_cost]. destruct (nth_error _ _); auto.
  Qed.
  Lemma part_instance : balanced_instance minimize q (b_tend q) -> balanced_instance minimize pt (b_tend pt).
  Proof.
    apply (shorter_instance pt q (Z.of_nat t) (b_tend q)); try reflexivity; [lia| |exact part_upto].
    cbn [sblo_part b_load]. rewrite firstn_length. lia.
  Qed.
  Lemma part_best : assigns_best minimize q -> assigns_best minimize pt.
  Proof. apply (shorter_best pt q (Z.of_nat t) (b_tend q)); try reflexivity; [lia|exact part_upto]. Qed.
  Lemma part_convex : convex_servers q -> convex_servers pt.
  Proof.
    intros [A B C D E]. constructor.
    - intros k f u l Hf Hu. apply (A k f u l Hf). cbn [sblo_part b_tend] in Hu. lia.
    - intros k u l Hk Hu. apply (B k u l Hk). cbn [sblo_part b_tend] in Hu. lia.
    - intros k u l l' Hk Hu. apply (C k u l l' Hk). cbn [sblo_part b_tend] in Hu. lia.
    - intros k u a b s Hk Hu. apply (D k u a b s Hk). cbn [sblo_part b_tend] in Hu. lia.
    - intros k u Hk Hu. apply (E k u Hk). cbn [sblo_part b_tend] in Hu. lia.
  Qed.

  (** Sub-slots. *)
  Variable n : Z -> Z.
  Notation slots := (sub_slots n (Z.of_nat t)).
  Lemma slots_prefix : exists rest, sub_slots n (b_tend q) = slots ++ rest.
  Proof.
    exists (flat_map (fun u => repeat u (Z.to_nat (n u))) (zrange (Z.of_nat t + 1) (b_tend q))). unfold sub_slots.
    rewrite <- flat_map_app. f_equal. rewrite HN. apply zrange_app; lia.
  Qed.
  Lemma slots_range u v : access slots u = Some v -> 1 <= v <= Z.of_nat t.
  Proof.
    intros H. apply access_spec in H as [_ H]. apply nth_error_In in H. unfold sub_slots in H. apply in_flat_map in H as (w & Hw & Hv).
    apply repeat_spec in Hv. subst w. apply zrange_In in Hw. lia.
  Qed.
  Notation sub1 := (sub_problem pt n (b_tend pt)).
  Notation sub2 := (sub_problem q n (b_tend q)).
  Lemma sub_upto : agrees_upto sub1 sub2 (b_tend sub1).
  Proof.
    destruct slots_prefix as [rest ER]. intros u Hu. unfold sub_problem in Hu. cbn [b_tend sblo_part] in Hu.
    assert (EA : access (sub_slots n (b_tend q)) u = access slots u) by (rewrite ER; apply access_app; lia).
    unfold sub_problem. constructor; cbn [b_d b_bounds b_switching b_load b_cost b_tend sblo_part]; try reflexivity.
    - rewrite !ConvertCosts.access_map, EA. destruct (access slots u) as [v|] eqn:E; [|reflexivity]. cbn [option_map].
      rewrite access_firstn by (apply slots_range in E; lia). reflexivity.
    - intros k. rewrite !nth_error_map. destruct (nth_error (b_cost q) k) as [f|]; [|exact I]. cbn [option_map]. intros z.
      unfold call_predictive. rewrite !cf_new_get by lia. cbn [obind fst snd]. unfold single_predictive, certain. rewrite EA. reflexivity.
  Qed.
  Lemma sub_shorter : 0 <= b_tend sub1 <= b_tend sub2.
  Proof.
    destruct slots_prefix as [rest ER]. unfold sub_problem. cbn [b_tend sblo_part]. rewrite ER, app_length. lia.
  Qed.
  Lemma sub_instance : balanced_instance minimize sub2 (b_tend sub2) -> balanced_instance minimize sub1 (b_tend sub1).
  Proof.
    apply (shorter_instance sub1 sub2 (b_tend sub1) (b_tend sub2)); try reflexivity; [exact sub_shorter| | |exact sub_upto].
    - unfold sub_problem. cbn [b_cost sblo_part]. rewrite !map_length. reflexivity.
    - unfold sub_problem. cbn [b_load b_tend]. rewrite map_length. lia.
  Qed.
  Lemma sub_best : assigns_best minimize sub2 -> assigns_best minimize sub1.
  Proof. apply (shorter_best sub1 sub2 (b_tend sub1) (b_tend sub2)); try reflexivity; [exact sub_shorter| |exact sub_upto].
    unfold sub_problem. cbn [b_cost sblo_part]. rewrite !map_length. reflexivity. Qed.
End Shorter.

Section SbloDay.
  Variables (powf : Q -> Q -> Q) (m : data_center).
  Variable minimize :
    (list Q -> outcome ext) -> list (Q * Q) -> list Q -> list (list Q -> outcome Q) -> option (list Q * ext).
  Variable cast : Q -> Z.
  Variable s : split.
  Variable sched : Z -> Z -> vertice -> split.
  Hypothesis HX : solver_extensional minimize.
  Variable epsilon : Q.
  Notation ops := (OfflineModel.sblo_ops minimize s).
  Notation alg := (sblo_lb minimize sched epsilon).
  Notation gen := (to_sblo powf m (fun z => z) cast).

  Lemma steps_chosen p k : forall xs mm zs m', sblo_steps minimize sched epsilon p k xs mm = Ok (zs, m') ->
    exists ys, zs = xs ++ ys /\ length ys = k /\ chooses ops alg sblo_start (mkOnline p 0) xs mm ys m'.
  Proof.
    induction k as [|k IH]; intros xs mm zs m' H.
    - cbn [sblo_steps] in H. injection H as <- <-. exists []. rewrite app_nil_r. repeat split. constructor.
    - cbn [sblo_steps] in H. cbv zeta in H.
      destruct (sblo_lb minimize sched epsilon (mkOnline (sblo_at p (Z.of_nat (length xs) + 1)) 0) (Z.of_nat (length xs) + 1) xs
                  (match mm with Some m0 => m0 | None => sblo_default (b_d p) end)) as [[x m1]| |] eqn:E; try discriminate H. cbn [obind fst snd] in H.
      destruct (IH _ _ _ _ H) as (ys & E1 & E2 & E3). exists (x :: ys). rewrite E1, <- app_assoc. split; [reflexivity|].
      split; [cbn [length]; lia|]. apply chooses_one with (m1 := m1); [|exact E3]. exact E.
  Qed.

  Variables (loads more : list (list Q)) (p q : gsblo Z).
  Hypothesis Hp : gen loads = Ok p.
  Hypothesis Hq : gen (loads ++ more) = Ok q.
  Hypothesis Hmore : Forall (fun lambda => length lambda = 1%nat) more.
  Variable n : Z -> Z.
  Notation sub := (sub_problem q n (b_tend q)).
  Hypothesis Heps : (0 < epsilon)%Q.
  Hypothesis Hn : forall t, 1 <= t <= b_tend q -> determine_sub_time_slots q t epsilon = Ok (n t) /\ 0 < n t.
  Hypothesis HI : balanced_instance minimize q (b_tend q).
  Hypothesis HS : balanced_instance minimize sub (b_tend sub).
  Hypothesis HC : convex_servers q.
  Hypothesis HB : assigns_best minimize q.
  Hypothesis HBS : assigns_best minimize sub.

  Lemma day_sizes : b_tend q = Z.of_nat (length (loads ++ more)) /\ length (b_load q) = length (loads ++ more).
  Proof.
    pose proof (sblo_inverts powf m (fun z => z) cast _ _ Hq) as [A B]. split; [exact B|]. unfold single_loads in A. apply omap_length in A. exact A.
  Qed.

  (** The first slots of the day. *)
  Lemma first_slots t : (1 <= t <= length (loads ++ more))%nat ->
    exists xs mem, chooses ops alg sblo_start (mkOnline (sblo_part q t) 0) [] None xs mem /\ length xs = t /\
      cheapest_within (2 * inject_Z (b_d q) + 1 + epsilon) (sblo_objective_fn minimize s (sblo_part q t) 1) (Z.of_nat t) (b_bounds q) xs.
  Proof.
    intros Ht. destruct day_sizes as [E1 E2]. set (N := length (loads ++ more)) in *.
    destruct (sblo_lb_competitive minimize sched s (sblo_part q t) epsilon n HX) as (xs & mem & R & W); try exact Heps.
    - cbn [sblo_part b_tend]. lia.
    - intros u Hu. apply (Hn u). cbn [sblo_part b_tend] in Hu. lia.
    - apply (part_instance minimize HX q N E1 E2 t ltac:(lia) HI).
    - apply (sub_instance minimize HX q N E1 E2 t ltac:(lia) n HS).
    - apply (part_convex q N E1 E2 t ltac:(lia) HC).
    - apply (part_best minimize HX q N E1 E2 t ltac:(lia) HB).
    - apply (sub_best minimize HX q N E1 E2 t ltac:(lia) n HBS).
    - cbn [sblo_part b_tend b_d b_bounds] in R, W. rewrite Nat2Z.id in R.
      destruct (steps_chosen _ _ _ _ _ _ R) as (ys & EY & LY & CY). cbn [app] in EY. subst ys. exists xs, (Some mem). auto.
  Qed.

  Lemma first_of_day t ys xs mm m' : (length xs + length ys <= t)%nat ->
    chooses ops alg sblo_start (mkOnline q 0) xs mm ys m' -> chooses ops alg sblo_start (mkOnline (sblo_part q t) 0) xs mm ys m'.
  Proof.
    intros Ht HCh. refine (picks_first ops alg sblo_start q (sblo_part q) t _ _ ys xs mm m' Ht HCh).
    - intros u us mem Hu. apply (sblo_part_step minimize s alg (sblo_waits minimize sched epsilon) q). exact Hu.
    - intros u Hu. apply (sblo_part_blank minimize s sblo_start sblo_blank q).
  Qed.

  Lemma day_all : exists xs mem, chooses ops alg sblo_start (mkOnline q 0) [] None xs mem /\ length xs = length (loads ++ more) /\
    (exists c, sblo_objective_fn minimize s (sblo_part q 0) 1 (firstn 0 xs) = Ok c) /\
    forall t, (1 <= t <= length (loads ++ more))%nat ->
      cheapest_within (2 * inject_Z (b_d q) + 1 + epsilon) (sblo_objective_fn minimize s (sblo_part q t) 1) (Z.of_nat t) (b_bounds q) (firstn t xs).
  Proof.
    assert (H0 : forall xs, exists c, sblo_objective_fn minimize s (sblo_part q 0) 1 (firstn 0 xs) = Ok c).
    { intros xs. cbn [firstn]. unfold sblo_objective_fn, objective_o. cbn. destruct s; cbn; eauto. }
    remember (length (loads ++ more)) as N eqn:EN. destruct N as [|N].
    - exists [], None. split; [constructor|]. split; [reflexivity|]. split; [apply H0|]. lia.
    - destruct (first_slots (S N) ltac:(lia)) as (xs & mem & CH & LX & _). rewrite EN, (sblo_whole powf m (fun z => z) cast _ _ Hq) in CH.
      exists xs, mem. split; [exact CH|]. split; [exact LX|]. split; [apply H0|].
      intros t Ht. destruct (first_slots t ltac:(lia)) as (ys & mem' & CY & LY & W).
      assert (EY : firstn t xs = ys); [|rewrite EY; exact W].
      rewrite <- (firstn_skipn t xs) in CH. apply chooses_app in CH as (m1 & C1 & _).
      apply (first_of_day t) in C1; [|cbn [length]; rewrite firstn_length; lia].
      eapply chooses_same; [|exact C1|exact CY]. rewrite firstn_length. lia.
  Qed.

  Lemma day_checked t : 0 <= t <= Z.of_nat (length loads) ->
    verify_sblo valZ (mkGSBLO (b_d p) t (b_bounds p) (b_switching p) (b_cost p) (b_load p)) = Ok tt.
  Proof.
    intros Ht. destruct day_sizes as [E1 E2]. pose proof (sblo_starts powf m (fun z => z) cast loads more p q Hp Hq) as Ep.
    assert (ET : b_tend p = Z.of_nat (length loads)) by (rewrite Ep; reflexivity).
    apply sblo_verified. apply sblo_shorter; [lia|]. rewrite Ep.
    destruct (bi_form _ _ _ HI) as (A & B & E). pose proof (bi_loads _ _ _ HI) as J. split.
    - split; [exact A|]. split; [cbn [sblo_part b_tend]; lia|exact E].
    - cbn [sblo_part b_tend b_load]. eapply loads_first; [exact J|]. rewrite E1, app_length. lia.
  Qed.

  Lemma sblo_session_within : exists off rs mem,
    sblo_session powf m minimize cast s sched epsilon 0 loads (map Input (into_online more))
      = Ok (off, (map Answered rs, Some (mkOnline q 0, of_xs off ++ map r_x rs, mem))) /\
    length (of_xs off) = length loads /\ length rs = length more /\
    forall k today c, (k <= length more)%nat -> gen (loads ++ firstn k more) = Ok today -> reported off rs k c ->
      let xs := of_xs off ++ map r_x (firstn k rs) in
      sblo_objective_fn minimize s today 1 xs = Ok c /\
      ((1 <= length loads + k)%nat ->
       cheapest_within (2 * inject_Z (b_d today) + 1 + epsilon) (sblo_objective_fn minimize s today 1) (b_tend today) (b_bounds today) xs).
  Proof.
    destruct day_all as (xs & mem & CH & LX & HZ & HW).
    assert (HG : forall k today, (k <= length more)%nat -> gen (loads ++ firstn k more) = Ok today -> today = sblo_part q (length loads + k)).
    { intros k today Hk E. pose proof (sblo_prefix powf m (fun z => z) cast (loads ++ more) q (length loads + k) Hq) as F. rewrite app_length in F. specialize (F ltac:(lia)).
      rewrite firstn_app, (firstn_all2 loads) in F by lia. replace (length loads + k - length loads)%nat with k in F by lia. congruence. }
    destruct (sblo_live powf m minimize cast s alg sblo_start (sblo_waits minimize sched epsilon) sblo_blank loads more p q Hp Hq Hmore xs mem day_checked CH LX)
      as (off & rs & R1 & R2 & R3 & R4 & R5).
    { intros k today Hk E. apply HG in E; [|exact Hk]. subst today. destruct (length loads + k)%nat as [|t] eqn:Et; [exact HZ|].
      destruct (HW (S t)) as [_ (c & Hc & _)]; [rewrite app_length; lia|]. exists c. exact Hc. }
    exists off, rs, mem. unfold sblo_session. rewrite Hp. cbn [obind]. rewrite <- R4. split; [exact R1|]. split; [exact R3|]. split; [exact R2|].
    intros k today c Hk E Hc. set (ys := of_xs off ++ map r_x (firstn k rs)). split; [exact (R5 k today c Hk E Hc)|]. intros H1. apply HG in E; [|exact Hk]. subst today.
    cbn [sblo_part b_d b_tend b_bounds].
    assert (EY : ys = firstn (length loads + k) xs).
    { unfold ys. rewrite R4, firstn_app, (firstn_all2 (of_xs off)) by lia. rewrite firstn_map. do 3 f_equal. lia. }
    rewrite EY. apply HW. rewrite app_length. lia.
  Qed.
End SbloDay.

Lemma sblo_session_competitive powf m minimize cast s sched epsilon loads more p q n :
  let sub := sub_problem q n (b_tend q) in
  solver_extensional minimize ->
  to_sblo powf m (fun z => z) cast loads = Ok p -> to_sblo powf m (fun z => z) cast (loads ++ more) = Ok q ->
  Forall (fun lambda => length lambda = 1%nat) more ->
  (0 < epsilon)%Q ->
  (forall t, 1 <= t <= b_tend q -> determine_sub_time_slots q t epsilon = Ok (n t) /\ 0 < n t) ->
  balanced_instance minimize q (b_tend q) -> balanced_instance minimize sub (b_tend sub) ->
  convex_servers q -> assigns_best minimize q -> assigns_best minimize sub ->
  exists off rs mem,
    sblo_session powf m minimize cast s sched epsilon 0 loads (map Input (into_online more))
      = Ok (off, (map Answered rs, Some (mkOnline q 0, of_xs off ++ map r_x rs, mem))) /\
    length (of_xs off) = length loads /\ length rs = length more /\
    forall k today c, (k <= length more)%nat -> to_sblo powf m (fun z => z) cast (loads ++ firstn k more) = Ok today -> reported off rs k c ->
      let xs := of_xs off ++ map r_x (firstn k rs) in
      sblo_objective_fn minimize s today 1 xs = Ok c /\
      ((1 <= length loads + k)%nat ->
       cheapest_within (2 * inject_Z (b_d today) + 1 + epsilon) (sblo_objective_fn minimize s today 1) (b_tend today) (b_bounds today) xs).
Proof.
  intros sub HX Hp Hq Hmore He Hn HI HS HC HB HBS.
  exact (sblo_session_within powf m minimize cast s sched HX epsilon loads more p q Hp Hq Hmore n He Hn HI HS HC HB HBS).
Qed.
