(** The cost of a configuration of several types of servers: the least over all divisions of the load. *)
From Coq Require Import Lia Lqa Setoid.
From Verif Require Import NumLemmas CostSpec OptimizeProofs LoadProofs LoadObjective GuessSpec GuessProofs DataCenterParts DataCenterProofs DataCenterInstances
  OneTypeCosts JointSpec JointSolver.
From Verif Require Import ProblemModel CostModel.
Local Open Scope Z_scope.

(** ** Divisions and the variables of the solver *)
Definition whole (zs : list Q) : list Q := zs ++ [(1 - Qsum zs)%Q].

Lemma whole_length zs : length (whole zs) = S (length zs).
Proof. unfold whole. rewrite app_length. simpl. lia. Qed.
Lemma whole_sum zs : (Qsum (whole zs) == 1)%Q.
Proof. unfold whole. rewrite Qsum_app. cbn [Qsum]. ring. Qed.
Lemma hundredths_sum zs : Forall hundredths zs -> hundredths (Qsum zs).
Proof.
  induction 1 as [|z zs [a Ha] _ [b Hb]]; [exists 0; reflexivity|]. cbn [Qsum]. exists (a + b). rewrite Ha, Hb. unfold Qeq; simpl; lia.
Qed.
Lemma whole_division n zs : length zs = n -> Forall (fun z => hundredths z /\ 0 <= z)%Q zs -> (Qsum zs <= 1)%Q -> division (S n) (whole zs).
Proof.
  intros HL HF HS. split; [rewrite whole_length; congruence|]. split; [|apply whole_sum].
  unfold whole. apply Forall_app. split; [exact HF|]. constructor; [|constructor]. split; [|lra].
  destruct (hundredths_sum zs) as [a Ha]; [eapply Forall_impl; [|exact HF]; intros ? [H _]; exact H|]. exists (100 - a). rewrite Ha. unfold Qeq; cbn -[Z.mul Z.add Z.sub]; lia.
Qed.
Lemma Qsum_entry l q : Forall (fun z => 0 <= z)%Q l -> In q l -> (q <= Qsum l)%Q.
Proof.
  induction 1 as [|z l Hz Hl IH]; intros []; cbn [Qsum].
  - subst. pose proof (Qsum_nonneg_all l Hl). lra.
  - pose proof (IH H). lra.
Qed.
Lemma division_parts n ss : division (S n) ss ->
  length (removelast ss) = n /\ Forall (fun z => hundredths z /\ 0 <= z <= 1)%Q (removelast ss) /\ (Qsum (removelast ss) <= 1)%Q /\ Forall2 Qeq (whole (removelast ss)) ss.
Proof.
  intros (HL & HF & HS). assert (ss <> []) as Hne by (intros ->; discriminate).
  pose proof (app_removelast_last 0%Q Hne) as E. set (zs := removelast ss) in *. set (z := last ss 0%Q) in *.
  assert (Forall (fun z => 0 <= z)%Q ss) as HN by (eapply Forall_impl; [|exact HF]; intros ? [_ H]; exact H).
  assert (HS' : (Qsum zs + z == 1)%Q) by (rewrite <- HS, E, Qsum_app; cbn [Qsum]; ring).
  assert (0 <= z)%Q as Hz. { rewrite E in HN. apply Forall_app in HN as [_ HN]. apply Forall_inv in HN. exact HN. }
  split; [rewrite E, app_length in HL; simpl in HL; lia|]. split; [|split; [lra|]].
  - apply Forall_forall. intros y Hy. assert (In y ss) as Hys by (rewrite E; apply in_app_iff; auto).
    rewrite Forall_forall in HF. pose proof (HF y Hys) as [H1 H2]. split; [exact H1|]. split; [exact H2|].
    rewrite <- HS. apply Qsum_entry; assumption.
  - unfold whole. rewrite E. apply Forall2_app; [clear; induction zs; constructor; auto; reflexivity|]. constructor; [lra|constructor].
Qed.

Lemma nth_eq a b k : Forall2 Qeq a b -> (nth k a 0 == nth k b 0)%Q.
Proof. intros H. revert k. induction H as [|x y a b E _ IH]; intros [|k]; simpl; auto; reflexivity. Qed.
Lemma Qsum_eq a b : Forall2 Qeq a b -> (Qsum a == Qsum b)%Q.
Proof. exact (same_sum a b). Qed.
Lemma whole_eq a b : Forall2 Qeq a b -> Forall2 Qeq (whole a) (whole b).
Proof. intros H. apply Forall2_app; [exact H|]. constructor; [rewrite (Qsum_eq _ _ H); reflexivity|constructor]. Qed.

Lemma same_sym a b : same_loads a b -> same_loads b a.
Proof. induction 1; constructor; auto; symmetry; assumption. Qed.

Definition same_parts (q : Q) (a b : list Q) : Prop := forall k, (q * nth k a 0 == q * nth k b 0)%Q.
Lemma parts_eq q a b : Forall2 Qeq a b -> same_parts q a b.
Proof. intros H k. rewrite (nth_eq a b k H). reflexivity. Qed.
Lemma processes_eq m x q a b : same_parts q a b -> processes m x q a -> processes m x q b.
Proof.
  intros H HP k st Hk. eapply same_supported; [reflexivity| |exact (HP k st Hk)]. constructor; [|constructor]. apply H.
Qed.
Lemma processes_dec m x q ss : {processes m x q ss} + {~ processes m x q ss}.
Proof.
  assert (G : forall sts n, {forall k st, nth_error sts k = Some st -> supported m st (inject_Z (nth (n + k) x 0)) [(q * nth (n + k) ss 0)%Q]} +
    {~ forall k st, nth_error sts k = Some st -> supported m st (inject_Z (nth (n + k) x 0)) [(q * nth (n + k) ss 0)%Q]}).
  { induction sts as [|st sts IH]; intros n; [left; intros [|k] st H; discriminate|].
    destruct (supported_dec m st [(q * nth n ss 0)%Q] (inject_Z (nth n x 0))) as [H1|H1].
    - destruct (IH (S n)) as [H2|H2].
      + left. intros [|k] st' Hk; cbn [nth_error] in Hk; [injection Hk as <-; rewrite Nat.add_0_r; exact H1|]. rewrite <- Nat.add_succ_comm. apply H2. exact Hk.
      + right. intros H. apply H2. intros k st' Hk. rewrite Nat.add_succ_comm. apply H. exact Hk.
    - right. intros H. apply H1. specialize (H 0%nat st eq_refl). rewrite Nat.add_0_r in H. exact H. }
  exact (G (dc_server_types m) 0%nat).
Qed.

Lemma zeros_sum n : (Qsum (repeat 0%Q n) == 0)%Q.
Proof. induction n as [|n IH]; cbn [repeat Qsum]; [reflexivity|]. rewrite IH. reflexivity. Qed.

Section Slot.
  Variables (powf : Q -> Q -> Q) (m : data_center) (price : location -> Z -> Q) (power : server_type -> Q -> Q)
    (revenue : job_type -> Q * Q) (l : location) (caps : list Z) (betas : list Q).
  Hypothesis HC : center powf m price power revenue l caps betas.
  Let HD := ct_described _ _ _ _ _ _ _ _ HC.
  Let K := length (dc_server_types m).

  Lemma types_pos : (0 < K)%nat.
  Proof. unfold K. pose proof (ct_types _ _ _ _ _ _ _ _ HC). destruct (dc_server_types m); [congruence|simpl; lia]. Qed.
  Lemma center_d : dc_d m = K.
  Proof. unfold dc_d. rewrite (ct_location _ _ _ _ _ _ _ _ HC). simpl. unfold K. lia. Qed.
  Lemma center_e : dc_e m = 1%nat.
  Proof. unfold dc_e. rewrite (ct_source _ _ _ _ _ _ _ _ HC), (ct_job_type _ _ _ _ _ _ _ _ HC). reflexivity. Qed.
  Lemma caps_length : length caps = K.
  Proof. symmetry. exact (Forall2_len _ _ _ (ct_caps _ _ _ _ _ _ _ _ HC)). Qed.

  Lemma energy_eq st x a b : In st (dc_server_types m) -> same_loads a b -> (type_energy m power st x a == type_energy m power st x b)%Q.
  Proof.
    intros Hst H. unfold type_energy. destruct (Qle_bool x 0); [reflexivity|].
    rewrite (ct_power _ _ _ _ _ _ _ _ HC st _ (work m st b / (x * dc_delta m))%Q Hst); [reflexivity|]. rewrite (same_work m st a b H). reflexivity.
  Qed.
  Lemma active_eq st t x a b : In st (dc_server_types m) -> same_loads a b ->
    (active_cost m price power revenue l st t a x == active_cost m price power revenue l st t b x)%Q.
  Proof.
    intros Hst H. unfold active_cost. rewrite (energy_eq st x a b Hst H), (same_revenue m revenue t l st x x a b (Qeq_refl x) H). reflexivity.
  Qed.
  Lemma running_eq t x q a b : same_parts q a b -> (running_cost m price power revenue l t x q a == running_cost m price power revenue l t x q b)%Q.
  Proof.
    intros H. unfold running_cost. apply Qsum_map_eq. intros k _. destruct (nth_error (dc_server_types m) k) as [st|] eqn:E; [|reflexivity].
    apply active_eq; [eapply nth_error_In; exact E|]. constructor; [|constructor]. apply H.
  Qed.

  Lemma energy_part_eq t x q a b : same_parts q a b -> (energy_part m price power l t x q a == energy_part m price power l t x q b)%Q.
  Proof.
    intros H. unfold energy_part. rewrite (Qsum_map_eq _ (fun k => match nth_error (dc_server_types m) k with
      | Some st => type_energy m power st (inject_Z (nth k x 0%Z)) [(q * nth k b 0)%Q] | None => 0%Q end)); [reflexivity|].
    intros k _. destruct (nth_error (dc_server_types m) k) as [st|] eqn:E; [|reflexivity].
    apply energy_eq; [eapply nth_error_In; exact E|]. constructor; [|constructor]. apply H.
  Qed.
  Lemma revenue_part_eq t x q a b : same_parts q a b -> (revenue_part m revenue l t x q a == revenue_part m revenue l t x q b)%Q.
  Proof.
    intros H. unfold revenue_part. apply Qsum_map_eq.
    intros k _. destruct (nth_error (dc_server_types m) k) as [st|] eqn:E; [|reflexivity].
    apply same_revenue; [reflexivity|]. constructor; [|constructor]. apply H.
  Qed.
  Lemma running_parts t x q ss : (energy_part m price power l t x q ss + revenue_part m revenue l t x q ss == running_cost m price power revenue l t x q ss)%Q.
  Proof.
    unfold energy_part, revenue_part, running_cost. induction (seq 0 (length (dc_server_types m))) as [|k ks IH]; cbn [map Qsum]; [ring|].
    rewrite <- IH. destruct (nth_error (dc_server_types m) k); unfold active_cost; ring.
  Qed.

  Variables (t : Z) (q : Q) (x : list Z).
  Hypothesis Hq : (0 <= q)%Q.
  Hypothesis Hx : feasible_config caps x.

  Let objective := dc_objective_of powf m valZ.
  Let f (zs : list Q) : outcome ext :=
    do o <- objective t x [q] (new_fractions zs K 1); Ok (obj_total (match o with ROk c => c | RErr _ => obj_failure end)).
  Let cs : list (list Q -> outcome Q) :=
    map (fun i zs => do g <- get_fraction (new_fractions zs K 1) (K - 1) i [q]; Ok (- g)%Q) (seq 0 1).
  Let bounds := repeat (0, 1)%Q (K - 1).

  Lemma x_length : length x = K.
  Proof. rewrite <- caps_length. symmetry. exact (Forall2_len _ _ _ Hx). Qed.
  Lemma x_nonneg : Forall (fun j => 0 <= v_toQ valZ j)%Q x.
  Proof.
    clear -Hx. induction Hx; constructor; auto. cbn [valZ v_toQ]. change 0%Q with (inject_Z 0). rewrite <- Zle_Qle. lia.
  Qed.

  Lemma in_bounds z : grid bounds z <-> length z = (K - 1)%nat /\ Forall (fun y => hundredths y /\ 0 <= y <= 1)%Q z.
  Proof.
    unfold grid, in_boxQ, bounds. split.
    - intros [H1 H2]. split; [rewrite <- (Forall2_len _ _ _ H1); apply repeat_length|].
      apply Forall_forall. intros y Hy. split; [rewrite Forall_forall in H2; auto|].
      apply In_nth_error in Hy as (i & Hi). revert i Hi H1. generalize (K - 1)%nat. clear. induction z as [|a z IH]; intros n [|i] Hi H1; try discriminate; destruct n; cbn [repeat] in H1; inversion H1 as [|? ? ? ? HB HB']; subst.
      + injection Hi as <-. exact HB.
      + eapply IH; eauto.
    - intros [H1 H2]. split; [|eapply Forall_impl; [|exact H2]; intros ? [H _]; exact H].
      rewrite <- H1. clear -H2. induction H2; cbn [length repeat]; constructor; auto. cbn [fst snd]. tauto.
  Qed.

  (** *** The load of every type *)
  Lemma column_all zs : length zs = (K - 1)%nat -> column zs 1 0 (K - 1) = zs.
  Proof.
    intros HL. unfold column. apply nth_ext with (d := 0%Q) (d' := 0%Q).
    - rewrite map_length, seq_length. lia.
    - intros j Hj. rewrite map_length, seq_length in Hj. rewrite (nth_map_seq (fun j => nth (j * 1 + 0) zs 0%Q)) by exact Hj. f_equal. lia.
  Qed.
  Lemma part_of zs k : length zs = (K - 1)%nat -> (k < K)%nat ->
    exists g, get_fraction (mkFractions zs K 1) k 0 [q] = Ok g /\ (q * g == q * nth k (whole zs) 0)%Q.
  Proof.
    intros HL Hk. pose proof types_pos as HK. rewrite (fractions_ok zs K 1 [q]) with (l := q); auto; try lia; try reflexivity.
    eexists. split; [reflexivity|]. unfold whole. destruct (k <? K - 1)%nat eqn:E.
    - apply Nat.ltb_lt in E. rewrite app_nth1 by lia. replace (k * 1 + 0)%nat with k by lia. reflexivity.
    - apply Nat.ltb_ge in E. rewrite app_nth2 by lia. replace (k - length zs)%nat with 0%nat by lia. cbn [nth].
      rewrite (column_all zs HL). unfold load_total. cbn [Qsum]. destruct (Qltb 0 (q + 0)) eqn:EL.
      + apply Qltb_iff in EL. assert (q / (q + 0) == 1)%Q as -> by (field; lra). reflexivity.
      + apply Qltb_false in EL. assert (q == 0)%Q as -> by lra. ring.
  Qed.

  Lemma allowed_sum z : length z = (K - 1)%nat -> Forall hundredths z -> (allowed cs z <-> (q == 0)%Q \/ (Qsum z <= 1)%Q).
  Proof.
    intros HL HH. pose proof types_pos as HK. unfold allowed, cs. cbn [seq map].
    assert (HL' : length (map apply_precision z) = (K - 1)%nat) by (rewrite map_length; exact HL).
    assert (EG : (do g <- get_fraction (new_fractions z K 1) (K - 1) 0 [q]; Ok (- g)%Q) =
                 Ok (- (if Qltb 0 (q + 0) then q / (q + 0) - Qsum (map apply_precision z) else 0))%Q).
    { unfold new_fractions. rewrite (fractions_ok (map apply_precision z) K 1 [q]) with (l := q); auto; try lia; try reflexivity. cbn [obind].
      rewrite Nat.ltb_irrefl, (column_all _ HL'). reflexivity. }
    pose proof (Qsum_eq _ _ (map_ap_eq z HH)) as ES.
    split.
    - intros H. apply Forall_inv in H as (g & E & L). cbv beta in E. rewrite EG in E. injection E as <-. destruct (Qltb 0 (q + 0)) eqn:EL.
      + right. apply Qltb_iff in EL. assert (q / (q + 0) == 1)%Q as EQ by (field; lra). rewrite EQ, ES in L. lra.
      + left. apply Qltb_false in EL. lra.
    - intros H. constructor; [|constructor]. eexists. split; [exact EG|]. destruct (Qltb 0 (q + 0)) eqn:EL; [|lra].
      apply Qltb_iff in EL. assert (q / (q + 0) == 1)%Q as EQ by (field; lra). rewrite EQ, ES. destruct H; lra.
  Qed.

  (** *** The objective *)
  Lemma parts_nonneg z k : length z = (K - 1)%nat -> Forall (fun y => hundredths y /\ 0 <= y <= 1)%Q z -> (q == 0)%Q \/ (Qsum z <= 1)%Q ->
    (0 <= q * nth k (whole z) 0)%Q.
  Proof.
    intros HL HF [E|HS]; [rewrite E; lra|]. apply Qmult_le_0_compat; [exact Hq|].
    destruct (nth_in_or_default k (whole z) 0%Q) as [H|H]; [|rewrite H; lra].
    unfold whole in H. apply in_app_iff in H as [H|[H|[]]]; [|unfold whole; rewrite <- H; lra]. rewrite Forall_forall in HF. apply HF in H. tauto.
  Qed.

  Lemma objective_at z : grid bounds z -> (q == 0)%Q \/ (Qsum z <= 1)%Q ->
    exists o, objective t x [q] (new_fractions z K 1) = Ok o /\
      (processes m x q (whole z) ->
         exists e r, o = ROk (Fin e, Fin r) /\ (e == energy_part m price power l t x q (whole z))%Q /\ (r == revenue_part m revenue l t x q (whole z))%Q) /\
      (~ processes m x q (whole z) -> obj_total (match o with ROk c => c | RErr _ => obj_failure end) = Inf).
  Proof.
    intros HG HS. apply in_bounds in HG as [HL HF].
    assert (HH : Forall hundredths z) by (eapply Forall_impl; [|exact HF]; intros ? [H _]; exact H).
    pose proof (map_ap_eq z HH) as EZ. pose proof (whole_eq _ _ EZ) as EW.
    assert (HL' : length (map apply_precision z) = (K - 1)%nat) by (rewrite map_length; exact HL).
    assert (HP : forall k, (k < K)%nat -> exists g, get_fraction (new_fractions z K 1) k 0 [q] = Ok g /\ (q * g == q * nth k (whole z) 0)%Q).
    { intros k Hk. destruct (part_of (map apply_precision z) k HL' Hk) as (g & E & EG). exists g. split; [exact E|]. rewrite EG, (nth_eq _ _ k EW). reflexivity. }
    set (loads := fun k => match get_fraction (new_fractions z K 1) k 0 [q] with Ok g => [(q * g)%Q] | _ => [] end).
    assert (HLo : forall k, (k < K)%nat -> select_loads (new_fractions z K 1) [q] k = Ok (loads k) /\ same_loads (loads k) [(q * nth k (whole z) 0)%Q]).
    { intros k Hk. destruct (HP k Hk) as (g & E & EG). unfold loads, select_loads. rewrite E. cbn [new_fractions f_e seq omap nth_error from_option obind].
      rewrite E. cbn [obind]. split; [reflexivity|]. constructor; [exact EG|constructor]. }
    destruct (DataCenterInstances.objective_value powf m price power revenue Z valZ t x [q] (new_fractions z K 1) loads HD) as (o & EO & HY & HN).
    - rewrite center_d. apply x_length.
    - exact x_nonneg.
    - intros k Hk. rewrite center_d in Hk. destruct (HLo k Hk) as [H1 H2]. split; [exact H1|].
      split; [rewrite (Forall2_len _ _ _ H2), center_e; reflexivity|].
      destruct (HP k Hk) as (g & E & EG). unfold loads. rewrite E. constructor; [|constructor]. rewrite EG. apply parts_nonneg; assumption.
    - exists o. split; [exact EO|]. cbv zeta in HY, HN. rewrite (ct_location _ _ _ _ _ _ _ _ HC) in HY, HN. cbn [length] in HY, HN.
      assert (HI : forall k st, nth_error (dc_server_types m) k = Some st -> (k < K)%nat) by (intros k st Hk; apply nth_error_Some; congruence).
      split.
      + intros HPr. destruct HY as (e & r & -> & Ee & Er).
        { intros j k st Hj Hk. assert (j = 0%nat) by lia. subst j. cbn [Nat.mul Nat.add]. destruct (HLo k (HI k st Hk)) as [_ HSm].
          eapply same_supported; [reflexivity|exact (same_sym _ _ HSm)|]. exact (HPr k st Hk). }
        exists e, r. split; [reflexivity|]. rewrite Ee, Er. unfold over_locations. rewrite (ct_location _ _ _ _ _ _ _ _ HC). cbn [length seq map nth_error Qsum].
        unfold over_types. rewrite (ct_location _ _ _ _ _ _ _ _ HC). cbn [nth_error Nat.mul Nat.add]. unfold energy_part, revenue_part. split.
        * rewrite (Qsum_map_eq _ (fun k => match nth_error (dc_server_types m) k with
            | Some st => type_energy m power st (inject_Z (nth k x 0%Z)) [(q * nth k (whole z) 0)%Q] | None => 0%Q end)); [ring|].
          intros k Hk. apply in_seq in Hk. destruct (nth_error (dc_server_types m) k) as [st|] eqn:Est; [|reflexivity].
          apply energy_eq; [eapply nth_error_In; exact Est|]. apply (HLo k). unfold K. lia.
        * rewrite (Qsum_map_eq _ (fun k => match nth_error (dc_server_types m) k with
            | Some st => type_revenue m revenue t l st (inject_Z (nth k x 0%Z)) [(q * nth k (whole z) 0)%Q] | None => 0%Q end)); [ring|].
          intros k Hk. apply in_seq in Hk. destruct (nth_error (dc_server_types m) k) as [st|] eqn:Est; [|reflexivity].
          apply same_revenue; [reflexivity|]. apply (HLo k). unfold K. lia.
      + intros HPr. assert (HF' : forall e r, o <> ROk (Fin e, Fin r)).
        { destruct (processes_dec m x q (whole z)) as [?|_]; [contradiction|].
          assert (E : ~ forall k st, nth_error (dc_server_types m) k = Some st -> supported m st (inject_Z (nth k x 0)) [(q * nth k (whole z) 0)%Q]) by exact HPr.
          intros e r Eo. apply E. intros k st Hk. destruct (supported_dec m st [(q * nth k (whole z) 0)%Q] (inject_Z (nth k x 0))) as [H|H]; [exact H|exfalso].
          apply (HN (ex_intro _ 0%nat (ex_intro _ k (ex_intro _ st (conj (Nat.lt_0_1) (conj Hk (fun S => H (same_supported m st _ _ _ _ (Qeq_refl _) (proj2 (HLo k (HI k st Hk))) S))))))) e r Eo). }
        destruct o as [[e r]|err]; [|reflexivity]. unfold obj_total. cbn [fst snd]. destruct e as [e|], r as [r|]; try reflexivity. exfalso. apply (HF' e r). reflexivity.
  Qed.

  (** *** The solver *)
  Lemma f_rounds : rounds f.
  Proof. intros z. unfold f, new_fractions. rewrite map_ap_idem. reflexivity. Qed.
  Lemma cs_rounds : Forall rounds cs.
  Proof. unfold cs. cbn [seq map]. constructor; [|constructor]. intros z. unfold new_fractions. rewrite map_ap_idem. reflexivity. Qed.
  Lemma cs_defined g z : In g cs -> grid bounds z -> exists v, g z = Ok v.
  Proof.
    intros Hg Hz. apply in_bounds in Hz as [HL _]. unfold cs in Hg. cbn [seq map] in Hg. destruct Hg as [<-|[]]. pose proof types_pos.
    unfold new_fractions. rewrite (fractions_ok (map apply_precision z) K 1 [q]) with (l := q); auto; try lia; try reflexivity; [|rewrite map_length; lia].
    cbn [obind]. eexists. reflexivity.
  Qed.
  Lemma f_defined z : grid bounds z -> (q == 0)%Q \/ (Qsum z <= 1)%Q -> exists c, f z = Ok c.
  Proof. intros HG HS. destruct (objective_at z HG HS) as (o & E & _). unfold f. rewrite E. cbn [obind]. eauto. Qed.
  Lemma grid_allowed z : grid bounds z -> (allowed cs z <-> (q == 0)%Q \/ (Qsum z <= 1)%Q).
  Proof. intros HG. apply in_bounds in HG as [HL HF]. apply allowed_sum; [exact HL|]. eapply Forall_impl; [|exact HF]. intros ? [H _]. exact H. Qed.

  Definition even_guess : list Q := initial_guess valZ 1 (K * 1 - 1) x.
  Lemma guess_in : length even_guess = (K * 1 - 1)%nat /\ in_boxQ bounds even_guess.
  Proof.
    destruct (guess_bounds valZ K 1 x x_length types_pos Nat.lt_0_1 x_nonneg) as [H1 H2]. split; [exact H1|].
    unfold even_guess, in_boxQ, bounds. replace (K - 1)%nat with (length (initial_guess valZ 1 (K * 1 - 1) x)) by (rewrite H1; lia).
    clear -H2. induction H2; cbn [length repeat]; constructor; auto.
  Qed.
  Lemma bounds_aligned : aligned bounds.
  Proof.
    unfold bounds, aligned. apply Forall_forall. intros b Hb. apply repeat_spec in Hb. subst b. cbn [fst snd]. split; [exists 0; reflexivity|]. split; [exists 100; reflexivity|lra].
  Qed.

  Definition balances (minimize : (list Q -> outcome ext) -> list (Q * Q) -> list Q -> list (list Q -> outcome Q) -> option (list Q * ext)) : Prop :=
    exists z c, minimize f bounds even_guess cs = Some (z, c) /\ balanced bounds f cs z c.

  Lemma none_allowed : exists z, grid bounds z /\ allowed cs z.
  Proof.
    exists (repeat 0%Q (K - 1)). assert (HG : grid bounds (repeat 0%Q (K - 1))).
    { apply in_bounds. split; [apply repeat_length|]. apply Forall_forall. intros y Hy. apply repeat_spec in Hy. subst y. split; [exists 0; reflexivity|lra]. }
    split; [exact HG|]. apply grid_allowed; [exact HG|]. right. rewrite zeros_sum. lra.
  Qed.

  Lemma careful_slot nlopt : careful_nlopt nlopt -> balances (load_minimize nlopt).
  Proof.
    intros HN. apply careful_balances; auto.
    - exact bounds_aligned.
    - exact (proj2 guess_in).
    - exact f_rounds.
    - exact cs_rounds.
    - exact cs_defined.
    - exact none_allowed.
    - intros z HG HA. apply f_defined; [exact HG|]. apply grid_allowed; assumption.
  Qed.

  Lemma two_slot nlopt : K = 2%nat -> exact_nlopt nlopt -> balances (load_minimize nlopt).
  Proof.
    intros H2 HN. assert (HS : forall z, grid bounds z -> (Qsum z <= 1)%Q).
    { intros z HG. apply in_bounds in HG as [HL HF]. rewrite H2 in HL. destruct z as [|a [|]]; try discriminate. apply Forall_inv in HF. cbn [Qsum]. lra. }
    apply exact_balances; auto.
    - exact bounds_aligned.
    - exact (proj2 guess_in).
    - exact f_rounds.
    - exact cs_rounds.
    - exact cs_defined.
    - exact none_allowed.
    - intros z HG. apply f_defined; auto.
    - intros z HG. apply grid_allowed; auto.
  Qed.

  (** *** The cost of the slot *)
  Definition told (ss : list Q) (o : model_output dc_success dc_failure) : Prop :=
    exists e r z, o = MSuccess (mkDCS (Fin e) (Fin r) [[z]]) /\ (e == energy_part m price power l t x q ss)%Q /\
      (r == revenue_part m revenue l t x q ss)%Q /\ ((0 < q)%Q -> z = removelast ss).

  Lemma slot_value minimize : balances minimize ->
    exists c, apply_loads valZ minimize (dc_d m) (dc_e m) objective [q] t x = Ok c /\
      ((exists ss, division K ss /\ processes m x q ss /\ eeq (c_cost c) (Fin (running_cost m price power revenue l t x q ss)) /\ told ss (c_out c)) \/ c_cost c = Inf) /\
      (forall ss, division K ss -> processes m x q ss -> ele (c_cost c) (Fin (running_cost m price power revenue l t x q ss))).
  Proof.
    intros (z & c & EM & HG & Hap & HA & Ef & Hbest). pose proof types_pos as HK.
    unfold apply_loads. rewrite center_d, center_e. cbn [length Nat.eqb negb].
    rewrite (proj2 (Nat.ltb_ge (K * 1) 1)) by lia. fold even_guess. rewrite (proj1 guess_in), Nat.eqb_refl. cbn [negb].
    replace (K * 1 - 1)%nat with (K - 1)%nat by lia. fold bounds. fold f. fold cs.
    change (initial_guess valZ 1 (K - 1) x) with even_guess.
    rewrite EM. cbn [from_option obind fst snd].
    pose proof (proj1 (grid_allowed z HG) HA) as HS. destruct (objective_at z HG HS) as (o & EO & HY & HN).
    rewrite EO. cbn [obind]. unfold f in Ef. rewrite EO in Ef. cbn [obind] in Ef. injection Ef as Ec.
    assert (HLow : forall ss, division K ss -> processes m x q ss -> ele c (Fin (running_cost m price power revenue l t x q ss))).
    { intros ss Hss Hpr. replace K with (S (K - 1)) in Hss by lia. destruct (division_parts (K - 1) ss Hss) as (D1 & D2 & D3 & D4).
      assert (HG' : grid bounds (removelast ss)) by (apply in_bounds; split; [exact D1|exact D2]).
      assert (HS' : (q == 0)%Q \/ (Qsum (removelast ss) <= 1)%Q) by (right; exact D3).
      destruct (objective_at _ HG' HS') as (o' & EO' & HY' & _).
      destruct HY' as (e & r & -> & Ee & Er). { eapply processes_eq; [|exact Hpr]. apply parts_eq. apply same_sym. exact D4. }
      assert (ele c (Fin (e + r))) as HE.
      { apply (Hbest (removelast ss)); [exact HG'|apply grid_allowed; assumption|]. unfold f. rewrite EO'. reflexivity. }
      destruct c; [|exact HE]. cbn [ele] in *. rewrite <- (running_eq t x q _ _ (parts_eq q _ _ D4)), <- running_parts, <- Ee, <- Er. exact HE. }
    assert (HC' : exists c', match o with
        | ROk c0 => if eleb c (obj_total c0) && eleb (obj_total c0) c then Ok (mkCost c (MSuccess (mkDCS (fst c0) (snd c0) [[z]]))) else Panic
        | RErr e => Ok (mkCost c (MFailure e)) end = Ok c' /\ c_cost c' = c /\ c_out c' = match o with ROk c0 => MSuccess (mkDCS (fst c0) (snd c0) [[z]]) | RErr e => MFailure e end).
    { destruct o as [c0|e]; [|eexists; repeat split; reflexivity]. cbv beta iota in Ec. rewrite Ec.
      assert (eleb c c = true) as -> by (destruct c; [cbn; apply Qle_bool_iff; lra|reflexivity]). eexists. repeat split; reflexivity. }
    destruct HC' as (c' & E' & EC' & EO'). exists c'. split; [exact E'|]. rewrite EC'. split; [|exact HLow].
    destruct (processes_dec m x q (whole z)) as [HP|HP]; [left|right; rewrite <- Ec; apply HN; exact HP].
    destruct (HY HP) as (e & r & -> & Ee & Er). cbn [obj_total fst snd eadd] in Ec. cbn [fst snd] in EO'. subst c. destruct (proj1 (in_bounds z) HG) as [HL HF].
    destruct HS as [Eq|HS].
    - exists (1%Q :: repeat 0%Q (K - 1)).
      assert (HP' : same_parts q (whole z) (1%Q :: repeat 0%Q (K - 1))) by (intros k; rewrite Eq; ring).
      split; [|split; [exact (processes_eq _ _ _ _ _ HP' HP)|split]].
      + split; [cbn [length]; rewrite repeat_length; lia|]. split.
        * constructor; [split; [exists 100; reflexivity|lra]|]. apply Forall_forall. intros y Hy. apply repeat_spec in Hy. subst y. split; [exists 0; reflexivity|lra].
        * cbn [Qsum]. rewrite zeros_sum. reflexivity.
      + cbn [eeq]. rewrite <- (running_eq t x q _ _ HP'), <- running_parts, Ee, Er. reflexivity.
      + exists e, r, z. split; [exact EO'|]. split; [rewrite Ee; exact (energy_part_eq t x q _ _ HP')|]. split; [rewrite Er; exact (revenue_part_eq t x q _ _ HP')|]. intros Hpos. rewrite Eq in Hpos. discriminate Hpos.
    - exists (whole z). split; [|split; [exact HP|split]].
      + replace K with (S (K - 1)) by lia. apply whole_division; [exact HL| |exact HS]. eapply Forall_impl; [|exact HF]. intros y [H1 [H2 _]]. auto.
      + cbn [eeq]. rewrite <- running_parts, Ee, Er. reflexivity.
      + exists e, r, z. split; [exact EO'|]. split; [exact Ee|]. split; [exact Er|]. intros _. unfold whole. symmetry. apply removelast_last.
  Qed.

  (** *** An optimiser running out of time *)
  Lemma timeout_slot s ss : s = MaxEvalReached \/ s = MaxTimeReached -> division K ss -> processes m x q ss ->
    apply_loads valZ (load_minimize (out_of_time s (removelast ss))) (dc_d m) (dc_e m) objective [q] t x = Panic.
  Proof.
    intros Hs Hss Hpr. pose proof types_pos as HK. replace K with (S (K - 1)) in Hss by lia. destruct (division_parts (K - 1) ss Hss) as (D1 & D2 & D3 & D4).
    set (y := removelast ss) in *.
    assert (HG : grid bounds y) by (apply in_bounds; split; assumption).
    assert (HH : Forall hundredths y) by (eapply Forall_impl; [|exact D2]; intros ? [H _]; exact H).
    assert (HS : (q == 0)%Q \/ (Qsum y <= 1)%Q) by (right; exact D3).
    assert (HP : processes m x q (whole y)) by (eapply processes_eq; [|exact Hpr]; apply parts_eq, same_sym; exact D4).
    destruct (objective_at y HG HS) as (o & EO & HY & _). destruct (HY HP) as (e & r & -> & _ & _).
    assert (Ef : f (map apply_precision y) = Ok (Fin (e + r))) by (rewrite <- f_rounds; unfold f; rewrite EO; reflexivity).
    assert (EM : load_minimize (out_of_time s y) f bounds even_guess cs = Some (map apply_precision y, Inf)).
    { unfold load_minimize, OptimizeModel.minimize, optimize. destruct guess_in as [_ Hg].
      assert (length (num_bounds bounds) = length even_guess) as -> by (unfold num_bounds; rewrite map_length; exact (Forall2_len _ _ _ Hg)).
      rewrite Nat.eqb_refl. cbn [obind]. unfold out_of_time, evaluate. cbn [nl_objective]. rewrite Ef. cbn [obind num_of].
      destruct Hs as [-> | ->]; reflexivity. }
    unfold apply_loads. rewrite center_d, center_e. cbn [length Nat.eqb negb].
    rewrite (proj2 (Nat.ltb_ge (K * 1) 1)) by lia. fold even_guess. rewrite (proj1 guess_in), Nat.eqb_refl. cbn [negb].
    replace (K * 1 - 1)%nat with (K - 1)%nat by lia. fold bounds. fold f. fold cs.
    change (initial_guess valZ 1 (K - 1) x) with even_guess.
    rewrite EM. cbn [from_option obind fst snd].
    assert (EN : new_fractions (map apply_precision y) K 1 = new_fractions y K 1) by (unfold new_fractions; rewrite map_ap_idem; reflexivity).
    rewrite EN, EO. reflexivity.
  Qed.
End Slot.
