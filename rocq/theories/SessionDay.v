(** Sessions with a data centre whose loads arrive one after the other. *)
From Coq Require Import Lia Permutation.
From Verif Require Import NumLemmas CostSpec CostProofs ConvertProofs ConvertObjective VerifySpec VerifyProofs DataCenterModel DataCenterInstances
  StreamModel StreamSpec StreamProofs SessionModel SessionSpec SessionStream.
From Verif Require Import ProblemModel CostModel.
Local Open Scope Z_scope.

Lemma choose_single choose i z : selects choose -> choose i [z] 1%nat = [z].
Proof.
  intros H. destruct (H i [z] 1%nat ltac:(cbn; lia)) as [HL [rest HP]].
  pose proof (Permutation_length HP) as HE. rewrite app_length, HL in HE. cbn in HE. destruct rest; [|cbn in HE; lia].
  rewrite app_nil_r in HP. apply Permutation_length_1_inv. symmetry. exact HP.
Qed.

Section Day.
  Variables (powf : Q -> Q -> Q) (m : data_center).
  Context {T : Type}.
  Variable v : value T.
  Variable ofZ : Z -> T.
  Variable minimize : (list Q -> outcome ext) -> list (Q * Q) -> list Q -> list (list Q -> outcome Q) -> option (list Q * ext).
  Variable choose : nat -> list Q -> nat -> list Q.
  Hypothesis Hchoose : selects choose.

  Notation upd := (dc_update_ssco powf m v minimize choose).
  Notation gen := (to_ssco powf m v ofZ minimize).
  Notation inst := (gssco T dc_success dc_failure).

  Lemma gen_cost loads p : gen loads = Ok p ->
    g_d p = Z.of_nat (dc_d m) /\ g_tend p = Z.of_nat (length loads) /\
    g_cost p = apply_loads_over_time v minimize (dc_d m) (dc_e m) (dc_objective_of powf m v) loads 1.
  Proof.
    unfold to_ssco. intros H. apply obind_Ok in H as (b & _ & H). apply obind_Ok in H as (s & _ & H). injection H as <-. auto.
  Qed.

  Lemma gen_other loads loads' p : gen loads = Ok p -> exists q, gen loads' = Ok q /\ g_bounds q = g_bounds p /\ g_switching q = g_switching p /\ g_d q = g_d p.
  Proof.
    unfold to_ssco. intros H. apply obind_Ok in H as (b & Hb & H). apply obind_Ok in H as (s & Hs & H). injection H as <-.
    rewrite Hb. cbn [obind]. rewrite Hs. cbn [obind]. eexists. split; [reflexivity|]. auto.
  Qed.

  Lemma gen_predictive loads p t x lambda : gen loads = Ok p -> 1 <= t -> nth_error loads (Z.to_nat (t - 1)) = Some lambda ->
    call_predictive (g_cost p) t x =
    do c <- apply_loads v minimize (dc_d m) (dc_e m) (dc_objective_of powf m v) lambda t x; Ok [c].
  Proof.
    intros H Ht HN. destruct (gen_cost loads p H) as (_ & _ & ->). unfold apply_loads_over_time.
    set (F := certain _). change (cf_new 1 F) with (of_history [(1, F)]).
    rewrite (call_predictive_answers [(1, F)] t 1 F).
    2: { split; [lia|]. exists [], []. repeat split; intros ? ? []. }
    unfold F.
    unfold certain. replace (t - 1 + 1) with t by lia. unfold access. destruct (1 <=? t) eqn:E; [|apply Z.leb_gt in E; lia].
    assert (EL : t <=? Z.of_nat (length loads) = true).
    { apply Z.leb_le. assert (Z.to_nat (t - 1) < length loads)%nat by (apply nth_error_Some; congruence). lia. }
    rewrite EL, HN. cbn [andb from_option obind]. destruct (apply_loads _ _ _ _ _ _ _ _); cbn [obind]; try reflexivity. cbn [length Nat.eqb negb orb]. rewrite andb_false_r. reflexivity.
  Qed.

  Lemma prefix_agree loads loads' more p q : gen loads = Ok p -> gen (loads ++ more) = Ok q ->
    loads' = loads -> agree (Z.of_nat (length loads')) p q.
  Proof.
    intros Hp Hq ->. destruct (gen_other loads (loads ++ more) p Hp) as (q' & Hq' & EB & ES & ED). assert (q' = q) by congruence. subst q'.
    repeat split; try congruence. intros t x Ht.
    assert (HN : exists lambda, nth_error loads (Z.to_nat (t - 1)) = Some lambda).
    { destruct (nth_error loads (Z.to_nat (t - 1))) eqn:E; [eauto|]. apply nth_error_None in E. lia. }
    destruct HN as [lambda HN].
    rewrite (gen_predictive loads p t x lambda Hp ltac:(lia) HN).
    rewrite (gen_predictive (loads ++ more) q t x lambda Hq ltac:(lia)); [reflexivity|]. rewrite nth_error_app1 by lia. exact HN.
  Qed.

  (** The instance of a server that has seen the first [n] loads of the day. *)
  Definition seen (q : inst) (n : Z) (o : online inst) : Prop :=
    on_w o = 0 /\ g_tend (on_p o) = n /\ agree n (on_p o) q /\ exists hist, g_cost (on_p o) = of_history hist.

  Lemma update_seen all q o n lambda : gen all = Ok q -> 0 <= n -> seen q n o ->
    nth_error all (Z.to_nat n) = Some lambda -> length lambda = 1%nat ->
    exists o', upd o [into_predicted lambda] = Ok o' /\ seen q (n + 1) o'.
  Proof.
    intros Hq Hn (Hw & Ht & HA & hist & HH) HN HL. unfold dc_update_ssco, update_ssco. rewrite Hw. cbn [length].
    unfold verify_update. change (0 <? Z.of_nat 1) with true. cbn [obind]. eexists. split; [reflexivity|].
    rewrite Ht. set (f := apply_predicted_loads _ _ _ _ _ _ _ _). destruct HA as (HD & HB & HS & HC).
    split; [reflexivity|]. split; [reflexivity|]. cbn [on_p]. split; [|exists (hist ++ [(n + 1, f)]); cbn [g_cost]; rewrite HH, of_history_snoc; reflexivity].
    repeat split; cbn [g_d g_bounds g_switching]; auto. intros t x Htx. cbn [g_cost]. rewrite HH.
    destruct (Z.eq_dec t (n + 1)) as [->|Hne].
    - rewrite <- of_history_snoc. rewrite (call_predictive_answers (hist ++ [(n + 1, f)]) (n + 1) (n + 1) f).
      2: { split; [lia|]. exists hist, []. repeat split; [intros; lia|intros ? ? []]. }
      rewrite (gen_predictive all q (n + 1) x lambda Hq ltac:(lia)); [|replace (n + 1 - 1) with n by lia; exact HN].
      unfold f, apply_predicted_loads. replace (n + 1 - (n + 1) + 1) with 1 by lia. change (access [into_predicted lambda] 1) with (Some (into_predicted lambda)). cbn [from_option obind].
      destruct lambda as [|z [|? ?]]; try discriminate HL. cbn [into_predicted map].
      assert (ES : sample_load_profiles choose [[z]] = Ok [[z]]).
      { unfold sample_load_profiles. cbn [smallest_sample_size largest_sample_size map length fold_left from_option obind combine seq].
        assert (EM : Nat.min (Nat.max 1 max_sample_size) 1 = 1%nat).
        { unfold max_sample_size. destruct (Nat.max_spec 1 (Z.to_nat 100)) as [[A ->]|[A ->]]; lia. }
        rewrite EM. cbn [omap fst snd length Nat.leb obind]. rewrite (choose_single choose 0 z Hchoose). reflexivity. }
      rewrite ES. cbn [obind omap]. destruct (apply_loads _ _ _ _ _ _ _ _); cbn [obind]; try reflexivity.
      cbn [length Nat.eqb]. rewrite Z.eqb_refl. reflexivity.
    - rewrite <- HC by lia. rewrite HH. apply (calls_later dc_vmerge hist (n + 1) f t x). lia.
  Qed.

  Section Session.
    Context {M Y : Type}.
    Variable sched : split.
    Notation ops := (ssco_ops v dc_hmerge dc_vmerge OutsideDecisionSpace sched).
    Variable alg : online inst -> Z -> list (list T) -> M -> outcome (list T * option M).
    Variable default : online inst -> M.
    Variable to_int : list T -> Y.
    Variable of_int : Y -> list T.
    Hypothesis HA : causal alg.
    Hypothesis HD : causal_memory default.
    Notation run := (run ops alg default to_int of_int upd).

    Lemma alg_seen q n o t xs mem : seen q n o -> alg o t xs mem = alg (mkOnline (until q n) 0) t xs mem /\ default o = default (mkOnline (until q n) 0).
    Proof.
      intros (Hw & Ht & Hag & _). destruct o as [p w]. cbn [on_p on_w] in *. subst w.
      assert (E : agree (g_tend p + 0) p (until q n)) by (rewrite Ht, Z.add_0_r; destruct Hag as (? & ? & ? & ?); repeat split; auto).
      split; [apply HA|apply HD]; auto.
    Qed.

    Lemma objective_seen q n o xs : seen q n o -> po_objective ops (on_p o) xs = po_objective ops (until q n) xs.
    Proof.
      intros (Hw & Ht & Hag & _). apply (agree_objective v _ _ _ _ n); auto.
    Qed.

    (** What a session answers is what the algorithm would have chosen knowing the day. *)
    Lemma run_seen all q : gen all = Ok q -> forall more done o xs mem answers o' xs' mem',
      all = done ++ more -> Forall (fun lambda => length lambda = 1%nat) more ->
      seen q (Z.of_nat (length done)) o -> length xs = length done ->
      run (o, xs, mem) (map Input (into_online more)) = (answers, Some (o', xs', mem')) ->
      chooses ops alg default (mkOnline q 0) xs mem (map r_x (answered answers)) mem' /\
      xs' = xs ++ map r_x (answered answers) /\ answers = map Answered (answered answers) /\ length answers = length more /\
      forall k r, nth_error (answered answers) k = Some r ->
        let xsk := xs ++ map r_x (firstn (S k) (answered answers)) in
        po_objective ops (until q (Z.of_nat (length xsk))) xsk = Ok (r_cost r).
    Proof.
      intros Hq. induction more as [|lambda more IH]; intros done o xs mem answers o' xs' mem' Hall HL Hs Hx H.
      - cbn in H. injection H as <- <- <- <-. cbn [answered map length]. rewrite app_nil_r. repeat split; [constructor|]. intros [|k] r Hr; discriminate.
      - cbn [into_online map StreamModel.run] in H.
        destruct (serve ops alg default to_int of_int upd (o, xs, mem) [into_predicted lambda]) as [[r [[o1 xs1] mem1]]| |] eqn:ES; try discriminate H.
        apply (serve_ok ops alg default) in ES as (S1 & S2 & S3 & S4 & S5 & S6 & _).
        destruct (update_seen all q o (Z.of_nat (length done)) lambda Hq ltac:(lia) Hs) as (o2 & U1 & U2).
        { rewrite Hall, nth_error_app2 by lia. rewrite Nat2Z.id, Nat.sub_diag. reflexivity. }
        { exact (Forall_inv HL). }
        assert (o2 = o1) by congruence. subst o2.
        destruct (run (o1, xs1, mem1) (map Input (map (fun lambda0 => [into_predicted lambda0]) more))) as [ans fin] eqn:ER.
        injection H as <- ->.
        destruct (IH (done ++ [lambda]) o1 xs1 mem1 ans o' xs' mem') as (I1 & I2 & I3 & I4 & I5).
        { rewrite <- app_assoc. exact Hall. }
        { exact (Forall_inv_tail HL). }
        { rewrite app_length. cbn [length]. rewrite Nat2Z.inj_add. exact U2. }
        { rewrite S4, !app_length, Hx. reflexivity. }
        { exact ER. }
        cbn [answered map length]. rewrite S4 in I1, I2, I5.
        assert (Ek : Z.of_nat (length xs) + 1 = Z.of_nat (length done) + 1) by lia.
        split; [|split; [|split; [|split]]].
        + econstructor; [|exact I1]. rewrite Ek in *. destruct (alg_seen q _ o1 (Z.of_nat (length done) + 1) xs (match mem with None => default o1 | Some m0 => m0 end) U2) as [A1 A2].
          change (at_slot ops (mkOnline q 0) (Z.of_nat (length done) + 1)) with (mkOnline (until q (Z.of_nat (length done) + 1)) 0).
          rewrite A1 in S3. destruct mem; [exact S3|]. rewrite <- A2. exact S3.
        + rewrite I2, <- app_assoc. reflexivity.
        + rewrite I3 at 1. reflexivity.
        + f_equal. exact I4.
        + intros [|k] r' Hr; cbn [nth_error firstn map] in *.
          * injection Hr as <-. rewrite app_length. cbn [length]. rewrite Nat2Z.inj_add. change (Z.of_nat 1) with 1. rewrite Ek.
            rewrite <- (objective_seen q _ o1 _ U2), <- S4. exact S6.
          * specialize (I5 k r' Hr). cbv zeta in I5. rewrite <- app_assoc in I5. exact I5.
    Qed.

    (** A session answers all requests if the algorithm and the objective do. *)
    Lemma run_exists all q : gen all = Ok q -> forall more done o xs mem ys mem',
      all = done ++ more -> Forall (fun lambda => length lambda = 1%nat) more ->
      seen q (Z.of_nat (length done)) o -> length xs = length done -> length ys = length more ->
      chooses ops alg default (mkOnline q 0) xs mem ys mem' ->
      (forall k, (k <= length ys)%nat -> let zs := xs ++ firstn k ys in
         exists c, po_objective ops (until q (Z.of_nat (length zs))) zs = Ok c) ->
      (forall k, (k <= length ys)%nat -> let zs := xs ++ firstn k ys in
         exists c, po_objective ops (until q (Z.of_nat (length zs))) (map of_int (map to_int zs)) = Ok c) ->
      exists answers st', run (o, xs, mem) (map Input (into_online more)) = (map Answered answers, Some st').
    Proof.
      intros Hq. induction more as [|lambda more IH]; intros done o xs mem ys mem' Hall HL Hs Hx Hy HC H1 H2.
      - exists [], (o, xs, mem). reflexivity.
      - destruct ys as [|y ys]; [discriminate Hy|]. inversion HC as [|? ? ? m1 ? ? t EA HR]; subst.
        destruct (update_seen _ q o (Z.of_nat (length done)) lambda Hq ltac:(lia) Hs) as (o1 & U1 & U2).
        { rewrite nth_error_app2 by lia. rewrite Nat2Z.id, Nat.sub_diag. reflexivity. }
        { exact (Forall_inv HL). }
        assert (Ek : Z.of_nat (length xs) + 1 = Z.of_nat (length done) + 1) by lia.
        assert (EL : Z.of_nat (length (xs ++ [y])) = Z.of_nat (length done) + 1) by (rewrite app_length; cbn [length]; lia).
        assert (EN : online_next ops alg default o1 xs mem = (xs ++ [y], Ok (y, m1))).
        { unfold online_next. pose proof U2 as (W1 & W2 & W3). cbn [po_tend ssco_ops]. rewrite W2, Ek, Z.eqb_refl. cbn [negb]. unfold alg_next.
          unfold t in EA. rewrite Ek in EA |- *.
          destruct (alg_seen q _ o1 (Z.of_nat (length done) + 1) xs (match mem with None => default o1 | Some m0 => m0 end) U2) as [A1 A2].
          rewrite A1. change (at_slot ops (mkOnline q 0) (Z.of_nat (length done) + 1)) with (mkOnline (until q (Z.of_nat (length done) + 1)) 0) in EA.
          destruct mem; [rewrite EA; reflexivity|]. rewrite A2, EA. reflexivity. }
        destruct (H1 1%nat ltac:(cbn; lia)) as (c & Hc). destruct (H2 1%nat ltac:(cbn; lia)) as (ic & Hic). cbn [firstn] in Hc, Hic. rewrite EL in Hc, Hic.
        assert (ES : serve ops alg default to_int of_int upd (o, xs, mem) [into_predicted lambda]
                   = Ok (mkResponse y c (to_int y) ic m1, (o1, xs ++ [y], m1))).
        { unfold serve. rewrite U1. cbn [obind]. rewrite EN. cbn [unwrap obind]. rewrite !(objective_seen q _ o1 _ U2), Hc. cbn [unwrap obind].
          rewrite Hic. cbn [unwrap obind]. rewrite map_length, nth_error_map, app_length. cbn [length].
          rewrite nth_error_app2 by lia. replace (length xs + 1 - 1 - length xs)%nat with 0%nat by lia. reflexivity. }
        destruct (IH (done ++ [lambda]) o1 (xs ++ [y]) m1 ys mem') as (answers & st' & ER).
        { rewrite <- app_assoc. reflexivity. }
        { exact (Forall_inv_tail HL). }
        { rewrite app_length. cbn [length]. rewrite Nat2Z.inj_add. exact U2. }
        { rewrite !app_length, Hx. reflexivity. }
        { cbn [length] in Hy. lia. }
        { exact HR. }
        { intros k Hk. specialize (H1 (S k) ltac:(cbn [length]; lia)). cbn [firstn] in H1. cbv zeta in *. rewrite <- app_assoc. exact H1. }
        { intros k Hk. specialize (H2 (S k) ltac:(cbn [length]; lia)). cbn [firstn] in H2. cbv zeta in *. rewrite <- app_assoc. exact H2. }
        exists (mkResponse y c (to_int y) ic m1 :: answers), st'.
        cbn [into_online map StreamModel.run]. rewrite ES. unfold into_online in ER. rewrite ER. reflexivity.
    Qed.
  End Session.
End Day.
