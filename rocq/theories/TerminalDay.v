(** Sessions with a data centre in terms of SCO instances. *)
From Coq Require Import Lia Lqa.
From Verif Require Import NumLemmas CostSpec CostProofs ConvertProofs ConvertCosts ConvertObjective VerifySpec VerifyProofs DataCenterModel DataCenterInstances
  StreamModel StreamSpec StreamProofs SessionModel SessionSpec SessionStream SessionDay SessionEnd TerminalModel TerminalSpec TerminalProofs.
From Verif Require Import ProblemModel CostModel.
Local Open Scope Z_scope.

Section Day.
  Variables (powf : Q -> Q -> Q) (m : data_center).
  Context {T : Type}.
  Variable v : value T.
  Hypothesis Hlaw : lawful v.
  Variable ofZ : Z -> T.
  Hypothesis HZ : forall z, (v_toQ v (ofZ z) == inject_Z z)%Q.
  Variable minimize : (list Q -> outcome ext) -> list (Q * Q) -> list Q -> list (list Q -> outcome Q) -> option (list Q * ext).
  Variable choose : nat -> list Q -> nat -> list Q.
  Hypothesis Hchoose : selects choose.
  Hypothesis Hone : length (dc_locations m) = 1%nat.

  Notation upd := (dc_update_sco powf m v minimize choose).
  Notation gen := (to_ssco powf m v ofZ minimize).
  Notation image := (into_sco v dc_vmerge OutsideDecisionSpace).
  Notation inst := (gsco T dc_success dc_failure).

  (** The instance of a server that has seen the first [n] loads of the day, the first ones being those of [p]. *)
  Definition seen_sco (p q : gssco T dc_success dc_failure) (n : Z) (o : online inst) : Prop :=
    on_w o = 0 /\ o_tend (on_p o) = n /\ g_tend p <= n /\ o_d (on_p o) = g_d q /\ o_bounds (on_p o) = o_bounds (image q) /\
    o_norm (on_p o) = manhattan_scaled v (g_switching q) /\
    (forall t x, 1 <= t <= g_tend p -> call_predictive (o_cost (on_p o)) t x = call_predictive (o_cost (image p)) t x) /\
    (forall t x, g_tend p < t <= n -> call_predictive (o_cost (on_p o)) t x = call_predictive (g_cost q) t x) /\
    exists hist, o_cost (on_p o) = of_history hist.

  Section All.
    Variables (loads more : list (list Q)) (p q : gssco T dc_success dc_failure).
    Hypothesis Hp : gen loads = Ok p.
    Hypothesis Hq : gen (loads ++ more) = Ok q.

    Lemma seen_start (p' : inst) : p' = image p -> seen_sco p q (g_tend p) (mkOnline p' 0).
    Proof.
      intros ->. destruct (prefix_agree powf m v ofZ minimize loads loads more p q Hp Hq eq_refl) as (A & B & E & F).
      repeat split; cbn [on_p into_sco o_tend o_d o_bounds o_norm o_cost]; auto; try lia; [congruence|congruence|].
      eexists [(1, _)]. reflexivity.
    Qed.

    Lemma update_seen_sco o n lambda : 0 <= n -> seen_sco p q n o ->
      nth_error (loads ++ more) (Z.to_nat n) = Some lambda -> length lambda = 1%nat ->
      exists o', upd o [into_predicted lambda] = Ok o' /\ seen_sco p q (n + 1) o'.
    Proof.
      intros Hn (Hw & Ht & Hle & HD & HB & HN & HC1 & HC2 & hist & HH) HNth HL. unfold dc_update_sco, update_sco. rewrite Hw. cbn [length].
      unfold verify_update. change (0 <? Z.of_nat 1) with true. cbn [obind]. eexists. split; [reflexivity|].
      rewrite Ht. set (f := apply_predicted_loads _ _ _ _ _ _ _ _).
      assert (Hlater : forall t x, t <= n -> call_predictive (cf_add (o_cost (on_p o)) (n + 1) f) t x = call_predictive (o_cost (on_p o)) t x).
      { intros t x Htn. rewrite HH. apply (calls_later dc_vmerge hist (n + 1) f t x). lia. }
      assert (HT0 : 0 <= g_tend p) by (destruct (gen_cost powf m v ofZ minimize loads p Hp) as (_ & -> & _); lia).
      repeat split; cbn [on_p o_tend o_d o_bounds o_norm o_cost]; auto; try lia.
      - intros t x Htx. rewrite Hlater by lia. apply HC1. exact Htx.
      - intros t x Htx. destruct (Z.eq_dec t (n + 1)) as [->|Hne].
        + rewrite HH, <- of_history_snoc. rewrite (call_predictive_answers (hist ++ [(n + 1, f)]) (n + 1) (n + 1) f).
          2: { split; [lia|]. exists hist, []. repeat split; [intros; lia|intros ? ? []]. }
          rewrite (gen_predictive powf m v ofZ minimize (loads ++ more) q (n + 1) x lambda Hq ltac:(lia)); [|replace (n + 1 - 1) with n by lia; exact HNth].
          unfold f, apply_predicted_loads. replace (n + 1 - (n + 1) + 1) with 1 by lia. change (access [into_predicted lambda] 1) with (Some (into_predicted lambda)). cbn [from_option obind].
          destruct lambda as [|z [|? ?]]; try discriminate HL. cbn [into_predicted map].
          assert (ES : sample_load_profiles choose [[z]] = Ok [[z]]).
          { unfold sample_load_profiles. cbn [smallest_sample_size largest_sample_size map length fold_left from_option obind combine seq].
            assert (EM : Nat.min (Nat.max 1 max_sample_size) 1 = 1%nat).
            { unfold max_sample_size. destruct (Nat.max_spec 1 (Z.to_nat 100)) as [[A ->]|[A ->]]; lia. }
            rewrite EM. cbn [omap fst snd length Nat.leb obind]. rewrite (choose_single choose 0 z Hchoose). reflexivity. }
          rewrite ES. cbn [obind omap]. destruct (apply_loads _ _ _ _ _ _ _ _); cbn [obind]; try reflexivity.
          cbn [length Nat.eqb]. rewrite Z.eqb_refl. reflexivity.
        + rewrite Hlater by lia. apply HC2. lia.
      - exists (hist ++ [(n + 1, f)]). rewrite HH, of_history_snoc. reflexivity.
    Qed.

    (** The costs of such an instance. *)
    Lemma hits_seen o n t x : seen_sco p q n o -> 1 <= t <= n -> n <= g_tend q -> length x = Z.to_nat (g_d q) ->
      outcome_rel (fun b a => c_out b = c_out a /\ eeq (c_cost b) (eadd (c_cost a) (Fin (if t =? g_tend p then halfw v (g_switching q) x else 0))))
        (gsco_hit v dc_vmerge OutsideDecisionSpace (on_p o) t x) (gssco_hit v dc_vmerge OutsideDecisionSpace q t x).
    Proof.
      intros (Hw & Hn & Hle & HD & HB & HN & HC1 & HC2 & _) Ht Hnq Hx.
      pose proof (prefix_agree powf m v ofZ minimize loads loads more p q Hp Hq eq_refl) as HA. pose proof HA as (A & B & E & F).
      destruct (gen_cost powf m v ofZ minimize loads p Hp) as (Hdp & HTp & _).
      destruct (ssco_generated powf m T v ofZ minimize loads p HZ Hp) as (G1 & _ & _ & _ & G5 & _). rewrite Hone, Nat.mul_1_l in G1.
      destruct (Z_le_gt_dec t (g_tend p)) as [Hle1|Hgt].
      - assert (E1 : gsco_hit v dc_vmerge OutsideDecisionSpace (on_p o) t x = gsco_hit v dc_vmerge OutsideDecisionSpace (image p) t x).
        { unfold gsco_hit, call_mean_within. rewrite HB. cbn [into_sco o_bounds]. rewrite <- B.
          destruct (within_pairs v _ x) as [[|]| |]; auto. cbn [obind]. rewrite !call_mean_of_predictive, HC1 by lia. reflexivity. }
        rewrite E1, <- (agree_hit v dc_vmerge OutsideDecisionSpace (Z.of_nat (length loads)) p q t x HA) by lia.
        pose proof (hits v Hlaw dc_vmerge OutsideDecisionSpace p ltac:(rewrite G1, G5, Nat2Z.id; reflexivity) t x ltac:(lia) ltac:(congruence)) as HH.
        unfold hit_rel in HH. rewrite E in HH.
        destruct (gssco_hit v dc_vmerge OutsideDecisionSpace p t x), (gsco_hit v dc_vmerge OutsideDecisionSpace (image p) t x); cbn [outcome_rel] in *; try contradiction; auto.
      - assert (E1 : gsco_hit v dc_vmerge OutsideDecisionSpace (on_p o) t x = gssco_hit v dc_vmerge OutsideDecisionSpace q t x).
        { unfold gsco_hit, gssco_hit, call_mean_within. rewrite HB. cbn [into_sco o_bounds]. rewrite within_same.
          destruct (within_upper v _ x) as [[|]| |]; auto. cbn [obind]. rewrite !call_mean_of_predictive, HC2 by lia. reflexivity. }
        rewrite E1. destruct (Z.eqb_spec t (g_tend p)); [lia|]. destruct (gssco_hit v dc_vmerge OutsideDecisionSpace q t x) as [c| |]; cbn [outcome_rel]; auto.
        split; [reflexivity|]. destruct (c_cost c); cbn [eadd eeq]; auto. ring.
    Qed.

    Lemma objective_early sched o xs : seen_sco p q (g_tend q) o -> Forall (fun x => length x = length (dc_server_types m)) xs ->
      outcome_rel (charged_early v (g_switching q) xs (length loads) (length (loads ++ more)))
        (po_objective (sco_ops v dc_hmerge dc_vmerge OutsideDecisionSpace sched) (on_p o) xs)
        (po_objective (ssco_ops v dc_hmerge dc_vmerge OutsideDecisionSpace sched) q xs).
    Proof.
      intros HS HF. pose proof HS as (Hw & Hn & Hle & HD & HB & HN & _).
      destruct (gen_cost powf m v ofZ minimize loads p Hp) as (Hdp & HTp & _).
      destruct (gen_cost powf m v ofZ minimize (loads ++ more) q Hq) as (Hdq & HTq & _).
      destruct (ssco_generated powf m T v ofZ minimize (loads ++ more) q HZ Hq) as (G1 & _ & _ & _ & G5 & _). rewrite Hone, Nat.mul_1_l in G1.
      pose proof (early_objective v Hlaw dc_vmerge dc_hmerge OutsideDecisionSpace (on_p o) q (g_tend p)) as G.
      rewrite HTp, HTq, !Nat2Z.id in G. cbn [po_objective sco_ops ssco_ops]. rewrite HTq. rewrite G1, Nat2Z.id in G. rewrite G1. rewrite HD, Hn, HTq, G1 in *.
      apply G; auto.
      - rewrite app_length. lia.
      - intros t x Ht Hx. rewrite <- HTp. apply (hits_seen o _ t x HS); [lia|lia|rewrite G1, Nat2Z.id; exact Hx].
    Qed.

    Lemma updates_seen_sco : forall more2 done o, loads ++ more = done ++ more2 -> seen_sco p q (Z.of_nat (length done)) o ->
      Forall (fun lambda => length lambda = 1%nat) more2 ->
      exists o', updates upd o (into_online more2) = Ok o' /\ seen_sco p q (g_tend q) o'.
    Proof.
      induction more2 as [|lambda more2 IH]; intros done o Hall Ho HL.
      - exists o. split; [reflexivity|]. destruct (gen_cost powf m v ofZ minimize _ q Hq) as (_ & -> & _). rewrite Hall, app_nil_r. exact Ho.
      - destruct (update_seen_sco o (Z.of_nat (length done)) lambda ltac:(lia) Ho) as (o1 & U1 & U2).
        { rewrite Hall, nth_error_app2 by lia. rewrite Nat2Z.id, Nat.sub_diag. reflexivity. }
        { exact (Forall_inv HL). }
        cbn [into_online map updates]. rewrite U1. cbn [obind].
        apply (IH (done ++ [lambda])).
        + rewrite <- app_assoc. exact Hall.
        + rewrite app_length. cbn [length]. rewrite Nat2Z.inj_add. exact U2.
        + exact (Forall_inv_tail HL).
    Qed.
  End All.

  Lemma updates_charge loads more p today : to_sco powf m v ofZ minimize loads = Ok p -> gen (loads ++ more) = Ok today ->
    Forall (fun lambda => length lambda = 1%nat) more ->
    exists o, updates upd (mkOnline p 0) (into_online more) = Ok o /\ on_w o = 0 /\ o_tend (on_p o) = g_tend today /\
      forall sched xs, Forall (fun x => length x = length (dc_server_types m)) xs ->
        outcome_rel (charged_early v (g_switching today) xs (length loads) (length (loads ++ more)))
          (po_objective (sco_ops v dc_hmerge dc_vmerge OutsideDecisionSpace sched) (on_p o) xs)
          (po_objective (ssco_ops v dc_hmerge dc_vmerge OutsideDecisionSpace sched) today xs).
  Proof.
    unfold to_sco. intros H Hq HL. apply obind_Ok in H as (p0 & Hp & H). injection H as <-.
    destruct (gen_cost powf m v ofZ minimize loads p0 Hp) as (_ & HT & _).
    destruct (updates_seen_sco loads more p0 today Hp Hq more loads (mkOnline (image p0) 0) eq_refl) as (o & U & HS).
    - rewrite <- HT. apply (seen_start loads more p0 today Hp Hq). reflexivity.
    - exact HL.
    - exists o. split; [exact U|]. pose proof HS as (H1 & H2 & _). split; [exact H1|]. split; [exact H2|]. intros sched xs HF.
      apply (objective_early loads more p0 today Hp Hq sched o xs HS HF).
  Qed.
End Day.
