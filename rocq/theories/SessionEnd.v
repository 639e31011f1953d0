(** Sessions from their start. *)
From Coq Require Import Lia.
From Verif Require Import NumLemmas CostSpec CostProofs ConvertProofs ConvertObjective VerifySpec VerifyProofs DataCenterModel DataCenterInstances
  StreamModel StreamSpec StreamProofs SessionModel SessionSpec SessionStream SessionDay.
From Verif Require Import ProblemModel CostModel.
Local Open Scope Z_scope.

Section Start.
  Variables (powf : Q -> Q -> Q) (m : data_center).
  Context {T : Type}.
  Variable v : value T.
  Variable ofZ : Z -> T.
  Variable minimize : (list Q -> outcome ext) -> list (Q * Q) -> list Q -> list (list Q -> outcome Q) -> option (list Q * ext).
  Variable choose : nat -> list Q -> nat -> list Q.
  Hypothesis Hchoose : selects choose.
  Notation upd := (dc_update_ssco powf m v minimize choose).
  Notation gen := (to_ssco powf m v ofZ minimize).
  Notation inst := (gssco T dc_success dc_failure).
  Context {M Y : Type}.
  Variable sched : split.
  Notation ops := (ssco_ops v dc_hmerge dc_vmerge OutsideDecisionSpace sched).
  Variable alg : online inst -> Z -> list (list T) -> M -> outcome (list T * option M).
  Variable default : online inst -> M.
  Variable to_int : list T -> Y.
  Variable of_int : Y -> list T.
  Hypothesis HA : causal alg.
  Hypothesis HD : causal_memory default.
  Notation session := (start ops alg default to_int of_int upd 0).

  Variables (loads more : list (list Q)) (p q : inst).
  Hypothesis Hp : gen loads = Ok p.
  Hypothesis Hq : gen (loads ++ more) = Ok q.
  Hypothesis Hmore : Forall (fun lambda => length lambda = 1%nat) more.

  Let n := Z.of_nat (length loads).

  Lemma p_agrees : agree n p q.
  Proof. exact (prefix_agree powf m v ofZ minimize loads loads more p q Hp Hq eq_refl). Qed.

  Lemma p_seen : seen q n (mkOnline (po_set ops p n) 0).
  Proof.
    destruct (gen_cost powf m v ofZ minimize loads p Hp) as (_ & _ & HC).
    split; [reflexivity|]. split; [reflexivity|]. cbn [on_p po_set ssco_ops]. split.
    - destruct p_agrees as (A & B & E & F). repeat split; auto.
    - cbn [g_cost]. rewrite HC. exists [(1, certain (fun t x => do lambda <- from_option (access loads (t - 1 + 1)); apply_loads v minimize (dc_d m) (dc_e m) (dc_objective_of powf m v) lambda t x))]. reflexivity.
  Qed.

  Lemma p_tend : g_tend p = n.
  Proof. apply (gen_cost powf m v ofZ minimize loads p Hp). Qed.
  Lemma q_tend : g_tend q = Z.of_nat (length loads + length more).
  Proof. rewrite <- app_length. apply (gen_cost powf m v ofZ minimize (loads ++ more) q Hq). Qed.

  Lemma verified_until t : 0 <= t -> verify_ssco v p = Ok tt -> verify_ssco v (until q t) = Ok tt.
  Proof.
    intros Ht H. destruct p_agrees as (A & B & E & _). unfold verify_ssco, verify_header in *. unfold until. cbn [g_d g_tend g_bounds g_switching].
    rewrite <- A, <- B, <- E. rewrite p_tend in H. replace (0 <=? t) with true by (symmetry; apply Z.leb_le; lia).
    replace (0 <=? n) with true in H by (symmetry; apply Z.leb_le; unfold n; lia). exact H.
  Qed.

  Lemma verified_p t : 0 <= t -> verify_ssco v (until p t) = Ok tt -> verify_ssco v p = Ok tt.
  Proof.
    intros Ht H. unfold verify_ssco, verify_header, until in *. cbn [g_d g_tend g_bounds g_switching] in H.
    rewrite p_tend. replace (0 <=? n) with true by (symmetry; apply Z.leb_le; unfold n; lia).
    replace (0 <=? t) with true in H by (symmetry; apply Z.leb_le; lia). exact H.
  Qed.

  Lemma prepare_seen o0 r : prepare ops alg default to_int of_int 0 p = Ok (o0, r) ->
    verify_ssco v p = Ok tt /\ po_objective ops (on_p o0) (of_xs r) = Ok (of_cost r) /\
    Z.of_nat (length (of_xs r)) = n /\ seen q n o0 /\ chooses ops alg default (mkOnline q 0) [] None (of_xs r) (of_m r).
  Proof.
    intros HP.
    assert (HV : verify_ssco v p = Ok tt).
    { unfold prepare in HP. destruct (verify_o ops (mkOnline (if 1 <? po_tend ops p then po_set ops p 1 else p) 0)) eqn:EV; try discriminate HP.
      unfold verify_o, verify_online in EV. cbn [on_p on_w] in EV. change (assert_validity (0 <=? 0)) with (Ok tt) in EV. cbn [obind] in EV.
      match type of EV with _ = Ok ?w => destruct w end. cbn [po_verify po_tend ssco_ops po_set] in EV. destruct (1 <? g_tend p); [|exact EV]. apply (verified_p 1); [lia|exact EV]. }
    apply (prepare_ok ops alg default (ssco_ops_lawful v dc_hmerge dc_vmerge OutsideDecisionSpace sched) to_int of_int) in HP as (_ & _ & _ & HO & _ & HX).
    cbn [po_tend ssco_ops] in HX. rewrite p_tend in HX.
    split; [exact HV|]. split; [exact HO|]. destruct (1 <=? n - 0) eqn:E1.
      - apply Z.leb_le in E1. destruct HX as (X1 & X2 & X3). assert (EL : Z.of_nat (length (of_xs r)) = n) by lia. split; [exact EL|]. split.
        + rewrite X2, EL. apply p_seen.
        + eapply (chooses_agree v dc_hmerge dc_vmerge OutsideDecisionSpace sched alg default HA HD p q n); [apply p_agrees| |exact X3]. cbn [length]. lia.
      - apply Z.leb_gt in E1. destruct HX as (X1 & X2 & X3). assert (E0 : n = 0) by (unfold n in *; lia). rewrite X1, X2, X3. cbn [length]. split; [lia|]. split; [|constructor].
        assert (E : 1 <? n = false) by (apply Z.ltb_ge; lia). rewrite E.
        replace p with (po_set ops p n) by (rewrite <- p_tend; destruct p; reflexivity). apply p_seen.
  Qed.

  Lemma session_follows off answers o xs mem :
    session p (map Input (into_online more)) = Ok (off, (answers, Some (o, xs, mem))) ->
    length (of_xs off) = length loads /\ answers = map Answered (answered answers) /\ length answers = length more /\
    xs = of_xs off ++ map r_x (answered answers) /\
    (loads ++ more <> [] -> offline_stream ops alg default (g_tend q) (mkOnline (until q 1) 0) = Some (mkOnline q 0, xs, Ok mem)) /\
    po_objective ops (until q n) (of_xs off) = Ok (of_cost off) /\
    (forall k r, nth_error (answered answers) k = Some r ->
       po_objective ops (until q (n + Z.of_nat k + 1)) (firstn (length loads + k + 1) xs) = Ok (r_cost r)) /\
    chooses ops alg default (mkOnline q 0) [] None xs mem.
  Proof.
    unfold start. intros H. apply obind_Ok in H as ([o0 r] & HP & H). cbn [fst snd] in H. injection H as <- HR.
    apply prepare_seen in HP as (HV & HO & HL & HS & HC).
    assert (HL' : length (of_xs r) = length loads) by (unfold n in HL; lia).
    destruct (run_seen powf m v ofZ minimize choose Hchoose sched alg default to_int of_int HA HD (loads ++ more) q Hq more loads o0 (of_xs r) (of_m r) answers o xs mem eq_refl Hmore HS HL' HR)
      as (R1 & R2 & R3 & R4 & R5).
    split; [exact HL'|]. split; [exact R3|]. split; [exact R4|]. split; [exact R2|].
    assert (HN : length (answered answers) = length more) by (apply (f_equal (@length _)) in R3; rewrite map_length in R3; lia).
    split; [|split; [|split]].
    - intros Hne. unfold offline_stream.
      rewrite (stream_chosen ops alg default (ssco_ops_lawful v dc_hmerge dc_vmerge OutsideDecisionSpace sched) xs (g_tend q) (mkOnline (until q 1) 0) [] None mem).
      + cbn [app on_w]. rewrite Z.sub_0_r. unfold at_slot. cbn [on_p on_w po_set ssco_ops until]. destruct q; reflexivity.
      + rewrite R2. intros E. apply app_eq_nil in E as [E1 E2]. apply Hne.
        rewrite E1 in HL'. rewrite <- (map_length r_x), E2 in HN. destruct loads; [|discriminate]. destruct more; [reflexivity|discriminate].
      + reflexivity.
      + cbn [length on_w]. rewrite q_tend, R2, app_length, map_length, HL', HN. lia.
      + intros t Ht. cbn [on_p po_tend ssco_ops until g_tend on_w] in Ht. unfold verify_o, verify_online. cbn [at_slot on_p on_w].
        change (assert_validity (0 <=? 0)) with (Ok tt). cbn [obind po_verify po_set ssco_ops]. apply (verified_until t); [lia|exact HV].
      + cbn [app]. apply (chooses_agree v dc_hmerge dc_vmerge OutsideDecisionSpace sched alg default HA HD q (until q 1) (Z.of_nat (length xs))).
        * repeat split.
        * cbn [length]. lia.
        * rewrite R2. eapply chooses_snoc; [exact HC|exact R1].
    - rewrite <- (objective_seen v sched q n o0 _ HS). exact HO.
    - intros k r' Hr. specialize (R5 k r' Hr). cbv zeta in R5.
      assert (Hk : (k < length (answered answers))%nat) by (apply nth_error_Some; congruence).
      rewrite app_length, map_length, firstn_length in R5. rewrite HL' in R5.
      replace (Z.of_nat (length loads + Nat.min (S k) (length (answered answers)))) with (n + Z.of_nat k + 1) in R5 by (unfold n; lia).
      rewrite R2. rewrite firstn_app, HL'. rewrite firstn_all2 by lia. replace (length loads + k + 1 - length loads)%nat with (S k) by lia.
      rewrite firstn_map. exact R5.
    - rewrite R2. eapply chooses_snoc; [exact HC|exact R1].
  Qed.

  Lemma session_exists xs mem :
    verify_ssco v p = Ok tt -> length xs = (length loads + length more)%nat ->
    chooses ops alg default (mkOnline q 0) [] None xs mem ->
    (forall k, (k <= length xs)%nat -> exists c, po_objective ops (until q (Z.of_nat k)) (firstn k xs) = Ok c) ->
    (forall k, (k <= length xs)%nat -> exists c, po_objective ops (until q (Z.of_nat k)) (map of_int (map to_int (firstn k xs))) = Ok c) ->
    exists off answers st, session p (map Input (into_online more)) = Ok (off, (map Answered answers, Some st)).
  Proof.
    intros HV HL HC H1 H2. pose proof HC as HC0. rewrite <- (firstn_skipn (length loads) xs) in HC. apply chooses_app in HC as (m1 & C1 & C2). cbn [app] in C2.
    set (ys := firstn (length loads) xs) in *. set (zs := skipn (length loads) xs) in *.
    assert (Ly : length ys = length loads) by (unfold ys; rewrite firstn_length; lia).
    assert (Lz : length zs = length more) by (unfold zs; rewrite skipn_length; lia).
    assert (Exs : xs = ys ++ zs) by (unfold ys, zs; symmetry; apply firstn_skipn).
    destruct (H1 (length loads) ltac:(lia)) as (c & Hc). destruct (H2 (length loads) ltac:(lia)) as (ic & Hic). fold ys n in Hc, Hic.
    assert (HO : forall zs', po_objective ops (po_set ops p n) zs' = po_objective ops (until q n) zs').
    { intros zs'. exact (objective_seen v sched q n (mkOnline (po_set ops p n) 0) zs' p_seen). }
    assert (HP : exists r, prepare ops alg default to_int of_int 0 p = Ok (mkOnline (po_set ops p n) 0, r) /\ of_xs r = ys /\ of_m r = m1).
    { unfold prepare. cbn [po_tend ssco_ops]. rewrite p_tend, Z.sub_0_r.
      assert (EV : verify_o ops (mkOnline (if 1 <? n then po_set ops p 1 else p) 0) = Ok tt).
      { unfold verify_o, verify_online. cbn [on_p on_w]. change (assert_validity (0 <=? 0)) with (Ok tt). cbn [obind po_verify ssco_ops po_set].
        destruct (1 <? n); [|exact HV]. unfold verify_ssco, verify_header in *. cbn [g_d g_tend g_bounds g_switching]. rewrite p_tend in HV.
        replace (0 <=? n) with true in HV by (symmetry; apply Z.leb_le; unfold n; lia). exact HV. }
      rewrite EV. cbn [obind]. destruct (1 <=? n) eqn:E1.
      - apply Z.leb_le in E1.
        assert (E0 : (if 1 <? n then po_set ops p 1 else p) = po_set ops p 1).
        { destruct (1 <? n) eqn:E; [reflexivity|]. apply Z.ltb_ge in E. assert (n = 1) by lia. rewrite <- H at 1. rewrite <- p_tend. destruct p; reflexivity. }
        rewrite E0. unfold offline_stream.
        rewrite (stream_chosen ops alg default (ssco_ops_lawful v dc_hmerge dc_vmerge OutsideDecisionSpace sched) ys n (mkOnline (po_set ops p 1) 0) [] None m1).
        + cbn [obind app at_slot on_p on_w]. rewrite Z.sub_0_r.
          change (po_set ops (po_set ops p 1) n) with (po_set ops p n). rewrite !HO, Hc. cbn [obind]. rewrite Hic. cbn [obind].
          eexists. split; [reflexivity|]. split; reflexivity.
        + intros E. rewrite E in Ly. cbn in Ly. unfold n in E1. lia.
        + reflexivity.
        + cbn [length on_w]. rewrite Ly. unfold n. lia.
        + intros t Ht. cbn [on_p po_tend ssco_ops po_set g_tend on_w] in Ht. unfold verify_o, verify_online. cbn [at_slot on_p on_w].
          change (assert_validity (0 <=? 0)) with (Ok tt). cbn [obind po_verify po_set ssco_ops g_d g_bounds g_switching g_cost].
          unfold verify_ssco, verify_header in *. cbn [g_d g_tend g_bounds g_switching]. rewrite p_tend in HV.
          replace (0 <=? n) with true in HV by (symmetry; apply Z.leb_le; unfold n; lia). replace (0 <=? t) with true by (symmetry; apply Z.leb_le; lia). exact HV.
        + apply (chooses_agree v dc_hmerge dc_vmerge OutsideDecisionSpace sched alg default HA HD q _ n).
          * apply agree_sym. destruct p_agrees as (A & B & E & F). repeat split; auto.
          * cbn [length]. rewrite Ly. unfold n. lia.
          * exact C1.
      - apply Z.leb_gt in E1. assert (EN : n = 0) by (unfold n in *; lia). assert (Ey : ys = []) by (destruct ys; [reflexivity|cbn in Ly; unfold n in EN; lia]).
        cbn [obind]. assert (E : 1 <? n = false) by (apply Z.ltb_ge; lia). rewrite E. cbn [on_p].
        assert (Ep : po_set ops p n = p) by (rewrite <- p_tend; destruct p; reflexivity).
        assert (HO' : forall zs', po_objective ops p zs' = po_objective ops (until q n) zs') by (intros zs'; rewrite <- HO, Ep; reflexivity).
        rewrite Ey in Hc, Hic, C1. cbn [map]. rewrite !HO', Hc. cbn [obind]. rewrite Ep.
        eexists. split; [reflexivity|]. rewrite Ey. split; [reflexivity|]. clear -C1. inversion C1. reflexivity. }
    destruct HP as (r & HP & Er & Em).
    destruct (run_exists powf m v ofZ minimize choose Hchoose sched alg default to_int of_int HA HD (loads ++ more) q Hq more loads (mkOnline (po_set ops p n) 0) ys m1 zs mem eq_refl Hmore p_seen Ly Lz C2) as (answers & st & HR).
    - intros k Hk ws. destruct (H1 (length loads + k)%nat ltac:(lia)) as (c' & Hc'). exists c'.
      assert (E : firstn (length loads + k) xs = ws) by (unfold ws; rewrite Exs, firstn_app, Ly, firstn_all2 by lia; f_equal; f_equal; lia).
      rewrite E in Hc'. rewrite <- Hc'. f_equal. f_equal. rewrite <- E, firstn_length. lia.
    - intros k Hk ws. destruct (H2 (length loads + k)%nat ltac:(lia)) as (c' & Hc'). exists c'.
      assert (E : firstn (length loads + k) xs = ws) by (unfold ws; rewrite Exs, firstn_app, Ly, firstn_all2 by lia; f_equal; f_equal; lia).
      rewrite E in Hc'. rewrite <- Hc'. f_equal. f_equal. rewrite <- E, firstn_length. lia.
    - exists r, answers, st. unfold start. rewrite HP. cbn [obind fst snd]. rewrite Er, Em, HR. reflexivity.
  Qed.
End Start.
