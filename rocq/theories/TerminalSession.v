(** Costs reported by sessions in terms of SCO instances. *)
From Coq Require Import Lia Lqa.
From Verif Require Import NumLemmas CostSpec CostProofs ConvertProofs ConvertCosts ConvertObjective VerifySpec VerifyProofs DataCenterModel DataCenterInstances
  StreamModel StreamSpec StreamProofs SessionModel SessionSpec SessionStream SessionDay SessionEnd SessionTop TerminalModel TerminalSpec TerminalProofs TerminalDay.
From Verif Require Import ProblemModel CostModel.
Local Open Scope Z_scope.

Section Session.
  Variables (powf : Q -> Q -> Q) (m : data_center).
  Context {T : Type}.
  Variable v : value T.
  Hypothesis Hlaw : lawful v.
  Variable ofZ : Z -> T.
  Hypothesis HZ : forall z, (v_toQ v (ofZ z) == inject_Z z)%Q.
  Variable minimize : (list Q -> outcome ext) -> list (Q * Q) -> list Q -> list (list Q -> outcome Q) -> option (list Q * ext).
  Variable choose : nat -> list Q -> nat -> list Q.
  Hypothesis Hchoose : selects choose.
  Hypothesis Hone : length (dc_locations m) = 1%nat.

  Notation upd := (dc_update_sco powf m v minimize choose).
  Notation gen := (to_ssco powf m v ofZ minimize).
  Notation image := (into_sco v dc_vmerge OutsideDecisionSpace).
  Notation inst := (gsco T dc_success dc_failure).
  Notation seen_sco := (seen_sco v).
  Context {M Y : Type}.
  Variable sched : split.
  Notation ops := (sco_ops v dc_hmerge dc_vmerge OutsideDecisionSpace sched).
  Variable alg : online inst -> Z -> list (list T) -> M -> outcome (list T * option M).
  Variable default : online inst -> M.
  Variable to_int : list T -> Y.
  Variable of_int : Y -> list T.
  Notation run := (run ops alg default to_int of_int upd).

  Lemma seen_earlier p q q' n o : seen_sco p q n o -> agree n q q' -> 0 <= g_tend p -> seen_sco p q' n o.
  Proof.
    intros (H1 & H2 & H3 & H4 & H5 & H6 & H7 & H8 & H9) (A & B & E & F) H0. repeat split; auto; try congruence.
    - rewrite H5. cbn [into_sco o_bounds]. rewrite B. reflexivity.
    - intros t x Ht. rewrite H8 by exact Ht. apply F. lia.
  Qed.

  Lemma shaped_costs (p : inst) xs c : po_objective ops p xs = Ok c -> o_tend p = Z.of_nat (length xs) ->
    Forall (fun x => length x = length (o_bounds p)) xs.
  Proof.
    cbn [po_objective sco_ops]. unfold objective_o. intros H Ht. apply obind_Ok in H as (cs & HC & _). rewrite Forall_forall. intros x Hx.
    apply In_nth_error in Hx as [k Hk]. assert (k < length xs)%nat by (apply nth_error_Some; congruence).
    assert (HI : In (Z.of_nat k + 1) (zrange 1 (o_tend p))) by (apply zrange_In; lia).
    apply omap_all in HC. revert HI. induction HC as [|t ct ts cs HS _ IH]; [intros []|]. intros [->|HI]; [|apply IH; exact HI].
    unfold step_cost_o in HS. cbn [gsco_problem op_tend op_hit] in HS. rewrite (proj2 (Z.ltb_ge _ _)) in HS by lia.
    assert (EX : get_or xs (gzero v (o_d p)) (Z.of_nat k + 1) = x).
    { unfold get_or, access. destruct (1 <=? Z.of_nat k + 1) eqn:E1; [|apply Z.leb_gt in E1; lia]. destruct (Z.of_nat k + 1 <=? Z.of_nat (length xs)) eqn:E2; [|apply Z.leb_gt in E2; lia].
      cbn [andb]. replace (Z.to_nat (Z.of_nat k + 1 - 1)) with k by lia. rewrite Hk. reflexivity. }
    rewrite EX in HS. apply obind_Ok in HS as (hc & Hh & _). unfold gsco_hit, call_mean_within, within_pairs in Hh.
    destruct (Nat.eqb_spec (length x) (length (o_bounds p))); [assumption|discriminate Hh].
  Qed.

  Section All.
    Variables (loads more : list (list Q)) (p q : gssco T dc_success dc_failure).
    Hypothesis Hp : gen loads = Ok p.
    Hypothesis Hq : gen (loads ++ more) = Ok q.

    Lemma run_states : forall more2 done o xs mem answers fin, loads ++ more = done ++ more2 ->
      Forall (fun lambda => length lambda = 1%nat) more2 -> seen_sco p q (Z.of_nat (length done)) o -> length xs = length done ->
      run (o, xs, mem) (map Input (into_online more2)) = (answers, Some fin) ->
      forall k r, nth_error (answered answers) k = Some r ->
        exists ok, let xsk := xs ++ map r_x (firstn (S k) (answered answers)) in
          seen_sco p q (Z.of_nat (length xsk)) ok /\ length xsk = (length done + S k)%nat /\ po_objective ops (on_p ok) xsk = Ok (r_cost r).
    Proof.
      induction more2 as [|lambda more2 IH]; intros done o xs mem answers fin Hall HL Hs Hx H k r Hr.
      - cbn in H. injection H as <- <-. destruct k; discriminate Hr.
      - cbn [into_online map StreamModel.run] in H.
        destruct (serve ops alg default to_int of_int upd (o, xs, mem) [into_predicted lambda]) as [[r1 [[o1 xs1] mem1]]| |] eqn:ES; try discriminate H.
        apply (serve_ok ops alg default) in ES as (S1 & S2 & S3 & S4 & S5 & S6 & _).
        destruct (update_seen_sco powf m v ofZ minimize choose Hchoose Hone loads more p q Hp Hq o (Z.of_nat (length done)) lambda ltac:(lia) Hs) as (o2 & U1 & U2).
        { rewrite Hall, nth_error_app2 by lia. rewrite Nat2Z.id, Nat.sub_diag. reflexivity. }
        { exact (Forall_inv HL). }
        assert (o2 = o1) by congruence. subst o2.
        destruct (run (o1, xs1, mem1) (map Input (map (fun lambda0 => [into_predicted lambda0]) more2))) as [ans f] eqn:ER.
        injection H as <- ->. cbn [answered] in Hr |- *. destruct k as [|k]; cbn [nth_error] in Hr; cbv zeta; [cbn [firstn map]|change (firstn (S (S k)) (r1 :: answered ans)) with (r1 :: firstn (S k) (answered ans)); cbn [map]].
        + injection Hr as <-. exists o1. cbv zeta. rewrite S4 in S6. split; [|split; [|exact S6]].
          * rewrite app_length, Hx. cbn [length]. rewrite Nat2Z.inj_add. exact U2.
          * rewrite app_length, Hx. reflexivity.
        + destruct (IH (done ++ [lambda]) o1 xs1 mem1 ans fin) with (k := k) (r := r) as (ok & I1 & I2 & I3).
          { rewrite <- app_assoc. exact Hall. }
          { exact (Forall_inv_tail HL). }
          { rewrite app_length. cbn [length]. rewrite Nat2Z.inj_add. exact U2. }
          { rewrite S4, !app_length, Hx. reflexivity. }
          { exact ER. }
          { exact Hr. }
          assert (EX : xs1 ++ map r_x (firstn (S k) (answered ans)) = xs ++ r_x r1 :: map r_x (firstn (S k) (answered ans))) by (rewrite S4, <- app_assoc; reflexivity).
          cbv zeta in I1, I2, I3. rewrite EX in I1, I2, I3. exists ok. split; [exact I1|]. split; [|exact I3].
          transitivity (length (done ++ [lambda]) + S k)%nat; [exact I2|]. rewrite app_length. cbn [length]. lia.
    Qed.
  End All.

  Lemma session_charges loads more p off answers o xs mem :
    to_sco powf m v ofZ minimize loads = Ok p -> Forall (fun lambda => length lambda = 1%nat) more ->
    start ops alg default to_int of_int upd 0 p (map Input (into_online more)) = Ok (off, (answers, Some (o, xs, mem))) ->
    exists rs, answers = map Answered rs /\ length rs = length more /\ xs = of_xs off ++ map r_x rs /\ length xs = length (loads ++ more) /\
      forall k today c, (k <= length more)%nat -> gen (loads ++ firstn k more) = Ok today -> reported off rs k c ->
        let ys := of_xs off ++ map r_x (firstn k rs) in
        exists c', po_objective (ssco_ops v dc_hmerge dc_vmerge OutsideDecisionSpace sched) today ys = Ok c' /\
          charged_early v (g_switching today) ys (length loads) (length loads + k) c c'.
  Proof.
    unfold to_sco. intros H HL HR. apply obind_Ok in H as (p0 & Hp & H). injection H as <-.
    destruct (gen_other powf m v ofZ minimize loads (loads ++ more) p0 Hp) as (q & Hq & _).
    destruct (gen_cost powf m v ofZ minimize loads p0 Hp) as (_ & HT & _).
    unfold start in HR. apply obind_Ok in HR as ([o0 r] & HP & HR). cbn [fst snd] in HR. injection HR as <- HR.
    apply (prepare_ok ops alg default (sco_ops_lawful v dc_hmerge dc_vmerge OutsideDecisionSpace sched) to_int of_int) in HP as (_ & _ & _ & HO & _ & HX).
    cbn [po_tend sco_ops into_sco o_tend] in HX. rewrite HT in HX.
    assert (HS : length (of_xs r) = length loads /\ seen_sco p0 q (Z.of_nat (length loads)) o0).
    { destruct (1 <=? Z.of_nat (length loads) - 0) eqn:E1.
      - apply Z.leb_le in E1. destruct HX as (X1 & X2 & _). assert (EL : length (of_xs r) = length loads) by lia. split; [exact EL|].
        rewrite X2, EL, <- HT. apply (seen_start powf m v ofZ minimize Hone loads more p0 q Hp Hq). unfold po_set, sco_ops, into_sco. rewrite HT. cbn. reflexivity.
      - apply Z.leb_gt in E1. destruct HX as (X1 & _ & X3). rewrite X1. cbn [length]. split; [lia|]. rewrite X3.
        destruct (1 <? Z.of_nat (length loads)) eqn:E; [apply Z.ltb_lt in E; lia|]. rewrite <- HT. apply (seen_start powf m v ofZ minimize Hone loads more p0 q Hp Hq). reflexivity. }
    destruct HS as [HLx HS].
    pose proof (run_running ops alg default to_int of_int upd _ _ _ _ _ _ _ _ HR) as (R1 & R2 & R3).
    pose proof (run_states loads more p0 q Hp Hq more loads o0 (of_xs r) (of_m r) answers (o, xs, mem) eq_refl HL HS HLx HR) as HRS.
    set (rs := answered answers) in *. exists rs.
    assert (HN : length rs = length more).
    { unfold into_online in R2. rewrite !map_length in R2. rewrite R1, map_length in R2. exact R2. }
    split; [exact R1|]. split; [exact HN|]. split; [exact R3|]. split; [rewrite R3, !app_length, map_length; lia|].
    intros k today c Hk Hg Hrep. set (ys := of_xs r ++ map r_x (firstn k rs)).
    assert (Hst : exists ok, seen_sco p0 q (Z.of_nat (length loads + k)) ok /\ length ys = (length loads + k)%nat /\ po_objective ops (on_p ok) ys = Ok c).
    { destruct k as [|k]; cbn [reported] in Hrep.
      - subst c. exists o0. unfold ys. cbn [firstn map]. rewrite app_nil_r, Nat.add_0_r. auto.
      - destruct Hrep as (r0 & Hr & ->). destruct (HRS k r0 Hr) as (ok & A1 & A2 & A3). fold ys in A1, A2, A3. exists ok. rewrite A2 in A1. auto. }
    destruct Hst as (ok & S1 & S2 & S3).
    assert (Hq' : gen ((loads ++ firstn k more) ++ skipn k more) = Ok q) by (rewrite <- app_assoc, firstn_skipn; exact Hq).
    assert (ET : length (loads ++ firstn k more) = (length loads + k)%nat) by (rewrite app_length, firstn_length; lia).
    pose proof (prefix_agree powf m v ofZ minimize (loads ++ firstn k more) _ (skipn k more) today q Hg Hq' eq_refl) as HA. rewrite ET in HA.
    apply agree_sym in HA. apply (seen_earlier p0 q today) in S1; [|exact HA|lia].
    destruct (gen_cost powf m v ofZ minimize _ today Hg) as (_ & HTt & _). rewrite ET in HTt. rewrite <- HTt in S1.
    destruct (ssco_generated powf m T v ofZ minimize _ today HZ Hg) as (G1 & _ & G3 & _).
    rewrite Hone, Nat.mul_1_l in G1.
    assert (HF : Forall (fun x => length x = length (dc_server_types m)) ys).
    { pose proof S1 as (_ & D1 & _ & _ & D2 & _). pose proof (shaped_costs (on_p ok) ys c S3 ltac:(rewrite D1, HTt, S2; reflexivity)) as HF.
      eapply Forall_impl; [|exact HF]. intros x Hx. cbv beta in Hx. rewrite Hx, D2. cbn [into_sco o_bounds]. rewrite map_length. lia. }
    pose proof (objective_early powf m v Hlaw ofZ HZ minimize Hone loads (firstn k more) p0 today Hp Hg sched ok ys S1 HF) as HE.
    rewrite S3, ET in HE. destruct (po_objective (ssco_ops v dc_hmerge dc_vmerge OutsideDecisionSpace sched) today ys) as [c'| |]; cbn [outcome_rel] in HE; try contradiction.
    exists c'. split; [reflexivity|exact HE].
  Qed.
End Session.
