(** Live requests in general: what they describe, and when they fail. *)
From Coq Require Import Lia.
From Verif Require Import NumLemmas CostSpec CostProofs ConvertProofs ConvertObjective VerifySpec VerifyProofs LoadProofs LoadObjective DataCenterModel DataCenterInstances OfflineModel OfflineProofs
  StreamModel StreamSpec StreamProofs SessionModel SessionSpec SessionStream SessionLcp SessionDay SessionEnd SessionTop.
From Verif Require Import ProblemModel CostModel.
Local Open Scope Z_scope.

Section Describe.
  Variables (powf : Q -> Q -> Q) (m : data_center).
  Context {T : Type}.
  Variable v : value T.
  Variable ofZ : Z -> T.
  Variable minimize : (list Q -> outcome ext) -> list (Q * Q) -> list Q -> list (list Q -> outcome Q) -> option (list Q * ext).
  Variable choose : nat -> list Q -> nat -> list Q.
  Hypothesis Hchoose : selects choose.
  Notation upd := (dc_update_ssco powf m v minimize choose).
  Notation gen := (to_ssco powf m v ofZ minimize).
  Notation inst := (gssco T dc_success dc_failure).

  Lemma updates_seen q : forall more done o, gen (done ++ more) = Ok q -> seen q (Z.of_nat (length done)) o ->
    Forall (fun lambda => length lambda = 1%nat) more ->
    exists o', updates upd o (into_online more) = Ok o' /\ seen q (g_tend q) o'.
  Proof.
    induction more as [|lambda more IH]; intros done o Hq Ho HL.
    - exists o. split; [reflexivity|]. rewrite app_nil_r in Hq. destruct (gen_cost powf m v ofZ minimize done q Hq) as (_ & -> & _). exact Ho.
    - destruct (update_seen powf m v ofZ minimize choose Hchoose (done ++ lambda :: more) q o (Z.of_nat (length done)) lambda Hq ltac:(lia) Ho) as (o1 & U1 & U2).
      { rewrite nth_error_app2 by lia. rewrite Nat2Z.id, Nat.sub_diag. reflexivity. }
      { exact (Forall_inv HL). }
      cbn [into_online map updates]. rewrite U1. cbn [obind].
      apply (IH (done ++ [lambda])).
      + rewrite <- app_assoc. exact Hq.
      + rewrite app_length. cbn [length]. rewrite Nat2Z.inj_add. exact U2.
      + exact (Forall_inv_tail HL).
  Qed.

  Lemma updates_describe loads more p q : gen loads = Ok p -> gen (loads ++ more) = Ok q ->
    Forall (fun lambda => length lambda = 1%nat) more ->
    exists o, updates upd (mkOnline p 0) (into_online more) = Ok o /\ on_w o = 0 /\ g_tend (on_p o) = g_tend q /\ agree (g_tend q) (on_p o) q.
  Proof.
    intros Hp Hq HL. destruct (updates_seen q more loads (mkOnline p 0) Hq) as (o & U & S1 & S2 & S3 & _).
    - pose proof (p_seen powf m v ofZ minimize Leaf loads more p q Hp Hq) as H.
      replace (mkOnline p 0) with (mkOnline (po_set (ssco_ops v dc_hmerge dc_vmerge OutsideDecisionSpace Leaf) p (Z.of_nat (length loads))) 0); [exact H|].
      rewrite <- (SessionEnd.p_tend powf m v ofZ minimize loads p Hp). destruct p; reflexivity.
    - exact HL.
    - exists o. auto.
  Qed.

  Context {M Y : Type}.
  Variable sched : split.
  Notation ops := (ssco_ops v dc_hmerge dc_vmerge OutsideDecisionSpace sched).
  Variable alg : online inst -> Z -> list (list T) -> M -> outcome (list T * option M).
  Variable default : online inst -> M.
  Variable to_int : list T -> Y.
  Variable of_int : Y -> list T.

  (** A session reports the costs of the loads seen so far. *)
  Lemma session_describes loads more p q off answers o xs mem :
    causal alg -> causal_memory default ->
    gen loads = Ok p -> gen (loads ++ more) = Ok q -> Forall (fun lambda => length lambda = 1%nat) more ->
    start ops alg default to_int of_int upd 0 p (map Input (into_online more)) = Ok (off, (answers, Some (o, xs, mem))) ->
    exists rs, answers = map Answered rs /\ length rs = length more /\ xs = of_xs off ++ map r_x rs /\ length xs = length (loads ++ more) /\
      (loads ++ more <> [] -> offline_stream ops alg default (g_tend q) (mkOnline (until q 1) 0) = Some (mkOnline q 0, xs, Ok mem)) /\
      forall k today c, (k <= length more)%nat -> gen (loads ++ firstn k more) = Ok today -> reported off rs k c ->
        po_objective ops today (of_xs off ++ map r_x (firstn k rs)) = Ok c.
  Proof.
    intros HA HD Hp Hq HL HR.
    destruct (session_follows powf m v ofZ minimize choose Hchoose sched alg default to_int of_int HA HD loads more p q Hp Hq HL off answers o xs mem HR) as (F1 & F2 & F3 & F4 & F5 & F6 & F7 & _).
    set (rs := answered answers) in *. exists rs. rewrite F2, map_length in F3. split; [exact F2|]. split; [exact F3|]. split; [exact F4|].
    split; [rewrite F4, !app_length, map_length; lia|]. split; [exact F5|].
    intros k today c Hk Hg Hrep.
    assert (EX : of_xs off ++ map r_x (firstn k rs) = firstn (length loads + k) xs).
    { rewrite F4, firstn_app, F1, (firstn_all2 (of_xs off)) by lia. replace (length loads + k - length loads)%nat with k by lia. rewrite firstn_map. reflexivity. }
    assert (Hq' : gen ((loads ++ firstn k more) ++ skipn k more) = Ok q) by (rewrite <- app_assoc, firstn_skipn; exact Hq).
    assert (ET : Z.of_nat (length (loads ++ firstn k more)) = Z.of_nat (length loads + k)) by (rewrite app_length, firstn_length; lia).
    rewrite (agree_objective v dc_hmerge dc_vmerge OutsideDecisionSpace sched (Z.of_nat (length loads + k)) today (until q (Z.of_nat (length loads + k)))).
    - destruct k as [|k]; cbn [reported] in Hrep.
      + subst c. cbn [firstn map]. rewrite app_nil_r, Nat.add_0_r. exact F6.
      + destruct Hrep as (r & Hr & ->). rewrite EX. specialize (F7 k r Hr). replace (Z.of_nat (length loads) + Z.of_nat k + 1) with (Z.of_nat (length loads + S k)) in F7 by lia.
        replace (length loads + k + 1)%nat with (length loads + S k)%nat in F7 by lia. exact F7.
    - rewrite <- ET. destruct (prefix_agree powf m v ofZ minimize (loads ++ firstn k more) _ (skipn k more) today q Hg Hq' eq_refl) as (A1 & A2 & A3 & A4). repeat split; auto.
    - rewrite (SessionEnd.p_tend powf m v ofZ minimize (loads ++ firstn k more) today Hg). exact ET.
    - reflexivity.
  Qed.

  (** With a prediction window, load profiles without predictions are refused. *)
  Lemma window_refused w p lambda more off answers final :
    1 <= w -> start ops alg default to_int of_int upd w p (map Input (into_online (lambda :: more))) = Ok (off, (answers, final)) ->
    answers = [Failed] /\ final = None.
  Proof.
    intros Hw H. unfold start in H. apply obind_Ok in H as ([o r] & HP & H). cbn [fst snd] in H. injection H as _ HR.
    apply (prepare_ok ops alg default (ssco_ops_lawful v dc_hmerge dc_vmerge OutsideDecisionSpace sched) to_int of_int) in HP as (_ & HW & _).
    cbn [into_online map run serve] in HR. unfold dc_update_ssco in HR. rewrite update_ssco_window in HR by (rewrite HW; cbn [length]; lia).
    cbn [obind] in HR. injection HR as <- <-. auto.
  Qed.
End Describe.

(** *** Several loads per slot *)
Section Several.
  Variables (powf : Q -> Q -> Q) (m : data_center).
  Variable minimize : (list Q -> outcome ext) -> list (Q * Q) -> list Q -> list (list Q -> outcome Q) -> option (list Q * ext).
  Variable choose : nat -> list Q -> nat -> list Q.
  Hypothesis Hchoose : selects choose.

  Lemma omap_In {A B} (f : A -> outcome B) : forall l r a, omap f l = Ok r -> In a l -> exists b, f a = Ok b.
  Proof.
    intros l r a H Ha. apply omap_all in H. induction H as [|a' b l r H1 H2 IH]; [destruct Ha|]. destruct Ha as [->|Ha]; [exists b; exact H1|apply IH; exact Ha].
  Qed.

  Lemma lcp_refuses {C D} vmerge (outside : D) (p : gssco Z C D) xs bs : well_formed_ssco valZ p -> 0 < g_tend p ->
    (forall x, call_predictive (g_cost p) (g_tend p) x = Panic) ->
    forall r, lcp_ssco vmerge outside (mkOnline p 0) (g_tend p) xs bs <> Ok r.
  Proof.
    intros HV Ht HC r H. unfold lcp_ssco, lcp in H. cbn [on_p on_w bo_d bo_tend bo_w bo_lower bo_upper] in H.
    apply obind_Ok in H as ([x b] & H & _). destruct (negb (g_d p =? 1)) eqn:ED; [discriminate|]. destruct (negb (g_tend p - 1 =? Z.of_nat (length bs))); [discriminate|].
    apply obind_Ok in H as (st & EI & H). apply initial_time_nonneg in EI. apply obind_Ok in H as (i & _ & H). apply obind_Ok in H as (lower & HB & _).
    unfold find_bound_ssco in HB. rewrite Z.ltb_irrefl, ED in HB. replace (g_tend p <=? 0) with false in HB by (symmetry; apply Z.leb_gt; lia). cbv zeta in HB.
    apply obind_Ok in HB as (res & _ & HB). apply obind_Ok in HB as (os & HO & HB).
    destruct (g_tend p - fst st <=? 0) eqn:E; [discriminate|]. apply Z.leb_gt in E.
    pose proof (omap_In _ _ _ (g_tend p - fst st) HO ltac:(apply zrange_In; cbn [g_tend ssco_reset]; lia)) as (cs & Hcs).
    assert (HZ : In (map (fun _ => 0) (g_bounds p)) (configs_of (map (zrange 0) (g_bounds p)))).
    { apply configs_of_In. pose proof (wf_bounds_pos p HV) as HP. clear -HP. induction HP as [|u us Hu HP IH]; cbn [map]; constructor; [apply zrange_In; lia|exact IH]. }
    destruct (omap_In _ _ _ _ Hcs HZ) as (c & Hc). rewrite gssco_hit_inside in Hc.
    - cbn [g_cost ssco_reset] in Hc. rewrite call_mean_of_predictive, reset_predictive in Hc by lia.
      replace (fst st + (g_tend p - fst st)) with (g_tend p) in Hc by lia. rewrite HC in Hc. destruct (1 <=? g_tend p) eqn:E1; [discriminate Hc|apply Z.leb_gt in E1; lia].
    - reflexivity.
    - cbn [g_bounds ssco_reset]. apply feasible_box. pose proof (wf_bounds_pos p HV) as HP. clear -HP. induction HP as [|u us Hu HP IH]; cbn [map]; constructor; [lia|exact IH].
  Qed.

  Lemma several_refused sched loads lambda more off answers final :
    (2 <= length lambda)%nat -> length lambda = dc_e m ->
    lcp_session powf m minimize choose sched 0 loads (map Input (into_online (lambda :: more))) = Ok (off, (answers, final)) ->
    answers = [Failed] /\ final = None.
  Proof.
    intros H2 HE H. unfold lcp_session in H. apply obind_Ok in H as (p & Hp & H). unfold start in H. apply obind_Ok in H as ([o0 r] & HP & H). cbn [fst snd] in H. injection H as _ HR.
    assert (Hp' : to_ssco powf m valZ (fun z => z) minimize (loads ++ []) = Ok p) by (rewrite app_nil_r; exact Hp).
    apply (prepare_seen powf m valZ (fun z => z) minimize sched (lcp_ssco dc_vmerge OutsideDecisionSpace) lcp_memory (fun x => x) (fun x => x) (lcp_causal dc_vmerge OutsideDecisionSpace) lcp_memory_causal loads [] p p Hp Hp') in HP as (HV & _ & HL & HS & _).
    destruct HS as (Hw & Ht & HA & hist & HH). cbn [into_online map run serve] in HR. unfold dc_update_ssco, update_ssco in HR. rewrite Hw in HR. cbn [length verify_update] in HR.
    unfold verify_update in HR. change (0 <? Z.of_nat 1) with true in HR. cbn [obind] in HR. rewrite Ht in HR.
    set (f := apply_predicted_loads _ _ _ _ _ _ _ _) in HR. set (o1 := mkGSSCO _ _ _ _ _) in HR.
    unfold online_next in HR. cbn [po_tend ssco_ops on_p o1 g_tend] in HR. rewrite HL, Z.eqb_refl in HR. cbn [negb] in HR. unfold alg_next in HR.
    destruct (lcp_ssco dc_vmerge OutsideDecisionSpace (mkOnline o1 0) (Z.of_nat (length (of_xs r)) + 1) (of_xs r) (match of_m r with Some m0 => m0 | None => lcp_memory (mkOnline o1 0) end)) as [x| |] eqn:EL.
    - exfalso. rewrite HL in EL. refine (lcp_refuses dc_vmerge OutsideDecisionSpace o1 _ _ _ _ _ _ EL).
      + destruct HA as (A1 & A2 & A3 & _). apply ssco_verified in HV. destruct HV as (W1 & W2 & W3 & W4 & W5 & W6). unfold o1, well_formed_ssco. cbn [g_d g_tend g_bounds g_switching].
        rewrite A1, A2, A3. repeat split; auto. lia.
      + cbn [o1 g_tend]. lia.
      + intros y. cbn [o1 g_cost g_tend]. rewrite HH, <- of_history_snoc. rewrite (call_predictive_answers _ _ (Z.of_nat (length loads) + 1) f).
        * unfold f. rewrite <- HE, certain_prediction_panics; [reflexivity| |exact H2].
          intros i zs n Hn. exact (proj1 (Hchoose i zs n Hn)).
        * split; [lia|]. exists hist, []. repeat split; [intros; lia|intros ? ? []].
    - cbn [unwrap obind] in HR. injection HR as <- <-. auto.
    - cbn [unwrap obind] in HR. injection HR as <- <-. auto.
  Qed.
End Several.
