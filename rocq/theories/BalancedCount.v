(** Proofs about lazy budgeting for SBLO: server bookkeeping, sub-slot counts and costs. *)
From Coq Require Import Lia Lqa Setoid.
From Verif Require Import NumLemmas CostSpec CostProofs ConvertProofs ConvertObjective LoadProofs BudgetProofs BudgetRun
  StreamSpec StreamProofs BalancedModel BalancedSpec BalancedSearch BalancedProofs BalancedRun BalancedSlots.
From Verif Require Import CostModel ProblemModel.
Local Open Scope Z_scope.

Section Servers.
  Variable minimize :
    (list Q -> outcome ext) -> list (Q * Q) -> list Q -> list (list Q -> outcome Q) -> option (list Q * ext).
  Variable sched : Z -> Z -> vertice -> split.
  Hypothesis HX : solver_extensional minimize.
  Variable p : gsblo Z.
  Variable T : Z.
  Hypothesis HI : balanced_instance minimize p T.
  Notation d := (Z.to_nat (b_d p)).
  Notation io := (idle_over p).

  Lemma dim_lt k beta : nth_error (b_switching p) k = Some beta -> (k < d)%nat.
  Proof. intros H. apply nth_error_lt in H. destruct (bi_form _ _ _ HI) as (_ & _ & _ & HLs & _). lia. Qed.

  Lemma io_mono_le k s u v beta : (k < d)%nat -> 0 <= s <= u -> u <= v <= T -> ele (io k s v) (Fin beta) -> ele (io k s u) (Fin beta).
  Proof.
    intros Hk Hs Hv. replace v with (u + Z.of_nat (Z.to_nat (v - u))) in * by lia.
    revert Hv. induction (Z.to_nat (v - u)) as [|j IH]; intros Hv; [rewrite Z.add_0_r; auto|].
    intros H. apply IH; [lia|]. apply eleb_iff. apply (io_mono minimize p T HI); [exact Hk|lia|lia|]. apply eleb_iff.
    replace (u + Z.of_nat j + 1) with (u + Z.of_nat (S j)) by lia. exact H.
  Qed.

  Lemma expires_once k beta s u v : (k < d)%nat -> 0 <= s -> u <= T -> v <= T -> expires p k beta s u -> expires p k beta s v -> u = v.
  Proof.
    intros Hk Hs Hu Hv (A & B & C) (A' & B' & C'). destruct (Z_lt_ge_dec u v) as [H|H].
    - specialize (C' u ltac:(lia)). destruct (io k s u); cbn in *; [lra|contradiction].
    - destruct (Z.eq_dec u v); [assumption|]. specialize (C v ltac:(lia)). destruct (io k s v); cbn in *; [lra|contradiction].
  Qed.

  Lemma kept_split u ups k beta : 1 <= u -> (k < d)%nat -> (0 <= beta)%Q ->
    wsum (fun s => entry ups s k) (fun s => eleb (io k s u) (Fin beta)) (zrange 1 u) = entry ups u k + kept p ups u k beta.
  Proof.
    intros Hu Hk Hb. assert (EZ : zrange 1 u = zrange 1 (u - 1) ++ [u]).
    { pose proof (zrange_snoc 1 (u - 1) ltac:(lia)) as E. replace (u - 1 + 1) with u in E by lia. exact E. }
    assert (E0 : eleb (io k u u) (Fin beta) = true) by (unfold idle_over; rewrite zrange_nil by lia; apply eleb_iff; exact Hb).
    rewrite EZ, wsum_app, wsum_cons, E0.
    change (wsum (fun s => entry ups s k) (fun s => eleb (io k s u) (Fin beta)) []) with 0. unfold kept, wsum. lia.
  Qed.

  Lemma active_at T' u ups xs k beta : T' <= T -> lazy_schedule minimize p T' ups xs -> 1 <= u <= T' ->
    nth_error (b_switching p) k = Some beta ->
    entry xs u k = wsum (fun s => entry ups s k) (fun s => eleb (io k s u) (Fin beta)) (zrange 1 u).
  Proof.
    intros HT' HL Hu Hbeta. pose proof (dim_lt k beta Hbeta) as Hk.
    destruct (dims minimize p T HI k Hk) as (f & beta' & bound & _ & Hb' & _ & Hpos).
    assert (beta' = beta) by congruence. subst beta'.
    pose proof HL as (_ & _ & _ & H). destruct (H u ltac:(lia)) as (opts & opt & _ & HC).
    destruct (HC k beta Hbeta) as (o & _ & E1 & E2). rewrite kept_split; [lia|lia|exact Hk|lra].
  Qed.

  Lemma expiresb k beta s u : (k < d)%nat -> 1 <= s < u -> u <= T ->
    (eleb (io k s (u - 1)) (Fin beta) && negb (eleb (io k s u) (Fin beta)) = true /\ (0 <= beta)%Q) <-> (expires p k beta s u /\ (0 <= beta)%Q).
  Proof.
    intros Hk Hs Hu. split; intros [H Hb]; (split; [|exact Hb]).
    - apply andb_prop in H as [H1 H2]. apply Bool.negb_true_iff in H2. rewrite eleb_iff in H1. apply eleb_false in H2.
      split; [lia|]. split; [exact H2|]. intros v Hv. eapply io_mono_le; [exact Hk|lia| |exact H1]. lia.
    - destruct H as (_ & H2 & H3). apply andb_true_intro. split.
      + apply eleb_iff. destruct (Z.eq_dec s (u - 1)) as [->|]; [|apply H3; lia].
        unfold idle_over. rewrite zrange_nil by lia. exact Hb.
      + apply Bool.negb_true_iff. destruct (eleb (io k s u) (Fin beta)) eqn:E; [|reflexivity]. apply eleb_iff in E.
        destruct (io k s u); cbn in *; [lra|contradiction].
  Qed.

  (** The servers powered down are those whose idle costs exceed the switching cost for the
      first time. *)
  Lemma balance T' ups xs k beta u : T' <= T -> lazy_schedule minimize p T' ups xs -> 1 <= u <= T' ->
    nth_error (b_switching p) k = Some beta ->
    exists down : Z -> bool, (forall s, 1 <= s <= u -> (down s = true <-> expires p k beta s u)) /\
      entry xs u k = (if u =? 1 then 0 else entry xs (u - 1) k) + entry ups u k - powered_down ups down u k.
  Proof.
    intros HT' HL Hu Hbeta. pose proof (dim_lt k beta Hbeta) as Hk.
    destruct (dims minimize p T HI k Hk) as (f & beta' & bound & _ & Hb' & _ & Hpos).
    assert (beta' = beta) by congruence. subst beta'.
    set (P s := eleb (io k s (u - 1)) (Fin beta)). set (R s := eleb (io k s u) (Fin beta)).
    exists (fun s => (s <? u) && (P s && negb (R s))). split.
    - intros s Hs. split.
      + intros H. apply andb_prop in H as [Hlt H]. apply Z.ltb_lt in Hlt. apply (expiresb k beta s u Hk ltac:(lia) ltac:(lia)).
        split; [exact H|lra].
      + intros H. pose proof H as (Hlt & _). rewrite (proj2 (Z.ltb_lt _ _) Hlt). cbn [andb].
        apply (expiresb k beta s u Hk ltac:(lia) ltac:(lia)). split; [exact H|lra].
    - rewrite (active_at T' u ups xs k beta HT' HL Hu Hbeta).
      assert (EZ : zrange 1 u = zrange 1 (u - 1) ++ [u]).
      { pose proof (zrange_snoc 1 (u - 1) ltac:(lia)) as E. replace (u - 1 + 1) with u in E by lia. exact E. }
      assert (EP : powered_down ups (fun s => (s <? u) && (P s && negb (R s))) u k
                   = wsum (fun s => entry ups s k) (fun s => P s && negb (R s)) (zrange 1 (u - 1))).
      { unfold powered_down. change (wsum (fun s => entry ups s k) (fun s => (s <? u) && (P s && negb (R s))) (zrange 1 u)
          = wsum (fun s => entry ups s k) (fun s => P s && negb (R s)) (zrange 1 (u - 1))).
        rewrite EZ, wsum_app, wsum_cons. rewrite Z.ltb_irrefl. cbn [andb].
        rewrite (wsum_ext _ (fun s => entry ups s k) _ (fun s => P s && negb (R s)) (zrange 1 (u - 1))).
        - change (wsum (fun s => entry ups s k) (fun s => (s <? u) && (P s && negb (R s))) []) with 0. lia.
        - intros s Hs. apply zrange_In in Hs. split; [reflexivity|]. rewrite (proj2 (Z.ltb_lt _ _)) by lia. reflexivity. }
      rewrite EP, kept_split; [|lia|exact Hk|lra].
      assert (EK : kept p ups u k beta = wsum (fun s => entry ups s k) R (zrange 1 (u - 1))) by reflexivity.
      rewrite EK. rewrite <- (wsum_diff _ P R).
      + destruct (u =? 1) eqn:E1; [apply Z.eqb_eq in E1; subst u; rewrite (zrange_nil 1 (1 - 1)) by lia; cbn; lia|].
        apply Z.eqb_neq in E1. rewrite (active_at T' (u - 1) ups xs k beta HT' HL ltac:(lia) Hbeta). fold P. lia.
      + intros s Hs HR. apply zrange_In in Hs. unfold P, R in *. apply eleb_iff in HR. apply eleb_iff.
        eapply io_mono_le; [exact Hk|lia| |exact HR]. lia.
  Qed.

  Lemma above_optimum T' ups xs u : lazy_schedule minimize p T' ups xs -> 1 <= u <= T' ->
    exists opts opt, optimal_prefix minimize p u (opts ++ [opt]) /\ Z.of_nat (length opt) = b_d p /\
      forall k o, nth_error opt k = Some o -> o <= entry xs u k.
  Proof.
    intros (_ & _ & _ & H) Hu. destruct (H u Hu) as (opts & opt & HO & HC). exists opts, opt. split; [exact HO|].
    destruct (bi_form _ _ _ HI) as (Hd & _ & HLb & HLs & _).
    assert (HL : Z.of_nat (length opt) = b_d p).
    { destruct HO as ((_ & HF) & _). apply Forall_app in HF as [_ HF]. inversion HF as [|x l Hx _]; subst.
      pose proof (feasible_length _ _ Hx). lia. }
    split; [exact HL|]. intros k o Ho. pose proof (nth_error_lt _ _ _ Ho).
    destruct (nth_error_ex (b_switching p) k) as [beta Hbeta]; [lia|].
    destruct (HC k beta Hbeta) as (o' & Ho' & -> & _). assert (o' = o) by congruence. lia.
  Qed.
End Servers.

(** Division of costs. *)
Lemma sub_cost n T t u (f : dim_cost) z c : 1 <= t <= T -> 0 < n t ->
  Z.of_nat (length (sub_slots n (t - 1))) < u <= Z.of_nat (length (sub_slots n t)) ->
  call_certain f t z = Ok c ->
  call_certain (cf_new 1 (certain (fun u z =>
       match access (sub_slots n T) u with
       | Some t => do c <- call_certain f t z; Ok (mkCost (escale (1 / inject_Z (n t)) (c_cost c)) (c_out c))
       | None => Panic
       end))) u z = Ok (mkCost (escale (1 / inject_Z (n t)) (c_cost c)) (c_out c)).
Proof.
  intros Ht Hn Hu Hc. unfold call_certain at 1. rewrite cf_new_get by lia. cbn [obind fst snd].
  unfold single_certain, single_predictive, certain. rewrite (proj2 (Z.ltb_ge _ _)) by lia.
  rewrite (slot_of n t T u Ht Hu). rewrite Hc. cbn [obind]. cbn [length Nat.eqb negb]. rewrite Bool.andb_false_r. reflexivity.
Qed.

Lemma even_shares n c : 0 < n -> eeq (esum (repeat (escale (1 / inject_Z n) c) (Z.to_nat n))) c.
Proof.
  intros Hn. assert (HQ : ~ inject_Z n == 0) by (intros E; apply (inject_Z_injective n 0) in E; lia).
  assert (H : forall k, eeq (esum (repeat (escale (1 / inject_Z n) c) (S k))) (escale (inject_Z (Z.of_nat (S k)) / inject_Z n) c)).
  { induction k as [|k IH].
    - apply eadd_0_r.
    - change (esum (repeat (escale (1 / inject_Z n) c) (S (S k))))
        with (eadd (escale (1 / inject_Z n) c) (esum (repeat (escale (1 / inject_Z n) c) (S k)))).
      replace (Z.of_nat (S (S k))) with (Z.of_nat (S k) + 1) by lia. rewrite inject_Z_plus.
      set (r := esum _) in *. clearbody r. set (j := inject_Z (Z.of_nat (S k))) in *. clearbody j.
      destruct c as [c|]; cbn [escale] in *; [|exact I].
      destruct r as [r|]; cbn in IH |- *; [|contradiction]. rewrite IH. field. exact HQ. }
  specialize (H (Z.to_nat n - 1)%nat). replace (S (Z.to_nat n - 1)) with (Z.to_nat n) in H by lia.
  eapply eeq_trans; [exact H|]. rewrite Z2Nat.id by lia. destruct c as [c|]; cbn; [|exact I]. field. exact HQ.
Qed.

(** The number of sub-slots. *)
Lemma qmax_spec l m : qmax_of l = Some m -> In m l /\ forall x, In x l -> (x <= m)%Q.
Proof.
  destruct l as [|a r]; [discriminate|]. cbn [qmax_of]. intros H. injection H as <-.
  revert a. induction r as [|b r IH]; intros a; cbn [fold_left].
  - split; [left; reflexivity|]. intros x [->|[]]. apply Qle_refl.
  - unfold Qltb. destruct (Qlt_le_dec a b) as [Hl|Hl].
    + replace (negb (Qle_bool b a)) with true.
      * destruct (IH b) as [HIn Hle]. split; [right; exact HIn|].
        intros x [->|Hx]; [|apply Hle; exact Hx]. apply Qle_trans with b; [lra|]. apply Hle. left. reflexivity.
      * symmetry. apply Bool.negb_true_iff. destruct (Qle_bool b a) eqn:E; [|reflexivity]. apply Qle_bool_iff in E. lra.
    + replace (negb (Qle_bool b a)) with false.
      * destruct (IH a) as [HIn Hle]. split; [destruct HIn as [HIn|HIn]; [left; exact HIn|right; right; exact HIn]|].
        intros x [->|[->|Hx]]; [apply Hle; left; reflexivity| |apply Hle; right; exact Hx].
        apply Qle_trans with a; [exact Hl|]. apply Hle. left. reflexivity.
      * symmetry. apply Bool.negb_false_iff. apply Qle_bool_iff. exact Hl.
Qed.

Lemma omap_length_ok {A B} (f : A -> outcome B) l r : omap f l = Ok r ->
  length r = length l /\ forall i a, nth_error l i = Some a -> exists b, f a = Ok b /\ nth_error r i = Some b.
Proof.
  revert r. induction l as [|a l IH]; intros r H; cbn [omap] in H.
  - assert (r = []) by congruence. subst. split; [reflexivity|]. intros [|i] a; discriminate.
  - destruct (f a) as [b| |] eqn:E; try discriminate. cbn [obind] in H. destruct (omap f l) as [bs| |] eqn:E'; try discriminate.
    cbn [obind] in H. assert (r = b :: bs) by congruence. subst. destruct (IH bs eq_refl) as [HL HN]. split; [cbn; congruence|].
    intros [|i] a' Ha; cbn [nth_error] in *; [|auto]. assert (a' = a) by congruence. subst. eauto.
Qed.

(** [n] is the least number of sub-slots such that the idle cost of a sub-slot is at most the
    fraction epsilon / d of the switching cost in every dimension. *)
Lemma sub_slot_count (p : gsblo Z) t epsilon n : (0 < epsilon)%Q -> 0 < b_d p -> Forall (fun b => 0 < b)%Q (b_switching p) ->
  determine_sub_time_slots p t epsilon = Ok n ->
  (forall k beta, nth_error (b_switching p) k = Some beta -> Z.of_nat k < b_d p ->
     exists l, eeq (idle p k t) (Fin l) /\ (inject_Z (b_d p) * l <= inject_Z n * (epsilon * beta))%Q) /\
  (exists k beta l, Z.of_nat k < b_d p /\ nth_error (b_switching p) k = Some beta /\ eeq (idle p k t) (Fin l) /\
     (inject_Z (n - 1) * (epsilon * beta) < inject_Z (b_d p) * l)%Q).
Proof.
  intros He Hd HS. unfold determine_sub_time_slots. destruct (omap _ _) as [fr| |] eqn:E; try discriminate. cbn [obind].
  apply omap_length_ok in E as [HL HN]. rewrite seq_length in HL.
  destruct (qmax_of fr) as [m|] eqn:EM; [|discriminate]. cbn [from_option obind]. apply qmax_spec in EM as [HIn Hle].
  destruct (Qeq_bool epsilon 0) eqn:E0; [discriminate|]. intros H. assert (HE : n = Qceiling (inject_Z (b_d p) / epsilon * m)) by congruence.
  clear H. assert (HD : forall k r, nth_error fr k = Some r -> exists beta l, nth_error (b_switching p) k = Some beta /\ (0 < beta)%Q /\
     eeq (idle p k t) (Fin l) /\ r == l / beta).
  { intros k r Hr. pose proof (nth_error_lt _ _ _ Hr) as Hk.
    assert (Hs : nth_error (seq 0 (Z.to_nat (b_d p))) k = Some k).
    { rewrite nth_error_nth' with (d := 0%nat) by (rewrite seq_length; lia). rewrite seq_nth by lia. reflexivity. }
    destruct (HN k k Hs) as (b & Hf & Hb). assert (b = r) by congruence. subst b. clear Hb.
    destruct (nth_error (b_cost p) k) as [f|] eqn:Ef; [|discriminate]. cbn [from_option obind] in Hf.
    destruct (call_certain f t 0%Q) as [c| |] eqn:Ec; try discriminate. cbn [obind] in Hf.
    destruct (nth_error (b_switching p) k) as [beta|] eqn:Eb; [|discriminate]. cbn [from_option obind] in Hf.
    destruct (c_cost c) as [l|] eqn:El; [|discriminate]. destruct (Qeq_bool beta 0); [discriminate|].
    assert (r = (l / beta)%Q) by congruence. subst r. exists beta, l. split; [reflexivity|]. split; [|split; [|reflexivity]].
    - eapply Forall_forall in HS; [exact HS|]. eapply nth_error_In; exact Eb.
    - unfold idle. rewrite Ef, Ec, El. reflexivity. }
  assert (HDQ : (0 < inject_Z (b_d p))%Q) by (rewrite <- Zlt_Qlt with (x := 0); exact Hd).
  pose proof (Qle_ceiling (inject_Z (b_d p) / epsilon * m)) as HC1. pose proof (Qceiling_lt (inject_Z (b_d p) / epsilon * m)) as HC2.
  rewrite <- HE in HC1, HC2.
  split.
  - intros k beta Hbeta Hk. destruct (nth_error_ex fr k) as [r Hr]; [lia|].
    destruct (HD k r Hr) as (beta' & l & Hb' & Hpos & Hl & Er). assert (beta' = beta) by congruence. subst beta'.
    exists l. split; [exact Hl|]. pose proof (Hle r (nth_error_In _ _ Hr)) as Hm.
    assert (E1 : l == r * beta) by (rewrite Er; field; lra). rewrite E1.
    assert (E2 : inject_Z (b_d p) / epsilon * m * (epsilon * beta) == inject_Z (b_d p) * (m * beta)) by (field; lra).
    apply Qle_trans with (inject_Z (b_d p) * (m * beta))%Q.
    + apply Qmult_le_l; [exact HDQ|]. apply Qmult_le_r; [exact Hpos|exact Hm].
    + rewrite <- E2. apply Qmult_le_r; [|exact HC1]. apply Qmult_lt_0_compat; assumption.
  - apply In_nth_error in HIn as [k Hk]. pose proof (nth_error_lt _ _ _ Hk).
    destruct (HD k m Hk) as (beta & l & Hb & Hpos & Hl & Er). exists k, beta, l. split; [lia|]. split; [exact Hb|]. split; [exact Hl|].
    assert (E1 : l == m * beta) by (rewrite Er; field; lra). rewrite E1.
    assert (E2 : inject_Z (b_d p) / epsilon * m * (epsilon * beta) == inject_Z (b_d p) * (m * beta)) by (field; lra).
    rewrite <- E2. apply Qmult_lt_r; [apply Qmult_lt_0_compat; assumption|exact HC2].
Qed.

(** Slots with finite idle costs, one of them positive, have at least one sub-slot. *)
Lemma sub_slot_count_pos (p : gsblo Z) t epsilon : (0 < epsilon)%Q -> 0 < b_d p ->
  b_d p <= Z.of_nat (length (b_switching p)) -> Forall (fun b => 0 < b)%Q (b_switching p) -> b_d p <= Z.of_nat (length (b_cost p)) ->
  (forall k f, nth_error (b_cost p) k = Some f -> exists c l, call_certain f t 0%Q = Ok c /\ c_cost c = Fin l /\ (0 <= l)%Q) ->
  (exists k, Z.of_nat k < b_d p /\ elt (Fin 0) (idle p k t)) ->
  exists n, determine_sub_time_slots p t epsilon = Ok n /\ 0 < n.
Proof.
  intros He Hd HLs HS HLc HF (k0 & Hk0 & H0).
  assert (HO : exists fr, omap (fun k =>
      do f <- from_option (nth_error (b_cost p) k);
      do c <- call_certain f t 0%Q;
      do beta <- from_option (nth_error (b_switching p) k);
      match c_cost c with
      | Fin l => if Qeq_bool beta 0 then Panic else Ok (l / beta)%Q
      | Inf => Panic
      end) (seq 0 (Z.to_nat (b_d p))) = Ok fr).
  { apply omap_exists. intros k Hk. apply in_seq in Hk. destruct (nth_error_ex (b_cost p) k) as [f Hf]; [lia|]. rewrite Hf. cbn [from_option obind].
    destruct (HF k f Hf) as (c & l & Hc & Hl & _). rewrite Hc. cbn [obind]. destruct (nth_error_ex (b_switching p) k) as [beta Hbeta]; [lia|].
    rewrite Hbeta. cbn [from_option obind]. rewrite Hl.
    assert (0 < beta)%Q by (eapply Forall_forall in HS; [exact HS|]; eapply nth_error_In; exact Hbeta).
    destruct (Qeq_bool beta 0) eqn:E; [apply Qeq_bool_iff in E; lra|]. eauto. }
  destruct HO as [fr HO]. pose proof HO as HO'. apply omap_length_ok in HO' as [HL _]. rewrite seq_length in HL.
  assert (HM : exists m, qmax_of fr = Some m) by (destruct fr as [|a r]; [cbn in HL; lia|eexists; reflexivity]). destruct HM as [m HM].
  assert (HE : Qeq_bool epsilon 0 = false) by (destruct (Qeq_bool epsilon 0) eqn:E; [apply Qeq_bool_iff in E; lra|reflexivity]).
  assert (HR : determine_sub_time_slots p t epsilon = Ok (Qceiling (inject_Z (b_d p) / epsilon * m))).
  { unfold determine_sub_time_slots. rewrite HO. cbn [obind]. rewrite HM. cbn [from_option obind]. rewrite HE. reflexivity. }
  eexists. split; [exact HR|]. destruct (sub_slot_count p t epsilon _ He Hd HS HR) as [H1 _].
  destruct (nth_error_ex (b_switching p) k0) as [beta Hbeta]; [lia|]. destruct (H1 k0 beta Hbeta Hk0) as (l & Hl & Hle).
  assert (Hbp : (0 < beta)%Q) by (eapply Forall_forall in HS; [exact HS|]; eapply nth_error_In; exact Hbeta).
  assert (Hlp : (0 < l)%Q) by (destruct (idle p k0 t); cbn in *; [lra|contradiction]).
  assert (HDQ : (0 < inject_Z (b_d p))%Q) by (rewrite <- Zlt_Qlt with (x := 0); exact Hd).
  set (n := Qceiling _) in *. clearbody n. destruct (Z_lt_ge_dec 0 n) as [|Hn]; [assumption|exfalso].
  assert (HnQ : (inject_Z n <= 0)%Q) by (change 0%Q with (inject_Z 0); rewrite <- Zle_Qle; lia).
  assert (0 < inject_Z (b_d p) * l)%Q by (apply Qmult_lt_0_compat; assumption).
  assert (0 < epsilon * beta)%Q by (apply Qmult_lt_0_compat; assumption).
  assert (inject_Z n * (epsilon * beta) <= 0 * (epsilon * beta))%Q by (apply Qmult_le_r; assumption). lra.
Qed.

Lemma sblo_lb_rejects minimize sched epsilon o t xs m : on_w o <> 0 -> sblo_lb minimize sched epsilon o t xs m = Err UnsupportedPredictionWindow.
Proof. intros H. unfold sblo_lb. apply Z.eqb_neq in H. rewrite H. reflexivity. Qed.

(** The theorems of BalancedProps.v. *)
Section Final.
  Variable minimize :
    (list Q -> outcome ext) -> list (Q * Q) -> list Q -> list (list Q -> outcome Q) -> option (list Q * ext).
  Variable sched : Z -> Z -> vertice -> split.
  Variable p : gsblo Z.

  Lemma algb_above T : solver_extensional minimize -> balanced_instance minimize p T -> 1 <= T ->
    exists o xs m,
      offline_stream (sblo_ops minimize) (alg_b minimize sched) (fun _ => algb_default) T (mkOnline (sblo_at p 1) 0)
        = Some (o, xs, Ok (Some m)) /\
      feasible_schedule T (b_bounds p) xs /\
      forall u, 1 <= u <= T -> exists opts opt,
        optimal_prefix minimize p u (opts ++ [opt]) /\ Z.of_nat (length opt) = b_d p /\
        forall k j, nth_error opt k = Some j -> j <= entry xs u k.
  Proof.
    intros HX HI HT. destruct (algb_run minimize sched HX p T HI HT) as (xs & m & E & HL). eexists _, xs, m. split; [exact E|].
    split; [apply HL|]. intros u Hu. eapply above_optimum; eauto.
  Qed.

  Lemma algb_lazy_run T : solver_extensional minimize -> balanced_instance minimize p T -> 1 <= T ->
    exists o xs m,
      offline_stream (sblo_ops minimize) (alg_b minimize sched) (fun _ => algb_default) T (mkOnline (sblo_at p 1) 0)
        = Some (o, xs, Ok (Some m)) /\
      lazy_schedule minimize p T (ab_init m) xs /\
      forall u k beta, 1 <= u <= T -> nth_error (b_switching p) k = Some beta ->
        entry xs u k =
          zsum (map (fun s => entry (ab_init m) s k)
            (filter (fun s => eleb (idle_over p k s u) (Fin beta)) (zrange 1 u))).
  Proof.
    intros HX HI HT. destruct (algb_run minimize sched HX p T HI HT) as (xs & m & E & HL). eexists _, xs, m. split; [exact E|].
    split; [exact HL|]. intros u k beta Hu Hb. apply (active_at minimize p T HI T u (ab_init m) xs k beta); auto. lia.
  Qed.

  Lemma algb_balance T : solver_extensional minimize -> balanced_instance minimize p T -> 1 <= T ->
    exists o xs m,
      offline_stream (sblo_ops minimize) (alg_b minimize sched) (fun _ => algb_default) T (mkOnline (sblo_at p 1) 0)
        = Some (o, xs, Ok (Some m)) /\
      forall u k beta, 1 <= u <= T -> nth_error (b_switching p) k = Some beta ->
        exists down : Z -> bool,
          (forall s, 1 <= s <= u -> (down s = true <-> expires p k beta s u)) /\
          entry xs u k = (if u =? 1 then 0 else entry xs (u - 1) k) + entry (ab_init m) u k
                         - powered_down (ab_init m) down u k.
  Proof.
    intros HX HI HT. destruct (algb_run minimize sched HX p T HI HT) as (xs & m & E & HL). eexists _, xs, m. split; [exact E|].
    intros u k beta Hu Hb. apply (balance minimize p T HI T (ab_init m) xs k beta u); auto. lia.
  Qed.

  Lemma expires_unique T k beta s u v : balanced_instance minimize p T -> Z.of_nat k < b_d p -> 0 <= s -> u <= T -> v <= T ->
    expires p k beta s u -> expires p k beta s v -> u = v.
  Proof. intros HI Hk Hs Hu Hv. apply (expires_once p T); auto. lia. Qed.

  Lemma lb_run_spec epsilon T n :
    solver_extensional minimize -> 1 <= T ->
    (forall t, 1 <= t <= T -> determine_sub_time_slots p t epsilon = Ok (n t) /\ 0 < n t) ->
    T <= Z.of_nat (length (b_load p)) ->
    let last_sub_slot t := Z.of_nat (length (sub_slots n t)) in
    let q := sub_problem p n T in
    balanced_instance minimize q (last_sub_slot T) ->
    exists xs m ups, sblo_run minimize sched epsilon p (Z.to_nat T) = Ok (xs, Some m) /\
      feasible_schedule T (b_bounds p) xs /\
      bm_load m = b_load q /\ lazy_schedule minimize q (last_sub_slot T) ups (bm_xs m) /\
      forall t, 1 <= t <= T -> exists u,
        first_least_slot minimize q (bm_xs m) (last_sub_slot (t - 1) + 1) (last_sub_slot t) u /\
        nth_error xs (Z.to_nat (t - 1)) = nth_error (bm_xs m) (Z.to_nat (u - 1)).
  Proof. intros HX HT HC HL last_sub_slot q HI. apply (lb_run minimize sched HX p epsilon T n HC HL HI HT). Qed.
End Final.

Lemma sub_slot_range n T t u : (forall s, 1 <= s <= T -> 0 <= n s) -> 1 <= t <= T ->
  (access (sub_slots n T) u = Some t <->
   Z.of_nat (length (sub_slots n (t - 1))) < u <= Z.of_nat (length (sub_slots n (t - 1))) + n t).
Proof.
  intros Hn Ht. pose proof (U_snoc n (t - 1) ltac:(lia)) as E. replace (t - 1 + 1) with t in E by lia. specialize (E ltac:(apply Hn; lia)).
  rewrite <- E. split; [|apply slot_of; exact Ht].
  intros H. assert (Hu : 1 <= u <= Z.of_nat (length (sub_slots n T))).
  { apply access_spec in H as [H1 H2]. apply nth_error_lt in H2. lia. }
  destruct (slot_exists n T u ltac:(lia) Hu) as (s & Hs & Hr). rewrite (slot_of n s T u Hs Hr) in H. assert (s = t) by congruence. subst s. exact Hr.
Qed.

Lemma sub_slot_cost_sum (p : gsblo Z) n T t k f z c :
  (forall s, 1 <= s <= T -> 0 < n s) -> 1 <= t <= T ->
  nth_error (b_cost p) k = Some f -> call_certain f t z = Ok c ->
  exists g c', nth_error (b_cost (sub_problem p n T)) k = Some g /\
    (forall u, access (sub_slots n T) u = Some t -> call_certain g u z = Ok c') /\
    c_out c' = c_out c /\
    eeq (esum (repeat (c_cost c') (Z.to_nat (n t)))) (c_cost c).
Proof.
  intros Hn Ht Hf Hc. cbn [sub_problem b_cost]. rewrite nth_error_map, Hf. cbn [option_map].
  eexists _, (mkCost (escale (1 / inject_Z (n t)) (c_cost c)) (c_out c)). split; [reflexivity|]. split; [|split; [reflexivity|]].
  - intros u Hu. apply sub_slot_range in Hu; [|intros s Hs; specialize (Hn s Hs); lia|exact Ht].
    pose proof (U_snoc n (t - 1) ltac:(lia)) as E. replace (t - 1 + 1) with t in E by lia.
    specialize (Hn t Ht). apply sub_cost; auto; lia.
  - cbn [c_cost]. apply even_shares. auto.
Qed.
