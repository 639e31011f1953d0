(** Streaming with algorithms that do not look into the future. *)
From Coq Require Import Lia.
From Verif Require Import NumLemmas CostSpec CostProofs ConvertProofs ConvertObjective VerifySpec StreamModel StreamSpec StreamProofs SessionSpec.
From Verif Require Import ProblemModel CostModel.
Local Open Scope Z_scope.

Section Chooses.
  Context {P X C D M : Type}.
  Variable ops : problem_ops P X C D.
  Variable alg : online P -> Z -> list X -> M -> outcome (X * option M).
  Variable default : online P -> M.

  Lemma chooses_app o ys : forall xs m zs m', chooses ops alg default o xs m (ys ++ zs) m' ->
    exists m1, chooses ops alg default o xs m ys m1 /\ chooses ops alg default o (xs ++ ys) m1 zs m'.
  Proof.
    induction ys as [|y ys IH]; intros xs m zs m' H.
    - exists m. rewrite app_nil_r. split; [constructor|exact H].
    - cbn [app] in H. inversion H as [|? ? ? m1 ? ? t HA HC]; subst. apply IH in HC as (m2 & H1 & H2).
      exists m2. split; [econstructor; eassumption|]. rewrite <- app_assoc in H2. exact H2.
  Qed.

  Lemma chooses_snoc o ys : forall xs m m1 zs m', chooses ops alg default o xs m ys m1 ->
    chooses ops alg default o (xs ++ ys) m1 zs m' -> chooses ops alg default o xs m (ys ++ zs) m'.
  Proof.
    induction ys as [|y ys IH]; intros xs m m1 zs m' H1 H2.
    - inversion H1; subst. rewrite app_nil_r in H2. exact H2.
    - inversion H1; subst. cbn [app]. econstructor; [eassumption|]. eapply IH; [eassumption|]. rewrite <- app_assoc. exact H2.
  Qed.

  Hypothesis HL : lawful_ops ops.

  Lemma stream_chosen ys : forall t_end o xs m m', ys <> [] -> po_tend ops (on_p o) = Z.of_nat (length xs) + 1 ->
    Z.of_nat (length xs) + Z.of_nat (length ys) = t_end - on_w o ->
    (forall t, po_tend ops (on_p o) < t <= t_end - on_w o -> verify_o ops (at_slot ops o t) = Ok tt) ->
    chooses ops alg default o xs m ys m' ->
    offline_stream_from ops alg default t_end o xs m = Some (at_slot ops o (t_end - on_w o), xs ++ ys, Ok m').
  Proof.
    induction ys as [|y ys IH]; intros t_end o xs m m' Hne Ht Hl HV HC; [contradiction|].
    inversion HC as [|? ? ? m1 ? ? t HA HR]; subst. rewrite offline_unfold by exact HL.
    assert (Eo : at_slot ops o t = o) by (unfold t; rewrite <- Ht; apply at_slot_self; exact HL).
    rewrite Eo in HA. unfold online_next, alg_next. rewrite Ht, Z.eqb_refl. cbn [negb]. fold t. rewrite HA.
    destruct ys as [|y' ys].
    - inversion HR; subst. cbn [length] in Hl. assert (E : t <? t_end - on_w o = false) by (apply Z.ltb_ge; unfold t; lia). rewrite E.
      replace (t_end - on_w o) with t by (unfold t; lia). rewrite Eo. reflexivity.
    - cbn [length] in Hl. assert (E : t <? t_end - on_w o = true) by (apply Z.ltb_lt; unfold t; lia). rewrite E.
      assert (Ei : inc ops o = at_slot ops o (t + 1)) by (rewrite inc_at_slot, Ht; reflexivity).
      rewrite Ei. rewrite HV by (rewrite Ht; unfold t; lia).
      rewrite (IH t_end (at_slot ops o (t + 1)) (xs ++ [y]) m1 m').
      + rewrite at_slot_at_slot by exact HL. cbn [at_slot on_w]. rewrite <- app_assoc. reflexivity.
      + discriminate.
      + rewrite at_slot_tend by exact HL. rewrite app_length. cbn [length]. unfold t. lia.
      + rewrite app_length. cbn [length at_slot on_w]. lia.
      + intros u Hu. rewrite at_slot_tend in Hu by exact HL. cbn [at_slot on_w] in Hu. rewrite at_slot_at_slot by exact HL. apply HV. rewrite Ht. unfold t in Hu. lia.
      + clear -HR HL. revert HR. generalize (y' :: ys). generalize (xs ++ [y]). intros l l0 HR. induction HR; [constructor|]. econstructor; [|eassumption].
        fold t0. rewrite at_slot_at_slot by exact HL. exact H.
  Qed.
End Chooses.

Section Causal.
  Context {T C D M : Type}.
  Variable v : value T.
  Variable merge : C -> C -> C.
  Variable vmerge : C -> C -> outcome C.
  Variable outside : D.
  Variable sched : split.
  Notation ops := (ssco_ops v merge vmerge outside sched).
  Variable alg : online (gssco T C D) -> Z -> list (list T) -> M -> outcome (list T * option M).
  Variable default : online (gssco T C D) -> M.

  Lemma agree_sym n (p q : gssco T C D) : agree n p q -> agree n q p.
  Proof. intros (A & B & E & F). repeat split; try congruence. intros t x Ht. symmetry. apply F. exact Ht. Qed.

  Lemma agree_trans n (p q r : gssco T C D) : agree n p q -> agree n q r -> agree n p r.
  Proof. intros (A & B & E & F) (A' & B' & E' & F'). repeat split; try congruence. intros t x Ht. rewrite F, F' by exact Ht. reflexivity. Qed.

  Lemma agree_less n n' (p q : gssco T C D) : n' <= n -> agree n p q -> agree n' p q.
  Proof. intros H (A & B & E & F). repeat split; auto. intros t x Ht. apply F. lia. Qed.

  Lemma agree_until n (p q : gssco T C D) t u : agree n p q -> agree n (until p t) (until q u).
  Proof. intros (A & B & E & F). repeat split; auto. Qed.

  Lemma agree_hit n (p q : gssco T C D) t x : agree n p q -> 1 <= t <= n ->
    gssco_hit v vmerge outside p t x = gssco_hit v vmerge outside q t x.
  Proof.
    intros (_ & HB & _ & HC) Ht. unfold gssco_hit, call_mean_within. rewrite HB.
    destruct (within_upper v (g_bounds q) x) as [[|]| |]; auto. cbn [obind].
    rewrite !call_mean_of_predictive, (HC t x Ht). reflexivity.
  Qed.

  Lemma agree_objective n (p q : gssco T C D) xs : agree n p q -> g_tend p = n -> g_tend q = n ->
    po_objective ops p xs = po_objective ops q xs.
  Proof.
    intros HA Hp Hq. destruct HA as (HD & HB & HS & HC) eqn:EA. clear EA. cbn [po_objective ssco_ops]. rewrite HD, Hp, Hq. unfold objective_o.
    f_equal. apply omap_ext. intros u Hu. apply zrange_In in Hu. unfold step_cost_o. cbn [gssco_problem op_tend op_hit op_move]. rewrite Hp, Hq.
    unfold gssco_move. rewrite HS. destruct (n <? u); [reflexivity|]. rewrite (agree_hit n p q) by (repeat split; auto; lia). reflexivity.
  Qed.

  Hypothesis HA : causal alg.
  Hypothesis HD : causal_memory default.

  Lemma chooses_agree (p q : gssco T C D) n xs m ys m' : agree n p q -> Z.of_nat (length xs + length ys) <= n ->
    chooses ops alg default (mkOnline p 0) xs m ys m' -> chooses ops alg default (mkOnline q 0) xs m ys m'.
  Proof.
    intros Hag Hl HC. revert Hl. induction HC as [|xs m x m1 ys m' t H HC IH]; intros Hl; [constructor|].
    cbn [length] in Hl. econstructor; [|apply IH; rewrite app_length; cbn [length]; lia]. fold t.
    assert (E : agree (t + 0) (until p t) (until q t)) by (apply agree_until; eapply agree_less; [|exact Hag]; unfold t; lia).
    change (at_slot ops (mkOnline q 0) t) with (mkOnline (until q t) 0). change (at_slot ops (mkOnline p 0) t) with (mkOnline (until p t) 0) in H.
    rewrite <- (HA (until p t) (until q t) 0 t xs _ eq_refl E).
    destruct m as [m|]; [exact H|]. rewrite <- (HD (until p t) (until q t) 0 eq_refl E). exact H.
  Qed.
End Causal.
