(** Cost of whole runs of averaging fixed horizon control. *)
From Coq Require Import Lia Lqa.
From Verif Require Import NumLemmas HorizonRunModel HorizonRunSpec HorizonProofs CapacityWork VerifySpec VerifyProofs StaticProofs StreamProofs HorizonRunProofs.
From Verif Require Import ProblemModel CostModel.
Local Open Scope Z_scope.

Section Plans.
  Variable hit : Z -> list Q -> ext.
  Variables (beta e bounds : list Q) (c : Q) (E : Z).
  Hypothesis HC : costly_operation hit beta e bounds c E.
  Variable P : list Q -> Prop.

  Lemma plan_nonneg : forall ys a prev, a + Z.of_nat (length ys) - 1 <= E -> Forall (within_bounds bounds) ys ->
    ele (Fin 0) (plan_cost hit beta a prev ys).
  Proof.
    unfold plan_cost. induction ys as [|y ys IH]; intros a prev H2 H3; cbn [total_cost]; [simpl; lra|].
    cbn [length] in H2. pose proof (Forall_inv H3) as Hy. apply Forall_inv_tail in H3.
    assert (ele (Fin 0) (total_cost (hit_from_1 hit) (power_upQ beta) 1 (a + 1) y ys)) as G1 by (apply IH; auto; lia).
    assert (ele (Fin 0) (hit_from_1 hit a y)) as G2.
    { unfold hit_from_1. destruct (a <? 1) eqn:Ea; [simpl; lra|]. apply Z.ltb_ge in Ea. eapply hit_nonneg; eauto. lia. }
    pose proof (power_up_nonneg beta prev y (beta_nonneg _ _ _ _ _ _ HC)) as G3.
    destruct (hit_from_1 hit a y), (total_cost (hit_from_1 hit) (power_upQ beta) 1 (a + 1) y ys); simpl in *; auto. lra.
  Qed.

  (** The rest of an optimal plan is optimal. *)
  Lemma optimal_tail a b prev x rest : optimal_plan hit beta bounds P a b prev (x :: rest) ->
    is_fin (plan_cost hit beta a prev (x :: rest)) ->
    optimal_plan hit beta bounds P (a + 1) b x rest /\ is_fin (plan_cost hit beta (a + 1) x rest).
  Proof.
    intros [(L & F & FP) O] Hf. cbn [length] in L. pose proof (Forall_inv F) as Fx. apply Forall_inv_tail in F.
    pose proof (Forall_inv FP) as Px. apply Forall_inv_tail in FP.
    unfold plan_cost in *. cbn [total_cost] in *. split; [split; [split; [lia|split; [exact F|exact FP]]|]|].
    - intros zs Lz Fz Pz. unfold plan_cost. specialize (O (x :: zs)). cbn [length total_cost] in O.
      assert (ele (eadd (eadd (hit_from_1 hit a x) (Fin (1 * power_upQ beta prev x)))
                (total_cost (hit_from_1 hit) (power_upQ beta) 1 (a + 1) x rest))
              (eadd (eadd (hit_from_1 hit a x) (Fin (1 * power_upQ beta prev x)))
                (total_cost (hit_from_1 hit) (power_upQ beta) 1 (a + 1) x zs))) as G.
      { apply O; [lia|constructor; assumption|constructor; assumption]. }
      destruct (hit_from_1 hit a x); [|contradiction].
      destruct (total_cost (hit_from_1 hit) (power_upQ beta) 1 (a + 1) x rest); [|contradiction].
      destruct (total_cost (hit_from_1 hit) (power_upQ beta) 1 (a + 1) x zs); simpl in *; auto. lra.
    - destruct (hit_from_1 hit a x); [|contradiction].
      destruct (total_cost (hit_from_1 hit) (power_upQ beta) 1 (a + 1) x rest); [exact I|contradiction].
  Qed.

  (** A plan that extends an optimal one by the slot [b] is not much worse in that slot than
      any other configuration. *)
  Lemma extension a b m rest z y : 1 <= b <= E -> Forall (fun j => (0 <= j)%Q) m ->
    optimal_plan hit beta bounds P a (b - 1) m rest -> is_fin (plan_cost hit beta a m rest) ->
    optimal_plan hit beta bounds P a b m z -> within_bounds bounds y -> P y -> is_fin (hit b y) ->
    is_fin (plan_cost hit beta a m z) /\ ele (hit b (last z [])) (escale (1 + c) (hit b y)).
  Proof.
    intros Hb Hm [(L1 & F1 & P1) O1] Hf [(L2 & F2 & P2) O2] Hy HPy Hfy.
    assert (z <> []) as Hz by (intros ->; cbn [length] in *; lia).
    assert (ele (plan_cost hit beta a m z) (plan_cost hit beta a m (rest ++ [y]))) as G1.
    { apply O2; [rewrite app_length; cbn [length]; lia| |]; (apply Forall_app; split; [assumption|constructor; [assumption|constructor]]). }
    destruct (exists_last Hz) as (z' & x & ->). rewrite last_last.
    rewrite app_length in L2. cbn [length] in L2. apply Forall_app in F2 as [F2 F3]. apply Forall_inv in F3. apply Forall_app in P2 as [P2 _].
    assert (ele (plan_cost hit beta a m rest) (plan_cost hit beta a m z')) as G2 by (apply O1; [lia|assumption|assumption]).
    unfold plan_cost in *. rewrite !total_cost_app in *. cbn [total_cost] in *.
    replace (a + Z.of_nat (length rest)) with b in G1 by lia. replace (a + Z.of_nat (length z')) with b in * by lia.
    assert (hit_from_1 hit b = hit b) as Eh by (unfold hit_from_1; rewrite (proj2 (Z.ltb_ge b 1)) by lia; reflexivity).
    rewrite Eh in *.
    assert (ele (Fin (power_upQ beta (last rest m) y)) (escale c (hit b y))) as G3.
    { eapply power_up_hit; eauto. destruct rest as [|r rest _] using rev_ind; [exact Hm|]. rewrite last_last.
      apply Forall_app in F1 as [_ F1]. apply Forall_inv in F1. eapply bounded_nonneg; exact F1. }
    pose proof (power_up_nonneg beta (last z' m) x (beta_nonneg _ _ _ _ _ _ HC)) as G4.
    destruct (total_cost (hit_from_1 hit) (power_upQ beta) 1 a m rest); [|contradiction].
    destruct (hit b y); [|contradiction].
    destruct (total_cost (hit_from_1 hit) (power_upQ beta) 1 a m z'); [|contradiction].
    destruct (hit b x); simpl in *; [|contradiction]. split; [exact I|]. lra.
  Qed.
End Plans.

Lemma sum_bounded (f : list Q -> ext) b : forall xs, Forall (fun x => ele (f x) (Fin b)) xs ->
  exists q, fold_right eadd (Fin 0) (map f xs) = Fin q /\ (q <= inject_Z (Z.of_nat (length xs)) * b)%Q.
Proof.
  induction xs as [|x xs IH]; intros H; cbn [map fold_right length].
  - exists 0%Q. split; [reflexivity|]. change (inject_Z (Z.of_nat 0)) with 0%Q. lra.
  - pose proof (Forall_inv H) as Hx. cbn beta in Hx. apply Forall_inv_tail in H. destruct (IH H) as (q & -> & Hq).
    destruct (f x) as [h|]; [|contradiction]. exists (h + q)%Q. split; [reflexivity|]. simpl in Hx.
    replace (Z.of_nat (S (length xs))) with (Z.of_nat (length xs) + 1) by lia. rewrite inject_Z_plus.
    change (inject_Z 1) with 1%Q. lra.
Qed.

Lemma nth_error_below {A} (l : list A) k x : nth_error l k = Some x -> (k < length l)%nat.
Proof. intros H. apply nth_error_Some. congruence. Qed.

Lemma power_up_self : forall b x, (power_upQ b x x == 0)%Q.
Proof.
  induction b as [|b bs IH]; intros [|j x]; cbn [power_upQ]; try reflexivity.
  rewrite IH. assert (Qle_bool j j = true) as -> by (apply Qle_bool_iff; lra). ring.
Qed.

Lemma idle_plan hit beta x : forall n a, a + Z.of_nat n <= 1 ->
  eeq (plan_cost hit beta a x (repeat x n)) (Fin 0).
Proof.
  unfold plan_cost. induction n as [|n IH]; intros a Ha; cbn [repeat total_cost]; [reflexivity|].
  rewrite IH by lia. unfold hit_from_1. rewrite (proj2 (Z.ltb_lt a 1)) by lia. simpl. rewrite power_up_self. ring.
Qed.

Section Averaged.
  Context {C D : Type}.
  Variable vmerge : C -> C -> outcome C.
  Variable merge : C -> C -> C.
  Variable outside : D.
  Variable sched : list Q -> split.
  Variable minimize : (list Q -> outcome ext) -> list (Q * Q) -> list (list Q -> outcome Q) -> outcome (list Q).
  Variable p : gssco Q C D.
  Variable hit : Z -> list Q -> ext.
  Variables (e : list Q) (c : Q) (w : Z) (n : nat).

  Hypothesis Hwf : verify_ssco valQ p = Ok tt.
  Hypothesis Hw : 0 <= w.
  Hypothesis Hcost : forall s x, 1 <= s <= Z.of_nat n -> within_bounds (g_bounds p) x ->
    exists o, call_predictive (g_cost p) s x = Ok [mkCost (hit s x) o].
  Hypothesis HC : costly_operation hit (g_switching p) e (g_bounds p) c (Z.of_nat n).
  Hypothesis HX : convex_hitting hit (g_bounds p) (Z.of_nat n).

  Let next q xs m := afhc_next vmerge merge outside sched minimize q w xs m.
  Let zero := repeat 0%Q (length (g_bounds p)).
  Variable P : list Q -> Prop.
  Variable tol : Q.
  Hypothesis HPzero : P zero.
  Let memory (m : option (list (list Q))) := match m with Some b => b | None => repeat zero (Z.to_nat (w + 1)) end.

  Hypothesis HS : forall m xs mem k prev, (m < n)%nat -> advised_memory next p m = Ok (xs, mem) ->
    nth_error (memory mem) k = Some prev ->
    solves P tol minimize (map (fun u => (0%Q, u)) (g_bounds p)) (Z.to_nat (w + 1))
      (fun ys => plan_cost hit (g_switching p) (Z.of_nat m + 1 - w + Z.of_nat k) prev (firstn (Z.to_nat (w + 1) - k) ys)) [].

  (** Every chain of plans is the rest of an optimal one. *)
  Definition chained (m : nat) (mem : list (list Q)) : Prop :=
    forall k prev, nth_error mem k = Some prev -> exists rest,
      optimal_plan hit (g_switching p) (g_bounds p) P (Z.of_nat m + 1 - w + Z.of_nat k) (Z.of_nat m) prev rest /\
      is_fin (plan_cost hit (g_switching p) (Z.of_nat m + 1 - w + Z.of_nat k) prev rest).

  Lemma zero_within : within_bounds (g_bounds p) zero.
  Proof using Hwf.
    destruct (wf_parts p Hwf) as (_ & _ & Hb). unfold zero. clear - Hb.
    induction Hb; cbn [repeat length]; constructor; [lra|assumption].
  Qed.

  Lemma averaging m : (m <= n)%nat -> exists xs mem, advised_memory next p m = Ok (xs, mem) /\
    fractional_schedule (g_bounds p) (Z.of_nat m) xs /\
    Z.of_nat (length (memory mem)) = w + 1 /\ Forall (within_bounds (g_bounds p)) (memory mem) /\
    forall ys, fractional_schedule (g_bounds p) (Z.of_nat m) ys -> Forall P ys -> is_fin (operated hit 1 ys) ->
      chained m (memory mem) /\ ele (operated hit 1 xs) (escale (1 + c) (operated hit 1 ys)).
  Proof.
    destruct (wf_parts p Hwf) as (Hd & Hsw & Hb).
    induction m as [|m IH]; intros Hm.
    - exists [], None. split; [reflexivity|]. split; [split; [reflexivity|constructor]|].
      cbn [memory]. split; [rewrite repeat_length; lia|]. split.
      { apply Forall_forall. intros x Hx. apply repeat_spec in Hx. subst x. apply zero_within. }
      intros ys [Ly _] _ _. split; [|destruct ys; [simpl; lra|discriminate Ly]].
      intros k prev Hk. pose proof (nth_error_In _ _ Hk) as Hin. apply repeat_spec in Hin. subst prev.
      assert (k < Z.to_nat (w + 1))%nat as Hk' by (rewrite <- (repeat_length zero (Z.to_nat (w + 1))); apply nth_error_Some; congruence).
      exists (repeat zero (Z.to_nat w - k)).
      pose proof (idle_plan hit (g_switching p) zero (Z.to_nat w - k) (Z.of_nat 0 + 1 - w + Z.of_nat k)) as G.
      assert (eeq (plan_cost hit (g_switching p) (Z.of_nat 0 + 1 - w + Z.of_nat k) zero (repeat zero (Z.to_nat w - k))) (Fin 0)) as G' by (apply G; lia).
      split; [split; [split; [rewrite repeat_length; lia|split]|]|].
      + apply Forall_forall. intros x Hx. apply repeat_spec in Hx. subst x. apply zero_within.
      + apply Forall_forall. intros x Hx. apply repeat_spec in Hx. subst x. exact HPzero.
      + intros zs Lz Fz _. rewrite G'. eapply plan_nonneg; eauto. lia.
      + destruct (plan_cost hit (g_switching p) (Z.of_nat 0 + 1 - w + Z.of_nat k) zero (repeat zero (Z.to_nat w - k))); [exact I|contradiction].
    - destruct IH as (xs & mem & E1 & [L1 F1] & L2 & F2 & E2); [lia|].
      assert (Z.of_nat (length xs) + 1 = Z.of_nat m + 1) as Et by lia.
      destruct (afhc_next_spec vmerge merge outside sched minimize (ending p (Z.of_nat (S m))) hit Hd Hsw Hb)
        with (P := P) (tol := tol) (w := w) (xs := xs) (mem := memory mem) (m := mem)
        as (x & mem' & plans & R1 & R2 & R3 & R4 & R5 & R6 & R7 & R8);
        cbn [ending g_tend g_bounds g_switching g_cost] in *.
      + intros s x Hs Hx. apply Hcost; [lia|exact Hx].
      + exact HPzero.
      + destruct mem; [left; reflexivity|right; split; reflexivity].
      + exact Hw.
      + exact L2.
      + eapply Forall_impl; [|exact F2]. intros x Hx. clear - Hx. induction Hx; simpl; auto.
      + lia.
      + intros k prev Hk. rewrite Et. apply (HS m xs mem k prev); [lia|exact E1|exact Hk].
      + rewrite Et in R3. exists (xs ++ [x]), (Some mem'). cbn [memory].
        split; [|split; [split|split; [|split]]].
        * cbn [advised_memory]. rewrite E1. cbn [obind fst snd]. unfold next. rewrite R1. reflexivity.
        * rewrite app_length. cbn [length]. lia.
        * apply Forall_app. split; [exact F1|constructor; [exact R7|constructor]].
        * rewrite R4, map_length. exact R2.
        * exact R8.
        * intros ys [Ly Fy] Py Hf. assert (ys <> []) as Hne by (intros ->; cbn [length] in Ly; lia).
          destruct (exists_last Hne) as (ys' & y & ->). rewrite app_length in Ly. cbn [length] in Ly.
          apply Forall_app in Fy as [Fy Fy']. apply Forall_inv in Fy'.
          apply Forall_app in Py as [Py Py']. apply Forall_inv in Py'.
          rewrite (operated_app hit ys') in Hf |- *. cbn [operated] in Hf |- *.
          replace (1 + Z.of_nat (length ys')) with (Z.of_nat (S m)) in * by lia.
          assert (is_fin (operated hit 1 ys') /\ is_fin (hit (Z.of_nat (S m)) y)) as [Hf1 Hf2].
          { destruct (operated hit 1 ys'), (hit (Z.of_nat (S m)) y); simpl in *; auto. }
          destruct (E2 ys') as [Hch Hop]; [split; [lia|assumption]|exact Py|exact Hf1|].
          assert (forall k ys, nth_error plans k = Some ys ->
                    is_fin (plan_cost hit (g_switching p) (Z.of_nat m + 1 - w + Z.of_nat k) (nth k (memory mem) []) ys) /\
                    optimal_plan hit (g_switching p) (g_bounds p) P (Z.of_nat m + 1 - w + Z.of_nat k) (Z.of_nat (S m)) (nth k (memory mem) []) ys /\
                    ele (hit (Z.of_nat (S m)) (last ys [])) (escale (1 + c) (hit (Z.of_nat (S m)) y))) as HP.
          { intros k zs Hk. assert (k < length plans)%nat as Hk' by (apply nth_error_Some; congruence).
            assert (nth_error (memory mem) k = Some (nth k (memory mem) [])) as Hp by (apply nth_error_nth'; lia).
            destruct (Hch k _ Hp) as (rest & C1 & C2). pose proof (R3 k _ zs Hp Hk) as C3.
            replace (Z.of_nat m + 1) with (Z.of_nat (S m)) in C3 at 2 by lia.
            destruct (extension hit (g_switching p) e (g_bounds p) c (Z.of_nat n) HC P (Z.of_nat m + 1 - w + Z.of_nat k) (Z.of_nat (S m))
                        (nth k (memory mem) []) rest zs y) as [C4 C5]; auto.
            - lia.
            - apply nth_error_In in Hp. rewrite Forall_forall in F2. eapply bounded_nonneg. apply F2. exact Hp.
            - replace (Z.of_nat (S m) - 1) with (Z.of_nat m) by lia. exact C1. }
          split.
          -- intros k prev Hk. rewrite R4, nth_error_map in Hk. destruct (nth_error plans k) as [zs|] eqn:Ek; [|discriminate].
             destruct (HP k zs Ek) as (P1 & P2 & _). inversion Hk; subst prev.
             destruct zs as [|z zs].
             { destruct P2 as [(P2 & _ & _) _]. cbn [length] in P2. apply nth_error_below in Ek. lia. }
             cbn [hd]. destruct (optimal_tail _ _ _ _ _ _ _ _ _ P2 P1) as [P3 P4]. exists zs.
             replace (Z.of_nat (S m) + 1 - w + Z.of_nat k) with (Z.of_nat m + 1 - w + Z.of_nat k + 1) by lia. auto.
          -- rewrite (operated_app hit xs), escale_eadd. cbn [operated]. apply eadd_mono; [exact Hop|].
             replace (1 + Z.of_nat (length xs)) with (Z.of_nat (S m)) by lia.
             assert (Forall (fun x => ele (hit (Z.of_nat (S m)) x) (escale (1 + c) (hit (Z.of_nat (S m)) y))) (map (fun ys => last ys []) plans)) as HF.
             { apply Forall_forall. intros z Hz. apply in_map_iff in Hz as (zs & <- & Hz). apply In_nth_error in Hz as (k & Hk). apply (HP k zs Hk). }
             destruct (hit (Z.of_nat (S m)) y) as [h|]; [|contradiction]. cbn [escale] in HF.
             destruct (sum_bounded _ _ _ HF) as (q & Eq & Hq). rewrite map_length in Hq.
             assert (plans <> []) as Hpl by (intros ->; cbn [length] in R2; lia).
             pose proof (HX (Z.of_nat (S m)) (map (fun ys => last ys []) plans) x) as G. rewrite Eq, map_length in G.
             assert (0 < inject_Z (Z.of_nat (length plans)))%Q as HN.
             { change 0%Q with (inject_Z 0). rewrite <- Zlt_Qlt. lia. }
             assert (ele (hit (Z.of_nat (S m)) x) (escale (1 / inject_Z (Z.of_nat (length plans))) (Fin q))) as G'.
             { apply G; auto; try lia.
               - destruct plans; [congruence|discriminate].
               - apply Forall_forall. intros z Hz. apply in_map_iff in Hz as (zs & <- & Hz). apply In_nth_error in Hz as (k & Hk).
                 destruct (HP k zs Hk) as (_ & [(P1 & P2 & _) _] & _). rewrite Forall_forall in P2. apply P2.
                 apply nth_error_below in Hk. destruct zs as [|z zs _] using rev_ind; [cbn [length] in P1; lia|].
                 rewrite last_last. apply in_or_app. right. left. reflexivity. }
             cbn [escale eadd]. destruct (hit (Z.of_nat (S m)) x) as [hx|]; [|contradiction]. cbn [ele escale eadd] in G' |- *.
             assert (1 / inject_Z (Z.of_nat (length plans)) * q <= (1 + c) * h)%Q.
             { apply (Qmult_le_l _ _ (inject_Z (Z.of_nat (length plans)))); [exact HN|].
               setoid_replace (inject_Z (Z.of_nat (length plans)) * (1 / inject_Z (Z.of_nat (length plans)) * q))%Q with q by (field; lra).
               exact Hq. }
             lra.
  Qed.

  Variable s : split.
  Let ops := ssco_ops valQ merge vmerge outside s.
  Let alg := afhc_alg vmerge merge outside sched minimize.
  Let o0 := mkOnline p w.

  Lemma memory_step m xs mem : advised_memory next p (S m) = Ok (xs, mem) ->
    exists ys mem0 x mem1, advised_memory next p m = Ok (ys, mem0) /\
      afhc vmerge merge outside sched minimize (ending p (Z.of_nat (S m))) w (Z.of_nat (length ys) + 1)
        (match mem0 with Some b => b | None => afhc_default p w end) = Ok (x, mem1) /\ xs = ys ++ [x] /\ mem = Some mem1.
  Proof using.
    cbn [advised_memory]. destruct (advised_memory next p m) as [[ys mem0]| |]; cbn [obind fst snd]; try discriminate.
    unfold next at 1, afhc_next. intros H. exists ys, mem0.
    change (afhc_default (ending p (Z.of_nat (S m))) w) with (afhc_default p w) in H.
    destruct (afhc vmerge merge outside sched minimize (ending p (Z.of_nat (S m))) w (Z.of_nat (length ys) + 1)
               (match mem0 with Some b => b | None => afhc_default p w end)) as [[x mem1]| |] eqn:E;
      try discriminate. inversion H; subst. exists x, mem1. auto.
  Qed.

  Lemma memory_length m : forall xs mem, advised_memory next p m = Ok (xs, mem) -> length xs = m.
  Proof using.
    induction m as [|m IH]; intros xs mem H; [inversion H; reflexivity|].
    apply memory_step in H as (ys & mem0 & x & mem1 & H1 & _ & -> & _). rewrite app_length, (IH _ _ H1). simpl. lia.
  Qed.

  Lemma memory_prefix j m : forall xs mem, advised_memory next p (j + m) = Ok (xs, mem) ->
    exists ys mem', advised_memory next p m = Ok (ys, mem').
  Proof using.
    induction j as [|j IH]; intros xs mem H; [eauto|]. apply memory_step in H as (ys & mem0 & x & mem1 & H & _). eauto.
  Qed.

  Lemma afhc_stream_on k : forall m xs mem ys mem0, (n = S m + k)%nat -> advised_memory next p m = Ok (ys, mem0) ->
    advised_memory next p n = Ok (xs, mem) ->
    offline_stream_from ops alg (@afhc_dflt C D) (Z.of_nat n + w) (at_slot ops o0 (Z.of_nat m + 1)) ys mem0
      = Some (at_slot ops o0 (Z.of_nat n), xs, Ok mem).
  Proof using Hwf Hw.
    clear HS HX HC Hcost.
    induction k as [|k IH]; intros m xs mem ys mem0 En Hy Hx; pose proof (memory_length _ _ _ Hy) as Ly.
    - rewrite Nat.add_0_r in En. rewrite En in *. clear En.
      apply memory_step in Hx as (ys' & mem0' & x & mem1 & H1 & H2 & -> & ->). rewrite Hy in H1. inversion H1; subst ys' mem0'.
      rewrite (offline_unfold ops alg (@afhc_dflt C D) (ssco_ops_lawful _ _ _ _ _)). unfold online_next, alg_next.
      cbn [at_slot on_p ops ssco_ops po_set po_tend g_tend]. rewrite Ly, Z.eqb_refl. cbn [negb].
      unfold alg at 1, afhc_alg. cbn [at_slot on_p on_w o0 ops ssco_ops po_set].
      replace (Z.of_nat (S m)) with (Z.of_nat m + 1) in H2 by lia. rewrite Ly in H2.
      unfold afhc_dflt at 1. cbn [on_p on_w].
      change (afhc_default (on_p (at_slot ops o0 (Z.of_nat m + 1))) (on_w (at_slot ops o0 (Z.of_nat m + 1)))) with (afhc_default p w).
      unfold ending in H2. rewrite H2. cbn [obind fst snd].
      rewrite (proj2 (Z.ltb_ge _ _)) by lia. replace (Z.of_nat (S m)) with (Z.of_nat m + 1) by lia. reflexivity.
    - assert (exists x mem1, advised_memory next p (S m) = Ok (ys ++ [x], Some mem1) /\
                afhc vmerge merge outside sched minimize (ending p (Z.of_nat m + 1)) w (Z.of_nat m + 1)
                  (match mem0 with Some b => b | None => afhc_default p w end) = Ok (x, mem1)) as (x & mem1 & Hs & Hr).
      { destruct (memory_prefix (S k) (S m) xs mem) as (us & mem1 & Hu); [rewrite Nat.add_comm, <- En; exact Hx|].
        pose proof Hu as Hu'. apply memory_step in Hu as (ys' & mem0' & x & mem2 & H1 & H2 & -> & ->). rewrite Hy in H1. inversion H1; subst ys' mem0'.
        exists x, mem2. split; [exact Hu'|]. rewrite Ly in H2. replace (Z.of_nat (S m)) with (Z.of_nat m + 1) in H2 by lia. exact H2. }
      rewrite (offline_unfold ops alg (@afhc_dflt C D) (ssco_ops_lawful _ _ _ _ _)). unfold online_next, alg_next.
      cbn [at_slot on_p ops ssco_ops po_set po_tend g_tend]. rewrite Ly, Z.eqb_refl. cbn [negb].
      unfold alg at 1, afhc_alg. cbn [at_slot on_p on_w o0 ops ssco_ops po_set].
      unfold afhc_dflt at 1. cbn [on_p on_w].
      change (afhc_default (on_p (at_slot ops o0 (Z.of_nat m + 1))) (on_w (at_slot ops o0 (Z.of_nat m + 1)))) with (afhc_default p w).
      unfold ending in Hr. rewrite Hr. cbn [obind fst snd].
      rewrite (proj2 (Z.ltb_lt _ _)) by lia.
      change (inc ops _) with (at_slot ops o0 (Z.of_nat m + 1 + 1)).
      rewrite (verified_at vmerge merge outside p w s Hwf Hw) by lia.
      replace (Z.of_nat m + 1 + 1) with (Z.of_nat (S m) + 1) by lia. apply IH; [lia|exact Hs|exact Hx].
  Qed.

  Lemma afhc_ratio : (1 <= n)%nat -> g_tend p = 1 ->
    let o' := at_slot ops o0 (Z.of_nat n) in
    exists xs mem v,
      offline_stream ops alg (@afhc_dflt C D) (Z.of_nat n + w) o0 = Some (o', xs, Ok mem) /\
      fractional_schedule (g_bounds p) (Z.of_nat n) xs /\
      po_objective ops (on_p o') xs = Ok v /\
      forall ys, fractional_schedule (g_bounds p) (Z.of_nat n) ys -> Forall P ys -> exists v',
        po_objective ops (on_p o') ys = Ok v' /\ ele (c_cost v) (escale ((1 + c) * (1 + c)) (c_cost v')).
  Proof.
    intros Hn Ht o'. destruct (averaging n) as (xs & mem & E1 & E2 & _ & _ & E3); [lia|].
    destruct (objective_plan vmerge merge outside p hit (fun t => t) n Hwf Hcost (Z.of_nat n) s xs) as (v & V1 & V2); [lia|exact E2|].
    exists xs, mem, v. split; [|split; [exact E2|split; [exact V1|]]].
    - unfold offline_stream. replace o0 with (at_slot ops o0 (Z.of_nat 0 + 1)) at 1.
      + apply afhc_stream_on with (k := (n - 1)%nat); [lia|reflexivity|exact E1].
      + unfold at_slot, o0, ops. cbn [on_p on_w ssco_ops po_set]. clear - Ht. destruct p. cbn in *. rewrite Ht. reflexivity.
    - intros ys Hy Py. destruct (objective_plan vmerge merge outside p hit (fun t => t) n Hwf Hcost (Z.of_nat n) s ys) as (v' & W1 & W2); [lia|exact Hy|].
      exists v'. split; [exact W1|]. rewrite V2, W2. destruct E2 as [L2 F2]. destruct Hy as [Ly Fy].
      pose proof (operated_le_total hit (g_switching p) e (g_bounds p) c _ HC ys 1 (repeat 0%Q (length (g_bounds p)))) as G2.
      pose proof (total_le_operated hit (g_switching p) e (g_bounds p) c _ HC xs 1 (repeat 0%Q (length (g_bounds p)))) as G1.
      assert (ele (total_cost hit (power_upQ (g_switching p)) 1 1 (repeat 0%Q (length (g_bounds p))) xs) (escale (1 + c) (operated hit 1 xs))) as G3.
      { apply G1; auto; [lia|lia|]. apply Forall_forall. intros j Hj. apply repeat_spec in Hj. subst j. lra. }
      clear G1. pose proof (E3 ys) as G4. destruct HC as (Hc & _).
      assert (0 < 1 + c)%Q as Hc' by lra.
      destruct (total_cost hit (power_upQ (g_switching p)) 1 1 (repeat 0%Q (length (g_bounds p))) ys) as [b|];
        [|match goal with |- ele ?x _ => destruct x; exact I end].
      destruct (operated hit 1 ys) as [oy|]; [|contradiction].
      assert (ele (operated hit 1 xs) (escale (1 + c) (Fin oy))) as G5 by (apply G4; [split; assumption|exact Py|exact I]).
      destruct (operated hit 1 xs) as [ox|]; [|contradiction].
      destruct (total_cost hit (power_upQ (g_switching p)) 1 1 (repeat 0%Q (length (g_bounds p))) xs) as [a|]; [|contradiction].
      cbn [ele escale] in *.
      assert ((1 + c) * ox <= (1 + c) * ((1 + c) * b))%Q; [|lra].
      apply Qmult_le_l; [exact Hc'|].
      assert ((1 + c) * oy <= (1 + c) * b)%Q; [|lra]. apply Qmult_le_l; [exact Hc'|exact G2].
  Qed.
End Averaged.
