(** Cost of whole runs of receding horizon control. *)
From Coq Require Import Lia Lqa.
From Verif Require Import NumLemmas HorizonRunModel HorizonRunSpec HorizonProofs ConvertProofs CostProofs CapacityWork VerifySpec VerifyProofs StaticProofs StreamProofs ObjectiveProofs.
From Verif Require Import ProblemModel CostModel.
Local Open Scope Z_scope.

Section Greedy.
  Variable hit : Z -> list Q -> ext.
  Variables (beta e bounds : list Q) (c : Q) (E : Z).
  Hypothesis HC : costly_operation hit beta e bounds c E.

  Lemma bounded_nonneg x : within_bounds bounds x -> Forall (fun j => (0 <= j)%Q) x.
  Proof. intros H. clear HC. induction H as [|u j us x Hj H IH]; [constructor|]. constructor; [lra|exact IH]. Qed.

  Lemma weighted_nonneg : forall a x, Forall (fun j => (0 <= j)%Q) a -> Forall (fun j => (0 <= j)%Q) x -> (0 <= weighted a x)%Q.
  Proof.
    induction a as [|b a IH]; intros [|j x] Ha Hx; cbn [weighted]; try lra.
    inversion Ha; inversion Hx; subst. assert (0 <= b * j)%Q by (apply Qmult_le_0_compat; assumption).
    assert (0 <= weighted a x)%Q by auto. lra.
  Qed.

  Lemma power_up_nonneg : forall b prev x, Forall (fun j => (0 <= j)%Q) b -> (0 <= power_upQ b prev x)%Q.
  Proof.
    induction b as [|b bs IH]; intros [|i prev] [|j x] Hb; cbn [power_upQ]; try lra.
    inversion Hb; subst. specialize (IH prev x H2). destruct (Qle_bool j i) eqn:E1; [lra|].
    apply Qle_bool_false in E1. assert (0 <= b * (j - i))%Q by (apply Qmult_le_0_compat; lra). lra.
  Qed.

  Lemma power_up_weighted b prev x :
    Forall (fun j => (0 <= j)%Q) b -> Forall (fun j => (0 <= j)%Q) prev -> Forall (fun j => (0 <= j)%Q) x ->
    (power_upQ b prev x <= weighted b x)%Q.
  Proof.
    revert prev x. induction b as [|b bs IH]; intros [|i prev] [|j x] Hb Hp Hx; cbn [power_upQ weighted]; try lra.
    - assert (0 <= weighted (b :: bs) (j :: x))%Q as G by (apply weighted_nonneg; assumption). exact G.
    - inversion Hb; inversion Hp; inversion Hx; subst.
      assert (power_upQ bs prev x <= weighted bs x)%Q by (apply IH; assumption).
      assert (0 <= b * j)%Q by (apply Qmult_le_0_compat; assumption).
      assert (0 <= b * i)%Q by (apply Qmult_le_0_compat; assumption).
      destruct (Qle_bool j i); lra.
  Qed.

  Lemma weighted_scale : forall b a x, Forall2 (fun b a => 0 <= b /\ 0 <= a /\ b <= c * a)%Q b a -> Forall (fun j => (0 <= j)%Q) x ->
    (weighted b x <= c * weighted a x)%Q.
  Proof.
    intros b a x H. revert x. induction H as [|b a bs es [H1 [H2 H3]] H IH]; intros [|j x] Hx; cbn [weighted]; try lra.
    inversion Hx; subst. specialize (IH x H6).
    assert (b * j <= (c * a) * j)%Q by (apply Qmult_le_compat_r; assumption). lra.
  Qed.

  Lemma beta_nonneg : Forall (fun j => (0 <= j)%Q) beta.
  Proof. destruct HC as (_ & H & _). clear HC. induction H; constructor; tauto. Qed.
  Lemma e_nonneg : Forall (fun j => (0 <= j)%Q) e.
  Proof. destruct HC as (_ & H & _). clear HC. induction H; constructor; tauto. Qed.

  Lemma hit_nonneg s x : 1 <= s <= E -> within_bounds bounds x -> ele (Fin 0) (hit s x).
  Proof.
    intros Hs Hx. destruct HC as (_ & _ & H). eapply ele_trans; [|apply H; assumption]. simpl.
    apply weighted_nonneg; [apply e_nonneg|apply bounded_nonneg; assumption].
  Qed.

  (** Powering up costs at most c times the operation. *)
  Lemma power_up_hit s prev x : 1 <= s <= E -> Forall (fun j => (0 <= j)%Q) prev -> within_bounds bounds x ->
    ele (Fin (power_upQ beta prev x)) (escale c (hit s x)).
  Proof.
    intros Hs Hp Hx. pose proof (bounded_nonneg x Hx) as Hx0. destruct HC as (Hc & H2 & H3).
    specialize (H3 s x Hs Hx).
    pose proof (power_up_weighted beta prev x beta_nonneg Hp Hx0).
    pose proof (weighted_scale beta e x H2 Hx0).
    destruct (hit s x) as [h|]; simpl in *; [|exact I].
    assert (c * weighted e x <= c * h)%Q. { rewrite !(Qmult_comm c). apply Qmult_le_compat_r; assumption. }
    lra.
  Qed.

  Lemma total_nonneg : forall ys a prev, 1 <= a -> a + Z.of_nat (length ys) - 1 <= E -> Forall (within_bounds bounds) ys ->
    ele (Fin 0) (total_cost hit (power_upQ beta) 1 a prev ys).
  Proof.
    induction ys as [|y ys IH]; intros a prev H1 H2 H3; cbn [total_cost]; [simpl; lra|].
    cbn [length] in H2. inversion H3; subst.
    assert (ele (Fin 0) (total_cost hit (power_upQ beta) 1 (a + 1) y ys)) as G1 by (apply IH; auto; lia).
    assert (ele (Fin 0) (hit a y)) as G2 by (apply hit_nonneg; auto; lia).
    pose proof (power_up_nonneg beta prev y beta_nonneg) as G3.
    destruct (hit a y), (total_cost hit (power_upQ beta) 1 (a + 1) y ys); simpl in *; auto. lra.
  Qed.

  (** The hitting costs alone. *)
  Fixpoint operated (a : Z) (ys : list (list Q)) : ext :=
    match ys with
    | [] => Fin 0
    | y :: r => eadd (hit a y) (operated (a + 1) r)
    end.

  Lemma operated_le_total : forall ys a prev,
    ele (operated a ys) (total_cost hit (power_upQ beta) 1 a prev ys).
  Proof.
    induction ys as [|y ys IH]; intros a prev; cbn [operated total_cost]; [simpl; lra|].
    specialize (IH (a + 1) y). pose proof (power_up_nonneg beta prev y beta_nonneg).
    destruct (hit a y), (operated (a + 1) ys), (total_cost hit (power_upQ beta) 1 (a + 1) y ys); simpl in *; auto. lra.
  Qed.

  Lemma operated_app : forall xs ys a,
    eeq (operated a (xs ++ ys)) (eadd (operated a xs) (operated (a + Z.of_nat (length xs)) ys)).
  Proof.
    induction xs as [|x xs IH]; intros ys a; cbn [app operated length].
    - rewrite Z.add_0_r, eadd_0_l. reflexivity.
    - rewrite IH, eadd_assoc. replace (a + 1 + Z.of_nat (length xs)) with (a + Z.of_nat (S (length xs))) by lia. reflexivity.
  Qed.

  Lemma total_le_operated : forall ys a prev, 1 <= a -> a + Z.of_nat (length ys) - 1 <= E ->
    Forall (fun j => (0 <= j)%Q) prev -> Forall (within_bounds bounds) ys ->
    ele (total_cost hit (power_upQ beta) 1 a prev ys) (escale (1 + c) (operated a ys)).
  Proof.
    induction ys as [|y ys IH]; intros a prev H1 H2 Hp H3; cbn [operated total_cost]; [simpl; lra|].
    cbn [length] in H2. inversion H3; subst.
    assert (ele (total_cost hit (power_upQ beta) 1 (a + 1) y ys) (escale (1 + c) (operated (a + 1) ys))) as G1.
    { apply IH; auto; try lia. apply bounded_nonneg; assumption. }
    assert (ele (Fin (power_upQ beta prev y)) (escale c (hit a y))) as G2 by (apply power_up_hit; auto; lia).
    destruct (hit a y), (total_cost hit (power_upQ beta) 1 (a + 1) y ys), (operated (a + 1) ys); simpl in *; auto. lra.
  Qed.
End Greedy.

Lemma plan_total hit beta : forall ys a prev, 1 <= a ->
  plan_cost hit beta a prev ys = total_cost hit (power_upQ beta) 1 a prev ys.
Proof.
  unfold plan_cost. induction ys as [|y ys IH]; intros a prev Ha; cbn [total_cost]; [reflexivity|].
  rewrite IH by lia. unfold hit_from_1. rewrite (proj2 (Z.ltb_ge a 1)) by lia. reflexivity.
Qed.

Lemma eadd_mono a b x y : ele a x -> ele b y -> ele (eadd a b) (eadd x y).
Proof. destruct a, b, x, y; simpl; auto; try tauto. lra. Qed.

Lemma escale_eadd k a b : eeq (escale k (eadd a b)) (eadd (escale k a) (escale k b)).
Proof. destruct a, b; simpl; auto. ring. Qed.

Global Instance escale_proper k : Proper (eeq ==> eeq) (escale k).
Proof. intros [a|] [b|]; simpl; auto; try tauto. intros ->. reflexivity. Qed.

Lemma last_app_ne {A} : forall (xs ys : list A) d, ys <> [] -> last (xs ++ ys) d = last ys d.
Proof.
  induction xs as [|x xs IH]; intros ys d H; [reflexivity|]. cbn [app]. rewrite <- (IH ys d H).
  destruct (xs ++ ys) eqn:E; [|reflexivity]. apply app_eq_nil in E as [_ E]. contradiction.
Qed.

Section Receding.
  Context {C D : Type}.
  Variable vmerge : C -> C -> outcome C.
  Variable merge : C -> C -> C.
  Variable outside : D.
  Variable sched : list Q -> split.
  Variable minimize : (list Q -> outcome ext) -> list (Q * Q) -> list (list Q -> outcome Q) -> outcome (list Q).
  Variable p : gssco Q C D.
  Variable hit : Z -> list Q -> ext.
  Variables (e : list Q) (c : Q) (w : Z) (ends : Z -> Z) (n : nat).

  Hypothesis Hwf : verify_ssco valQ p = Ok tt.
  Hypothesis Hw : 0 <= w.
  Hypothesis Hends : forall t, 1 <= t <= Z.of_nat n -> t <= ends t <= t + w.
  Hypothesis Hmono : forall t, 1 <= t < Z.of_nat n -> ends t <= ends (t + 1).
  Hypothesis Hcost : forall s x, 1 <= s <= ends (Z.of_nat n) -> within_bounds (g_bounds p) x ->
    exists o, call_predictive (g_cost p) s x = Ok [mkCost (hit s x) o].
  Hypothesis HC : costly_operation hit (g_switching p) e (g_bounds p) c (ends (Z.of_nat n)).

  Let next q xs := rhc_next vmerge merge outside sched minimize q w xs.
  Let zero := repeat 0%Q (length (g_bounds p)).
  Variable P : list Q -> Prop.
  Variable tol : Q.
  Hypothesis HPzero : P zero.

  Hypothesis HS : forall m xs, (m < n)%nat -> advised next p ends m = Ok xs ->
    let t := Z.of_nat m + 1 in
    solves P tol minimize (map (fun u => (0%Q, u)) (g_bounds p)) (Z.to_nat (w + 1))
      (fun ys => plan_cost hit (g_switching p) t (last xs zero) (firstn (Z.to_nat (ends t - t + 1)) ys)) [].

  Lemma wf_parts : g_d p = Z.of_nat (length (g_bounds p)) /\ length (g_switching p) = length (g_bounds p) /\
    Forall (fun u => (0 <= u)%Q) (g_bounds p).
  Proof using Hwf.
    apply ssco_verified in Hwf. destruct Hwf as (H1 & H2 & H3 & H4 & H5 & _). split; [lia|]. split; [lia|].
    rewrite Forall_forall in *. intros u Hu. specialize (H5 u Hu). unfold is_positive in H5. cbn in H5. lra.
  Qed.

  Lemma zero_nonneg : Forall (fun j => (0 <= j)%Q) zero.
  Proof using. unfold zero. apply Forall_forall. intros j Hj. apply repeat_spec in Hj. subst j. lra. Qed.

  Lemma last_nonneg xs : Forall (within_bounds (g_bounds p)) xs -> Forall (fun j => (0 <= j)%Q) (last xs zero).
  Proof using.
    intros H. destruct xs as [|x xs _] using rev_ind; [apply zero_nonneg|]. rewrite last_last.
    apply Forall_app in H as [_ H]. apply Forall_inv in H. eapply bounded_nonneg; exact H.
  Qed.

  Lemma ends_mono k t : 1 <= t -> t + Z.of_nat k <= Z.of_nat n -> ends t <= ends (t + Z.of_nat k).
  Proof using Hmono.
    revert t. induction k as [|k IH]; intros t H1 H2; [rewrite Z.add_0_r; lia|].
    specialize (IH t H1). specialize (Hmono (t + Z.of_nat k)).
    replace (t + Z.of_nat (S k)) with (t + Z.of_nat k + 1) by lia. lia.
  Qed.

  (** The end of the last instance; nothing is known before the first slot. *)
  Definition known (m : nat) : Z := match m with O => 0 | S _ => ends (Z.of_nat m) end.

  Lemma known_next m : (m < n)%nat -> known m <= ends (Z.of_nat m + 1) <= ends (Z.of_nat n) /\ Z.of_nat m <= known m.
  Proof using Hends Hmono.
    intros Hm. pose proof (ends_mono (n - S m) (Z.of_nat m + 1)) as G.
    replace (Z.of_nat m + 1 + Z.of_nat (n - S m)) with (Z.of_nat n) in G by lia.
    destruct m as [|m].
    - cbn [known]. pose proof (Hends (Z.of_nat 0 + 1)). lia.
    - cbn [known]. pose proof (Hmono (Z.of_nat (S m))). pose proof (Hends (Z.of_nat (S m))). lia.
  Qed.

  Lemma receding m : (m <= n)%nat -> exists xs rest, advised next p ends m = Ok xs /\
    length xs = m /\ Forall (within_bounds (g_bounds p)) (xs ++ rest) /\ Forall P (xs ++ rest) /\
    Z.of_nat (length (xs ++ rest)) = known m /\
    forall ys, fractional_schedule (g_bounds p) (known m) ys -> Forall P ys ->
      ele (total_cost hit (power_upQ (g_switching p)) 1 1 zero (xs ++ rest)) (escale (1 + c) (operated hit 1 ys)).
  Proof.
    destruct wf_parts as (Hd & Hsw & Hb).
    induction m as [|m IH]; intros Hm.
    - exists [], []. split; [reflexivity|]. split; [reflexivity|]. split; [constructor|]. split; [constructor|]. split; [reflexivity|].
      intros ys [Hy _] _. destruct ys; [simpl; lra|discriminate Hy].
    - destruct IH as (xs & rest & E1 & E2 & E3 & EP & E4 & E5); [lia|].
      destruct (known_next m) as [K1 K2]; [lia|].
      set (t := Z.of_nat m + 1) in *.
      pose proof (Hends t) as Ht.
      apply Forall_app in E3 as [E3 E3']. apply Forall_app in EP as [EP EP'].
      destruct (rhc_spec vmerge merge outside sched minimize (ending p (ends t)) hit Hd Hsw Hb) with (P := P) (tol := tol) (w := w) (xs := xs)
        as (x & zs & R1 & R2); cbn [ending g_tend g_bounds g_switching g_cost] in *.
      + intros s x Hs Hx. apply Hcost; [lia|exact Hx].
      + exact HPzero.
      + exact Hw.
      + rewrite E2. fold t. lia.
      + eapply Forall_impl; [|exact E3]. intros x Hx. clear - Hx. induction Hx; simpl; auto.
      + rewrite E2. fold t. fold zero. apply HS; [lia|exact E1].
      + rewrite E2 in R2. fold t zero in R2. destruct R2 as [(L1 & L2 & LP) L3].
        exists (xs ++ [x]), zs.
        replace ((xs ++ [x]) ++ zs) with (xs ++ x :: zs) by (rewrite <- app_assoc; reflexivity).
        assert (known (S m) = ends t) as EK by (cbn [known]; f_equal; lia).
        rewrite EK. split; [|split; [|split; [|split; [|split]]]].
        * cbn [advised]. rewrite E1. cbn [obind]. replace (Z.of_nat (S m)) with t by lia.
          unfold next. rewrite R1. reflexivity.
        * rewrite app_length. simpl. lia.
        * apply Forall_app. split; assumption.
        * apply Forall_app. split; assumption.
        * rewrite app_length. rewrite app_length in E4. lia.
        * intros ys [Hy1 Hy2] HPy. rewrite app_length in E4.
          assert (ys = firstn (Z.to_nat (known m)) ys ++ skipn (Z.to_nat (known m)) ys) as Ey by (symmetry; apply firstn_skipn).
          set (y1 := firstn (Z.to_nat (known m)) ys) in *. set (y2 := skipn (Z.to_nat (known m)) ys) in *.
          assert (Z.of_nat (length y1) = known m) as Ly1 by (unfold y1; rewrite firstn_length; lia).
          assert (Z.of_nat (length y2) = ends t - known m) as Ly2 by (unfold y2; rewrite skipn_length; lia).
          rewrite Ey in Hy2, HPy. apply Forall_app in Hy2 as [Hy2 Hy3]. apply Forall_app in HPy as [HPy HPy']. clearbody y1 y2. rewrite Ey. clear Ey Hy1.
          assert (ele (total_cost hit (power_upQ (g_switching p)) 1 1 zero (xs ++ x :: zs))
                      (total_cost hit (power_upQ (g_switching p)) 1 1 zero ((xs ++ rest) ++ y2))) as G1.
          { rewrite <- app_assoc. rewrite (total_cost_app _ _ _ xs (x :: zs)), (total_cost_app _ _ _ xs (rest ++ y2)).
            apply eadd_mono; [apply ele_refl|].
            rewrite E2. replace (1 + Z.of_nat m) with t by lia. rewrite <- !plan_total by lia. apply L3.
            - rewrite app_length. lia.
            - apply Forall_app. split; assumption.
            - apply Forall_app. split; assumption. }
          eapply ele_trans; [exact G1|]. rewrite total_cost_app, operated_app, escale_eadd.
          rewrite app_length. apply eadd_mono.
          -- apply E5; [split; assumption|exact HPy].
          -- replace (1 + Z.of_nat (length xs + length rest)) with (1 + Z.of_nat (length y1)) by lia.
             eapply total_le_operated; eauto; try lia.
             apply last_nonneg. apply Forall_app. split; assumption.
  Qed.

  Lemma objective_plan T s xs : 1 <= T <= ends (Z.of_nat n) -> fractional_schedule (g_bounds p) T xs ->
    exists v, po_objective (ssco_ops valQ merge vmerge outside s) (ending p T) xs = Ok v /\
      eeq (c_cost v) (total_cost hit (power_upQ (g_switching p)) 1 1 zero xs).
  Proof using Hwf Hcost.
    intros HT [Lx Rx]. destruct wf_parts as (Hd & Hsw & Hb). rewrite Forall_forall in Rx.
    assert (forall x, within_bounds (g_bounds p) x -> length x = length (g_bounds p)) as HL.
    { intros x Hx. clear - Hx. induction Hx; simpl; auto. }
    destruct (objective_along merge (gssco_problem valQ vmerge outside (ending p T)) hit (power_upQ (g_switching p)) zero 1 false s xs)
      as (v & E1 & E2).
    - exact Lx.
    - intros t y Ht Hy. cbn [gssco_problem op_hit op_tend ending g_tend] in *. specialize (Rx y Hy). rewrite gssco_hit_inside.
      + destruct (Hcost t y) as (o & E); [lia|exact Rx|]. rewrite call_mean_of_predictive. cbn [ending g_cost]. rewrite E. cbn [obind].
        pose proof (cost_mean_single vmerge (mkCost (hit t y) o)) as HM.
        destruct (cost_mean vmerge [mkCost (hit t y) o]) as [v| |]; try contradiction. exists v. split; [reflexivity|]. apply HM.
      + reflexivity.
      + exact Rx.
    - intros a y Ha Hy. cbn [gssco_problem op_move]. unfold gssco_move. cbn [ending g_switching].
      rewrite scaled_movement_o_total.
      + eexists. split; [reflexivity|]. apply scaled_movement_power.
      + rewrite (HL y) by auto. destruct Ha as [-> | Ha]; [unfold zero; apply repeat_length|auto].
      + rewrite (HL y) by auto. exact Hsw.
    - exists v. split; [|exact E2]. cbn [ssco_ops po_objective]. 
      replace (gzero valQ (g_d (ending p T))) with zero; [exact E1|]. unfold gzero, zero. cbn [ending g_d]. rewrite Hd, Nat2Z.id. reflexivity.
  Qed.

  Lemma rhc_ratio s : (1 <= n)%nat -> exists xs v,
    advised next p ends n = Ok xs /\ fractional_schedule (g_bounds p) (Z.of_nat n) xs /\ Forall P xs /\
    po_objective (ssco_ops valQ merge vmerge outside s) (ending p (Z.of_nat n)) xs = Ok v /\
    forall ys, fractional_schedule (g_bounds p) (ends (Z.of_nat n)) ys -> Forall P ys -> exists v',
      po_objective (ssco_ops valQ merge vmerge outside s) (ending p (ends (Z.of_nat n))) ys = Ok v' /\
      ele (c_cost v) (escale (1 + c) (c_cost v')).
  Proof.
    intros Hn. destruct (receding n) as (xs & rest & E1 & E2 & E3 & EP & E4 & E5); [lia|].
    assert (known n = ends (Z.of_nat n)) as EK by (destruct n; [lia|reflexivity]). rewrite EK in *.
    pose proof (Hends (Z.of_nat n)) as He.
    apply Forall_app in E3 as [E3 E3']. apply Forall_app in EP as [EP _]. rewrite app_length in E4.
    destruct (objective_plan (Z.of_nat n) s xs) as (v & V1 & V2); [lia|split; [lia|assumption]|].
    exists xs, v. split; [exact E1|]. split; [split; [lia|assumption]|]. split; [exact EP|]. split; [exact V1|].
    intros ys Hy HPy. destruct (objective_plan (ends (Z.of_nat n)) s ys) as (v' & W1 & W2); [lia|exact Hy|].
    exists v'. split; [exact W1|]. rewrite V2, W2.
    assert (ele (total_cost hit (power_upQ (g_switching p)) 1 1 zero xs)
                (total_cost hit (power_upQ (g_switching p)) 1 1 zero (xs ++ rest))) as G1.
    { rewrite total_cost_app. pose proof (total_nonneg _ _ _ _ _ _ HC rest (1 + Z.of_nat (length xs)) (last xs zero)) as G.
      destruct (total_cost hit (power_upQ (g_switching p)) 1 1 zero xs); [|exact I].
      destruct (total_cost hit (power_upQ (g_switching p)) 1 (1 + Z.of_nat (length xs)) (last xs zero) rest); [|exact I].
      cbn [eadd ele] in *. assert (0 <= q0)%Q by (apply G; [lia|lia|assumption]). lra. }
    eapply ele_trans; [exact G1|]. eapply ele_trans; [apply E5; [exact Hy|exact HPy]|].
    pose proof (operated_le_total hit (g_switching p) e (g_bounds p) c _ HC ys 1 zero) as G2.
    destruct HC as (Hc & _).
    destruct (operated hit 1 ys), (total_cost hit (power_upQ (g_switching p)) 1 1 zero ys); simpl in *; auto; try tauto.
    rewrite !(Qmult_comm (1 + c)). apply Qmult_le_compat_r; lra.
  Qed.
End Receding.

(** ** Streaming *)
Section Streamed.
  Context {C D : Type}.
  Variable vmerge : C -> C -> outcome C.
  Variable merge : C -> C -> C.
  Variable outside : D.
  Variable sched : list Q -> split.
  Variable minimize : (list Q -> outcome ext) -> list (Q * Q) -> list (list Q -> outcome Q) -> outcome (list Q).
  Variable p : gssco Q C D.
  Variable w : Z.
  Variable s : split.

  Hypothesis Hwf : verify_ssco valQ p = Ok tt.
  Hypothesis Hw : 0 <= w.

  Let next q xs := rhc_next vmerge merge outside sched minimize q w xs.
  Let ops := ssco_ops valQ merge vmerge outside s.
  Let alg := rhc_alg vmerge merge outside sched minimize.
  Let o0 := mkOnline p w.

  Lemma verified_at t : 0 <= t -> verify_o ops (at_slot ops o0 t) = Ok tt.
  Proof using Hwf Hw.
    intros Ht. unfold verify_o, at_slot, o0, ops. cbn [on_p on_w ssco_ops po_verify po_set]. unfold verify_online.
    rewrite (proj2 (Z.leb_le 0 w)) by lia. cbn [assert_validity obind]. apply ssco_verified.
    apply ssco_verified in Hwf. destruct Hwf as (H1 & _ & H3). split; [exact H1|]. split; [exact Ht|exact H3].
  Qed.

  Lemma advised_step m xs : advised next p (fun t => t) (S m) = Ok xs ->
    exists ys x, advised next p (fun t => t) m = Ok ys /\
      rhc vmerge merge outside sched minimize (ending p (Z.of_nat (S m))) w (Z.of_nat (length ys) + 1) ys = Ok x /\ xs = ys ++ [x].
  Proof using.
    cbn [advised]. destruct (advised next p (fun t => t) m) as [ys| |]; cbn [obind]; try discriminate.
    unfold next at 1, rhc_next. intros H.
    destruct (rhc vmerge merge outside sched minimize (ending p (Z.of_nat (S m))) w (Z.of_nat (length ys) + 1) ys) as [x| |] eqn:E;
      try discriminate. inversion H; subst. exists ys, x. auto.
  Qed.

  Lemma advised_length m : forall xs, advised next p (fun t => t) m = Ok xs -> length xs = m.
  Proof using.
    induction m as [|m IH]; intros xs H; [inversion H; reflexivity|].
    apply advised_step in H as (ys & x & H1 & _ & ->). rewrite app_length, (IH _ H1). simpl. lia.
  Qed.

  Lemma stream_on n k : forall m xs ys, (n = S m + k)%nat -> advised next p (fun t => t) m = Ok ys ->
    advised next p (fun t => t) n = Ok xs ->
    offline_stream_from ops alg (fun _ => tt) (Z.of_nat n + w) (at_slot ops o0 (Z.of_nat m + 1)) ys None
      = Some (at_slot ops o0 (Z.of_nat n), xs, Ok None).
  Proof using Hwf Hw.
    induction k as [|k IH]; intros m xs ys En Hy Hx.
    - rewrite Nat.add_0_r in En. subst n. pose proof (advised_length _ _ Hy) as Ly.
      apply advised_step in Hx as (ys' & x & H1 & H2 & ->). rewrite Hy in H1. inversion H1; subst ys'.
      rewrite (offline_unfold ops alg (fun _ => tt) (ssco_ops_lawful _ _ _ _ _)). unfold online_next, alg_next.
      cbn [at_slot on_p ops ssco_ops po_set po_tend g_tend]. rewrite Ly, Z.eqb_refl. cbn [negb].
      unfold alg at 1, rhc_alg. cbn [at_slot on_p on_w o0 ops ssco_ops po_set].
      replace (Z.of_nat (S m)) with (Z.of_nat m + 1) in H2 by lia. rewrite Ly in H2.
      unfold ending in H2. rewrite H2. cbn [obind].
      rewrite (proj2 (Z.ltb_ge _ _)) by lia. replace (Z.of_nat (S m)) with (Z.of_nat m + 1) by lia. reflexivity.
    - pose proof (advised_length _ _ Hy) as Ly.
      assert (exists x, advised next p (fun t => t) (S m) = Ok (ys ++ [x]) /\
                rhc vmerge merge outside sched minimize (ending p (Z.of_nat m + 1)) w (Z.of_nat m + 1) ys = Ok x) as (x & Hs & Hr).
      { assert (forall j zs, advised next p (fun t => t) (j + S m) = Ok zs -> exists us, advised next p (fun t => t) (S m) = Ok us) as G.
        { induction j as [|j IHj]; intros zs Hz; [eauto|]. apply advised_step in Hz as (us & ? & Hz & _). eauto. }
        destruct (G (S k) xs) as (us & Hu); [rewrite Nat.add_comm, <- En; exact Hx|].
        pose proof Hu as Hu'. apply advised_step in Hu as (ys' & x & H1 & H2 & ->). rewrite Hy in H1. inversion H1; subst ys'.
        exists x. split; [exact Hu'|]. rewrite Ly in H2. replace (Z.of_nat (S m)) with (Z.of_nat m + 1) in H2 by lia. exact H2. }
      rewrite (offline_unfold ops alg (fun _ => tt) (ssco_ops_lawful _ _ _ _ _)). unfold online_next, alg_next.
      cbn [at_slot on_p ops ssco_ops po_set po_tend g_tend]. rewrite Ly, Z.eqb_refl. cbn [negb].
      unfold alg at 1, rhc_alg. cbn [at_slot on_p on_w o0 ops ssco_ops po_set].
      unfold ending in Hr. rewrite Hr. cbn [obind].
      rewrite (proj2 (Z.ltb_lt _ _)) by lia.
      change (inc ops _) with (at_slot ops o0 (Z.of_nat m + 1 + 1)). rewrite verified_at by lia.
      replace (Z.of_nat m + 1 + 1) with (Z.of_nat (S m) + 1) by lia. apply IH; [lia|exact Hs|exact Hx].
  Qed.

  Lemma streams n xs : (1 <= n)%nat -> g_tend p = 1 -> advised next p (fun t => t) n = Ok xs ->
    offline_stream ops alg (fun _ => tt) (Z.of_nat n + w) o0 = Some (at_slot ops o0 (Z.of_nat n), xs, Ok None).
  Proof using Hwf Hw.
    intros Hn Ht Hx. unfold offline_stream. replace o0 with (at_slot ops o0 (Z.of_nat 0 + 1)) at 1.
    - apply stream_on with (k := (n - 1)%nat); [lia|reflexivity|exact Hx].
    - unfold at_slot, o0, ops. cbn [on_p on_w ssco_ops po_set]. destruct p. cbn in *. rewrite Ht. reflexivity.
  Qed.
End Streamed.

(** The ratio of a streamed run. *)
Lemma rhc_stream_ratio :
  forall (C D : Type) (vmerge : C -> C -> outcome C) (merge : C -> C -> C) (outside : D) (sched : list Q -> split)
    minimize (s : split) (p : gssco Q C D) (hit : Z -> list Q -> ext) (e : list Q) (c : Q) (w : Z) (n : nat),
  verify_ssco valQ p = Ok tt -> g_tend p = 1 -> 0 <= w -> (1 <= n)%nat ->
  (forall t x, 1 <= t <= Z.of_nat n -> within_bounds (g_bounds p) x ->
     exists o, call_predictive (g_cost p) t x = Ok [mkCost (hit t x) o]) ->
  costly_operation hit (g_switching p) e (g_bounds p) c (Z.of_nat n) ->
  forall (P : list Q -> Prop) (tol : Q), P (repeat 0%Q (length (g_bounds p))) ->
  let next q xs := rhc_next vmerge merge outside sched minimize q w xs in
  let zero := repeat 0%Q (length (g_bounds p)) in
  (forall m xs, (m < n)%nat -> advised next p (fun t => t) m = Ok xs ->
     solves P tol minimize (map (fun u => (0%Q, u)) (g_bounds p)) (Z.to_nat (w + 1))
       (fun ys => plan_cost hit (g_switching p) (Z.of_nat m + 1) (last xs zero) (firstn 1 ys)) []) ->
  let ops := ssco_ops valQ merge vmerge outside s in
  let o := mkOnline p w in
  let o' := at_slot ops o (Z.of_nat n) in
  exists xs v,
    offline_stream ops (rhc_alg vmerge merge outside sched minimize) (fun _ => tt) (Z.of_nat n + w) o
      = Some (o', xs, Ok None) /\
    fractional_schedule (g_bounds p) (Z.of_nat n) xs /\ Forall P xs /\
    po_objective ops (on_p o') xs = Ok v /\
    forall ys, fractional_schedule (g_bounds p) (Z.of_nat n) ys -> Forall P ys -> exists v',
      po_objective ops (on_p o') ys = Ok v' /\ ele (c_cost v) (escale (1 + c) (c_cost v')).
Proof.
  intros C D vmerge merge outside sched minimize s p hit e c w n Hwf Ht Hw Hn Hcost HC P tol HPzero next zero HS ops o o'.
  destruct (rhc_ratio vmerge merge outside sched minimize p hit e c w (fun t => t) n Hwf Hw) with (P := P) (tol := tol) (s := s)
    as (xs & v & H1 & H2 & HP & H3 & H4); auto.
  - intros; lia.
  - intros; lia.
  - intros m xs Hm Hx t. replace (Z.to_nat (t - t + 1)) with 1%nat by lia. apply HS; assumption.
  - exists xs, v. split; [|split; [exact H2|split; [exact HP|split; [exact H3|exact H4]]]].
    apply streams; assumption.
Qed.
