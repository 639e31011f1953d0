(** The exchange argument behind the refinement step of the one-dimensional
    graph search: an optimum on the grid of width g can be found within distance
    2g of any optimum on the grid of width 2g. *)
From Verif Require Import NumLemmas ObjectiveSpec Search1DModel Search1DProofs.
Local Open Scope Z_scope.

Definition mvz (inverted : bool) (i j : Z) : Z :=
  Z.max 0 (if inverted then i - j else j - i).

Section Cost.
  Variable hit : Z -> Z -> ext.
  Variable beta alpha : Q.
  Variable inverted : bool.
  Hypothesis kappa_nonneg : (0 <= alpha * beta)%Q.

  Local Notation bc := (build_cost hit beta alpha inverted).
  Local Notation pc := (pc hit beta alpha inverted).
  Local Notation mv := (mvz inverted).

  Lemma build_cost_mvz t i j :
    eeq (bc t i j) (eadd (hit t j) (Fin (alpha * beta * inject_Z (mv i j)))).
  Proof.
    unfold build_cost. apply eadd_proper; [reflexivity|].
    cbn. unfold scalar_movement, mvz.
    destruct inverted; unfold Qminus; rewrite <- inject_Z_opp, <- inject_Z_plus, qpos_inject; unfold zpos.
    - replace (i + - j) with (i - j) by lia. ring.
    - replace (j + - i) with (j - i) by lia. ring.
  Qed.

  Lemma pc_cons_fin t prev x r q :
    pc t prev (x :: r) = Fin q ->
    exists h c, hit t x = Fin h /\ pc (t + 1) x r = Fin c /\
                (q == h + alpha * beta * inject_Z (mv prev x) + c)%Q.
  Proof.
    cbn [Search1DProofs.pc]. intros H. apply eadd_fin in H. destruct H as (a & c & Ha & Hc & ->).
    generalize (build_cost_mvz t prev x). rewrite Ha.
    destruct (hit t x) as [h|]; cbn; [|contradiction]. intros E.
    exists h, c. repeat split; auto. rewrite E. reflexivity.
  Qed.

  Lemma pc_cons_fin_intro t prev x r h c :
    hit t x = Fin h -> pc (t + 1) x r = Fin c ->
    exists q, pc t prev (x :: r) = Fin q /\
              (q == h + alpha * beta * inject_Z (mv prev x) + c)%Q.
  Proof.
    intros Hh Hc. cbn [Search1DProofs.pc]. rewrite Hc.
    generalize (build_cost_mvz t prev x). rewrite Hh.
    destruct (bc t prev x) as [b|]; cbn; [|contradiction]. intros E.
    exists (b + c)%Q. split; [reflexivity|]. rewrite E. reflexivity.
  Qed.

  (** Four paths compared slot by slot. *)
  Inductive quad : Z -> (Z * Z * Z * Z) -> list Z -> list Z -> list Z -> list Z -> Prop :=
  | quad_nil t pr : quad t pr [] [] [] []
  | quad_cons t px py py' px' x y y' x' xs ys ys' xs' :
      (forall qx qy, hit t x = Fin qx -> hit t y = Fin qy ->
         exists qx' qy', hit t x' = Fin qx' /\ hit t y' = Fin qy' /\
                         (qx' - qx <= 2 * (qy - qy'))%Q) ->
      mv px' x' - mv px x <= 2 * (mv py y - mv py' y') ->
      quad (t + 1) (x, y, y', x') xs ys ys' xs' ->
      quad t (px, py, py', px') (x :: xs) (y :: ys) (y' :: ys') (x' :: xs').

  Lemma quad_cost t pr xs ys ys' xs' :
    quad t pr xs ys ys' xs' ->
    forall cx cy, pc t (fst (fst (fst pr))) xs = Fin cx ->
      pc t (snd (fst (fst pr))) ys = Fin cy ->
      exists cx' cy', pc t (snd pr) xs' = Fin cx' /\ pc t (snd (fst pr)) ys' = Fin cy' /\
                      (cx' - cx <= 2 * (cy - cy'))%Q.
  Proof.
    induction 1 as [t pr|t px py py' px' x y y' x' xs ys ys' xs' Hh Hm Hq IH]; intros cx cy Hx Hy.
    - cbn in *. inversion Hx; inversion Hy; subst. exists 0%Q, 0%Q. repeat split; auto. lra.
    - cbn [fst snd] in *. apply pc_cons_fin in Hx, Hy.
      destruct Hx as (hx & rx & Hhx & Hrx & Ex), Hy as (hy & ry & Hhy & Hry & Ey).
      destruct (Hh _ _ Hhx Hhy) as (hx' & hy' & Hhx' & Hhy' & Hineq).
      destruct (IH _ _ Hrx Hry) as (rx' & ry' & Hrx' & Hry' & Hrest).
      destruct (pc_cons_fin_intro t px' x' xs' _ _ Hhx' Hrx') as (cx' & Hcx' & Ex').
      destruct (pc_cons_fin_intro t py' y' ys' _ _ Hhy' Hry') as (cy' & Hcy' & Ey').
      exists cx', cy'. split; [exact Hcx'|]. split; [exact Hcy'|].
      rewrite Ex, Ey, Ex', Ey'.
      assert (Hm' : (inject_Z (mv px' x') - inject_Z (mv px x)
                     <= 2 * (inject_Z (mv py y) - inject_Z (mv py' y')))%Q).
      { rewrite Zle_Qle in Hm. unfold Z.sub in Hm.
        rewrite inject_Z_mult, !inject_Z_plus, !inject_Z_opp in Hm.
        change (inject_Z 2) with 2%Q in Hm. lra. }
      clear -Hm' Hineq Hrest kappa_nonneg.
      set (a1 := inject_Z (mv px' x')) in *. set (a2 := inject_Z (mv px x)) in *.
      set (a3 := inject_Z (mv py y)) in *. set (a4 := inject_Z (mv py' y')) in *.
      set (k := (alpha * beta)%Q) in *.
      assert ((k * (a1 - a2) <= k * (2 * (a3 - a4)))%Q).
      { rewrite !(Qmult_comm k). apply Qmult_le_compat_r; auto. }
      lra.
  Qed.

  (** * One truncation step *)
  Variable x_start : Z.
  Variable g : Z.
  Hypothesis g_pos : 0 < g.
  Variables cx cy : Z.                     (* bounds of the coarse and of the fine grid *)
  Hypothesis cy_cx : cy <= cx.
  Hypothesis cx_cy : cx - 2 * g <= cy.

  Definition Px (z : Z) : Prop := (exists k, z = 2 * g * k) /\ 0 <= z <= cx.
  Definition Py (z : Z) : Prop := (exists k, z = g * k) /\ 0 <= z <= cy.

  (** [s] = 1 truncates from above, [s] = -1 from below. *)
  Definition sgn (s : bool) : Z := if s then 1 else -1.

  Variable n : nat.                        (* number of time slots *)

  Definition hit_exchange : Prop := forall s M t x y qx qy,
    1 <= t <= Z.of_nat n -> 3 <= M -> Px x -> Py y ->
    sgn s * (y - x) = M * g -> hit t x = Fin qx -> hit t y = Fin qy ->
    exists qx' qy', hit t (x + 2 * sgn s * g) = Fin qx' /\ hit t (y - sgn s * g) = Fin qy' /\
                    (qx' - qx <= 2 * (qy - qy'))%Q.

  Hypothesis Hhit : hit_exchange.

  Section Trunc.
    Variable s : bool.
    Variable M : Z.
    Hypothesis HM : 3 <= M.

    Definition e (x y : Z) : bool := sgn s * (y - x) =? M * g.
    Definition up (x y : Z) : Z := if e x y then x + 2 * sgn s * g else x.
    Definition dn (x y : Z) : Z := if e x y then y - sgn s * g else y.

    Fixpoint ups (xs ys : list Z) : list Z :=
      match xs, ys with x :: xs, y :: ys => up x y :: ups xs ys | _, _ => [] end.
    Fixpoint dns (xs ys : list Z) : list Z :=
      match xs, ys with x :: xs, y :: ys => dn x y :: dns xs ys | _, _ => [] end.

    Definition rel (x y : Z) : Prop := Px x /\ Py y /\ sgn s * (y - x) <= M * g.

    Lemma not_e x y : rel x y -> e x y = false -> sgn s * (y - x) <= M * g - g.
    Proof.
      intros (([k Hk] & _) & ([l Hl] & _) & Hle) He. unfold e in He.
      apply Z.eqb_neq in He.
      assert (exists d, sgn s * (y - x) = g * d) as [d Hd].
      { exists (sgn s * (l - 2 * k)). subst. ring. }
      rewrite Hd in *. assert (d < M) by nia. nia.
    Qed.

    Lemma movement_step px py x y :
      rel px py -> rel x y ->
      mv (up px py) (up x y) - mv px x <= 2 * (mv py y - mv (dn px py) (dn x y)).
    Proof.
      intros Hp H.
      assert (HD : exists d, x - px = 2 * (g * d)).
      { destruct Hp as (([k Hk] & _) & _), H as (([l Hl] & _) & _). exists (l - k). subst. ring. }
      destruct HD as [d Hd].
      assert (HA : x - px >= 0 \/ x - px <= - 2 * g).
      { rewrite Hd. destruct (Z_le_gt_dec 0 d); [left|right]; nia. }
      assert (HB : x - px <= 0 \/ x - px >= 2 * g).
      { rewrite Hd. destruct (Z_le_gt_dec d 0); [left|right]; nia. }
      clear d Hd.
      assert (HMg : 3 * g <= M * g) by nia.
      unfold up, dn. destruct (e px py) eqn:E1, (e x y) eqn:E2.
      - unfold mvz. destruct inverted; lia.
      - apply (not_e x y H) in E2. unfold e in E1. apply Z.eqb_eq in E1.
        destruct H as (_ & _ & H). set (MG := M * g) in *. clearbody MG.
        unfold mvz, sgn in *. destruct inverted, s; lia.
      - apply (not_e px py Hp) in E1. unfold e in E2. apply Z.eqb_eq in E2.
        destruct Hp as (_ & _ & Hp). set (MG := M * g) in *. clearbody MG.
        unfold mvz, sgn in *. destruct inverted, s; lia.
      - unfold mvz. destruct inverted; lia.
    Qed.

    Lemma movement_first x y :
      rel x y ->
      mv x_start (up x y) - mv x_start x <= 2 * (mv x_start y - mv x_start (dn x y)).
    Proof.
      intros H. assert (HMg : 3 * g <= M * g) by nia.
      unfold up, dn. destruct (e x y) eqn:E2; [|unfold mvz; destruct inverted; lia].
      unfold e in E2. apply Z.eqb_eq in E2. set (MG := M * g) in *. clearbody MG.
      unfold mvz, sgn in *. destruct inverted, s; lia.
    Qed.

    Lemma hitting_step t x y : 1 <= t <= Z.of_nat n -> rel x y ->
      forall qx qy, hit t x = Fin qx -> hit t y = Fin qy ->
         exists qx' qy', hit t (up x y) = Fin qx' /\ hit t (dn x y) = Fin qy' /\
                         (qx' - qx <= 2 * (qy - qy'))%Q.
    Proof.
      intros Ht H qx qy Hx Hy. unfold up, dn. destruct (e x y) eqn:E.
      - unfold e in E. apply Z.eqb_eq in E. destruct H as (HPx & HPy & _).
        apply (Hhit s M t x y qx qy); auto.
      - exists qx, qy. repeat split; auto. lra.
    Qed.

    Lemma quad_tail : forall xs ys t px py,
      1 <= t -> t + Z.of_nat (length xs) <= Z.of_nat n + 1 ->
      Forall2 rel xs ys -> rel px py ->
      quad t (px, py, dn px py, up px py) xs ys (dns xs ys) (ups xs ys).
    Proof.
      induction xs as [|x xs IH]; intros ys t px py Ht Hn HF Hp; inversion HF; subst; cbn; cbn [length] in Hn.
      - constructor.
      - constructor.
        + apply hitting_step; auto. lia.
        + apply movement_step; auto.
        + apply IH; auto; lia.
    Qed.

    Lemma quad_start xs ys t :
      1 <= t -> t + Z.of_nat (length xs) <= Z.of_nat n + 1 ->
      Forall2 rel xs ys ->
      quad t (x_start, x_start, x_start, x_start) xs ys (dns xs ys) (ups xs ys).
    Proof.
      intros Ht Hn HF. destruct HF as [|x y xs ys Hr HF]; cbn; [constructor|].
      cbn [length] in Hn. constructor.
      - apply hitting_step; auto. lia.
      - apply movement_first; auto.
      - apply quad_tail; auto; lia.
    Qed.

    Lemma up_Px x y : rel x y -> Px (up x y).
    Proof.
      intros (([k Hk] & Hxb) & (_ & Hyb) & Hle). unfold up.
      destruct (e x y) eqn:E; [|split; eauto].
      unfold e in E. apply Z.eqb_eq in E. split.
      - exists (k + sgn s). subst. ring.
      - assert (3 * g <= M * g) by nia. unfold sgn in *. destruct s; lia.
    Qed.

    Lemma dn_Py x y : rel x y -> Py (dn x y).
    Proof.
      intros ((_ & Hxb) & ([l Hl] & Hyb) & Hle). unfold dn.
      destruct (e x y) eqn:E; [|split; eauto].
      unfold e in E. apply Z.eqb_eq in E. split.
      - exists (l - sgn s). subst. ring.
      - assert (3 * g <= M * g) by nia. unfold sgn in *. destruct s; lia.
    Qed.

    Lemma dn_close x y : rel x y -> sgn s * (dn x y - x) <= (M - 1) * g.
    Proof.
      intros H. unfold dn. destruct (e x y) eqn:E.
      - unfold e in E. apply Z.eqb_eq in E. unfold sgn in *; destruct s; nia.
      - apply not_e in E; auto. nia.
    Qed.

    Lemma dn_other B x y : 0 <= B -> - sgn s * (y - x) <= B -> - sgn s * (dn x y - x) <= B.
    Proof.
      intros HB Hb. unfold dn. destruct (e x y) eqn:E; [|exact Hb].
      unfold e in E. apply Z.eqb_eq in E. assert (3 * g <= M * g) by nia.
      unfold sgn in *; destruct s; lia.
    Qed.
  End Trunc.

  (** A coarse optimum. *)
  Variable xs : list Z.
  Hypothesis xs_len : length xs = n.
  Hypothesis xs_Px : Forall Px xs.
  Hypothesis xs_fin : is_fin (pc 1 x_start xs).
  Hypothesis xs_opt : forall ys, length ys = n -> Forall Px ys ->
                        ele (pc 1 x_start xs) (pc 1 x_start ys).

  Definition close (s : bool) (b : Z) (x y : Z) : Prop := sgn s * (y - x) <= b.

  Lemma truncate_once s M ys B :
    3 <= M -> 0 <= B -> length ys = n -> Forall Py ys -> is_fin (pc 1 x_start ys) ->
    Forall2 (close s (M * g)) xs ys -> Forall2 (close (negb s) B) xs ys ->
    exists zs, length zs = n /\ Forall Py zs /\
      ele (pc 1 x_start zs) (pc 1 x_start ys) /\ 
      Forall2 (close s ((M - 1) * g)) xs zs /\ Forall2 (close (negb s) B) xs zs.
  Proof.
    intros HM HB Hlen HPy Hfin Hc Ho.
    assert (Hrel : Forall2 (rel s M) xs ys).
    { clear -xs_Px HPy Hc. revert xs_Px HPy. induction Hc; intros A B; constructor.
      - inversion A; inversion B; subst. split; [assumption|]. split; assumption.
      - inversion A; inversion B; subst; auto. }
    assert (Hq := quad_start s M HM xs ys 1 ltac:(lia) ltac:(lia) Hrel).
    apply is_fin_ex in Hfin. destruct Hfin as [qy Hqy].
    assert (Hfx := xs_fin). apply is_fin_ex in Hfx. destruct Hfx as [qx Hqx].
    destruct (quad_cost _ _ _ _ _ _ Hq qx qy Hqx Hqy) as (qx' & qy' & Hqx' & Hqy' & Hineq).
    cbn [fst snd] in Hqx', Hqy'.
    exists (dns s M xs ys).
    assert (HL : forall l1 l2 : list Z, length l1 = length l2 -> length (dns s M l1 l2) = length l1 /\
                 length (ups s M l1 l2) = length l1).
    { clear. induction l1 as [|a l1 IH]; intros [|b l2] H; try discriminate; cbn; auto.
      cbn in H. destruct (IH l2); [lia|]. split; lia. }
    destruct (HL xs ys) as [HL1 HL2]; [lia|].
    split; [lia|]. split.
    { clear -Hrel HM cy_cx cx_cy g_pos. induction Hrel; cbn; constructor; auto. apply dn_Py; auto. }
    split.
    { rewrite Hqy', Hqy. cbn.
      assert (Hopt : ele (pc 1 x_start xs) (pc 1 x_start (ups s M xs ys))).
      { apply xs_opt; [lia|]. clear -Hrel HM cy_cx cx_cy g_pos.
        induction Hrel; cbn; constructor; auto. apply up_Px; auto. }
      rewrite Hqx, Hqx' in Hopt. cbn in Hopt. lra. }
    split.
    { clear -Hrel HM cy_cx cx_cy g_pos. induction Hrel; cbn; constructor; auto. apply dn_close; auto. }
    { clear -Hrel HM HB Ho cy_cx cx_cy g_pos. revert Ho. induction Hrel; intros Ho; inversion Ho; subst; cbn; constructor; auto.
      unfold close in *. replace (sgn (negb s)) with (- sgn s) in * by (unfold sgn; destruct s; reflexivity).
      apply dn_other; auto. }
  Qed.

  Lemma truncate s B : 0 <= B -> forall (k : nat) ys,
    length ys = n -> Forall Py ys -> is_fin (pc 1 x_start ys) ->
    Forall2 (close s ((2 + Z.of_nat k) * g)) xs ys -> Forall2 (close (negb s) B) xs ys ->
    exists zs, length zs = n /\ Forall Py zs /\
      ele (pc 1 x_start zs) (pc 1 x_start ys) /\
      Forall2 (close s (2 * g)) xs zs /\ Forall2 (close (negb s) B) xs zs.
  Proof.
    intros HB. induction k as [|k IH]; intros ys Hlen HPy Hfin Hc Ho.
    - exists ys. repeat split; auto using ele_refl.
    - destruct (truncate_once s (2 + Z.of_nat (S k)) ys B) as (zs & H1 & H2 & H3 & H4 & H5); auto; [lia|].
      destruct (IH zs) as (ws & W1 & W2 & W3 & W4 & W5); auto.
      + eapply ele_fin; eauto.
      + replace ((2 + Z.of_nat k) * g) with ((2 + Z.of_nat (S k) - 1) * g) by (f_equal; lia). exact H4.
      + exists ws. repeat split; auto. eapply ele_trans; eauto.
  Qed.

  Lemma refine_window ys :
    length ys = n -> Forall Py ys -> is_fin (pc 1 x_start ys) ->
    exists zs, length zs = n /\ Forall Py zs /\
      ele (pc 1 x_start zs) (pc 1 x_start ys) /\
      Forall2 (fun x z => x - 2 * g <= z <= x + 2 * g) xs zs.
  Proof.
    intros Hlen HPy Hfin.
    set (K := Z.to_nat (cx + cy)).
    assert (Hall : forall s, Forall2 (close s ((2 + Z.of_nat K) * g)) xs ys).
    { intros s. assert (HF : Forall2 (fun x y => Px x /\ Py y) xs ys).
      { clear -Hlen xs_len xs_Px HPy. subst n. revert ys Hlen HPy.
        induction xs_Px; intros [|y ys] Hlen HPy; try discriminate; constructor; inversion HPy; subst; auto. }
      clear -HF g_pos. induction HF as [|x y l l' [[_ H1] [_ H2]] HF IH]; constructor; auto.
      unfold close. assert (sgn s * (y - x) <= cx + cy) by (unfold sgn; destruct s; lia).
      unfold K. rewrite Z2Nat.id by lia. nia. }
    destruct (truncate true ((2 + Z.of_nat K) * g) ltac:(nia) K ys)
      as (zs & H1 & H2 & H3 & H4 & H5); auto.
    destruct (truncate false (2 * g) ltac:(lia) K zs)
      as (ws & W1 & W2 & W3 & W4 & W5); auto.
    { eapply ele_fin; eauto. }
    exists ws. split; [exact W1|]. split; [exact W2|]. split; [eapply ele_trans; eauto|].
    cbn [negb] in W5. clear -W4 W5. revert W5. induction W4; intros W5; inversion W5; subst; constructor; auto.
    unfold close, sgn in *. lia.
  Qed.
End Cost.

(** * Convexity gives the exchange property of hitting costs *)
Lemma convex_slopes m f a b c d qa qd :
  convex_on m f -> 0 <= a -> a < b -> b <= c -> c < d -> d <= m ->
  f a = Fin qa -> f d = Fin qd ->
  exists qb qc, f b = Fin qb /\ f c = Fin qc /\
    ((qb - qa) * inject_Z (d - c) <= (qd - qc) * inject_Z (b - a))%Q.
Proof.
  intros Hc Ha Hab Hbc Hcd Hdm Hqa Hqd.
  destruct (Hc a b d qa qd ltac:(lia) ltac:(lia) Hqa Hqd) as (qb & Hqb & H1).
  destruct (Hc a c d qa qd ltac:(lia) ltac:(lia) Hqa Hqd) as (qc & Hqc & H2).
  exists qb, qc. split; [exact Hqb|]. split; [exact Hqc|].
  destruct (Z.eq_dec b c) as [->|Hne].
  - rewrite Hqb in Hqc; inversion Hqc; subst qc.
    unfold Z.sub in *. rewrite !inject_Z_plus, !inject_Z_opp in *. lra.
  - destruct (Hc a b c qa qc ltac:(lia) ltac:(lia) Hqa Hqc) as (qb' & Hqb' & H3).
    rewrite Hqb in Hqb'; inversion Hqb'; subst qb'.
    destruct (Hc b c d qb qd ltac:(lia) ltac:(lia) Hqb Hqd) as (qc' & Hqc' & H4).
    rewrite Hqc in Hqc'; inversion Hqc'; subst qc'.
    assert (E1 : (0 < inject_Z (b - a))%Q) by (change 0%Q with (inject_Z 0); rewrite <- Zlt_Qlt; lia).
    assert (E2 : (0 < inject_Z (c - b))%Q) by (change 0%Q with (inject_Z 0); rewrite <- Zlt_Qlt; lia).
    assert (E3 : (0 < inject_Z (d - c))%Q) by (change 0%Q with (inject_Z 0); rewrite <- Zlt_Qlt; lia).
    replace (c - a) with ((c - b) + (b - a)) in H3 by lia.
    replace (d - b) with ((d - c) + (c - b)) in H4 by lia.
    rewrite inject_Z_plus in H3, H4.
    set (u := inject_Z (b - a)) in *. set (v := inject_Z (c - b)) in *. set (w := inject_Z (d - c)) in *.
    clearbody u v w. clear -E1 E2 E3 H3 H4.
    assert (H5 : ((qb - qa) * v <= (qc - qb) * u)%Q) by lra.
    assert (H6 : ((qc - qb) * w <= (qd - qc) * v)%Q) by lra.
    assert (H7 : ((qb - qa) * v * w <= (qc - qb) * u * w)%Q) by (apply Qmult_le_compat_r; lra).
    assert (H8 : ((qc - qb) * w * u <= (qd - qc) * v * u)%Q) by (apply Qmult_le_compat_r; lra).
    assert (H9 : ((qb - qa) * w * v <= (qd - qc) * u * v)%Q) by lra.
    apply Qmult_lt_0_le_reg_r in H9; auto.
Qed.

Lemma convex_exchange hit m g c n :
  0 < g -> (forall t, 1 <= t <= Z.of_nat n -> convex_on m (hit t)) -> c <= m ->
  hit_exchange hit g c c n.
Proof.
  intros Hg Hconv Hcm s M t x y qx qy Ht HM (_ & Hx) (_ & Hy) Hs Hqx Hqy.
  assert (HMg : 3 * g <= M * g) by nia.
  assert (Eg : (0 < inject_Z g)%Q) by (change 0%Q with (inject_Z 0); rewrite <- Zlt_Qlt; lia).
  unfold sgn in *. destruct s.
  - destruct (convex_slopes m (hit t) x (x + 2 * g) (y - g) y qx qy) as (qb & qc & Hb & Hc & H); auto; try lia.
    exists qb, qc. replace (x + 2 * 1 * g) with (x + 2 * g) by lia.
    replace (y - 1 * g) with (y - g) by lia. repeat split; auto.
    replace (y - (y - g)) with g in H by lia. replace (x + 2 * g - x) with (2 * g) in H by lia.
    rewrite inject_Z_mult in H. change (inject_Z 2) with 2%Q in H.
    apply Qmult_lt_0_le_reg_r with (z := inject_Z g); [exact Eg|]. lra.
  - destruct (convex_slopes m (hit t) y (y + g) (x - 2 * g) x qy qx) as (qb & qc & Hb & Hc & H); auto; try lia.
    exists qc, qb. replace (x + 2 * -1 * g) with (x - 2 * g) by lia.
    replace (y - -1 * g) with (y + g) by lia. repeat split; auto.
    replace (y + g - y) with g in H by lia. replace (x - (x - 2 * g)) with (2 * g) in H by lia.
    rewrite inject_Z_mult in H. change (inject_Z 2) with 2%Q in H.
    apply Qmult_lt_0_le_reg_r with (z := inject_Z g); [exact Eg|]. lra.
Qed.
