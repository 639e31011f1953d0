(** Work functions of one-dimensional capacity provisioning, over a decision space [S] of
    rationals (the integers 0..m or the interval [0,m]). *)
From Coq Require Import Lia Lqa Setoid Morphisms.
From Verif Require Import NumLemmas ObjectiveSpec.
Local Open Scope Q_scope.

(** Scalar switching cost: powering up, or powering down if [inv]. *)
Definition sw1 (beta : Q) (inv : bool) (prev x : Q) : Q :=
  beta * qpos (if inv then prev - x else x - prev).

Lemma qpos_le x y : x <= y -> qpos x <= qpos y.
Proof. intros H. destruct (qpos_cases x) as [[? ->]|[? ->]], (qpos_cases y) as [[? ->]|[? ->]]; lra. Qed.

Lemma total_cost_app {X} (f : Z -> X -> ext) sw alpha : forall xs ys t prev,
  eeq (total_cost f sw alpha t prev (xs ++ ys))
      (eadd (total_cost f sw alpha t prev xs)
            (total_cost f sw alpha (t + Z.of_nat (length xs)) (last xs prev) ys)).
Proof.
  induction xs as [|x xs IH]; intros ys t prev; cbn [app total_cost length last].
  - rewrite Z.add_0_r, eadd_0_l. reflexivity.
  - rewrite IH. rewrite eadd_assoc.
    replace (t + Z.of_nat (S (length xs)))%Z with (t + 1 + Z.of_nat (length xs))%Z by lia.
    replace (last xs x) with (match xs with [] => x | _ :: _ => last xs prev end).
    { reflexivity. }
    destruct xs as [|y xs]; [reflexivity|]. clear. revert y. induction xs as [|z xs IH]; intros y; [reflexivity|].
    cbn [last] in *. destruct xs; [reflexivity|apply (IH z)].
Qed.

Section Work.
  Variable S : Q -> Prop.
  Variables (m kappa : Q).
  Hypothesis S_proper : forall x y, x == y -> S x -> S y.
  Hypothesis S_range : forall x, S x -> 0 <= x <= m.
  Hypothesis S_m : S m.
  Hypothesis S_0 : S 0.
  Hypothesis kappa_nonneg : 0 <= kappa.

  Definition convexS (g : Q -> ext) : Prop :=
    forall a b c qa qc, S a -> S b -> S c -> a <= b -> b <= c -> g a = Fin qa -> g c = Fin qc ->
    exists qb, g b = Fin qb /\ (c - a) * qb <= (c - b) * qa + (b - a) * qc.

  (** A finite non-decreasing, [kappa]-Lipschitz, convex function. *)
  Record good (W : Q -> Q) : Prop := {
    good_proper : forall x y, x == y -> W x == W y;
    good_mono : forall x y, S x -> S y -> x <= y -> W x <= W y;
    good_lip : forall x y, S x -> S y -> x <= y -> W y <= W x + kappa * (y - x);
    good_convex : forall a b c, S a -> S b -> S c -> a <= b -> b <= c ->
      (c - a) * W b <= (c - b) * W a + (b - a) * W c
  }.

  Lemma good_0 : good (fun x => kappa * x).
  Proof.
    split; intros.
    - rewrite H. reflexivity.
    - rewrite !(Qmult_comm kappa). apply Qmult_le_compat_r; lra.
    - lra.
    - lra.
  Qed.

  Lemma good_lip_pos W x y : good W -> S x -> S y -> W y <= W x + kappa * qpos (y - x).
  Proof.
    intros G Hx Hy. destruct (qpos_cases (y - x)) as [[H ->]|[H ->]].
    - apply (good_lip W G); auto; lra.
    - assert (W y <= W x) by (apply (good_mono W G); auto; lra). lra.
  Qed.

  Section Step.
    Variable W : Q -> Q.
    Hypothesis G : good W.
    Variable f : Q -> ext.
    Hypothesis f_proper : forall x y, x == y -> eeq (f x) (f y).
    Hypothesis f_convex : convexS f.
    Hypothesis f_nonneg : forall x, S x -> ele (Fin 0) (f x).

    Definition L (x : Q) : ext := eadd (f x) (Fin (W x)).

    Variables l u : Q.
    Hypothesis Sl : S l.
    Hypothesis Su : S u.
    Hypothesis lu : l <= u.
    Hypothesis l_fin : is_fin (L l).
    Hypothesis u_fin : is_fin (L u).
    Hypothesis l_min : forall x, S x -> ele (L l) (L x).
    Hypothesis u_min : forall x, S x -> ele (eadd (L u) (Fin (- kappa * u))) (eadd (L x) (Fin (- kappa * x))).

    Definition Lq (x : Q) : Q := match f x with Fin q => q + W x | Inf => 0 end.

    Lemma L_Lq x : is_fin (L x) -> L x = Fin (Lq x).
    Proof. unfold L, Lq. destruct (f x); simpl; tauto. Qed.

    Lemma Lq_proper x y : x == y -> Lq x == Lq y.
    Proof.
      intros H. unfold Lq. pose proof (f_proper x y H) as Hf. pose proof (good_proper W G x y H).
      destruct (f x), (f y); simpl in Hf; try contradiction; lra.
    Qed.

    Lemma L_proper x y : x == y -> eeq (L x) (L y).
    Proof. intros H. unfold L. apply eadd_proper; [apply f_proper; exact H|]. simpl. apply (good_proper W G). exact H. Qed.

    (** [L] is convex where it is finite. *)
    Lemma L_convex a b c : S a -> S b -> S c -> a <= b -> b <= c -> is_fin (L a) -> is_fin (L c) ->
      is_fin (L b) /\ (c - a) * Lq b <= (c - b) * Lq a + (b - a) * Lq c.
    Proof.
      intros Sa Sb Sc Hab Hbc Fa Fc. unfold L, Lq in *.
      destruct (f a) as [qa|] eqn:Ea; [|contradiction]. destruct (f c) as [qc|] eqn:Ec; [|contradiction].
      destruct (f_convex a b c qa qc Sa Sb Sc Hab Hbc Ea Ec) as (qb & Eb & H). rewrite Eb. simpl. split; [exact I|].
      pose proof (good_convex W G a b c Sa Sb Sc Hab Hbc). lra.
    Qed.

    Lemma mid_fin x : S x -> l <= x -> x <= u -> is_fin (L x).
    Proof. intros Sx H1 H2. apply (L_convex l x u); auto. Qed.

    Lemma min_l x : S x -> is_fin (L x) -> Lq l <= Lq x.
    Proof.
      intros Sx Fx. pose proof (l_min x Sx) as H. rewrite (L_Lq l l_fin), (L_Lq x Fx) in H. exact H.
    Qed.

    Lemma min_u x : S x -> is_fin (L x) -> Lq u - kappa * u <= Lq x - kappa * x.
    Proof.
      intros Sx Fx. pose proof (u_min x Sx) as H. rewrite (L_Lq u u_fin), (L_Lq x Fx) in H. simpl in H. lra.
    Qed.

    (** Right of [l], [L] is non-decreasing; left of [u], [L - kappa x] is non-increasing. *)
    Lemma L_incr x y : S x -> S y -> l <= x -> x <= y -> is_fin (L y) -> is_fin (L x) /\ Lq x <= Lq y.
    Proof.
      intros Sx Sy Hlx Hxy Fy.
      destruct (L_convex l x y Sl Sx Sy Hlx Hxy l_fin Fy) as [Fx H]. split; [exact Fx|].
      destruct (Qlt_le_dec l x) as [Hlt|Hle].
      - pose proof (min_l x Sx Fx).
        assert ((x - l) * Lq x <= (x - l) * Lq y).
        { assert ((y - x) * Lq l <= (y - x) * Lq x).
          { rewrite !(Qmult_comm (y - x)). apply Qmult_le_compat_r; lra. } nra. }
        apply (Qmult_le_l _ _ (x - l)); lra.
      - assert (E : x == l) by lra. rewrite (Lq_proper x l E). apply min_l; auto.
    Qed.

    Lemma L_decr x y : S x -> S y -> x <= y -> y <= u -> is_fin (L x) ->
      is_fin (L y) /\ Lq y - kappa * y <= Lq x - kappa * x.
    Proof.
      intros Sx Sy Hxy Hyu Fx.
      destruct (L_convex x y u Sx Sy Su Hxy Hyu Fx u_fin) as [Fy H]. split; [exact Fy|].
      destruct (Qlt_le_dec y u) as [Hlt|Hle].
      - pose proof (min_u y Sy Fy) as Hu.
        set (Vx := Lq x - kappa * x) in *. set (Vy := Lq y - kappa * y) in *. set (Vu := Lq u - kappa * u) in *.
        assert (HV : (u - x) * Vy <= (u - y) * Vx + (y - x) * Vu) by (unfold Vx, Vy, Vu; lra).
        assert ((y - x) * Vu <= (y - x) * Vy).
        { rewrite !(Qmult_comm (y - x)). apply Qmult_le_compat_r; lra. }
        apply (Qmult_le_l _ _ (u - y)); lra.
      - assert (E : y == u) by lra. rewrite (Lq_proper y u E), E. apply min_u; auto.
    Qed.

    (** The nearest point of [l, u]. *)
    Definition clamp (x : Q) : Q := if Qle_bool x l then l else if Qle_bool x u then x else u.

    Lemma clamp_cases x :
      (x <= l /\ clamp x = l) \/ (l < x /\ x <= u /\ clamp x = x) \/ (u < x /\ clamp x = u).
    Proof.
      unfold clamp. destruct (Qle_bool x l) eqn:E1.
      - left. apply Qle_bool_iff in E1. auto.
      - apply Qle_bool_false in E1. destruct (Qle_bool x u) eqn:E2.
        + right; left. apply Qle_bool_iff in E2. auto.
        + right; right. apply Qle_bool_false in E2. split; [lra|reflexivity].
    Qed.

    Lemma clamp_S x : S x -> S (clamp x).
    Proof. intros H. destruct (clamp_cases x) as [[_ ->]|[(_ & _ & ->)|[_ ->]]]; auto. Qed.

    Lemma clamp_range x : l <= clamp x <= u.
    Proof. destruct (clamp_cases x) as [[? ->]|[(? & ? & ->)|[? ->]]]; lra. Qed.

    (** The next work function. *)
    Definition W' (x : Q) : Q := Lq (clamp x) + kappa * qpos (x - clamp x).

    Lemma clamp_proper x y : x == y -> clamp x == clamp y.
    Proof.
      intros H. destruct (clamp_cases x) as [[? ->]|[(? & ? & ->)|[? ->]]],
        (clamp_cases y) as [[? ->]|[(? & ? & ->)|[? ->]]]; lra.
    Qed.

    Lemma W'_low x : x <= l -> W' x == Lq l.
    Proof.
      intros H. unfold W'. destruct (clamp_cases x) as [[? ->]|[(? & ? & ->)|[? ->]]]; try lra.
      destruct (qpos_cases (x - l)) as [[? ->]|[? ->]]; [|lra]. assert (EE : x == l) by lra. rewrite EE. lra.
    Qed.

    Lemma W'_mid x : l <= x -> x <= u -> W' x == Lq x.
    Proof.
      intros H1 H2. unfold W'. destruct (clamp_cases x) as [[? ->]|[(? & ? & ->)|[? ->]]]; try lra.
      - assert (E : x == l) by lra. pose proof (Lq_proper x l E) as HE.
        assert (HK : kappa * (x - l) == 0) by (rewrite E; ring).
        destruct (qpos_cases (x - l)) as [[? ->]|[? ->]]; lra.
      - destruct (qpos_cases (x - x)) as [[? ->]|[? ->]]; lra.
    Qed.

    Lemma W'_high x : u <= x -> W' x == Lq u + kappa * (x - u).
    Proof.
      intros H1. destruct (Qlt_le_dec u x) as [H2|H2].
      - unfold W'. destruct (clamp_cases x) as [[? ->]|[(? & ? & ->)|[? ->]]]; try lra.
        destruct (qpos_cases (x - u)) as [[? ->]|[? ->]]; lra.
      - assert (E : x == u) by lra. rewrite W'_mid by lra. rewrite (Lq_proper x u E), E. lra.
    Qed.

    Lemma Lq_slopes x y : S x -> S y -> l <= x -> x <= y -> y <= u ->
      Lq x <= Lq y <= Lq x + kappa * (y - x).
    Proof.
      intros Sx Sy H1 H2 H3.
      destruct (L_incr x y) as [_ H]; auto; [apply mid_fin; auto; lra|].
      destruct (L_decr x y) as [_ H']; auto; [apply mid_fin; auto; lra|]. lra.
    Qed.

    Lemma W'_slopes x y : S x -> S y -> x <= y -> W' x <= W' y <= W' x + kappa * (y - x).
    Proof.
      intros Sx Sy Hxy.
      assert (Hk : forall a b, a <= b -> kappa * a <= kappa * b).
      { intros a b H. rewrite !(Qmult_comm kappa). apply Qmult_le_compat_r; auto. }
      destruct (Qlt_le_dec l x) as [Hx|Hx].
      - destruct (Qlt_le_dec u x) as [Hx'|Hx'].
        + rewrite (W'_high x), (W'_high y) by lra. pose proof (Hk x y Hxy). lra.
        + rewrite (W'_mid x) by lra. destruct (Qlt_le_dec u y) as [Hy|Hy].
          * rewrite (W'_high y) by lra. pose proof (Lq_slopes x u Sx Su ltac:(lra) Hx' ltac:(lra)).
            pose proof (Hk u y ltac:(lra)). lra.
          * rewrite (W'_mid y) by lra. apply Lq_slopes; auto; lra.
      - rewrite (W'_low x) by lra. destruct (Qlt_le_dec l y) as [Hy|Hy].
        + destruct (Qlt_le_dec u y) as [Hy'|Hy'].
          * rewrite (W'_high y) by lra. pose proof (Lq_slopes l u Sl Su ltac:(lra) lu ltac:(lra)).
            pose proof (Hk u y ltac:(lra)). pose proof (Hk x l ltac:(lra)). lra.
          * rewrite (W'_mid y) by lra. pose proof (Lq_slopes l y Sl Sy ltac:(lra) ltac:(lra) ltac:(lra)).
            pose proof (Hk x l ltac:(lra)). lra.
        + rewrite (W'_low y) by lra. pose proof (Hk x y Hxy). lra.
    Qed.

    Lemma W'_ge_Ll x : S x -> Lq l <= W' x.
    Proof.
      intros Sx. destruct (Qlt_le_dec x l) as [H|H].
      - rewrite W'_low by lra. lra.
      - rewrite <- (W'_low l) by lra. apply W'_slopes; auto.
    Qed.

    Lemma W'_ge_Lu x : S x -> Lq u - kappa * u <= W' x - kappa * x.
    Proof.
      intros Sx. destruct (Qlt_le_dec u x) as [H|H].
      - rewrite W'_high by lra. lra.
      - assert (E : W' u == Lq u + kappa * (u - u)) by (apply W'_high; lra).
        pose proof (proj2 (W'_slopes x u Sx Su H)). lra.
    Qed.

    Lemma W'_convex a b c : S a -> S b -> S c -> a <= b -> b <= c ->
      (c - a) * W' b <= (c - b) * W' a + (b - a) * W' c.
    Proof.
      intros Sa Sb Sc Hab Hbc.
      assert (Hm : forall k x y, 0 <= k -> x <= y -> k * x <= k * y).
      { intros k x y Hk H. rewrite !(Qmult_comm k). apply Qmult_le_compat_r; auto. }
      destruct (Qlt_le_dec l b) as [Hlb|Hlb].
      2: { rewrite (W'_low b) by lra. pose proof (W'_ge_Ll a Sa). pose proof (W'_ge_Ll c Sc).
           pose proof (Hm (c - b) _ _ ltac:(lra) H). pose proof (Hm (b - a) _ _ ltac:(lra) H0). lra. }
      destruct (Qlt_le_dec b u) as [Hbu|Hbu].
      2: { assert (Eb := W'_high b Hbu). pose proof (W'_ge_Lu a Sa). pose proof (W'_ge_Lu c Sc).
           pose proof (Hm (c - b) _ _ ltac:(lra) H). pose proof (Hm (b - a) _ _ ltac:(lra) H0).
           rewrite Eb. lra. }
      set (A := if Qle_bool a l then l else a). set (E := if Qle_bool c u then c else u).
      assert (HA : S A /\ l <= A /\ a <= A /\ A <= b /\ W' a == Lq A /\ W' A == Lq A).
      { unfold A. destruct (Qle_bool a l) eqn:EA.
        - apply Qle_bool_iff in EA. repeat split; auto; try lra; [apply W'_low; lra|apply W'_mid; lra].
        - apply Qle_bool_false in EA. repeat split; auto; try lra; apply W'_mid; lra. }
      assert (HE : S E /\ E <= u /\ E <= c /\ b <= E /\ W' c == Lq E + kappa * (c - E)).
      { unfold E. destruct (Qle_bool c u) eqn:EE.
        - apply Qle_bool_iff in EE. repeat split; auto; try lra. rewrite W'_mid by lra. lra.
        - apply Qle_bool_false in EE. repeat split; auto; try lra. apply W'_high; lra. }
      destruct HA as (SA & HA1 & HA2 & HA3 & HA4 & HA5). destruct HE as (SE & HE1 & HE2 & HE3 & HE4).
      rewrite HA4, HE4, (W'_mid b) by lra.
      destruct (L_convex A b E SA Sb SE HA3 HE3) as [_ HC].
      { apply mid_fin; auto; lra. }
      { apply mid_fin; auto; lra. }
      pose proof (Lq_slopes A b SA Sb HA1 HA3 ltac:(lra)) as [P1 P2].
      pose proof (Lq_slopes b E Sb SE ltac:(lra) HE3 HE1) as [Q1 Q2].
      set (p := Lq b - Lq A) in *. set (q := Lq E - Lq b) in *.
      assert (I1 : (E - b) * p <= (b - A) * q) by (unfold p, q; lra).
      assert (I2 : (c - E) * p <= (c - E) * (kappa * (b - A))) by (apply Hm; unfold p; lra).
      assert (I3 : (b - A) * (q + kappa * (c - E)) <= (b - a) * (q + kappa * (c - E))).
      { rewrite !(Qmult_comm _ (q + kappa * (c - E))). apply Hm; [|lra].
        assert (0 <= kappa * (c - E)) by (apply Qmult_le_0_compat; lra). unfold q. lra. }
      assert (I4 : (c - b) * p <= (b - a) * (q + kappa * (c - E))) by lra.
      unfold p, q in I4. lra.
    Qed.

    Lemma W'_good : good W'.
    Proof.
      split.
      - intros x y H. unfold W'. pose proof (clamp_proper x y H) as Hc. rewrite (Lq_proper _ _ Hc), Hc, H. reflexivity.
      - intros. apply W'_slopes; auto.
      - intros. apply W'_slopes; auto.
      - apply W'_convex.
    Qed.

    (** [W'] is the least cost of ending in [y] and then moving to [x]. *)
    Lemma W'_least x y : S x -> S y -> ele (Fin (W' x)) (eadd (L y) (Fin (kappa * qpos (x - y)))).
    Proof.
      intros Sx Sy. destruct (f y) as [q|] eqn:Ey.
      2: { unfold L. rewrite Ey. simpl. exact I. }
      assert (Fy : is_fin (L y)) by (unfold L; rewrite Ey; exact I).
      rewrite (L_Lq y Fy). simpl.
      assert (HW : W' y <= Lq y).
      { destruct (Qlt_le_dec y l) as [H|H].
        - rewrite W'_low by lra. apply min_l; auto.
        - destruct (Qlt_le_dec u y) as [H'|H'].
          + rewrite W'_high by lra. pose proof (min_u y Sy Fy). lra.
          + rewrite W'_mid by lra. lra. }
      pose proof (good_lip_pos W' y x W'_good Sy Sx). lra.
    Qed.

    Lemma W'_L x : S x -> ele (Fin (W' x)) (L x).
    Proof.
      intros Sx. pose proof (W'_least x x Sx Sx) as H.
      assert (E : kappa * qpos (x - x) == 0) by (destruct (qpos_cases (x - x)) as [[? ->]|[? ->]]; lra).
      destruct (L x); simpl in *; auto; lra.
    Qed.

    Lemma W'_attained x : S x ->
      S (clamp x) /\ eeq (Fin (W' x)) (eadd (L (clamp x)) (Fin (kappa * qpos (x - clamp x)))).
    Proof.
      intros Sx. split; [apply clamp_S; exact Sx|]. pose proof (clamp_range x) as Hr.
      rewrite (L_Lq (clamp x)) by (apply mid_fin; [apply clamp_S; auto|lra|lra]). reflexivity.
    Qed.

    Lemma f_nonneg_q x q : S x -> f x = Fin q -> 0 <= q.
    Proof. intros Sx E. pose proof (f_nonneg x Sx) as H. rewrite E in H. exact H. Qed.

    Lemma W'_ge_W x : S x -> W x <= W' x.
    Proof.
      intros Sx. unfold W'. set (c := clamp x).
      assert (Sc : S c) by (apply clamp_S; auto).
      assert (HL : W c <= Lq c).
      { pose proof (clamp_range x) as Hr. pose proof (mid_fin c Sc ltac:(unfold c; lra) ltac:(unfold c; lra)) as Fc.
        unfold L in Fc. unfold Lq. destruct (f c) as [q|] eqn:E; [|contradiction]. pose proof (f_nonneg_q c q Sc E). lra. }
      pose proof (good_lip_pos W c x G Sc Sx). lra.
    Qed.

    (** *** One step of the lazy algorithm: [x] moves to [clamp x]. *)
    Definition fq (x : Q) : Q := match f x with Fin q => q | Inf => 0 end.

    Lemma mid_f x : S x -> l <= x -> x <= u -> f x = Fin (fq x) /\ Lq x = fq x + W x /\ 0 <= fq x.
    Proof.
      intros Sx H1 H2. pose proof (mid_fin x Sx H1 H2) as F. unfold L, Lq, fq in *.
      destruct (f x) as [q|] eqn:E; [|contradiction]. repeat split; auto. eapply f_nonneg_q; eauto.
    Qed.

    Variables x up F : Q.
    Hypothesis Sx : S x.
    Hypothesis inv1 : kappa * up + kappa * (m - x) <= W 0 + W m - W x.
    Hypothesis inv2 : F + kappa * x <= W x + kappa * up.

    Let x' := clamp x.
    Let up' := up + qpos (x' - x).
    Let F' := F + fq x'.

    Lemma step_inv1 : kappa * up' + kappa * (m - x') <= W' 0 + W' m - W' x'.
    Proof.
      assert (R0 := S_range 0 S_0). assert (Rl := S_range l Sl). assert (Ru := S_range u Su). assert (Rx := S_range x Sx).
      assert (E0 : W' 0 == Lq l) by (apply W'_low; lra).
      assert (Em : W' m == Lq u + kappa * (m - u)) by (apply W'_high; lra).
      destruct (mid_f l Sl ltac:(lra) lu) as (Fl1 & Fl2 & Fl3). destruct (mid_f u Su lu ltac:(lra)) as (Fu1 & Fu2 & Fu3).
      pose proof (good_mono W G 0 l S_0 Sl ltac:(lra)) as M1.
      unfold x', up'. destruct (clamp_cases x) as [[H1 E]|[(H1 & H2 & E)|[H1 E]]]; unfold x'; rewrite E.
      - (* up *)
        rewrite E0, (W'_low l) by lra.
        pose proof (W'_ge_W m S_m) as H. pose proof (good_mono W G 0 x S_0 Sx ltac:(lra)).
        assert (Hq : qpos (l - x) == l - x) by (destruct (qpos_cases (l - x)) as [[? ->]|[? ->]]; lra).
        rewrite Hq. lra.
      - (* stay *)
        destruct (mid_f x Sx ltac:(lra) H2) as (Fx1 & Fx2 & Fx3).
        rewrite E0, Em, (W'_mid x) by lra. rewrite Fx2, Fl2, Fu2.
        destruct (f_convex l x u (fq l) (fq u) Sl Sx Su ltac:(lra) H2 Fl1 Fu1) as (q & Eq & Hq).
        assert (q = fq x) by congruence. subst q.
        pose proof (good_lip W G u m Su S_m ltac:(lra)).
        assert (Hmax : fq x <= fq l + fq u).
        { apply (Qmult_le_l _ _ (u - l)); [lra|].
          assert (0 <= (x - l) * fq l) by (apply Qmult_le_0_compat; lra).
          assert (0 <= (u - x) * fq u) by (apply Qmult_le_0_compat; lra). lra. }
        assert (Hz : qpos (x - x) == 0) by (destruct (qpos_cases (x - x)) as [[? ->]|[? ->]]; lra).
        rewrite Hz. lra.
      - (* down *)
        rewrite Em. assert (Eu : W' u == Lq u) by (apply W'_mid; lra). rewrite Eu.
        pose proof (good_lip W G x m Sx S_m ltac:(lra)). pose proof (W'_ge_W 0 S_0).
        assert (Hz : qpos (u - x) == 0) by (destruct (qpos_cases (u - x)) as [[? ->]|[? ->]]; lra).
        rewrite Hz. lra.
    Qed.

    Lemma step_inv2 : F' + kappa * x' <= W' x' + kappa * up'.
    Proof.
      assert (Sx' : S x') by (apply clamp_S; exact Sx). pose proof (clamp_range x) as Hr. fold x' in Hr.
      destruct (mid_f x' Sx' ltac:(lra) ltac:(lra)) as (E1 & E2 & E3).
      rewrite (W'_mid x') by lra. rewrite E2. unfold F', up'.
      destruct (Qlt_le_dec x x') as [H|H].
      - pose proof (good_mono W G x x' Sx Sx' ltac:(lra)).
        assert (Hz : qpos (x' - x) == x' - x) by (destruct (qpos_cases (x' - x)) as [[? ->]|[? ->]]; lra).
        rewrite Hz. lra.
      - pose proof (good_lip W G x' x Sx' Sx H).
        assert (Hz : qpos (x' - x) == 0) by (destruct (qpos_cases (x' - x)) as [[? ->]|[? ->]]; lra).
        rewrite Hz. lra.
    Qed.
  End Step.
End Work.
