(** Chains of work functions: optimal prefixes, the lazy algorithm and backward recursion. *)
From Coq Require Import Lia Lqa Setoid Morphisms.
From Verif Require Import NumLemmas ObjectiveSpec CapacityWork.
Local Open Scope Q_scope.

Lemma qpos_flip a : qpos (- a) == qpos a - a.
Proof. destruct (qpos_cases a) as [[? ->]|[? ->]], (qpos_cases (- a)) as [[? ->]|[? ->]]; lra. Qed.

#[global] Instance is_fin_proper : Proper (eeq ==> iff) is_fin.
Proof. intros [x|] [y|] H; simpl in *; tauto. Qed.

Lemma last_snoc {A} (xs : list A) x d : last (xs ++ [x]) d = x.
Proof. induction xs as [|y xs IH]; [reflexivity|]. cbn [app last]. destruct (xs ++ [x]) eqn:E; [|exact IH]. destruct xs; discriminate. Qed.

Lemma last_app {A} (xs ys : list A) d : last (xs ++ ys) d = last ys (last xs d).
Proof.
  induction ys as [|y ys IH] using rev_ind; [rewrite app_nil_r; reflexivity|].
  rewrite app_assoc, !last_snoc. reflexivity.
Qed.

Section Chain.
  Variable S : Q -> Prop.
  Variables (m alpha beta : Q).
  Hypothesis S_proper : forall x y, x == y -> S x -> S y.
  Hypothesis S_range : forall x, S x -> 0 <= x <= m.
  Hypothesis S_m : S m.
  Hypothesis S_0 : S 0.
  Hypothesis alpha_nonneg : 0 <= alpha.
  Hypothesis beta_nonneg : 0 <= beta.

  Variable f : Z -> Q -> ext.
  Hypothesis f_proper : forall t x y, x == y -> eeq (f t x) (f t y).
  Hypothesis f_convex : forall t, (1 <= t)%Z -> convexS S (f t).
  Hypothesis f_nonneg : forall t x, (1 <= t)%Z -> S x -> ele (Fin 0) (f t x).

  Definition kap : Q := alpha * beta.

  Lemma kap_nonneg : 0 <= kap.
  Proof. apply Qmult_le_0_compat; auto. Qed.

  Definition Jf (inv : bool) (t : Z) (prev : Q) (ys : list Q) : ext :=
    total_cost f (sw1 beta inv) alpha t prev ys.
  Definition J (inv : bool) (ys : list Q) : ext := Jf inv 1 0 ys.

  Lemma J_app inv xs ys :
    eeq (J inv (xs ++ ys)) (eadd (J inv xs) (Jf inv (1 + Z.of_nat (length xs)) (last xs 0) ys)).
  Proof. apply total_cost_app. Qed.

  Definition dist (inv : bool) (a b : Q) : Q := qpos (if inv then a - b else b - a).

  Lemma Jf_single inv t prev x : eeq (Jf inv t prev [x]) (eadd (f t x) (Fin (kap * dist inv prev x))).
  Proof.
    unfold Jf. cbn [total_cost]. rewrite eadd_0_r. apply eadd_proper; [reflexivity|].
    simpl. unfold sw1, dist, kap. ring.
  Qed.

  Lemma J_snoc inv ys x :
    eeq (J inv (ys ++ [x]))
        (eadd (J inv ys) (eadd (f (1 + Z.of_nat (length ys)) x) (Fin (kap * dist inv (last ys 0) x)))).
  Proof. rewrite J_app, Jf_single. reflexivity. Qed.

  Lemma dist_flip a b : dist true a b == dist false a b - (b - a).
  Proof.
    unfold dist. transitivity (qpos (- (b - a))); [|apply qpos_flip].
    apply qpos_proper. ring.
  Qed.

  (** Charging for powering down instead of up costs [kap * last] less. *)
  Lemma J_inv ys : eeq (J true ys) (eadd (J false ys) (Fin (- kap * last ys 0))).
  Proof.
    induction ys as [|x ys IH] using rev_ind.
    - unfold J, Jf. simpl. ring.
    - rewrite !J_snoc, IH, last_snoc. rewrite dist_flip.
      destruct (J false ys), (f (1 + Z.of_nat (length ys)) x); simpl; auto. ring.
  Qed.

  (** [x] is the end of an optimal schedule of slots 1..n. *)
  Definition opt_end (inv : bool) (n : nat) (x : Q) : Prop :=
    exists xs, length xs = n /\ Forall S xs /\ last xs 0 == x /\ is_fin (J inv xs) /\
      forall ys, length ys = n -> Forall S ys -> ele (J inv xs) (J inv ys).

  Lemma last_S xs : Forall S xs -> S (last xs 0).
  Proof.
    intros H. destruct xs as [|x xs] using rev_ind; [exact S_0|].
    rewrite last_snoc. apply Forall_app in H. destruct H as [_ H]. inversion H; auto.
  Qed.

  Lemma opt_end_S inv n x : opt_end inv n x -> S x.
  Proof. intros (xs & _ & H & E & _). apply (S_proper _ _ E). apply last_S. exact H. Qed.

  Lemma opt_ends_ordered n l u : opt_end false n l -> opt_end true n u -> 0 < kap -> l <= u.
  Proof.
    intros (xs & Lx & Sx & Ex & Fx & Mx) (zs & Lz & Sz & Ez & Fz & Mz) Hk.
    pose proof (Mx zs Lz Sz) as H1. pose proof (Mz xs Lx Sx) as H2.
    rewrite !J_inv in H2. rewrite J_inv in Fz. rewrite Ez, Ex in H2.
    destruct (J false xs), (J false zs); simpl in *; try contradiction.
    apply (Qmult_le_l _ _ kap); lra.
  Qed.

  Lemma opt_end_flip n l : kap == 0 -> opt_end false n l -> opt_end true n l.
  Proof.
    intros Hk (xs & Lx & Sx & Ex & Fx & Mx). exists xs. repeat split; auto.
    - rewrite J_inv. destruct (J false xs); simpl in *; auto.
    - intros ys Ly Sy. rewrite !J_inv, Hk. pose proof (Mx ys Ly Sy).
      destruct (J false xs), (J false ys); simpl in *; auto. lra.
  Qed.

  (** The upper bound, or the lower one if it is greater (possible only if [kap] is 0). *)
  Definition umax (l u : Q) : Q := if Qle_bool l u then u else l.

  Lemma umax_spec n l u : opt_end false n l -> opt_end true n u -> l <= umax l u /\ opt_end true n (umax l u).
  Proof.
    intros Hl Hu. unfold umax. destruct (Qle_bool l u) eqn:E.
    - apply Qle_bool_iff in E. auto.
    - apply Qle_bool_false in E. split; [lra|]. apply opt_end_flip; [|exact Hl].
      pose proof kap_nonneg. destruct (Qlt_le_dec 0 kap) as [H'|H']; [|lra].
      pose proof (opt_ends_ordered n l u Hl Hu H'). lra.
  Qed.

  Definition work (n : nat) (W : Q -> Q) : Prop :=
    good S kap W /\
    (forall ys, length ys = n -> Forall S ys -> ele (Fin (W (last ys 0))) (J false ys)) /\
    (forall x, S x -> exists ys, length ys = n /\ Forall S ys /\
       eeq (Fin (W x)) (eadd (J false ys) (Fin (kap * dist false (last ys 0) x)))).

  Lemma work_0 : work 0 (fun x => kap * x).
  Proof.
    split; [apply good_0, kap_nonneg|]. split.
    - intros [|] H _; [|discriminate]. unfold J, Jf. simpl. lra.
    - intros x Hx. exists []. repeat split; auto. unfold J, Jf, dist. simpl.
      pose proof (S_range x Hx). assert (E : qpos (x - 0) == x).
      { destruct (qpos_cases (x - 0)) as [[? ->]|[? ->]]; lra. }
      rewrite E. ring.
  Qed.

  Lemma work_unique n W1 W2 x : work n W1 -> work n W2 -> S x -> W1 x == W2 x.
  Proof.
    assert (H : forall W1 W2, work n W1 -> work n W2 -> S x -> W1 x <= W2 x).
    { clear W1 W2. intros W1 W2 (G1 & A1 & B1) (G2 & A2 & B2) Sx.
      destruct (B2 x Sx) as (ys & Ly & Sy & E). pose proof (A1 ys Ly Sy) as H.
      pose proof (good_lip_pos S kap W1 (last ys 0) x G1 (last_S ys Sy) Sx) as H'.
      unfold dist in E. destruct (J false ys); simpl in *; [|contradiction]. lra. }
    intros H1 H2 Sx. apply Qle_antisym; auto.
  Qed.

  Definition slot (n : nat) : Z := 1 + Z.of_nat n.

  Lemma slot_pos n : (1 <= slot n)%Z.
  Proof. unfold slot. lia. Qed.

  (** The least cost of a schedule of slots 1..n+1 ending in [x]. *)
  Lemma ends_above n W ys x : work n W -> length ys = n -> Forall S ys -> S x ->
    ele (L W (f (slot n)) x) (J false (ys ++ [x])).
  Proof.
    intros (G & A & _) Ly Sy Sx. rewrite J_snoc, Ly. fold (slot n).
    pose proof (A ys Ly Sy) as H. pose proof (good_lip_pos S kap W (last ys 0) x G (last_S ys Sy) Sx) as H'.
    unfold L, dist. destruct (J false ys), (f (slot n) x); simpl in *; auto. lra.
  Qed.

  Lemma ends_attained n W x : work n W -> S x ->
    exists ys, length ys = n /\ Forall S ys /\ eeq (L W (f (slot n)) x) (J false (ys ++ [x])).
  Proof.
    intros (G & _ & B) Sx. destruct (B x Sx) as (ys & Ly & Sy & E). exists ys. repeat split; auto.
    rewrite J_snoc, Ly. fold (slot n). unfold L.
    destruct (J false ys), (f (slot n) x); simpl in *; auto; try contradiction. lra.
  Qed.

  Lemma snoc_form {A} (xs : list A) n : length xs = Datatypes.S n -> exists ys y, xs = ys ++ [y] /\ length ys = n.
  Proof.
    intros H. destruct xs as [|y ys _] using rev_ind; [discriminate|].
    exists ys, y. rewrite app_length in H. simpl in H. split; [reflexivity|lia].
  Qed.

  Lemma Lp n W x y : work n W -> x == y -> eeq (L W (f (slot n)) x) (L W (f (slot n)) y).
  Proof. intros (G & _) E. eapply L_proper; eauto. Qed.

  Lemma opt_end_l n W l : work n W -> opt_end false (Datatypes.S n) l ->
    is_fin (L W (f (slot n)) l) /\ forall x, S x -> ele (L W (f (slot n)) l) (L W (f (slot n)) x).
  Proof.
    intros HW (xs & Lx & Sx & Ex & Fx & Mx). destruct (snoc_form xs n Lx) as (ys & y & -> & Ly).
    rewrite last_snoc in Ex. apply Forall_app in Sx. destruct Sx as [Sy Hy]. inversion Hy as [|? ? Hy' _]; subst.
    pose proof (ends_above _ W ys y HW eq_refl Sy Hy') as H. rewrite (Lp _ W y l HW Ex) in H. split.
    - eapply ele_fin; eauto.
    - intros x Sx. destruct (ends_attained _ W x HW Sx) as (zs & Lz & Sz & Ez). rewrite Ez.
      eapply ele_trans; [exact H|]. apply Mx; [rewrite app_length; simpl; lia|].
      apply Forall_app. split; auto.
  Qed.

  Lemma opt_end_u n W u : work n W -> opt_end true (Datatypes.S n) u ->
    is_fin (L W (f (slot n)) u) /\ forall x, S x ->
      ele (eadd (L W (f (slot n)) u) (Fin (- kap * u))) (eadd (L W (f (slot n)) x) (Fin (- kap * x))).
  Proof.
    intros HW (xs & Lx & Sx & Ex & Fx & Mx). destruct (snoc_form xs n Lx) as (ys & y & -> & Ly).
    rewrite last_snoc in Ex. apply Forall_app in Sx. destruct Sx as [Sy Hy]. inversion Hy as [|? ? Hy' _]; subst.
    pose proof (ends_above _ W ys y HW eq_refl Sy Hy') as H. rewrite (Lp _ W y u HW Ex) in H.
    rewrite J_inv, last_snoc in Fx. split.
    - eapply ele_fin; eauto. apply is_fin_eadd in Fx. apply Fx.
    - intros x Sx. destruct (ends_attained _ W x HW Sx) as (zs & Lz & Sz & Ez). rewrite Ez.
      assert (M : ele (J true (ys ++ [y])) (J true (zs ++ [x]))).
      { apply Mx; [rewrite app_length; simpl; lia|]. apply Forall_app; auto. }
      rewrite !J_inv, !last_snoc in M.
      assert (EK : kap * y == kap * u) by (rewrite Ex; reflexivity).
      destruct (L W (f (slot (length ys))) u), (J false (ys ++ [y])), (J false (zs ++ [x])); simpl in *; auto; try contradiction.
      lra.
  Qed.

  Section OneStep.
    Variables (n : nat) (W : Q -> Q) (l u : Q).
    Hypothesis HW : work n W.
    Hypothesis Hl : opt_end false (Datatypes.S n) l.
    Hypothesis Hu : opt_end true (Datatypes.S n) u.
    Hypothesis lu : l <= u.

    Lemma work_step : work (Datatypes.S n) (W' kap W (f (slot n)) l u).
    Proof.
      destruct HW as (G & A & B). pose proof (opt_end_l n W l HW Hl) as [Fl Ml].
      pose proof (opt_end_u n W u HW Hu) as [Fu Mu].
      pose proof (opt_end_S _ _ _ Hl) as Sl. pose proof (opt_end_S _ _ _ Hu) as Su.
      pose proof kap_nonneg as Hk. pose proof (slot_pos n) as Hs.
      split; [|split].
      - apply (W'_good S kap Hk W G (f (slot n)) (f_proper _) (f_convex _ Hs) l u Sl Su lu Fl Fu Ml Mu).
      - intros xs Lx Sx. destruct (snoc_form xs n Lx) as (ys & y & -> & Ly). rewrite last_snoc.
        apply Forall_app in Sx. destruct Sx as [Sy Hy]. inversion Hy as [|? ? Hy' _].
        eapply ele_trans; [|apply (ends_above n W ys y HW Ly Sy Hy')].
        apply (W'_L S kap Hk W G (f (slot n)) (f_proper _) (f_convex _ Hs) l u Sl Su lu Fl Fu Ml Mu). exact Hy'.
      - intros x Sx.
        destruct (W'_attained S kap W G (f (slot n)) (f_convex _ Hs) l u Sl Su lu Fl Fu x Sx) as [Sc E].
        destruct (ends_attained n W (clamp l u x) HW Sc) as (ys & Ly & Sy & E').
        exists (ys ++ [clamp l u x]). repeat split.
        + rewrite app_length; simpl; lia.
        + apply Forall_app; auto.
        + rewrite last_snoc. unfold dist. rewrite <- E'. exact E.
    Qed.
  End OneStep.

  (** *** Runs of the lazy algorithm *)
  Inductive lazy : nat -> list Q -> Prop :=
  | lazy_0 : lazy 0 []
  | lazy_S n xs l u : lazy n xs -> opt_end false (Datatypes.S n) l -> opt_end true (Datatypes.S n) u ->
      lazy (Datatypes.S n) (xs ++ [clamp l (umax l u) (last xs 0)]).

  Lemma lazy_work n xs : lazy n xs ->
    length xs = n /\ Forall S xs /\
    exists W up F, work n W /\ eeq (J false xs) (Fin (F + kap * up)) /\
      kap * up + kap * (m - last xs 0) <= W 0 + W m - W (last xs 0) /\
      F + kap * last xs 0 <= W (last xs 0) + kap * up.
  Proof.
    induction 1 as [|n xs l u H IH Hl Hu].
    - repeat split; auto. exists (fun x => kap * x), 0, 0. split; [apply work_0|].
      unfold J, Jf. simpl. repeat split; lra.
    - destruct IH as (Ln & Sx & W & up & F & HW & E & I1 & I2).
      destruct (umax_spec _ l u Hl Hu) as [lu Hu']. set (u' := umax l u) in *.
      pose proof (opt_end_l n W l HW Hl) as [Fl Ml]. pose proof (opt_end_u n W u' HW Hu') as [Fu Mu].
      pose proof (opt_end_S _ _ _ Hl) as Sl. pose proof (opt_end_S _ _ _ Hu') as Su.
      pose proof kap_nonneg as Hk. pose proof (slot_pos n) as Hs. pose proof (last_S xs Sx) as Sp.
      pose proof (proj1 HW) as G.
      assert (Sc : S (clamp l u' (last xs 0))) by (apply clamp_S; auto).
      split; [rewrite app_length; simpl; lia|]. split; [apply Forall_app; auto|].
      exists (W' kap W (f (slot n)) l u'), (up + qpos (clamp l u' (last xs 0) - last xs 0)),
        (F + fq (f (slot n)) (clamp l u' (last xs 0))).
      split; [apply work_step; auto|]. rewrite last_snoc. split; [|split].
      + rewrite J_snoc, Ln, E. fold (slot n). unfold dist.
        destruct (mid_f S kap W G (f (slot n)) (f_convex _ Hs) (fun x => f_nonneg _ x Hs) l u' Sl Su Fl Fu (clamp l u' (last xs 0)))
          as (E1 & _); auto; try apply (clamp_range l u' lu).
        rewrite E1. simpl. ring.
      + eapply (step_inv1 S m kap S_range); eauto.
      + eapply (step_inv2 S); eauto.
  Qed.

  Theorem lazy_competitive n xs ys : lazy n xs -> length ys = n -> Forall S ys ->
    ele (J false xs) (escale 3 (J false ys)).
  Proof.
    intros H Ly Sy. destruct (lazy_work n xs H) as (Ln & Sx & W & up & F & (G & A & B) & E & I1 & I2).
    pose proof (last_S xs Sx) as Sp. pose proof (last_S ys Sy) as Sq.
    pose proof (A ys Ly Sy) as HA. rewrite E.
    pose proof (S_range _ Sp). pose proof (S_range _ Sq).
    pose proof (good_lip S kap W G (last xs 0) m Sp S_m ltac:(lra)).
    pose proof (good_lip S kap W G 0 (last xs 0) S_0 Sp ltac:(lra)).
    pose proof (good_mono S kap W G 0 (last ys 0) S_0 Sq ltac:(lra)).
    destruct (J false ys); simpl in *; auto. lra.
  Qed.

  (** *** Backward recursion: [x] is the configuration after slot [n]. *)
  Inductive back : nat -> Q -> list Q -> Prop :=
  | back_0 x : back 0 x []
  | back_S n x xs l u : opt_end false (Datatypes.S n) l -> opt_end true (Datatypes.S n) u ->
      back n (clamp l (umax l u) x) xs -> back (Datatypes.S n) x (xs ++ [clamp l (umax l u) x]).

  Lemma back_work n x xs : back n x xs -> S x ->
    length xs = n /\ Forall S xs /\
    exists W, work n W /\ eeq (Fin (W x)) (eadd (J false xs) (Fin (kap * dist false (last xs 0) x))).
  Proof.
    induction 1 as [x|n x xs l u Hl Hu H IH]; intros Sx.
    - split; [reflexivity|]. split; [constructor|]. exists (fun x => kap * x). split; [apply work_0|].
      unfold J, Jf, dist. simpl.
      pose proof (S_range x Sx). assert (E : qpos (x - 0) == x).
      { destruct (qpos_cases (x - 0)) as [[? ->]|[? ->]]; lra. }
      rewrite E. ring.
    - destruct (umax_spec _ l u Hl Hu) as [lu Hu']. set (u' := umax l u) in *.
      pose proof (opt_end_S _ _ _ Hl) as Sl. pose proof (opt_end_S _ _ _ Hu') as Su.
      assert (Sc : S (clamp l u' x)) by (apply clamp_S; auto).
      destruct (IH Sc) as (Ln & Sxs & W & HW & E).
      pose proof (opt_end_l n W l HW Hl) as [Fl Ml]. pose proof (opt_end_u n W u' HW Hu') as [Fu Mu].
      pose proof kap_nonneg as Hk. pose proof (slot_pos n) as Hs. pose proof (proj1 HW) as G.
      split; [rewrite app_length; simpl; lia|]. split; [apply Forall_app; auto|].
      exists (W' kap W (f (slot n)) l u'). split; [apply work_step; auto|].
      destruct (W'_attained S kap W G (f (slot n)) (f_convex _ Hs) l u' Sl Su lu Fl Fu x Sx) as [_ E'].
      rewrite E', last_snoc, J_snoc, Ln. fold (slot n). unfold L. unfold dist at 2.
      destruct (J false xs), (f (slot n) (clamp l u' x)); simpl in *; auto; try contradiction. rewrite E. ring.
  Qed.

  Theorem back_optimal n xs ys : back n 0 xs -> length ys = n -> Forall S ys ->
    ele (J false xs) (J false ys).
  Proof.
    intros H Ly Sy. destruct (back_work n 0 xs H S_0) as (Ln & Sx & W & (G & A & B) & E).
    pose proof (last_S xs Sx) as Sp. pose proof (last_S ys Sy) as Sq.
    pose proof (A ys Ly Sy) as HA. pose proof (S_range _ Sp). pose proof (S_range _ Sq).
    pose proof (good_mono S kap W G 0 (last ys 0) S_0 Sq ltac:(lra)).
    assert (Ed : dist false (last xs 0) 0 == 0).
    { unfold dist. destruct (qpos_cases (0 - last xs 0)) as [[? ->]|[? ->]]; lra. }
    rewrite Ed in E. destruct (J false xs), (J false ys); simpl in *; auto; try contradiction. lra.
  Qed.

  (** *** Restarting at a slot where both bounds coincide *)
  Lemma dist_triangle inv a b c : dist inv a c <= dist inv a b + dist inv b c.
  Proof.
    unfold dist. destruct inv;
      repeat match goal with |- context [qpos ?e] => destruct (qpos_cases e) as [[? ->]|[? ->]] end; lra.
  Qed.

  Lemma Jf_start inv t a b ys : ele (Jf inv t a ys) (eadd (Jf inv t b ys) (Fin (kap * dist inv a b))).
  Proof.
    pose proof kap_nonneg as Hk. destruct ys as [|y ys].
    - unfold Jf. simpl. assert (0 <= dist inv a b) by apply qpos_nonneg.
      assert (0 <= kap * dist inv a b) by (apply Qmult_le_0_compat; auto). lra.
    - unfold Jf. cbn [total_cost].
      assert (H : kap * dist inv a y <= kap * dist inv a b + kap * dist inv b y).
      { rewrite <- Qmult_plus_distr_r, !(Qmult_comm kap). apply Qmult_le_compat_r; [apply dist_triangle|exact Hk]. }
      assert (E : forall c, alpha * sw1 beta inv c y == kap * dist inv c y) by (intros; unfold sw1, dist, kap; ring).
      pose proof (E a). pose proof (E b).
      destruct (f t y), (total_cost f (sw1 beta inv) alpha (t + 1) y ys); simpl; auto. lra.
  Qed.

  Lemma Jf_prev inv t a b ys : a == b -> eeq (Jf inv t a ys) (Jf inv t b ys).
  Proof.
    intros E. destruct ys; [reflexivity|]. unfold Jf. cbn [total_cost].
    apply eadd_proper; [|reflexivity]. apply eadd_proper; [reflexivity|]. simpl.
    unfold sw1. destruct inv; rewrite E; reflexivity.
  Qed.

  Lemma stable_point inv s c ws : opt_end false s c -> opt_end true s c ->
    length ws = s -> Forall S ws ->
    exists zs, length zs = s /\ Forall S zs /\ last zs 0 == c /\ is_fin (J inv zs) /\
      ele (eadd (J inv zs) (Fin (kap * dist inv c (last ws 0)))) (J inv ws).
  Proof.
    intros (zl & Ll & Sl & El & Fl & Ml) (zu & Lu & Su & Eu & Fu & Mu) Lw Sw.
    pose proof (Ml ws Lw Sw) as H1. pose proof (Mu ws Lw Sw) as H2.
    pose proof (Ml zu Lu Su) as H3. pose proof (Mu zl Ll Sl) as H4.
    assert (H2' := H2). assert (H4' := H4). rewrite !J_inv in H2', H4'. rewrite El, Eu in H4'. rewrite Eu in H2'.
    pose proof kap_nonneg as Hk.
    destruct inv.
    - exists zu. repeat split; auto. rewrite !J_inv, Eu. unfold dist.
      destruct (qpos_cases (c - last ws 0)) as [[? ->]|[? ->]];
        destruct (J false zl), (J false zu), (J false ws); simpl in *; auto; try contradiction; lra.
    - exists zl. repeat split; auto. unfold dist. rewrite J_inv in Fu.
      destruct (qpos_cases (last ws 0 - c)) as [[? ->]|[? ->]];
        destruct (J false zl), (J false zu), (J false ws); simpl in *; auto; try contradiction; lra.
  Qed.

  (** Optimal continuations from the stable configuration are optimal overall. *)
  Theorem restart_optimal inv s n c ys : opt_end false s c -> opt_end true s c ->
    length ys = n -> Forall S ys -> is_fin (Jf inv (slot s) c ys) ->
    (forall zs, length zs = n -> Forall S zs -> ele (Jf inv (slot s) c ys) (Jf inv (slot s) c zs)) ->
    opt_end inv (s + n) (last ys c).
  Proof.
    intros Hl Hu Ly Sy Fy My.
    assert (Hopt : exists zs, length zs = s /\ Forall S zs /\ last zs 0 == c /\ is_fin (J inv zs) /\
      forall ws, length ws = s -> Forall S ws -> ele (J inv zs) (J inv ws)).
    { destruct inv; [exact Hu|exact Hl]. }
    destruct Hopt as (zs & Lz & Sz & Ez & Fz & Mz).
    exists (zs ++ ys). split; [rewrite app_length; lia|]. split; [apply Forall_app; auto|].
    split. { rewrite last_app. destruct ys using rev_ind; [exact Ez|rewrite !last_snoc; reflexivity]. }
    assert (EJ : eeq (J inv (zs ++ ys)) (eadd (J inv zs) (Jf inv (slot s) c ys))).
    { rewrite J_app, Lz. fold (slot s). rewrite (Jf_prev inv (slot s) _ _ ys Ez). reflexivity. }
    split. { rewrite EJ. apply is_fin_eadd. auto. }
    intros ws Lw Sw.
    rewrite <- (firstn_skipn s ws) in Sw |- *.
    assert (L1 : length (firstn s ws) = s) by (rewrite firstn_length; lia).
    assert (L2 : length (skipn s ws) = n) by (rewrite skipn_length; lia).
    set (w1 := firstn s ws) in *. set (w2 := skipn s ws) in *. apply Forall_app in Sw. destruct Sw as [S1 S2].
    rewrite EJ, J_app, L1. fold (slot s).
    destruct (stable_point inv s c w1 Hl Hu L1 S1) as (zs' & Lz' & Sz' & Ez' & Fz' & Mz').
    pose proof (Mz zs' Lz' Sz') as HA. pose proof (My w2 L2 S2) as HB.
    pose proof (Jf_start inv (slot s) c (last w1 0) w2) as HC.
    destruct (J inv zs), (J inv zs'), (J inv w1), (Jf inv (slot s) c ys), (Jf inv (slot s) c w2),
      (Jf inv (slot s) (last w1 0) w2); simpl in *; auto; try contradiction. lra.
  Qed.

  Lemma opt_end_0 inv : opt_end inv 0 0.
  Proof.
    exists []. split; [reflexivity|]. split; [constructor|]. split; [reflexivity|]. split.
    - unfold J, Jf. simpl. exact I.
    - intros [|] H _; [|discriminate]. apply ele_refl.
  Qed.
End Chain.
