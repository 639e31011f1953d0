(** Separable convex instances are unimodal in the sense needed by the static solver. *)
From Coq Require Import Lia Lqa Setoid.
From Verif Require Import NumLemmas StaticModel StaticSpec StaticProofs.
From Verif Require Import ProblemModel.
Local Open Scope Z_scope.

Fixpoint slots (n : nat) (t : Z) (h : Z -> ext) : ext :=
  match n with O => Fin 0 | S n' => eadd (h t) (slots n' (t + 1) h) end.

Lemma eadd_swap a b c d : eeq (eadd (eadd a b) (eadd c d)) (eadd (eadd a c) (eadd b d)).
Proof. destruct a, b, c, d; simpl; auto; ring. Qed.

Lemma separable_ext g g' : (forall k j, eeq (g k j) (g' k j)) -> forall x k,
  eeq (separable_sum g k x) (separable_sum g' k x).
Proof.
  intros H x. induction x as [|j x IH]; intros k; cbn [separable_sum]; [reflexivity|]. apply eadd_proper; auto.
Qed.

Lemma separable_add g g' : forall x k,
  eeq (separable_sum (fun k j => eadd (g k j) (g' k j)) k x) (eadd (separable_sum g k x) (separable_sum g' k x)).
Proof.
  induction x as [|j x IH]; intros k; cbn [separable_sum]; [simpl; ring|]. rewrite IH. apply eadd_swap.
Qed.

Lemma separable_zero : forall x k, eeq (separable_sum (fun _ _ => Fin 0) k x) (Fin 0).
Proof. induction x as [|j x IH]; intros k; cbn [separable_sum]; [reflexivity|]. rewrite IH. simpl. ring. Qed.

Lemma skipn_nth (beta : list Q) k : skipn k beta = [] \/ skipn k beta = nth k beta 0%Q :: skipn (S k) beta.
Proof.
  revert beta. induction k as [|k IH]; intros [|b beta]; try (simpl; auto; fail). exact (IH beta).
Qed.

Lemma manhattan_separable beta : forall x k,
  eeq (separable_sum (fun k j => Fin (nth k beta 0%Q * inject_Z (Z.abs j))) k x) (Fin (manhattan (skipn k beta) x)).
Proof.
  induction x as [|j x IH]; intros k; cbn [separable_sum].
  - destruct (skipn k beta); reflexivity.
  - rewrite IH. destruct (skipn_nth beta k) as [E|E].
    + assert (HL : (length beta <= k)%nat).
      { assert (length (skipn k beta) = 0%nat) by (rewrite E; reflexivity). rewrite skipn_length in H. lia. }
      rewrite E. rewrite nth_overflow by exact HL. rewrite (skipn_all2 beta) by lia. simpl.
      destruct x; simpl; ring.
    + rewrite E. reflexivity.
Qed.

Lemma manhattan_self : forall x beta, (manhattan beta (difference x x) == 0)%Q.
Proof.
  unfold difference. induction x as [|j x IH]; intros [|b beta]; simpl; try reflexivity.
  rewrite IH, Z.sub_diag. simpl. ring.
Qed.

Lemma difference_zero : forall x, difference x (repeat 0 (length x)) = x.
Proof.
  unfold difference. induction x as [|j x IH]; simpl; [reflexivity|]. rewrite IH. f_equal. lia.
Qed.

Section Sep.
  Variable h : Z -> nat -> Z -> ext.
  Variable beta : list Q.
  Let sw := fun prev x => manhattan beta (difference x prev).

  Lemma total_same : forall n t x,
    eeq (total_cost (fun t => separable_sum (h t) 0) sw 1 t x (repeat x n))
        (separable_sum (fun k j => slots n t (fun s => h s k j)) 0 x).
  Proof.
    induction n as [|n IH]; intros t x; cbn [repeat total_cost slots].
    - rewrite separable_zero. reflexivity.
    - rewrite IH. rewrite separable_add. apply eadd_proper; [|reflexivity].
      unfold sw. rewrite (eadd_proper _ _ (eeq_refl _) _ (Fin 0)).
      + apply eadd_0_r.
      + simpl. rewrite manhattan_self. ring.
  Qed.

  Definition per_dim (n : nat) (k : nat) (j : Z) : ext :=
    eadd (slots n 1 (fun s => h s k j))
         (Fin (match n with O => 0 | _ => nth k beta 0%Q * inject_Z (Z.abs j) end)).

  Lemma static_total_separable d T x : length x = Z.to_nat d ->
    eeq (static_total (fun t => separable_sum (h t) 0) (manhattan beta) 1 d T x)
        (separable_sum (per_dim (Z.to_nat T)) 0 x).
  Proof.
    intros HL. unfold static_total, per_dim. rewrite separable_add.
    destruct (Z.to_nat T) as [|n]; cbn [repeat total_cost].
    - rewrite !separable_zero. simpl. ring.
    - rewrite manhattan_separable. fold sw. rewrite total_same. cbn [skipn slots]. rewrite separable_add.
      rewrite <- HL, difference_zero.
      destruct (separable_sum (h 1) 0 x), (separable_sum (fun k j => slots n (1 + 1) (fun s => h s k j)) 0 x); simpl; auto.
      ring.
  Qed.

  Lemma slots_convex lo hi (g : Z -> Z -> ext) : forall n t,
    (forall s, t <= s < t + Z.of_nat n -> convex_between lo hi (g s)) ->
    convex_between lo hi (fun j => slots n t (fun s => g s j)).
  Proof.
    induction n as [|n IH]; intros t Hc a b c qa qc Hab Hbc Ha Hcc; simpl in *.
    - exists 0%Q. split; [reflexivity|]. assert (qa = 0%Q) by congruence. assert (qc = 0%Q) by congruence. subst. lra.
    - apply eadd_fin in Ha. destruct Ha as (a1 & a2 & Ha1 & Ha2 & ->).
      apply eadd_fin in Hcc. destruct Hcc as (c1 & c2 & Hc1 & Hc2 & ->).
      destruct (Hc t ltac:(lia) a b c a1 c1 Hab Hbc Ha1 Hc1) as (b1 & Hb1 & Hl1).
      destruct (IH (t + 1) ltac:(intros; apply Hc; lia) a b c a2 c2 Hab Hbc Ha2 Hc2) as (b2 & Hb2 & Hl2).
      rewrite Hb1, Hb2. exists (b1 + b2)%Q. split; [reflexivity|]. lra.
  Qed.

  Lemma abs_convex a b c : a <= b <= c ->
    (inject_Z (c - a) * inject_Z (Z.abs b) <= inject_Z (c - b) * inject_Z (Z.abs a) + inject_Z (b - a) * inject_Z (Z.abs c))%Q.
  Proof.
    intros H. rewrite <- !inject_Z_mult, <- inject_Z_plus, <- Zle_Qle. nia.
  Qed.

  Lemma per_dim_convex lo hi n k :
    (0 <= nth k beta 0%Q)%Q ->
    (forall s, 1 <= s <= Z.of_nat n -> convex_between lo hi (h s k)) ->
    convex_between lo hi (per_dim n k).
  Proof.
    intros Hb Hc a b c qa qc Hab Hbc Ha Hcc. unfold per_dim in *.
    apply eadd_fin in Ha. destruct Ha as (a1 & a2 & Ha1 & Ha2 & ->).
    apply eadd_fin in Hcc. destruct Hcc as (c1 & c2 & Hc1 & Hc2 & ->).
    destruct (slots_convex lo hi (fun s => h s k) n 1) with (a := a) (b := b) (c := c) (qa := a1) (qc := c1)
      as (b1 & Hb1 & Hl1); auto.
    { intros s Hs. apply Hc. lia. }
    rewrite Hb1. eexists. split; [reflexivity|].
    injection Ha2 as <-. injection Hc2 as <-.
    destruct n.
    - lra.
    - pose proof (abs_convex a b c ltac:(lia)) as HA.
      set (w := nth k beta 0%Q) in *.
      set (A := inject_Z (Z.abs a)) in *. set (B := inject_Z (Z.abs b)) in *. set (E := inject_Z (Z.abs c)) in *.
      set (u := inject_Z (c - a)) in *. set (v := inject_Z (c - b)) in *. set (z := inject_Z (b - a)) in *.
      assert (0 <= w * (v * A + z * E - u * B))%Q by (apply Qmult_le_0_compat; lra). nra.
  Qed.
End Sep.

Lemma convex_quasi lo hi g a b c : convex_between lo hi g -> lo <= a <= b -> b <= c <= hi ->
  ele (g b) (emax (g a) (g c)).
Proof.
  intros Hc Hab Hbc. destruct (g a) as [qa|] eqn:Ea.
  2: { destruct (emax_cases Inf (g c)) as [[-> _]|[-> H]]; [apply ele_Inf|].
       destruct (g c); simpl in H; [contradiction|apply ele_Inf]. }
  destruct (g c) as [qc|] eqn:Ec.
  2: { destruct (emax_cases (Fin qa) Inf) as [[_ H]|[-> _]]; [simpl in H; contradiction|apply ele_Inf]. }
  destruct (Hc a b c qa qc Hab Hbc Ea Ec) as (qb & Eb & H). rewrite Eb.
  assert (G : (qb <= qa)%Q \/ (qb <= qc)%Q).
  { destruct (Qlt_le_dec qa qb) as [H1|H1]; [|left; exact H1]. right.
    destruct (Qlt_le_dec qc qb) as [H2|H2]; [|exact H2]. exfalso.
    assert (H3 : (0 <= inject_Z (c - b))%Q) by (change 0%Q with (inject_Z 0); rewrite <- Zle_Qle; lia).
    assert (H4 : (0 <= inject_Z (b - a))%Q) by (change 0%Q with (inject_Z 0); rewrite <- Zle_Qle; lia).
    assert (H5 : (inject_Z (c - a) == inject_Z (c - b) + inject_Z (b - a))%Q).
    { rewrite <- inject_Z_plus. replace (c - b + (b - a)) with (c - a) by lia. reflexivity. }
    destruct (Z.eq_dec a b) as [->|Hne].
    - assert (qa == qb)%Q; [|lra]. assert (Fin qa = Fin qb) by congruence. assert (qa = qb) by congruence. subst. reflexivity.
    - assert (H6 : (0 < inject_Z (b - a))%Q) by (change 0%Q with (inject_Z 0); rewrite <- Zlt_Qlt; lia).
      assert (0 <= inject_Z (c - b) * (qb - qa))%Q by (apply Qmult_le_0_compat; lra).
      assert (0 < inject_Z (b - a) * (qb - qc))%Q by (apply Qmult_lt_0_compat; lra). nra. }
  destruct (emax_cases (Fin qa) (Fin qc)) as [[-> H0]|[-> H0]]; simpl in *; lra.
Qed.

Lemma separable_app g : forall pre k x,
  eeq (separable_sum g k (pre ++ x)) (eadd (separable_sum g k pre) (separable_sum g (k + length pre) x)).
Proof.
  induction pre as [|j pre IH]; intros k x; cbn [app separable_sum length].
  - rewrite Nat.add_0_r. rewrite eadd_0_l. reflexivity.
  - rewrite IH. replace (k + S (length pre))%nat with (S k + length pre)%nat by lia. apply eadd_assoc.
Qed.

Lemma separable_nested bounds (J : list Z -> ext) g :
  (forall x, in_range bounds x -> eeq (J x) (separable_sum g 0 x)) ->
  (forall k b, nth_error bounds k = Some b -> convex_between (fst b) (snd b) (g k)) ->
  nested_unimodal bounds J.
Proof.
  intros HJ Hc prefix a b c r s Habc Ha Hcc.
  assert (HR : exists b1 lo hi b2, bounds = b1 ++ (lo, hi) :: b2 /\ length b1 = length prefix).
  { pose proof (in_range_length _ _ Ha) as HL. rewrite app_length in HL. simpl in HL.
    destruct (nth_error bounds (length prefix)) as [[lo hi]|] eqn:E.
    - apply nth_error_split in E. destruct E as (b1 & b2 & E1 & E2). exists b1, lo, hi, b2. auto.
    - apply nth_error_None in E. lia. }
  destruct HR as (b1 & lo & hi & b2 & EB & HLb).
  assert (Hr1 : forall j s, in_range bounds (prefix ++ j :: s) <->
                    in_range b1 prefix /\ lo <= j <= hi /\ in_range b2 s).
  { intros j s'. rewrite EB. rewrite in_range_app by congruence. unfold in_range at 2. split.
    - intros [H1 H2]. inversion H2; subst. tauto.
    - intros (H1 & H2 & H3). split; [exact H1|]. constructor; [exact H2|exact H3]. }
  assert (Hconv : convex_between lo hi (g (length prefix))).
  { apply (Hc (length prefix) (lo, hi)). rewrite EB, <- HLb. rewrite nth_error_app2 by lia.
    rewrite Nat.sub_diag. reflexivity. }
  assert (Ha' := proj1 (Hr1 _ _) Ha). assert (Hc' := proj1 (Hr1 _ _) Hcc).
  set (S := separable_sum g (Datatypes.S (length prefix))).
  assert (HE : forall j q, in_range bounds (prefix ++ j :: q) ->
    eeq (J (prefix ++ j :: q)) (eadd (separable_sum g 0 prefix) (eadd (g (length prefix) j) (S q)))).
  { intros j q Hq. rewrite HJ by exact Hq. rewrite separable_app. reflexivity. }
  pose proof (convex_quasi lo hi (g (length prefix)) a b c Hconv ltac:(lia) ltac:(lia)) as HQ.
  assert (HX : exists q, in_range b2 q /\ ele (S q) (S r) /\ ele (S q) (S s)).
  { destruct (ele_total (S r) (S s)) as [H|H]; [exists r|exists s]; repeat split; try tauto; apply ele_refl. }
  destruct HX as (q & Hq & Hqr & Hqs).
  exists q. assert (Hin : in_range bounds (prefix ++ b :: q)) by (apply Hr1; split; [tauto|split; [lia|exact Hq]]).
  split; [exact Hin|]. rewrite (HE b q Hin).
  assert (G : forall j w, ele (g (length prefix) b) (g (length prefix) j) -> ele (S q) (S w) ->
    in_range bounds (prefix ++ j :: w) ->
    ele (eadd (separable_sum g 0 prefix) (eadd (g (length prefix) b) (S q))) (J (prefix ++ j :: w))).
  { intros j w H1 H2 H3. rewrite (HE j w H3). apply eadd_mono; [apply ele_refl|]. apply eadd_mono; assumption. }
  destruct (emax_cases (g (length prefix) a) (g (length prefix) c)) as [[Em _]|[Em _]]; rewrite Em in HQ.
  - eapply ele_trans; [apply (G a r HQ Hqr Ha)|].
    destruct (emax_cases (J (prefix ++ a :: r)) (J (prefix ++ c :: s))) as [[-> H]|[-> H]]; [apply ele_refl|exact H].
  - eapply ele_trans; [apply (G c s HQ Hqs Hcc)|].
    destruct (emax_cases (J (prefix ++ a :: r)) (J (prefix ++ c :: s))) as [[-> H]|[-> H]]; [exact H|apply ele_refl].
Qed.

Lemma static_separable {C D : Type} (vmerge : C -> C -> outcome C) (merge : C -> C -> C) (outside : D)
    (sched : list Z -> split) (p : gsco Z C D) (h : Z -> nat -> Z -> ext) (beta : list Q) (alpha : Q) (l : option Q) :
  well_formed p ->
  has_costs vmerge p (fun t => separable_sum (h t) 0) (manhattan beta) ->
  Forall (fun b => 0 <= b)%Q beta ->
  (forall t k b, 1 <= t <= o_tend p -> nth_error (o_bounds p) k = Some b -> convex_between (fst b) (snd b) (h t k)) ->
  (l = None \/ exists q, l = Some q /\ (q == 0)%Q) ->
  let J := static_total (fun t => separable_sum (h t) 0) (manhattan beta) 1 (o_d p) (o_tend p) in
  (exists y, in_range (o_bounds p) y /\ is_fin (J y)) ->
  exists x, static_integral vmerge merge outside sched p false alpha l = Ok (repeat x (Z.to_nat (o_tend p))) /\
    in_range (o_bounds p) x /\ forall y, in_range (o_bounds p) y -> ele (J x) (J y).
Proof.
  intros Hwf Hcosts Hbeta Hconv Hl J Hfin.
  apply (static_integral_spec vmerge merge outside sched p _ _ Hwf Hcosts); auto.
  apply separable_nested with (g := per_dim h beta (Z.to_nat (o_tend p))).
  - intros x Hx. apply static_total_separable. destruct Hwf as (_ & _ & H & _).
    apply in_range_length in Hx. congruence.
  - intros k b Hk. apply per_dim_convex.
    + destruct (Nat.lt_ge_cases k (length beta)) as [H|H].
      * rewrite Forall_forall in Hbeta. apply Hbeta, nth_In, H.
      * rewrite nth_overflow by exact H. lra.
    + intros s Hs. apply (Hconv s k b); auto. destruct Hwf as (_ & H & _). lia.
Qed.

Lemma static_unsupported {C D : Type} (vmerge : C -> C -> outcome C) (merge : C -> C -> C) (outside : D)
    (sched : list Z -> split) (p : gsco Z C D) (alpha : Q) :
  (forall l, static_integral vmerge merge outside sched p true alpha l = Err UnsupportedInvertedCost) /\
  (forall q, ~ (q == 0)%Q ->
     static_integral vmerge merge outside sched p false alpha (Some q) = Err UnsupportedLConstrainedMovement).
Proof.
  split; [reflexivity|]. intros q Hq. unfold static_integral.
  destruct (Qeq_bool q 0) eqn:E; [apply Qeq_bool_iff in E; contradiction|]. reflexivity.
Qed.
