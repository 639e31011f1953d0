(** The objective function in floating-point arithmetic. *)
From Verif Require Import NumLemmas FloatModel FloatSpec ObjectiveProofs.
From Coq Require Import Lqa Qpower Lia.
Local Open Scope Q_scope.

(** Powers with natural exponents. *)
Fixpoint pw (q : Q) (n : nat) : Q := match n with O => 1 | S m => q * pw q m end.

Lemma pw_Qpower q n : pw q n == Qpower q (Z.of_nat n).
Proof.
  induction n as [|n IH]; [reflexivity|]. cbn [pw]. rewrite IH.
  rewrite Nat2Z.inj_succ. unfold Z.succ. destruct (Z.eq_dec (Z.of_nat n) 0) as [E|E].
  - rewrite E. cbn. ring.
  - rewrite Qpower_plus' by lia. cbn [Qpower]. change (Qpower_positive q 1) with q. ring.
Qed.

Lemma pw_nonneg q n : 0 <= q -> 0 <= pw q n.
Proof. intros H. induction n as [|n IH]; cbn [pw]; [lra|]. apply Qmult_le_0_compat; auto. Qed.

Lemma pw_up q n m : 1 <= q -> (n <= m)%nat -> pw q n <= pw q m.
Proof.
  intros Hq H. induction H as [|m H IH]; [lra|]. cbn [pw].
  assert (0 <= pw q m) by (apply pw_nonneg; lra). nra.
Qed.

Lemma pw_down q n m : 0 <= q -> q <= 1 -> (n <= m)%nat -> pw q m <= pw q n.
Proof.
  intros Hq Hq1 H. induction H as [|m H IH]; [lra|]. cbn [pw].
  assert (0 <= pw q m) by (apply pw_nonneg; lra). nra.
Qed.

Lemma pw_one q : pw q 1 == q.
Proof. cbn [pw]. ring. Qed.

Section Rounded.
  Variable rnd : Q -> Q.
  Variable F : Q -> Prop.
  Variables u small : Q.
  Hypothesis R : rounds rnd F u small.

  Let u0 : 0 <= u := proj1 (r_unit _ _ _ _ R).
  Let u1 : u < 1 := proj2 (r_unit _ _ _ _ R).

  (** [c'] is a computed number close to [c]. *)
  Definition near (n : nat) (c c' : Q) : Prop :=
    0 <= c /\ F c' /\ pw (1 - u) n * c <= c' /\ c' <= pw (1 + u) n * c.

  Lemma near_mono n m c c' : (n <= m)%nat -> near n c c' -> near m c c'.
  Proof.
    intros H (H0 & HF & H1 & H2). split; auto. split; auto.
    assert (A := pw_down (1 - u) n m ltac:(lra) ltac:(lra) H).
    assert (B := pw_up (1 + u) n m ltac:(lra) H).
    split.
    - apply Qle_trans with (pw (1 - u) n * c); auto. apply Qmult_le_compat_r; auto.
    - apply Qle_trans with (pw (1 + u) n * c); auto. apply Qmult_le_compat_r; auto.
  Qed.

  Lemma near_exact n c c' : F c' -> c == c' -> near n c c'.
  Proof.
    intros HF E. apply (near_mono 0); [lia|].
    assert (0 <= c') by (apply (r_nonneg _ _ _ _ R); auto).
    split; [lra|]. split; auto. cbn [pw]. lra.
  Qed.

  Lemma near_compat n c d c' : c == d -> near n c c' -> near n d c'.
  Proof. intros E (H0 & HF & H1 & H2). unfold near. rewrite <- E. auto. Qed.

  Lemma near_zero n c' : near n 0 c' -> c' == 0.
  Proof. intros (_ & HF & H1 & H2). rewrite Qmult_0_r in *. lra. Qed.

  Lemma rnd_compat x y : 0 <= x -> x == y -> rnd x == rnd y.
  Proof.
    intros H E. assert (A := r_mono _ _ _ _ R x y H ltac:(lra)).
    assert (B := r_mono _ _ _ _ R y x ltac:(lra) ltac:(lra)). lra.
  Qed.

  Lemma near_add n a a' b b' : near n a a' -> near n b b' -> near (S n) (a + b) (rnd (a' + b')).
  Proof.
    intros (A0 & AF & A1 & A2) (B0 & BF & B1 & B2).
    assert (A' := r_nonneg _ _ _ _ R a' AF). assert (B' := r_nonneg _ _ _ _ R b' BF).
    destruct (r_sum _ _ _ _ R a' b' AF BF) as [S1 S2].
    assert (P1 := pw_nonneg (1 - u) n ltac:(lra)). assert (P2 := pw_nonneg (1 + u) n ltac:(lra)).
    split; [lra|]. split; [apply (r_in _ _ _ _ R); lra|]. cbn [pw]. split.
    - apply Qle_trans with ((1 - u) * (a' + b')); auto.
      rewrite <- Qmult_assoc. rewrite !(Qmult_comm (1 - u)). apply Qmult_le_compat_r; lra.
    - apply Qle_trans with ((1 + u) * (a' + b')); auto.
      rewrite <- Qmult_assoc. rewrite !(Qmult_comm (1 + u)). apply Qmult_le_compat_r; lra.
  Qed.

  Lemma near_add_zero_r n a a' b' : near n a a' -> b' == 0 -> near n a (rnd (a' + b')).
  Proof.
    intros (A0 & AF & A1 & A2) E. assert (A' := r_nonneg _ _ _ _ R a' AF).
    assert (Er : rnd (a' + b') == a').
    { rewrite (rnd_compat (a' + b') a') by lra. apply (r_keeps _ _ _ _ R). auto. }
    split; auto. split; [apply (r_in _ _ _ _ R); lra|]. rewrite Er. auto.
  Qed.

  Lemma near_add_zero_l n a' b b' : near n b b' -> a' == 0 -> near n b (rnd (a' + b')).
  Proof.
    intros (A0 & AF & A1 & A2) E. assert (A' := r_nonneg _ _ _ _ R b' AF).
    assert (Er : rnd (a' + b') == b').
    { rewrite (rnd_compat (a' + b') b') by lra. apply (r_keeps _ _ _ _ R). auto. }
    split; auto. split; [apply (r_in _ _ _ _ R); lra|]. rewrite Er. auto.
  Qed.

  (** Products with an exact factor. *)
  Lemma near_mul n k b b' : 0 <= k -> near n b b' -> no_underflow small (k * b') ->
    near (S n) (k * b) (rnd (k * b')).
  Proof.
    intros Hk (B0 & BF & B1 & B2) Hu. assert (B' := r_nonneg _ _ _ _ R b' BF).
    assert (Hn : 0 <= k * b') by (apply Qmult_le_0_compat; auto).
    assert (P1 := pw_nonneg (1 - u) n ltac:(lra)). assert (P2 := pw_nonneg (1 + u) n ltac:(lra)).
    assert (L1 : pw (1 - u) n * (k * b) <= k * b').
    { setoid_replace (pw (1 - u) n * (k * b)) with ((pw (1 - u) n * b) * k) by ring.
      rewrite (Qmult_comm k). apply Qmult_le_compat_r; auto. }
    assert (L2 : k * b' <= pw (1 + u) n * (k * b)).
    { setoid_replace (pw (1 + u) n * (k * b)) with ((pw (1 + u) n * b) * k) by ring.
      rewrite (Qmult_comm k). apply Qmult_le_compat_r; auto. }
    split; [apply Qmult_le_0_compat; auto|]. split; [apply (r_in _ _ _ _ R); auto|].
    assert (S12 : (1 - u) * (k * b') <= rnd (k * b') /\ rnd (k * b') <= (1 + u) * (k * b')).
    { destruct Hu as [E|Hs]; [|apply (r_normal _ _ _ _ R); auto].
      assert (Er : rnd (k * b') == 0).
      { rewrite (rnd_compat (k * b') 0) by lra. apply (r_keeps _ _ _ _ R). apply (r_zero _ _ _ _ R). }
      rewrite Er, E. lra. }
    destruct S12 as [S1 S2]. cbn [pw]. split.
    - apply Qle_trans with ((1 - u) * (k * b')); auto.
      rewrite <- Qmult_assoc. rewrite !(Qmult_comm (1 - u)). apply Qmult_le_compat_r; lra.
    - apply Qle_trans with ((1 + u) * (k * b')); auto.
      rewrite <- Qmult_assoc. rewrite !(Qmult_comm (1 + u)). apply Qmult_le_compat_r; lra.
  Qed.

  (** ** Movement *)
  Lemma scalar_movement_Z j i inverted :
    exists z : Z, (0 <= z)%Z /\ scalar_movement inject_Z j i inverted == inject_Z z.
  Proof.
    unfold scalar_movement.
    assert (E : exists w, (if inverted then inject_Z i - inject_Z j else inject_Z j - inject_Z i) == inject_Z w).
    { destruct inverted; [exists (i - j)%Z|exists (j - i)%Z]; unfold Z.sub; rewrite inject_Z_plus, inject_Z_opp; ring. }
    destruct E as [w E]. destruct (qpos_cases (if inverted then inject_Z i - inject_Z j else inject_Z j - inject_Z i))
      as [[H1 H2]|[H1 H2]].
    - exists w. split; [|rewrite H2; exact E]. rewrite E in H1. change 0 with (inject_Z 0) in H1.
      rewrite <- Zle_Qle in H1. exact H1.
    - exists 0%Z. split; [lia|]. rewrite H2. reflexivity.
  Qed.

  Definition fine (b : Q) : Prop := F b /\ no_underflow small b.

  Lemma scalar_product b j i inverted : fine b ->
    near 1 (b * scalar_movement inject_Z j i inverted) (rnd (b * scalar_movement inject_Z j i inverted)) /\
    (rnd (b * scalar_movement inject_Z j i inverted) == 0 \/
     b <= rnd (b * scalar_movement inject_Z j i inverted)).
  Proof.
    intros [HF Hu]. assert (Hb := r_nonneg _ _ _ _ R b HF).
    destruct (scalar_movement_Z j i inverted) as (z & Hz & E).
    set (m := scalar_movement inject_Z j i inverted) in *.
    assert (Hm : 0 <= m) by (rewrite E; change 0 with (inject_Z 0); rewrite <- Zle_Qle; auto).
    assert (D : b * m == 0 \/ b <= b * m).
    { destruct (Z.eq_dec z 0) as [->|Hne]; [left; rewrite E; change (inject_Z 0) with 0; ring|right].
      assert (1 <= m) by (rewrite E; change 1 with (inject_Z 1); rewrite <- Zle_Qle; lia). nra. }
    assert (Hbm : 0 <= b * m) by (apply Qmult_le_0_compat; auto).
    assert (Ez : b * m == 0 -> rnd (b * m) == 0).
    { intros E0. rewrite (rnd_compat _ 0) by lra. apply (r_keeps _ _ _ _ R), (r_zero _ _ _ _ R). }
    split.
    - assert (N : near 1 (m * b) (rnd (m * b))).
      { apply near_mul; auto; [apply near_exact; [auto|reflexivity]|].
        destruct D as [D|D]; [left; rewrite Qmult_comm; auto|].
        destruct Hu as [Hu|Hu]; [left|right; rewrite Qmult_comm; lra]. rewrite Hu. ring. }
      destruct N as (N0 & N1 & N2 & N3).
      assert (Er : rnd (m * b) == rnd (b * m)) by (apply rnd_compat; [lra|ring]).
      assert (Ec : m * b == b * m) by ring.
      split; [lra|]. split; [apply (r_in _ _ _ _ R); auto|]. rewrite <- Er, <- Ec. auto.
    - destruct D as [D|D]; [left; auto|right].
      rewrite <- (r_keeps _ _ _ _ R b HF) at 1. apply (r_mono _ _ _ _ R); auto.
  Qed.

  Definition fsum (acc : Q) (l : list Q) : Q := fold_left (fun acc y => rnd (acc + y)) l acc.

  Lemma fsum_ge l : forall acc, F acc -> Forall F l ->
    acc <= fsum acc l /\ Forall (fun y => y <= fsum acc l) l.
  Proof.
    unfold fsum. induction l as [|y l IH]; intros acc Ha Hl; cbn [fold_left]; [split; [lra|constructor]|].
    inversion Hl as [|? ? Hy Hl']; subst.
    assert (A := r_nonneg _ _ _ _ R acc Ha). assert (Y := r_nonneg _ _ _ _ R y Hy).
    destruct (IH (rnd (acc + y)) (r_in _ _ _ _ R (acc + y) ltac:(lra)) Hl') as [H1 H2].
    assert (A1 : acc <= rnd (acc + y)).
    { rewrite <- (r_keeps _ _ _ _ R acc Ha) at 1. apply (r_mono _ _ _ _ R); lra. }
    assert (Y1 : y <= rnd (acc + y)).
    { rewrite <- (r_keeps _ _ _ _ R y Hy) at 1. apply (r_mono _ _ _ _ R); lra. }
    split; [lra|]. constructor; [lra|auto].
  Qed.

  Lemma fsum_zero l : forall acc, acc == 0 -> Forall (fun y => y == 0) l -> fsum acc l == 0.
  Proof.
    unfold fsum. induction l as [|y l IH]; intros acc Ha Hl; cbn [fold_left]; auto.
    inversion Hl; subst. apply IH; auto. rewrite (rnd_compat _ 0) by lra.
    apply (r_keeps _ _ _ _ R), (r_zero _ _ _ _ R).
  Qed.

  Lemma fsum_near l : forall l' n acc acc', near n acc acc' -> Forall2 (near 1) l l' -> (1 <= n)%nat ->
    near (n + length l) (acc + Qsum l) (fsum acc' l').
  Proof.
    unfold fsum. induction l as [|y l IH]; intros l' n acc acc' Ha H Hn; inversion H as [|? y' ? l'' Hy Hl]; subst;
      cbn [fold_left Qsum length].
    - rewrite Nat.add_0_r. apply (near_compat _ acc); [cbn; ring|auto].
    - apply (near_compat _ ((acc + y) + Qsum l)); [cbn; ring|].
      replace (n + S (length l))%nat with (S n + length l)%nat by lia.
      apply IH; auto. apply near_add; auto. apply (near_mono 1); auto.
  Qed.

  Lemma fsum_near_first l l' : Forall2 (near 1) l l' -> near (length l) (Qsum l) (fsum 0 l').
  Proof.
    intros H. inversion H as [|y y' r r' Hy Hr]; subst.
    - cbn. apply near_exact; [apply (r_zero _ _ _ _ R)|reflexivity].
    - unfold fsum. cbn [fold_left length Qsum].
      apply (near_compat _ (y + Qsum r)); [reflexivity|].
      apply (fsum_near r r' 1); auto. apply near_add_zero_l; auto. reflexivity.
  Qed.

  Fixpoint products (beta : list Q) (x prev : list Z) (inverted : bool) : list Q :=
    match x, prev, beta with
    | j :: x', i :: prev', b :: beta' =>
        b * scalar_movement inject_Z j i inverted :: products beta' x' prev' inverted
    | _, _, _ => []
    end.

  Lemma products_sum beta : forall x prev inverted,
    Qsum (products beta x prev inverted) == scaled_movement inject_Z beta x prev inverted.
  Proof.
    induction beta as [|b beta IH]; intros [|j x] [|i prev] inverted; cbn [products scaled_movement];
      try reflexivity. cbn [Qsum]. rewrite <- IH. reflexivity.
  Qed.

  Lemma products_length beta : forall x prev inverted,
    (length (products beta x prev inverted) <= length beta)%nat.
  Proof.
    induction beta as [|b beta IH]; intros [|j x] [|i prev] inverted; cbn; try lia.
    specialize (IH x prev inverted). lia.
  Qed.

  Lemma f_products_near beta : Forall fine beta -> forall x prev inverted,
    Forall2 (near 1) (products beta x prev inverted) (f_products rnd beta x prev inverted).
  Proof.
    intros H. induction H as [|b beta Hb H IH]; intros [|j x] [|i prev] inverted; cbn; constructor.
    - apply scalar_product; auto.
    - apply IH.
  Qed.

  Lemma f_products_large beta : Forall fine beta -> forall x prev inverted,
    Forall (fun y => y == 0 \/ exists b, In b beta /\ b <= y /\ 0 < b) (f_products rnd beta x prev inverted).
  Proof.
    intros H. induction H as [|b beta Hb H IH]; intros [|j x] [|i prev] inverted; cbn; constructor.
    - destruct (scalar_product b j i inverted Hb) as [N [E|G]]; auto.
      assert (B := r_nonneg _ _ _ _ R b (proj1 Hb)).
      destruct (Qlt_le_dec 0 b) as [P|P]; [right; exists b; repeat split; auto; left; auto|left].
      assert (Eb : b == 0) by lra. destruct N as (_ & _ & _ & N).
      assert (Z0 : b * scalar_movement inject_Z j i inverted == 0) by (rewrite Eb; ring).
      rewrite Z0 in N at 2. rewrite Qmult_0_r in N. lra.
    - eapply Forall_impl; [|apply IH]. cbn. intros y [E|(c & Hc & G)]; auto. right. exists c. tauto.
  Qed.

  Lemma f_products_F beta : Forall fine beta -> forall x prev inverted,
    Forall F (f_products rnd beta x prev inverted).
  Proof.
    intros H x prev inverted. assert (N := f_products_near beta H x prev inverted).
    clear - N. induction N as [|? ? ? ? Hn]; constructor; auto. apply Hn.
  Qed.

  Lemma Forall_zero_or (P : Q -> Prop) l : Forall (fun y => y == 0 \/ P y) l ->
    Forall (fun y => y == 0) l \/ exists y, In y l /\ P y.
  Proof.
    intros H. induction H as [|y l Hy H IH]; [left; constructor|].
    destruct Hy as [Hy|Hy]; [|right; exists y; split; [left|]; auto].
    destruct IH as [IH|(z & Hz & Hp)]; [left; constructor; auto|right; exists z; split; [right|]; auto].
  Qed.

  Lemma movement_near beta x prev inverted alpha :
    0 <= alpha -> Forall (fun b => F b /\ no_underflow small b /\ no_underflow small (alpha * b)) beta ->
    near (S (length beta)) (alpha * scaled_movement inject_Z beta x prev inverted)
      (rnd (alpha * f_scaled_movement rnd beta x prev inverted)).
  Proof.
    intros Ha Hb.
    assert (Hf : Forall fine beta) by (eapply Forall_impl; [|exact Hb]; intros b (H1 & H2 & _); split; auto).
    assert (N := fsum_near_first _ _ (f_products_near beta Hf x prev inverted)).
    apply (near_mono _ (length beta)) in N; [|apply products_length].
    apply (near_compat _ _ _ _ (products_sum beta x prev inverted)) in N.
    unfold f_scaled_movement. fold (fsum 0 (f_products rnd beta x prev inverted)).
    set (m' := fsum 0 (f_products rnd beta x prev inverted)) in *.
    apply near_mul; auto.
    destruct (Forall_zero_or _ _ (f_products_large beta Hf x prev inverted)) as [E|(y & Hy & b & Hin & Hle & Hpos)].
    - left. unfold m'. rewrite (fsum_zero _ 0) by (auto; reflexivity). ring.
    - destruct (fsum_ge _ 0 (r_zero _ _ _ _ R) (f_products_F beta Hf x prev inverted)) as [_ G].
      fold m' in G. rewrite Forall_forall in G. specialize (G y Hy).
      rewrite Forall_forall in Hb. destruct (Hb b Hin) as (_ & _ & [E|E]).
      + left. assert (alpha == 0).
        { destruct (Qlt_le_dec 0 alpha) as [P|P]; [|lra]. assert (0 < alpha * b) by nra. lra. }
        rewrite H. ring.
      + right. nra.
  Qed.

  (** ** Sums of costs *)
  Definition nearE (n : nat) (a b : ext) : Prop :=
    match a, b with
    | Fin c, Fin c' => near n c c'
    | Inf, Inf => True
    | _, _ => False
    end.

  Lemma nearE_mono n m a b : (n <= m)%nat -> nearE n a b -> nearE m a b.
  Proof. destruct a, b; cbn; auto. apply near_mono. Qed.

  Lemma nearE_compat n a b c : eeq a b -> nearE n a c -> nearE n b c.
  Proof. destruct a, b, c; cbn; auto; try contradiction. apply near_compat. Qed.

  Lemma nearE_add n a a' b b' : nearE n a a' -> nearE n b b' -> nearE (S n) (eadd a b) (fadd rnd a' b').
  Proof. destruct a, a', b, b'; cbn; auto; try contradiction. apply near_add. Qed.

  Lemma nearE_zero_r n a a' : nearE n a a' -> nearE n (eadd a (Fin 0)) (fadd rnd a' (Fin 0)).
  Proof.
    destruct a, a'; cbn; auto. intros H. apply (near_compat _ q); [ring|]. apply near_add_zero_r; auto. reflexivity.
  Qed.

  Lemma nearE_zero_l n a a' : nearE n a a' -> nearE n (eadd (Fin 0) a) (fadd rnd (Fin 0) a').
  Proof.
    destruct a, a'; cbn; auto. intros H. apply (near_compat _ q); [ring|]. apply near_add_zero_l; auto. reflexivity.
  Qed.

  Section Sums.
    Context {C D : Type}.
    Variable merge : C -> C -> C.
    Notation cst := (cost C D).
    Variable n0 : nat.
    Notation close := (fun (a : ext) (c : cst) => nearE n0 a (c_cost c)).

    Lemma f_fold_near l : forall l' n a c, nearE n a (c_cost c) -> (n0 <= n)%nat -> Forall2 close l l' ->
      nearE (n + length l) (eadd a (esum l)) (c_cost (fold_left (f_cost_add rnd merge) l' c)).
    Proof.
      induction l as [|x l IH]; intros l' n a c Ha Hn H; inversion H as [|? x' ? l'' Hx Hl]; subst;
        cbn [fold_left esum length].
      - rewrite Nat.add_0_r. apply (nearE_compat _ a); [symmetry; apply eadd_0_r|auto].
      - apply (nearE_compat _ (eadd (eadd a x) (esum l))); [symmetry; apply eadd_assoc|].
        replace (n + S (length l))%nat with (S n + length l)%nat by lia.
        apply IH; auto. cbn [f_cost_add c_cost]. apply nearE_add; auto. apply (nearE_mono n0); auto.
    Qed.

    (** Sums of non-empty lists need one rounding less than they have elements; empty sums are 0. *)
    Definition sum_ok (l : list ext) (r : ext) : Prop :=
      match l with
      | [] => r = Fin 0 \/ exists q, r = Fin q /\ q == 0
      | _ => nearE (n0 + (length l - 1)) (esum l) r
      end.

    Lemma f_par_sum_ok s : forall l l', Forall2 close l l' -> sum_ok l (c_cost (f_par_sum rnd merge s l')).
    Proof.
      induction s as [|k a IHa b IHb]; intros l l' H; cbn [f_par_sum].
      - inversion H as [|x x' r r' Hx Hr]; subst; cbn [sum_ok f_cost_sum f_cost_add c_cost cost_default].
        + right. eexists. split; [reflexivity|]. cbn.
          rewrite (rnd_compat _ 0) by (cbn; reflexivity || lra). apply (r_keeps _ _ _ _ R), (r_zero _ _ _ _ R).
        + cbn [length]. replace (S (length r) - 1)%nat with (length r) by lia.
          apply (nearE_compat _ (eadd (Fin 0) (esum (x :: r)))); [apply eadd_0_l|].
          apply nearE_zero_l. cbn [esum]. apply f_fold_near; auto.
      - assert (Ha : Forall2 close (firstn k l) (firstn k l')).
        { clear - H. revert k. induction H as [|x x' r r' Hx Hr IH]; intros [|k]; cbn; constructor; auto. }
        assert (Hb : Forall2 close (skipn k l) (skipn k l')).
        { clear - H. revert k. induction H as [|x x' r r' Hx Hr IH]; intros [|k]; cbn; try constructor; auto. }
        apply IHa in Ha. apply IHb in Hb. clear IHa IHb H.
        cbn [f_cost_add c_cost].
        set (ra := c_cost (f_par_sum rnd merge a (firstn k l'))) in *.
        set (rb := c_cost (f_par_sum rnd merge b (skipn k l'))) in *. clearbody ra rb.
        assert (El := firstn_skipn k l). set (la := firstn k l) in *. set (lb := skipn k l) in *. clearbody la lb.
        subst l.
        assert (Z : forall r, sum_ok [] r -> exists q, r = Fin q /\ q == 0).
        { intros r [->|E]; auto. exists 0. split; reflexivity. }
        destruct la as [|xa la]; [apply Z in Ha; destruct Ha as (qa & -> & Ea)|].
        + destruct lb as [|xb lb]; [apply Z in Hb; destruct Hb as (qb & -> & Eb)|].
          * cbn [app sum_ok]. right. eexists. split; [reflexivity|].
            rewrite (rnd_compat _ 0) by lra. apply (r_keeps _ _ _ _ R), (r_zero _ _ _ _ R).
          * cbn [app sum_ok] in *. destruct (esum (xb :: lb)), rb; cbn [nearE fadd] in *; auto.
            apply near_add_zero_l; auto.
        + destruct lb as [|xb lb]; [apply Z in Hb; destruct Hb as (qb & -> & Eb)|].
          * rewrite app_nil_r. cbn [sum_ok] in *. destruct (esum (xa :: la)), ra; cbn [nearE fadd] in *; auto.
            apply near_add_zero_r; auto.
          * change ((xa :: la) ++ xb :: lb) with (xa :: (la ++ xb :: lb)). cbn [sum_ok] in *.
            change (xa :: la ++ xb :: lb) with ((xa :: la) ++ xb :: lb).
            apply (nearE_compat _ (eadd (esum (xa :: la)) (esum (xb :: lb)))); [symmetry; apply esum_app|].
            rewrite app_length. cbn [length] in *.
            apply (nearE_mono (S (n0 + (length la + length lb)))); [lia|].
            apply nearE_add; eapply nearE_mono; try eassumption; lia.
    Qed.
  End Sums.

  (** ** Objective *)
  Lemma up_of_near n a b : nearE n a b -> up_to_rounding u (Z.of_nat n) a b.
  Proof.
    destruct a as [c|], b as [c'|]; cbn; auto. intros (_ & _ & H1 & H2). rewrite <- !pw_Qpower. auto.
  Qed.

  Lemma float_objective_proof {C D} (merge : C -> C -> C) (outside : D) s (p : ssco C D) xs alpha inverted :
    0 <= alpha -> representable_instance F small alpha p -> Z.of_nat (length xs) = s_tend p ->
    up_to_rounding u (s_tend p + Z.of_nat (length (s_switching p)) + 1)
      (schedule_cost p alpha inverted xs)
      (c_cost (f_objective_with_default rnd merge outside s p xs (zero_config (s_d p)) alpha inverted (s_tend p))).
  Proof.
    intros Ha [Hh Hs] Hl. set (d := length (s_switching p)) in *.
    assert (HT : (0 <= s_tend p)%Z) by lia.
    set (st := fun t => step_cost (ssco_problem outside p) alpha inverted t
                  (get_or xs (zero_config (s_d p)) (t - 1)) (get_or xs (zero_config (s_d p)) t)).
    set (fst' := fun t => f_step_cost rnd outside p alpha inverted t
                  (get_or xs (zero_config (s_d p)) (t - 1)) (get_or xs (zero_config (s_d p)) t)).
    assert (Hc : Forall2 (fun a (c : cost C D) => nearE (S (S d)) a (c_cost c))
              (map c_cost (map st (zrange 1 (s_tend p)))) (map fst' (zrange 1 (s_tend p)))).
    { assert (Hin : forall t, In t (zrange 1 (s_tend p)) -> (1 <= t <= s_tend p)%Z) by (intros t; apply zrange_In).
      revert Hin. generalize (zrange 1 (s_tend p)). intros ts Hin.
      induction ts as [|t ts IH]; cbn [map]; constructor; [|apply IH; intros; apply Hin; right; auto].
      specialize (Hin t (or_introl eq_refl)).
      unfold st, fst', step_cost, f_step_cost. cbn [p_tend p_hit p_move ssco_problem c_cost].
      rewrite (proj2 (Z.ltb_ge _ _)) by lia.
      set (x := get_or xs (zero_config (s_d p)) t). set (y := get_or xs (zero_config (s_d p)) (t - 1)).
      assert (Hm := movement_near (s_switching p) x y inverted alpha Ha Hs). fold d in Hm.
      unfold ssco_movement. apply nearE_add; [|exact Hm].
      rewrite hit_restricted. unfold restricted. specialize (Hh t x).
      destruct (inside (s_bounds p) x); [|exact I]. specialize (Hh eq_refl).
      destruct (c_cost (s_hit p t x)) as [q|]; [|exact I]. cbn. apply near_exact; [auto|reflexivity]. }
    assert (Hsum := f_par_sum_ok merge (S (S d)) s _ _ Hc).
    assert (E : eeq (esum (map c_cost (map st (zrange 1 (s_tend p))))) (schedule_cost p alpha inverted xs)).
    { rewrite <- (par_sum_cost merge Leaf). unfold schedule_cost.
      rewrite <- (objective_exact_spec merge outside Leaf) by auto. reflexivity. }
    assert (Hlen : length (map (@c_cost C D) (map st (zrange 1 (s_tend p)))) = Z.to_nat (s_tend p)).
    { rewrite !map_length, zrange_length. lia. }
    unfold f_objective_with_default. fold fst'.
    replace (s_tend p + Z.of_nat d + 1)%Z with (Z.of_nat (Z.to_nat (s_tend p) + d + 1)) by lia.
    apply up_of_near. apply (nearE_compat _ _ _ _ E).
    destruct (map (@c_cost C D) (map st (zrange 1 (s_tend p)))) as [|a r] eqn:El; cbn [sum_ok] in Hsum.
    - assert (X : exists q, c_cost (f_par_sum rnd merge s (map fst' (zrange 1 (s_tend p)))) = Fin q /\ q == 0).
      { destruct Hsum as [Hsum|Hsum]; auto. eexists. split; [exact Hsum|reflexivity]. }
      destruct X as (q & -> & Eq). cbn. apply near_exact; [|symmetry; exact Eq].
      apply (r_compat _ _ _ _ R 0); [symmetry; exact Eq|apply (r_zero _ _ _ _ R)].
    - rewrite Hlen in Hsum. eapply nearE_mono; [|exact Hsum]. cbn [length] in Hlen. lia.
  Qed.
End Rounded.
