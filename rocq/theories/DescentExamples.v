(** Concrete instances for the properties of DescentProps, and disagreements of the
    algorithms with their descriptions. *)
From Coq Require Import Lia Lqa Qabs Qround.
From Verif Require Import NumLemmas OptimizeBrute ConvertProofs DescentModel DescentSpec DescentProofs DescentBounds DescentProps.
From Verif Require Import ProblemModel CostModel.
Local Open Scope Z_scope.

(** One type of server, up to [u] servers; hitting costs [f t j]; moving costs [norm], by
    default the absolute difference. *)
Definition normed (norm : list Q -> outcome Q) (T : Z) (u : Q) (f : Z -> Q -> Q) : online (gsco Q unit unit) :=
  mkOnline (mkGSCO 1 T [(0%Q, u)] norm
    (cf_new 1 (certain (fun t x => match x with [j] => Ok (mkCost (Fin (f t j)) MNone) | _ => Panic end)))) 0.
Definition line := normed manhattan.
Definition lifted (f : Z -> Q -> Q) (t : Z) (x : list Q) : ext := match x with [j] => Fin (f t j) | _ => Inf end.

Lemma line_charges norm T u f t : 1 <= t ->
  charges (o_cost (on_p (normed norm T u f))) (o_bounds (on_p (normed norm T u f))) t (lifted f t).
Proof.
  intros Ht x Hx. cbn [normed on_p o_bounds] in Hx. inversion Hx as [|? j ? l Hj Hl]; subst. inversion Hl; subst.
  exists (mkCost (Fin (f t j)) MNone). split; [|apply Qeq_refl].
  cbn [normed on_p o_cost]. unfold call_certain. rewrite cf_new_get by auto. cbn [obind fst snd].
  unfold single_certain, single_predictive. rewrite (proj2 (Z.ltb_ge t 1)) by lia. unfold certain. cbn [obind length Nat.eqb negb].
  rewrite andb_false_r. reflexivity.
Qed.
Lemma lifted_comp f t : (forall a b, (a == b -> f t a == f t b)%Q) -> respects_eq eeq (lifted f t).
Proof.
  intros H x y E. destruct E as [|a b x y E F]; [reflexivity|]. destruct F; [|reflexivity]. apply H, E.
Qed.
Lemma manhattan_computes n : computes n manhattan (fun x => Qsum (map Qabs x)).
Proof. intros x _. eexists. split; [reflexivity|apply Qeq_refl]. Qed.
Lemma manhattan_comp : respects_eq Qeq (fun x => Qsum (map Qabs x)).
Proof.
  intros x y E. induction E as [|a b x y E F IH]; [reflexivity|]. cbn [map Qsum fold_right]. cbn [Qsum] in IH.
  unfold Qsum in *. cbn [map fold_right]. rewrite E, IH. reflexivity.
Qed.
Lemma square_computes n : computes n (norm_squared manhattan) (fun x => Qsum (map Qabs x) * Qsum (map Qabs x) / 2)%Q.
Proof. intros x _. eexists. split; [reflexivity|apply Qeq_refl]. Qed.
Lemma square_comp : respects_eq Qeq (fun x => Qsum (map Qabs x) * Qsum (map Qabs x) / 2)%Q.
Proof. intros x y E. pose proof (manhattan_comp x y E) as H. cbn beta in H. rewrite H. reflexivity. Qed.

(** Square roots with an error of the square of at most 1/100. *)
Definition root (q : Q) : Q :=
  let n := 300 * (Z.max 0 (Qceiling q) + 1) in
  inject_Z (Z.sqrt (Qfloor (q * inject_Z (n * n)))) / inject_Z n.

Lemma Qfloor_nonneg q : (0 <= q)%Q -> 0 <= Qfloor q.
Proof. intros H. apply Qfloor_resp_le in H. exact H. Qed.
Lemma root_comp a b : (a == b -> root a == root b)%Q.
Proof.
  intros H. unfold root. rewrite (Qceiling_comp _ _ H).
  assert (forall n, Qfloor (a * n) = Qfloor (b * n)) as E by (intros n; apply Qfloor_comp; rewrite H; reflexivity).
  rewrite E. reflexivity.
Qed.
Lemma root_error q : (0 <= q)%Q -> (Qabs (root q * root q - q) <= 1 # 100)%Q.
Proof.
  intros Hq. unfold root. set (c := Z.max 0 (Qceiling q)). set (n := 300 * (c + 1)).
  assert (q <= inject_Z c)%Q as Hc.
  { eapply Qle_trans; [apply Qle_ceiling|]. rewrite <- Zle_Qle. lia. }
  assert (0 <= c) as Hc0 by lia. assert (0 < n) as Hn by lia.
  set (k := Qfloor (q * inject_Z (n * n))). set (s := Z.sqrt k).
  assert (0 <= q * inject_Z (n * n))%Q as Hp.
  { apply Qmult_le_0_compat; [exact Hq|]. rewrite <- (Zle_Qle 0). nia. }
  assert (0 <= k) as Hk by (apply Qfloor_nonneg, Hp).
  pose proof (Z.sqrt_spec k Hk) as (S1 & S2). fold s in S1, S2. pose proof (Z.sqrt_nonneg k) as S0. fold s in S0.
  assert (inject_Z k <= q * inject_Z (n * n))%Q as K1 by apply Qfloor_le.
  assert (q * inject_Z (n * n) < inject_Z (k + 1))%Q as K2 by apply Qlt_floor.
  assert (k <= c * (n * n)) as Kc.
  { rewrite Zle_Qle. eapply Qle_trans; [exact K1|]. rewrite (inject_Z_mult c). apply Qmult_le_compat_r; [exact Hc|].
    rewrite <- (Zle_Qle 0). nia. }
  assert (s <= (c + 1) * n) as Sb.
  { assert (s * s <= ((c + 1) * n) * ((c + 1) * n)) by nia. apply Z.square_le_simpl_nonneg; nia. }
  assert (100 * (2 * s + 1) <= n * n) as Hs.
  { unfold n in *. nia. }
  assert (inject_Z s / inject_Z n * (inject_Z s / inject_Z n) - q ==
          (inject_Z (s * s) - q * inject_Z (n * n)) / inject_Z (n * n))%Q as E.
  { rewrite !inject_Z_mult. field. intros E. change 0%Q with (inject_Z 0) in E. rewrite inject_Z_injective in E. lia. }
  rewrite E. assert (0 < inject_Z (n * n))%Q as Hnn by (rewrite <- (Zlt_Qlt 0); nia).
  assert (inject_Z (s * s) <= q * inject_Z (n * n))%Q as L1.
  { eapply Qle_trans; [|exact K1]. rewrite <- Zle_Qle. lia. }
  assert (q * inject_Z (n * n) - inject_Z (s * s) <= inject_Z (2 * s + 1))%Q as L2.
  { assert (inject_Z (k + 1) <= inject_Z (s * s + (2 * s + 1)))%Q as L by (rewrite <- Zle_Qle; lia).
    rewrite (inject_Z_plus (s * s)) in L. lra. }
  assert (100 * inject_Z (2 * s + 1) <= inject_Z (n * n))%Q as L3.
  { change (100%Q) with (inject_Z 100). rewrite <- inject_Z_mult, <- Zle_Qle. exact Hs. }
  apply Qabs_Qle_condition. split.
  - apply Qle_shift_div_l; [exact Hnn|]. lra.
  - apply Qle_shift_div_r; [exact Hnn|]. lra.
Qed.

(** ** C57: balanced descent.  Servers in demand cost 4 |j - 2| + 1; at level 2. *)
Definition valley (t : Z) (j : Q) : Q := (4 * Qabs (j - 2) + 1)%Q.
Lemma valley_comp t a b : (a == b -> valley t a == valley t b)%Q.
Proof. intros H. unfold valley. rewrite H. reflexivity. Qed.
Lemma line_aligned norm T u f k : (u == inject_Z k)%Q -> 0 <= k -> aligned (o_bounds (on_p (normed norm T u f))).
Proof.
  intros H Hk. constructor; [|constructor]. cbn [fst snd]. split; [exists 0; reflexivity|]. split.
  - exists (100 * k). rewrite H. unfold Qeq. cbn [Qnum Qden inject_Z]. lia.
  - rewrite H. rewrite <- (Zle_Qle 0). exact Hk.
Qed.

Example obd_hypotheses :
  let o := line 1 3 valley in
  let d := length (o_bounds (on_p o)) in
  exact_nlopt brute /\ on_w o = 0 /\ o_d (on_p o) = Z.of_nat d /\ length (previous d []) = d /\
  aligned (o_bounds (on_p o)) /\ charges (o_cost (on_p o)) (o_bounds (on_p o)) 1 (lifted valley 1) /\
  respects_eq eeq (lifted valley 1) /\
  computes d (norm_squared manhattan) (fun x => Qsum (map Qabs x) * Qsum (map Qabs x) / 2)%Q /\
  respects_eq Qeq (fun x => Qsum (map Qabs x) * Qsum (map Qabs x) / 2)%Q.
Proof.
  intros o d. split; [exact brute_exact|]. repeat (split; [reflexivity|]).
  split; [apply (line_aligned _ _ _ _ 3); [reflexivity|lia]|]. split; [apply line_charges; lia|].
  split; [apply lifted_comp; intros a b; apply valley_comp|]. split; [apply square_computes|apply square_comp].
Qed.
(** The answer is the point 1.75 of the level set [1.75, 2.25]. *)
Example obd_answer :
  obd brute (1 # 10) 2 (norm_squared manhattan) (line 1 3 valley) 1 [] tt = Ok ([175 # 100]%Q, None).
Proof. vm_compute. reflexivity. Qed.
Example obd_euclidean_hypotheses :
  (forall a b, (a == b -> root a == root b)%Q) /\
  (forall q, (0 <= q)%Q -> (Qabs (root q * root q - q) <= 1 # 100)%Q) /\
  let o := line 1 3 valley in
  let H := lifted valley 1 in let bounds := o_bounds (on_p o) in
  grid bounds [2]%Q /\ ele (H [2]%Q) (Fin (1 # 1)) /\
  (forall z, grid bounds z -> ele (H z) (Fin ((1 # 1) + (1 # 1000))) -> ele (H z) (Fin (1 # 1))) /\
  obd brute (1 # 10) (1 # 1) (norm_squared (euclidean_norm root)) o 1 [] tt = Ok ([200 # 100]%Q, None).
Proof.
  split; [exact root_comp|]. split; [exact root_error|]. intros o H bounds. split; [|split; [|split]].
  - split; [repeat constructor; cbn; lra|]. repeat constructor. exists 200. reflexivity.
  - vm_compute. discriminate.
  - intros z (Hz & Hg). inversion Hz as [|? j ? l Hj Hl]; subst. inversion Hl; subst. inversion Hg as [|? ? (k & Hk) _]; subst.
    unfold H, lifted, valley. cbn [ele]. intros L. assert (j == 2)%Q as E.
    { assert (Qabs (j - 2) < 1 # 1000)%Q as B by lra. apply Qabs_Qlt_condition in B.
      assert (199 < k < 201) as Hb.
      { rewrite Hk in B. unfold Qlt in B. cbn in B. lia. }
      assert (k = 200) as -> by lia. rewrite Hk. reflexivity. }
    rewrite E. cbn. lra.
  - vm_compute. reflexivity.
Qed.

(** With negative entropy as distance-generating function, no step of balanced descent can
    be taken from a configuration with an entry that is not positive, such as the initial
    one: every evaluation of the objective panics. *)
Theorem negative_entropy_initial_refuted :
  (forall log2 eps d y, (0 < d)%nat ->
     bregman_divergence eps (negative_entropy log2) y (repeat 0%Q d) = Panic) /\
  (forall log2, obd brute (1 # 10) 2 (negative_entropy log2) (line 1 3 valley) 1 [] tt = Panic).
Proof.
  split.
  - intros log2 eps d y Hd. unfold bregman_divergence.
    assert (negative_entropy log2 (repeat 0%Q d) = Panic) as E by (destruct d; [lia|]; reflexivity).
    assert (forall x, negative_entropy log2 x = Panic \/ exists q, negative_entropy log2 x = Ok q) as G.
    { intros x. unfold negative_entropy. induction x as [|j x IH]; [right; eexists; reflexivity|].
      cbn [omap]. destruct (Qltb 0 j); [|left; reflexivity]. cbn [obind].
      destruct (omap _ x) as [a| |]; cbn [obind] in IH |- *.
      - right. eexists. reflexivity.
      - destruct IH as [IH|(q & IH)]; discriminate IH.
      - left. reflexivity. }
    destruct (G y) as [-> | (q & ->)]; [reflexivity|]. cbn [obind]. rewrite E. reflexivity.
  - intros log2. vm_compute. reflexivity.
Qed.

(** ** C58: primal balanced descent *)
(** The previous configuration is 0; with [beta] = 1/100 root finding leads to the level
    where moving costs 1/100 of it. *)
Definition far (t : Z) (j : Q) : Q := (2000 * (1 - j) + 1)%Q.
Definition twenty (x : list Q) : outcome Q := do q <- manhattan x; Ok (20 * q)%Q.
Definition bisect (n : nat) (ab : Q * Q) (f : Q -> outcome fnum) : outcome Q :=
  (fix go n a b := match n with
    | O => Ok a
    | S n => let m := Qred ((a + b) / 2) in
        do v <- f m;
        match v with
        | Num q => if Qltb 0 q then go n m b else go n a m
        | _ => Panic
        end
    end) n (fst ab) (snd ab).
Lemma bisect_answers n ab f : (forall l, exists q, f l = Ok (Num q)) -> exists r, bisect n ab f = Ok r.
Proof.
  intros Hf. destruct ab as [a b]. unfold bisect. cbn [fst snd]. revert a b.
  induction n as [|n IH]; intros a b; [eexists; reflexivity|].
  destruct (Hf (Qred ((a + b) / 2))) as (q & Eq). rewrite Eq. cbn [obind]. destruct (Qltb 0 q); apply IH.
Qed.

Example pobd_hypotheses :
  let o := normed twenty 1 1 far in
  let bounds := o_bounds (on_p o) in
  aligned bounds /\ charges (o_cost (on_p o)) bounds (Z.of_nat (length (@nil (list Q))) + 1) (lifted far 1) /\
  respects_eq eeq (lifted far 1) /\
  computes (length bounds) twenty (fun x => 20 * Qsum (map Qabs x))%Q /\
  (forall ab f, (forall l, exists q, f l = Ok (Num q)) -> exists r, bisect 12 ab f = Ok r) /\
  grid bounds (previous (length bounds) []) /\ (forall z, grid bounds z -> ele (Fin 0) (lifted far 1 z)) /\
  (exists z, grid bounds z /\ is_fin (lifted far 1 z)).
Proof.
  intros o bounds. split; [apply (line_aligned _ _ _ _ 1); [reflexivity|lia]|].
  split; [apply line_charges; lia|]. split.
  { apply lifted_comp. intros a b E. unfold far. rewrite E. reflexivity. }
  split; [intros x _; eexists; split; [reflexivity|apply Qeq_refl]|].
  split; [intros ab f; apply bisect_answers|].
  assert (grid bounds [0%Q]) as G.
  { split; [repeat constructor; cbn; lra|]. repeat constructor. exists 0. reflexivity. }
  split; [exact G|]. split.
  - intros z (Hz & _). inversion Hz as [|? j ? l Hj Hl]; subst. inversion Hl; subst. cbn in Hj.
    unfold lifted, far. cbn [ele]. lra.
  - exists [0%Q]. split; [exact G|]. exact I.
Qed.
(** A cheapest configuration costs 1 but moving there costs 20; the answer is near 1/2. *)
Example pobd_answer :
  exists x, pobd (fun a _ => Ok a) tt brute (bisect 12) (1 # 10) (1 # 100) (norm_squared manhattan) (normed twenty 1 1 far) 1 [] tt
            = Ok ([x], None) /\ (1 # 2 <= x <= 51 # 100)%Q.
Proof. eexists. split; [vm_compute; reflexivity|]. split; vm_compute; discriminate. Qed.

(** The cost of moving is not at most [beta] times the hitting cost, as announced: here
    [beta] is 1, there is a configuration (4.5) with both costs equal; but whatever Brent's
    method would answer, the algorithm moves to 9, with costs 9 and 0. *)
Definition near (t : Z) (j : Q) : Q := Qabs (9 - j).
Theorem pobd_balance_refuted :
  (forall brent,
     pobd (fun a _ => Ok a) tt brute brent (1 # 10) 1 (norm_squared manhattan) (line 1 9 near) 1 [] tt = Ok ([900 # 100]%Q, None)) /\
  lifted near 1 [900 # 100]%Q = Fin (0 # 100) /\ manhattan (differenceQ [900 # 100]%Q [0]%Q) = Ok (900 # 100)%Q /\
  (near 1 (9 # 2) == 9 # 2)%Q.
Proof.
  split; [intros brent; vm_compute; reflexivity|]. split; [vm_compute; reflexivity|].
  split; [vm_compute; reflexivity|]. reflexivity.
Qed.

(** ** C59: greedy balanced descent *)
(** [mu * sqrt m] = 1/2: half way between the cheapest configuration 1 and the answer near
    1/2 of primal balanced descent. *)
Example gobd_answer :
  exists x y, alg_next (pobd (fun a _ => Ok a) tt brute (bisect 12) (1 # 10) (1 # 100) (norm_squared manhattan))
              (fun _ => tt) (normed twenty 1 1 far) [] None = Ok ([y], None) /\
    gobd (fun a _ => Ok a) tt brute (bisect 12) (1 # 10) root 4 (1 # 4) (1 # 100) (norm_squared manhattan)
      (normed twenty 1 1 far) 1 [] tt = Ok ([x], None) /\ (x == (1 # 2) + (1 # 2) * y)%Q /\ ~ (x == y)%Q /\
    (root 4 == 2)%Q.
Proof.
  eexists. eexists. split; [vm_compute; reflexivity|]. split; [vm_compute; reflexivity|].
  split; [vm_compute; reflexivity|]. split; [vm_compute; discriminate|vm_compute; reflexivity].
Qed.

(** ** C60: regularised balanced descent *)
(** With [alpha] = 1, [beta] = 1, [m] = 4/3: [1 + 4 beta^2 / (alpha m)] = 4, the weight is
    2/3.  The hitting cost (j - 1)^2 plus 2/3 |j| is minimal at 2/3. *)
Definition parabola (t : Z) (j : Q) : Q := ((j - 1) * (j - 1))%Q.
Lemma root_nonneg q : (0 <= root q)%Q.
Proof.
  unfold root. apply Qle_shift_div_l.
  - rewrite <- (Zlt_Qlt 0). lia.
  - rewrite Qmult_0_l. rewrite <- (Zle_Qle 0). apply Z.sqrt_nonneg.
Qed.
Example robd_hypotheses :
  let o := line 1 2 parabola in
  let bounds := o_bounds (on_p o) in
  aligned bounds /\ charges (o_cost (on_p o)) bounds 1 (lifted parabola 1) /\ respects_eq eeq (lifted parabola 1) /\
  computes (length bounds) (o_norm (on_p o)) (fun x => Qsum (map Qabs x)) /\
  respects_eq Qeq (fun x => Qsum (map Qabs x)) /\ (forall q, (0 <= root q)%Q) /\
  robd (fun a _ => Ok a) tt brute root (4 # 3) 1 1 o 1 [] tt = Ok ([67 # 100]%Q, None).
Proof.
  intros o bounds. split; [apply (line_aligned _ _ _ _ 2); [reflexivity|lia]|].
  split; [apply line_charges; lia|]. split.
  { apply lifted_comp. intros a b E. unfold parabola. rewrite E. reflexivity. }
  split; [apply manhattan_computes|]. split; [exact manhattan_comp|]. split; [exact root_nonneg|].
  vm_compute. reflexivity.
Qed.

(** ** C61: gradient descent *)
(** A strictly monotone approximation of square roots: linear between the squares. *)
Definition between (q : Q) : Q :=
  let s := Z.sqrt (Qfloor q) in (inject_Z s + (q - inject_Z (s * s)) / inject_Z (2 * s + 1))%Q.
Lemma between_comp a b : (a == b -> between a == between b)%Q.
Proof. intros H. unfold between. rewrite (Qfloor_comp _ _ H), H. reflexivity. Qed.
Lemma between_range q : (0 <= q)%Q -> let s := Z.sqrt (Qfloor q) in
  (inject_Z s <= between q)%Q /\ (between q < inject_Z (s + 1))%Q /\ 0 <= s.
Proof.
  intros Hq s. assert (0 <= Qfloor q) as Hf by (apply Qfloor_nonneg; exact Hq).
  pose proof (Z.sqrt_spec _ Hf) as (S1 & S2). fold s in S1, S2. pose proof (Z.sqrt_nonneg (Qfloor q)) as S0. fold s in S0.
  assert (inject_Z (s * s) <= q)%Q as L1. { eapply Qle_trans; [|apply Qfloor_le]. rewrite <- Zle_Qle. exact S1. }
  assert (q < inject_Z (s * s) + inject_Z (2 * s + 1))%Q as L2.
  { eapply Qlt_le_trans; [apply Qlt_floor|]. rewrite <- inject_Z_plus, <- Zle_Qle. lia. }
  assert (0 < inject_Z (2 * s + 1))%Q as Hp by (rewrite <- (Zlt_Qlt 0); lia).
  unfold between. fold s. rewrite (inject_Z_plus s 1). change (inject_Z 1) with 1%Q. split; [|split; [|exact S0]].
  - assert (0 <= (q - inject_Z (s * s)) / inject_Z (2 * s + 1))%Q by (apply Qle_shift_div_l; lra). lra.
  - assert ((q - inject_Z (s * s)) / inject_Z (2 * s + 1) < 1)%Q by (apply Qlt_shift_div_r; lra).
    lra.
Qed.
Lemma between_mono a b : (0 <= a -> a < b -> between a < between b)%Q.
Proof.
  intros Ha Hab. assert (0 <= b)%Q as Hb by lra.
  pose proof (between_range a Ha) as (_ & A2 & A0). pose proof (between_range b Hb) as (B1 & _ & _).
  set (s := Z.sqrt (Qfloor a)) in *. set (r := Z.sqrt (Qfloor b)) in *.
  assert (s <= r) as L by (apply Z.sqrt_le_mono, Qfloor_resp_le; lra).
  destruct (Z.eq_dec s r) as [E|E].
  - unfold between. fold s r. rewrite <- E. assert (0 < inject_Z (2 * s + 1))%Q as Hp by (rewrite <- (Zlt_Qlt 0); lia).
    assert ((a - inject_Z (s * s)) / inject_Z (2 * s + 1) < (b - inject_Z (s * s)) / inject_Z (2 * s + 1))%Q.
    { unfold Qdiv. apply Qmult_lt_compat_r; [apply Qinv_lt_0_compat; exact Hp|lra]. }
    lra.
  - eapply Qlt_le_trans; [exact A2|]. eapply Qle_trans; [|exact B1]. rewrite <- Zle_Qle. lia.
Qed.
(** From 0.4 the gradient of (j - 1)^2 leads with [eta] = 1/4 to 0.7. *)
Example ogd_hypotheses :
  let o := line 2 2 parabola in
  let bounds := o_bounds (on_p o) in let xs := [[2 # 5]]%Q in let prev := previous 1 xs in
  (forall a b, (a == b -> between a == between b)%Q) /\ (forall a b, (0 <= a -> a < b -> between a < between b)%Q) /\
  aligned bounds /\ charges (o_cost (on_p o)) bounds 2 (fun x => Fin (match x with [j] => parabola 2 j | _ => 0 end)) /\
  length prev = length bounds /\
  (forall i, (i < length bounds)%nat -> in_boxQ bounds (moved prev i (1 # 10)) /\ in_boxQ bounds (moved prev i (- (1 # 10)))) /\
  ogd (fun a _ => Ok a) tt brute (1 # 10) between (fun _ => 1 # 4) o 2 xs tt = Ok ([70 # 100]%Q, None).
Proof.
  intros o bounds xs prev. split; [exact between_comp|]. split; [exact between_mono|].
  split; [apply (line_aligned _ _ _ _ 2); [reflexivity|lia]|]. split.
  { intros x Hx. destruct (line_charges manhattan 2 2 parabola 2 ltac:(lia) x Hx) as (c & E & Ec).
    exists c. split; [exact E|]. inversion Hx as [|? j ? l Hj Hl]; subst. inversion Hl; subst. exact Ec. }
  split; [reflexivity|]. split; [|vm_compute; reflexivity].
  intros i Hi. assert (i = 0)%nat as -> by (cbn in Hi; lia). split; repeat constructor; vm_compute; discriminate.
Qed.

(** At the bounds, such as in the initial configuration, the finite differences are infinite
    as one of the two points is outside; the projection of the infinite vector is arbitrary.
    Here the gradient at 0 is -2, so that with [eta] = 1/4 the step is to 1/2; but the
    objective of the projection is infinite everywhere, and the (exact) optimiser answers 0. *)
Theorem ogd_boundary_refuted :
  (forall eps, (0 < eps)%Q -> (eps <= 1)%Q ->
     gradient eps (hit_num (fun a _ => Ok a) tt (on_p (line 1 2 parabola)) 1) [0]%Q = Ok [NegInf]) /\
  (forall sqrt x, length x = 1%nat ->
     (do d <- nminus (map Num x) [PosInf]; Ok (euclidean sqrt d)) = Ok PosInf) /\
  (forall sqrt, ogd (fun a _ => Ok a) tt brute (1 # 10) sqrt (fun _ => 1 # 4) (line 1 2 parabola) 1 [] tt = Ok ([0 # 100]%Q, None)) /\
  (slope (1 # 10) (fun x => parabola 1 (nth 0 x 0%Q)) [0]%Q 0 == - (2))%Q.
Proof.
  split; [|split; [|split]].
  - intros eps H0 H1. unfold gradient. cbn [omap seq length bump].
    assert (hit_num (fun a _ => Ok a) tt (on_p (line 1 2 parabola)) 1 [0 + - eps]%Q = Ok PosInf) as E2.
    { unfold hit_num, gsco_hit, call_mean_within. cbn. change (v_leb valQ) with Qle_bool.
      replace (Qle_bool 0 (0 + - eps)) with false; [reflexivity|]. symmetry. apply not_true_is_false. intros L. apply Qle_bool_iff in L. lra. }
    assert (exists q, hit_num (fun a _ => Ok a) tt (on_p (line 1 2 parabola)) 1 [0 + eps]%Q = Ok (Num q)) as (q & E1).
    { unfold hit_num, gsco_hit, call_mean_within. cbn. change (v_leb valQ) with Qle_bool.
      replace (Qle_bool 0 (0 + eps)) with true by (symmetry; apply Qle_bool_iff; lra).
      replace (Qle_bool (0 + eps) 2) with true by (symmetry; apply Qle_bool_iff; lra). cbn. eexists. reflexivity. }
    rewrite E1, E2. reflexivity.
  - intros sqrt x Hx. destruct x as [|j [|]]; try discriminate. reflexivity.
  - intros sqrt. vm_compute. reflexivity.
  - vm_compute. reflexivity.
Qed.

(** ** C62: memoryless algorithm *)
(** Hitting cost 2 (2 - j), moving from 0: balanced at 1. *)
Definition falling (t : Z) (j : Q) : Q := (2 * (2 - j))%Q.
Definition simple (T : Z) (u beta : Q) (f : Z -> Q -> Q) : online (gssco Q unit unit) :=
  mkOnline (mkGSSCO 1 T [u] [beta]
    (cf_new 1 (certain (fun t x => match x with [j] => Ok (mkCost (Fin (f t j)) MNone) | _ => Panic end)))) 0.
Lemma simple_mean T u beta f t x : 1 <= t ->
  exists c, call_mean (fun a _ => Ok a) (g_cost (on_p (simple T u beta f))) t [x] = Ok c /\ eeq (c_cost c) (Fin (f t x)).
Proof.
  intros Ht. cbn [simple on_p g_cost]. unfold call_mean. rewrite cf_new_get by auto. cbn [obind fst snd].
  unfold single_mean, single_predictive. rewrite (proj2 (Z.ltb_ge t 1)) by lia. unfold certain. cbn [obind length Nat.eqb negb].
  rewrite andb_false_r. cbn. eexists. split; [reflexivity|]. cbn. ring.
Qed.
Example memoryless_hypotheses :
  let o := simple 1 2 1 falling in
  ((0 <= 2)%Q /\ hundredths 2) /\ ((0 <= 0 <= 2)%Q /\ hundredths 0) /\
  (forall x, (0 <= x <= 2)%Q -> exists c, call_mean (fun a _ => Ok a) (g_cost (on_p o)) 1 [x] = Ok c /\ eeq (c_cost c) (Fin (falling 1 x))) /\
  (forall x y, (x == y)%Q -> eeq (Fin (falling 1 x)) (Fin (falling 1 y))) /\
  (forall x, (0 <= x <= 2)%Q -> ele (Fin 0) (Fin (falling 1 x))) /\
  memoryless (fun a _ => Ok a) tt brute o 1 [] tt = Ok ([100 # 100]%Q, None).
Proof.
  intros o. split; [split; [lra|exists 200; reflexivity]|]. split; [split; [lra|exists 0; reflexivity]|].
  split; [intros x _; apply simple_mean; lia|]. split.
  { intros x y E. unfold falling. cbn. rewrite E. reflexivity. }
  split; [intros x Hx; unfold falling; cbn; lra|]. vm_compute. reflexivity.
Qed.

(** ** C63: randomly biased greedy *)
(** Slot 1 asks for 0.05, slot 2 for 0.08 servers; movement is weighted by 1. *)
Definition ask (t : Z) (j : Q) : Q := (if t =? 1 then 3 * Qabs (j - (5 # 100)) else (5 # 4) * Qabs (j - (8 # 100)))%Q.
Lemma ask_comp t a b : (a == b -> ask t a == ask t b)%Q.
Proof. intros E. unfold ask. destruct (t =? 1); rewrite E; reflexivity. Qed.
Example rbg_hypotheses :
  let o := line 2 (1 # 10) ask in
  let bounds := o_bounds (on_p o) in
  aligned bounds /\ (forall t, 1 <= t <= Z.of_nat 2 -> charges (o_cost (on_p o)) bounds t (lifted ask t)) /\
  (forall t, respects_eq eeq (lifted ask t)) /\ computes 1 (o_norm (on_p o)) (fun x => Qsum (map Qabs x)) /\
  respects_eq Qeq (fun x => Qsum (map Qabs x)) /\
  rbg (fun a _ => Ok a) tt brute 1 o 2 [[5 # 100]]%Q (- (1 # 2)) = Ok ([8 # 100]%Q, None) /\
  rbg (fun a _ => Ok a) tt brute 1 o 2 [[5 # 100]]%Q (1 # 2) = Ok ([5 # 100]%Q, None).
Proof.
  intros o bounds. split.
  { constructor; [|constructor]. cbn [fst snd]. split; [exists 0; reflexivity|]. split; [exists 10; reflexivity|lra]. }
  split; [intros t Ht; apply line_charges; lia|]. split; [intros t; apply lifted_comp; intros a b; apply ask_comp|].
  split; [apply manhattan_computes|]. split; [exact manhattan_comp|]. split; vm_compute; reflexivity.
Qed.

(** The bias is drawn once, according to the description.  But no memory is returned, so the
    default memory, a new random number, is used in every slot. *)
Theorem rbg_bias_refuted :
  forall (C D : Type) (vmerge : C -> C -> outcome C) (outside : D) nlopt theta (o : online (gsco Q C D)) t xs r x m,
  rbg vmerge outside nlopt theta o t xs r = Ok (x, m) ->
  m = None /\
  forall default o' xs', alg_next (rbg vmerge outside nlopt theta) default o' xs' m =
    rbg vmerge outside nlopt theta o' (Z.of_nat (length xs') + 1) xs' (default o').
Proof.
  intros C D vmerge outside nlopt theta o t xs r x m E. assert (m = None) as ->.
  { unfold rbg in E. destruct (negb (on_w o =? 0)); [discriminate|]. destruct (negb (o_d (on_p o) =? 1)); [discriminate|].
    apply obind_Ok in E as (y & _ & E). apply obind_Ok in E as (z & _ & E). congruence. }
  split; reflexivity.
Qed.

(** ** C64: static fractional optimum *)
(** Two slots with hitting costs (j - 1)^2, moving costs |j|: 2 (j - 1)^2 + j is minimal
    at 3/4. *)
Example static_hypotheses :
  let p := on_p (line 2 2 parabola) in
  let bounds := o_bounds p in
  aligned bounds /\
  (forall s x, 1 <= s <= o_tend p -> in_boxQ bounds x ->
     exists c, call_mean (fun a _ => Ok a) (o_cost p) s x = Ok c /\ eeq (c_cost c) (lifted parabola s x)) /\
  (forall s, respects_eq eeq (lifted parabola s)) /\
  static_fractional (fun a _ => Ok a) (fun a _ => a) tt brute (fun _ => Leaf) p false 1 None = Ok [[75 # 100]; [75 # 100]]%Q.
Proof.
  intros p bounds. split; [apply (line_aligned _ _ _ _ 2); [reflexivity|lia]|]. split.
  { intros s x Hs Hx. inversion Hx as [|? j ? l Hj Hl]; subst. inversion Hl; subst. apply (simple_mean 2 2 1). lia. }
  split; [|vm_compute; reflexivity]. intros s. apply lifted_comp. intros a b E. unfold parabola. rewrite E. reflexivity.
Qed.

(** ** C65, C66 *)
(** The optimiser, refusing answers outside of the bounds it is given. *)
Definition inside_num (b : fnum * fnum) (j : Q) : bool := negb (ngtb (fst b) (Num j)) && negb (ngtb (Num j) (snd b)).
Definition careful (p : nl_problem) : outcome nl_result :=
  do r <- brute p;
  if (length (nl_bounds p) =? length (nl_point r))%nat &&
     forallb (fun bj => inside_num (fst bj) (snd bj)) (combine (nl_bounds p) (nl_point r)) then Ok r else Panic.
Example careful_keeps : keeps_bounds careful.
Proof.
  intros p r E. unfold careful in E. apply obind_Ok in E as (r' & _ & E).
  destruct ((length (nl_bounds p) =? length (nl_point r'))%nat) eqn:L; [|discriminate]. apply Nat.eqb_eq in L. cbn [andb] in E.
  destruct (forallb _ _) eqn:F in E; [|discriminate]. injection E as <-.
  revert L F. generalize (nl_bounds p) (nl_point r'). intros l. induction l as [|b l IH]; intros [|j x] L F; try discriminate; constructor.
  - cbn [combine forallb fst snd] in F. apply andb_prop in F as (F & _). unfold inside_num in F. apply andb_prop in F as (F1 & F2).
    apply negb_true_iff in F1, F2. apply ngtb_false in F1, F2. split; assumption.
  - cbn [combine forallb] in F. apply andb_prop in F as (_ & F). apply IH; [cbn in L; congruence|exact F].
Qed.
Example careful_answers :
  obd careful (1 # 10) 2 (norm_squared manhattan) (line 1 3 valley) 1 [] tt = Ok ([175 # 100]%Q, None) /\
  robd (fun a _ => Ok a) tt careful root (4 # 3) 1 1 (line 1 2 parabola) 1 [] tt = Ok ([67 # 100]%Q, None) /\
  ogd (fun a _ => Ok a) tt careful (1 # 10) between (fun _ => 1 # 4) (line 2 2 parabola) 2 [[2 # 5]]%Q tt = Ok ([70 # 100]%Q, None) /\
  memoryless (fun a _ => Ok a) tt careful (simple 1 2 1 falling) 1 [] tt = Ok ([100 # 100]%Q, None).
Proof. repeat split; vm_compute; reflexivity. Qed.

(** For the dual norm of one number an optimiser without bounds is needed, too. *)
Definition unbounded (p : nl_problem) : outcome nl_result :=
  match nl_bounds p with
  | [(NegInf, PosInf)] =>
      do a <- nl_objective p [- (1)]%Q;
      do b <- nl_objective p [1]%Q;
      Ok (if ngtb a b then NlOk Success a [- (1)]%Q else NlOk Success b [1]%Q)
  | _ => brute p
  end.
Example unbounded_exact : exact_nlopt unbounded.
Proof.
  intros a f bounds cs x0 HS Ha Hx0 Hr Ht. pose proof (brute_exact a f bounds cs x0 HS Ha Hx0 Hr Ht) as H.
  unfold unbounded. cbn [nl_bounds]. destruct bounds as [|b bounds]; exact H.
Qed.
Example dobd_answer :
  dobd (fun a _ => Ok a) tt unbounded (bisect 12) (1 # 10) (1 # 10) (norm_squared manhattan) (line 2 3 valley) 2 [[5 # 2]]%Q tt
    = Ok ([200 # 100]%Q, None).
Proof. vm_compute. reflexivity. Qed.

Print Assumptions negative_entropy_initial_refuted.
Print Assumptions pobd_balance_refuted.
Print Assumptions ogd_boundary_refuted.
Print Assumptions rbg_bias_refuted.
