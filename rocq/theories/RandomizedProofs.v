(** Proofs about randomised rounding. *)
From Coq Require Import Lia Lqa Setoid.
From Verif Require Import NumLemmas RandomizedModel RandomizedSpec StreamProofs.
From Verif Require Import CostModel ProblemModel.
Local Open Scope Z_scope.

(** ** Floors and ceilings *)
Lemma inject_1 z : inject_Z (z + 1) == inject_Z z + 1.
Proof. rewrite inject_Z_plus. reflexivity. Qed.

Lemma floor_unique x n : (inject_Z n <= x < inject_Z n + 1)%Q -> Qfloor x = n.
Proof.
  intros [H1 H2]. pose proof (Qfloor_le x). pose proof (Qlt_floor x). rewrite inject_1 in *.
  assert (H3 : (inject_Z n < inject_Z (Qfloor x + 1))%Q) by (rewrite inject_1; lra).
  assert (H4 : (inject_Z (Qfloor x) < inject_Z (n + 1))%Q) by (rewrite inject_1; lra).
  rewrite <- Zlt_Qlt in H3, H4. lia.
Qed.

Lemma ceil_unique x n : (inject_Z n - 1 < x <= inject_Z n)%Q -> Qceiling x = n.
Proof.
  intros [H1 H2]. pose proof (Qle_ceiling x). pose proof (Qceiling_lt x) as H0.
  assert (E : inject_Z (Qceiling x - 1) == inject_Z (Qceiling x) - 1) by (unfold Zminus; rewrite inject_Z_plus; reflexivity).
  rewrite E in H0.
  assert (H3 : (inject_Z n < inject_Z (Qceiling x + 1))%Q) by (rewrite inject_1; lra).
  assert (H4 : (inject_Z (Qceiling x) < inject_Z (n + 1))%Q) by (rewrite inject_1; lra).
  rewrite <- Zlt_Qlt in H3, H4. lia.
Qed.

Lemma cell y : (Qfloor y = Qceiling y /\ y == inject_Z (Qfloor y)) \/
  (Qceiling y = Qfloor y + 1 /\ (inject_Z (Qfloor y) < y < inject_Z (Qfloor y) + 1)%Q).
Proof.
  pose proof (Qfloor_le y) as H1. pose proof (Qlt_floor y) as H2. rewrite inject_1 in H2.
  destruct (Qlt_le_dec (inject_Z (Qfloor y)) y) as [H|H].
  - right. split; [|lra]. apply ceil_unique. rewrite inject_1. lra.
  - left. split; [|lra]. symmetry. apply ceil_unique. lra.
Qed.

(** ** Projection *)
Lemma project_in x a b : (a <= x <= b)%Q -> project x a b == x.
Proof.
  intros H. unfold project, fmax, fmin. destruct (Qltb x b) eqn:E1; [destruct (Qltb x a) eqn:E2|destruct (Qltb b a) eqn:E2];
    rewrite ?Qltb_iff, ?Qltb_false in *; lra.
Qed.
Lemma project_below x a b : (x <= a <= b)%Q -> project x a b == a.
Proof.
  intros H. unfold project, fmax, fmin. destruct (Qltb x b) eqn:E1; [destruct (Qltb x a) eqn:E2|destruct (Qltb b a) eqn:E2];
    rewrite ?Qltb_iff, ?Qltb_false in *; lra.
Qed.
Lemma project_above x a b : (a <= b <= x)%Q -> project x a b == b.
Proof.
  intros H. unfold project, fmax, fmin. destruct (Qltb x b) eqn:E1; [destruct (Qltb x a) eqn:E2|destruct (Qltb b a) eqn:E2];
    rewrite ?Qltb_iff, ?Qltb_false in *; lra.
Qed.

Lemma frac_comp x y : x == y -> frac x == frac y.
Proof. intros H. unfold frac. rewrite (Qfloor_comp _ _ H), H. reflexivity. Qed.
Lemma frac_integer z : frac (inject_Z z) == 0.
Proof. unfold frac. rewrite Qfloor_Z. lra. Qed.
Lemma frac_bounds x : (0 <= frac x < 1)%Q.
Proof. unfold frac. pose proof (Qfloor_le x). pose proof (Qlt_floor x). rewrite inject_1 in *. lra. Qed.

Lemma ratio_pos r num den : (0 < den)%Q -> (at_most_ratio r num den = true <-> (r <= num / den)%Q).
Proof.
  intros H. unfold at_most_ratio. destruct (Qeq_bool den 0) eqn:E; [apply Qeq_bool_iff in E; lra|]. apply Qle_bool_iff.
Qed.

(** ** Neighbours *)
Lemma next_neighbour prev_x prev_y y r : next prev_x prev_y y r = Qfloor y \/ next prev_x prev_y y r = Qceiling y.
Proof.
  unfold next. destruct (Qle_bool prev_y y).
  - destruct (Z.eqb_spec prev_x (Qceiling y)); [auto|]. destruct (at_most_ratio _ _ _); auto.
  - destruct (Z.eqb_spec prev_x (Qfloor y)); [auto|]. destruct (at_most_ratio _ _ _); auto.
Qed.

Lemma neighbour_bounds y j u : (0 <= y <= inject_Z u)%Q -> j = Qfloor y \/ j = Qceiling y -> 0 <= j <= u.
Proof.
  intros [H1 H2] Hj. pose proof (Qfloor_resp_le _ _ H1) as A. pose proof (Qfloor_resp_le _ _ H2) as B.
  pose proof (Qceiling_resp_le _ _ H1) as A'. pose proof (Qceiling_resp_le _ _ H2) as B'.
  rewrite Qfloor_Z in B. rewrite Qceiling_Z in B'. change (Qfloor 0) with 0 in A. change (Qceiling 0) with 0 in A'. lia.
Qed.

(** ** Probabilities *)
Lemma probability_unique E q q' : has_probability E q -> has_probability E q' -> q == q'.
Proof.
  assert (HS : forall a b, has_probability E a -> has_probability E b -> ~ (a < b)%Q).
  { intros a b [Ha Pa] [Hb Pb] Hlt. destruct Pa as [Pa|Pa], Pb as [Pb|Pb].
    - assert (Hr : (0 < (a + b) / 2 < 1)%Q) by (split; [apply Qlt_shift_div_l|apply Qlt_shift_div_r]; lra).
      assert (H1 : (a < (a + b) / 2)%Q) by (apply Qlt_shift_div_l; lra).
      assert (H2 : ((a + b) / 2 < b)%Q) by (apply Qlt_shift_div_r; lra).
      apply (proj2 (Pa _ Hr) H1). apply (proj1 (Pb _ Hr) H2).
    - (* E = (0,a) and E = (1-b,1) *)
      destruct (Qlt_le_dec 0 a) as [Ha0|Ha0].
      + destruct (Qlt_le_dec b 1) as [Hb1|Hb1].
        * (* r small: in E, below 1-b *)
          set (m := fmin a (1 - b)). assert (Hm : (0 < m)%Q /\ (m <= a)%Q /\ (m <= 1 - b)%Q).
          { unfold m, fmin. destruct (Qltb (1 - b) a) eqn:E1; rewrite ?Qltb_iff, ?Qltb_false in *; lra. }
          assert (Hr : (0 < m / 2 < 1)%Q) by (split; [apply Qlt_shift_div_l|apply Qlt_shift_div_r]; lra).
          assert (Hm2 : (m / 2 < m)%Q) by (apply Qlt_shift_div_r; lra).
          apply (proj2 (Pb _ Hr)); [lra|]. apply (proj1 (Pa _ Hr)). lra.
        * assert (Hr : (0 < (a + 1) / 2 < 1)%Q) by (split; [apply Qlt_shift_div_l|apply Qlt_shift_div_r]; lra).
          assert (H1 : (a < (a + 1) / 2)%Q) by (apply Qlt_shift_div_l; lra).
          apply (proj2 (Pa _ Hr) H1). apply (proj1 (Pb _ Hr)). lra.
      + assert (Hr : (0 < 1 - b / 2 < 1)%Q).
        { assert (0 < b / 2)%Q by (apply Qlt_shift_div_l; lra). assert (b / 2 < 1)%Q by (apply Qlt_shift_div_r; lra). lra. }
        apply (proj2 (Pa _ Hr)); [lra|]. apply (proj1 (Pb _ Hr)). assert (b / 2 < b)%Q by (apply Qlt_shift_div_r; lra). lra.
    - (* E = (1-a,1) and E = (0,b) *)
      destruct (Qlt_le_dec b 1) as [Hb1|Hb1].
      + destruct (Qlt_le_dec 0 a) as [Ha0|Ha0].
        * (* r close to 1: in E by a, above b *)
          set (m := fmin a (1 - b)). assert (Hm : (0 < m)%Q /\ (m <= a)%Q /\ (m <= 1 - b)%Q).
          { unfold m, fmin. destruct (Qltb (1 - b) a) eqn:E1; rewrite ?Qltb_iff, ?Qltb_false in *; lra. }
          assert (Hm1 : (0 < m / 2)%Q) by (apply Qlt_shift_div_l; lra).
          assert (Hm2 : (m / 2 < m)%Q) by (apply Qlt_shift_div_r; lra).
          assert (Hr : (0 < 1 - m / 2 < 1)%Q) by lra.
          apply (proj2 (Pb _ Hr)); [lra|]. apply (proj1 (Pa _ Hr)). lra.
        * assert (Hr : (0 < b / 2 < 1)%Q) by (split; [apply Qlt_shift_div_l|apply Qlt_shift_div_r]; lra).
          apply (proj2 (Pa _ Hr)); [lra|]. apply (proj1 (Pb _ Hr)). apply Qlt_shift_div_r; lra.
      + assert (Hr : (0 < (1 - a) / 2 < 1)%Q) by (split; [apply Qlt_shift_div_l|apply Qlt_shift_div_r]; lra).
        assert (H1 : ((1 - a) / 2 < 1 - a)%Q) by (apply Qlt_shift_div_r; lra).
        apply (proj2 (Pa _ Hr) H1). apply (proj1 (Pb _ Hr)). lra.
    - assert (Hr : (0 < 1 - (a + b) / 2 < 1)%Q).
      { assert (0 < (a + b) / 2)%Q by (apply Qlt_shift_div_l; lra). assert ((a + b) / 2 < 1)%Q by (apply Qlt_shift_div_r; lra). lra. }
      assert (H1 : (a < (a + b) / 2)%Q) by (apply Qlt_shift_div_l; lra).
      assert (H2 : ((a + b) / 2 < b)%Q) by (apply Qlt_shift_div_r; lra).
      apply (proj2 (Pa _ Hr)); [lra|]. apply (proj1 (Pb _ Hr)). lra. }
  intros H H'. destruct (Qlt_le_dec q q') as [Hl|Hl]; [exfalso; exact (HS _ _ H H' Hl)|].
  destruct (Qlt_le_dec q' q) as [Hl'|Hl']; [exfalso; exact (HS _ _ H' H Hl')|]. lra.
Qed.

Lemma probability_one (E : Q -> Prop) : (forall r, E r) -> has_probability E 1.
Proof. intros H. split; [lra|]. left. intros r Hr. split; [auto|]. intros ? _. lra. Qed.
Lemma probability_zero (E : Q -> Prop) : (forall r, ~ E r) -> has_probability E 0.
Proof. intros H. split; [lra|]. left. intros r Hr. split; [intros; lra|auto]. Qed.
Lemma probability_upto (E : Q -> Prop) q : (0 <= q <= 1)%Q -> (forall r, E r <-> (r <= q)%Q) -> has_probability E q.
Proof. intros Hq H. split; [exact Hq|]. left. intros r Hr. split; [intros; apply H; lra|intros ? X; apply H in X; lra]. Qed.
Lemma probability_beyond (E : Q -> Prop) q : (0 <= q <= 1)%Q -> (forall r, E r <-> ~ (r <= q)%Q) -> has_probability E (1 - q).
Proof. intros Hq H. split; [lra|]. right. intros r Hr. split; [intros; apply H; intros X; lra|intros ? X; apply H in X; apply X; lra]. Qed.
Lemma probability_comp E E' q : (forall r, E r <-> E' r) -> has_probability E q -> has_probability E' q.
Proof.
  intros H [Hq HE]. split; [exact Hq|]. destruct HE as [HE|HE]; [left|right]; intros r Hr; destruct (HE r Hr) as [A B]; split; rewrite <- H; auto.
Qed.

(** Every step has probabilities. *)
Lemma threshold_exists num den : exists q, (0 <= q <= 1)%Q /\ forall r, (0 < r < 1)%Q -> ((r < q)%Q -> at_most_ratio r num den = true) /\ ((q < r)%Q -> at_most_ratio r num den = false).
Proof.
  unfold at_most_ratio. destruct (Qeq_bool den 0).
  - destruct (Qltb 0 num); [exists 1%Q|exists 0%Q]; (split; [lra|]); intros r Hr; split; intros; try reflexivity; lra.
  - exists (project (num / den) 0 1). destruct (Qlt_le_dec (num / den) 0) as [H|H]; [|destruct (Qlt_le_dec 1 (num / den)) as [H'|H']].
    + pose proof (project_below (num / den) 0 1 ltac:(lra)) as E. split; [lra|]. intros r Hr. split; intros; [lra|].
      destruct (Qle_bool r (num / den)) eqn:EQ; [apply Qle_bool_iff in EQ; lra|reflexivity].
    + pose proof (project_above (num / den) 0 1 ltac:(lra)) as E. split; [lra|]. intros r Hr. split; intros; [|lra].
      apply Qle_bool_iff. lra.
    + pose proof (project_in (num / den) 0 1 ltac:(lra)) as E. split; [lra|]. intros r Hr. split; intros.
      * apply Qle_bool_iff. lra.
      * destruct (Qle_bool r (num / den)) eqn:EQ; [apply Qle_bool_iff in EQ; lra|reflexivity].
Qed.

Lemma step_probability_exists x prev_y y : exists q, has_probability (fun r => next x prev_y y r = Qceiling y) q.
Proof.
  destruct (Z.eq_dec (Qfloor y) (Qceiling y)) as [HE|HNE].
  { exists 1%Q. apply probability_one. intros r. destruct (next_neighbour x prev_y y r); congruence. }
  unfold next. destruct (Qle_bool prev_y y).
  - destruct (Z.eqb_spec x (Qceiling y)) as [->|]; [exists 1%Q; apply probability_one; reflexivity|].
    destruct (threshold_exists (y - project prev_y (inject_Z (Qfloor y)) (inject_Z (Qceiling y)))
                (1 - frac (project prev_y (inject_Z (Qfloor y)) (inject_Z (Qceiling y))))) as (q & Hq & H).
    exists q. split; [exact Hq|]. left. intros r Hr. destruct (H r Hr) as [A B]. split; intros Hl.
    + rewrite (A Hl). reflexivity.
    + rewrite (B Hl). exact HNE.
  - destruct (Z.eqb_spec x (Qfloor y)) as [->|]; [exists 0%Q; apply probability_zero; intros _; exact HNE|].
    destruct (threshold_exists (project prev_y (inject_Z (Qfloor y)) (inject_Z (Qceiling y)) - y)
                (frac (project prev_y (inject_Z (Qfloor y)) (inject_Z (Qceiling y))))) as (q & Hq & H).
    exists (1 - q)%Q. split; [lra|]. right. intros r Hr. destruct (H r Hr) as [A B]. split; intros Hl.
    + rewrite B by lra. reflexivity.
    + rewrite A by lra. exact HNE.
Qed.

(** ** Distributions *)
Lemma after_mass up y mu : mass (after up y mu) == mass mu.
Proof.
  induction mu as [|[q x] mu IH]; [reflexivity|]. unfold mass in *. cbn [after flat_map app map Qsum fst snd]. fold (after up y mu). rewrite IH. lra.
Qed.

Lemma after_mean up y mu a b : Forall (fun e => up (snd e) == a + b * inject_Z (snd e)) mu ->
  mean_of (after up y mu) == inject_Z (Qfloor y) * mass mu + (inject_Z (Qceiling y) - inject_Z (Qfloor y)) * (a * mass mu + b * mean_of mu).
Proof.
  induction 1 as [|[q x] mu Hx _ IH]; [unfold mass, mean_of; cbn; ring|].
  unfold mass, mean_of in *. cbn [after flat_map app map Qsum fst snd] in *. fold (after up y mu). rewrite IH, Hx. ring.
Qed.

Lemma after_mean_integer up y mu : Qfloor y = Qceiling y -> mean_of (after up y mu) == inject_Z (Qfloor y) * mass mu.
Proof.
  intros E. induction mu as [|[q x] mu IH]; [unfold mass, mean_of; cbn; ring|].
  unfold mass, mean_of in *. cbn [after flat_map app map Qsum fst snd] in *. fold (after up y mu). rewrite IH, E. ring.
Qed.

Lemma after_support prev_y up y mu : step_probabilities prev_y y up -> Forall (fun e => (0 <= fst e)%Q) mu ->
  Forall (fun e => (0 <= fst e)%Q /\ (snd e = Qfloor y \/ snd e = Qceiling y)) (after up y mu).
Proof.
  intros HP. induction 1 as [|[q x] mu Hq _ IH]; [constructor|]. cbn [after flat_map app fst snd] in *.
  destruct (HP x) as [Hu _].
  constructor; [cbn [fst snd]; split; [apply Qmult_le_0_compat; [exact Hq|lra]|auto]|].
  constructor; [cbn [fst snd]; split; [apply Qmult_le_0_compat; [exact Hq|lra]|auto]|]. exact IH.
Qed.

(** ** One step *)
Section Step.
  Variable prev_y y : Q.
  Variable up : Z -> Q.
  Hypothesis HP : step_probabilities prev_y y up.
  Hypothesis HY : Qceiling y = Qfloor y + 1.
  Hypothesis HYb : (inject_Z (Qfloor y) < y < inject_Z (Qfloor y) + 1)%Q.
  Notation lo := (Qfloor y).
  Let proj := project prev_y (inject_Z lo) (inject_Z (Qceiling y)).

  Lemma ceil_q : inject_Z (Qceiling y) == inject_Z lo + 1.
  Proof. rewrite HY. apply inject_1. Qed.

  Lemma up_rise x q : (prev_y <= y)%Q -> x <> Qceiling y -> proj == q -> (inject_Z lo <= q <= y)%Q ->
    up x == (y - q) / (1 - (q - inject_Z lo)).
  Proof.
    intros Hle Hx Hproj Hq. assert (EF : Qfloor q = lo) by (apply floor_unique; lra).
    assert (EFr : frac proj == q - inject_Z lo) by (rewrite (frac_comp _ _ Hproj); unfold frac; rewrite EF; reflexivity).
    set (th := ((y - q) / (1 - (q - inject_Z lo)))%Q).
    assert (Hden : (0 < 1 - (q - inject_Z lo))%Q) by lra.
    assert (Hth : (0 <= th <= 1)%Q) by (split; [apply Qle_shift_div_l|apply Qle_shift_div_r]; lra).
    assert (HE : th == (y - proj) / (1 - frac proj)) by (unfold th; rewrite EFr, Hproj; reflexivity).
    eapply probability_unique; [apply HP|]. apply probability_upto; [exact Hth|]. intros r.
    unfold next. rewrite (proj2 (Qle_bool_iff _ _) Hle). rewrite (proj2 (Z.eqb_neq _ _) Hx). fold proj.
    assert (HR : at_most_ratio r (y - proj) (1 - frac proj) = true <-> (r <= th)%Q) by (rewrite HE; apply ratio_pos; lra).
    destruct (at_most_ratio r (y - proj) (1 - frac proj)) eqn:ER; split; intros H.
    - apply HR. reflexivity.
    - reflexivity.
    - exfalso. lia.
    - apply HR in H. discriminate.
  Qed.

  Lemma up_stay : (prev_y <= y)%Q -> up (Qceiling y) == 1.
  Proof.
    intros Hle. eapply probability_unique; [apply HP|]. apply probability_one. intros r.
    unfold next. rewrite (proj2 (Qle_bool_iff _ _) Hle), Z.eqb_refl. reflexivity.
  Qed.

  Lemma up_floor : (y < prev_y)%Q -> up lo == 0.
  Proof.
    intros Hlt. eapply probability_unique; [apply HP|]. apply probability_zero. intros r.
    unfold next. destruct (Qle_bool prev_y y) eqn:E; [apply Qle_bool_iff in E; lra|]. rewrite Z.eqb_refl. lia.
  Qed.

  Lemma up_drop x : (y < prev_y)%Q -> (prev_y < inject_Z (Qceiling y))%Q -> x <> lo ->
    up x == 1 - (prev_y - y) / (prev_y - inject_Z lo).
  Proof.
    intros Hlt Hc Hx. rewrite ceil_q in Hc.
    assert (Hproj : proj == prev_y) by (apply project_in; rewrite ceil_q; lra).
    assert (EF : Qfloor prev_y = lo) by (apply floor_unique; lra).
    assert (EFr : frac proj == prev_y - inject_Z lo) by (rewrite (frac_comp _ _ Hproj); unfold frac; rewrite EF; reflexivity).
    set (th := ((prev_y - y) / (prev_y - inject_Z lo))%Q).
    assert (Hden : (0 < prev_y - inject_Z lo)%Q) by lra.
    assert (Hth : (0 <= th <= 1)%Q) by (split; [apply Qle_shift_div_l|apply Qle_shift_div_r]; lra).
    assert (HE : th == (proj - y) / frac proj) by (unfold th; rewrite EFr, Hproj; reflexivity).
    eapply probability_unique; [apply HP|]. apply probability_beyond; [exact Hth|]. intros r.
    unfold next. destruct (Qle_bool prev_y y) eqn:E; [apply Qle_bool_iff in E; lra|]. rewrite (proj2 (Z.eqb_neq _ _) Hx). fold proj.
    assert (HR : at_most_ratio r (proj - y) (frac proj) = true <-> (r <= th)%Q) by (rewrite HE; apply ratio_pos; lra).
    destruct (at_most_ratio r (proj - y) (frac proj)) eqn:ER; split; intros H.
    - exfalso. lia.
    - exfalso. apply H. apply HR. reflexivity.
    - intros H'. apply HR in H'. discriminate.
    - reflexivity.
  Qed.

  Lemma step_mean mu : rounding mu prev_y -> gentle prev_y y -> mean_of (after up y mu) == y.
  Proof.
    intros (HS & HM & HE) HG.
    assert (HQ : forall a b, Forall (fun e => up (snd e) == a + b * inject_Z (snd e)) mu -> a + b * prev_y == y - inject_Z lo ->
                 mean_of (after up y mu) == y).
    { intros a b HF HA. rewrite (after_mean up y mu a b HF), HM, HE, ceil_q. lra. }
    destruct (Qlt_le_dec y prev_y) as [Hlt|Hle].
    - destruct HG as [HG|[HG|HG]]; [lia|lra|]. pose proof HG as HG'. rewrite ceil_q in HG'.
      assert (EF : Qfloor prev_y = lo) by (apply floor_unique; lra).
      assert (EC : Qceiling prev_y = Qceiling y) by (apply ceil_unique; rewrite ceil_q; lra).
      set (p := ((prev_y - y) / (prev_y - inject_Z lo))%Q).
      apply (HQ (- (1 - p) * inject_Z lo)%Q (1 - p)%Q).
      + eapply Forall_impl; [|exact HS]. intros [q x] [_ Hx]. cbn [snd] in *. rewrite EF, EC in Hx. destruct Hx as [->| ->].
        * rewrite (up_floor Hlt). ring.
        * rewrite (up_drop (Qceiling y) Hlt HG) by lia. fold p. rewrite ceil_q. ring.
      + unfold p. field. lra.
    - destruct (Qlt_le_dec prev_y (inject_Z lo)) as [Hfar|Hnear].
      + assert (HC : Qceiling prev_y <= lo).
        { pose proof (Qceiling_resp_le prev_y (inject_Z lo) ltac:(lra)) as H. rewrite Qceiling_Z in H. exact H. }
        assert (HF : Qfloor prev_y <= lo).
        { pose proof (Qfloor_resp_le prev_y (inject_Z lo) ltac:(lra)) as H. rewrite Qfloor_Z in H. exact H. }
        assert (Hproj : proj == inject_Z lo) by (apply project_below; rewrite ceil_q; lra).
        apply (HQ (y - inject_Z lo)%Q 0%Q); [|ring].
        eapply Forall_impl; [|exact HS]. intros [q x] [_ Hx]. cbn [snd] in *.
        rewrite (up_rise x (inject_Z lo) Hle ltac:(lia) Hproj ltac:(lra)). field. lra.
      + assert (EF : Qfloor prev_y = lo) by (apply floor_unique; lra).
        assert (HC : Qceiling prev_y = lo \/ Qceiling prev_y = Qceiling y) by (destruct (cell prev_y) as [[A B]|[A B]]; lia).
        assert (Hproj : proj == prev_y) by (apply project_in; rewrite ceil_q; lra).
        set (p := ((y - prev_y) / (1 - (prev_y - inject_Z lo)))%Q).
        apply (HQ (p - (1 - p) * inject_Z lo)%Q (1 - p)%Q).
        * eapply Forall_impl; [|exact HS]. intros [q x] [_ Hx]. cbn [snd] in *. rewrite EF in Hx.
          assert (Hx' : x = lo \/ x = Qceiling y) by (destruct HC as [HC|HC]; rewrite HC in Hx; tauto). destruct Hx' as [->| ->].
          -- rewrite (up_rise lo prev_y Hle ltac:(lia) Hproj ltac:(lra)). fold p. ring.
          -- rewrite (up_stay Hle), ceil_q. ring.
        * unfold p. field. lra.
  Qed.
End Step.

Lemma step_rounding prev_y y up mu : step_probabilities prev_y y up -> rounding mu prev_y -> gentle prev_y y -> rounding (after up y mu) y.
Proof.
  intros HP HR HG. pose proof HR as (HS & HM & _). split; [|split].
  - eapply after_support; [exact HP|]. eapply Forall_impl; [|exact HS]. intros e [H _]. exact H.
  - rewrite after_mass. exact HM.
  - destruct (cell y) as [[A B]|[A B]].
    + rewrite (after_mean_integer up y mu A), HM. lra.
    + apply (step_mean prev_y y up HP A B mu HR HG).
Qed.

Lemma evolves_rounding prev_y mu ys mu' : evolves prev_y mu ys mu' -> rounding mu prev_y -> gentle_trajectory prev_y ys -> rounding mu' (last ys prev_y).
Proof.
  intros H. induction H as [y mu|prev_y mu y up ys mu' HP _ IH]; intros HR HG; [exact HR|].
  destruct HG as [HG1 HG2]. specialize (IH (step_rounding prev_y y up mu HP HR HG1) HG2).
  destruct ys as [|y' ys]; [exact IH|]. change (last (y :: y' :: ys) prev_y) with (last (y' :: ys) prev_y).
  assert (E : forall (l : list Q) a d d', last (a :: l) d = last (a :: l) d').
  { induction l as [|b l IHl]; intros a d d'; [reflexivity|]. change (last (b :: l) d = last (b :: l) d'). apply IHl. }
  rewrite (E ys y' prev_y y). exact IH.
Qed.

Lemma evolves_exists ys : forall prev_y mu, exists mu', evolves prev_y mu ys mu'.
Proof.
  induction ys as [|y ys IH]; intros prev_y mu; [exists mu; constructor|].
  (* probabilities, as a function of the previous integer *)
  assert (HU : exists up, step_probabilities prev_y y up).
  { (* the probability only depends on whether [x] is the floor or the ceiling *)
    destruct (step_probability_exists (Qfloor y) prev_y y) as [qf Hf].
    destruct (step_probability_exists (Qceiling y) prev_y y) as [qc Hc].
    destruct (step_probability_exists (Qceiling y + 1) prev_y y) as [q Hq].
    exists (fun x => if x =? Qceiling y then qc else if x =? Qfloor y then qf else q). intros x.
    destruct (Z.eqb_spec x (Qceiling y)) as [->|N1]; [exact Hc|]. destruct (Z.eqb_spec x (Qfloor y)) as [->|N2]; [exact Hf|].
    assert (HFC : Qfloor y <= Qceiling y) by (destruct (cell y) as [[A _]|[A _]]; lia).
    eapply probability_comp; [|exact Hq]. intros r. unfold next.
    rewrite (proj2 (Z.eqb_neq _ _) N1), (proj2 (Z.eqb_neq _ _) N2).
    rewrite (proj2 (Z.eqb_neq (Qceiling y + 1) (Qceiling y))), (proj2 (Z.eqb_neq (Qceiling y + 1) (Qfloor y))) by lia. reflexivity. }
  destruct HU as [up HU]. destruct (IH y (after up y mu)) as [mu' H]. exists mu'. econstructor; eassumption.
Qed.

(** ** The deviation *)
Lemma steep_floor prev_x prev_y y r : (y < prev_y)%Q -> (inject_Z (Qceiling y) <= prev_y)%Q -> Qfloor y <> Qceiling y ->
  next prev_x prev_y y r = Qfloor y.
Proof.
  intros Hlt Hc HN. destruct (cell y) as [[A _]|[A B]]; [congruence|].
  unfold next. destruct (Qle_bool prev_y y) eqn:E; [apply Qle_bool_iff in E; lra|].
  destruct (Z.eqb_spec prev_x (Qfloor y)) as [->|]; [reflexivity|].
  set (proj := project _ _ _). assert (HC : inject_Z (Qceiling y) == inject_Z (Qfloor y) + 1) by (rewrite A; apply inject_1).
  assert (Hproj : proj == inject_Z (Qceiling y)) by (apply project_above; lra).
  assert (HF : frac proj == 0) by (rewrite (frac_comp _ _ Hproj); apply frac_integer).
  unfold at_most_ratio. rewrite (proj2 (Qeq_bool_iff _ _) HF). rewrite (proj2 (Qltb_iff _ _)) by lra. reflexivity.
Qed.

(** ** The algorithm *)
Section Algorithm.
  Context {C D M : Type}.
  Variable vmerge : C -> C -> outcome C.
  Variable execute : online (gssco Q C D) -> list (list Q) -> option M -> outcome (list Q * option M).

  Lemma randomized_ok r o t xs m x m' : randomized vmerge execute r o t xs m = Ok (x, m') ->
    exists y rm j, execute (mkOnline (ssco_into_f vmerge (on_p o)) 0) (schedule_to xs) (rm_relax m) = Ok (y, rm) /\
      m' = Some (mkRM y rm) /\ x = [j] /\ (exists y0 ys, y = y0 :: ys /\ (j = Qfloor y0 \/ j = Qceiling y0)) /\ g_d (on_p o) = 1 /\ on_w o = 0.
  Proof.
    unfold randomized. destruct (Z.eqb_spec (on_w o) 0) as [Hw|]; [|discriminate]. destruct (Z.eqb_spec (g_d (on_p o)) 1) as [Hd|]; [|discriminate].
    cbn [negb]. rewrite Hw. destruct (execute _ _ _) as [[y rm]| |] eqn:E; try discriminate. cbn [obind fst snd].
    destruct (nth_error (last xs [0]) 0) as [px|]; [|discriminate]. destruct (nth_error (rm_y m) 0) as [py|]; [|discriminate]. cbn [from_option obind].
    destruct y as [|y0 ys]; [discriminate|]. cbn [nth_error from_option obind]. intros H.
    assert (Hx : x = [next px py y0 r]) by congruence. assert (Hm : m' = Some (mkRM (y0 :: ys) rm)) by congruence.
    exists (y0 :: ys), rm, (next px py y0 r). split; [reflexivity|]. split; [exact Hm|]. split; [exact Hx|]. split; [|auto].
    exists y0, ys. split; [reflexivity|]. apply next_neighbour.
  Qed.

  Lemma randomized_run merge outside s (draw : Z -> Q) u o : g_bounds (on_p o) = [u] ->
    (forall t q xs m y m', execute (mkOnline (ssco_into_f vmerge q) 0) xs m = Ok (y, m') -> q = g_at (on_p o) t ->
       exists y0, y = [y0] /\ (0 <= y0 <= inject_Z u)%Q) ->
    forall xs m ys m',
    chooses (ssco_ops valZ merge vmerge outside s) (fun o t => randomized vmerge execute (draw t) o t) (fun _ => rand_default) o xs m ys m' ->
    Forall (feasible_config (g_bounds (on_p o))) ys.
  Proof.
    intros Hu HE xs m ys m' H. induction H as [|xs m x m1 ys m' t Hx _ IH]; constructor; [|exact IH].
    apply randomized_ok in Hx as (y & rm & j & HEx & _ & -> & (y0 & l & -> & Hj) & _ & _).
    destruct (HE t _ _ _ _ _ HEx eq_refl) as (y1 & E & Hb). assert (y1 = y0) by congruence. subst y1.
    rewrite Hu. constructor; [|constructor]. eapply neighbour_bounds; eassumption.
  Qed.
End Algorithm.

Lemma trajectory_rounding ys mu : evolves 0 [(1%Q, 0)] ys mu -> gentle_trajectory 0 ys -> rounding mu (last ys 0%Q).
Proof.
  intros H HG. apply (evolves_rounding 0 _ ys mu H); [|exact HG]. split; [|split; reflexivity].
  constructor; [|constructor]. split; [cbn; lra|left; reflexivity].
Qed.

Lemma step_probability_unique x prev_y y : exists q, has_probability (fun r => next x prev_y y r = Qceiling y) q /\
    forall q', has_probability (fun r => next x prev_y y r = Qceiling y) q' -> (q' == q)%Q.
Proof.
  destruct (step_probability_exists x prev_y y) as [q H]. exists q. split; [exact H|]. intros q' H'. eapply probability_unique; eassumption.
Qed.

Lemma steep_biased prev_y y up mu : ~ gentle prev_y y -> step_probabilities prev_y y up -> rounding mu prev_y ->
  (forall x r, next x prev_y y r = Qfloor y) /\
  (mean_of (after up y mu) == inject_Z (Qfloor y))%Q /\ (inject_Z (Qfloor y) < y)%Q.
Proof.
  intros HG HP (_ & HM & _). unfold gentle in HG.
  assert (HN : Qfloor y <> Qceiling y) by tauto.
  assert (Hlt : (y < prev_y)%Q) by (destruct (Qlt_le_dec y prev_y); [assumption|exfalso; tauto]).
  assert (Hc : (inject_Z (Qceiling y) <= prev_y)%Q) by (destruct (Qlt_le_dec prev_y (inject_Z (Qceiling y))); [exfalso; tauto|assumption]).
  assert (HF : forall x r, next x prev_y y r = Qfloor y) by (intros; apply steep_floor; assumption).
  split; [exact HF|]. split.
  - rewrite (after_mean up y mu 0 0); [rewrite HM; ring|]. apply Forall_forall. intros [q x] _. cbn [snd].
    rewrite (probability_unique _ (up x) 0 (HP x)); [ring|]. apply probability_zero. intros r. rewrite HF. exact HN.
  - destruct (cell y) as [[A _]|[_ B]]; [congruence|]. apply B.
Qed.
