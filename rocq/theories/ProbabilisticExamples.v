(** Concrete instances for the properties of ProbabilisticProps, and a density whose mass is
    not 1. *)
From Coq Require Import Lia Lqa Qabs.
From Verif Require Import NumLemmas OptimizeBrute OptimizeProofs ConvertProofs PiecewiseProofs DescentProofs DescentBounds DescentExamples
  ProbabilisticModel ProbabilisticSpec ProbabilisticProofs ProbabilisticProps.
From Verif Require Import ProblemModel CostModel.
Local Open Scope Z_scope.

(** ** Oracles *)
Example careful_exact : exact_nlopt careful.
Proof.
  intros a f bounds cs x0 HS Ha Hx0 Hr Ht. destruct (brute_exact a f bounds cs x0 HS Ha Hx0 Hr Ht) as (s & v & y & E & Hs1 & Hs2 & Hy & H).
  exists s, v, y. split; [|auto]. unfold careful. rewrite E. cbn [obind nl_bounds nl_point].
  assert ((length (map (fun b => (Num (fst b), Num (snd b))) bounds) =? length y)%nat &&
    forallb (fun bj => inside_num (fst bj) (snd bj)) (combine (map (fun b => (Num (fst b), Num (snd b))) bounds) y) = true) as ->; [|reflexivity].
  clear -Hy. induction Hy as [|b j bounds y (H1 & H2) Hy IH]; [reflexivity|].
  apply andb_prop in IH as (I1 & I2). cbn [map combine forallb length Nat.eqb fst snd]. rewrite I1, I2.
  unfold inside_num. cbn [fst snd ngtb].
  assert (forall p q, (p <= q)%Q -> Qltb q p = false) as N.
  { intros p q Hpq. destruct (Qltb q p) eqn:G; [|reflexivity]. apply Qltb_iff in G. lra. }
  rewrite (N _ _ H1), (N _ _ H2). reflexivity.
Qed.

(** Bisection for growing functions. *)
Definition halve (n : nat) (ab : Q * Q) (f : Q -> outcome fnum) : outcome Q :=
  do x <- bisect n ab (fun x => do v <- f x; nscale (-1) v);
  if Qle_bool (fst ab) x && Qle_bool x (snd ab) then Ok x else Panic.
Example halve_keeps n : keeps_interval (halve n).
Proof.
  intros a b f x E. unfold halve in E. apply obind_Ok in E as (y & _ & E). destruct (_ && _) eqn:G in E; [|discriminate].
  injection E as <-. apply andb_prop in G as (G1 & G2). apply Qle_bool_iff in G1, G2. auto.
Qed.

(** Central differences. *)
Definition difference (f : Q -> outcome fnum) (x : Q) : outcome (option fnum) :=
  do r <- f (x + (1 # 10))%Q; do l <- f (x - (1 # 10))%Q;
  match r, l with Num r, Num l => Ok (Some (Num ((r - l) / (2 # 10)))) | _, _ => Ok None end.
Definition difference2 (f : Q -> outcome fnum) (x : Q) : outcome (option fnum) :=
  do r <- f (x + (1 # 10))%Q; do m <- f x; do l <- f (x - (1 # 10))%Q;
  match r, m, l with Num r, Num m, Num l => Ok (Some (Num ((r - 2 * m + l) / (1 # 100)))) | _, _, _ => Ok None end.

(** Quadrature: points and their weights. *)
Definition nodes : list (Q * Q) :=
  (PROB_EPSILON / 2, PROB_EPSILON)%Q :: map (fun k => ((2 * inject_Z k + 1) / 20, 1 # 10)%Q) (zrange 0 20).
Definition weigh (f : density) (a b : point) (n : Q * Q) : Q :=
  if negb (point_leb (Pt (fst n)) a) && point_leb (Pt (fst n)) b then
    match f (fst n) with Ok (Num v) => (snd n * v)%Q | _ => 0%Q end
  else 0%Q.
Definition weighted (f : density) (a b : point) : Q := Qsum (map (weigh f a b) nodes).

Lemma point_leb_iff a b : point_leb a b = true <-> point_le a b.
Proof.
  destruct a, b; cbn [point_leb point_le]; rewrite ?Qle_bool_iff; (split; intros H; try exact I; try reflexivity; try discriminate H; try contradiction; exact H).
Qed.
Lemma point_le_trans a b c : point_le a b -> point_le b c -> point_le a c.
Proof. destruct a, b, c; cbn [point_le]; auto; try contradiction. intros H1 H2. lra. Qed.
Lemma point_le_or a b : point_le a b \/ point_le b a.
Proof. destruct a as [|x|], b as [|y|]; cbn [point_le]; auto. destruct (Qlt_le_dec x y); [left; lra|right; assumption]. Qed.

Example weighted_exact f : exact_quadrature (weighted f).
Proof.
  split.
  - intros a b c Hab Hbc. unfold weighted. generalize nodes. intros l. unfold Qsum. induction l as [|(x, w) l IH]; [reflexivity|].
    cbn [map fold_right]. rewrite <- IH. clear IH.
    assert (weigh f a b (x, w) + weigh f b c (x, w) == weigh f a c (x, w))%Q as <-; [|ring].
    unfold weigh. cbn [fst snd]. set (v := match f x with Ok (Num v) => _ | _ => _ end). clearbody v.
    destruct (point_leb (Pt x) a) eqn:A; cbn [negb andb].
    + assert (point_leb (Pt x) b = true) as -> by (apply point_leb_iff in A; apply point_leb_iff; eapply point_le_trans; eassumption).
      cbn [negb andb]. ring.
    + destruct (point_leb (Pt x) b) eqn:B; cbn [negb andb].
      * assert (point_leb (Pt x) c = true) as -> by (apply point_leb_iff in B; apply point_leb_iff; eapply point_le_trans; eassumption). ring.
      * ring.
  - intros a a' b b' (A1 & A2) (B1 & B2). unfold weighted.
    assert (forall x, point_leb (Pt x) a = point_leb (Pt x) a') as E.
    { intros x. destruct (point_leb (Pt x) a) eqn:E; destruct (point_leb (Pt x) a') eqn:E'; try reflexivity; exfalso.
      - apply point_leb_iff in E. assert (point_leb (Pt x) a' = true) by (apply point_leb_iff; eapply point_le_trans; eassumption). congruence.
      - apply point_leb_iff in E'. assert (point_leb (Pt x) a = true) by (apply point_leb_iff; eapply point_le_trans; eassumption). congruence. }
    assert (forall x, point_leb (Pt x) b = point_leb (Pt x) b') as F.
    { intros x. destruct (point_leb (Pt x) b) eqn:G; destruct (point_leb (Pt x) b') eqn:G'; try reflexivity; exfalso.
      - apply point_leb_iff in G. assert (point_leb (Pt x) b' = true) by (apply point_leb_iff; eapply point_le_trans; eassumption). congruence.
      - apply point_leb_iff in G'. assert (point_leb (Pt x) b = true) by (apply point_leb_iff; eapply point_le_trans; eassumption). congruence. }
    generalize nodes. intros l. unfold Qsum. induction l as [|(x, w) l IH]; [reflexivity|]. cbn [map fold_right]. rewrite IH.
    unfold weigh. cbn [fst snd]. rewrite E, F. reflexivity.
Qed.
(** The initial density has mass 1. *)
Example initial_mass : (weighted (pm_p prob_default) MInf PInf == 1)%Q.
Proof. vm_compute. reflexivity. Qed.

(** ** C67: hitting costs (j - 1)^2, up to 2 servers, switching cost 1 *)
Definition run (beta : Q) (f : Z -> Q -> Q) :=
  probabilistic careful (halve 12) difference difference2 weighted 20 br_empty (simple 1 2 beta f) 1 [] prob_default.

Lemma simple_at T u beta f t x : 1 <= t -> cost_at (on_p (simple T u beta f)) t x = Ok (Num (f t x)).
Proof.
  intros Ht. unfold cost_at, certain_cost. cbn [simple on_p g_cost]. unfold call_certain. rewrite cf_new_get by auto. cbn [obind fst snd].
  unfold single_certain, single_predictive. rewrite (proj2 (Z.ltb_ge t 1)) by lia. unfold certain. cbn [obind length Nat.eqb negb].
  rewrite andb_false_r. reflexivity.
Qed.
Lemma simple_slope T u beta f t x : 1 <= t ->
  derivative difference (cost_at (on_p (simple T u beta f)) t) x =
    Ok (Num (apply_precision ((f t (x + (1 # 10))%Q - f t (x - (1 # 10))%Q) / (2 # 10))%Q)).
Proof.
  intros Ht. unfold derivative, difference. rewrite !simple_at by assumption. cbn [obind finite negb]. reflexivity.
Qed.
Lemma simple_curve T u beta f t x : 1 <= t ->
  derivative difference2 (cost_at (on_p (simple T u beta f)) t) x =
    Ok (Num (apply_precision ((f t (x + (1 # 10))%Q - 2 * f t x + f t (x - (1 # 10))%Q) / (1 # 100))%Q)).
Proof.
  intros Ht. unfold derivative, difference2. rewrite !simple_at by assumption. cbn [obind finite negb]. reflexivity.
Qed.

(** Evaluates a step from the minimiser, the ends and the mean. *)
Lemma run_at beta f xm v xl xr e :
  find_minimizer_of_hitting_cost careful 1 (g_cost (on_p (simple 1 2 beta f))) [(0, 2)]%Q = Ok ([xm], v) ->
  find_right_bound (halve 12) difference weighted 20 (on_p (simple 1 2 beta f)) 1 (br_add (pm_breakpoints prob_default) br_empty) (pm_p prob_default) xm = Ok xr ->
  find_left_bound (halve 12) difference weighted 20 (on_p (simple 1 2 beta f)) 1 (br_add (pm_breakpoints prob_default) br_empty) (pm_p prob_default) xm = Ok xl ->
  expected_value weighted 20 (br_add (pm_breakpoints prob_default) br_empty)
    (next_density difference2 (on_p (simple 1 2 beta f)) 1 (pm_p prob_default) xl xr) xl xr = Ok e ->
  run beta f = Ok ([if Qltb e xl || Qltb xr e then xm else e],
    Some (mkPM (next_density difference2 (on_p (simple 1 2 beta f)) 1 (pm_p prob_default) xl xr)
               (push_new (push_new (pm_breakpoints prob_default) xl) xr))).
Proof.
  intros E1 E2 E3 E4. unfold run, probabilistic.
  change (negb (on_w (simple 1 2 beta f) =? 0)) with false. change (negb (g_d (on_p (simple 1 2 beta f)) =? 1)) with false.
  cbv iota zeta. change (nth_error (g_bounds (on_p (simple 1 2 beta f))) 0) with (Some 2%Q). cbn [from_option obind].
  rewrite E1. cbn [obind fst nth_error from_option]. rewrite E2. cbn [obind]. rewrite E3. cbn [obind]. rewrite E4. reflexivity.
Qed.

Lemma parabola_run : exists e, run 1 parabola = Ok ([e],
    Some (mkPM (next_density difference2 (on_p (simple 1 2 1 parabola)) 1 (pm_p prob_default) 0 (100 # 100))
               [0; PROB_EPSILON; 100 # 100]%Q)) /\ ((1 # 2) < e < 6 # 10)%Q.
Proof.
  destruct (expected_value weighted 20 (br_add (pm_breakpoints prob_default) br_empty)
    (next_density difference2 (on_p (simple 1 2 1 parabola)) 1 (pm_p prob_default) 0 (100 # 100)) 0 (100 # 100)) as [e|e|] eqn:E;
    [|vm_compute in E; discriminate E..].
  exists e. assert ((1 # 2) < e < 6 # 10)%Q as He.
  { vm_compute in E. injection E as <-. split; reflexivity. }
  split; [|exact He].
  rewrite (run_at 1 parabola (100 # 100) (Num (0 # 10000)) 0 (100 # 100) e).
  - assert (Qltb e 0 || Qltb (100 # 100) e = false) as -> by (apply orb_false_intro; apply Qltb_false; lra).
    assert (push_new (push_new (pm_breakpoints prob_default) 0) (100 # 100) = [0; PROB_EPSILON; 100 # 100]%Q) as -> by (vm_compute; reflexivity).
    reflexivity.
  - vm_compute. reflexivity.
  - vm_compute. reflexivity.
  - vm_compute. reflexivity.
  - exact E.
Qed.

Lemma default_nonnegative : nonnegative (pm_p prob_default).
Proof.
  intros x. cbn [prob_default pm_p]. destruct (_ && _); eexists; (split; [reflexivity|]); unfold PROB_EPSILON; vm_compute; discriminate.
Qed.
Lemma weighted_nonnegative f a b : nonnegative f -> (0 <= weighted f a b)%Q.
Proof.
  intros Hf. unfold weighted. assert (Forall (fun n => 0 <= snd n)%Q nodes) as Hn.
  { unfold nodes. constructor; [vm_compute; discriminate|]. apply Forall_forall. intros n Hn. apply in_map_iff in Hn as (k & <- & _). cbn. lra. }
  unfold Qsum. induction Hn as [|(x, w) l Hw Hn IH]; cbn [map fold_right]; [lra|].
  assert (0 <= weigh f a b (x, w))%Q; [|lra]. unfold weigh. cbn [fst snd] in *. destruct (_ && _); [|lra].
  destruct (Hf x) as (v & -> & Hv). apply Qmult_le_0_compat; assumption.
Qed.
Lemma parabola_curve T u beta y : derivative difference2 (cost_at (on_p (simple T u beta parabola)) 1) y = Ok (Num (200 # 100)).
Proof.
  rewrite simple_curve by lia. rewrite (ap_comp _ 2).
  - vm_compute. reflexivity.
  - unfold parabola. field.
Qed.
Lemma parabola_slope T u beta y : exists d, derivative difference (cost_at (on_p (simple T u beta parabola)) 1) y = Ok (Num d) /\
  d = apply_precision (2 * (y - 1)).
Proof.
  eexists. rewrite simple_slope by lia. split; [reflexivity|]. apply ap_comp. unfold parabola. field.
Qed.
Lemma simple_charges T u beta f t : 1 <= t -> charges (g_cost (on_p (simple T u beta f))) [(0%Q, u)] t (lifted f t).
Proof. intros Ht. exact (line_charges manhattan T u f t Ht). Qed.

Lemma parabola_minimizer : find_minimizer_of_hitting_cost careful 1 (g_cost (on_p (simple 1 2 1 parabola))) [(0, 2)]%Q = Ok ([100 # 100]%Q, Num (0 # 10000)).
Proof. vm_compute. reflexivity. Qed.
Lemma default_distinct : distinct (pm_breakpoints prob_default).
Proof. cbn [prob_default pm_breakpoints]. constructor; [constructor; [intros E; vm_compute in E; discriminate|constructor]|constructor; constructor]. Qed.
Lemma default_ordered : ordered_breaks (br_add (pm_breakpoints prob_default) br_empty).
Proof. split; [|exact I]. repeat constructor; vm_compute; reflexivity. Qed.
Lemma default_mass y i : integral_of weighted 20 (br_add (pm_breakpoints prob_default) br_empty) MInf (Pt y) (pm_p prob_default) = Ok i -> (0 <= i)%Q.
Proof.
  intros E.
  assert (interval MInf (Pt y)) as Hi by (split; [exact I|split; discriminate]).
  assert (length (br_fixed (br_add (pm_breakpoints prob_default) br_empty)) < 10)%nat as Hl by (vm_compute; lia).
  rewrite (integral_of_exact _ _ _ _ _ _ _ (weighted_exact _) default_ordered Hi eq_refl Hl E).
  apply weighted_nonnegative, default_nonnegative.
Qed.

(** The hypotheses of [probabilistic_step], [probabilistic_mean], [probabilistic_minimizer],
    [probabilistic_nonnegative_partial], [probabilistic_right_bound_partial] and
    [probabilistic_left_bound_refuted] hold for this step. *)
Example probabilistic_hypotheses :
  let o := simple 1 2 1 parabola in
  g_bounds (on_p o) = [2%Q] /\ g_switching (on_p o) = [1%Q] /\ (0 <= 2)%Q /\ hundredths 2 /\
  keeps_bounds careful /\ keeps_interval (halve 12) /\
  ordered_breaks br_empty /\ br_next br_empty = None /\ distinct (pm_breakpoints prob_default) /\
  (length (br_fixed br_empty) + length (pm_breakpoints prob_default) < 10)%nat /\ (10 <= 20)%nat /\
  (forall f, exact_quadrature (weighted f)) /\
  exact_nlopt careful /\ charges (g_cost (on_p o)) [(0, 2)]%Q 1 (lifted parabola 1) /\ respects_eq eeq (lifted parabola 1) /\
  (0 < 1)%Q /\ (forall y, exists s, derivative difference2 (cost_at (on_p o) 1) y = Ok (Num s) /\ (0 <= s)%Q) /\
  nonnegative (pm_p prob_default) /\
  (exists d, forall y, (0 <= y <= 2)%Q -> derivative difference (cost_at (on_p o) 1) y = Ok (Num (d y))) /\
  (forall xm v, find_minimizer_of_hitting_cost careful 1 (g_cost (on_p o)) [(0, 2)]%Q = Ok ([xm], v) ->
   forall y, (0 <= y <= xm)%Q -> exists d, derivative difference (cost_at (on_p o) 1) y = Ok (Num d) /\ (d <= 0)%Q) /\
  (forall y i, integral_of weighted 20 (br_add (pm_breakpoints prob_default) br_empty) MInf (Pt y) (pm_p prob_default) = Ok i -> (0 <= i)%Q) /\
  exists x m1, run 1 parabola = Ok (x, Some m1).
Proof.
  intros o. repeat (split; [reflexivity|]). split; [lra|]. split; [exists 200; reflexivity|]. split; [exact careful_keeps|].
  split; [exact (halve_keeps 12)|]. split; [split; [constructor|exact I]|]. split; [reflexivity|]. split.
  { exact default_distinct. }
  split; [cbn; lia|]. split; [lia|]. split; [exact weighted_exact|]. split; [exact careful_exact|].
  split; [apply simple_charges; lia|]. split; [apply lifted_comp; intros a b E; unfold parabola; rewrite E; reflexivity|].
  split; [lra|]. split; [intros y; eexists; split; [apply parabola_curve|lra]|]. split; [exact default_nonnegative|].
  split. { exists (fun y => apply_precision (2 * (y - 1))). intros y _. destruct (parabola_slope 1 2 1 y) as (d & E & Hd). rewrite <- Hd. exact E. }
  split.
  { intros xm v E. unfold o in E. rewrite parabola_minimizer in E. injection E as <- _. intros y Hy. destruct (parabola_slope 1 2 1 y) as (d & Ed & Hd).
    exists d. split; [exact Ed|]. rewrite Hd. assert (2 * (y - 1) <= 0)%Q as L by lra. apply ap_mono in L.
    assert (apply_precision 0 == 0)%Q as Z0 by reflexivity. lra. }
  split.
  { exact default_mass. }
  destruct parabola_run as (e & E & _). eexists. eexists. exact E.
Qed.

(** The density should have mass 1.  From the initial density, which has mass 1, a step to
    hitting costs (j - 1)^2 keeps all of it and adds 1 on [0, 1]: mass 2. *)
Theorem probabilistic_mass_refuted :
  exists x m1, run 1 parabola = Ok (x, Some m1) /\
  (forall y v, (0 <= y <= 1)%Q -> pm_p prob_default y = Ok (Num v) -> exists w, pm_p m1 y = Ok (Num w) /\ (w == v + 1)%Q) /\
  (forall y, (y < 0)%Q \/ (1 < y)%Q -> pm_p m1 y = Ok (Num 0)).
Proof.
  destruct parabola_run as (e & E & _). eexists. eexists. split; [exact E|]. cbn [pm_p]. split.
  - intros y v Hy Ev. unfold next_density.
    assert (Qle_bool 0 y = true) as -> by (apply Qle_bool_iff; lra).
    assert (Qle_bool y (100 # 100) = true) as -> by (apply Qle_bool_iff; lra). cbn [andb].
    rewrite Ev, parabola_curve. cbn [obind simple on_p g_switching nth_error from_option nscale nadd].
    eexists. split; [reflexivity|]. assert (1 / (2 * 1) * (200 # 100) == 1)%Q as -> by reflexivity. ring.
  - intros y Hy. apply density_outside. destruct Hy; [left; assumption|right; lra].
Qed.
Print Assumptions probabilistic_mass_refuted.
(** The integral of that density is 2, up to the error of the quadrature. *)
Example mass_two : exists x m1, run 1 parabola = Ok (x, Some m1) /\ (199 # 100 < weighted (pm_p m1) MInf PInf < 201 # 100)%Q.
Proof.
  destruct parabola_run as (e & E & _). eexists. eexists. split; [exact E|]. cbn [pm_p]. vm_compute. split; reflexivity.
Qed.
