(** Proofs about the probabilistic algorithm. *)
From Coq Require Import Lia Lqa Qabs Sorted.
From Verif Require Import NumLemmas OptimizeProofs PiecewiseProofs DescentProofs DescentBounds ProbabilisticModel ProbabilisticSpec.
From Verif Require Import ProblemModel CostModel.
Local Open Scope Z_scope.

(** ** Root finding between multiples of 0.01 *)
Lemma find_root_box brent a b f r : (a <= b)%Q -> hundredths a -> hundredths b -> keeps_interval brent ->
  find_root brent a b f = Ok r -> (a <= r <= b)%Q.
Proof.
  intros Hab Ha Hb Hk E. unfold find_root in E. destruct (Qltb (Qabs (a - b)) PRECISION).
  { injection E as <-. lra. }
  apply obind_Ok in E as (l & _ & E). apply obind_Ok in E as (q & _ & E).
  destruct (ngtb _ _); [injection E as <-; lra|]. destruct (ngtb _ _); [injection E as <-; lra|].
  destruct (same_sign l q).
  { destruct (ngtb _ _); injection E as <-; lra. }
  apply obind_Ok in E as (x & Ex & E). injection E as <-. apply Hk in Ex as (E1 & E2).
  apply ap_mono in E1, E2. pose proof (ap_fix a Ha) as A. pose proof (ap_fix b Hb) as B. lra.
Qed.

(** ** Breakpoints *)
Lemma existsb_contains b bs : existsb (Qeq_bool b) bs = true <-> contains bs b.
Proof.
  rewrite existsb_exists. split; intros (y & Hy & E); exists y; split; auto.
  - apply Qeq_bool_iff in E. symmetry. exact E.
  - apply Qeq_bool_iff. symmetry. exact E.
Qed.
Lemma push_contains bs b x : contains (push_new bs b) x <-> contains bs x \/ (b == x)%Q.
Proof.
  unfold push_new. destruct (existsb (Qeq_bool b) bs) eqn:E.
  - apply existsb_contains in E as (y & Hy & E). split; [auto|]. intros [H|H]; [exact H|].
    exists y. split; [exact Hy|]. rewrite E. exact H.
  - split.
    + intros (y & Hy & H). apply in_app_iff in Hy as [Hy|[<-|[]]]; [left; exists y; auto|right; exact H].
    + intros [(y & Hy & H)|H].
      * exists y. split; [apply in_app_iff; auto|exact H].
      * exists b. split; [apply in_app_iff; right; left; reflexivity|exact H].
Qed.
Lemma push_distinct bs b : distinct bs -> distinct (push_new bs b).
Proof.
  intros H. unfold push_new. destruct (existsb (Qeq_bool b) bs) eqn:E; [exact H|].
  assert (forall y, In y bs -> ~ (y == b)%Q) as Hn.
  { intros y Hy G. assert (existsb (Qeq_bool b) bs = true) as F by (apply existsb_contains; exists y; auto). congruence. }
  clear E. induction H as [|y bs Hy H IH]; cbn [app].
  - constructor; constructor.
  - constructor; [|apply IH; intros z Hz; apply Hn; right; exact Hz].
    apply Forall_app. split; [exact Hy|]. constructor; [apply Hn; left; reflexivity|constructor].
Qed.

(** ** Integrals *)
Lemma pieces_more integral breaks n : forall k dir b to i c r, (n <= k)%nat ->
  pieces_from integral breaks n dir b to i c = Some r -> pieces_from integral breaks k dir b to i c = Some r.
Proof.
  induction n as [|n IH]; intros k dir b to i c r Hk E; [discriminate|]. destruct k as [|k]; [lia|].
  cbn [pieces_from] in *. cbv zeta in *.
  destruct (match dir with ToLeft => _ | ToRight => _ end); [exact E|].
  set (ch := match (if 0 <=? i then _ else _) with Some _ => _ | None => _ end) in *. clearbody ch.
  destruct (fst ch) as [nb|]; [|exact E].
  destruct (match dir with ToLeft => point_leb (Pt nb) to | ToRight => _ end); [exact E|].
  destruct (_ && _); [exact E|]. destruct (pieces_from integral breaks n _ _ _ _ _) eqn:G; [|discriminate].
  rewrite (IH k _ _ _ _ _ _ ltac:(lia) G). exact E.
Qed.
Lemma integral_more integral breaks n k from to v : (n <= k)%nat ->
  piecewise_integral integral breaks n from to = Some v -> piecewise_integral integral breaks k from to = Some v.
Proof.
  intros H. unfold piecewise_integral, piecewise. cbv zeta.
  destruct (pieces_from _ _ n ToLeft _ _ _ _) eqn:E1; [|discriminate].
  destruct (pieces_from _ _ n ToRight _ _ _ _) eqn:E2; [|discriminate].
  rewrite (pieces_more _ _ _ _ _ _ _ _ _ _ H E1), (pieces_more _ _ _ _ _ _ _ _ _ _ H E2). auto.
Qed.
Lemma filter_shorter {A} (f : A -> bool) l : (length (filter f l) <= length l)%nat.
Proof. induction l as [|y l IH]; cbn [filter length]; [lia|]. destruct (f y); cbn [length]; lia. Qed.
Lemma integral_exact integral breaks fuel from to v : exact_quadrature integral -> ordered_breaks breaks -> interval from to ->
  br_next breaks = None -> (length (br_fixed breaks) < 10)%nat ->
  piecewise_integral integral breaks fuel from to = Some v -> (v == integral from to)%Q.
Proof.
  intros HQ HO HI HN HL E. destruct (few_breaks_value integral breaks from to HQ HO HI HN) as (f0 & H).
  { eapply Nat.le_lt_trans; [|exact HL]. unfold only_inside. cbn [br_fixed]. apply filter_shorter. }
  destruct (H (Nat.max f0 fuel) ltac:(lia)) as (w & Ew & Hw).
  assert (fuel <= Nat.max f0 fuel)%nat as Hm by lia. rewrite (integral_more _ _ _ _ _ _ _ Hm E) in Ew. injection Ew as ->. exact Hw.
Qed.

Lemma integral_answers integral breaks fuel from to : StronglySorted Qlt (br_fixed breaks) -> br_next breaks = None ->
  (length (br_fixed breaks) < fuel)%nat -> exists v, piecewise_integral integral breaks fuel from to = Some v.
Proof.
  intros HS HN HL. unfold piecewise_integral. rewrite (piecewise_go _ _ HS). cbv zeta. rewrite HN.
  destruct (go integral None ToLeft _ _ _ _ _) as [l|] eqn:E1.
  2: { exfalso. revert E1. apply go_fixed; [reflexivity|]. rewrite rev_length. eapply Nat.le_lt_trans; [apply filter_shorter|exact HL]. }
  destruct (go integral None ToRight _ _ _ _ _) as [r|] eqn:E2.
  2: { exfalso. revert E2. apply go_fixed; [reflexivity|]. eapply Nat.le_lt_trans; [apply filter_shorter|exact HL]. }
  eexists. reflexivity.
Qed.
Lemma integral_of_exact quadrature fuel breaks from to f i : exact_quadrature (quadrature f) -> ordered_breaks breaks -> interval from to ->
  br_next breaks = None -> (length (br_fixed breaks) < 10)%nat ->
  integral_of quadrature fuel breaks from to f = Ok i -> (i == quadrature f from to)%Q.
Proof.
  intros HQ HO HI HN HL E. unfold integral_of in E. destruct (piecewise_integral _ _ _ _ _) as [v|] eqn:Ev; [|discriminate].
  cbn [from_option] in E. injection E as <-. exact (integral_exact _ _ _ _ _ _ HQ HO HI HN HL Ev).
Qed.
Lemma add_length bs b : (length (br_fixed (br_add bs b)) <= length (br_fixed b) + length bs)%nat.
Proof.
  unfold br_add. cbn [br_fixed].
  assert (forall l, length (sort l) = length l) as Hs.
  { intros l. unfold sort. induction l as [|y l IH]; cbn [fold_right length]; [reflexivity|]. rewrite <- IH.
    generalize (fold_right insert [] l). intros k. induction k as [|z k IHk]; cbn [insert length]; [reflexivity|].
    destruct (Qle_bool y z); cbn [length]; [reflexivity|]. rewrite IHk. reflexivity. }
  rewrite Hs, app_length. apply Nat.add_le_mono_l. apply filter_shorter.
Qed.

Section Probabilistic.
  Context {C D : Type}.
  Variable nlopt : nl_problem -> outcome nl_result.
  Variable brent : Q * Q -> (Q -> outcome fnum) -> outcome Q.
  Variable diff1 diff2 : (Q -> outcome fnum) -> Q -> outcome (option fnum).
  Variable quadrature : density -> point -> point -> Q.
  Variable fuel : nat.
  Variable options : breakpoints.
  Variable o : online (gssco Q C D).
  Let p := on_p o.
  Variable u b : Q.
  Hypothesis Hu : g_bounds p = [u].
  Hypothesis Hb : g_switching p = [b].
  Hypothesis Hu0 : (0 <= u)%Q.
  Hypothesis Hu1 : hundredths u.
  Hypothesis Hk : keeps_bounds nlopt.
  Hypothesis Hi : keeps_interval brent.

  Lemma density_outside t prev xl xr y : (y < xl)%Q \/ (xr < y)%Q -> next_density diff2 p t prev xl xr y = Ok (Num 0).
  Proof.
    intros H. unfold next_density. destruct (Qle_bool xl y && Qle_bool y xr) eqn:E; [|reflexivity].
    apply andb_prop in E as (E1 & E2). apply Qle_bool_iff in E1, E2. exfalso. destruct H; lra.
  Qed.
  Lemma density_inside t prev xl xr y v s : (xl <= y <= xr)%Q -> prev y = Ok (Num v) ->
    derivative diff2 (cost_at p t) y = Ok (Num s) ->
    exists w, next_density diff2 p t prev xl xr y = Ok (Num w) /\ (w == v + s / (2 * b))%Q.
  Proof.
    intros (H1 & H2) Ev Es. unfold next_density. rewrite (proj2 (Qle_bool_iff _ _) H1), (proj2 (Qle_bool_iff _ _) H2).
    cbn [andb]. rewrite Ev, Es, Hb. cbn [nth_error from_option obind nscale nadd]. eexists. split; [reflexivity|].
    unfold Qdiv. ring.
  Qed.

  Lemma step t xs m x m' :
    probabilistic nlopt brent diff1 diff2 quadrature fuel options o t xs m = Ok (x, m') ->
    exists q xm xl xr m1, x = [q] /\ m' = Some m1 /\
      (exists v, find_minimizer_of_hitting_cost nlopt t (g_cost p) [(0%Q, u)] = Ok ([xm], v)) /\
      (0 <= xl)%Q /\ (xl <= xm <= xr)%Q /\ (xr <= u)%Q /\ (xl <= q <= xr)%Q /\
      find_left_bound brent diff1 quadrature fuel p t (br_add (pm_breakpoints m) options) (pm_p m) xm = Ok xl /\
      pm_p m1 = next_density diff2 p t (pm_p m) xl xr /\
      (exists e, expected_value quadrature fuel (br_add (pm_breakpoints m) options) (pm_p m1) xl xr = Ok e /\
         ((xl <= e <= xr)%Q /\ q = e \/ ((e < xl)%Q \/ (xr < e)%Q) /\ q = xm)) /\
      find_right_bound brent diff1 quadrature fuel p t (br_add (pm_breakpoints m) options) (pm_p m) xm = Ok xr /\
      pm_breakpoints m1 = push_new (push_new (pm_breakpoints m) xl) xr.
  Proof.
    unfold probabilistic. fold p. destruct (negb (on_w o =? 0)); [discriminate|]. destruct (negb (g_d p =? 1)); [discriminate|].
    rewrite Hu. cbn [nth_error from_option obind]. intros E.
    apply obind_Ok in E as (v & Ev & E). apply obind_Ok in E as (xm & Em & E).
    apply obind_Ok in E as (xr & Er & E). apply obind_Ok in E as (xl & El & E). apply obind_Ok in E as (e & Ee & E).
    assert (aligned [(0%Q, u)]) as Ha.
    { constructor; [|constructor]. split; [exists 0; reflexivity|]. split; [exact Hu1|exact Hu0]. }
    pose proof (fh_grid nlopt Hk t (g_cost p) [(0%Q, u)] v Ha Ev) as (G1 & G2).
    destruct v as (vx, vv). cbn [fst] in *. inversion G1 as [|? j ? l Hj Hl]; subst vx. subst. inversion Hl; subst. clear Hl.
    cbn [nth_error from_option] in Em. injection Em as ->. inversion G2 as [|? ? G3 _]; subst. cbn [fst snd] in Hj.
    pose proof Er as Er'. unfold find_right_bound in Er. rewrite Hu in Er. cbn [nth_error from_option obind] in Er.
    apply find_root_box in Er; auto; [|lra]. unfold find_left_bound in El. pose proof El as El'.
    apply find_root_box in El; auto; [|lra|exists 0; reflexivity].
    injection E as <- <-. eexists. exists xm, xl, xr. eexists. split; [reflexivity|]. split; [reflexivity|].
    split; [eexists; exact Ev|]. split; [lra|]. split; [lra|]. split; [lra|]. split.
    { destruct (Qltb e xl) eqn:E1; cbn [orb]; [lra|]. apply Qltb_false in E1.
      destruct (Qltb xr e) eqn:E2; [lra|]. apply Qltb_false in E2. split; assumption. }
    split; [exact El'|]. split; [reflexivity|]. split; [|split; [exact Er'|reflexivity]].
    exists e. split; [exact Ee|].
    destruct (Qltb e xl) eqn:E1; cbn [orb]; [right; split; [left; apply Qltb_iff; exact E1|reflexivity]|]. apply Qltb_false in E1.
    destruct (Qltb xr e) eqn:E2; [right; split; [right; apply Qltb_iff; exact E2|reflexivity]|]. apply Qltb_false in E2. left. auto.
  Qed.

  Lemma step_spec t xs m x m' :
    probabilistic nlopt brent diff1 diff2 quadrature fuel options o t xs m = Ok (x, m') ->
    exists q xl xr m1, x = [q] /\ m' = Some m1 /\
      (0 <= xl)%Q /\ (xl <= q)%Q /\ (q <= xr)%Q /\ (xr <= u)%Q /\
      (forall y, (y < xl)%Q \/ (xr < y)%Q -> pm_p m1 y = Ok (Num 0)) /\
      (forall y v s, (xl <= y <= xr)%Q -> pm_p m y = Ok (Num v) -> derivative diff2 (cost_at p t) y = Ok (Num s) ->
         exists w, pm_p m1 y = Ok (Num w) /\ (w == v + s / (2 * b))%Q) /\
      (forall y, contains (pm_breakpoints m1) y <-> contains (pm_breakpoints m) y \/ (xl == y)%Q \/ (xr == y)%Q) /\
      (distinct (pm_breakpoints m) -> distinct (pm_breakpoints m1)).
  Proof.
    intros E. apply step in E as (q & xm & xl & xr & m1 & -> & -> & _ & H1 & H2 & H3 & H4 & _ & Ep & _ & _ & Eb).
    exists q, xl, xr, m1. rewrite Ep, Eb. split; [reflexivity|]. split; [reflexivity|].
    split; [exact H1|]. split; [lra|]. split; [lra|]. split; [exact H3|].
    split; [intros y; apply density_outside|]. split; [intros y v s; apply density_inside|]. split.
    - intros y. rewrite !push_contains. tauto.
    - intros H. apply push_distinct, push_distinct, H.
  Qed.

  (** The answer is the mean of the new density. *)
  Lemma step_mean t xs m x m1 :
    ordered_breaks options -> br_next options = None -> distinct (pm_breakpoints m) ->
    (length (br_fixed options) + length (pm_breakpoints m) < 10)%nat ->
    exact_quadrature (quadrature (fun y => do v <- pm_p m1 y; nscale y v)) ->
    probabilistic nlopt brent diff1 diff2 quadrature fuel options o t xs m = Ok (x, Some m1) ->
    exists q xl xr, x = [q] /\ (0 <= xl)%Q /\ (xl <= q <= xr)%Q /\ (xr <= u)%Q /\
      (forall y, (y < xl)%Q \/ (xr < y)%Q -> pm_p m1 y = Ok (Num 0)) /\
      let mean := quadrature (fun y => do v <- pm_p m1 y; nscale y v) (Pt xl) (Pt xr) in
      ((xl <= mean <= xr)%Q /\ (q == mean)%Q) \/
      ((mean < xl)%Q \/ (xr < mean)%Q) /\ exists v, find_minimizer_of_hitting_cost nlopt t (g_cost p) [(0%Q, u)] = Ok ([q], v).
  Proof.
    intros HO HN HD HL HQ E.
    apply step in E as (q & xm & xl & xr & m2 & -> & E2 & (w & Ev) & H1 & H2 & H3 & H4 & _ & Ep & (e & Ee & He) & _ & _).
    injection E2 as <-. exists q, xl, xr. split; [reflexivity|]. split; [exact H1|]. split; [exact H4|]. split; [exact H3|].
    split; [intros y; rewrite Ep; apply density_outside|]. cbv zeta.
    unfold expected_value, integral_of in Ee. destruct (piecewise_integral _ _ _ _ _) as [e'|] eqn:Ei; [|discriminate].
    cbn [from_option] in Ee. injection Ee as ->. destruct HO as (HO1 & _).
    destruct (add_spec (pm_breakpoints m) options HO1 HD) as (A1 & A2 & _).
    apply integral_exact in Ei; auto.
    - destruct He as [(L & ->)|(L & ->)].
      + left. split; [|exact Ei]. rewrite <- Ei. exact L.
      + right. split; [rewrite <- Ei; exact L|]. exists w. exact Ev.
    - split; [exact A1|]. rewrite A2, HN. exact I.
    - split; [cbn; lra|]. split; discriminate.
    - eapply Nat.le_lt_trans; [apply add_length|exact HL].
  Qed.

  (** The right end of the new density balances the marginal costs, as far as the search for
      roots allows. *)
  Lemma right_end d t xs m x m1 :
    (forall y, (0 <= y <= u)%Q -> derivative diff1 (cost_at p t) y = Ok (Num (d y))) ->
    ordered_breaks options -> br_next options = None -> distinct (pm_breakpoints m) ->
    (length (br_fixed options) + length (pm_breakpoints m) < 10)%nat -> (10 <= fuel)%nat ->
    exact_quadrature (quadrature (pm_p m)) ->
    probabilistic nlopt brent diff1 diff2 quadrature fuel options o t xs m = Ok (x, Some m1) ->
    exists xm xl xr v, find_minimizer_of_hitting_cost nlopt t (g_cost p) [(0%Q, u)] = Ok ([xm], v) /\
      pm_p m1 = next_density diff2 p t (pm_p m) xl xr /\
      let F y := (d y - 2 * b * quadrature (pm_p m) (Pt y) PInf)%Q in
      (u - xm < 1 # 100)%Q /\ xr = xm \/
      ((xr = xm \/ xr = u) /\ (Qabs (F xr) < 10)%Q) \/
      ((xr = xm \/ xr = u) /\ (0 < F xm * F u)%Q) \/
      ((F xm * F u <= 0)%Q /\ exists y f, brent (xm, u) f = Ok y /\
         (forall z, (xm <= z <= u)%Q -> exists w, f z = Ok (Num w) /\ (w == F z)%Q) /\
         hundredths xr /\ (Qabs (xr - y) <= 1 # 200)%Q).
  Proof.
    intros Hd (HO1 & _) HN HD HL Hf HQ E. set (R := fun y => quadrature (pm_p m) (Pt y) PInf).
    destruct (add_spec (pm_breakpoints m) options HO1 HD) as (A1 & A2 & _).
    pose proof (add_length (pm_breakpoints m) options) as A3.
    assert (forall y, (0 <= y <= u)%Q -> exists i, integral_of quadrature fuel (br_add (pm_breakpoints m) options) (Pt y) PInf (pm_p m) = Ok i /\ (i == R y)%Q) as HR.
    { intros y _. destruct (integral_answers (quadrature (pm_p m)) (br_add (pm_breakpoints m) options) fuel (Pt y) PInf A1) as (i & Ei); [congruence|lia|].
      exists i. unfold integral_of. rewrite Ei. split; [reflexivity|].
      assert (ordered_breaks (br_add (pm_breakpoints m) options)) as A4 by (split; [exact A1|rewrite A2, HN; exact I]).
      assert (br_next (br_add (pm_breakpoints m) options) = None) as A5 by congruence.
      refine (integral_exact _ _ _ _ _ _ HQ A4 _ A5 _ Ei); [split; [exact I|split; discriminate]|lia]. }
    apply step in E as (q & xm & xl & xr & m2 & -> & E2 & (w & Ev) & H1 & H2 & H3 & H4 & _ & Ep & _ & Er & _).
    injection E2 as <-. exists xm, xl, xr, w. split; [exact Ev|]. split; [exact Ep|]. cbv zeta.
    change (quadrature (pm_p m) (Pt xr) PInf) with (R xr). change (quadrature (pm_p m) (Pt xm) PInf) with (R xm).
    change (quadrature (pm_p m) (Pt u) PInf) with (R u).
    unfold find_right_bound in Er. rewrite Hu in Er. cbn [nth_error from_option obind] in Er.
    set (f := fun x => _) in Er.
    set (G := fun y => match f y with Ok (Num z) => z | _ => 0%Q end).
    assert (forall y, (0 <= y <= u)%Q -> f y = Ok (Num (G y)) /\ (G y == d y - 2 * b * R y)%Q) as HG.
    { intros y Hy. unfold G, f. rewrite (Hd y Hy), Hb. cbn [obind nth_error from_option].
      destruct (HR y Hy) as (i & -> & Hi'). cbn [obind nsub]. split; [reflexivity|]. rewrite Hi'. reflexivity. }
    assert (forall y, (xm <= y <= u)%Q -> f y = Ok (Num (G y))) as HF by (intros y Hy; apply HG; lra).
    apply find_root_finite with (F := G) in Er; [|exact HF|lra].
    assert (forall y, (xm <= y <= u)%Q -> (G y == d y - 2 * b * R y)%Q) as HE by (intros y Hy; apply HG; lra).
    destruct Er as [Er|[(E1 & E2)|[(E1 & E2 & _)|(E1 & _ & _ & y & Ey & E4 & E5)]]].
    - left. exact Er.
    - right. left. split; [exact E1|]. assert (xm <= xr <= u)%Q as L by lra. pose proof (Qabs_wd _ _ (HE xr L)) as W. unfold R in W. rewrite W in E2. exact E2.
    - right. right. left. split; [exact E1|]. assert (xm <= xm <= u)%Q as L1 by lra. assert (xm <= u <= u)%Q as L2 by lra. rewrite (HE _ L1), (HE _ L2) in E2. exact E2.
    - right. right. right. assert (xm <= xm <= u)%Q as L1 by lra. assert (xm <= u <= u)%Q as L2 by lra. rewrite (HE _ L1), (HE _ L2) in E1. split; [exact E1|]. exists y, f. split; [exact Ey|]. split; [|auto].
      intros z Hz. exists (G z). split; [apply HF; exact Hz|apply HE; exact Hz].
  Qed.

  (** The density is around a minimiser of the hitting cost. *)
  Lemma step_minimizer H t xs m x m1 :
    exact_nlopt nlopt -> charges (g_cost p) [(0%Q, u)] t H -> respects_eq eeq H ->
    probabilistic nlopt brent diff1 diff2 quadrature fuel options o t xs m = Ok (x, Some m1) ->
    exists xm xl xr, cheapest [(0%Q, u)] H [xm] /\ (xl <= xm <= xr)%Q /\
      (forall y, (y < xl)%Q \/ (xr < y)%Q -> pm_p m1 y = Ok (Num 0)) /\ contains (pm_breakpoints m1) xl /\ contains (pm_breakpoints m1) xr.
  Proof.
    intros Hex Hc HH E. apply step in E as (q & xm & xl & xr & m2 & _ & E2 & (v & Ev) & H1 & H2 & H3 & H4 & _ & Ep & _ & _ & Eb).
    injection E2 as <-. assert (aligned [(0%Q, u)]) as Ha.
    { constructor; [|constructor]. split; [exists 0; reflexivity|]. split; [exact Hu1|exact Hu0]. }
    destruct (cheapest_spec nlopt Hex (g_cost p) [(0%Q, u)] t H Ha Hc HH) as (v' & opt & Ev' & Hv & _).
    rewrite Ev in Ev'. injection Ev' as <- <-. exists xm, xl, xr. split; [exact Hv|]. split; [exact H2|].
    split; [intros y; rewrite Ep; apply density_outside|]. rewrite Eb. rewrite !push_contains. split; [left; right; reflexivity|right; reflexivity].
  Qed.

  (** Densities do not become negative if the second derivative of the hitting cost is not. *)
  Lemma step_nonnegative t xs m x m1 : (0 < b)%Q ->
    (forall y, exists s, derivative diff2 (cost_at p t) y = Ok (Num s) /\ (0 <= s)%Q) ->
    nonnegative (pm_p m) ->
    probabilistic nlopt brent diff1 diff2 quadrature fuel options o t xs m = Ok (x, Some m1) ->
    nonnegative (pm_p m1).
  Proof.
    intros Hb0 Hs Hp E y. apply step in E as (q & xm & xl & xr & m2 & _ & E2 & _ & _ & _ & _ & _ & _ & Ep & _ & _ & _).
    injection E2 as <-. rewrite Ep.
    destruct (Qlt_le_dec y xl) as [L|L]; [exists 0%Q; split; [apply density_outside; auto|lra]|].
    destruct (Qlt_le_dec xr y) as [R|R]; [exists 0%Q; split; [apply density_outside; auto|lra]|].
    destruct (Hp y) as (v & Ev & Hv). destruct (Hs y) as (s & Es & Hs0).
    destruct (density_inside t (pm_p m) xl xr y v s (conj L R) Ev Es) as (w & Ew & Hw).
    exists w. split; [exact Ew|]. rewrite Hw. assert (0 <= s / (2 * b))%Q by (apply Qle_shift_div_l; lra). lra.
  Qed.

  (** The left end of the new density is always 0 or the minimiser: the function whose root is
      searched does not change its sign. *)
  Lemma left_end t xs m x m1 : (0 <= b)%Q ->
    (forall xm v, find_minimizer_of_hitting_cost nlopt t (g_cost p) [(0%Q, u)] = Ok ([xm], v) ->
     forall y, (0 <= y <= xm)%Q -> exists d, derivative diff1 (cost_at p t) y = Ok (Num d) /\ (d <= 0)%Q) ->
    (forall y i, integral_of quadrature fuel (br_add (pm_breakpoints m) options) MInf (Pt y) (pm_p m) = Ok i -> (0 <= i)%Q) ->
    probabilistic nlopt brent diff1 diff2 quadrature fuel options o t xs m = Ok (x, Some m1) ->
    exists xm v xl xr, find_minimizer_of_hitting_cost nlopt t (g_cost p) [(0%Q, u)] = Ok ([xm], v) /\ (xl = 0%Q \/ xl = xm) /\
      (forall y, (y < xl)%Q \/ (xr < y)%Q -> pm_p m1 y = Ok (Num 0)) /\
      (forall y v s, (xl <= y <= xr)%Q -> pm_p m y = Ok (Num v) -> derivative diff2 (cost_at p t) y = Ok (Num s) ->
         exists w, pm_p m1 y = Ok (Num w) /\ (w == v + s / (2 * b))%Q).
  Proof.
    intros Hb0 Hd Hq E. apply step in E as (q & xm & xl & xr & m2 & _ & E2 & (v & Ev) & H1 & H2 & H3 & _ & El & Ep & _ & _ & _).
    injection E2 as <-. exists xm, v, xl, xr. split; [exact Ev|]. split.
    2: { rewrite Ep. split; [intros y; apply density_outside|intros y w s; apply density_inside]. }
    unfold find_left_bound, find_root in El. destruct (Qltb _ PRECISION); [injection El as <-; auto|].
    assert (forall y r, (0 <= y <= xm)%Q ->
      (do b <- from_option (nth_error (g_switching p) 0);
       do i <- integral_of quadrature fuel (br_add (pm_breakpoints m) options) MInf (Pt y) (pm_p m);
       do d <- derivative diff1 (cost_at p t) y;
       nsub (Num (2 * b * i)) d) = Ok r -> exists w, r = Num w /\ (0 <= w)%Q) as Hr.
    { intros y r Hy Er. rewrite Hb in Er. cbn [nth_error from_option obind] in Er. apply obind_Ok in Er as (i & Ei & Er).
      destruct (Hd xm v Ev y Hy) as (d & Ed & Hdn). rewrite Ed in Er. cbn [obind nsub] in Er. injection Er as <-.
      eexists. split; [reflexivity|].
      apply Hq in Ei. assert (0 <= 2 * b * i)%Q by (apply Qmult_le_0_compat; lra). lra. }
    apply obind_Ok in El as (l & E1 & El). apply obind_Ok in El as (r & E2 & El).
    apply Hr in E1 as (w1 & -> & W1); [|lra]. apply Hr in E2 as (w2 & -> & W2); [|lra].
    destruct (ngtb (Num ROOT_PRECISION) (nabs (Num w1))) eqn:N1; [injection El as <-; auto|].
    destruct (ngtb (Num ROOT_PRECISION) (nabs (Num w2))) eqn:N2; [injection El as <-; auto|].
    cbn [ngtb nabs] in N1, N2. apply Qltb_false in N1, N2. rewrite Qabs_pos in N1, N2 by assumption.
    assert (0 < w1)%Q as P1 by (unfold ROOT_PRECISION, PRECISION in N1; lra).
    assert (0 < w2)%Q as P2 by (unfold ROOT_PRECISION, PRECISION in N2; lra).
    cbn [same_sign] in El. rewrite (proj2 (Qltb_iff _ _)) in El by (apply Qmult_lt_0_compat; assumption).
    destruct (ngtb _ _); injection El as <-; auto.
  Qed.
End Probabilistic.

Lemma starts_uniform : exists e v, (0 < e)%Q /\ (e <= 1 # 100)%Q /\ (v * e == 1)%Q /\
  (forall y, (0 <= y <= e)%Q -> pm_p prob_default y = Ok (Num v)) /\
  (forall y, (y < 0)%Q \/ (e < y)%Q -> pm_p prob_default y = Ok (Num 0)) /\
  (forall y, contains (pm_breakpoints prob_default) y <-> (0 == y)%Q \/ (e == y)%Q).
Proof.
  exists PROB_EPSILON, (1 / PROB_EPSILON)%Q. split; [reflexivity|]. split; [discriminate|]. split; [reflexivity|]. split; [|split].
  - intros y [H1 H2]. cbn [prob_default pm_p]. apply Qle_bool_iff in H1, H2. rewrite H1, H2. reflexivity.
  - intros y H. cbn [prob_default pm_p]. destruct (Qle_bool 0 y) eqn:E1, (Qle_bool y PROB_EPSILON) eqn:E2; try reflexivity.
    apply Qle_bool_iff in E1, E2. destruct H as [H|H]; [apply (Qlt_not_le _ _ H) in E1|apply (Qlt_not_le _ _ H) in E2]; contradiction.
  - intros y. unfold contains. cbn [prob_default pm_breakpoints In]. split.
    + intros (z & [<-|[<-|[]]] & E); auto.
    + intros [E|E]; [exists 0%Q|exists PROB_EPSILON]; auto.
Qed.
