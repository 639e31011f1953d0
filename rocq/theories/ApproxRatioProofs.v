(** The approximate graph search is within a factor of 2 gamma - 1 of the optimum.

    From any schedule a schedule on the grid is built that moves only when it has to: up to the
    next value when it falls below, down to the largest value of at most [c] times the level when
    it is above.  A potential pays for the additional switching costs. *)
From Coq Require Import Lia Lqa Qpower Qround.
From Verif Require Import NumLemmas GraphSearchModel GraphSearchSpec GraphSearchProofs ObjectiveProofs
  ApproxSearchModel ApproxSearchProofs ApproxRatioSpec.
From Verif Require Import ProblemModel.
Local Open Scope Z_scope.

Lemma Z_Q_le a b : a <= b -> (inject_Z a <= inject_Z b)%Q.
Proof. rewrite <- Zle_Qle. auto. Qed.
Lemma Z_Q_lt a b : a < b -> (inject_Z a + 1 <= inject_Z b)%Q.
Proof. intros H. change 1%Q with (inject_Z 1). rewrite <- inject_Z_plus. apply Z_Q_le. lia. Qed.
Lemma Q_Z_lt a b : (inject_Z a < inject_Z b)%Q -> a < b.
Proof. rewrite <- Zlt_Qlt. auto. Qed.

Lemma Forall2_weaken {A B} (P R : A -> B -> Prop) l l' : (forall a b, P a b -> R a b) -> Forall2 P l l' -> Forall2 R l l'.
Proof. intros H. induction 1; constructor; auto. Qed.

(** ** The values *)
Section Values.
  Variable gamma : Q.
  Hypothesis Hg : (1 < gamma)%Q.
  Variable u : Z.
  Variable values : list Z.
  (** Levels have a value at most a factor gamma above; values have a next one. *)
  Hypothesis H0 : In 0 values.
  Hypothesis Hcover : forall j, 1 <= j <= u -> exists v, In v values /\ j <= v <= u /\ (inject_Z v <= gamma * inject_Z j)%Q.
  Hypothesis Hnext : forall z, In z values -> 1 <= z < u -> exists v, In v values /\ z < v <= u /\
    ((inject_Z v <= gamma * inject_Z z)%Q \/ v = z + 1).

  Let c : Q := (2 * gamma - 1)%Q.
  Definition reach (g : Q) : Q := Qmax (gamma * g) (g + 1).
  Definition credit (x g : Z) : Q := Qmax 0 ((2 * gamma - 1) * inject_Z x - reach (inject_Z g)).

  Lemma reach_gap a b : (0 <= a)%Q -> (a <= b)%Q -> (reach a - a <= reach b - b)%Q.
  Proof.
    intros Ha Hab. unfold reach.
    destruct (Q.max_spec (gamma * a) (a + 1)) as [[? E1]|[? E1]], (Q.max_spec (gamma * b) (b + 1)) as [[? E2]|[? E2]];
      rewrite E1, E2; nra.
  Qed.
  Lemma credit_nonneg x g : (0 <= credit x g)%Q.
  Proof. apply Q.le_max_l. Qed.
  Lemma credit_lower x g : (c * inject_Z x - reach (inject_Z g) <= credit x g)%Q.
  Proof. apply Q.le_max_r. Qed.
  Lemma credit_cases x g : (credit x g == 0)%Q \/ (credit x g == c * inject_Z x - reach (inject_Z g))%Q.
  Proof. unfold credit. destruct (Q.max_spec 0 ((2 * gamma - 1) * inject_Z x - reach (inject_Z g))) as [[_ E]|[_ E]]; auto. Qed.

  (** The largest value of at most [q]. *)
  Lemma largest q : (0 <= q)%Q -> forall l, In 0 l -> exists z, In z l /\ (inject_Z z <= q)%Q /\ 0 <= z /\
    forall v, In v l -> (inject_Z v <= q)%Q -> v <= z.
  Proof.
    intros Hq l. assert (G : forall l, (exists z, In z l /\ (inject_Z z <= q)%Q /\ forall v, In v l -> (inject_Z v <= q)%Q -> v <= z)
      \/ forall v, In v l -> (q < inject_Z v)%Q).
    { induction l0 as [|a l0 IH]; [right; intros v []|].
      destruct (Qlt_le_dec q (inject_Z a)) as [Ha|Ha].
      - destruct IH as [(z & Hz & Hzq & Hmax)|IH].
        + left. exists z. split; [right; exact Hz|]. split; [exact Hzq|]. intros v [<-|Hv] Hvq; [lra|auto].
        + right. intros v [<-|Hv]; auto.
      - left. destruct IH as [(z & Hz & Hzq & Hmax)|IH].
        + destruct (Z_le_gt_dec a z) as [Hle|Hgt].
          * exists z. split; [right; exact Hz|]. split; [exact Hzq|]. intros v [<-|Hv] Hvq; auto.
          * exists a. split; [left; reflexivity|]. split; [exact Ha|]. intros v [<-|Hv] Hvq; [lia|].
            specialize (Hmax v Hv Hvq). lia.
        + exists a. split; [left; reflexivity|]. split; [exact Ha|]. intros v [<-|Hv] Hvq; [lia|].
          specialize (IH v Hv). lra. }
    intros Hl. destruct (G l) as [(z & Hz & Hzq & Hmax)|N].
    - exists z. split; [exact Hz|]. split; [exact Hzq|]. split; [|exact Hmax]. apply Hmax; [exact Hl|]. change (inject_Z 0) with 0%Q. lra.
    - specialize (N 0 Hl). change (inject_Z 0) with 0%Q in N. lra.
  Qed.

  Lemma step x g y : 0 <= x <= g -> In g values -> g <= u -> 0 <= y <= u ->
    exists z, In z values /\ y <= z <= u /\ (inject_Z z <= c * inject_Z y)%Q /\
      (credit y z + inject_Z (Z.max 0 (z - g)) <= credit x g + c * inject_Z (Z.max 0 (y - x)))%Q.
  Proof.
    intros Hx Hgv Hgu Hy. assert (Hc : (1 < c)%Q) by (unfold c; lra).
    assert (Y0 : (0 <= inject_Z y)%Q) by (change 0%Q with (inject_Z 0); apply Z_Q_le; lia).
    assert (X0 : (0 <= inject_Z x)%Q) by (change 0%Q with (inject_Z 0); apply Z_Q_le; lia).
    assert (XG : (inject_Z x <= inject_Z g)%Q) by (apply Z_Q_le; lia).
    assert (UP : (c * inject_Z y - c * inject_Z x <= c * inject_Z (Z.max 0 (y - x)))%Q).
    { assert (inject_Z y - inject_Z x <= inject_Z (Z.max 0 (y - x)))%Q; [|nra].
      assert (E : (inject_Z y - inject_Z x == inject_Z (y - x))%Q).
      { unfold Zminus. rewrite inject_Z_plus, inject_Z_opp. ring. }
      rewrite E. apply Z_Q_le. lia. }
    assert (UP0 : (0 <= c * inject_Z (Z.max 0 (y - x)))%Q).
    { assert (0 <= inject_Z (Z.max 0 (y - x)))%Q by (change 0%Q with (inject_Z 0); apply Z_Q_le; lia). nra. }
    pose proof (credit_nonneg x g) as CX0. pose proof (credit_lower x g) as CX.
    destruct (Z_lt_ge_dec g y) as [Hgy|Hgy].
    - (* up *)
      destruct (Hcover y ltac:(lia)) as (z & Hz & Hzy & Hzq). exists z.
      assert (Y1 : (1 <= inject_Z y)%Q) by (change 1%Q with (inject_Z 1); apply Z_Q_le; lia).
      assert (GY : (inject_Z g + 1 <= inject_Z y)%Q) by (apply Z_Q_lt; lia).
      assert (YZ : (inject_Z y <= inject_Z z)%Q) by (apply Z_Q_le; lia).
      split; [exact Hz|]. split; [exact Hzy|]. split; [unfold c; nra|].
      rewrite (Z.max_r 0 (z - g)) by lia.
      assert (E : (inject_Z (z - g) == inject_Z z - inject_Z g)%Q).
      { unfold Zminus. rewrite inject_Z_plus, inject_Z_opp. ring. }
      rewrite E. clear E.
      pose proof (reach_gap (inject_Z g) (inject_Z z) ltac:(lra) ltac:(lra)) as RG.
      destruct (credit_cases y z) as [C|C]; rewrite C.
      + destruct (Qlt_le_dec ((gamma - 1) * inject_Z y) 1) as [Hs|Hs].
        * assert (z = y). { assert (inject_Z z < inject_Z (y + 1))%Q; [|apply Q_Z_lt in H; lia].
            rewrite inject_Z_plus. change (inject_Z 1) with 1%Q. nra. }
          subst z. assert (inject_Z y - inject_Z g <= inject_Z (Z.max 0 (y - x)))%Q.
          { assert (E : (inject_Z y - inject_Z g == inject_Z (y - g))%Q).
            { unfold Zminus. rewrite inject_Z_plus, inject_Z_opp. ring. }
            rewrite E. apply Z_Q_le. lia. }
          assert (inject_Z (Z.max 0 (y - x)) <= c * inject_Z (Z.max 0 (y - x)))%Q.
          { assert (0 <= inject_Z (Z.max 0 (y - x)))%Q by (change 0%Q with (inject_Z 0); apply Z_Q_le; lia). nra. }
          lra.
        * assert (RB : (reach (inject_Z g) - inject_Z g <= (gamma - 1) * inject_Z y)%Q).
          { unfold reach. destruct (Q.max_spec (gamma * inject_Z g) (inject_Z g + 1)) as [[? E]|[? E]]; rewrite E; nra. }
          unfold c in *. nra.
      + lra.
    - destruct (Qlt_le_dec (c * inject_Z y) (inject_Z g)) as [Hd|Hd].
      + (* down *)
        destruct (largest (c * inject_Z y)%Q ltac:(nra) values H0) as (z & Hz & Hzq & Hz0 & Hmax).
        assert (Hyz : y <= z).
        { destruct (Z.eq_dec y 0) as [->|Hne]; [exact Hz0|].
          destruct (Hcover y ltac:(lia)) as (v & Hv & Hvy & Hvq). specialize (Hmax v Hv). 
          assert (inject_Z v <= c * inject_Z y)%Q by (unfold c; nra). specialize (Hmax H). lia. }
        assert (Hzg : z < g). { apply Q_Z_lt. lra. }
        exists z. split; [exact Hz|]. split; [lia|]. split; [exact Hzq|].
        rewrite (Z.max_l 0 (z - g)) by lia. change (inject_Z 0) with 0%Q.
        assert (C0 : (credit y z == 0)%Q).
        { destruct (credit_cases y z) as [C|C]; [exact C|]. pose proof (credit_nonneg y z) as N. rewrite C in N.
          destruct (Z.eq_dec z 0) as [->|Hne].
          - assert (y = 0) by lia. subst y. unfold reach in *. change (inject_Z 0) with 0%Q in *.
            pose proof (Q.le_max_r (gamma * 0) (0 + 1)). lra.
          - destruct (Hnext z Hz ltac:(lia)) as (v & Hv & Hvz & Hvq).
            assert (c * inject_Z y < inject_Z v)%Q.
            { destruct (Qlt_le_dec (c * inject_Z y) (inject_Z v)) as [H|H]; [exact H|]. specialize (Hmax v Hv H). lia. }
            assert (inject_Z v <= reach (inject_Z z))%Q.
            { unfold reach. destruct Hvq as [Hvq| ->].
              - pose proof (Q.le_max_l (gamma * inject_Z z) (inject_Z z + 1)). lra.
              - rewrite inject_Z_plus. apply Q.le_max_r. }
            lra. }
        rewrite C0. lra.
      + exists g. split; [exact Hgv|]. split; [lia|]. split; [exact Hd|].
        rewrite Z.sub_diag. change (inject_Z (Z.max 0 0)) with 0%Q.
        destruct (credit_cases y g) as [C|C]; rewrite C; lra.
  Qed.
End Values.

(** ** Several dimensions *)
Section Vectors.
  Variable gamma : Q.
  Hypothesis Hg : (1 < gamma)%Q.
  Variable values : list Z.
  Hypothesis H0 : In 0 values.
  Let c : Q := (2 * gamma - 1)%Q.

  Definition fine (u : Z) : Prop :=
    (forall j, 1 <= j <= u -> exists v, In v values /\ j <= v <= u /\ (inject_Z v <= gamma * inject_Z j)%Q) /\
    (forall z, In z values -> 1 <= z < u -> exists v, In v values /\ z < v <= u /\
      ((inject_Z v <= gamma * inject_Z z)%Q \/ v = z + 1)).

  Fixpoint credits (beta : list Q) (x g : list Z) : Q :=
    match beta, x, g with
    | b :: beta', i :: x', j :: g' => (b * credit gamma i j + credits beta' x' g')%Q
    | _, _, _ => 0%Q
    end.
  Lemma credits_nonneg beta : Forall (fun b => 0 <= b)%Q beta -> forall x g, (0 <= credits beta x g)%Q.
  Proof.
    induction 1 as [|b beta Hb HB IH]; intros [|i x] [|j g]; cbn [credits]; try lra.
    pose proof (credit_nonneg gamma i j). specialize (IH x g). nra.
  Qed.

  Lemma vstep : forall bounds beta x g y, Forall fine bounds -> Forall (fun b => 0 <= b)%Q beta ->
    length beta = length bounds -> Forall2 (fun i j => 0 <= i <= j) x g -> allowed_config values bounds g ->
    feasible_config bounds y ->
    exists z, allowed_config values bounds z /\ raised c y z /\
      (credits beta y z + power_up beta g z <= credits beta x g + c * power_up beta x y)%Q.
  Proof.
    induction bounds as [|u bounds IH]; intros beta x g y HF HB HL HX HG HY.
    - inversion HG; subst. inversion HX; subst. inversion HY; subst. destruct beta; [|discriminate].
      exists []. split; [constructor|]. split; [constructor|]. cbn. lra.
    - inversion HG as [|? j ? g' [Hgv Hgu] HG']; subst. inversion HX as [|i ? x' ? Hij HX']; subst.
      inversion HY as [|? k ? y' Hk HY']; subst. inversion HF as [|? ? [F1 F2] HF']; subst.
      destruct beta as [|b beta]; [discriminate|]. inversion HB as [|? ? Hb HB']; subst. injection HL as HL.
      destruct (IH beta x' g' y' HF' HB' HL HX' HG' HY') as (z' & HZ1 & HZ2 & HZ3).
      destruct (step gamma Hg u values H0 F1 F2 i j k ltac:(lia) Hgv ltac:(lia) Hk) as (z & Hz & Hzk & Hzq & Hc).
      exists (z :: z'). split; [constructor; [split; [exact Hz|lia]|exact HZ1]|].
      split; [constructor; [split; [lia|exact Hzq]|exact HZ2]|].
      cbn [credits power_up]. fold c in Hc. nra.
  Qed.

  Section Schedule.
    Variable bounds : list Z.
    Variable beta : list Q.
    Variable f : Z -> list Z -> ext.
    Variable alpha : Q.
    Variable t_end : Z.
    Hypothesis Ha : (0 <= alpha)%Q.
    Hypothesis HF : Forall fine bounds.
    Hypothesis HB : Forall (fun b => 0 <= b)%Q beta.
    Hypothesis HL : length beta = length bounds.
    Hypothesis Hf : forall t x y, 1 <= t <= t_end -> feasible_config bounds x -> feasible_config bounds y -> raised c x y ->
      ele (f t y) (escale c (f t x)).

    Lemma allowed_feasible z : allowed_config values bounds z -> feasible_config bounds z.
    Proof. intros H. eapply Forall2_weaken; [|exact H]. cbn. tauto. Qed.
    Lemma raised_order y z : feasible_config bounds y -> raised c y z -> Forall2 (fun i j => 0 <= i <= j) y z.
    Proof.
      intros H1 H2. revert H1. generalize bounds. induction H2 as [|i j y z Hij H2 IH]; intros bs H1; [constructor|].
      inversion H1; subst. constructor; [lia|]. eapply IH. eassumption.
    Qed.

    Lemma follow : forall ys t x g, 1 <= t -> t + Z.of_nat (length ys) - 1 <= t_end ->
      Forall (feasible_config bounds) ys -> Forall2 (fun i j => 0 <= i <= j) x g -> allowed_config values bounds g ->
      exists zs, length zs = length ys /\ Forall (allowed_config values bounds) zs /\
        ele (total_cost f (switching beta false) alpha t g zs)
            (eadd (escale c (total_cost f (switching beta false) alpha t x ys)) (Fin (alpha * credits beta x g))).
    Proof.
      induction ys as [|y ys IH]; intros t x g Ht HT HY HX HG.
      - exists []. split; [reflexivity|]. split; [constructor|]. cbn.
        pose proof (credits_nonneg beta HB x g). nra.
      - inversion HY as [|? ? Hy HY']; subst.
        destruct (vstep bounds beta x g y HF HB HL HX HG Hy) as (z & HZ1 & HZ2 & HZ3).
        cbn [length] in HT.
        destruct (IH (t + 1) y z ltac:(lia) ltac:(lia) HY' (raised_order y z Hy HZ2) HZ1) as (zs & E1 & E2 & E3).
        exists (z :: zs). split; [cbn; congruence|]. split; [constructor; assumption|].
        cbn [total_cost]. assert (Hh := Hf t y z ltac:(lia) Hy (allowed_feasible z HZ1) HZ2).
        assert (S1 : forall p q, switching beta false p q = power_up beta p q) by reflexivity.
        rewrite (S1 g z), (S1 x y).
        destruct (f t y) as [fy|]; [|destruct (eadd _ (total_cost _ _ _ _ z zs)); exact I].
        destruct (total_cost f (switching beta false) alpha (t + 1) y ys) as [ry|];
          [|destruct (eadd _ (total_cost _ _ _ _ z zs)); exact I].
        destruct (f t z) as [fz|]; [|contradiction].
        destruct (total_cost f (switching beta false) alpha (t + 1) z zs) as [rz|]; [|contradiction].
        cbn in *. nra.
    Qed.
  End Schedule.
End Vectors.

(** ** The values of the approximate search *)
Lemma power_between gamma z : (1 < gamma)%Q -> 1 <= z ->
  exists i, 1 <= i /\ (inject_Z z < Qpower gamma i)%Q /\ (Qpower gamma i <= gamma * inject_Z z)%Q.
Proof.
  intros Hg Hz. destruct (pw_unbounded gamma Hg (z + 1)) as (n & Hn & Hle).
  assert (Z1 : (1 <= inject_Z z)%Q) by (change 1%Q with (inject_Z 1); apply Z_Q_le; lia).
  assert (Hlt : (inject_Z z < Qpower gamma n)%Q).
  { rewrite inject_Z_plus in Hle. change (inject_Z 1) with 1%Q in Hle. lra. }
  clear Hle. revert Hlt. replace n with (Z.of_nat (Z.to_nat n - 1) + 1) by lia.
  generalize (Z.to_nat n - 1)%nat. clear n Hn. intros n. induction n as [|n IH]; intros Hlt.
  - exists 1. split; [lia|]. change (Z.of_nat 0 + 1) with 1 in Hlt. split; [exact Hlt|]. cbn. nra.
  - replace (Z.of_nat (S n) + 1) with (Z.of_nat n + 1 + 1) in Hlt by lia.
    destruct (Qlt_le_dec (inject_Z z) (Qpower gamma (Z.of_nat n + 1))) as [H|H]; [apply IH; exact H|].
    exists (Z.of_nat n + 1 + 1). split; [lia|]. split; [exact Hlt|]. rewrite (pw_succ gamma Hg). nra.
Qed.

Lemma values_fine bounds gamma mx values : (1 < gamma)%Q -> max_of bounds = Some mx ->
  (forall v, In v values <-> v = 0 \/ In v bounds \/
     exists i, 1 <= i /\ (v = Qfloor (Qpower gamma i) \/ v = Qceiling (Qpower gamma i)) /\ v <= mx) ->
  (forall u j, In u bounds -> 1 <= j <= u ->
     exists v, In v values /\ j <= v <= u /\ (inject_Z v <= gamma * inject_Z j)%Q) ->
  Forall (fine gamma values) bounds.
Proof.
  intros Hg Hm HIn Hcov. destruct (max_of_spec _ _ Hm) as [_ Hmx]. rewrite Forall_forall in Hmx.
  apply Forall_forall. intros u Hu. split; [intros j Hj; apply Hcov; assumption|].
  intros z Hz Hzu. destruct (power_between gamma z Hg ltac:(lia)) as (i & Hi & Hlt & Hle).
  pose proof (Hmx u Hu) as Hum. cbn in Hum.
  assert (Hfl := Qfloor_le (Qpower gamma i)). assert (Hce := Qle_ceiling (Qpower gamma i)).
  assert (Hcf := ceil_le_floor_1 (Qpower gamma i)).
  assert (Hzf : z <= Qfloor (Qpower gamma i)).
  { apply Qlt_le_weak in Hlt. apply Qfloor_resp_le in Hlt. rewrite Qfloor_Z in Hlt. exact Hlt. }
  destruct (Z_lt_ge_dec z (Qfloor (Qpower gamma i))) as [H1|H1].
  - destruct (Z_le_gt_dec (Qfloor (Qpower gamma i)) u) as [H2|H2].
    + exists (Qfloor (Qpower gamma i)). split; [apply HIn; right; right; exists i; repeat split; auto; lia|].
      split; [lia|]. left. lra.
    + exists u. split; [apply HIn; auto|]. split; [lia|]. left.
      assert (inject_Z u <= inject_Z (Qfloor (Qpower gamma i)))%Q by (apply Z_Q_le; lia). lra.
  - exists (Qceiling (Qpower gamma i)).
    assert (Hzc : z < Qceiling (Qpower gamma i)) by (apply Q_Z_lt; lra).
    assert (Ec : Qceiling (Qpower gamma i) = z + 1) by lia.
    split; [apply HIn; right; right; exists i; repeat split; auto; lia|]. split; [lia|]. right. exact Ec.
Qed.

Lemma inside_feasible : forall bounds x, feasible_config bounds x -> inside bounds x = true.
Proof.
  intros bounds x H. unfold inside. apply andb_true_iff. split.
  - apply Nat.eqb_eq. induction H; cbn; congruence.
  - apply forallb_forall. intros [u j] Hin. cbn.
    induction H as [|u' j' bs x Hj H IH]; [destruct Hin|]. destruct Hin as [E|Hin]; [|auto].
    injection E as <- <-. apply andb_true_iff. split; apply Z.leb_le; lia.
Qed.

Lemma approx_ratio_correct {C D} (outside : D) (p : ssco C D) gamma inverted alpha :
  searchable p -> (1 < gamma)%Q -> (0 <= alpha)%Q -> grows_at_most (2 * gamma - 1) p ->
  exists N, forall sched fuel, (N <= fuel)%nat -> exists path cache,
    approx_graph_search outside sched fuel p gamma None inverted alpha None = Some (Ok (path, cache)) /\
    feasible_schedule (s_tend p) (s_bounds p) (gp_xs path) /\
    is_fin (gp_cost path) /\
    eeq (gp_cost path) (schedule_cost p alpha false (gp_xs path)) /\
    forall ys, feasible_schedule (s_tend p) (s_bounds p) ys ->
      ele (gp_cost path) (escale (2 * gamma - 1) (schedule_cost p alpha false ys)).
Proof.
  intros Hs Hg Ha HG. assert (Hs' := Hs). destruct Hs' as (Hne & Hd & Hlen & Hsw & HT & Hb0 & _).
  destruct (max_of_ex (s_bounds p) Hne) as (m & Hm).
  destruct (build_values_spec (s_bounds p) gamma m Hg Hm Hb0) as (N1 & values & HN1 & Hinc & H0 & HIn & Hcov).
  destruct (approx_correct outside p gamma inverted alpha Hs Hg Ha) as (N2 & values' & HN2 & HP).
  assert (values' = values).
  { specialize (HN1 (max N1 N2) ltac:(lia)). specialize (HN2 (max N1 N2) ltac:(lia)). congruence. }
  subst values'. exists N2. intros sched fuel Hf.
  destruct (HP sched fuel Hf) as (path & cache & E1 & [E2 E3] & E4 & E5 & E6). exists path, cache.
  assert (HAF : forall z, allowed_config values (s_bounds p) z -> feasible_config (s_bounds p) z).
  { intros z H. eapply Forall2_weaken; [|exact H]. cbn. tauto. }
  split; [exact E1|]. split; [split; [exact E2|]; eapply Forall_impl; [|exact E3]; exact HAF|].
  split; [exact E4|]. split; [exact E5|]. intros ys [Y1 Y2].
  assert (HV : In 0 values) by (apply HIn; auto).
  assert (HZ : allowed_config values (s_bounds p) (zero_config (s_d p))).
  { unfold zero_config, allowed_config. rewrite Hd, Nat2Z.id. clear - Hb0 HV.
    induction Hb0 as [|u bs Hu HB IH]; cbn; constructor; [split; [exact HV|lia]|exact IH]. }
  destruct (follow gamma Hg values HV (s_bounds p) (s_switching p)
              (restricted (s_bounds p) (fun t x => c_cost (s_hit p t x))) alpha (s_tend p) Ha
              (values_fine _ _ _ _ Hg Hm HIn Hcov) Hsw Hlen) with (ys := ys) (t := 1) (x := zero_config (s_d p)) (g := zero_config (s_d p))
    as (zs & L1 & L2 & L3).
  - intros t x y Ht Hx Hy Hxy. unfold restricted. rewrite !inside_feasible by assumption. apply HG; assumption.
  - lia.
  - lia.
  - exact Y2.
  - unfold zero_config. clear. induction (Z.to_nat (s_d p)); cbn; constructor; auto; lia.
  - exact HZ.
  - assert (E6' := E6 zs (conj (eq_trans (f_equal Z.of_nat L1) Y1) L2)).
    eapply ele_trans; [exact E6'|]. unfold schedule_cost. eapply ele_trans; [exact L3|].
    assert (C0 : forall beta k, (credits gamma beta (repeat 0%Z k) (repeat 0%Z k) == 0)%Q).
    { clear. induction beta as [|b beta IH]; intros [|k]; cbn [repeat credits]; try reflexivity. rewrite IH.
      assert (E : (credit gamma 0 0 == 0)%Q); [|rewrite E; ring]. unfold credit, reach. change (inject_Z 0) with 0%Q.
      pose proof (Q.le_max_r (gamma * 0) (0 + 1)).
      destruct (Q.max_spec 0 ((2 * gamma - 1) * 0 - Qmax (gamma * 0) (0 + 1))) as [[? E]|[? E]]; rewrite E; lra. }
    unfold zero_config in *. specialize (C0 (s_switching p) (Z.to_nat (s_d p))).
    destruct (escale _ _) as [q|]; cbn; [|exact I]. rewrite C0. lra.
Qed.

(** ** Approximation scheme *)
Lemma scheme {C D} (outside : D) (p : ssco C D) eps inverted alpha :
  searchable p -> (0 < eps)%Q -> (0 <= alpha)%Q -> grows_at_most (1 + eps) p ->
  exists N, forall sched fuel, (N <= fuel)%nat -> exists path cache,
    approx_graph_search outside sched fuel p (1 + eps / 2) None inverted alpha None = Some (Ok (path, cache)) /\
    feasible_schedule (s_tend p) (s_bounds p) (gp_xs path) /\
    is_fin (gp_cost path) /\
    eeq (gp_cost path) (schedule_cost p alpha false (gp_xs path)) /\
    forall ys, feasible_schedule (s_tend p) (s_bounds p) ys ->
      ele (gp_cost path) (escale (1 + eps) (schedule_cost p alpha false ys)).
Proof.
  intros Hs He Ha HG.
  assert (EQ : (2 * (1 + eps / 2) - 1 == 1 + eps)%Q) by field.
  assert (ES : forall e, eeq (escale (2 * (1 + eps / 2) - 1) e) (escale (1 + eps) e)).
  { intros [q|]; cbn; [|exact I]. rewrite EQ. reflexivity. }
  assert (Hg : (1 < 1 + eps / 2)%Q).
  { assert (0 < eps / 2)%Q; [|lra]. apply Qlt_shift_div_l; lra. }
  assert (HG' : grows_at_most (2 * (1 + eps / 2) - 1) p).
  { intros t x y Ht Hx Hy Hxy. assert (R : raised (1 + eps) x y).
    { eapply Forall2_weaken; [|exact Hxy]. cbn. intros a b [H1 H2]. rewrite EQ in H2. auto. }
    specialize (HG t x y Ht Hx Hy R). specialize (ES (c_cost (s_hit p t x))).
    destruct (c_cost (s_hit p t x)), (c_cost (s_hit p t y)); cbn in *; try contradiction; try exact I. lra. }
  destruct (approx_ratio_correct outside p (1 + eps / 2) inverted alpha Hs Hg Ha HG') as (N & HN).
  exists N. intros sched fuel Hf. destruct (HN sched fuel Hf) as (path & cache & E1 & E2 & E3 & E4 & E5).
  exists path, cache. repeat (split; [assumption|]). intros ys Hys. specialize (E5 ys Hys).
  specialize (ES (schedule_cost p alpha false ys)).
  destruct (gp_cost path), (schedule_cost p alpha false ys); cbn in *; try contradiction; try exact I. lra.
Qed.

(** ** Number of values *)
Lemma increasing_above : forall l a, increasing (a :: l) -> Forall (fun b => a < b) l.
Proof.
  induction l as [|b l IH]; intros a H; [constructor|]. destruct H as [Hab H]. constructor; [exact Hab|].
  eapply Forall_impl; [|apply (IH b H)]. cbn. intros. lia.
Qed.
Lemma increasing_NoDup : forall l, increasing l -> NoDup l.
Proof.
  induction l as [|a l IH]; intros H; constructor.
  - intros Hin. apply increasing_above in H. rewrite Forall_forall in H. specialize (H a Hin). lia.
  - apply IH. apply H.
Qed.

Lemma values_number bounds gamma mx n : (1 < gamma)%Q -> max_of bounds = Some mx ->
  Forall (fun u => 0 <= u) bounds -> (inject_Z (mx + 1) <= Qpower gamma (Z.of_nat n))%Q ->
  exists N values, (forall fuel, (N <= fuel)%nat -> build_values fuel bounds gamma = Some (Ok values)) /\
    (length values <= 1 + length bounds + 2 * (n - 1))%nat.
Proof.
  intros Hg Hm Hb Hn. destruct (build_values_spec bounds gamma mx Hg Hm Hb) as (N & vs & HN & Hinc & _ & HIn & _).
  exists N, vs. split; [exact HN|].
  set (pows := flat_map (fun i => [Qfloor (Qpower gamma (Z.of_nat i)); Qceiling (Qpower gamma (Z.of_nat i))]) (seq 1 (n - 1))).
  assert (HL : length pows = (2 * (n - 1))%nat).
  { subst pows. generalize 1%nat at 1. generalize (n - 1)%nat. clear. intros n.
    induction n as [|n IH]; intros s; [reflexivity|]. cbn [seq flat_map app length].
    rewrite IH. lia. }
  transitivity (length (0 :: bounds ++ pows)); [|cbn [length]; rewrite app_length, HL; lia].
  apply NoDup_incl_length; [apply increasing_NoDup; exact Hinc|].
  intros v Hv. apply HIn in Hv. destruct Hv as [->|[Hv|(i & Hi & Hv & Hle)]]; [left; reflexivity|right; apply in_or_app; auto|].
  right. apply in_or_app. right. subst pows. apply in_flat_map. exists (Z.to_nat i). rewrite Z2Nat.id by lia.
  split; [|cbn; intuition congruence]. apply in_seq. split; [lia|].
  assert (i < Z.of_nat n); [|lia].
  destruct (Z_lt_ge_dec i (Z.of_nat n)) as [H|H]; [exact H|exfalso].
  pose proof (pw_mono gamma Hg (Z.of_nat n) i ltac:(lia)) as Hp. cbn beta in Hp.
  assert (Hfl : mx + 1 <= Qfloor (Qpower gamma i)).
  { assert (Q1 : (inject_Z (mx + 1) <= Qpower gamma i)%Q) by lra.
    apply Qfloor_resp_le in Q1. rewrite Qfloor_Z in Q1. exact Q1. }
  assert (Hfc := floor_le_ceil (Qpower gamma i)). lia.
Qed.

(** ** Costs of loads *)
Lemma Qsum_weight cs : Forall (fun c => 0 <= c)%Q cs -> forall c x y, raised c x y -> 
  (Qsum (map (fun p => fst p * inject_Z (snd p)) (combine cs y)) <=
   c * Qsum (map (fun p => fst p * inject_Z (snd p)) (combine cs x)))%Q.
Proof.
  induction 1 as [|a cs Ha HC IH]; intros c x y H; [cbn; lra|].
  destruct H as [|i j x y [H1 H2] H]; [cbn; lra|]. cbn [combine map Qsum fst snd]. specialize (IH c x y H). nra.
Qed.
Lemma Qsum_raised c x y : raised c x y -> (Qsum (map inject_Z x) <= Qsum (map inject_Z y))%Q.
Proof. induction 1 as [|i j x y [H1 H2] H IH]; cbn [map Qsum]; [lra|]. apply Z_Q_le in H1. lra. Qed.

Lemma load_cost_raised cs load c x y : Forall (fun q => 0 <= q)%Q cs -> raised c x y ->
  ele (load_cost cs load y) (escale c (load_cost cs load x)).
Proof.
  intros Hc H. unfold load_cost. destruct (Qltb (Qsum (map inject_Z x)) load) eqn:E.
  - cbn [escale]. destruct (Qltb (Qsum (map inject_Z y)) load); exact I.
  - apply Qltb_false in E. pose proof (Qsum_raised c x y H).
    destruct (Qltb (Qsum (map inject_Z y)) load) eqn:E2; [apply Qltb_iff in E2; lra|].
    cbn [escale ele]. apply Qsum_weight; assumption.
Qed.
