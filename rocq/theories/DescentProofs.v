(** Proofs about the algorithms based on convex optimisation. *)
From Coq Require Import Lia Lqa Qabs.
From Verif Require Import NumLemmas DescentModel DescentSpec OptimizeProofs OptimizeBrute CostSpec CostProofs ObjectiveProofs
  HorizonProofs.
From Verif Require Import ProblemModel CostModel.
Local Open Scope Z_scope.

(** ** Extended numbers *)
Lemma num_of_eq a b : num_eq (num_of a) (num_of b) <-> eeq a b.
Proof. destruct a, b; simpl; tauto. Qed.
Lemma num_of_le a b : num_le (num_of a) (num_of b) <-> ele a b.
Proof. destruct a, b; simpl; tauto. Qed.
Lemma num_of_le_Num a l : num_le (num_of a) (Num l) <-> ele a (Fin l).
Proof. destruct a; simpl; tauto. Qed.

Lemma omap_nth {A B} (f : A -> outcome B) (R : A -> B -> Prop) l :
  (forall a, In a l -> exists b, f a = Ok b /\ R a b) -> exists r, omap f l = Ok r /\ Forall2 R l r.
Proof.
  induction l as [|a l IH]; intros H.
  - exists []. split; [reflexivity|constructor].
  - destruct (H a (or_introl eq_refl)) as (b & Eb & Rb). destruct IH as (r & Er & Rr); [intros; apply H; right; auto|].
    exists (b :: r). cbn [omap]. rewrite Eb. cbn [obind]. rewrite Er. split; [reflexivity|constructor; auto].
Qed.

Lemma sum_below_S n f : (sum_below (S n) f == f O + sum_below n (fun i => f (S i)))%Q.
Proof.
  unfold sum_below. cbn [seq fold_right]. rewrite <- seq_shift.
  apply Qplus_comp; [reflexivity|]. induction (seq 0 n) as [|a l IH]; simpl; [reflexivity|]. rewrite IH. reflexivity.
Qed.
Lemma sum_below_ext n f g : (forall i, (i < n)%nat -> (f i == g i)%Q) -> (sum_below n f == sum_below n g)%Q.
Proof.
  revert f g. induction n as [|n IH]; intros f g H; [reflexivity|]. rewrite !sum_below_S, (H O) by lia.
  rewrite (IH _ (fun i => g (S i))); [reflexivity|]. intros i Hi. apply H. lia.
Qed.
Lemma sum_below_le n f g : (forall i, (i < n)%nat -> (f i <= g i)%Q) -> (sum_below n f <= sum_below n g)%Q.
Proof.
  revert f g. induction n as [|n IH]; intros f g H; [apply Qle_refl|]. rewrite !sum_below_S.
  apply Qplus_le_compat; [apply H; lia|]. apply (IH _ (fun i => g (S i))). intros i Hi. apply H. lia.
Qed.
Lemma sum_below_plus n f g : (sum_below n (fun i => f i + g i) == sum_below n f + sum_below n g)%Q.
Proof. revert f g. induction n as [|n IH]; intros f g; [reflexivity|]. rewrite !sum_below_S, IH. ring. Qed.
Lemma sum_below_scale n c f : (sum_below n (fun i => c * f i) == c * sum_below n f)%Q.
Proof. revert f. induction n as [|n IH]; intros f; [unfold sum_below; simpl; ring|]. rewrite !sum_below_S, IH. ring. Qed.

Lemma bump_moved x i h : (i < length x)%nat -> bump x i h = moved x i h.
Proof.
  revert i. induction x as [|j x IH]; intros i Hi; [simpl in Hi; lia|]. destruct i as [|i]; [reflexivity|].
  cbn [bump]. rewrite IH by (simpl in Hi; lia). reflexivity.
Qed.
Lemma bump_length x i h : length (bump x i h) = length x.
Proof. revert i. induction x as [|j x IH]; intros [|i]; simpl; auto. Qed.

Lemma Forall2_seq {B} (R : nat -> B -> Prop) d m : forall s g, Forall2 R (seq s m) g ->
  length g = m /\ forall i, (i < m)%nat -> R (s + i)%nat (nth i g d).
Proof.
  induction m as [|m IH]; intros s g H; cbn [seq] in H; inversion H as [|? q ? g' Hq H']; subst.
  - split; [reflexivity|]. intros i Hi. lia.
  - destruct (IH _ _ H') as (HL & HI). split; [simpl; lia|]. intros [|i] Hi; cbn [nth].
    + rewrite Nat.add_0_r. exact Hq.
    + replace (s + S i)%nat with (S s + i)%nat by lia. apply HI. lia.
Qed.

Lemma dot_spec g : forall x y, length x = length g -> length y = length g ->
  exists q, ndot (map Num g) (minus y x) = Ok (Num q) /\
    (q == sum_below (length g) (fun i => nth i g 0 * (nth i y 0 - nth i x 0)))%Q.
Proof.
  induction g as [|a g IH]; intros [|i x] [|j y] Hx Hy; try discriminate.
  - exists 0%Q. split; reflexivity.
  - destruct (IH x y) as (q & E & Hq); [simpl in *; lia..|].
    exists ((j - i) * a + q)%Q. change (minus (j :: y) (i :: x)) with ((j - i)%Q :: minus y x).
    cbn [map ndot nscale obind]. rewrite E. cbn [obind nadd]. split; [reflexivity|].
    cbn [length].
    rewrite sum_below_S, Hq. cbn [nth]. ring.
Qed.

(** ** Gradients and Bregman divergence of functions defined everywhere *)
Section Divergence.
  Variable eps : Q.
  Variable n : nat.
  Variable h : list Q -> outcome Q.
  Variable hf : list Q -> Q.
  Hypothesis Hh : computes n h hf.
  Hypothesis Hcomp : respects_eq Qeq hf.

  Lemma gradient_spec x : length x = n ->
    exists g, gradient eps (as_callback h) x = Ok (map Num g) /\ length g = n /\
      forall i, (i < n)%nat -> (nth i g 0 == slope eps hf x i)%Q.
  Proof.
    intros Hx. unfold gradient.
    destruct (omap_nth (fun i => do a <- as_callback h (bump x i eps); do b <- as_callback h (bump x i (- eps));
        match a, b with
        | Num u, Num v => Ok (Num ((u - v) / (2 * eps)))
        | PosInf, PosInf | NegInf, NegInf => Ok (Num 0)
        | PosInf, _ | _, NegInf => Ok PosInf
        | NegInf, _ | _, PosInf => Ok NegInf
        end) (fun i v => exists q, v = Num q /\ (q == slope eps hf x i)%Q) (seq 0 (length x))) as (r & Er & Rr).
    - intros i Hi. apply in_seq in Hi. unfold as_callback.
      destruct (Hh (bump x i eps)) as (u & Eu & Qu). { rewrite bump_length. exact Hx. }
      destruct (Hh (bump x i (- eps))) as (w & Ew & Qw). { rewrite bump_length. exact Hx. }
      rewrite Eu, Ew. cbn [obind]. eexists. split; [reflexivity|]. eexists. split; [reflexivity|].
      unfold slope. rewrite Qu, Qw, !bump_moved by lia. reflexivity.
    - rewrite Er. clear Er.
      assert (exists g, r = map Num g /\ Forall2 (fun i q => (q == slope eps hf x i)%Q) (seq 0 (length x)) g) as (g & -> & Rg).
      { induction Rr as [|i v l r (q & -> & Hq) Rr (g & -> & Rg)].
        - exists []. split; [reflexivity|constructor].
        - exists (q :: g). split; [reflexivity|constructor; auto]. }
      exists g. split; [reflexivity|]. rewrite Hx in Rg. apply (Forall2_seq _ 0%Q) in Rg. exact Rg.
  Qed.

  Lemma divergence_spec x y : length x = n -> length y = n ->
    exists q, bregman_divergence eps h y x = Ok (Num q) /\ (q == divergence eps hf x y)%Q.
  Proof.
    intros Hx Hy. unfold bregman_divergence.
    destruct (Hh y Hy) as (a & Ea & Qa). destruct (Hh x Hx) as (b & Eb & Qb).
    destruct (gradient_spec x Hx) as (g & Eg & HL & Hg). rewrite Ea, Eb. cbn [obind]. rewrite Eg. cbn [obind].
    destruct (dot_spec g x y) as (q & Eq & Hq); [lia..|]. rewrite Eq. cbn [obind nsub].
    eexists. split; [reflexivity|]. unfold divergence. rewrite Qa, Qb, Hq, Hx, HL.
    apply Qplus_comp; [reflexivity|]. apply Qopp_comp. apply sum_below_ext. intros i Hi. rewrite Hg by lia. reflexivity.
  Qed.

  Lemma nth_comp x y i : Forall2 Qeq x y -> (nth i x 0 == nth i y 0)%Q.
  Proof. intros H. revert i. induction H; intros [|i]; simpl; auto; reflexivity. Qed.

  Lemma divergence_comp x y z : Forall2 Qeq y z -> (divergence eps hf x y == divergence eps hf x z)%Q.
  Proof.
    intros H. unfold divergence. rewrite (Hcomp _ _ H). apply Qplus_comp; [reflexivity|]. apply Qopp_comp.
    apply sum_below_ext. intros i _. rewrite (nth_comp _ _ i H). reflexivity.
  Qed.
End Divergence.

(** ** Hitting costs *)
Section Hitting.
  Context {C D : Type}.
  Variable vmerge : C -> C -> outcome C.
  Variable outside : D.

  Lemma charges_agrees (cf : cost_fn (list Q) C D) bounds t H :
    charges cf bounds t H -> agrees bounds (certain_cost cf t) (fun x => num_of (H x)).
  Proof.
    intros Hc x [Hx _]. destruct (Hc x Hx) as (c & E & Ec). unfold certain_cost. rewrite E. cbn [obind].
    eexists. split; [reflexivity|]. apply num_of_eq. exact Ec.
  Qed.

  Lemma mean_of_certain (cf : cost_fn (list Q) C D) t x c :
    call_certain cf t x = Ok c -> exists c', call_mean vmerge cf t x = Ok c' /\ eeq (c_cost c') (c_cost c).
  Proof.
    intros H. unfold call_certain in H. apply obind_Ok in H as ((s, f) & E & H). unfold call_mean. rewrite E. cbn [obind snd fst] in *.
    unfold single_certain in H. apply obind_Ok in H as (rs & Er & H). unfold single_mean. rewrite Er. cbn [obind].
    destruct rs as [|c1 [|c2 rs]]; try discriminate. injection H as ->.
    pose proof (cost_mean_single vmerge c) as HM. destruct (cost_mean vmerge [c]) as [c'| |]; try contradiction.
    exists c'. split; [reflexivity|]. apply HM.
  Qed.

  Lemma hit_num_inside (p : gsco Q C D) t H x :
    charges (o_cost p) (o_bounds p) t H -> in_boxQ (o_bounds p) x ->
    exists v, hit_num vmerge outside p t x = Ok v /\ num_eq v (num_of (H x)).
  Proof.
    intros Hc Hx. destruct (Hc x Hx) as (c & E & Ec). apply mean_of_certain in E as (c' & E' & Ec').
    unfold hit_num. rewrite (gsco_hit_inside valQ vmerge outside p t x Hx), E'. cbn [obind].
    eexists. split; [reflexivity|]. apply num_of_eq. eapply eeq_trans; eauto.
  Qed.
End Hitting.

Section Minimizer.
  Variable nlopt : nl_problem -> outcome nl_result.
  Hypothesis Hex : exact_nlopt nlopt.
  Context {C D : Type}.

  Lemma cheapest_spec (cf : cost_fn (list Q) C D) bounds t H :
    aligned bounds -> charges cf bounds t H -> respects_eq eeq H ->
    exists v opt, find_minimizer_of_hitting_cost nlopt t cf bounds = Ok (v, opt) /\ cheapest bounds H v /\
      map apply_precision v = v /\ num_eq opt (num_of (H v)).
  Proof.
    intros Ha Hc HH. unfold find_minimizer_of_hitting_cost.
    destruct (find_minimizer_spec nlopt Hex (certain_cost cf t) (fun x => num_of (H x)) bounds Ha (charges_agrees _ _ _ _ Hc))
      as (v & opt & E & Hp & _ & Ho & Hg & Hm).
    { intros x y Hxy. apply num_of_eq, HH, Hxy. }
    exists v, opt. split; [exact E|]. split; [|split; auto]. split; [exact Hg|]. intros z Hz. apply num_of_le, Hm, Hz.
  Qed.

  Variable eps : Q.

  Lemma projection_spec (h : list Q -> outcome Q) hf l (cf : cost_fn (list Q) C D) bounds t H prev :
    aligned bounds -> charges cf bounds t H -> respects_eq eeq H ->
    computes (length bounds) h hf -> respects_eq Qeq hf -> length prev = length bounds ->
    exists x, bregman_projection nlopt eps h l bounds cf t prev = Ok x /\
      map apply_precision x = x /\ descends bounds H (divergence eps hf prev) l x.
  Proof.
    intros Ha Hc HH Hh Hhf Hp. unfold bregman_projection.
    destruct (cheapest_spec cf bounds t H Ha Hc HH) as (v & opt & Ev & Hv & Hvp & Ho). rewrite Ev. cbn [obind fst].
    destruct (minimize_spec nlopt Hex (fun y => bregman_divergence eps h y prev) (fun y => Num (divergence eps hf prev y)) bounds
                (Some v) [fun y => do c <- certain_cost cf t y; nsub c (Num l)]
                [fun y => match H y with Fin q => Num (q - l) | Inf => PosInf end]) as (y & w & Ey & Hy & Hyp & _ & _ & Hopt).
    - exact Ha.
    - right. exists v. split; [reflexivity|]. apply Hv.
    - intros y [Hy _]. destruct (divergence_spec eps (length bounds) h hf Hh prev y) as (q & E & Hq); auto.
      { apply in_boxQ_length. exact Hy. }
      exists (Num q). split; [exact E|exact Hq].
    - intros y z Hyz. simpl. apply divergence_comp; auto.
    - constructor; [|constructor]. intros y Hy. destruct (charges_agrees _ _ _ _ Hc y Hy) as (c & E & Ec).
      rewrite E. cbn [obind]. destruct (H y) as [q|], c as [|c|]; simpl in *; try contradiction; eexists; (split; [reflexivity|]); simpl; auto.
      rewrite Ec. reflexivity.
    - constructor; [|constructor]. intros y z Hyz. specialize (HH y z Hyz). destruct (H y), (H z); simpl in *; auto. rewrite HH. reflexivity.
    - rewrite Ey. cbn [obind fst].
      destruct (charges_agrees _ _ _ _ Hc y Hy) as (c & E & Ec). rewrite E. cbn [obind].
      assert (forall z tol, num_le (match H z with Fin q => Num (q - l) | Inf => PosInf end) (Num tol) <-> ele (H z) (Fin (l + tol))) as HL.
      { intros z tol. destruct (H z); simpl; [|tauto]. split; intros; lra. }
      assert (forall z, ele (H z) (Fin (l + 0)) <-> ele (H z) (Fin l)) as HL0.
      { intros z. destruct (H z); simpl; [|tauto]. split; intros; lra. }
      assert (ngtb c (Num l) = true <-> ~ ele (H y) (Fin l)) as HG.
      { rewrite ngtb_iff. destruct (H y) as [q|], c as [|c|]; simpl in *; try tauto. rewrite Ec. split; [tauto|]. intros G. split; [|exact G]. lra. }
      assert (forall z, grid bounds z -> ele (H z) (Fin l) ->
                ele (H y) (Fin (l + (1 # 1000))) /\ forall z, grid bounds z -> ele (H z) (Fin l) ->
                (divergence eps hf prev y <= divergence eps hf prev z)%Q) as HO.
      { intros z Hz Lz. destruct Hopt as (S1 & S2).
        - exists z. split; [exact Hz|]. constructor; [|constructor]. apply HL, HL0, Lz.
        - inversion S1 as [|? ? S _]; subst. apply HL in S. split; [exact S|]. intros z' Hz' Lz'.
          apply (S2 z' Hz'). constructor; [|constructor]. apply HL, HL0, Lz'. }
      destruct (ngtb c (Num l)) eqn:EG.
      + exists v. split; [reflexivity|]. split; [exact Hvp|]. split; [right; exact Hv|].
        intros (z & Hz & Lz) HT. exfalso. destruct (HO z Hz Lz) as (S & _).
        destruct HG as [HG _]. apply (HG eq_refl). apply HT; auto.
      + exists y. split; [reflexivity|]. split; [exact Hyp|].
        assert (ele (H y) (Fin l)) as Ly.
        { destruct (H y) as [q|], c as [|c|]; simpl in *; try tauto; try discriminate. apply Qltb_false in EG. lra. }
        assert (closest bounds H (divergence eps hf prev) l y) as Cy.
        { split; [exact Hy|]. split; [exact Ly|]. apply (HO y Hy Ly). }
        split; [left; exact Cy|]. intros _ _. exact Cy.
  Qed.

  Lemma previous_now (p : gsco Q C D) xs : o_d p = Z.of_nat (length (o_bounds p)) ->
    now (o_d p) xs = previous (length (o_bounds p)) xs.
  Proof. intros Hd. unfold now, previous, gzero. rewrite Hd, Nat2Z.id. reflexivity. Qed.

  Lemma obd_spec l h hf (o : online (gsco Q C D)) t xs H :
    let p := on_p o in let d := length (o_bounds p) in let prev := previous d xs in
    on_w o = 0 -> o_d p = Z.of_nat d -> length prev = d ->
    aligned (o_bounds p) -> charges (o_cost p) (o_bounds p) t H -> respects_eq eeq H ->
    computes d h hf -> respects_eq Qeq hf ->
    exists x, obd nlopt eps l h o t xs tt = Ok (x, None) /\
      map apply_precision x = x /\ descends (o_bounds p) H (divergence eps hf prev) l x.
  Proof.
    intros p d prev Hw Hd Hp Ha Hc HH Hh Hhf. unfold obd. rewrite Hw. cbn [Z.eqb negb]. fold p. rewrite previous_now by exact Hd.
    destruct (projection_spec h hf l (o_cost p) (o_bounds p) t H prev Ha Hc HH Hh Hhf Hp) as (x & E & HP & HX).
    unfold prev, d in E. rewrite E. cbn [obind]. exists x. auto.
  Qed.
End Minimizer.
