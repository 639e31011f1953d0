(** A concrete optimiser meeting [exact_nlopt]: it tries all points of the grid.  Not part
    of the model; it shows that the hypothesis can be met and serves in examples. *)
From Coq Require Import Lia Lqa Qabs.
From Verif Require Import NumLemmas OptimizeModel OptimizeSpec OptimizeProofs.
From Verif Require Import ProblemModel CostModel.
Local Open Scope Z_scope.

Definition axis (lo hi : Q) : list Q :=
  map (fun z => inject_Z z * PRECISION)%Q (zrange (round (lo / PRECISION)) (round (hi / PRECISION))).
Fixpoint points (bounds : list (fnum * fnum)) : list (list Q) :=
  match bounds with
  | [] => [[]]
  | (Num lo, Num hi) :: bs => flat_map (fun j => map (cons j) (points bs)) (axis lo hi)
  | _ :: bs => []
  end.
Definition admissible (cs : list callback) (x : list Q) : bool :=
  forallb (fun g => match g x with Ok NegInf => true | Ok (Num q) => Qle_bool q 0 | _ => false end) cs.
Fixpoint best (f : callback) (l : list (list Q)) : option (fnum * list Q) :=
  match l with
  | [] => None
  | x :: r =>
      match f x, best f r with
      | Ok v, Some (w, y) => if ngtb v w then Some (w, y) else Some (v, x)
      | Ok v, None => Some (v, x)
      | _, _ => None
      end
  end.
Definition brute (p : nl_problem) : outcome nl_result :=
  let all := points (nl_bounds p) in
  let some := filter (admissible (nl_constraints p)) all in
  match best (nl_objective p) (match some with [] => all | _ => some end) with
  | Some (v, x) => Ok (NlOk Success v x)
  | None => Panic
  end.

Lemma num_total a b : num_le a b \/ num_le b a.
Proof. destruct a as [|x|], b as [|y|]; simpl; auto. destruct (Qlt_le_dec x y); [left|right]; lra. Qed.
Lemma ngtb_false a b : ngtb a b = false -> num_le a b.
Proof.
  intros H. destruct (num_total a b) as [L|L]; [exact L|].
  destruct a as [|x|], b as [|y|]; simpl in *; auto; try discriminate. apply Qltb_false in H. exact H.
Qed.

Lemma best_spec f l : l <> [] -> (forall x, In x l -> exists v, f x = Ok v) ->
  exists v x, best f l = Some (v, x) /\ In x l /\ f x = Ok v /\
    forall y w, In y l -> f y = Ok w -> num_le v w.
Proof.
  induction l as [|a l IH]; intros Hl Hf; [congruence|]. destruct (Hf a (or_introl eq_refl)) as (va & Ea).
  destruct l as [|b l].
  - exists va, a. cbn. rewrite Ea. split; [reflexivity|]. split; [auto|]. split; [reflexivity|].
    intros y w [<-|[]] Ew. assert (w = va) as -> by congruence. apply num_le_refl.
  - destruct IH as (v & x & Eb & Hx & Ev & Hmin).
    { discriminate. } { intros z Hz. apply Hf. right. exact Hz. }
    cbn [best]. cbn [best] in Eb. rewrite Ea, Eb. destruct (ngtb va v) eqn:E.
    + exists v, x. split; [reflexivity|]. split; [right; exact Hx|]. split; [exact Ev|].
      intros y w [<-|Hy] Ew; [|exact (Hmin y w Hy Ew)]. rewrite Ea in Ew. injection Ew as <-. apply ngtb_iff in E. tauto.
    + exists va, a. split; [reflexivity|]. split; [left; reflexivity|]. split; [exact Ea|].
      apply ngtb_false in E. intros y w [<-|Hy] Ew.
      * rewrite Ea in Ew. injection Ew as <-. apply num_le_refl.
      * eapply num_le_trans; [exact E|]. exact (Hmin y w Hy Ew).
Qed.

Lemma axis_In lo hi j : hundredths lo -> hundredths hi ->
  (In (apply_precision j) (axis lo hi) <-> (lo <= apply_precision j <= hi)%Q).
Proof.
  intros [zl Hl] [zh Hh]. unfold axis.
  assert (forall z, (z # 100 == inject_Z z * PRECISION)%Q) as HP by (intros; rewrite hundredth; reflexivity).
  assert (forall q z, (q == z # 100)%Q -> round (q / PRECISION) = z) as HR.
  { intros q z Hq. rewrite (round_comp _ (inject_Z z)); [apply round_int|]. rewrite Hq, HP. unfold PRECISION. field. }
  assert (forall a b, (inject_Z a * PRECISION <= inject_Z b * PRECISION)%Q <-> a <= b) as HZ.
  { intros a b. rewrite (Zle_Qle a b). unfold PRECISION. split; intros; lra. }
  rewrite (HR _ _ Hl), (HR _ _ Hh). rewrite Hl, Hh, (HP zl), (HP zh), ap_eq.
  set (k := round (j / PRECISION)). rewrite !HZ. rewrite in_map_iff. split.
  - intros (z & E & Hz). rewrite zrange_In in Hz. assert (z = k); [|subst; auto].
    assert (inject_Z z * PRECISION == inject_Z k * PRECISION)%Q as E' by (rewrite E; reflexivity).
    unfold PRECISION in E'. assert (inject_Z z == inject_Z k)%Q as E2 by lra. unfold Qeq in E2. simpl in E2. lia.
  - intros H. exists k. rewrite zrange_In. auto.
Qed.

Lemma axis_sound lo hi j : hundredths lo -> hundredths hi -> In j (axis lo hi) -> (lo <= j <= hi)%Q /\ apply_precision j = j.
Proof.
  intros Hl Hh H. assert (apply_precision j = j) as E.
  { unfold axis in H. apply in_map_iff in H as (z & <- & _).
    unfold apply_precision. f_equal. f_equal. rewrite (round_comp _ (inject_Z z)); [apply round_int|]. unfold PRECISION. field. }
  split; [|exact E]. rewrite <- E. apply axis_In; auto. rewrite E. exact H.
Qed.

Lemma points_sound bounds x : aligned bounds -> In x (points (num_bounds bounds)) -> in_boxQ bounds x.
Proof.
  intros Ha. revert x. induction Ha as [|[lo hi] bs (H1 & H2 & _) Ha IH]; intros x H.
  - destruct H as [<-|[]]. constructor.
  - cbn [num_bounds map points fst snd] in H. apply in_flat_map in H as (j & Hj & H). apply in_map_iff in H as (r & <- & Hr).
    constructor; [|apply IH; exact Hr]. apply axis_sound in Hj; tauto.
Qed.

Lemma points_complete bounds x : aligned bounds -> in_boxQ bounds x -> In (map apply_precision x) (points (num_bounds bounds)).
Proof.
  intros Ha Hx. pose proof (map_ap_box _ _ Ha Hx) as Hy. clear Hx. revert x Hy.
  induction Ha as [|[lo hi] bs (H1 & H2 & _) Ha IH]; intros x Hy; destruct x as [|j x]; inversion Hy; subst.
  - left. reflexivity.
  - cbn [num_bounds map points fst snd]. apply in_flat_map. exists (apply_precision j). split.
    + apply axis_In; auto.
    + apply in_map. apply IH. auto.
Qed.

Lemma admissible_iff cs x : admissible cs x = true <-> satisfies cs x 0.
Proof.
  unfold admissible, satisfies. rewrite forallb_forall, Forall_forall. split; intros H g Hg; specialize (H g Hg).
  - destruct (g x) as [v| |] eqn:E; try discriminate. exists v. split; [reflexivity|].
    destruct v as [|q|]; try discriminate; simpl; auto. apply Qle_bool_iff. exact H.
  - destruct H as (v & -> & L). destruct v as [|q|]; simpl in L; auto. apply Qle_bool_iff. exact L.
Qed.

Theorem brute_exact : exact_nlopt brute.
Proof.
  intros a f bounds cs x0 _ Ha Hx0 Hr Ht. fold (num_bounds bounds).
  unfold brute. cbn [nl_bounds nl_constraints nl_objective].
  set (all := points (num_bounds bounds)). set (some := filter (admissible cs) all).
  assert (all <> []) as Hall.
  { pose proof (points_complete _ _ Ha Hx0) as H. fold all in H. intros E. rewrite E in H. destruct H. }
  assert (forall x, In x all -> exists v, f x = Ok v) as Hf.
  { intros x Hx. apply Ht; [left; reflexivity|]. apply points_sound; auto. }
  assert (forall z, in_boxQ bounds z -> satisfies cs z 0 -> In (map apply_precision z) some) as Hin.
  { intros z Hz Sz. apply filter_In. split; [apply points_complete; auto|]. apply admissible_iff.
    unfold satisfies in *. rewrite Forall_forall in *. intros g Hg. rewrite <- (Hr g (or_intror Hg)). auto. }
  destruct some as [|s0 some'] eqn:Es.
  - destruct (best_spec f all Hall Hf) as (v & x & -> & Hx & Ev & Hmin). exists Success, v, x.
    split; [reflexivity|]. split; [discriminate|]. split; [discriminate|]. split; [apply points_sound; auto|].
    split; [exact Ev|]. intros (z & Hz & Sz). destruct (Hin z Hz Sz).
  - destruct (best_spec f (s0 :: some')) as (v & x & -> & Hx & Ev & Hmin).
    { discriminate. }
    { intros x Hx. apply Hf. rewrite <- Es in Hx. apply filter_In in Hx. tauto. }
    exists Success, v, x. split; [reflexivity|]. split; [discriminate|]. split; [discriminate|].
    rewrite <- Es in Hx. apply filter_In in Hx as [Hx Sx]. split; [apply points_sound; auto|]. split; [exact Ev|].
    intros _. split.
    + apply admissible_iff in Sx. unfold satisfies in *. eapply Forall_impl; [|exact Sx]. intros g (w & Ew & Lw).
      exists w. split; [exact Ew|]. eapply num_le_trans; [exact Lw|]. simpl. lra.
    + intros z w Hz Sz Ew. eapply Hmin; [apply Hin; eauto|]. rewrite <- (Hr f (or_introl eq_refl)). exact Ew.
Qed.
