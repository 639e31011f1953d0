(** Proofs: NLopt, as this library calls it, solves problems over windows of slots on the grid. *)
From Coq Require Import Lia Lqa.
From Verif Require Import NumLemmas CostSpec CostProofs OptimizeModel OptimizeSpec OptimizeProofs HorizonModel HorizonSpec HorizonProofs
  HorizonRunModel HorizonRunSpec HorizonRunProofs HorizonRunAveraging DescentModel DescentSpec DescentProofs DescentAlgorithms DescentBounds WindowModel WindowSpec.
From Verif Require Import ProblemModel CostModel.
Local Open Scope Z_scope.

(** ** Vectors and schedules *)
Fixpoint chunks (d n : nat) (x : list Q) : list (list Q) :=
  match n with
  | O => []
  | S n' => firstn d x :: chunks d n' (skipn d x)
  end.

Lemma chunks_concat d : forall n xs, length xs = n -> Forall (fun x => length x = d) xs -> chunks d n (concat xs) = xs.
Proof.
  induction n as [|n IH]; intros [|x xs] HL HF; try discriminate; [reflexivity|].
  pose proof (Forall_inv HF) as Hx. apply Forall_inv_tail in HF. cbn [concat chunks]. f_equal.
  - rewrite firstn_app, <- Hx, firstn_all, Nat.sub_diag. cbn. apply app_nil_r.
  - rewrite skipn_app, <- Hx, skipn_all, Nat.sub_diag. cbn [skipn app]. rewrite Hx. apply IH; [injection HL; auto|exact HF].
Qed.

Lemma chunks_comp d : forall n x y, Forall2 Qeq x y -> Forall2 (Forall2 Qeq) (chunks d n x) (chunks d n y).
Proof.
  assert (forall k x y, Forall2 Qeq x y -> Forall2 Qeq (firstn k x) (firstn k y)) as HF.
  { induction k as [|k IH]; intros x y H; [constructor|]. destruct H; cbn; constructor; auto. }
  assert (forall k x y, Forall2 Qeq x y -> Forall2 Qeq (skipn k x) (skipn k y)) as HS.
  { induction k as [|k IH]; intros x y H; [exact H|]. destruct H; cbn; [constructor|auto]. }
  induction n as [|n IH]; intros x y H; cbn; constructor; auto.
Qed.

(** A point of the grid for a window is a schedule. *)
Lemma grid_rows bounds : forall n x, grid (concat (repeat bounds n)) x ->
  concat (chunks (length bounds) n x) = x /\ rows (Forall hundredths) bounds n (chunks (length bounds) n x).
Proof.
  induction n as [|n IH]; intros x [HB HH].
  - inversion HB; subst. cbn. split; [reflexivity|]. repeat split; constructor.
  - cbn [repeat concat] in HB. apply Forall2_app_inv_l in HB. destruct HB as (a & b & H1 & H2 & ->).
    apply Forall_app in HH. destruct HH as [Ha Hb]. cbn [chunks].
    pose proof (in_boxQ_length _ _ H1) as L.
    assert (firstn (length bounds) (a ++ b) = a) as ->.
    { rewrite firstn_app, <- L, firstn_all, Nat.sub_diag. cbn. apply app_nil_r. }
    assert (skipn (length bounds) (a ++ b) = b) as ->.
    { rewrite skipn_app, <- L, skipn_all, Nat.sub_diag. reflexivity. }
    destruct (IH b) as [E (R1 & R2 & R3)]; [split; assumption|].
    cbn [concat]. rewrite E. split; [reflexivity|]. repeat split; cbn [length]; [lia|constructor; assumption|constructor; assumption].
Qed.

Lemma rows_grid bounds n xs : rows (Forall hundredths) bounds n xs -> grid (concat (repeat bounds n)) (concat xs).
Proof.
  revert xs. induction n as [|n IH]; intros [|x xs] (HL & HB & HH); try discriminate.
  - split; constructor.
  - pose proof (Forall_inv HB). pose proof (Forall_inv HH). apply Forall_inv_tail in HB. apply Forall_inv_tail in HH.
    cbn [repeat concat]. destruct (IH xs) as [G1 G2]; [repeat split; auto|].
    split; [apply Forall2_app; assumption|apply Forall_app; split; assumption].
Qed.

Lemma aligned_repeat bounds n : aligned bounds -> aligned (concat (repeat bounds n)).
Proof. intros H. induction n as [|n IH]; [constructor|]. cbn. apply Forall_app. split; assumption. Qed.

Lemma Num_le a b : num_le (Num a) (Num b) <-> (a <= b)%Q.
Proof. reflexivity. Qed.

(** ** The optimiser *)
Theorem nlopt_solves nlopt bounds n F Gs :
  exact_nlopt nlopt -> aligned bounds -> respects_rows eeq F -> Forall (respects_rows Qeq) Gs ->
  solves (Forall hundredths) (1 # 1000) (window_minimize nlopt) bounds n F Gs.
Proof.
  intros Hex Ha HF HG g cs Hg Hcs. set (d := length bounds).
  assert (forall xs, rows (Forall hundredths) bounds n xs -> chunks d n (concat xs) = xs) as Hback.
  { intros xs Hr. destruct Hr as (HL & HB & _). apply chunks_concat; [exact HL|]. eapply Forall_impl; [|exact HB]. intros x Hx. apply in_boxQ_length. exact Hx. }
  destruct (minimize_spec nlopt Hex (fun x => do v <- g x; Ok (num_of v)) (fun x => num_of (F (chunks d n x)))
              (concat (repeat bounds n)) None (map (fun c x => do q <- c x; Ok (Num q)) cs)
              (map (fun G x => Num (G (chunks d n x))) Gs)) as (x & v & E & Hx & _ & _ & _ & Hopt).
  - apply aligned_repeat. exact Ha.
  - left. reflexivity.
  - intros x Hx. destruct (grid_rows bounds n x Hx) as [Ex Hr]. destruct (Hg _ Hr) as (c & Hc & Ec).
    rewrite Ex in Hc. rewrite Hc. cbn [obind]. eexists. split; [reflexivity|]. apply num_of_eq. exact Ec.
  - intros x y Hxy. apply num_of_eq. apply HF. apply chunks_comp. exact Hxy.
  - clear HG. induction Hcs as [|c G cs Gs Hc Hcs IH]; cbn [map]; constructor; [|exact IH].
    intros x Hx. destruct (grid_rows bounds n x Hx) as [Ex Hr]. destruct (Hc _ Hr) as (q & Hq & Eq).
    rewrite Ex in Hq. rewrite Hq. cbn [obind]. eexists. split; [reflexivity|exact Eq].
  - apply Forall_map. eapply Forall_impl; [|exact HG]. intros G HGr x y Hxy. apply HGr. apply chunks_comp. exact Hxy.
  - destruct (grid_rows bounds n x Hx) as [Ex Hr]. exists (chunks d n x).
    assert (forall xs, rows (Forall hundredths) bounds n xs -> Forall (fun G => (G xs <= 0)%Q) Gs ->
      Forall (fun G => num_le (G (concat xs)) (Num 0)) (map (fun G x => Num (G (chunks d n x))) Gs)) as Hin.
    { intros xs Hxs HGs. apply Forall_map. eapply Forall_impl; [|exact HGs]. intros G HGx. cbn beta. rewrite (Hback xs Hxs). exact HGx. }
    split; [|split; [exact Hr|split]].
    + unfold window_minimize. rewrite E. cbn [obind fst]. unfold d. rewrite Ex. reflexivity.
    + intros (xs & Hxs & HGs). destruct Hopt as [H1 _].
      { exists (concat xs). split; [apply rows_grid; exact Hxs|apply Hin; assumption]. }
      rewrite Forall_map in H1. exact H1.
    + intros xs Hxs HGs. destruct Hopt as [_ H2].
      { exists (concat xs). split; [apply rows_grid; exact Hxs|apply Hin; assumption]. }
      specialize (H2 (concat xs) (rows_grid _ _ _ Hxs) (Hin xs Hxs HGs)). rewrite (Hback xs Hxs) in H2. apply num_of_le. exact H2.
Qed.

(** ** Costs of schedules *)
Lemma total_cost_rows (hit : Z -> list Q -> ext) (move : list Q -> list Q -> Q) alpha :
  (forall s, respects_eq eeq (hit s)) ->
  (forall a b a' b', Forall2 Qeq a a' -> Forall2 Qeq b b' -> (move a b == move a' b')%Q) ->
  forall xs ys t a b, Forall2 Qeq a b -> Forall2 (Forall2 Qeq) xs ys ->
  eeq (total_cost hit move alpha t a xs) (total_cost hit move alpha t b ys).
Proof.
  intros HH HM xs ys t a b Eab E. revert t a b Eab. induction E as [|x y xs ys Exy E IH]; intros t a b Eab; [reflexivity|].
  cbn [total_cost]. apply eadd_proper; [apply eadd_proper|].
  - apply HH. exact Exy.
  - cbn. rewrite (HM a x b y Eab Exy). reflexivity.
  - apply IH. exact Exy.
Qed.

Lemma total_switching_rows (move : list Q -> list Q -> Q) :
  (forall a b a' b', Forall2 Qeq a a' -> Forall2 Qeq b b' -> (move a b == move a' b')%Q) ->
  forall xs ys a b, Forall2 Qeq a b -> Forall2 (Forall2 Qeq) xs ys -> (total_switching move a xs == total_switching move b ys)%Q.
Proof.
  intros HM xs ys a b Eab E. revert a b Eab. induction E as [|x y xs ys Exy E IH]; intros a b Eab; [reflexivity|].
  cbn [total_switching]. rewrite (HM a x b y Eab Exy), (IH x y Exy). reflexivity.
Qed.

Lemma power_up_rows beta : forall a x b y, Forall2 Qeq a b -> Forall2 Qeq x y -> (power_upQ beta a x == power_upQ beta b y)%Q.
Proof.
  induction beta as [|c beta IH]; intros a x b y Ea Ex; [reflexivity|].
  destruct Ea as [|i i' a b Ei Ea]; [reflexivity|]. destruct Ex as [|j j' x y Ej Ex]; [reflexivity|]. cbn [power_upQ].
  rewrite (IH a x b y Ea Ex).
  assert (Qle_bool j i = Qle_bool j' i') as -> by (apply eq_true_iff_eq; rewrite !Qle_bool_iff, Ei, Ej; reflexivity).
  destruct (Qle_bool j' i'); [reflexivity|]. rewrite Ei, Ej. reflexivity.
Qed.

Lemma plan_rows (hit : Z -> list Q -> ext) beta a prev k : (forall s, respects_eq eeq (hit s)) ->
  respects_rows eeq (fun ys => plan_cost hit beta a prev (firstn k ys)).
Proof.
  intros HH xs ys E. unfold plan_cost. apply total_cost_rows.
  - intros s x y Exy. unfold hit_from_1. destruct (s <? 1); [reflexivity|]. apply HH. exact Exy.
  - intros. apply power_up_rows; assumption.
  - apply Forall2_Qeq_refl.
  - clear - E. revert k. induction E; intros [|k]; cbn; constructor; auto.
Qed.

Lemma alpha_rows (hit : Z -> list Q -> ext) N d alpha : (forall s, respects_eq eeq (hit s)) -> respects_eq Qeq N ->
  respects_rows eeq (alpha_cost hit N d alpha).
Proof.
  intros HH HN xs ys E. unfold alpha_cost. apply total_cost_rows; auto.
  - intros a b a' b' Ea Eb. apply HN. apply difference_comp; assumption.
  - apply Forall2_Qeq_refl.
Qed.

Lemma movement_rows N d : respects_eq Qeq N -> respects_rows Qeq (movement_of N d).
Proof.
  intros HN xs ys E. unfold movement_of. apply total_switching_rows; auto.
  - intros a b a' b' Ea Eb. apply HN. apply difference_comp; assumption.
  - apply Forall2_Qeq_refl.
Qed.

Lemma hundredths_zero d : Forall hundredths (repeat 0%Q d).
Proof. induction d; constructor; auto. exists 0. reflexivity. Qed.

Lemma aligned_pairs us : Forall (fun u => hundredths u /\ 0 <= u)%Q us -> aligned (map (fun u => (0%Q, u)) us).
Proof. intros H. apply Forall_map. eapply Forall_impl; [|exact H]. intros u [H1 H2]. cbn. split; [exists 0; reflexivity|]. auto. Qed.
