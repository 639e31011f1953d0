(** Proofs about numerical optimisation (C55) and root finding (C56). *)
From Coq Require Import Lia Lqa Qabs.
From Verif Require Import NumLemmas OptimizeModel OptimizeSpec.
From Verif Require Import ProblemModel CostModel.
Local Open Scope Z_scope.

Lemma num_eq_refl a : num_eq a a.
Proof. destruct a; simpl; auto. reflexivity. Qed.
Lemma num_eq_sym a b : num_eq a b -> num_eq b a.
Proof. destruct a, b; simpl; auto. intros H. symmetry. exact H. Qed.
Lemma num_eq_trans a b c : num_eq a b -> num_eq b c -> num_eq a c.
Proof. destruct a, b, c; simpl; tauto || (intros; lra). Qed.
Lemma num_le_refl a : num_le a a.
Proof. destruct a; simpl; auto. lra. Qed.
Lemma num_le_trans a b c : num_le a b -> num_le b c -> num_le a c.
Proof. destruct a, b, c; simpl; try tauto. intros. lra. Qed.
Lemma num_eq_le a b : num_eq a b -> num_le a b.
Proof. destruct a, b; simpl; try tauto. intros. lra. Qed.
Lemma num_le_eq a b c d : num_eq a c -> num_eq b d -> num_le a b -> num_le c d.
Proof.
  intros H1 H2 H. eapply num_le_trans; [apply num_eq_le, num_eq_sym, H1|].
  eapply num_le_trans; [exact H|apply num_eq_le, H2].
Qed.

(** ** Rounding *)
Lemma round_comp x y : (x == y)%Q -> round x = round y.
Proof.
  intros H. unfold round. assert (Qltb x 0 = Qltb y 0) as ->.
  { destruct (Qltb y 0) eqn:E.
    - apply Qltb_iff in E. apply Qltb_iff. lra.
    - apply Qltb_false in E. apply Qltb_false. lra. }
  destruct (Qltb y 0); [f_equal|]; apply Qfloor_comp; rewrite H; reflexivity.
Qed.

Lemma floor_bounds x : (inject_Z (Qfloor x) <= x)%Q /\ (x < inject_Z (Qfloor x) + 1)%Q.
Proof.
  split; [apply Qfloor_le|]. pose proof (Qlt_floor x) as H. rewrite inject_Z_plus in H. exact H.
Qed.

Lemma round_near x : (x - (1 # 2) <= inject_Z (round x))%Q /\ (inject_Z (round x) <= x + (1 # 2))%Q.
Proof.
  unfold round. destruct (Qltb x 0).
  - rewrite inject_Z_opp. destruct (floor_bounds (- x + (1 # 2))). split; lra.
  - destruct (floor_bounds (x + (1 # 2))). split; lra.
Qed.

Lemma Qlt_Zlt a b : (inject_Z a < inject_Z b)%Q -> a < b.
Proof. intros H. rewrite Zlt_Qlt. exact H. Qed.

Lemma round_int z : round (inject_Z z) = z.
Proof.
  unfold round. destruct (Qltb (inject_Z z) 0).
  - destruct (floor_bounds (- inject_Z z + (1 # 2))) as [H1 H2].
    set (k := Qfloor (- inject_Z z + (1 # 2))) in *.
    assert (k < - z + 1) by (apply Qlt_Zlt; rewrite inject_Z_plus, inject_Z_opp; change (inject_Z 1) with 1%Q; lra).
    assert (- z - 1 < k).
    { apply Qlt_Zlt. unfold Z.sub. rewrite inject_Z_plus, !inject_Z_opp. change (inject_Z 1) with 1%Q. lra. }
    lia.
  - destruct (floor_bounds (inject_Z z + (1 # 2))) as [H1 H2].
    set (k := Qfloor (inject_Z z + (1 # 2))) in *.
    assert (k < z + 1) by (apply Qlt_Zlt; rewrite inject_Z_plus; change (inject_Z 1) with 1%Q; lra).
    assert (z - 1 < k).
    { apply Qlt_Zlt. unfold Z.sub. rewrite inject_Z_plus, inject_Z_opp. change (inject_Z 1) with 1%Q. lra. }
    lia.
Qed.

Lemma round_mono x y : (x <= y)%Q -> round x <= round y.
Proof.
  intros H. unfold round. destruct (Qltb x 0) eqn:Ex, (Qltb y 0) eqn:Ey.
  - assert (Qfloor (- y + (1 # 2)) <= Qfloor (- x + (1 # 2))) by (apply Qfloor_resp_le; lra). lia.
  - apply Qltb_iff in Ex. apply Qltb_false in Ey.
    assert (Qfloor 0 <= Qfloor (- x + (1 # 2))) by (apply Qfloor_resp_le; lra).
    assert (Qfloor 0 <= Qfloor (y + (1 # 2))) by (apply Qfloor_resp_le; lra).
    change (Qfloor 0) with 0 in *. lia.
  - apply Qltb_iff in Ey. apply Qltb_false in Ex. lra.
  - apply Qfloor_resp_le. lra.
Qed.

Lemma ap_eq x : apply_precision x = (inject_Z (round (x / PRECISION)) * PRECISION)%Q.
Proof. reflexivity. Qed.
Lemma div_prec x : (x / PRECISION == 100 * x)%Q.
Proof. unfold PRECISION. field. Qed.
Lemma ap_comp x y : (x == y)%Q -> apply_precision x = apply_precision y.
Proof. intros H. rewrite !ap_eq. rewrite (round_comp (x / PRECISION) (y / PRECISION)); [reflexivity|]. rewrite H. reflexivity. Qed.
Lemma hundredth z : (z # 100 == inject_Z z * (1 # 100))%Q.
Proof. rewrite Qmake_Qdiv. change (inject_Z 100) with 100%Q. field. Qed.
Lemma ap_hundredths x : hundredths (apply_precision x).
Proof.
  exists (round (x / PRECISION)). rewrite ap_eq, hundredth. reflexivity.
Qed.
Lemma ap_fix x : hundredths x -> (apply_precision x == x)%Q.
Proof.
  intros [z Hz]. rewrite ap_eq. rewrite (round_comp _ (inject_Z z)).
  - rewrite round_int, Hz, hundredth. reflexivity.
  - rewrite div_prec, Hz, hundredth. ring.
Qed.
Lemma ap_idem x : apply_precision (apply_precision x) = apply_precision x.
Proof.
  rewrite (ap_eq (apply_precision x)), (ap_eq x). f_equal. f_equal.
  rewrite (round_comp _ (inject_Z (round (x / PRECISION)))); [apply round_int|]. unfold PRECISION. field.
Qed.
Lemma ap_near x : (Qabs (apply_precision x - x) <= 1 # 200)%Q.
Proof.
  apply Qabs_Qle_condition. rewrite ap_eq. destruct (round_near (x / PRECISION)) as [H1 H2].
  pose proof (div_prec x) as H. unfold PRECISION in *. split; lra.
Qed.
Lemma ap_mono x y : (x <= y)%Q -> (apply_precision x <= apply_precision y)%Q.
Proof.
  intros H. rewrite !ap_eq. apply Qmult_le_compat_r; [|unfold PRECISION; lra].
  rewrite <- Zle_Qle. apply round_mono. rewrite !div_prec. lra.
Qed.

Lemma map_ap_idem x : map apply_precision (map apply_precision x) = map apply_precision x.
Proof. rewrite map_map. apply map_ext. apply ap_idem. Qed.
Lemma map_ap_hundredths x : Forall hundredths (map apply_precision x).
Proof. apply Forall_forall. intros q Hq. apply in_map_iff in Hq as (y & <- & _). apply ap_hundredths. Qed.
Lemma map_ap_eq x : Forall hundredths x -> Forall2 Qeq (map apply_precision x) x.
Proof. induction 1; simpl; constructor; auto. apply ap_fix. auto. Qed.
Lemma map_ap_box bounds x : aligned bounds -> in_boxQ bounds x -> in_boxQ bounds (map apply_precision x).
Proof.
  intros Ha Hx. induction Hx as [|b j bs x [H1 H2] Hx IH]; simpl; [constructor|].
  inversion Ha as [|? ? (G1 & G2 & _) Ha']; subst. constructor; [|apply IH; exact Ha'].
  pose proof (ap_mono _ _ H1). pose proof (ap_mono _ _ H2).
  pose proof (ap_fix _ G1). pose proof (ap_fix _ G2). lra.
Qed.
Lemma map_ap_grid bounds x : aligned bounds -> in_boxQ bounds x -> grid bounds (map apply_precision x).
Proof. intros Ha Hx. split; [apply map_ap_box; auto|apply map_ap_hundredths]. Qed.
Lemma in_box_eq bounds x y : Forall2 Qeq x y -> in_boxQ bounds x -> in_boxQ bounds y.
Proof.
  intros E H. revert y E. induction H as [|b j bs x Hj H IH]; intros y E; inversion E; subst; constructor.
  - match goal with h : (j == _)%Q |- _ => rewrite <- h end. exact Hj.
  - apply IH. auto.
Qed.
Lemma Forall2_Qeq_sym x y : Forall2 Qeq x y -> Forall2 Qeq y x.
Proof. induction 1; constructor; auto. symmetry. auto. Qed.
Lemma Forall2_Qeq_refl x : Forall2 Qeq x x.
Proof. induction x; constructor; auto. reflexivity. Qed.

Lemma upper_in_box bounds : aligned bounds -> in_boxQ bounds (map snd bounds).
Proof. induction 1 as [|b bs (_ & _ & H) _ IH]; simpl; constructor; auto. lra. Qed.
Lemma upper_grid bounds : aligned bounds -> exists x, grid bounds x.
Proof. intros H. exists (map apply_precision (map snd bounds)). apply map_ap_grid; auto. apply upper_in_box; auto. Qed.
Lemma omap_upper bounds : omap finite_upper (num_bounds bounds) = Ok (map snd bounds).
Proof. induction bounds as [|b bs IH]; [reflexivity|]. cbn [num_bounds map omap finite_upper snd obind]. fold (num_bounds bs). rewrite IH. reflexivity. Qed.

(** ** [minimize] with an ideal optimiser *)
(* The algorithm chosen for a list of constraints supports them. *)
Lemma chosen_supports {A} (h : A -> callback) (cs : list A) : supports (choose_algorithm (length cs)) (map h cs).
Proof. destruct cs as [|c cs]; [left|right]; reflexivity. Qed.

Section Minimize.
  Variable nlopt : nl_problem -> outcome nl_result.
  Hypothesis Hex : exact_nlopt nlopt.

  Lemma satisfies_0 cs Gs bounds z tol :
    aligned bounds -> Forall2 (agrees bounds) cs Gs -> Forall (respects_eq num_eq) Gs ->
    in_boxQ bounds z ->
    (satisfies (map evaluate cs) z tol <-> Forall (fun G => num_le (G (map apply_precision z)) (Num tol)) Gs).
  Proof.
    intros Ha H HG Hz. pose proof (map_ap_grid _ _ Ha Hz) as Hg.
    induction H as [|c G cs Gs Hc H IH]; simpl.
    { split; constructor. }
    inversion HG as [|? ? H1 H2]; subst. specialize (IH H2). destruct (Hc _ Hg) as (v & E & Ev).
    split; intros S; inversion S as [|? ? S1 S2]; subst; constructor; try (apply IH; auto).
    - destruct S1 as (w & Ew & Hw). unfold evaluate in Ew. rewrite E in Ew. injection Ew as <-.
      eapply num_le_eq; [exact Ev|apply num_eq_refl|exact Hw].
    - exists v. split; [exact E|]. eapply num_le_eq; [apply num_eq_sym, Ev|apply num_eq_refl|exact S1].
  Qed.

  Theorem minimize_spec f F bounds init cs Gs :
    aligned bounds ->
    (init = None \/ exists x0, init = Some x0 /\ in_boxQ bounds x0) ->
    agrees bounds f F -> respects_eq num_eq F ->
    Forall2 (agrees bounds) cs Gs -> Forall (respects_eq num_eq) Gs ->
    exists x v, minimize nlopt f bounds init cs = Ok (x, v) /\
      grid bounds x /\ map apply_precision x = x /\ f x = Ok v /\ num_eq v (F x) /\
      ((exists z, grid bounds z /\ Forall (fun G => num_le (G z) (Num 0)) Gs) ->
       Forall (fun G => num_le (G x) (Num (1 # 1000))) Gs /\
       forall z, grid bounds z -> Forall (fun G => num_le (G z) (Num 0)) Gs -> num_le (F x) (F z)).
  Proof.
    intros Ha Hi Hf HF Hcs HGs. unfold minimize, optimize.
    assert (exists x0, match init with
            | None => omap finite_upper (num_bounds bounds)
            | Some x => if (length x =? length (num_bounds bounds))%nat then Ok x else Panic
            end = Ok x0 /\ in_boxQ bounds x0) as (x0 & E0 & Hx0).
    { destruct Hi as [-> | (x0 & -> & Hx0)].
      - exists (map snd bounds). split; [apply omap_upper|apply upper_in_box; auto].
      - exists x0. split; [|exact Hx0]. unfold num_bounds. rewrite map_length.
        assert (length bounds = length x0) as -> by (clear -Hx0; induction Hx0; simpl; auto).
        rewrite Nat.eqb_refl. reflexivity. }
    rewrite E0. cbn [obind].
    destruct (Hex (choose_algorithm (length cs)) (evaluate f) bounds (map evaluate cs) x0 (chosen_supports evaluate cs) Ha Hx0)
      as (s & v & y & E & Hs1 & Hs2 & Hy & Ev & Hopt).
    { intros g Hg x. assert (exists h, g = evaluate h) as (h & ->).
      { destruct Hg as [<-|Hg]; [eexists; reflexivity|]. apply in_map_iff in Hg as (h & <- & _). eexists; reflexivity. }
      unfold evaluate. rewrite map_ap_idem. reflexivity. }
    { intros g [<-|Hg] x Hx.
      - destruct (Hf _ (map_ap_grid _ _ Ha Hx)) as (w & Ew & _). exists w. exact Ew.
      - apply in_map_iff in Hg as (c & <- & Hc). clear -Hc Hcs Hx Ha. induction Hcs as [|c' G cs' Gs' H1 H2 IH]; [destruct Hc|].
        destruct Hc as [<-|Hc]; [|auto]. destruct (H1 _ (map_ap_grid _ _ Ha Hx)) as (w & Ew & _). exists w. exact Ew. }
    fold (num_bounds bounds) in E. rewrite E. cbn [obind].
    pose proof (map_ap_grid _ _ Ha Hy) as Hg.
    assert (num_eq v (F (map apply_precision y))) as EF.
    { destruct (Hf _ Hg) as (w & Ew & Hw). unfold evaluate in Ev. rewrite Ew in Ev. injection Ev as <-. exact Hw. }
    exists (map apply_precision y), v. split.
    { destruct s; try reflexivity; congruence. }
    split; [exact Hg|]. split; [apply map_ap_idem|]. split; [exact Ev|]. split; [exact EF|].
    intros (z & Hz & Sz). destruct Hopt as (Sy & Hmin).
    { exists z. split; [apply Hz|]. apply (satisfies_0 cs Gs bounds z 0 Ha Hcs HGs (proj1 Hz)).
      eapply Forall_impl; [|apply Forall_and; [exact Sz|exact HGs]]. intros G [S1 S2].
      eapply num_le_eq; [|apply num_eq_refl|exact S1]. apply num_eq_sym, S2, map_ap_eq, Hz. }
    split.
    - apply (satisfies_0 cs Gs bounds y _ Ha Hcs HGs Hy). exact Sy.
    - intros z' Hz' Sz'. destruct (Hf _ (map_ap_grid _ _ Ha (proj1 Hz'))) as (w & Ew & Hw).
      assert (num_le v w) as Hle.
      { apply (Hmin z' w (proj1 Hz')); [|exact Ew].
        apply (satisfies_0 cs Gs bounds z' 0 Ha Hcs HGs (proj1 Hz')).
        eapply Forall_impl; [|apply Forall_and; [exact Sz'|exact HGs]]. intros G [S1 S2].
        eapply num_le_eq; [|apply num_eq_refl|exact S1]. apply num_eq_sym, S2, map_ap_eq, Hz'. }
      eapply num_le_eq; [exact EF| |exact Hle]. eapply num_eq_trans; [exact Hw|].
      apply HF, map_ap_eq, Hz'.
  Qed.

  Corollary find_minimizer_spec f F bounds :
    aligned bounds -> agrees bounds f F -> respects_eq num_eq F ->
    exists x v, find_minimizer nlopt f bounds = Ok (x, v) /\
      map apply_precision x = x /\ f x = Ok v /\ num_eq v (F x) /\ grid_minimizer bounds F x.
  Proof.
    intros Ha Hf HF. destruct (minimize_spec f F bounds None [] []) as (x & v & E & Hg & Hi & Ev & EF & Hopt); auto.
    exists x, v. split; [exact E|]. split; [exact Hi|]. split; [exact Ev|]. split; [exact EF|]. split; [exact Hg|].
    intros z Hz. apply Hopt; auto. exists z. split; auto.
  Qed.
End Minimize.

(** ** Any optimiser *)
Lemma Forall2_len {A B} (R : A -> B -> Prop) l m : Forall2 R l m -> length l = length m.
Proof. induction 1; simpl; auto. Qed.

Lemma minimize_any nlopt f bounds init cs x v :
  minimize nlopt f bounds init cs = Ok (x, v) ->
  exists x0 r y, nlopt (mkNL (choose_algorithm (length cs)) Minimize (evaluate f) (num_bounds bounds) (map evaluate cs) x0)
      = Ok r /\ x = map apply_precision y /\
    ((exists opt, (r = NlOk MaxEvalReached opt y \/ r = NlOk MaxTimeReached opt y) /\ v = PosInf) \/
     (exists s, s <> MaxEvalReached /\ s <> MaxTimeReached /\ r = NlOk s v y) \/
     r = NlErr RoundoffLimited v y).
Proof.
  unfold minimize, optimize. intros H. apply obind_Ok in H as (x0 & _ & H). apply obind_Ok in H as (r & E & H).
  destruct r as [s opt y|s opt y]; destruct s; try discriminate H; injection H as <- <-;
    exists x0; eexists; exists y; (split; [exact E|]); (split; [reflexivity|]);
    try (left; exists opt; split; [auto|reflexivity]; fail);
    try (right; left; eexists; split; [|split; [|reflexivity]]; discriminate);
    right; right; reflexivity.
Qed.

Lemma minimize_fails nlopt f bounds init cs x0 s opt y :
  (init = None /\ x0 = map snd bounds \/ init = Some x0 /\ length x0 = length bounds) ->
  nlopt (mkNL (choose_algorithm (length cs)) Minimize (evaluate f) (num_bounds bounds) (map evaluate cs) x0)
    = Ok (NlErr s opt y) ->
  s <> RoundoffLimited ->
  minimize nlopt f bounds init cs = Panic.
Proof.
  intros Hi E Hs. unfold minimize, optimize.
  assert (match init with
            | None => omap finite_upper (num_bounds bounds)
            | Some x => if (length x =? length (num_bounds bounds))%nat then Ok x else Panic
            end = Ok x0) as ->.
  { destruct Hi as [[-> ->]|[-> HL]]; [apply omap_upper|]. unfold num_bounds. rewrite map_length, HL, Nat.eqb_refl. reflexivity. }
  cbn [obind]. rewrite E. cbn [obind]. destruct s; congruence.
Qed.

(** ** Roots *)
Lemma ngtb_iff a b : ngtb a b = true <-> num_le b a /\ ~ num_le a b.
Proof.
  destruct a, b; simpl; try rewrite Qltb_iff; try (split; intros H; [discriminate H|tauto]); try tauto.
  split; intros H; [split|]; lra || (destruct H; lra).
Qed.

Section Roots.
  Variable brent : Q * Q -> (Q -> outcome fnum) -> outcome Q.

  Lemma find_root_cases a b f r :
    find_root brent a b f = Ok r ->
    ((Qabs (a - b) < 1 # 100)%Q /\ r = a) \/
    ((1 # 100 <= Qabs (a - b))%Q /\ exists va vb, f a = Ok va /\ f b = Ok vb /\
     ((exists q, va = Num q /\ (Qabs q < 10)%Q /\ r = a) \/
      ((forall q, va = Num q -> (10 <= Qabs q)%Q) /\ (exists q, vb = Num q /\ (Qabs q < 10)%Q) /\ r = b) \/
      ((forall q, va = Num q -> (10 <= Qabs q)%Q) /\ (forall q, vb = Num q -> (10 <= Qabs q)%Q) /\
       same_sign va vb = true /\ (r = a /\ num_le (nabs va) (nabs vb) \/ r = b /\ num_le (nabs vb) (nabs va))) \/
      ((forall q, va = Num q -> (10 <= Qabs q)%Q) /\ (forall q, vb = Num q -> (10 <= Qabs q)%Q) /\
       same_sign va vb = false /\ exists x, brent (a, b) f = Ok x /\ r = apply_precision x))).
  Proof.
    unfold find_root. destruct (Qltb (Qabs (a - b)) PRECISION) eqn:E.
    { intros H. injection H as <-. left. apply Qltb_iff in E. unfold PRECISION in E. auto. }
    intros H. right. apply Qltb_false in E. unfold PRECISION in E. split; [exact E|].
    apply obind_Ok in H as (va & Ea & H). apply obind_Ok in H as (vb & Eb & H).
    exists va, vb. split; [exact Ea|]. split; [exact Eb|].
    assert (forall v, ngtb (Num ROOT_PRECISION) (nabs v) = true <-> exists q, v = Num q /\ (Qabs q < 10)%Q) as HR.
    { intros v. destruct v as [|q|]; simpl; try (split; [discriminate|intros (q & G & _); discriminate]).
      rewrite Qltb_iff. assert (ROOT_PRECISION == 10)%Q as ER by (vm_compute; reflexivity). rewrite ER.
      split; [eauto|]. intros (q' & G & L). injection G as <-. exact L. }
    destruct (ngtb (Num ROOT_PRECISION) (nabs va)) eqn:E1.
    { injection H as <-. apply HR in E1 as (q & -> & L). left. eauto. }
    right.
    assert (forall v, ngtb (Num ROOT_PRECISION) (nabs v) = false -> forall q, v = Num q -> (10 <= Qabs q)%Q) as HN.
    { intros v G q ->. destruct (Qlt_le_dec (Qabs q) 10) as [L|L]; [|exact L]. exfalso.
      assert (ngtb (Num ROOT_PRECISION) (nabs (Num q)) = true) by (apply HR; eauto). congruence. }
    pose proof (HN _ E1) as N1.
    destruct (ngtb (Num ROOT_PRECISION) (nabs vb)) eqn:E2.
    { injection H as <-. apply HR in E2 as (q & -> & L). left. split; [exact N1|]. eauto. }
    right. pose proof (HN _ E2) as N2.
    destruct (same_sign va vb) eqn:E3.
    - left. split; [exact N1|]. split; [exact N2|]. split; [reflexivity|].
      destruct (ngtb (nabs va) (nabs vb)) eqn:E4; injection H as <-.
      + right. split; [reflexivity|]. apply ngtb_iff in E4. tauto.
      + left. split; [reflexivity|]. destruct va, vb; simpl in *; auto; try discriminate E4. apply Qltb_false in E4. exact E4.
    - right. split; [exact N1|]. split; [exact N2|]. split; [reflexivity|].
      apply obind_Ok in H as (x & Ex & H). injection H as <-. eauto.
  Qed.
End Roots.

(** ** Statements for the property file *)
Lemma near_bounds nlopt f bounds init cs x v :
  (forall p r, nlopt p = Ok r -> Forall2 (fun b j => num_le (fst b) (Num j) /\ num_le (Num j) (snd b)) (nl_bounds p) (nl_point r)) ->
  minimize nlopt f bounds init cs = Ok (x, v) ->
  Forall hundredths x /\
  Forall2 (fun b j => (fst b - (1 # 200) <= j <= snd b + (1 # 200))%Q) bounds x /\
  (aligned bounds -> in_boxQ bounds x).
Proof.
  intros Hn H. apply minimize_any in H as (x0 & r & y & E & -> & Hr).
  specialize (Hn _ _ E). cbn [nl_bounds] in Hn.
  assert (in_boxQ bounds y) as Hy.
  { assert (nl_point r = y) as Ep.
    { destruct Hr as [(o & [-> | ->] & _)|[(s & _ & _ & ->)| ->]]; reflexivity. }
    rewrite Ep in Hn. clear -Hn. revert y Hn. induction bounds as [|b bs IH]; intros y H; inversion H; subst; constructor.
    - simpl in *. tauto.
    - apply IH. auto. }
  split; [apply map_ap_hundredths|]. split; [|intros Ha; apply map_ap_box; auto].
  clear -Hy. induction Hy as [|b j bs y [H1 H2] Hy IH]; simpl; constructor; auto.
  pose proof (ap_near j) as H. apply Qabs_Qle_condition in H. lra.
Qed.

Lemma find_root_near brent a b f r :
  (a <= b)%Q ->
  (forall x, brent (a, b) f = Ok x -> (a <= x <= b)%Q) ->
  find_root brent a b f = Ok r -> (a - (1 # 200) <= r <= b + (1 # 200))%Q.
Proof.
  intros Hab Hb H. apply find_root_cases in H as [[_ ->]|(_ & va & vb & _ & _ & H)]; [lra|].
  destruct H as [(q & _ & _ & ->)|[(_ & _ & ->)|[(_ & _ & _ & [[-> _]|[-> _]])|(_ & _ & _ & x & E & ->)]]]; try lra.
  specialize (Hb x E). pose proof (ap_near x) as H. apply Qabs_Qle_condition in H. lra.
Qed.

Lemma find_root_finite brent a b (f : Q -> outcome fnum) (F : Q -> Q) r :
  (forall x, (a <= x <= b)%Q -> f x = Ok (Num (F x))) -> (a <= b)%Q ->
  find_root brent a b f = Ok r ->
  (b - a < 1 # 100)%Q /\ r = a \/
  ((r = a \/ r = b) /\ (Qabs (F r) < 10)%Q) \/
  ((r = a \/ r = b) /\ (0 < F a * F b)%Q /\ (Qabs (F r) <= Qabs (F a))%Q /\ (Qabs (F r) <= Qabs (F b))%Q) \/
  ((F a * F b <= 0)%Q /\ (10 <= Qabs (F a))%Q /\ (10 <= Qabs (F b))%Q /\
   exists x, brent (a, b) f = Ok x /\ hundredths r /\ (Qabs (r - x) <= 1 # 200)%Q).
Proof.
  intros Hf Hab H. apply find_root_cases in H as [[H ->]|(_ & va & vb & Ea & Eb & H)].
  { left. split; [|reflexivity]. apply Qabs_Qlt_condition in H. lra. }
  rewrite Hf in Ea by lra. rewrite Hf in Eb by lra.
  assert (va = Num (F a)) as -> by congruence. assert (vb = Num (F b)) as -> by congruence. right.
  destruct H as [(q & Eq & L & ->)|[(_ & (q & Eq & L) & ->)|[(H1 & H2 & H3 & H4)|(H1 & H2 & H3 & x & E & ->)]]].
  - left. injection Eq as <-. auto.
  - left. injection Eq as <-. auto.
  - right. left. simpl in H3. apply Qltb_iff in H3. destruct H4 as [[-> L]|[-> L]]; simpl in L; repeat split; auto; lra.
  - right. right. simpl in H3. apply Qltb_false in H3. split; [exact H3|]. split; [auto|]. split; [auto|].
    exists x. split; [exact E|]. split; [apply ap_hundredths|apply ap_near].
Qed.
