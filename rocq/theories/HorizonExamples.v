(** Concrete instances for the properties of HorizonProps, and the disagreement of receding
    horizon control with its description. *)
From Coq Require Import Lia Lqa.
From Verif Require Import NumLemmas HorizonModel HorizonSpec HorizonProofs ConvertProofs HorizonProps.
From Verif Require Import ProblemModel.
Local Open Scope Z_scope.

Definition one_server (T : Z) (u beta : Q) (f : Z -> Q -> Q) : gssco Q unit unit :=
  mkGSSCO 1 T [u] [beta]
    (cf_new 1 (certain (fun t x => match x with [j] => Ok (mkCost (Fin (f t j)) MNone) | _ => Panic end))).

Definition lift (f : Z -> Q -> Q) (t : Z) (x : list Q) : ext := match x with [j] => Fin (f t j) | _ => Inf end.

Lemma single u x : within_bounds [u] x -> exists j, x = [j] /\ (0 <= j <= u)%Q.
Proof. inversion 1 as [|? j ? l Hj Hl]; subst. inversion Hl; subst. eauto. Qed.

Lemma one_server_costs T u beta f s x : 1 <= s -> within_bounds [u] x ->
  exists o, call_predictive (g_cost (one_server T u beta f)) s x = Ok [mkCost (lift f s x) o].
Proof.
  intros Hs Hx. destruct (single u x Hx) as (j & -> & _). exists MNone.
  cbn [one_server g_cost]. unfold call_predictive. rewrite cf_new_get by auto. cbn [obind fst snd].
  unfold single_predictive. rewrite (proj2 (Z.ltb_ge s 1)) by lia. unfold certain. cbn [obind length Nat.eqb negb].
  rewrite andb_false_r. reflexivity.
Qed.

Lemma plan_cost_nonneg hit beta a prev ys :
  (0 <= beta)%Q -> (forall s x, ele (Fin 0) (hit s x)) -> ele (Fin 0) (plan_cost hit [beta] a prev ys).
Proof.
  intros Hb Hh. unfold plan_cost. revert a prev. induction ys as [|y ys IH]; intros a prev; [simpl; lra|].
  cbn [total_cost]. specialize (IH (a + 1) y).
  assert (ele (Fin 0) (hit_from_1 hit a y)) as H1. { unfold hit_from_1. destruct (a <? 1); [simpl; lra|apply Hh]. }
  assert (0 <= 1 * power_upQ [beta] prev y)%Q as H2.
  { rewrite Qmult_1_l. destruct prev as [|i prev], y as [|j y]; cbn [power_upQ]; try lra. destruct (Qle_bool j i) eqn:E; [lra|].
    assert (i <= j)%Q as G. { destruct (Qlt_le_dec i j); [lra|]. apply Qle_bool_iff in q. congruence. }
    assert (0 <= beta * (j - i))%Q as G2 by (apply Qmult_le_0_compat; lra). lra. }
  revert H1 H2 IH. generalize (1 * power_upQ [beta] prev y)%Q (hit_from_1 hit a y)
    (total_cost (hit_from_1 hit) (power_upQ [beta]) 1 (a + 1) y ys).
  intros m h c H1 H2 IH. destruct h, c; simpl in *; auto. lra.
Qed.

(** ** Averaging fixed horizon control, w = 1, slot 2: the demand is one server. *)
Definition demand (t : Z) (j : Q) : Q := (10 * Qabs.Qabs (j - 1))%Q.
Definition ones (g : list Q -> outcome ext) (bs : list (Q * Q)) (cs : list (list Q -> outcome Q)) : outcome (list Q) :=
  Ok (map (fun _ => 1%Q) bs).

Example ones_solves k n : (n <= 2)%nat ->
  solves everything 0 ones [(0, 2)]%Q 2 (fun ys => plan_cost (lift demand) [3]%Q k [1]%Q (firstn n ys)) [].
Proof.
  intros Hn g cs _ Hcs. exists [[1]; [1]]%Q. split; [reflexivity|]. split; [|split; [constructor|]].
  - split; [reflexivity|]. split; repeat constructor; simpl; lra.
  - intros xs _ _. eapply ele_trans; [|apply plan_cost_nonneg].
    + assert (n = 0 \/ n = 1 \/ n = 2)%nat as [-> | [-> | ->]] by lia; unfold plan_cost, hit_from_1; cbn;
        repeat (match goal with |- context [if ?b then _ else _] => destruct b end); vm_compute; discriminate.
    + lra.
    + intros s x. destruct x as [|j [|]]; simpl; auto. unfold demand.
      pose proof (Qabs.Qabs_nonneg (j - 1)). lra.
Qed.

Example afhc_hypotheses :
  let p := one_server 2 2 3 demand in
  (forall s x, 1 <= s <= g_tend p -> within_bounds (g_bounds p) x ->
     exists o, call_predictive (g_cost p) s x = Ok [mkCost (lift demand s x) o]) /\
  (forall k prev, nth_error [[1]; [1]]%Q k = Some prev ->
     solves everything 0 ones (map (fun u => (0%Q, u)) (g_bounds p)) (Z.to_nat (1 + 1))
       (fun ys => plan_cost (lift demand) (g_switching p) (2 - 1 + Z.of_nat k) prev (firstn (Z.to_nat (1 + 1) - k) ys)) []) /\
  afhc_next (fun _ _ => Panic) (fun a _ => a) tt (fun _ => Leaf) ones p 1 [[1]]%Q (Some [[1]; [1]]%Q) =
    Ok ([2 / 2]%Q, [[1]; [1]]%Q).
Proof.
  intros p. split; [|split].
  - intros s x Hs Hx. apply (one_server_costs _ 2); [lia|exact Hx].
  - intros k prev Hk. assert (prev = [1%Q]) as ->.
    { destruct k as [|[|k]]; [| |destruct k]; simpl in Hk; congruence. }
    apply ones_solves. change (Z.to_nat (1 + 1)) with 2%nat. lia.
  - vm_compute. reflexivity.
Qed.

(** ** Receding horizon control ignores the prediction window. *)

(** Three servers are active; slot 2 makes idle servers expensive, slot 3 needs all three. *)
Definition peak (t : Z) (j : Q) : Q := (if t =? 2 then (1 # 2) * j else 100 * (3 - j))%Q.
Definition lowest (g : list Q -> outcome ext) (bs : list (Q * Q)) (cs : list (list Q -> outcome Q)) : outcome (list Q) :=
  Ok (map fst bs).

Example lowest_solves :
  solves everything 0 lowest [(0, 3)]%Q 2 (fun ys => plan_cost (lift peak) [1]%Q 2 [3]%Q (firstn 1 ys)) [].
Proof.
  intros g cs _ _. exists [[0]; [0]]%Q. split; [reflexivity|]. split; [|split; [constructor|]].
  - split; [reflexivity|]. split; repeat constructor; simpl; lra.
  - intros xs (HL & HB & _) _. destruct xs as [|x [|y [|]]]; try discriminate. inversion HB as [|? ? Hx _]; subst.
    apply (within_bounds_pairs [3%Q]) in Hx. destruct (single _ _ Hx) as (j & -> & Hj).
    assert (Qle_bool j 3 = true) as E by (apply Qle_bool_iff; lra).
    unfold plan_cost, hit_from_1, peak. cbn. rewrite E. lra.
Qed.

(** The instance ends in slot 2, the prediction window is 1 (so the costs of slot 3 are
    known), and every exact optimiser leads to a configuration with which no optimal plan
    for the slots 2 and 3 begins. *)
Theorem rhc_window_refuted :
  let p := one_server 2 3 1 peak in
  (exists minimize, solves everything 0 minimize [(0, 3)]%Q 2 (fun ys => plan_cost (lift peak) [1]%Q 2 [3]%Q (firstn 1 ys)) []) /\
  (forall s x, 1 <= s <= 3 -> within_bounds (g_bounds p) x ->
     exists o, call_predictive (g_cost p) s x = Ok [mkCost (lift peak s x) o]) /\
  forall minimize sched,
  solves everything 0 minimize [(0, 3)]%Q 2 (fun ys => plan_cost (lift peak) [1]%Q 2 [3]%Q (firstn 1 ys)) [] ->
  exists x, rhc_next (fun _ _ => Panic) (fun a _ => a) tt sched minimize p 1 [[3]]%Q = Ok x /\
    forall ys, ~ optimal_plan (lift peak) [1]%Q [3]%Q everything 2 3 [3]%Q (x :: ys).
Proof.
  intros p. split; [exists lowest; apply lowest_solves|]. split.
  { intros s x Hs Hx. apply (one_server_costs _ 3); [lia|exact Hx]. }
  intros minimize sched HS.
  destruct (rhc_current_slot unit unit (fun _ _ => Panic) (fun a _ => a) tt sched minimize p (lift peak))
    with (P := everything) (tol := 0%Q) (w := 1) (xs := [[3%Q]]) as (x & H1 & H2 & _ & H3).
  - reflexivity.
  - reflexivity.
  - repeat constructor; simpl; lra.
  - intros s x Hs Hx. apply (one_server_costs _ 3); [lia|exact Hx].
  - exact I.
  - lia.
  - reflexivity.
  - repeat constructor.
  - exact HS.
  - exists x. split; [exact H1|]. intros ys [(HL & HF & _) Hopt].
    change (Z.of_nat (length [[3%Q]]) + 1) with 2 in H3. cbn [last] in H3.
    destruct (single _ _ H2) as (j & -> & Hj).
    assert (j == 0)%Q as Ej.
    { specialize (H3 [0%Q]). assert (within_bounds (g_bounds p) [0%Q]) as G by (repeat constructor; simpl; lra).
      specialize (H3 G I). cbn in H3. unfold peak in H3. simpl in H3. destruct (Qle_bool j 3) eqn:E.
      - lra.
      - assert (j <= 3)%Q as G' by lra. apply Qle_bool_iff in G'. congruence. }
    destruct ys as [|y [|]]; cbn [length] in HL; try lia.
    inversion HF as [|? ? _ HF']; subst. inversion HF' as [|? ? Hy _]; subst. destruct (single _ _ Hy) as (i & -> & Hi).
    specialize (Hopt [[3]; [3]]%Q). assert (Z.of_nat (length [[3%Q]; [3%Q]]) = 3 - 2 + 1) as G1 by reflexivity.
    assert (Forall (within_bounds [3%Q]) [[3%Q]; [3%Q]]) as G2 by (repeat constructor; simpl; lra).
    specialize (Hopt G1 G2 ltac:(repeat constructor)). unfold plan_cost, hit_from_1, lift, peak in Hopt. cbn in Hopt.
    destruct (Qle_bool j 3) eqn:E1; destruct (Qle_bool i j) eqn:E2.
    + apply Qle_bool_iff in E2. lra.
    + lra.
    + assert (j <= 3)%Q as G' by lra. apply Qle_bool_iff in G'. congruence.
    + assert (j <= 3)%Q as G' by lra. apply Qle_bool_iff in G'. congruence.
Qed.

(** ** Offline convex optimisation with a movement limit *)
Definition manhattan1 (x : list Q) : Q := match x with [j] => Qabs.Qabs j | _ => 0%Q end.
Definition offline : gsco Q unit unit :=
  mkGSCO 1 2 [(0, 2)]%Q (fun x => Ok (manhattan1 x))
    (cf_new 1 (certain (fun t x => match x with [j] => Ok (mkCost (Fin (demand t j)) MNone) | _ => Panic end))).

(** At most 1/2 may be moved: the best schedule runs half a server. *)
Definition halves (g : list Q -> outcome ext) (bs : list (Q * Q)) (cs : list (list Q -> outcome Q)) : outcome (list Q) :=
  Ok (map (fun _ => (1 # 2)%Q) bs).

Lemma abs_upper x b : (Qabs.Qabs x <= b -> x <= b)%Q.
Proof. intros H. pose proof (Qabs.Qle_Qabs x). lra. Qed.

Example co_hypotheses :
  solves everything 0 halves (o_bounds offline) 2 (alpha_cost (lift demand) manhattan1 1 2)
    [fun xs => (movement_of manhattan1 1 xs - (1 # 2))%Q] /\
  (forall s x, 1 <= s <= 2 -> in_boxQ (o_bounds offline) x ->
     exists c, call_mean (fun _ _ => Panic) (o_cost offline) s x = Ok c /\ eeq (c_cost c) (lift demand s x)) /\
  co (fun _ _ => Panic) (fun a _ => a) tt (fun _ => Leaf) halves offline false 2 (Some (1 # 2)%Q) = Ok [[1 # 2]; [1 # 2]]%Q.
Proof.
  split; [|split; [|reflexivity]].
  - intros g cs _ _. exists [[1 # 2]; [1 # 2]]%Q. split; [reflexivity|]. split; [|split].
    + split; [reflexivity|]. split; repeat constructor; simpl; lra.
    + repeat constructor; vm_compute; discriminate.
    + intros xs (HL & HB & _) Hm. destruct xs as [|x [|y [|]]]; try discriminate.
      inversion HB as [|? ? Hx HB']; subst. inversion HB' as [|? ? Hy _]; subst.
      apply (within_bounds_pairs [2%Q]) in Hx. apply (within_bounds_pairs [2%Q]) in Hy.
      destruct (single _ _ Hx) as (j & -> & Hj). destruct (single _ _ Hy) as (i & -> & Hi).
      inversion Hm as [|? ? Hl _]; subst. unfold movement_of in Hl.
      cbn [total_switching manhattan1 differenceQ map combine fst snd repeat] in Hl.
      unfold alpha_cost, demand. cbn [total_cost lift total_switching manhattan1 differenceQ map combine fst snd repeat eadd ele].
      change (Qabs.Qabs ((1 # 2) - 1)) with (1 # 2)%Q. change (Qabs.Qabs ((1 # 2) - 0)) with (1 # 2)%Q.
      change (Qabs.Qabs ((1 # 2) - (1 # 2))) with (0 # 4)%Q.
      pose proof (Qabs.Qle_Qabs (j - 0)). pose proof (Qabs.Qle_Qabs (i - j)). pose proof (Qabs.Qle_Qabs (-(j - 1))).
      pose proof (Qabs.Qle_Qabs (-(i - 1))). rewrite Qabs.Qabs_opp in *.
      pose proof (Qabs.Qabs_nonneg (i - j)). lra.
  - intros s x Hs Hx. apply (within_bounds_pairs [2%Q]) in Hx. destruct (single _ _ Hx) as (j & -> & _).
    unfold call_mean. cbn [offline o_cost]. rewrite cf_new_get by lia. cbn [obind fst snd].
    unfold single_mean, single_predictive. rewrite (proj2 (Z.ltb_ge s 1)) by lia. unfold certain. cbn [obind length Nat.eqb negb].
    rewrite andb_false_r. cbn. eexists. split; [reflexivity|]. simpl.
    change (/ inject_Z 1)%Q with 1%Q. ring.
Qed.
