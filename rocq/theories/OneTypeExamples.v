(** Concrete cases for OneTypeProps.v and a behaviour deviating from the expected one. *)
From Coq Require Import Lia Lqa String.
From Verif Require Import NumLemmas CostSpec ObjectiveSpec VerifySpec OfflineProofs CapacityModel CapacitySpec CapacityWork CapacityChain CapacityBrcp OfflineSpec Offline1DModel Offline1DProofs
  OneTypeSpec OneTypeConvex OneTypeCosts OneTypeInstances OneTypeEnd OneTypeProps.
From Verif Require Import ProblemModel CostModel.
Local Open Scope Z_scope.

Definition node : server_type := mkServer "node" (9 # 10)%Q.
Definition batch : job_type := mkJob "batch" (fun _ => (1 # 4)%Q).
Definition query : job_type := mkJob "query" (fun _ => (1 # 4)%Q).
Definition site : location := mkLocation "site" [("node"%string, 3)].
Definition people : source := mkSource "people" (fun _ _ => (1 # 10)%Q).
Definition warmup : switching_cost := mkSwitching 1 1 2 (1 # 2) 1 0 0.
Definition hall (jobs : list job_type) (gamma : Q) : data_center :=
  mkDataCenter 1 [site] [node] [people] jobs
    (CLinear [("node"%string, (1, 3)%Q)]) (ELinear [("site"%string, fun t => inject_Z (t * t + 1))])
    [("batch"%string, (gamma, 1 # 2)%Q); ("query"%string, (gamma, 1 # 2)%Q)]
    [("node"%string, warmup)].
Definition hall_price (_ : location) (t : Z) : Q := inject_Z (t * t + 1).
Definition hall_power (_ : server_type) (s : Q) : Q := (1 * ((3 - 1) * s + 1))%Q.
Definition no_powf (a b : Q) : Q := a.
Definition evaluate (f : list Q -> outcome ext) (_ : list (Q * Q)) (init : list Q)
    (_ : list (list Q -> outcome Q)) : option (list Q * ext) :=
  match f init with Ok e => Some (init, e) | _ => None end.

Lemma evaluate_trivial : trivial_exact evaluate.
Proof. intros f cs c H. unfold evaluate. rewrite H. reflexivity. Qed.

Lemma hall_one_type jobs gamma : (0 <= gamma)%Q -> (forall jt, In jt jobs -> jt = batch \/ jt = query) ->
  one_type no_powf (hall jobs gamma) hall_price hall_power (fun _ => (gamma, 1 # 2)%Q) site node.
Proof.
  intros Hg Hj. constructor; try reflexivity.
  - constructor; cbn.
    + reflexivity.
    + eexists. split; [reflexivity|]. intros l [<-|[]]. reflexivity.
    + intros l t [<-|[]]. unfold hall_price. change 0%Q with (inject_Z 0). rewrite <- Zlt_Qlt. nia.
    + intros st s [<-|[]]. reflexivity.
    + intros jt H. destruct (Hj jt H) as [-> | ->]; reflexivity.
    + intros st [<-|[]]. discriminate.
    + intros st jt [<-|[]] H. destruct (Hj jt H) as [-> | ->]; discriminate.
  - apply (consumption_models_convex no_powf (CLinear [("node"%string, (1, 3)%Q)]) 1 node); [discriminate|reflexivity|discriminate].
  - intros s Hs. unfold hall_power. lra.
  - intros jt _. exact Hg.
Qed.

Lemma batch_hall gamma : (0 <= gamma)%Q -> one_type no_powf (hall [batch] gamma) hall_price hall_power (fun _ => (gamma, 1 # 2)%Q) site node.
Proof. intros H. apply hall_one_type; [exact H|]. intros jt [<-|[]]. left. reflexivity. Qed.

Definition day : list (list Q) := [[6%Q]; [0%Q]; [2%Q]].
Lemma day_profiles gamma : Forall (profile (hall [batch] gamma)) day.
Proof. repeat constructor; discriminate. Qed.
Lemma day_supported gamma : Forall (fun lambda => supported (hall [batch] gamma) node (inject_Z 3) (counted lambda)) day.
Proof.
  constructor; [right; repeat split; vm_compute; congruence|]. constructor; [left; reflexivity|].
  constructor; [right; repeat split; vm_compute; congruence|]. constructor.
Qed.
Lemma hall_capacities jobs gamma : positive_capacities (hall jobs gamma).
Proof. intros l st c [<-|[]] [<-|[]] H. cbn in H. injection H as <-. lia. Qed.
Lemma hall_switching jobs gamma : positive_switching (hall jobs gamma).
Proof. intros st c [<-|[]] H. cbn in H. injection H as <-. vm_compute. reflexivity. Qed.

Definition the_problem {T} (v : value T) ofZ m loads : gssco T dc_success dc_failure :=
  match to_ssco no_powf m v ofZ evaluate loads with Ok p => p | _ => mkGSSCO 0 0 [] [] (cf_new 1 (certain (fun _ _ => Panic))) end.

(** Two servers process the first load, one does not; the costs are as stated. *)
Example ex_one_type_cost :
  let p := the_problem valZ (fun z => z) (hall [batch] 1) day in
  (exists c q, gssco_hit valZ dc_vmerge OutsideDecisionSpace p 1 [2] = Ok c /\ c_cost c = Fin q /\
     (q == 2 * (2 * (1 + 2 * (3 # 4))) + 6 * (1 + (1 # 10) + (1 # 4) - (1 # 2)))%Q) /\
  (exists c, gssco_hit valZ dc_vmerge OutsideDecisionSpace p 1 [1] = Ok c /\ c_cost c = Inf).
Proof.
  assert (G : forall j, (0 <= j <= 3) -> exists c, gssco_hit valZ dc_vmerge OutsideDecisionSpace (the_problem valZ (fun z => z) (hall [batch] 1) day) 1 [j] = Ok c /\
    (supported (hall [batch] 1) node (inject_Z j) (counted [6%Q]) -> exists q, c_cost c = Fin q /\
      (q == active_cost (hall [batch] 1) hall_price hall_power (fun _ => (1, 1 # 2)%Q) site node 1 (counted [6%Q]) (inject_Z j))%Q) /\
    (~ supported (hall [batch] 1) node (inject_Z j) (counted [6%Q]) -> c_cost c = Inf)).
  { intros j Hj. apply (one_type_cost_partial no_powf (hall [batch] 1) hall_price hall_power (fun _ => (1, 1 # 2)%Q) site node evaluate Z valZ (fun z => z) day _ 1 j [6%Q]).
    - apply batch_hall. discriminate.
    - exact evaluate_trivial.
    - reflexivity.
    - apply day_profiles.
    - reflexivity.
    - lia.
    - reflexivity.
    - constructor; [|constructor]. cbn. change 0%Q with (inject_Z 0). rewrite <- !Zle_Qle. exact Hj. }
  split.
  - destruct (G 2 ltac:(lia)) as (c & Hc & HS & _). destruct HS as (q & Eq & Ev); [right; repeat split; vm_compute; congruence|].
    exists c, q. split; [exact Hc|]. split; [exact Eq|]. rewrite Ev. vm_compute. reflexivity.
  - destruct (G 1 ltac:(lia)) as (c & Hc & _ & HN). exists c. split; [exact Hc|]. apply HN.
    intros [H|(_ & H & _)]; [vm_compute in H; discriminate H|]. vm_compute in H. apply H. reflexivity.
Qed.

Example ex_one_type_convex :
  let p := the_problem valZ (fun z => z) (hall [batch] 1) day in
  convex_on 3 (fun j => cost_of (gssco_hit valZ dc_vmerge OutsideDecisionSpace p 1 [j])).
Proof.
  apply (one_type_convex no_powf (hall [batch] 1) hall_price hall_power (fun _ => (1, 1 # 2)%Q) site node evaluate day); try reflexivity.
  - apply batch_hall. discriminate.
  - exact evaluate_trivial.
  - apply day_profiles.
  - cbn. lia.
Qed.
Example ex_one_type_convex_fractional :
  let p := the_problem valQ inject_Z (hall [batch] 1) day in
  convex_onQ 3 (fun x => cost_of (gssco_hit valQ dc_vmerge OutsideDecisionSpace p 3 [x])).
Proof.
  apply (one_type_convex_fractional no_powf (hall [batch] 1) hall_price hall_power (fun _ => (1, 1 # 2)%Q) site node evaluate inject_Z day); try reflexivity.
  - apply batch_hall. discriminate.
  - exact evaluate_trivial.
  - apply day_profiles.
  - cbn. lia.
Qed.

(** The day is solved by the graph search: *)
Example ex_one_type_search : exists xs c,
  offline_solve (ssco_ops valZ dc_hmerge dc_vmerge OutsideDecisionSpace Leaf) (search_1d_ssco dc_vmerge OutsideDecisionSpace default_options)
    (the_problem valZ (fun z => z) (hall [batch] 1) day) = Ok (xs, c) /\ is_fin (c_cost c) /\
  cheapest (ssco_objective dc_hmerge dc_vmerge OutsideDecisionSpace Leaf (the_problem valZ (fun z => z) (hall [batch] 1) day) 1) 3 [3] xs.
Proof.
  destruct (one_type_search_optimal no_powf (hall [batch] 1) hall_price hall_power (fun _ => (1, 1 # 2)%Q) site node evaluate Leaf default_options day
    (the_problem valZ (fun z => z) (hall [batch] 1) day) 3) as (xs & c & H1 & _ & H2 & H3); try reflexivity.
  - apply batch_hall. discriminate.
  - exact evaluate_trivial.
  - apply day_profiles.
  - apply hall_capacities.
  - apply hall_switching.
  - apply day_supported.
  - discriminate.
  - exists xs, c. auto.
Qed.
(** ... with two servers for the first load and one for the last. *)
Example ex_one_type_search_value : exists c,
  offline_solve (ssco_ops valZ dc_hmerge dc_vmerge OutsideDecisionSpace Leaf) (search_1d_ssco dc_vmerge OutsideDecisionSpace default_options)
    (the_problem valZ (fun z => z) (hall [batch] 1) day) = Ok ([[2]; [0]; [1]], c).
Proof. eexists. vm_compute. reflexivity. Qed.

(** A stream of loads faced by lazy capacity provisioning. *)
Definition waves (t : Z) : list Q := if Z.even t then [6%Q] else [2%Q].
Example ex_one_type_lcp : forall (n : nat) ys, feasible_schedule (Z.of_nat n) [3] ys ->
  let p := load_stream no_powf (hall [batch] 1) evaluate 3 (5 # 2) waves in
  let hit := fun (t : Z) (x : list Z) => c_cost (s_hit p t x) in
  exists xs mem, integral_lcp OutsideDecisionSpace p 0 n = Ok (xs, mem) /\ feasible_schedule (Z.of_nat n) [3] xs /\
    ele (total_cost hit (switching [(5 # 2)%Q] false) 1 1 [0] xs)
        (escale 3 (total_cost hit (switching [(5 # 2)%Q] false) 1 1 [0] ys)).
Proof.
  apply (one_type_lcp_competitive no_powf (hall [batch] 1) hall_price hall_power (fun _ => (1, 1 # 2)%Q) site node evaluate 3 (5 # 2) waves).
  - apply batch_hall. discriminate.
  - exact evaluate_trivial.
  - lia.
  - discriminate.
  - intros t. unfold waves. destruct (Z.even t); (split; [reflexivity|]); repeat constructor; discriminate.
  - intros t. unfold waves. destruct (Z.even t); right; repeat split; vm_compute; congruence.
Qed.

(** Quadratic power is convex, and so is the non-linear model with it. *)
Definition squared (s _ : Q) : Q := (s * s)%Q.
Lemma squared_convex alpha : convex_power (fun s => squared s alpha).
Proof.
  intros a b c Ha Hab Hbc. unfold squared.
  assert (0 <= (b - a) * ((c - b) * (c - a)))%Q by (apply Qmult_le_0_compat; [lra|apply Qmult_le_0_compat; lra]). nra.
Qed.
Example ex_consumption_models_convex :
  convex_power (fun s => (1 * (squared s 2 / 4 + 5))%Q).
Proof.
  apply (consumption_models_convex squared (CNonLinear [("node"%string, (5, 2, 4)%Q)]) 1 node).
  - discriminate.
  - reflexivity.
  - intros models phi_min alpha a E. injection E as <-. cbn. intros E. injection E as _ <- <-. split; [reflexivity|apply squared_convex].
Qed.

(** The general theorem about the graph search applies to an instance which is no data centre:
    configuration 2 is best in both slots. *)
Definition valley : gssco Z unit unit :=
  mkGSSCO 1 2 [3] [1%Q] (cf_new 1 (certain (fun t x => Ok (mkCost (Fin (inject_Z ((nth 0 x 0 - 2) * (nth 0 x 0 - 2) * 4))) (MSuccess tt))))).
Example ex_offline_search_1d : exists xs c,
  offline_solve (ssco_ops valZ (fun _ _ => tt) (fun _ _ => Ok tt) tt Leaf) (search_1d_ssco (fun _ _ => Ok tt) tt default_options) valley = Ok (xs, c) /\
  cheapest (ssco_objective (fun _ _ => tt) (fun _ _ => Ok tt) tt Leaf valley 1) 2 [3] xs.
Proof.
  pose (hit := gssco_hit valZ (fun _ _ : unit => Ok tt) tt valley).
  assert (E : forall t j, 1 <= t <= 2 -> 0 <= j <= 3 -> exists c, hit t [j] = Ok c /\ eeq (c_cost c) (Fin (inject_Z ((j - 2) * (j - 2) * 4)))).
  { intros t j Ht Hj. assert (t = 1 \/ t = 2) as [->| ->] by lia; assert (j = 0 \/ j = 1 \/ j = 2 \/ j = 3) as [->|[->|[->| ->]]] by lia;
      (eexists; split; [vm_compute; reflexivity|vm_compute; reflexivity]). }
  assert (EC : forall t j, 1 <= t <= 2 -> 0 <= j <= 3 -> eeq (cost_of (hit t [j])) (Fin (inject_Z ((j - 2) * (j - 2) * 4)))).
  { intros t j Ht Hj. destruct (E t j Ht Hj) as (c & Hc & He). rewrite Hc. exact He. }
  destruct (offline_search_1d_optimal unit unit (fun _ _ => tt) (fun _ _ => Ok tt) tt Leaf valley 3 default_options) as (xs & c & H1 & _ & _ & H2); try reflexivity.
  - intros t x Ht Hx. cbn in Ht. inversion Hx as [|? ? ? ? Hj Hr]; subst. inversion Hr; subst.
    destruct (E t _ Ht Hj) as (c & Hc & _). exists c. exact Hc.
  - intros t Ht. cbn in Ht. destruct (E t 3 Ht ltac:(lia)) as (c & Hc & He). exists c. split; [exact Hc|]. eapply is_fin_eeq; [apply eeq_sym; exact He|exact I].
  - intros t Ht. cbn in Ht. intros a b c qa qc Hab Hbc Ea Ec.
    change (gssco_hit valZ (fun _ _ : unit => Ok tt) tt valley) with hit in Ea, Ec |- *.
    destruct (E t b Ht ltac:(lia)) as (d & Hd & Ed). rewrite Hd. cbn [cost_of].
    pose proof (EC t a Ht ltac:(lia)) as Va. pose proof (EC t c Ht ltac:(lia)) as Vc. rewrite Ea in Va. rewrite Ec in Vc. cbn [eeq] in Va, Vc.
    destruct (c_cost d) as [qb|]; [|contradiction]. cbn [eeq] in Ed. exists qb. split; [reflexivity|].
    rewrite Va, Vc, Ed. rewrite <- !inject_Z_mult, <- inject_Z_plus, <- Zle_Qle.
    assert (0 <= (b - a) * ((c - b) * (c - a))) by (apply Z.mul_nonneg_nonneg; [lia|apply Z.mul_nonneg_nonneg; lia]). nia.
  - intros t j Ht Hj. cbn in Ht. eapply ele_trans; [|apply eeq_ele; apply eeq_sym; exact (EC t j Ht Hj)]. cbn [ele]. change 0%Q with (inject_Z 0). rewrite <- Zle_Qle. nia.
  - discriminate.
  - exists xs, c. auto.
Qed.

(** *** Backward-recurrent capacity provisioning: one slot, without loss of revenue *)
Definition noon : list (list Q) := [[2%Q]].
Definition smallest (_ : list Q -> outcome ext) (_ : list (Q * Q)) : outcome (list Q) := Ok [(5 # 9)%Q].
Definition noon_problem : gssco Q dc_success dc_failure := the_problem valQ inject_Z (hall [batch] 0) noon.
Definition noon_cost := load_cost (hall [batch] 0) hall_price hall_power (fun _ => (0, 1 # 2)%Q) site node [2%Q] 1.

Lemma noon_profiles : Forall (profile (hall [batch] 0)) noon.
Proof. repeat constructor; discriminate. Qed.
Lemma noon_value y : (0 <= y)%Q ->
  ((5 # 9) <= y /\ exists q, noon_cost y = Fin q /\ q == 2 * y + 2)%Q \/ noon_cost y = Inf.
Proof.
  intros Hy. unfold noon_cost, load_cost. destruct (supported_dec (hall [batch] 0) node (counted [2%Q]) y) as [S|S]; [left|right; reflexivity].
  destruct S as [S|(Hp & Hw & _)]; [vm_compute in S; discriminate S|].
  assert (W : (work (hall [batch] 0) node (counted [2%Q]) == 1 # 2)%Q) by reflexivity.
  rewrite W in Hw. cbn [st_max_utilization node hall dc_delta] in Hw. split; [lra|].
  eexists. split; [reflexivity|]. unfold active_cost, type_energy, type_revenue.
  assert (B : Qle_bool y 0 = false) by (apply not_true_iff_false; intros B; apply Qle_bool_iff in B; lra). rewrite B.
  cbn [hall dc_sources dc_job_types length seq map Qsum nth_error Nat.mul Nat.add counted fst]. unfold hall_power. fold (hall [batch] 0).
  assert (N : ~ (y == 0)%Q) by (intros N; lra).
  assert (W' : (work (hall [batch] 0) node (counted [2%Q]) / (y * dc_delta (hall [batch] 0)) == (1 # 2) / y)%Q) by (rewrite W; cbn; field; exact N).
  unfold counted in W'. cbn [map] in W'. rewrite W'. unfold hall_price. change (inject_Z (1 * 1 + 1)) with 2%Q. field. exact N.
Qed.

Example ex_one_type_brcp : exists xs c,
  offline_solve (ssco_ops valQ dc_hmerge dc_vmerge OutsideDecisionSpace Leaf)
    (brcp_ssco dc_vmerge OutsideDecisionSpace dc_hmerge Leaf smallest default_options) noon_problem = Ok (xs, c) /\ is_fin (c_cost c) /\
  cheapest_1dQ (objective_1dQ dc_hmerge dc_vmerge OutsideDecisionSpace Leaf noon_problem 1) 1 3 xs.
Proof.
  assert (HO : one_type no_powf (hall [batch] 0) hall_price hall_power (fun _ => (0, 1 # 2)%Q) site node) by (apply batch_hall; discriminate).
  assert (HG : to_ssco no_powf (hall [batch] 0) valQ inject_Z evaluate noon = Ok noon_problem) by reflexivity.
  destruct (one_type_brcp_optimal no_powf (hall [batch] 0) hall_price hall_power (fun _ => (0, 1 # 2)%Q) site node evaluate Leaf Leaf smallest default_options noon
    noon_problem 3) as (xs & c & H1 & _ & H2 & H3); try reflexivity; try exact HO.
  - exact evaluate_trivial.
  - apply noon_profiles.
  - apply hall_capacities.
  - apply hall_switching.
  - constructor; [|constructor]. right; repeat split; vm_compute; congruence.
  - discriminate.
  - intros inv n H1 H2. assert (n = 1%nat) by (cbn in H2; lia). subst n.
    assert (HS : forall y, (0 <= y <= 3)%Q -> exists c, bound_objective dc_vmerge dc_hmerge OutsideDecisionSpace Leaf
        (gssco_extend (ssco_reset noon_problem 0) 0) 1 inv 0 (Z.of_nat 1) 0 [y] = Ok c /\
        eeq c (eadd (noon_cost y) (Fin (1 * ((5 # 2) * qpos (if inv then 0 - y else y - 0)))))).
    { intros y Hy.
      destruct (bound_objective_spec dc_vmerge dc_hmerge OutsideDecisionSpace Leaf noon_problem 3 (5 # 2) 1 (fun _ => noon_cost) eq_refl eq_refl) with (inv := inv) (n := 1%nat) (xs := [y]) as (c & Ec & Eq).
      - intros t x Ht Hx. assert (t = 1) by (cbn in Ht; lia). subst t. split.
        + exact (gen_mean no_powf _ _ _ _ _ _ HO evaluate evaluate_trivial valQ inject_Z noon noon_problem HG noon_profiles 1 x ltac:(cbn; lia) ltac:(unfold is_nonnegative; cbn; lra)).
        + intros rs Hrs. destruct (gen_call no_powf _ _ _ _ _ _ HO evaluate evaluate_trivial valQ inject_Z noon noon_problem HG noon_profiles 1 x ltac:(cbn; lia) ltac:(unfold is_nonnegative; cbn; lra)) as (c & Hc & _).
          rewrite Hc in Hrs. injection Hrs as <-. reflexivity.
      - cbn. lia.
      - reflexivity.
      - repeat constructor; apply Hy.
      - exists c. split; [exact Ec|]. rewrite Eq. unfold J, Jf. cbn [total_cost]. unfold sw1. destruct (noon_cost y); [cbn|exact I]. destruct inv; ring. }
    destruct (HS (5 # 9)%Q ltac:(lra)) as (c & Ec & Eq).
    exists [(5 # 9)%Q], c. split; [reflexivity|]. split; [apply (box_S 3); split; [reflexivity|]; constructor; [unfold SQ; lra|constructor]|]. split; [exact Ec|].
    intros ys c' Hy E. apply (box_S 3) in Hy. destruct Hy as [Ly Sy]. destruct ys as [|y [|]]; try discriminate. apply Forall_inv in Sy.
    destruct (HS y Sy) as (c2 & Ec2 & Eq2). assert (c2 = c') by (enough (Ok c2 = Ok c') by congruence; exact (eq_trans (eq_sym Ec2) E)). subst c2. rewrite Eq, Eq2.
    assert (V : exists q, noon_cost (5 # 9) = Fin q /\ (q == 2 * (5 # 9) + 2)%Q) by
      (destruct (noon_value (5 # 9) ltac:(lra)) as [[_ H]|H]; [exact H|]; exfalso; unfold noon_cost in H;
       rewrite (proj1 (load_cost_spec _ _ _ _ _ _ _ _ _)) in H; [discriminate H|right; repeat split; vm_compute; congruence]).
    destruct V as (q0 & V & W). rewrite V.
    destruct (noon_value y) as [(Hb & q & Hq & Eqq)|Hq]; [unfold SQ in Sy; lra| |rewrite Hq; exact I].
    rewrite Hq. cbn [eadd ele]. rewrite W, Eqq. destruct inv.
    + destruct (qpos_cases (0 - y)) as [[? ->]|[? ->]]; destruct (qpos_cases (0 - (5 # 9))) as [[? ->]|[? ->]]; lra.
    + destruct (qpos_cases (y - 0)) as [[? ->]|[? ->]]; destruct (qpos_cases ((5 # 9) - 0)) as [[? ->]|[? ->]]; lra.
  - exists xs, c. auto.
Qed.

(** *** C81: several job types *)
(** One server with a maximum utilisation of 9/10 is assigned three jobs of either of two types in a
    slot, which need one and a half times the length of the slot; the reported cost is finite. *)
Theorem one_type_capacity_refuted :
  exists (m : data_center) price power revenue (l : location) (st : server_type) (lambda : list Q) (p : gssco Z dc_success dc_failure) c,
    one_type no_powf m price power revenue l st /\ profile m lambda /\
    to_ssco no_powf m valZ (fun z => z) evaluate [lambda] = Ok p /\ feasible_config (g_bounds p) [1] /\
    (work m st lambda == (3 # 2) * dc_delta m)%Q /\ ~ supported m st 1 lambda /\
    gssco_hit valZ dc_vmerge OutsideDecisionSpace p 1 [1] = Ok c /\ is_fin (c_cost c).
Proof.
  exists (hall [batch; query] 1), hall_price, hall_power, (fun _ => (1, 1 # 2)%Q), site, node, [3%Q; 3%Q], (the_problem valZ (fun z => z) (hall [batch; query] 1) [[3%Q; 3%Q]]).
  eexists. split; [|split; [|split; [|split; [|split; [|split; [|split]]]]]].
  - apply hall_one_type; [discriminate|]. intros jt [<-|[<-|[]]]; auto.
  - split; [reflexivity|]. repeat constructor; discriminate.
  - reflexivity.
  - constructor; [cbn; lia|constructor].
  - vm_compute. reflexivity.
  - intros [H|(_ & H & _)]; [vm_compute in H; discriminate H|]. vm_compute in H. apply H. reflexivity.
  - vm_compute. reflexivity.
  - exact I.
Qed.
Print Assumptions one_type_capacity_refuted.
