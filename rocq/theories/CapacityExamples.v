(** Concrete cases for the theorems of CapacityProps.v, and counterexamples. *)
From Coq Require Import Lia Lqa.
From Verif Require Import NumLemmas ObjectiveSpec CapacitySpec CapacityModel CapacityProofs CapacityWindow CapacityBrcp
  CapacityChain CapacityProps.
From Verif Require Import ProblemModel.
Local Open Scope Z_scope.

(** *** An integral instance: three servers, cost 3 |x - a_t|, or |x - a_t| in every third slot *)
Definition demand (t : Z) : Z := (t * t) mod 4 + (t mod 3).

Definition steep (t : Z) : Z := if t mod 3 =? 0 then 1 else 3.

Definition cap_p : ssco unit unit :=
  mkSSCO 1 6 [3] [2%Q] (fun t x => mkCost (Fin (inject_Z (steep t * Z.abs (nth 0 x 0 - demand t)))) (MSuccess tt)).

Lemma convex_abs (s k m : Z) : 0 <= s -> convex_on m (fun j => Fin (inject_Z (s * Z.abs (j - k)))).
Proof.
  intros Hs a b c qa qc H1 H2 Ea Ec. injection Ea as <-. injection Ec as <-. eexists. split; [reflexivity|].
  rewrite <- !inject_Z_mult, <- inject_Z_plus, <- Zle_Qle.
  assert ((c - a) * Z.abs (b - k) <= (c - b) * Z.abs (a - k) + (b - a) * Z.abs (c - k)); [|nia].
  destruct (Z.abs_spec (a - k)) as [[? ->]|[? ->]], (Z.abs_spec (b - k)) as [[? ->]|[? ->]],
    (Z.abs_spec (c - k)) as [[? ->]|[? ->]]; nia.
Qed.

Example cap_costs : capacity_costs (fun t x => c_cost (s_hit cap_p t x)) 3 2.
Proof.
  split.
  - lia.
  - lra.
  - intros t _. apply convex_abs. unfold steep. destruct (t mod 3 =? 0); lia.
  - intros; exact I.
  - intros t j _ _. simpl. change 0%Q with (inject_Z 0). rewrite <- Zle_Qle.
    assert (0 <= steep t) by (unfold steep; destruct (t mod 3 =? 0); lia). nia.
Qed.


(** A run; after slot 5 the restart point is slot 4, where both bounds were 1. *)
Example cap_run :
  integral_lcp tt cap_p 0 8
  = Ok ([[2]; [2]; [2]; [1]; [3]; [3]; [2]; [2]],
        Some [mkBM 2 2; mkBM 2 2; mkBM 1 2; mkBM 1 1; mkBM 3 3; mkBM 0 3; mkBM 2 2; mkBM 2 2]) /\
  find_initial_time valZ [mkBM 2 2; mkBM 2 2; mkBM 1 2; mkBM 1 1; mkBM 3 3; mkBM 0 3] = Ok (4, 1).
Proof. split; vm_compute; reflexivity. Qed.

(** With a prediction window. *)
Example cap_run_window :
  exists mem, integral_lcp tt cap_p 1 5 = Ok ([[2]; [2]; [1]; [1]; [3]], mem).
Proof. eexists. vm_compute. reflexivity. Qed.

(** The lazy schedule costs 12, an optimal one 10. *)
Example cap_run_cost :
  let cost := total_cost (fun t x => c_cost (s_hit cap_p t x)) (switching [2%Q] false) 1 1 [0] in
  eeq (cost [[2]; [2]; [2]; [1]; [3]; [3]; [2]; [2]]) (Fin 12) /\
  eeq (cost [[2]; [2]; [1]; [1]; [3]; [2]; [2]; [2]]) (Fin 10).
Proof. split; vm_compute; reflexivity. Qed.

(** The hypotheses of [lcp_restart_sound]: slot 1 with one server in an instance where
    both optimal prefixes end there. *)
Definition cap_q : ssco unit unit :=
  mkSSCO 1 3 [2] [1%Q] (fun t x => mkCost (Fin (inject_Z (3 * Z.abs (nth 0 x 0 - t)))) (MSuccess tt)).

Example cap_q_costs : capacity_costs (fun t x => c_cost (s_hit cap_q t x)) 2 1.
Proof.
  split.
  - lia.
  - lra.
  - intros t _. apply (convex_abs 3). lia.
  - intros; exact I.
  - intros t j _ _. change (0 <= inject_Z (3 * Z.abs (j - t)))%Q. change 0%Q with (inject_Z 0). rewrite <- Zle_Qle.
    pose proof (Z.abs_nonneg (j - t)). lia.
Qed.

Example cap_q_stable :
  ends_optimally (fun t x => c_cost (s_hit cap_q t x)) 2 1 false 1 1 /\
  ends_optimally (fun t x => c_cost (s_hit cap_q t x)) 2 1 true 1 1.
Proof.
  assert (H : forall ys, feasible_schedule 1 [2] ys -> ys = [[0]] \/ ys = [[1]] \/ ys = [[2]]).
  { intros ys Hy. apply feasible_singles in Hy. destruct Hy as (zs & -> & L & F).
    destruct zs as [|z [|]]; try (simpl in L; lia). inversion F; subst.
    assert (z = 0 \/ z = 1 \/ z = 2) as [->|[->| ->]] by lia; auto. }
  split; exists [[1]]; (split; [|reflexivity]); (split; [split; [reflexivity|]; repeat constructor; lia|]);
    (split; [vm_compute; exact I|]); intros ys Hy; destruct (H ys Hy) as [->|[->| ->]]; vm_compute; discriminate.
Qed.

Example cap_q_restart :
  lower_bound_i tt cap_q 0 3 1 1 = Ok 2 /\ upper_bound_i tt cap_q 0 3 1 1 = Ok 2.
Proof. split; vm_compute; reflexivity. Qed.

(** *** A fractional instance with exact optimiser *)
Definition frac_f (t : Z) (x : Q) : ext := Fin (if t =? 1 then 2 * (1 - x) else x * (1 # 2))%Q.

Definition frac_p : gssco Q unit unit :=
  mkGSSCO 1 2 [1%Q] [1%Q] (cf_new 1 (fun t x => Ok [mkCost (frac_f t (nth 0 x 0%Q)) (MSuccess tt)])).

(** Tries the corners of the box. *)
Fixpoint corners (bs : list (Q * Q)) : list (list Q) :=
  match bs with
  | [] => [[]]
  | b :: r => map (cons (fst b)) (corners r) ++ map (cons (snd b)) (corners r)
  end.

Definition better (g : list Q -> outcome ext) (x y : list Q) : list Q :=
  match g x, g y with
  | Ok a, Ok b => if eltb b a then y else x
  | _, _ => x
  end.

Definition corner_min (g : list Q -> outcome ext) (bs : list (Q * Q)) : outcome (list Q) :=
  match corners bs with
  | [] => Panic
  | x :: r => Ok (fold_left (better g) r x)
  end.

Definition vm1 (_ _ : unit) : outcome unit := Ok tt.
Definition m1 (_ _ : unit) : unit := tt.

Example frac_costs : capacity_costsQ 1 frac_f 1.
Proof.
  split.
  - lra.
  - lra.
  - intros t x y H. unfold frac_f. destruct (t =? 1); simpl; rewrite H; reflexivity.
  - intros t _ a b c qa qc H1 H2 H3 H4 Ea Ec. unfold frac_f in *.
    injection Ea as <-. injection Ec as <-. eexists. split; [reflexivity|]. destruct (t =? 1); nra.
  - intros. exact I.
  - intros t x _ H. unfold frac_f. simpl. destruct (t =? 1); lra.
Qed.

Example frac_certain : forall t x, 1 <= t <= g_tend frac_p -> (0 <= x <= 1)%Q ->
  (exists c, call_mean vm1 (g_cost frac_p) t [x] = Ok c /\ eeq (c_cost c) (frac_f t x)) /\
  (forall rs, call_predictive (g_cost frac_p) t [x] = Ok rs -> length rs = 1%nat).
Proof.
  intros t x Ht Hx. simpl in Ht. assert (t = 1 \/ t = 2) as [->| ->] by lia; cbn.
  - split; [|intros rs H; injection H as <-; reflexivity]. eexists. split; [reflexivity|]. cbn.
    unfold frac_f. cbn. field.
  - split; [|intros rs H; injection H as <-; reflexivity]. eexists. split; [reflexivity|]. cbn.
    unfold frac_f. cbn. field.
Qed.

Example frac_exact : forall inv n, (1 <= n)%nat -> Z.of_nat n <= g_tend frac_p ->
  exact_answer corner_min
    (bound_objective vm1 m1 tt Leaf (gssco_extend (ssco_reset frac_p 0) 0) 1 inv 0 (Z.of_nat n) 0)
    (repeat (0%Q, 1%Q) n).
Proof.
  intros inv n H1 H2. simpl in H2.
  assert (HS : forall ys c', in_boxQ (repeat (0%Q, 1%Q) n) ys ->
    bound_objective vm1 m1 tt Leaf (gssco_extend (ssco_reset frac_p 0) 0) 1 inv 0 (Z.of_nat n) 0 ys = Ok c' ->
    length ys = n /\ Forall (fun x => (0 <= x <= 1)%Q) ys /\ eeq c' (J 1 1 frac_f inv ys)).
  { intros ys c' Hy E. apply (box_S 1) in Hy. destruct Hy as [Ly Sy]. split; [exact Ly|]. split; [exact Sy|].
    destruct (bound_objective_spec vm1 m1 tt Leaf frac_p 1 1 1 frac_f eq_refl eq_refl frac_certain inv n ys) as (c & Ec & Eq); auto.
    rewrite Ec in E. injection E as <-. exact Eq. }
  assert (n = 1 \/ n = 2)%nat as [->| ->] by lia.
  - exists [1%Q], (J 1 1 frac_f inv [1%Q]). destruct inv.
    + split; [vm_compute; reflexivity|]. split; [repeat constructor; simpl; lra|]. split; [vm_compute; reflexivity|].
      intros ys c' Hy E. destruct (HS ys c' Hy E) as (Ly & Sy & ->).
      destruct ys as [|y [|]]; try discriminate. inversion Sy; subst.
      unfold J, Jf. cbn [total_cost]. unfold frac_f, CapacityWork.sw1. cbn [Z.eqb Pos.eqb Z.add Pos.add eadd ele].
      repeat match goal with |- context [qpos ?e] => destruct (qpos_cases e) as [[? ->]|[? ->]] end; lra.
    + split; [vm_compute; reflexivity|]. split; [repeat constructor; simpl; lra|]. split; [vm_compute; reflexivity|].
      intros ys c' Hy E. destruct (HS ys c' Hy E) as (Ly & Sy & ->).
      destruct ys as [|y [|]]; try discriminate. inversion Sy; subst.
      unfold J, Jf. cbn [total_cost]. unfold frac_f, CapacityWork.sw1. cbn [Z.eqb Pos.eqb Z.add Pos.add eadd ele].
      repeat match goal with |- context [qpos ?e] => destruct (qpos_cases e) as [[? ->]|[? ->]] end; lra.
  - destruct inv.
    + exists [1%Q; 1%Q], (J 1 1 frac_f true [1%Q; 1%Q]).
      split; [vm_compute; reflexivity|]. split; [repeat constructor; simpl; lra|]. split; [vm_compute; reflexivity|].
      intros ys c' Hy E. destruct (HS ys c' Hy E) as (Ly & Sy & ->).
      destruct ys as [|y [|z [|]]]; try discriminate. inversion Sy as [|? ? ? Sy']; subst. inversion Sy'; subst.
      unfold J, Jf. cbn [total_cost]. unfold frac_f, CapacityWork.sw1. cbn [Z.eqb Pos.eqb Z.add Pos.add eadd ele].
      repeat match goal with |- context [qpos ?e] => destruct (qpos_cases e) as [[? ->]|[? ->]] end; lra.
    + exists [1%Q; 0%Q], (J 1 1 frac_f false [1%Q; 0%Q]).
      split; [vm_compute; reflexivity|]. split; [repeat constructor; simpl; lra|]. split; [vm_compute; reflexivity|].
      intros ys c' Hy E. destruct (HS ys c' Hy E) as (Ly & Sy & ->).
      destruct ys as [|y [|z [|]]]; try discriminate. inversion Sy as [|? ? ? Sy']; subst. inversion Sy'; subst.
      unfold J, Jf. cbn [total_cost]. unfold frac_f, CapacityWork.sw1. cbn [Z.eqb Pos.eqb Z.add Pos.add eadd ele].
      repeat match goal with |- context [qpos ?e] => destruct (qpos_cases e) as [[? ->]|[? ->]] end; lra.
Qed.

Example frac_brcp :
  brcp vm1 m1 tt Leaf corner_min frac_p false 1 None = Ok ([[1%Q]; [0%Q]], [mkBM 1%Q 1%Q; mkBM 0%Q 1%Q]).
Proof. vm_compute. reflexivity. Qed.

(** *** C24 for fractional instances: the objective minimised after a restart is not the
    cost of the remaining slots *)

(** Slot 1 is stable at 0 servers; then costs 2 (1 - x) and x / 2.  With power-down
    charged, staying at 1 in the last slot is better than dropping to 0, but the objective
    given to the optimiser prefers dropping: its horizon is not shortened by the restart,
    and the missing slots are filled with the start configuration. *)
Definition shift_p : gssco Q unit unit :=
  mkGSSCO 1 3 [1%Q] [1%Q]
    (cf_new 1 (fun t x => Ok [mkCost (if t =? 1 then Fin (4 * nth 0 x 0%Q) else frac_f (t - 1) (nth 0 x 0%Q)) (MSuccess tt)])).

Theorem fractional_restart_refuted :
  let g := bound_objective vm1 m1 tt Leaf (gssco_extend (ssco_reset shift_p 1) 0) 1 true 0 3 0 in
  exists xs ys a b,
    g xs = Ok a /\ g ys = Ok b /\ elt a b /\
    elt (servers_cost frac_f 1 1 true ys) (servers_cost frac_f 1 1 true xs).
Proof.
  exists [1%Q; 0%Q], [1%Q; 1%Q]. eexists. eexists.
  split; [vm_compute; reflexivity|]. split; [vm_compute; reflexivity|]. split; vm_compute; reflexivity.
Qed.

(** With a prediction window the predicted slots are evaluated at the start
    configuration instead of being optimised: a cost in a predicted slot that depends on
    the configuration has no influence. *)
Theorem fractional_window_refuted :
  exists p : gssco Q unit unit,
    let g := bound_objective vm1 m1 tt Leaf (gssco_extend (ssco_reset p 0) 1) 1 false 1 1 0 in
    (exists c, g [0%Q] = Ok c /\ eeq c (Fin 7)) /\ (exists c, g [1%Q] = Ok c /\ eeq c (Fin 8)) /\
    forall x, call_mean vm1 (g_cost p) 1 [x] = Ok (mkCost (Fin 0) (MSuccess tt)) /\
      exists c, call_mean vm1 (g_cost p) 2 [1%Q] = Ok c /\ eeq (c_cost c) (Fin 0).
Proof.
  exists (mkGSSCO 1 1 [1%Q] [1%Q]
    (cf_new 1 (fun t x => Ok [mkCost (if t =? 1 then Fin 0 else Fin (7 * (1 - nth 0 x 0%Q))) (MSuccess tt)]))).
  cbn zeta. split; [eexists; split; vm_compute; reflexivity|]. split; [eexists; split; vm_compute; reflexivity|].
  intros x. split; [vm_compute; reflexivity|]. eexists. split; vm_compute; reflexivity.
Qed.
