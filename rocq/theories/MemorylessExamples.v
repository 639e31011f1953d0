(** A concrete instance for the properties of MemorylessProps, and a disagreement. *)
From Coq Require Import Lia Lqa Qabs.
From Verif Require Import NumLemmas OptimizeSpec OptimizeBrute StreamSpec MemorylessSpec DescentModel CostProofs ConvertProofs MemorylessProps.
From Verif Require Import ProblemModel CostModel.
Local Open Scope Z_scope.

(** At most 10 servers, demand for 10 servers in the slots 1 and 2 and for none in the slots
    3 and 4: 2 per missing or superfluous server, 1 per server powered up. *)
Definition demand (t : Z) (x : Q) : Q := if t <=? 2 then (2 * Qabs (10 - x))%Q else (2 * Qabs x)%Q.
Definition swing : gssco Q unit unit :=
  mkGSSCO 1 1 [10%Q] [1%Q]
    (cf_new 1 (certain (fun t x => match x with [j] => Ok (mkCost (Fin (demand t j)) MNone) | _ => Panic end))).
Definition swing_ops := ssco_ops valQ (fun _ _ : unit => tt) (fun _ _ => Ok tt) tt Leaf.
Definition swing_run := offline_stream swing_ops (memoryless (fun _ _ => Ok tt) tt brute) (fun _ => tt) 4 (mkOnline swing 0).

Example swing_hypotheses :
  exact_nlopt brute /\ g_d swing = 1 /\ g_bounds swing = [10%Q] /\ g_switching swing = [1%Q] /\ g_tend swing = 1 /\ hundredths 10 /\
  (forall t x, 1 <= t <= 4 -> (0 <= x <= 10)%Q ->
     exists c, call_mean (fun _ _ => Ok tt) (g_cost swing) t [x] = Ok c /\ eeq (c_cost c) (Fin (demand t x))) /\
  mild_costs demand 10 2 4.
Proof.
  split; [exact brute_exact|]. do 4 (split; [reflexivity|]). split; [exists 1000; reflexivity|]. split.
  - intros t x Ht Hx. unfold call_mean, swing. cbn [g_cost]. rewrite cf_new_get by lia. cbn [obind fst snd].
    unfold single_mean, single_predictive. rewrite (proj2 (Z.ltb_ge t 1)) by lia. unfold certain. cbn [obind length Nat.eqb negb].
    rewrite andb_false_r. eexists. split; [reflexivity|]. cbn -[demand]. field.
  - unfold demand. constructor.
    + intros t x y E. destruct (t <=? 2); rewrite E; reflexivity.
    + intros t x _ _. destruct (t <=? 2); pose proof (Qabs_nonneg x); pose proof (Qabs_nonneg (10 - x)); lra.
    + intros t x y z _ H1 H2 H3 H4. destruct (t <=? 2); rewrite !Qabs_pos by lra; lra.
    + intros t x y _ H1 H2. pose proof (Qle_Qabs (x - y)). pose proof (Qle_Qabs (y - x)) as G. rewrite Qabs_Qminus in G.
      destruct (t <=? 2).
      * rewrite (Qabs_pos (10 - x)), (Qabs_pos (10 - y)) by lra. lra.
      * rewrite (Qabs_pos x), (Qabs_pos y) by lra. lra.
Qed.

Example swing_answer :
  swing_run = Some (at_slot swing_ops (mkOnline swing 0) 4, [[5.00%Q]; [7.50%Q]; [3.75%Q]; [1.88%Q]], Ok None).
Proof. vm_compute. reflexivity. Qed.

(** C76: for the objective of the problem, a factor of three (as for movement charged in both
    directions) is too small: the run costs 33.76, the schedule that uses 10 servers while
    they are needed costs 10. *)
Theorem memoryless_ratio_three_refuted :
  exists c c',
    plan 10 4 [10; 10; 0; 0]%Q /\
    po_objective swing_ops (on_p (at_slot swing_ops (mkOnline swing 0) 4)) [[5.00]; [7.50]; [3.75]; [1.88]]%Q = Ok c /\
    po_objective swing_ops (on_p (at_slot swing_ops (mkOnline swing 0) 4)) (map (fun x => [x]) [10; 10; 0; 0]%Q) = Ok c' /\
    elt (eadd (escale 3 (c_cost c')) (Fin (4 * slack 1 2))) (c_cost c).
Proof.
  eexists. eexists. split; [split; [reflexivity|]; repeat constructor; vm_compute; discriminate|].
  split; [vm_compute; reflexivity|]. split; [vm_compute; reflexivity|]. vm_compute. reflexivity.
Qed.
Print Assumptions memoryless_ratio_three_refuted.
