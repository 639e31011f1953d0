(** Concrete instances meeting the hypotheses of GridCapProps.v, and the refutation of
    competitiveness after a restart. *)
From Coq Require Import Lia Lqa Qabs.
From Verif Require Import NumLemmas ObjectiveSpec CapacitySpec CapacityModel OptimizeModel OptimizeSpec OptimizeBrute VerifyModel CostSpec CostProofs ConvertProofs
  GridCapModel GridCapSpec GridCapWave.
From Verif Require Import ProblemModel CostModel.
Local Open Scope Z_scope.

(** A twentieth of a server, worth 10 in the first slot, costing 40 per slot and server afterwards;
    powering up costs 100. *)
Definition dusk_f (t : Z) (x : Q) : ext := Fin (if t =? 1 then 200 * ((1 # 20) - x) else 40 * x)%Q.
Definition dusk_p (t_end : Z) : gssco Q unit unit :=
  mkGSSCO 1 t_end [1 # 20]%Q [100%Q] (cf_new 1 (certain (fun t x => Ok (mkCost (dusk_f t (nth 0 x 0%Q)) (MSuccess tt))))).

Example dusk_costs : capacity_costsQ (1 # 20) dusk_f 100.
Proof.
  split.
  - lra.
  - lra.
  - intros t x y H. unfold dusk_f. cbn [eeq]. destruct (t =? 1); rewrite H; reflexivity.
  - intros t _ a b c qa qc H1 H2 H3 H4 Ea Ec. unfold dusk_f in *.
    injection Ea as <-. injection Ec as <-. eexists. split; [reflexivity|]. destruct (t =? 1); nra.
  - intros. exact I.
  - intros t x _ H. unfold dusk_f. cbn [ele]. destruct (t =? 1); lra.
Qed.

Example dusk_certain T : certain_costs vm1 (dusk_p T) (1 # 20) dusk_f.
Proof.
  intros t x Ht Hx. split.
  - pose proof (certain_call_mean vm1 (fun t (x : list Q) => Ok (mkCost (D := unit) (dusk_f t (nth 0 x 0%Q)) (MSuccess tt))) t [x] ltac:(lia)) as H.
    unfold dusk_p. cbn [g_cost]. destruct (call_mean vm1 _ t [x]) as [c|e|]; cbn [outcome_rel] in H; try contradiction.
    exists c. split; [reflexivity|]. apply H.
  - intros rs H. unfold dusk_p, call_predictive in H. cbn [g_cost] in H. rewrite cf_new_get in H by lia. cbn [obind fst snd] in H.
    unfold single_predictive, certain in H. rewrite (proj2 (Z.ltb_ge t 1)) in H by lia. cbn [obind] in H.
    cbn [length Nat.eqb negb] in H. rewrite andb_false_r in H. injection H as <-. reflexivity.
Qed.

Example ex_capacity :
  exact_nlopt brute /\ verify_ssco valQ (dusk_p 4) = Ok tt /\ g_bounds (dusk_p 4) = [1 # 20]%Q /\ g_switching (dusk_p 4) = [100%Q] /\
  hundredths (1 # 20) /\ capacity_costsQ (1 # 20) dusk_f 100 /\ certain_costs vm1 (dusk_p 4) (1 # 20) dusk_f.
Proof.
  split; [exact brute_exact|]. split; [reflexivity|]. split; [reflexivity|]. split; [reflexivity|]. split; [exists 5; reflexivity|].
  split; [exact dusk_costs|exact (dusk_certain 4)].
Qed.

(** Lazy capacity provisioning keeps the server for two more slots, without suspecting anything. *)
Example ex_fractional_lcp :
  fractional_lcp vm1 m1 tt Leaf (point_minimize brute) (dusk_p 4) 0 4 =
    Ok ([[5 # 100]; [5 # 100]; [5 # 100]; [0 # 100]]%Q,
        Some [mkBM (5 # 100) (5 # 100); mkBM (0 # 100) (5 # 100); mkBM (0 # 100) (5 # 100); mkBM (0 # 100) (0 # 100)]%Q) /\
  ~ suspected (removelast [mkBM (5 # 100) (5 # 100); mkBM (0 # 100) (5 # 100); mkBM (0 # 100) (5 # 100); mkBM (0 # 100) (0 # 100)]%Q).
Proof.
  split; [vm_compute; reflexivity|]. cbn [removelast]. intros (l & b & b' & r & E & H1 & H2).
  destruct l as [|a1 [|a2 [|a3 l]]]; cbn [app] in E.
  - injection E as <- <- _. cbn [bm_lower bm_upper] in *. lra.
  - injection E as <- <- <- _. cbn [bm_lower bm_upper] in *. lra.
  - injection E as _ _ _ E. discriminate E.
  - injection E as _ _ _ E. destruct l; discriminate E.
Qed.

(** Backward-recurrent capacity provisioning switches it off at once. *)
Example ex_brcp :
  brcp vm1 m1 tt Leaf (point_minimize brute) (dusk_p 2) false 1 None =
    Ok ([[5 # 100]; [0]]%Q, [mkBM (5 # 100) (5 # 100); mkBM (0 # 100) (5 # 100)]%Q).
Proof. vm_compute. reflexivity. Qed.

(** C84 is false after a restart: however exact NLopt is, lazy capacity provisioning for
    fractional instances does not have any competitive ratio.  Its first suspicion is right, but
    from then on it alternates between powering the only server up and down. *)
Theorem fractional_lcp_unbounded_refuted :
  forall R : Q, exists (n : nat) (p : gssco Q unit unit),
  verify_ssco valQ p = Ok tt /\ g_bounds p = [1%Q] /\ g_switching p = [10%Q] /\ hundredths 1 /\
  capacity_costsQ 1 wave_f 10 /\ certain_costs vm1 p 1 wave_f /\ g_tend p = Z.of_nat n /\
  forall nlopt sched, exact_nlopt nlopt -> exists ys mem zs,
    fractional_lcp vm1 m1 tt sched (point_minimize nlopt) p 0 n = Ok (map (fun y => [y]) ys, mem) /\
    servers_on hundredths 1 (Z.of_nat n) zs /\
    elt (escale R (servers_cost wave_f 10 1 false zs)) (servers_cost wave_f 10 1 false ys).
Proof. exact lcp_unbounded. Qed.
Print Assumptions fractional_lcp_unbounded_refuted.
