(** Concrete cases for the theorems of ConvertProps.v. *)
From Verif Require Import NumLemmas CostSpec CostProofs ConvertSpec ConvertProofs ConvertProps.
From Verif Require Import ProblemModel.
Local Open Scope Z_scope.

Definition rawc (q : Q) : cost unit unit := mkCost (Fin q) (MSuccess tt).
Definition vmu (a b : unit) : outcome unit := Ok tt.
Definition mu (a b : unit) : unit := tt.

(** Two dimensions, costs depending on time. *)
Definition sscoZ : gssco Z unit unit :=
  mkGSSCO 2 3 [3; 2] [2%Q; 3%Q]
    (cf_new 1 (certain (fun t x => Ok (rawc (inject_Z (t * fold_left Z.add x 0)))))).

Definition sched : list (list Z) := [[1; 2]; [3; 0]; [2; 1]].

Example into_sco_applies :
  lawful valZ /\ length (g_switching sscoZ) = Z.to_nat (g_d sscoZ) /\
  Forall (fun x => length x = Z.to_nat (g_d sscoZ)) sched /\
  outcome_rel cost_eq
    (objective_o mu Leaf (gsco_problem valZ vmu tt (into_sco valZ vmu tt sscoZ)) sched (gzero valZ 2) 1 false 3)
    (Ok (rawc 33)) /\
  outcome_rel cost_eq
    (objective_o mu Leaf (gssco_problem valZ vmu tt sscoZ) sched (gzero valZ 2) 1 false 3)
    (Ok (rawc 33)).
Proof.
  split; [exact valZ_lawful|]. split; [reflexivity|]. split; [repeat constructor|].
  split; vm_compute; split; reflexivity.
Qed.

(** A convex integral cost, infinite above 3. *)
Definition conv1 : cost_fn (list Z) unit unit :=
  cf_new 1 (certain (fun t x => match x with
    | [z] => Ok (if z <=? 3 then rawc (inject_Z (t * (z - 2) * (z - 2))) else mkCost Inf MNone)
    | _ => Panic end)).

Example relax_values :
  map (fun x => number (call_certain (cf_into_f vmu conv1) 2 [x])) [1%Q; (5#2)%Q; 3%Q; (7#2)%Q]
  = [Some (Fin 2); Some (Fin (4#4)); Some (Fin 2); Some Inf].
Proof. vm_compute. reflexivity. Qed.

Example relax_convex_applies :
  convex_on_Q 5 (fun x => number (call_certain (cf_into_f vmu conv1) 2 [x])).
Proof.
  apply (relaxation_is_convex unit unit vmu conv1 2) with
    (g := fun z => if z <=? 3 then Fin (inject_Z (2 * (z - 2) * (z - 2))) else Inf).
  - lia.
  - intros a b. exists tt. reflexivity.
  - intros z Hz. eexists. unfold conv1. rewrite certain_call_certain by lia. split; [reflexivity|].
    destruct (z <=? 3); reflexivity.
  - intros a b c qa qc Ha Hc. destruct (a <=? 3) eqn:Ea; [|discriminate].
    destruct (c <=? 3) eqn:Ec; [|discriminate]. intros HA HC.
    assert (qa = inject_Z (2 * (a - 2) * (a - 2))) as -> by congruence.
    assert (qc = inject_Z (2 * (c - 2) * (c - 2))) as -> by congruence. clear HA HC.
    assert (b <=? 3 = true) as -> by lia. eexists. split; [reflexivity|].
    rewrite <- !inject_Z_mult, <- inject_Z_plus, <- Zle_Qle.
    assert (0 <= (c - b) * (b - a) * (c - a)) by (repeat apply Z.mul_nonneg_nonneg; lia).
    replace ((c - b) * (2 * (a - 2) * (a - 2)) + (b - a) * (2 * (c - 2) * (c - 2)))
      with ((c - a) * (2 * (b - 2) * (b - 2)) + 2 * ((c - b) * (b - a) * (c - a))) by ring. lia.
Qed.

Example rounding_case :
  in_box valQ (config_to [3; 2]) [(5#2)%Q; (1#3)%Q] /\
  config_ceil [(5#2)%Q; (1#3)%Q] = [3; 1] /\ config_floor [(5#2)%Q; (1#3)%Q] = [2; 0].
Proof. split; [|split; reflexivity]. repeat constructor; simpl; discriminate. Qed.

Example reset_case :
  outcome_rel cost_eq
    (objective_o mu Leaf (gssco_problem valZ vmu tt sscoZ) sched [1; 0] 2 false 3) (Ok (rawc 44)) /\
  outcome_rel cost_eq
    (objective_o mu Leaf (gssco_problem valZ vmu tt sscoZ) sched [1; 0] 2 false 1) (Ok (rawc 15)) /\
  outcome_rel cost_eq
    (objective_o mu Leaf (gssco_problem valZ vmu tt (ssco_reset sscoZ 1)) (schedule_skip sched 1) [1; 2] 2 false 2)
    (Ok (rawc 29)) /\
  (forall rs, call_predictive (g_cost sscoZ) (1 + 1) (get_or sched [1; 0] (1 + 1)) = Ok rs -> length rs = 1%nat).
Proof.
  split; [vm_compute; split; reflexivity|]. split; [vm_compute; split; reflexivity|].
  split; [vm_compute; split; reflexivity|].
  intros rs H. vm_compute in H. injection H as <-. reflexivity.
Qed.

Example raw_case :
  from_raw 2 3 (flatten sched) = Ok sched /\ from_raw 2 3 [1; 2; 3] = Panic /\
  build_raw 3 [4; 5] = Ok [4; 5; 4; 5; 4; 5].
Proof. repeat split. Qed.

(** One dimension: two slots and a third one beyond the schedule, filled with the default;
    total cost 2 + 1 + 8 of hitting and 2 * 3 of switching. *)
Definition ssco1 : gssco Z unit unit := mkGSSCO 1 3 [3] [2%Q] conv1.
Example relaxed_total :
  length [0] = 1%nat /\ Forall (fun x : list Z => length x = 1%nat) [[3]; [2]] /\
  (forall t x rs, 1 <= t -> x = [0] \/ In x [[3]; [2]] -> call_predictive (g_cost ssco1) t x = Ok rs -> length rs = 1%nat) /\
  outcome_rel cost_eq
    (objective_o mu Leaf (gssco_problem valQ vmu tt (ssco_into_f vmu ssco1)) (schedule_to [[3]; [2]]) (config_to [0]) 1 false 3)
    (Ok (rawc 19)).
Proof.
  split; [reflexivity|]. split; [repeat constructor|]. split.
  - intros t x rs Ht Hx E. unfold ssco1, g_cost, conv1 in E. unfold call_predictive in E. rewrite cf_new_get in E by exact Ht. cbn [obind] in E. unfold single_predictive, certain in E. cbn [fst snd] in E. rewrite (proj2 (Z.ltb_ge t 1)) in E by lia.
    destruct Hx as [->|[<-|[<-|[]]]]; cbn [obind length Nat.eqb negb] in E; rewrite andb_false_r in E; injection E as <-; reflexivity.
  - vm_compute. split; reflexivity.
Qed.

(** The discretisation of a problem in two dimensions with fractional bounds. *)
Definition sscoQ : gssco Q unit unit :=
  mkGSSCO 2 2 [7 # 2; 5 # 2]%Q [2%Q; 3%Q]
    (cf_new 1 (certain (fun t x => Ok (rawc (Qsum x))))).
Example discretised_total :
  (forall t x rs, 1 <= t -> x = [0; 0] \/ In x [[1; 2]; [3; 0]] -> call_predictive (g_cost sscoQ) t (config_to x) = Ok rs -> length rs = 1%nat) /\
  outcome_rel cost_eq
    (objective_o mu Leaf (gssco_problem valZ vmu tt (ssco_into_i sscoQ)) [[1; 2]; [3; 0]] [0; 0] 1 false 2)
    (Ok (rawc 18)).
Proof.
  split.
  - intros t x rs Ht Hx E. unfold sscoQ, g_cost in E. unfold call_predictive in E. rewrite cf_new_get in E by exact Ht. cbn [obind] in E. unfold single_predictive, certain in E. cbn [fst snd] in E. rewrite (proj2 (Z.ltb_ge t 1)) in E by lia. cbn [obind length Nat.eqb negb] in E. rewrite andb_false_r in E. injection E as <-. reflexivity.
  - vm_compute. split; reflexivity.
Qed.
