(** Concrete cases for the theorems of CostProps.v. *)
From Verif Require Import NumLemmas CostSpec CostProofs CostProps.
Local Open Scope Z_scope.

Definition raw (q : Q) : cost unit unit := mkCost (Fin q) (MSuccess tt).
(** Registrations at times 1, 3 and again 3; the last one predicts two samples for t > 3. *)
Definition f1 : single_fn (list Z) unit unit := fun t x => Ok [raw (inject_Z (t + fold_left Z.add x 0))].
Definition f2 : single_fn (list Z) unit unit := fun t x => Ok [raw 100].
Definition f3 : single_fn (list Z) unit unit :=
  fun t x => Ok (if t =? 3 then [raw 5] else [raw 6; raw 9]).
Definition history : list (Z * single_fn (list Z) unit unit) := [(3, f2); (1, f1); (3, f3)].
Definition vm (a b : unit) : outcome unit := Ok tt.

Example history_answers_2 : answers history 2 1 f1.
Proof.
  split; [lia|]. exists [(3, f2)], [(3, f3)]. repeat split; simpl.
  - intros s' f' [H|[]]. inversion H; lia.
  - intros s' f' [H|[]]. inversion H; lia.
Qed.
Example history_answers_4 : answers history 4 3 f3.
Proof.
  split; [lia|]. exists [(3, f2); (1, f1)], []. repeat split; simpl.
  - intros s' f' [H|[H|[]]]; inversion H; lia.
  - intros s' f' [].
Qed.
Example history_unanswered : unanswered history 0.
Proof. intros s f H Hr. lia. Qed.

Example history_calls :
  call_certain (of_history history) 2 [4; 5] = Ok (raw 11) /\
  call_certain (of_history history) 3 [4] = Ok (raw 5) /\
  call_certain (of_history history) 4 [4] = Panic /\
  outcome_rel cost_eq (call_mean vm (of_history history) 4 [4]) (Ok (raw (15 # 2))) /\
  call_mean vm (of_history history) 0 [4] = Panic /\
  call_certain (of_history [(1, f1); (2, f2)]) 1 [] = call_certain (of_history [(1, f1)]) 1 [].
Proof. repeat split. Qed.

(** Two samples at the time of registration panic. *)
Example uncertain_now :
  call_predictive (cf_new 4 f3) 4 [1] = Panic /\ call_predictive (cf_new 4 f3) 5 [1] = Ok [raw 6; raw 9].
Proof. split; reflexivity. Qed.

Definition fractional : gssco Q unit unit := mkGSSCO 2 3 [2%Q; (5#2)%Q] [1%Q; 1%Q]
  (cf_new 1 (fun t x => Ok [raw (Qsum x)])).

Example fractional_inside :
  in_box valQ (g_bounds fractional) [(1#2)%Q; (5#2)%Q] /\
  outcome_rel cost_eq (gssco_hit valQ vm tt fractional 2 [(1#2)%Q; (5#2)%Q]) (Ok (raw 3)).
Proof.
  split.
  - repeat constructor; simpl; discriminate.
  - vm_compute. split; reflexivity.
Qed.
Example fractional_outside :
  length [(1#2)%Q; (11#4)%Q] = length (g_bounds fractional) /\
  gssco_hit valQ vm tt fractional 2 [(1#2)%Q; (11#4)%Q] = Ok (mkCost Inf (MFailure tt)) /\
  gssco_hit valQ vm tt fractional 2 [(-1#2)%Q; (1#4)%Q] = Ok (mkCost Inf (MFailure tt)) /\
  gssco_hit valQ vm tt fractional 2 [(1#2)%Q] = Panic.
Proof. repeat split. Qed.

Example values_lawful : lawful valZ /\ lawful valQ.
Proof. split; [exact valZ_lawful|exact valQ_lawful]. Qed.
