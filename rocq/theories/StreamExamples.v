(** Concrete cases for StreamProps.v and behaviours deviating from the expected ones. *)
From Coq Require Import Lia.
From Verif Require Import NumLemmas StreamModel StreamSpec StreamProofs StreamProps CostSpec.
From Verif Require Import CostModel ProblemModel.
Local Open Scope Z_scope.

(** One dimension, hitting cost |x - t|. *)
Definition st_cost : cost_fn (list Z) unit unit :=
  cf_new 1 (certain (fun t x => Ok (mkCost (Fin (inject_Z (Z.abs (hd 0 x - t)))) (MSuccess tt)))).
Definition st_p (t_end : Z) : gssco Z unit unit := mkGSSCO 1 t_end [10] [1%Q] st_cost.
Definition st_ops : problem_ops (gssco Z unit unit) (list Z) unit unit :=
  ssco_ops valZ (fun _ _ => tt) (fun _ _ => Ok tt) tt Leaf.
(** Counts its calls and never uses more than 5 servers. *)
Definition st_alg (o : online (gssco Z unit unit)) (t : Z) (xs : list (list Z)) (m : Z) : outcome (list Z * option Z) :=
  if m <? 7 then Ok ([Z.min m 5], Some (m + 1)) else Panic.
Definition st_default (o : online (gssco Z unit unit)) : Z := 1.
Definition st_predicted (b : list (list (list Q))) (t0 : Z) : single_fn (list Z) unit unit :=
  certain (fun t x => Ok (mkCost (Fin (inject_Z (hd 0 x))) (MSuccess tt))).
Notation st_prepare := (prepare st_ops st_alg st_default (fun x => x) (fun x => x)).
Notation st_run := (run st_ops st_alg st_default (fun x : list Z => x) (fun x => x) (update_ssco st_predicted)).
Notation st_stream := (offline_stream st_ops st_alg st_default).

Example st_streams :
  st_stream 3 (mkOnline (st_p 1) 0) = Some (mkOnline (st_p 3) 0, [[1]; [2]; [3]], Ok (Some 4)).
Proof. vm_compute. reflexivity. Qed.

Example st_resumes :
  offline_stream_from st_ops st_alg st_default 5 (inc st_ops (mkOnline (st_p 3) 0)) [[1]; [2]; [3]] (Some 4)
  = st_stream 5 (mkOnline (st_p 1) 0).
Proof.
  pose proof (stream_resume _ _ _ _ _ st_ops st_alg st_default (ssco_operations_lawful _ _ _ _ _ _ _ _)
    3 5 (mkOnline (st_p 1) 0) [] None (mkOnline (st_p 3) 0) [[1]; [2]; [3]] (Some 4) ltac:(cbn; lia) ltac:(lia) st_streams) as H.
  unfold offline_stream. rewrite H. reflexivity.
Qed.

(** A failing algorithm: the schedule keeps the configurations of the completed slots. *)
Example st_failure :
  st_stream 9 (mkOnline (st_p 1) 0) = Some (mkOnline (st_p 7) 0, [[1]; [2]; [3]; [4]; [5]; [5]], Panic).
Proof. vm_compute. reflexivity. Qed.

Example st_out_of_step :
  online_next st_ops st_alg st_default (mkOnline (st_p 3) 0) [[1]] None = ([[1]], Err OnlineInconsistentCurrentTimeSlot).
Proof. apply next_rejects_out_of_step. cbn. lia. Qed.

Example st_server :
  match st_prepare 0 (st_p 2) with
  | Ok (o, r) =>
      of_xs r = [[1]; [2]] /\ po_tend st_ops (on_p o) = 2 /\
      match st_run (o, of_xs r, of_m r) [Input [[[1%Q]]]; Input [[[1%Q]]]; Undecodable; Input [[[1%Q]]]] with
      | (answers, final) => map (fun r => r_x r) (answered answers) = [[3]; [4]] /\ length answers = 2%nat /\ final = None
      end
  | _ => False
  end.
Proof. vm_compute. repeat split. Qed.

(** A request without information is answered by a failure and stops the server. *)
Example st_server_failure :
  match st_prepare 0 (st_p 2) with
  | Ok (o, r) => snd (st_run (o, of_xs r, of_m r) [Input [[[1%Q]]]; Input []; Input [[[1%Q]]]]) = None /\
      length (fst (st_run (o, of_xs r, of_m r) [Input [[[1%Q]]]; Input []; Input [[[1%Q]]]])) = 2%nat
  | _ => False
  end.
Proof. vm_compute. split; reflexivity. Qed.

Example st_updates : exists o', updates (update_ssco st_predicted) (mkOnline (st_p 2) 0) [[[[1%Q]]]; [[[2%Q]]; [[3%Q]]]] = Ok o' /\
  g_tend (on_p o') = 4 /\ st_cost = of_history [(1, certain (fun t x => Ok (mkCost (Fin (inject_Z (Z.abs (hd 0 x - t)))) (MSuccess tt))))].
Proof. eexists. split; [reflexivity|]. split; reflexivity. Qed.

(** C38: with a prediction window the prepared schedule does not cover all but the last [w]
    slots, ... *)
Theorem prepare_covers_refuted :
  forall (P X C D M : Type) (ops : problem_ops P X C D) alg (default : online P -> M),
  lawful_ops ops -> forall (Y : Type) (to_int : X -> Y) (of_int : Y -> X) w p o r,
  prepare ops alg default to_int of_int w p = Ok (o, r) -> 1 <= w -> 2 <= po_tend ops p - w ->
  Z.of_nat (length (of_xs r)) < po_tend ops p - w.
Proof.
  intros P X C D M ops alg default HL Y to_int of_int w p o r H Hw HT.
  pose proof (prepare_schedule_partial P X C D M ops alg default HL Y to_int of_int w p o r H) as (_ & _ & _ & _ & _ & HS).
  destruct (1 <=? po_tend ops p - w) eqn:E; [|apply Z.leb_gt in E; lia]. destruct HS as (HS & _). lia.
Qed.

Example prepare_window :
  match st_prepare 1 (st_p 4) with Ok (o, r) => of_xs r = [[1]; [2]] | _ => False end.
Proof. vm_compute. reflexivity. Qed.

(** ... and if the input does not exceed the window, the first request always fails. *)
Theorem first_request_refuted :
  forall (P X C D M : Type) (ops : problem_ops P X C D) alg (default : online P -> M),
  lawful_ops ops -> forall (Y B : Type) (to_int : X -> Y) (of_int : Y -> X) model_update w p o r (b : B) reqs,
  prepare ops alg default to_int of_int w p = Ok (o, r) ->
  advances ops model_update -> 1 <= po_tend ops p <= w ->
  run ops alg default to_int of_int model_update (o, of_xs r, of_m r) (Input b :: reqs) = ([Failed], None).
Proof. exact @first_request_fails. Qed.

Example first_request_applies :
  match st_prepare 1 (st_p 1) with
  | Ok (o, r) => st_run (o, of_xs r, of_m r) [Input [[[1%Q]]; [[1%Q]]]] = ([Failed], None)
  | _ => False
  end.
Proof. vm_compute. reflexivity. Qed.
