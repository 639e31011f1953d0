(** Theorems about streaming online algorithms (C35-C38) and updates of instances (C49). *)
From Verif Require Import StreamModel StreamSpec StreamProofs CostSpec.
From Verif Require Import CostModel ProblemModel.
Local Open Scope Z_scope.

(** C35: a step appends exactly the configuration returned by the algorithm, which is called
    for the next slot with the schedule so far and the memory (or the default memory); a
    failing step leaves the schedule unchanged. *)
Theorem next_appends_one :
  forall (P X C D M : Type) (ops : problem_ops P X C D) alg (default : online P -> M) o xs m xs' r,
  online_next ops alg default o xs m = (xs', r) ->
  match r with
  | Ok (x, m') => xs' = xs ++ [x] /\ po_tend ops (on_p o) = Z.of_nat (length xs) + 1 /\
      alg o (Z.of_nat (length xs) + 1) xs (match m with None => default o | Some m0 => m0 end) = Ok (x, m')
  | _ => xs' = xs
  end.
Proof. exact @next_cases. Qed.
Print Assumptions next_appends_one.

(** C35: a problem that is not exactly one slot ahead of the schedule is rejected. *)
Theorem next_rejects_out_of_step :
  forall (P X C D M : Type) (ops : problem_ops P X C D) alg (default : online P -> M) o xs m,
  po_tend ops (on_p o) <> Z.of_nat (length xs) + 1 ->
  online_next ops alg default o xs m = (xs, Err OnlineInconsistentCurrentTimeSlot).
Proof. exact @next_out_of_step. Qed.
Print Assumptions next_rejects_out_of_step.

(** C35: streaming only ever extends the schedule, whatever the update function. *)
Theorem stream_extends_schedule :
  forall (P X C D M : Type) (ops : problem_ops P X C D) alg (default : online P -> M) update fuel o xs m o' xs' r,
  stream_from ops alg default fuel update o xs m = Some (o', xs', r) ->
  exists ys, xs' = xs ++ ys /\ match r with Ok _ => ys <> [] | _ => True end.
Proof. exact @stream_prefix. Qed.
Print Assumptions stream_extends_schedule.

(** C35: streaming against a known horizon always ends ... *)
Theorem offline_stream_terminates :
  forall (P X C D M : Type) (ops : problem_ops P X C D) alg (default : online P -> M),
  lawful_ops ops -> forall t_end o xs m, exists res, offline_stream_from ops alg default t_end o xs m = Some res.
Proof. exact @offline_terminates. Qed.
Print Assumptions offline_stream_terminates.

(** ... and, if it succeeds, with one configuration chosen by the algorithm for every slot up
    to [t_end - w] (but at least one slot), the problem being in step with the schedule. *)
Theorem offline_stream_complete :
  forall (P X C D M : Type) (ops : problem_ops P X C D) alg (default : online P -> M),
  lawful_ops ops -> forall t_end o xs m o' xs' m',
  offline_stream_from ops alg default t_end o xs m = Some (o', xs', Ok m') ->
  po_tend ops (on_p o) = Z.of_nat (length xs) + 1 /\
  Z.of_nat (length xs') = Z.max (t_end - on_w o) (po_tend ops (on_p o)) /\
  o' = at_slot ops o (Z.of_nat (length xs')) /\
  exists ys, xs' = xs ++ ys /\ chooses ops alg default o xs m ys m'.
Proof. intros P X C D M ops alg default HL t_end o xs m o' xs' m'. exact (offline_ok ops alg default HL _ t_end o xs m o' xs' m' eq_refl). Qed.
Print Assumptions offline_stream_complete.

(** It succeeds if the algorithm succeeds in every slot and the problem verifies. *)
Theorem offline_stream_succeeds :
  forall (P X C D M : Type) (ops : problem_ops P X C D) alg (default : online P -> M),
  lawful_ops ops -> forall t_end o xs m,
  po_tend ops (on_p o) = Z.of_nat (length xs) + 1 ->
  (forall t xs1 m1, po_tend ops (on_p o) <= t <= Z.max (t_end - on_w o) (po_tend ops (on_p o)) ->
     Z.of_nat (length xs1) + 1 = t -> exists r, alg (at_slot ops o t) t xs1 m1 = Ok r) ->
  (forall t, po_tend ops (on_p o) < t <= t_end - on_w o -> verify_o ops (at_slot ops o t) = Ok tt) ->
  exists o' xs' m', offline_stream_from ops alg default t_end o xs m = Some (o', xs', Ok m').
Proof. intros P X C D M ops alg default HL t_end o xs m. exact (offline_succeeds ops alg default HL _ t_end o xs m eq_refl). Qed.
Print Assumptions offline_stream_succeeds.

(** C36: streaming to [t1], then on to [t2], is streaming to [t2]. *)
Theorem stream_resume :
  forall (P X C D M : Type) (ops : problem_ops P X C D) alg (default : online P -> M),
  lawful_ops ops -> forall t1 t2 o xs m o1 xs1 m1,
  po_tend ops (on_p o) <= t1 - on_w o -> t1 < t2 ->
  offline_stream_from ops alg default t1 o xs m = Some (o1, xs1, Ok m1) ->
  offline_stream_from ops alg default t2 o xs m =
    match verify_o ops (inc ops o1) with
    | Ok _ => offline_stream_from ops alg default t2 (inc ops o1) xs1 m1
    | Err f => Some (inc ops o1, xs1, Err f)
    | Panic => Some (inc ops o1, xs1, Panic)
    end.
Proof. intros P X C D M ops alg default HL t1 t2 o xs m o1 xs1 m1. exact (offline_resume ops alg default HL _ t1 t2 o xs m o1 xs1 m1 eq_refl). Qed.
Print Assumptions stream_resume.

(** C37: while the server runs, every request is answered and the schedule is extended by
    exactly the answered configurations. *)
Theorem server_answers_every_request :
  forall (P X C D M : Type) (ops : problem_ops P X C D) alg (default : online P -> M) (Y B : Type)
         (to_int : X -> Y) (of_int : Y -> X) (model_update : online P -> B -> outcome (online P)) reqs o xs m answers o' xs' m',
  run ops alg default to_int of_int model_update (o, xs, m) reqs = (answers, Some (o', xs', m')) ->
  answers = map Answered (answered answers) /\ length answers = length reqs /\
  xs' = xs ++ map r_x (answered answers).
Proof. exact @run_running. Qed.
Print Assumptions server_answers_every_request.

(** C37: the k-th answer reports the cost of the schedule of all answered configurations so
    far (and of its integral version) in the problem of that slot. *)
Theorem server_answer_reports_cost :
  forall (P X C D M : Type) (ops : problem_ops P X C D) alg (default : online P -> M) (Y B : Type)
         (to_int : X -> Y) (of_int : Y -> X) (model_update : online P -> B -> outcome (online P)) reqs o xs m answers final,
  run ops alg default to_int of_int model_update (o, xs, m) reqs = (answers, final) ->
  forall k r, nth_error answers k = Some (Answered r) ->
  exists ok, let xsk := xs ++ map r_x (firstn (S k) (answered answers)) in
    Z.of_nat (length xsk) = Z.of_nat (length xs) + Z.of_nat k + 1 /\
    nth_error (answered answers) k = Some r /\
    po_tend ops (on_p ok) = Z.of_nat (length xsk) /\
    po_objective ops (on_p ok) xsk = Ok (r_cost r) /\
    r_int_x r = to_int (r_x r) /\
    po_objective ops (on_p ok) (map of_int (map to_int xsk)) = Ok (r_int_cost r).
Proof. exact @run_answers. Qed.
Print Assumptions server_answer_reports_cost.

(** C37: one request: the model's update, then the algorithm for the next slot. *)
Theorem server_step :
  forall (P X C D M : Type) (ops : problem_ops P X C D) alg (default : online P -> M) (Y B : Type)
         (to_int : X -> Y) (of_int : Y -> X) (model_update : online P -> B -> outcome (online P)) o xs m b r o' xs' m',
  serve ops alg default to_int of_int model_update (o, xs, m) b = Ok (r, (o', xs', m')) ->
  model_update o b = Ok o' /\ po_tend ops (on_p o') = Z.of_nat (length xs) + 1 /\
  alg o' (Z.of_nat (length xs) + 1) xs (match m with None => default o' | Some m0 => m0 end) = Ok (r_x r, m') /\
  xs' = xs ++ [r_x r] /\ r_m r = m' /\
  po_objective ops (on_p o') xs' = Ok (r_cost r) /\
  r_int_x r = to_int (r_x r) /\
  po_objective ops (on_p o') (map of_int (map to_int xs')) = Ok (r_int_cost r).
Proof. exact @serve_ok. Qed.
Print Assumptions server_step.

(** C37: serving requests one after the other. *)
Theorem server_sequential :
  forall (P X C D M : Type) (ops : problem_ops P X C D) alg (default : online P -> M) (Y B : Type)
         (to_int : X -> Y) (of_int : Y -> X) (model_update : online P -> B -> outcome (online P)) reqs1 reqs2 st,
  run ops alg default to_int of_int model_update st (reqs1 ++ reqs2) =
    match run ops alg default to_int of_int model_update st reqs1 with
    | (answers, Some st') =>
        let (answers', final) := run ops alg default to_int of_int model_update st' reqs2 in (answers ++ answers', final)
    | (answers, None) => (answers, None)
    end.
Proof. exact @run_app. Qed.
Print Assumptions server_sequential.

(** C37: the server stops at the first request that cannot be decoded (no answer) or whose
    processing fails (answered by a failure); all earlier requests are answered, no later one. *)
Theorem server_stops :
  forall (P X C D M : Type) (ops : problem_ops P X C D) alg (default : online P -> M) (Y B : Type)
         (to_int : X -> Y) (of_int : Y -> X) (model_update : online P -> B -> outcome (online P)) reqs st answers,
  run ops alg default to_int of_int model_update st reqs = (answers, None) ->
  exists reqs1 st' rest,
    run ops alg default to_int of_int model_update st reqs1 = (map Answered (answered answers), Some st') /\
    ((reqs = reqs1 ++ Undecodable :: rest /\ answers = map Answered (answered answers)) \/
     exists b, reqs = reqs1 ++ Input b :: rest /\ answers = map Answered (answered answers) ++ [Failed] /\
       forall res, serve ops alg default to_int of_int model_update st' b <> Ok res).
Proof. exact @run_stopped. Qed.
Print Assumptions server_stops.

(** C38: the schedule prepared offline for an input of [T] slots: for [T - w >= 1] it covers
    max(1, T - 2w) slots (the window is subtracted twice), otherwise none; reported costs are
    those of the schedule and of its integral version. *)
Theorem prepare_schedule_partial :
  forall (P X C D M : Type) (ops : problem_ops P X C D) alg (default : online P -> M),
  lawful_ops ops -> forall (Y : Type) (to_int : X -> Y) (of_int : Y -> X) w p o r,
  prepare ops alg default to_int of_int w p = Ok (o, r) ->
  0 <= w /\ on_w o = w /\ of_int_xs r = map to_int (of_xs r) /\
  po_objective ops (on_p o) (of_xs r) = Ok (of_cost r) /\
  po_objective ops (on_p o) (map of_int (of_int_xs r)) = Ok (of_int_cost r) /\
  (if 1 <=? po_tend ops p - w
   then Z.of_nat (length (of_xs r)) = Z.max 1 (po_tend ops p - 2 * w) /\
        o = mkOnline (po_set ops p (Z.of_nat (length (of_xs r)))) w /\
        chooses ops alg default (mkOnline p w) [] None (of_xs r) (of_m r)
   else of_xs r = [] /\ of_m r = None /\ o = mkOnline (if 1 <? po_tend ops p then po_set ops p 1 else p) w).
Proof. exact @prepare_ok. Qed.
Print Assumptions prepare_schedule_partial.

(** C38: the problem is in step with the prepared schedule iff the input has more slots than
    the window, or none. *)
Theorem prepared_in_step_partial :
  forall (P X C D M : Type) (ops : problem_ops P X C D) alg (default : online P -> M),
  lawful_ops ops -> forall (Y : Type) (to_int : X -> Y) (of_int : Y -> X) w p o r,
  prepare ops alg default to_int of_int w p = Ok (o, r) ->
  (po_tend ops (on_p o) = Z.of_nat (length (of_xs r)) <-> w < po_tend ops p \/ po_tend ops p <= 0) \/
  po_tend ops p < 0.
Proof. exact @prepare_in_step. Qed.
Print Assumptions prepared_in_step_partial.

(** C49: successive updates of an SSCO instance each move on by one slot, carry information
    for the current slot and the whole window, and only register costs for the new slots. *)
Theorem updates_append_slots :
  forall (T C D : Type) (predicted : list (list (list Q)) -> Z -> single_fn (list T) C D) bs o o' hist,
  g_cost (on_p o) = of_history hist ->
  updates (update_ssco predicted) o bs = Ok o' ->
  Forall (fun b => on_w o < Z.of_nat (length b)) bs /\
  on_w o' = on_w o /\
  on_p o' = mkGSSCO (g_d (on_p o)) (g_tend (on_p o) + Z.of_nat (length bs)) (g_bounds (on_p o)) (g_switching (on_p o))
              (of_history (hist ++ registrations predicted (g_tend (on_p o) + 1) bs)).
Proof. exact @updates_ssco_spec. Qed.
Print Assumptions updates_append_slots.

(** C49: ... so the costs of all earlier slots stay the same, ... *)
Theorem updates_keep_earlier_costs :
  forall (T C D : Type) (v : value T) vmerge (outside : D) predicted bs (o o' : online (gssco T C D)) hist,
  g_cost (on_p o) = of_history hist ->
  updates (update_ssco predicted) o bs = Ok o' ->
  forall t x, t <= g_tend (on_p o) ->
  gssco_hit v vmerge outside (on_p o') t x = gssco_hit v vmerge outside (on_p o) t x.
Proof. exact @updates_keep_costs. Qed.
Print Assumptions updates_keep_earlier_costs.

(** ... and so does the objective of every schedule up to an earlier horizon. *)
Theorem updates_keep_earlier_objective :
  forall (T C D : Type) (v : value T) vmerge (outside : D) predicted bs (o o' : online (gssco T C D)) hist merge s,
  g_cost (on_p o) = of_history hist ->
  updates (update_ssco predicted) o bs = Ok o' ->
  forall xs t, t <= g_tend (on_p o) ->
  let ops := ssco_ops v merge vmerge outside s in
  po_objective ops (po_set ops (on_p o') t) xs = po_objective ops (po_set ops (on_p o) t) xs.
Proof. exact @updates_keep_objective. Qed.
Print Assumptions updates_keep_earlier_objective.

(** C49: an update without information for the whole prediction window panics. *)
Theorem update_requires_window :
  forall (T C D : Type) predicted (o : online (gssco T C D)) b,
  Z.of_nat (length b) <= on_w o -> update_ssco predicted o b = Panic.
Proof. exact @update_ssco_window. Qed.
Print Assumptions update_requires_window.

(** C49: the same for SCO, SLO and SBLO instances. *)
Theorem update_sco_appends :
  forall (T C D : Type) (v : value T) vmerge (outside : D) predicted (o o' : online (gsco T C D)) b hist,
  o_cost (on_p o) = of_history hist ->
  update_sco predicted o b = Ok o' ->
  on_w o < Z.of_nat (length b) /\ on_w o' = on_w o /\ o_tend (on_p o') = o_tend (on_p o) + 1 /\
  forall t x, t <= o_tend (on_p o) -> gsco_hit v vmerge outside (on_p o') t x = gsco_hit v vmerge outside (on_p o) t x.
Proof. exact @update_sco_spec. Qed.
Print Assumptions update_sco_appends.

Theorem update_slo_appends :
  forall (T : Type) (cast : Q -> T) (o o' : online (gslo T)) b,
  update_slo cast o b = Ok o' ->
  exists l, b = [[[l]]] /\ l_tend (on_p o) = Z.of_nat (length (l_load (on_p o))) /\ on_w o < 1 /\
    on_w o' = on_w o /\
    on_p o' = mkGSLO (l_d (on_p o)) (l_tend (on_p o) + 1) (l_bounds (on_p o)) (l_switching (on_p o)) (l_hitting (on_p o))
                (l_load (on_p o) ++ [cast l]).
Proof. exact @update_slo_spec. Qed.
Print Assumptions update_slo_appends.

Theorem update_slo_keeps_earlier_costs :
  forall (T : Type) (v : value T) (cast : Q -> T) (o o' : online (gslo T)) b,
  update_slo cast o b = Ok o' ->
  forall t x, t <= l_tend (on_p o) -> slo_hit v (on_p o') t x = slo_hit v (on_p o) t x.
Proof. exact @update_slo_keeps. Qed.
Print Assumptions update_slo_keeps_earlier_costs.

Theorem update_sblo_keeps_earlier_costs :
  forall (T : Type) (v : value T) minimize (cast : Q -> T) (o o' : online (gsblo T)) b,
  update_sblo cast o b = Ok o' ->
  forall t x, t <= b_tend (on_p o) -> sblo_hit v minimize (on_p o') t x = sblo_hit v minimize (on_p o) t x.
Proof. exact @update_sblo_keeps. Qed.
Print Assumptions update_sblo_keeps_earlier_costs.

(** The SSCO and SCO instances satisfy the laws assumed above, and updating an SSCO instance
    advances it by one slot. *)
Theorem ssco_operations_lawful :
  forall (T C D : Type) (v : value T) merge vmerge (outside : D) s, lawful_ops (@ssco_ops T C D v merge vmerge outside s).
Proof. exact @ssco_ops_lawful. Qed.
Print Assumptions ssco_operations_lawful.

Theorem sco_operations_lawful :
  forall (T C D : Type) (v : value T) merge vmerge (outside : D) s, lawful_ops (@sco_ops T C D v merge vmerge outside s).
Proof. exact @sco_ops_lawful. Qed.
Print Assumptions sco_operations_lawful.

Theorem update_advances :
  forall (T C D : Type) (v : value T) vmerge (outside : D) predicted merge s,
  advances (@ssco_ops T C D v merge vmerge outside s) (update_ssco predicted).
Proof. exact @update_ssco_advances. Qed.
Print Assumptions update_advances.
