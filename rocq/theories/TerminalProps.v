(** Properties of sessions with a data centre in terms of SCO instances (online balanced
    descent, online gradient descent, randomly biased greedy and receding horizon control).
    Definitions: SessionSpec.v, TerminalSpec.v. *)
From Verif Require Import CostSpec StreamSpec SessionModel SessionSpec TerminalModel TerminalSpec TerminalDay TerminalSession DataCenterModel.
From Verif Require Import ProblemModel CostModel.
Local Open Scope Z_scope.

(** C88: updating the SCO instance generated for the loads known so far with further load profiles
    yields an instance with the horizon of the day; a schedule costs in it what it costs on
    this day, except that half of the costs of switching are charged for the servers running when
    the session started, and not for those running now. *)
Theorem sco_updates_charge_early :
  forall (powf : Q -> Q -> Q) (m : data_center) (T : Type) (v : value T) (ofZ : Z -> T) minimize choose
         (loads more : list (list Q)) (p : gsco T dc_success dc_failure) (today : gssco T dc_success dc_failure),
  lawful v -> (forall z, v_toQ v (ofZ z) == inject_Z z)%Q -> selects choose -> length (dc_locations m) = 1%nat ->
  to_sco powf m v ofZ minimize loads = Ok p -> to_ssco powf m v ofZ minimize (loads ++ more) = Ok today ->
  Forall (fun lambda => length lambda = 1%nat) more ->
  exists o, updates (dc_update_sco powf m v minimize choose) (mkOnline p 0) (into_online more) = Ok o /\
    on_w o = 0 /\ o_tend (on_p o) = g_tend today /\
    forall sched xs, Forall (fun x => length x = length (dc_server_types m)) xs ->
      outcome_rel (charged_early v (g_switching today) xs (length loads) (length (loads ++ more)))
        (po_objective (sco_ops v dc_hmerge dc_vmerge OutsideDecisionSpace sched) (on_p o) xs)
        (po_objective (ssco_ops v dc_hmerge dc_vmerge OutsideDecisionSpace sched) today xs).
Proof.
  exact (fun powf m T v ofZ minimize choose loads more p today HL HZ HC H1 =>
    updates_charge powf m v HL ofZ HZ minimize choose HC H1 loads more p today).
Qed.
Print Assumptions sco_updates_charge_early.

(** C88: whatever the algorithm, a session that serves all loads of a day reports after every
    request the cost of its schedule for the loads so far, except for the costs of powering
    down: they are charged for the servers running when the session started. *)
Theorem sco_session_charges_early :
  forall (powf : Q -> Q -> Q) (m : data_center) (T : Type) (v : value T) (ofZ : Z -> T) minimize choose
         (M Y : Type) (sched : split)
         (alg : online (gsco T dc_success dc_failure) -> Z -> list (list T) -> M -> outcome (list T * option M))
         (default : online (gsco T dc_success dc_failure) -> M) (to_int : list T -> Y) (of_int : Y -> list T)
         (loads more : list (list Q)) (p : gsco T dc_success dc_failure) off answers o xs mem,
  lawful v -> (forall z, v_toQ v (ofZ z) == inject_Z z)%Q -> selects choose -> length (dc_locations m) = 1%nat ->
  to_sco powf m v ofZ minimize loads = Ok p -> Forall (fun lambda => length lambda = 1%nat) more ->
  start (sco_ops v dc_hmerge dc_vmerge OutsideDecisionSpace sched) alg default to_int of_int
    (dc_update_sco powf m v minimize choose) 0 p (map Input (into_online more)) = Ok (off, (answers, Some (o, xs, mem))) ->
  exists rs, answers = map Answered rs /\ length rs = length more /\ xs = of_xs off ++ map r_x rs /\ length xs = length (loads ++ more) /\
    forall k today c, (k <= length more)%nat -> to_ssco powf m v ofZ minimize (loads ++ firstn k more) = Ok today ->
      reported off rs k c ->
      let ys := of_xs off ++ map r_x (firstn k rs) in
      exists c', po_objective (ssco_ops v dc_hmerge dc_vmerge OutsideDecisionSpace sched) today ys = Ok c' /\
        charged_early v (g_switching today) ys (length loads) (length loads + k) c c'.
Proof.
  exact (fun powf m T v ofZ minimize choose M Y sched alg default to_int of_int loads more p off answers o xs mem HL HZ HC H1 =>
    session_charges powf m v HL ofZ HZ minimize choose HC H1 sched alg default to_int of_int loads more p off answers o xs mem).
Qed.
Print Assumptions sco_session_charges_early.
