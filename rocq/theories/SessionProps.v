(** Properties of sessions with a data centre whose loads arrive one after the other.  Definitions:
    SessionSpec.v, OneTypeSpec.v. *)
From Verif Require Import CostSpec StreamSpec OfflineSpec SessionModel SessionSpec SessionLcp SessionTop SessionRefused DataCenterModel OneTypeSpec.
From Verif Require Import ProblemModel CostModel.
Local Open Scope Z_scope.

(** C83: updating the instance generated for the loads known so far with further load profiles
    yields an instance with the horizon, the servers and, in every slot, the costs of the instance
    generated for all loads. *)
Theorem updates_describe_the_day :
  forall (powf : Q -> Q -> Q) (m : data_center) (T : Type) (v : value T) (ofZ : Z -> T) minimize choose
         (loads more : list (list Q)) (p q : gssco T dc_success dc_failure),
  selects choose ->
  to_ssco powf m v ofZ minimize loads = Ok p -> to_ssco powf m v ofZ minimize (loads ++ more) = Ok q ->
  Forall (fun lambda => length lambda = 1%nat) more ->
  exists o, updates (dc_update_ssco powf m v minimize choose) (mkOnline p 0) (into_online more) = Ok o /\
    on_w o = 0 /\ g_tend (on_p o) = g_tend q /\ agree (g_tend q) (on_p o) q.
Proof. exact (fun powf m T v ofZ minimize choose loads more p q HC => updates_describe powf m v ofZ minimize choose HC loads more p q). Qed.
Print Assumptions updates_describe_the_day.

(** C83: a session that serves all loads of a day chooses the schedule the algorithm chooses when
    the instance of the whole day is streamed to it; after every request, the cost it reports is
    the cost of its schedule for the loads so far. *)
Theorem session_follows_the_day :
  forall (powf : Q -> Q -> Q) (m : data_center) (T : Type) (v : value T) (ofZ : Z -> T) minimize choose
         (M Y : Type) (sched : split)
         (alg : online (gssco T dc_success dc_failure) -> Z -> list (list T) -> M -> outcome (list T * option M))
         (default : online (gssco T dc_success dc_failure) -> M) (to_int : list T -> Y) (of_int : Y -> list T)
         (loads more : list (list Q)) (p q : gssco T dc_success dc_failure) off answers o xs mem,
  let ops := ssco_ops v dc_hmerge dc_vmerge OutsideDecisionSpace sched in
  selects choose -> causal alg -> causal_memory default ->
  to_ssco powf m v ofZ minimize loads = Ok p -> to_ssco powf m v ofZ minimize (loads ++ more) = Ok q ->
  Forall (fun lambda => length lambda = 1%nat) more ->
  start ops alg default to_int of_int (dc_update_ssco powf m v minimize choose) 0 p (map Input (into_online more))
    = Ok (off, (answers, Some (o, xs, mem))) ->
  exists rs, answers = map Answered rs /\ length rs = length more /\
    xs = of_xs off ++ map r_x rs /\ length xs = length (loads ++ more) /\
    (loads ++ more <> [] -> offline_stream ops alg default (g_tend q) (mkOnline (until q 1) 0) = Some (mkOnline q 0, xs, Ok mem)) /\
    forall k today c, (k <= length more)%nat -> to_ssco powf m v ofZ minimize (loads ++ firstn k more) = Ok today ->
      reported off rs k c -> po_objective ops today (of_xs off ++ map r_x (firstn k rs)) = Ok c.
Proof.
  exact (fun powf m T v ofZ minimize choose M Y sched alg default to_int of_int loads more p q off answers o xs mem HC =>
    session_describes powf m v ofZ minimize choose HC sched alg default to_int of_int loads more p q off answers o xs mem).
Qed.
Print Assumptions session_follows_the_day.

(** C83: lazy capacity provisioning uses no costs of slots that are neither past nor predicted. *)
Theorem lcp_is_causal :
  forall (C D : Type) (vmerge : C -> C -> outcome C) (outside : D),
  causal (lcp_ssco vmerge outside) /\ causal_memory (@lcp_memory C D).
Proof. exact (fun C D vmerge outside => conj (lcp_causal vmerge outside) lcp_memory_causal). Qed.
Print Assumptions lcp_is_causal.

(** C83: a session with a data centre with one type of servers and one kind of load answers all
    requests; after every one of them, the schedule chosen so far costs what is reported, and at most
    three times as much as any other for the loads so far. *)
Theorem live_lcp_competitive :
  forall (powf : Q -> Q -> Q) (m : data_center) price power revenue (l : location) (st : server_type) minimize choose
         (sched : split) (loads more : list (list Q)) (p : gssco Z dc_success dc_failure) (cap : Z),
  one_type powf m price power revenue l st -> trivial_exact minimize -> selects choose ->
  to_ssco powf m valZ (fun z => z) minimize loads = Ok p ->
  dc_e m = 1%nat -> Forall (profile m) (loads ++ more) ->
  lookup (lo_m l) (st_key st) = Ok cap -> positive_capacities m -> positive_switching m ->
  Forall (fun lambda => supported m st (inject_Z cap) lambda) (loads ++ more) ->
  exists off answers final,
    lcp_session powf m minimize choose sched 0 loads (map Input (into_online more)) = Ok (off, (map Answered answers, Some final)) /\
    length answers = length more /\
    forall k today c, (k <= length more)%nat -> to_ssco powf m valZ (fun z => z) minimize (loads ++ firstn k more) = Ok today ->
      reported off answers k c ->
      let xs := of_xs off ++ map r_x (firstn k answers) in
      let objective := ssco_objective dc_hmerge dc_vmerge OutsideDecisionSpace sched today 1 in
      feasible_schedule (Z.of_nat (length loads + k)) [cap] xs /\ objective xs = Ok c /\ is_fin (c_cost c) /\
      forall ys, feasible_schedule (Z.of_nat (length loads + k)) [cap] ys ->
        exists c', objective ys = Ok c' /\ ele (c_cost c) (escale 3 (c_cost c')).
Proof.
  exact (fun powf m price power revenue l st minimize choose sched loads more p cap HO HM HC =>
    lcp_day powf m price power revenue l st HO minimize HM choose HC sched loads more p cap).
Qed.
Print Assumptions live_lcp_competitive.
