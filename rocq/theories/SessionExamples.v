(** Concrete cases for SessionProps.v and behaviours deviating from the expected ones. *)
From Coq Require Import Lia Lqa String Permutation.
From Verif Require Import NumLemmas CostSpec StreamSpec OfflineSpec CapacityModel SessionModel SessionSpec SessionTop SessionRefused SessionProps DataCenterModel
  OneTypeSpec OneTypeExamples.
From Verif Require Import ProblemModel CostModel.
Local Open Scope Z_scope.

(** The first of the samples are chosen. *)
Definition take_first (_ : nat) (zs : list Q) (n : nat) : list Q := firstn n zs.
Lemma take_first_selects : selects take_first.
Proof.
  intros i zs n Hn. split; [apply firstn_length_le; exact Hn|]. exists (skipn n zs). unfold take_first. rewrite firstn_skipn. reflexivity.
Qed.

(** Two loads arrive during the session. *)
Example ex_live_lcp : exists off answers final,
  lcp_session no_powf (hall [batch] 1) evaluate take_first Leaf 0 [[6%Q]] (map Input (into_online [[0%Q]; [2%Q]]))
    = Ok (off, (map Answered answers, Some final)) /\ List.length answers = 2%nat /\
  forall c, reported off answers 2 c ->
    let objective := ssco_objective dc_hmerge dc_vmerge OutsideDecisionSpace Leaf (the_problem valZ (fun z => z) (hall [batch] 1) day) 1 in
    is_fin (c_cost c) /\ forall ys, feasible_schedule 3 [3] ys -> exists c', objective ys = Ok c' /\ ele (c_cost c) (escale 3 (c_cost c')).
Proof.
  destruct (live_lcp_competitive no_powf (hall [batch] 1) hall_price hall_power (fun _ => (1, 1 # 2)%Q) site node evaluate take_first Leaf [[6%Q]] [[0%Q]; [2%Q]]
    (the_problem valZ (fun z => z) (hall [batch] 1) [[6%Q]]) 3) as (off & answers & final & H1 & H2 & H3); try reflexivity.
  - apply batch_hall. discriminate.
  - exact evaluate_trivial.
  - exact take_first_selects.
  - exact (day_profiles 1).
  - apply hall_capacities.
  - apply hall_switching.
  - constructor; [right; repeat split; vm_compute; congruence|]. constructor; [left; reflexivity|].
    constructor; [right; repeat split; vm_compute; congruence|]. constructor.
  - exists off, answers, final. split; [exact H1|]. split; [exact H2|]. intros c Hc objective.
    destruct (H3 2%nat (the_problem valZ (fun z => z) (hall [batch] 1) day) c (le_n _) eq_refl Hc) as (_ & _ & F & G). split; [exact F|exact G].
Qed.

(** The session starts with two servers, powers them down for a slot, and then needs one. *)
Example ex_live_lcp_value :
  match lcp_session no_powf (hall [batch] 1) evaluate take_first Leaf 0 [[6%Q]] (map Input (into_online [[0%Q]; [2%Q]])) with
  | Ok (off, (answers, Some (o, xs, mem))) => of_xs off = [[2]] /\ xs = [[2]; [0]; [1]] /\ List.length answers = 2%nat
  | _ => False
  end.
Proof. vm_compute. repeat split. Qed.

Example ex_updates : exists o,
  updates (dc_update_ssco no_powf (hall [batch] 1) valZ evaluate take_first) (mkOnline (the_problem valZ (fun z => z) (hall [batch] 1) [[6%Q]]) 0)
    (into_online [[0%Q]; [2%Q]]) = Ok o /\ g_tend (on_p o) = 3 /\ agree 3 (on_p o) (the_problem valZ (fun z => z) (hall [batch] 1) day).
Proof.
  destruct (updates_describe_the_day no_powf (hall [batch] 1) Z valZ (fun z => z) evaluate take_first [[6%Q]] [[0%Q]; [2%Q]]
    (the_problem valZ (fun z => z) (hall [batch] 1) [[6%Q]]) (the_problem valZ (fun z => z) (hall [batch] 1) day) take_first_selects eq_refl eq_refl) as (o & H1 & _ & H2 & H3).
  - repeat constructor.
  - exists o. auto.
Qed.

(** Refuted: a session with a prediction window serves the load profiles of a day.  Profiles
    without predictions are refused. *)
Theorem session_with_window_refuted :
  forall (powf : Q -> Q -> Q) (m : data_center) (T : Type) (v : value T) minimize choose (M Y : Type) (sched : split)
         (alg : online (gssco T dc_success dc_failure) -> Z -> list (list T) -> M -> outcome (list T * option M)) default
         (to_int : list T -> Y) of_int (w : Z) p lambda more off answers final,
  1 <= w ->
  start (ssco_ops v dc_hmerge dc_vmerge OutsideDecisionSpace sched) alg default to_int of_int (dc_update_ssco powf m v minimize choose) w p
    (map Input (into_online (lambda :: more))) = Ok (off, (answers, final)) ->
  answers = [Failed] /\ final = None.
Proof. exact (fun powf m T v minimize choose M Y sched alg default to_int of_int => window_refused powf m v minimize choose sched alg default to_int of_int). Qed.
Print Assumptions session_with_window_refuted.

(** Refuted: a session with a data centre with several sources or job types serves the load
    profiles of a day.  The first request fails. *)
Theorem session_with_several_loads_refuted :
  forall (powf : Q -> Q -> Q) (m : data_center) minimize choose (sched : split) loads lambda more off answers final,
  selects choose -> (2 <= List.length lambda)%nat -> List.length lambda = dc_e m ->
  lcp_session powf m minimize choose sched 0 loads (map Input (into_online (lambda :: more))) = Ok (off, (answers, final)) ->
  answers = [Failed] /\ final = None.
Proof. exact (fun powf m minimize choose sched loads lambda more off answers final HC => several_refused powf m minimize choose HC sched loads lambda more off answers final). Qed.
Print Assumptions session_with_several_loads_refuted.

(** Such sessions start. *)
Example ex_session_starts :
  (exists off final, lcp_session no_powf (hall [batch] 1) evaluate take_first Leaf 1 [[6%Q]; [6%Q]] (map Input (into_online [[2%Q]])) = Ok (off, ([Failed], final))) /\
  (exists off final, lcp_session no_powf (hall [batch; query] 1) evaluate take_first Leaf 0 [[1%Q; 1%Q]] (map Input (into_online [[1%Q; 1%Q]])) = Ok (off, ([Failed], final))).
Proof. split; eexists; eexists; vm_compute; reflexivity. Qed.
