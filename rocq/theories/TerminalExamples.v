(** Concrete cases for TerminalProps.v and behaviours deviating from the expected ones. *)
From Coq Require Import Lia Lqa String Permutation.
From Verif Require Import NumLemmas CostSpec CostProofs StreamSpec OptimizeBrute DescentModel DescentExamples SessionModel SessionSpec SessionExamples
  TerminalModel TerminalSpec TerminalProps DataCenterModel OneTypeSpec OneTypeExamples.
From Verif Require Import ProblemModel CostModel.
Local Open Scope Z_scope.

(** The hall of OneTypeExamples.v with cheap energy. *)
Definition thrifty : data_center :=
  mkDataCenter 1 [site] [node] [people] [batch]
    (CLinear [("node"%string, (1, 3)%Q)]) (ELinear [("site"%string, fun _ => (1 # 10)%Q)])
    [("batch"%string, (1, 1 # 2)%Q)] [("node"%string, warmup)].

(** Regularised online balanced descent with an exact optimiser. *)
Definition regularized : online (gsco Q dc_success dc_failure) -> Z -> list (list Q) -> unit -> outcome (list Q * option unit) :=
  robd dc_vmerge OutsideDecisionSpace careful root 1 1 1.
Definition live_robd (loads more : list (list Q)) :=
  do p <- to_sco no_powf thrifty valQ inject_Z evaluate loads;
  start (sco_ops valQ dc_hmerge dc_vmerge OutsideDecisionSpace Leaf) regularized (fun _ => tt) (fun x => x) (fun x => x)
    (dc_update_sco no_powf thrifty valQ evaluate take_first) 0 p (map Input (into_online more)).

Lemma live_started loads more p : to_sco no_powf thrifty valQ inject_Z evaluate loads = Ok p ->
  live_robd loads more = start (sco_ops valQ dc_hmerge dc_vmerge OutsideDecisionSpace Leaf) regularized (fun _ => tt) (fun x => x) (fun x => x)
    (dc_update_sco no_powf thrifty valQ evaluate take_first) 0 p (map Input (into_online more)).
Proof. intros H. unfold live_robd. rewrite H. reflexivity. Qed.

Lemma valQ_of_int z : (v_toQ valQ (inject_Z z) == inject_Z z)%Q.
Proof. reflexivity. Qed.

(** Two loads are known when the session starts, one arrives later.  The servers are powered
    down in the second slot, as if the day were over. *)
Example ex_live_robd : exists off r o xs mem,
  live_robd [[6%Q]; [0%Q]] [[2%Q]] = Ok (off, ([Answered r], Some (o, xs, mem))) /\
  of_xs off = [[300 # 100]; [0 # 100]]%Q /\ r_x r = [104 # 100]%Q /\ is_fin (c_cost (r_cost r)).
Proof.
  assert (H : match live_robd [[6%Q]; [0%Q]] [[2%Q]] with
    | Ok (off, ([Answered r], Some (o, xs, mem))) => of_xs off = [[300 # 100]; [0 # 100]]%Q /\ r_x r = [104 # 100]%Q /\ is_fin (c_cost (r_cost r))
    | _ => False end) by (vm_compute; repeat split).
  destruct (live_robd [[6%Q]; [0%Q]] [[2%Q]]) as [[off [[|[r|] [|? ?]] [[[o xs] mem]|]]]| |]; try contradiction.
  exists off, r, o, xs, mem. split; [reflexivity|exact H].
Qed.

Example ex_charged_early : exists off r o xs mem c',
  live_robd [[6%Q]; [0%Q]] [[2%Q]] = Ok (off, ([Answered r], Some (o, xs, mem))) /\
  po_objective (ssco_ops valQ dc_hmerge dc_vmerge OutsideDecisionSpace Leaf) (the_problem valQ inject_Z thrifty [[6%Q]; [0%Q]; [2%Q]]) (of_xs off ++ [r_x r]) = Ok c' /\
  charged_early valQ [5 # 2]%Q (of_xs off ++ [r_x r]) 2 3 (r_cost r) c'.
Proof.
  destruct ex_live_robd as (off & r & o & xs & mem & H & _).
  assert (exists p, to_sco no_powf thrifty valQ inject_Z evaluate [[6%Q]; [0%Q]] = Ok p) as [p Ep] by (eexists; reflexivity).
  pose proof (eq_trans (eq_sym (live_started [[6%Q]; [0%Q]] [[2%Q]] p Ep)) H) as H'.
  destruct (sco_session_charges_early no_powf thrifty Q valQ inject_Z evaluate take_first unit (list Q) Leaf regularized (fun _ => tt) (fun x => x) (fun x => x)
    [[6%Q]; [0%Q]] [[2%Q]] p off [Answered r] o xs mem valQ_lawful valQ_of_int take_first_selects eq_refl Ep) as (rs & E1 & _ & _ & _ & G).
  { repeat constructor. }
  { exact H'. }
  destruct rs as [|r' [|? ?]]; try discriminate E1. injection E1 as <-.
  assert (Eq : to_ssco no_powf thrifty valQ inject_Z evaluate [[6%Q]; [0%Q]; [2%Q]] = Ok (the_problem valQ inject_Z thrifty [[6%Q]; [0%Q]; [2%Q]])) by reflexivity.
  revert Eq. generalize (the_problem valQ inject_Z thrifty [[6%Q]; [0%Q]; [2%Q]]). intros q Eq.
  destruct (G 1%nat q (r_cost r) (le_n 1) Eq) as (c' & G1 & G2).
  { exists r. split; reflexivity. }
  cbn [firstn map] in G1, G2.
  exists off, r, o, xs, mem, c'. split; [exact H|]. split; [exact G1|].
  assert (E : g_switching q = [switching_cost_of warmup]) by (apply (f_equal (fun x => match x with Ok p => g_switching p | _ => [] end)) in Eq; symmetry; exact Eq).
  rewrite E in G2. destruct G2 as [G2 G3]. split; [exact G2|]. cbn [List.length Nat.add] in G3.
  assert (EE : forall x : list Q, (half_switching valQ [switching_cost_of warmup] x == half_switching valQ [5 # 2]%Q x)%Q).
  { assert (EW : (switching_cost_of warmup == 5 # 2)%Q) by reflexivity.
    intros [|j x]; unfold half_switching, Qsum; cbn [combine map fold_right fst snd]; [reflexivity|]. rewrite EW. destruct x; reflexivity. }
  destruct (c_cost (r_cost r)), (c_cost c'); cbn [eadd eeq] in *; try contradiction; [rewrite <- !EE; exact G3|exact I].
Qed.

(** Refuted: the cost reported by a session is the cost of its schedule for the loads so far.  It
    may be lower: powering down the servers running now is not charged. *)
Theorem sco_session_reports_the_cost_refuted : exists off r o xs mem c c',
  live_robd [[6%Q]; [0%Q]] [[2%Q]] = Ok (off, ([Answered r], Some (o, xs, mem))) /\
  po_objective (ssco_ops valQ dc_hmerge dc_vmerge OutsideDecisionSpace Leaf) (the_problem valQ inject_Z thrifty [[6%Q]; [0%Q]; [2%Q]]) xs = Ok c' /\
  c_cost (r_cost r) = Fin c /\ exists q, c_cost c' = Fin q /\ (c < q)%Q.
Proof.
  assert (H : match live_robd [[6%Q]; [0%Q]] [[2%Q]] with
    | Ok (off, ([Answered r], Some (o, xs, mem))) =>
        match c_cost (r_cost r), po_objective (ssco_ops valQ dc_hmerge dc_vmerge OutsideDecisionSpace Leaf) (the_problem valQ inject_Z thrifty [[6%Q]; [0%Q]; [2%Q]]) xs with
        | Fin c, Ok c' => match c_cost c' with Fin q => Qltb c q = true | Inf => False end
        | _, _ => False
        end
    | _ => False end) by (vm_compute; reflexivity).
  destruct (live_robd [[6%Q]; [0%Q]] [[2%Q]]) as [[off [[|[r|] [|? ?]] [[[o xs] mem]|]]]| |]; try contradiction.
  destruct (c_cost (r_cost r)) as [c|] eqn:Ec; try contradiction.
  destruct (po_objective _ _ xs) as [c'| |] eqn:Eo; try contradiction. destruct (c_cost c') as [q|] eqn:Eq; try contradiction.
  exists off, r, o, xs, mem, c, c'. split; [reflexivity|]. split; [exact Eo|]. split; [exact Ec|]. exists q. split; [exact Eq|]. apply Qltb_iff. exact H.
Qed.
Print Assumptions sco_session_reports_the_cost_refuted.

(** The instance of a whole day streamed to the same algorithm. *)
Definition streamed (q : gsco Q dc_success dc_failure) :=
  offline_stream (sco_ops valQ dc_hmerge dc_vmerge OutsideDecisionSpace Leaf) regularized (fun _ => tt) (o_tend q)
    (mkOnline (po_set (sco_ops valQ dc_hmerge dc_vmerge OutsideDecisionSpace Leaf) q 1) 0).

Example ex_streamed : exists q zs o' mem',
  to_sco no_powf thrifty valQ inject_Z evaluate [[6%Q]; [0%Q]; [2%Q]] = Ok q /\
  streamed q = Some (o', zs, Ok mem') /\ zs = [[300 # 100]; [300 # 100]; [116 # 100]]%Q.
Proof.
  assert (H' : match to_sco no_powf thrifty valQ inject_Z evaluate [[6%Q]; [0%Q]; [2%Q]] with
    | Ok q => match streamed q with
        | Some (_, zs, Ok _) => zs = [[300 # 100]; [300 # 100]; [116 # 100]]%Q
        | _ => False end
    | _ => False end) by (vm_compute; reflexivity).
  destruct (to_sco no_powf thrifty valQ inject_Z evaluate [[6%Q]; [0%Q]; [2%Q]]) as [q| |]; [|destruct H'..].
  destruct (streamed q) as [[[o' zs] [mem'| |]]|] eqn:Es; [|destruct H'..].
  exists q, zs, o', mem'. split; [reflexivity|]. split; [exact Es|]. exact H'.
Qed.

(** Refuted: a session chooses the schedule that is chosen when the instance of the whole day is
    streamed to the algorithm.  The last slot known when the session starts is taken for the
    last slot of the day. *)
Theorem sco_session_follows_the_day_refuted : exists off r o xs mem q zs o' mem',
  live_robd [[6%Q]; [0%Q]] [[2%Q]] = Ok (off, ([Answered r], Some (o, xs, mem))) /\
  to_sco no_powf thrifty valQ inject_Z evaluate [[6%Q]; [0%Q]; [2%Q]] = Ok q /\
  streamed q = Some (o', zs, Ok mem') /\
  of_xs off ++ [r_x r] = [[300 # 100]; [0 # 100]; [104 # 100]]%Q /\ zs = [[300 # 100]; [300 # 100]; [116 # 100]]%Q.
Proof.
  destruct ex_live_robd as (off & r & o & xs & mem & H1 & H2 & H3 & _). destruct ex_streamed as (q & zs & o' & mem' & H4 & H5 & H6).
  exists off, r, o, xs, mem, q, zs, o', mem'. split; [exact H1|]. split; [exact H4|]. split; [exact H5|]. split; [rewrite H2, H3; reflexivity|exact H6].
Qed.
Print Assumptions sco_session_follows_the_day_refuted.
