(** Concrete cases for ClientsProps.v, and what concurrent clients cannot rely on. *)
From Coq Require Import Lia.
From Verif Require Import NumLemmas ClientsSpec ClientsProofs ClientsLive ClientsProps.
From Verif Require Import ProblemModel CostModel.
Local Open Scope Z_scope.

(** A server whose instance is the list of loads so far and whose algorithm answers the current
    load; the cost is the sum of all configurations. *)
Definition follow_ops : problem_ops (list Z) Z unit unit :=
  mkOps (fun p => Z.of_nat (length p)) (fun p _ => p) (fun _ => Ok tt)
    (fun _ xs => Ok (mkCost (Fin (inject_Z (fold_right Z.add 0 xs))) MNone)).
Definition follow_alg (o : online (list Z)) (t : Z) (xs : list Z) (m : Z) : outcome (Z * option Z) :=
  do l <- from_option (nth_error (on_p o) (length xs)); Ok (l, Some (m + l)).
Definition follow_update (o : online (list Z)) (b : Z) : outcome (online (list Z)) := Ok (mkOnline (on_p o ++ [b]) (on_w o)).
Notation follow := (handle_input follow_ops follow_alg (fun _ => 0) (fun x : Z => x) (fun x => x) follow_update).
Definition follow_start : server_state (P := list Z) (X := Z) (M := Z) := (mkOnline [] 0, [], None).

(** Every client asks with its own number as the load. *)
Definition own_load (c : nat) : command (B := Z) := Request (Z.of_nat c).

Lemma follow_serves p w xs m b : length xs = length p ->
  exists r m', serve follow_ops follow_alg (fun _ => 0) (fun x : Z => x) (fun x => x) follow_update (mkOnline p w, xs, m) b =
    Ok (r, (mkOnline (p ++ [b]) w, xs ++ [b], m')) /\ r_x r = b.
Proof.
  intros HL. unfold serve. cbn [follow_update obind on_p on_w]. unfold online_next. cbn [follow_ops po_tend on_p].
  rewrite app_length. cbn [length]. replace (Z.of_nat (length xs) + 1 =? Z.of_nat (length p + 1)) with true by (symmetry; apply Z.eqb_eq; lia).
  cbn [negb]. unfold alg_next, follow_alg. cbn [on_p]. rewrite HL, nth_error_app2, Nat.sub_diag by lia. cbn [nth_error from_option obind unwrap po_objective].
  rewrite !map_id. rewrite app_length. cbn [length]. replace (length xs + 1 - 1)%nat with (length xs) by lia.
  rewrite nth_error_app2, Nat.sub_diag by lia. cbn [nth_error from_option obind fst snd]. eexists _, _. split; [reflexivity|]. reflexivity.
Qed.

Lemma follow_never_fails : forall bs p w xs m, length xs = length p ->
  snd (run follow_ops follow_alg (fun _ => 0) (fun x : Z => x) (fun x => x) follow_update (mkOnline p w, xs, m) (map Input bs)) <> None.
Proof.
  induction bs as [|b bs IH]; intros p w xs m HL; cbn [map run]; [discriminate|].
  destruct (follow_serves p w xs m b HL) as (r & m' & E & _). rewrite E.
  specialize (IH (p ++ [b]) w (xs ++ [b]) m'). rewrite !app_length in IH. cbn [length] in IH. specialize (IH ltac:(lia)).
  destruct (run _ _ _ _ _ _ _ (map Input bs)). exact IH.
Qed.

(** Steps of an execution, one after the other. *)
Tactic Notation "go" tactic3(t) :=
  match goal with H : steps ?h ?p ?s0 ?e ?s |- _ =>
    let K := fresh in let L := fresh in
    eassert (K : step h p s _ _) by t;
    pose proof (steps_more _ _ _ _ _ _ _ H K) as L; clear H K; rename L into H; cbn [app after] in H end.

(** An execution: client 2 calls before client 1 but connects later. *)
Definition crossing_events : list (event (A := answer (X := Z) (C := unit) (D := unit) (M := Z) (Y := Z))) :=
  [Called 2; Called 1;
   Got 1 (Answer (Answered (mkResponse 1 (mkCost (Fin 1) MNone) 1 (mkCost (Fin 1) MNone) (Some 1))));
   Got 2 (Answer (Answered (mkResponse 2 (mkCost (Fin 3) MNone) 2 (mkCost (Fin 3) MNone) (Some 3))))].

Example crossing_run : exists s, steps follow own_load (initially (Listening follow_start)) crossing_events s.
Proof.
  assert (H : steps follow own_load (initially (Listening follow_start)) [] (initially (Listening follow_start))) by constructor.
  go (apply (step_call _ _ _ _ _ _ 2); reflexivity).
  go (apply (step_call _ _ _ _ _ _ 1); reflexivity).
  go (apply (step_connect _ _ _ _ _ _ 1); [reflexivity|discriminate|discriminate]).
  go (apply (step_connect _ _ _ _ _ _ 2); [reflexivity|discriminate|discriminate]).
  go (apply step_accept).
  go (apply (step_send _ _ _ _ _ _ 2 2); [reflexivity|reflexivity]).
  go (apply (step_send _ _ _ _ _ _ 1 1); [reflexivity|reflexivity]).
  go (apply (step_read _ _ _ _ _ _ _ 1); reflexivity).
  go (eapply step_answer; [reflexivity|discriminate]).
  go (apply step_accept).
  go (eapply (step_receive _ _ _ _ _ _ 1); reflexivity).
  go (apply (step_read _ _ _ _ _ _ _ 2); reflexivity).
  go (eapply step_answer; [reflexivity|discriminate]).
  go (eapply (step_receive _ _ _ _ _ _ 2); reflexivity).
  eexists. exact H.
Qed.

(** The theorems apply to it. *)
Example crossing_sequential : exists order : list (nat * request),
  NoDup (map fst order) /\
  (forall c q, In (c, q) order -> In (Called c) crossing_events /\
     match q with Input b => own_load c = Request b | Undecodable => own_load c = Halt \/ In (Died c) crossing_events end) /\
  (forall c a, In (Got c (Answer a)) crossing_events -> exists k b,
     nth_error order k = Some (c, Input b) /\
     nth_error (fst (run follow_ops follow_alg (fun _ => 0) (fun x : Z => x) (fun x => x) follow_update follow_start (map snd order))) k = Some a) /\
  (forall c r c' k k' q q', precedes (Got c r) (Called c') crossing_events ->
     nth_error order k = Some (c, q) -> nth_error order k' = Some (c', q') -> (k < k')%nat).
Proof. destruct crossing_run as [s H]. exact (concurrent_calls_are_sequential _ _ _ _ _ _ _ _ _ _ _ _ _ _ _ _ _ s (or_intror eq_refl) H). Qed.

Example follow_answers evs s : steps follow own_load (initially (Listening follow_start)) evs s ->
  (forall c, ~ In (Died c) evs) -> forall c r, In (Got c r) evs -> exists x, r = Answer (Answered x).
Proof.
  intros H HD c r Hc. apply in_split in Hc as (before & later & E).
  refine (concurrent_calls_answered _ _ _ _ _ _ _ _ _ _ _ _ _ own_load follow_start evs s H _ before c r later E _ _).
  - intros bs _. apply follow_never_fails. reflexivity.
  - discriminate.
  - intros c' Hc. apply (HD c'). rewrite E. apply in_or_app. left. exact Hc.
Qed.

(** Client 0 stops the server: calls that returned before are answered. *)
Definition stopping (c : nat) : command (B := Z) := if (c =? 0)%nat then Halt else Request (Z.of_nat c).
Definition stopping_events : list (event (A := answer (X := Z) (C := unit) (D := unit) (M := Z) (Y := Z))) :=
  [Called 1; Got 1 (Answer (Answered (mkResponse 1 (mkCost (Fin 1) MNone) 1 (mkCost (Fin 1) MNone) (Some 1))));
   Called 0; Got 0 Done; Called 2; Got 2 Refused].
Example stopping_run : exists s, steps follow stopping (initially (Listening follow_start)) stopping_events s.
Proof.
  assert (H : steps follow stopping (initially (Listening follow_start)) [] (initially (Listening follow_start))) by constructor.
  go (apply (step_call _ _ _ _ _ _ 1); reflexivity).
  go (apply (step_connect _ _ _ _ _ _ 1); [reflexivity|discriminate|discriminate]).
  go (apply step_accept).
  go (apply (step_send _ _ _ _ _ _ 1 1); [reflexivity|reflexivity]).
  go (apply (step_read _ _ _ _ _ _ _ 1); reflexivity).
  go (eapply step_answer; [reflexivity|discriminate]).
  go (eapply (step_receive _ _ _ _ _ _ 1); reflexivity).
  go (apply (step_call _ _ _ _ _ _ 0); reflexivity).
  go (apply (step_connect _ _ _ _ _ _ 0); [reflexivity|discriminate|discriminate]).
  go (apply (step_close _ _ _ _ _ _ 0); reflexivity).
  go (apply step_accept).
  go (apply step_end; reflexivity).
  go (apply (step_call _ _ _ _ _ _ 2); reflexivity).
  go (apply (step_refused _ _ _ _ _ _ 2); [reflexivity|right; reflexivity]).
  eexists. exact H.
Qed.
Example stopping_answers before c r later : stopping_events = before ++ Got c r :: later ->
  ~ In (Called 0%nat) before -> exists x, r = Answer (Answered x).
Proof.
  intros E HB. destruct stopping_run as [s H].
  refine (concurrent_calls_answered _ _ _ _ _ _ _ _ _ _ _ _ _ stopping follow_start _ s H _ before c r later E _ _).
  - intros bs _. apply follow_never_fails. reflexivity.
  - intros [|c'] Hc; [contradiction|discriminate].
  - intros c' Hc. assert (HD : In (Died c') stopping_events) by (rewrite E; apply in_or_app; left; exact Hc).
    cbn in HD. decompose [or] HD; try discriminate; contradiction.
Qed.

(** C91: [start] returns before the server listens, so the first call may be refused although
    nobody died or stopped the server and it listens later. *)
Theorem start_listens_refuted :
  forall (St B A : Type) (handle : St -> B -> A * option St) program st0,
  exists s, steps handle program (initially (Starting st0)) [Called 0; Got 0 Refused] s /\ s_server s = Listening st0.
Proof.
  intros St B A handle program st0.
  assert (H : steps handle program (initially (Starting st0)) [] (initially (Starting st0))) by constructor.
  go (apply (step_call _ _ _ _ _ _ 0); reflexivity).
  go (apply (step_refused _ _ _ _ _ _ 0); [reflexivity|left; eexists; reflexivity]).
  go (apply step_bind).
  eexists. split; [exact H|reflexivity].
Qed.
Print Assumptions start_listens_refuted.

(** C91: a caller that dies while the server works on its request can end the service for
    everybody else: another caller, who had sent its request in time, is left without an answer. *)
Theorem server_survives_death_refuted :
  forall (St B A : Type) (handle : St -> B -> A * option St) (program : nat -> command) st0 b b',
  program 0%nat = Request b -> program 1%nat = Request b' ->
  exists s, steps handle program (initially (Listening st0)) [Called 0; Called 1; Died 0; Got 1 Lost] s /\ s_server s = Gone.
Proof.
  intros St B A handle program st0 b b' H0 H1.
  assert (H : steps handle program (initially (Listening st0)) [] (initially (Listening st0))) by constructor.
  go (apply (step_call _ _ _ _ _ _ 0); reflexivity).
  go (apply (step_call _ _ _ _ _ _ 1); reflexivity).
  go (apply (step_connect _ _ _ _ _ _ 0); [reflexivity|discriminate|discriminate]).
  go (apply (step_connect _ _ _ _ _ _ 1); [reflexivity|discriminate|discriminate]).
  go (apply (step_send _ _ _ _ _ _ 0 b); [reflexivity|exact H0]).
  go (apply (step_send _ _ _ _ _ _ 1 b'); [reflexivity|exact H1]).
  go (apply step_accept).
  match type of H with steps _ _ _ _ ?s =>
    assert (HW : wire program s 0 = Some (Input b)) by (unfold wire; cbn; rewrite H0; reflexivity) end.
  go (apply (step_read _ _ _ _ _ _ _ b); exact HW). clear HW.
  go (apply (step_die_waiting _ _ _ _ _ _ 0); reflexivity).
  go (apply step_broken_pipe; reflexivity).
  go (apply (step_lost _ _ _ _ _ 1); reflexivity).
  eexists. split; [exact H|reflexivity].
Qed.
Print Assumptions server_survives_death_refuted.

(** C91: a caller that connects and does not send anything blocks everybody else for as long as
    it stays connected. *)
Theorem server_unblocked_refuted :
  forall (St B A : Type) (handle : St -> B -> A * option St) (program : nat -> command) st0 b',
  program 1%nat = Request b' ->
  exists s, steps handle program (initially (Listening st0)) [Called 0; Called 1] s /\
    s_phase s 0%nat = Connected /\ s_phase s 1%nat = Waiting /\
    forall evs s', steps handle program s evs s' -> s_phase s' 0%nat = Connected -> forall r, ~ In (Got 1 r) evs.
Proof.
  intros St B A handle program st0 b' H1.
  assert (H : steps handle program (initially (Listening st0)) [] (initially (Listening st0))) by constructor.
  go (apply (step_call _ _ _ _ _ _ 0); reflexivity).
  go (apply (step_call _ _ _ _ _ _ 1); reflexivity).
  go (apply (step_connect _ _ _ _ _ _ 0); [reflexivity|discriminate|discriminate]).
  go (apply (step_connect _ _ _ _ _ _ 1); [reflexivity|discriminate|discriminate]).
  go (apply (step_send _ _ _ _ _ _ 1 b'); [reflexivity|exact H1]).
  go (apply step_accept).
  eexists. split; [exact H|]. split; [reflexivity|]. split; [reflexivity|].
  match type of H with steps _ _ _ _ ?s => assert (HS : s_server s = Reading st0 0 /\ s_phase s 0%nat = Connected /\ s_mail s 1%nat = None) by (cbn; auto);
    generalize dependent s end.
  intros s _ HS evs s' H'.
  assert (HI : (s_server s' = Reading st0 0 /\ s_phase s' 0%nat = Connected /\ s_mail s' 1%nat = None /\ forall r, ~ In (Got 1 r) evs) \/
               s_phase s' 0%nat = Waiting \/ (exists r, s_phase s' 0%nat = Returned r) \/ (exists d, s_phase s' 0%nat = Dead d)).
  { induction H' as [s|s evs s' evs' s'' H' IH HT]; [left; intuition|]. specialize (IH HS). clear HS H'.
    destruct IH as [(E1 & E2 & E3 & E4)|IH].
    - assert (HX : forall e : event (A := A), (forall r, e <> Got 1 r) -> forall r, ~ In (Got 1 r) (evs ++ [e])).
      { intros e He r HI. apply in_snoc in HI as [HI|HI]; [exact (E4 r HI)|exact (He r HI)]. }
      destruct HT as [st q ph ml|st q ph ml|sv q ph ml c E|sv q ph ml c E F1 F2|sv q ph ml c E F1|sv q ph ml c b E F1|sv q ph ml c E F1|sv q ph ml c E|sv q ph ml c E|st c q ph ml|st c q ph ml b E|st c q ph ml E|st c b q ph ml a next E F1|st c b q ph ml a next E F1|st c b q ph ml E|sv q ph ml c a E F1|q ph ml c E F1];
        cbn [s_server s_phase s_mail] in *; rewrite ?app_nil_r; try discriminate; try (injection E1 as -> ->).
      + left. repeat split; auto. * rewrite upd_other by congruence. exact E2. * apply HX. discriminate.
      + left. repeat split; auto. rewrite upd_other by congruence. exact E2.
      + exfalso. destruct F1 as [[st F1]|F1]; congruence.
      + destruct (upd_cases ph c Waiting 0%nat) as [[<- ->]|[Hn ->]]; [right; left; reflexivity|left; auto].
      + destruct (upd_cases ph c (Returned Done) 0%nat) as [[<- ->]|[Hn ->]]; [right; right; left; eauto|left]. repeat split; auto.
        destruct (Nat.eq_dec c 1) as [->|Hc]; [congruence|]. apply HX. intros r Hr. injection Hr as Hr _. congruence.
      + destruct (upd_cases ph c (Dead false) 0%nat) as [[<- ->]|[Hn ->]]; [right; right; right; eauto|left]. repeat split; auto. apply HX. discriminate.
      + destruct (upd_cases ph c (Dead true) 0%nat) as [[<- ->]|[Hn ->]]; [right; right; right; eauto|left]. repeat split; auto. apply HX. discriminate.
      + exfalso. unfold wire in E. cbn [s_phase] in E. rewrite E2 in E. discriminate.
      + exfalso. unfold wire in E. cbn [s_phase] in E. rewrite E2 in E. discriminate.
      + destruct (upd_cases ph c (Returned (Answer a)) 0%nat) as [[<- ->]|[Hn ->]]; [right; right; left; eauto|left]. repeat split; auto.
        destruct (Nat.eq_dec c 1) as [->|Hc]; [congruence|]. apply HX. intros r Hr. injection Hr as Hr _. congruence.
    - right. destruct HT; cbn [s_server s_phase s_mail] in *; auto;
        match goal with |- context [upd ?ph ?c ?np 0%nat] => destruct (upd_cases ph c np 0%nat) as [[<- ->]|[Hn ->]] end; eauto;
        exfalso; destruct IH as [IH|[[r' IH]|[d IH]]]; congruence. }
  intros HC. destruct HI as [(_ & _ & _ & HI)|[HI|[[r HI]|[d HI]]]]; [exact HI|congruence..].
Qed.
Print Assumptions server_unblocked_refuted.
