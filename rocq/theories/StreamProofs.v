(** Proofs about streaming. *)
From Coq Require Import Lia.
From Verif Require Import NumLemmas StreamModel StreamSpec CostSpec CostProofs ConvertObjective.
From Verif Require Import CostModel ProblemModel.
Local Open Scope Z_scope.

Section Stream.
  Context {P X C D M : Type}.
  Variable ops : problem_ops P X C D.
  Variable alg : online P -> Z -> list X -> M -> outcome (X * option M).
  Variable default : online P -> M.
  Notation tend o := (po_tend ops (on_p o)).

  Lemma next_cases o xs m xs' r : online_next ops alg default o xs m = (xs', r) ->
    match r with
    | Ok (x, m') => xs' = xs ++ [x] /\ tend o = Z.of_nat (length xs) + 1 /\
        alg o (Z.of_nat (length xs) + 1) xs (match m with None => default o | Some m0 => m0 end) = Ok (x, m')
    | _ => xs' = xs
    end.
  Proof.
    unfold online_next. destruct (_ =? _) eqn:E; simpl.
    - apply Z.eqb_eq in E. unfold alg_next. destruct (alg _ _ _ _) as [[x m']| |] eqn:EA; intros H;
        assert (Hr := f_equal snd H); assert (Hx := f_equal fst H); simpl in Hr, Hx; subst; auto.
    - intros H. assert (Hr := f_equal snd H); assert (Hx := f_equal fst H); simpl in Hr, Hx; subst; auto.
  Qed.

  Lemma next_out_of_step o xs m : tend o <> Z.of_nat (length xs) + 1 ->
    online_next ops alg default o xs m = (xs, Err OnlineInconsistentCurrentTimeSlot).
  Proof.
    intros H. unfold online_next. destruct (_ =? _) eqn:E; [|reflexivity].
    apply Z.eqb_eq in E. congruence.
  Qed.

  Lemma stream_prefix update fuel : forall o xs m o' xs' r,
    stream_from ops alg default fuel update o xs m = Some (o', xs', r) -> exists ys, xs' = xs ++ ys /\
      match r with Ok _ => ys <> [] | _ => True end.
  Proof.
    induction fuel as [|fuel IH]; intros o xs m o' xs' r H; [discriminate H|]. simpl in H.
    destruct (online_next _ _ _ _ _ _) as [xs1 r1] eqn:EN. apply next_cases in EN. destruct r1 as [[x m1]|f|].
    - destruct EN as (-> & _ & _). destruct (update o (xs ++ [x])) as [o1 c]. destruct c.
      + destruct (verify_o ops o1).
        * apply IH in H as (ys & -> & Hys). exists (x :: ys). split; [rewrite <- app_assoc; reflexivity|].
          destruct r; auto. discriminate.
        * assert (xs' = xs ++ [x]) by congruence. subst. exists [x]. split; [reflexivity|]. assert (r = Err f) by congruence. subst. exact I.
        * assert (xs' = xs ++ [x]) by congruence. subst. exists [x]. split; [reflexivity|]. assert (r = Panic) by congruence. subst. exact I.
      + assert (xs' = xs ++ [x]) by congruence. subst. exists [x]. split; [reflexivity|]. assert (r = Ok m1) by congruence. subst. discriminate.
    - subst. assert (xs' = xs) by congruence. subst. exists []. split; [rewrite app_nil_r; reflexivity|]. assert (r = Err f) by congruence. subst. exact I.
    - subst. assert (xs' = xs) by congruence. subst. exists []. split; [rewrite app_nil_r; reflexivity|]. assert (r = Panic) by congruence. subst. exact I.
  Qed.

  Lemma stream_fuel update fuel : forall fuel' o xs m res, (fuel <= fuel')%nat ->
    stream_from ops alg default fuel update o xs m = Some res ->
    stream_from ops alg default fuel' update o xs m = Some res.
  Proof.
    induction fuel as [|fuel IH]; intros fuel' o xs m res Hle H; [discriminate H|].
    destruct fuel' as [|fuel']; [lia|]. simpl in *.
    destruct (online_next _ _ _ _ _ _) as [xs1 [[x m1]|f|]]; auto.
    destruct (update o xs1) as [o1 [|]]; auto. destruct (verify_o ops o1); auto. apply IH; [lia|exact H].
  Qed.

  Hypothesis HL : lawful_ops ops.

  Lemma inc_tend o : tend (inc ops o) = tend o + 1.
  Proof. unfold inc. simpl. apply HL. Qed.

  Lemma inc_at_slot o : inc ops o = at_slot ops o (tend o + 1).
  Proof. reflexivity. Qed.

  Lemma at_slot_at_slot o t u : at_slot ops (at_slot ops o t) u = at_slot ops o u.
  Proof. unfold at_slot. simpl. f_equal. apply HL. Qed.

  Lemma at_slot_self o : at_slot ops o (tend o) = o.
  Proof. unfold at_slot. destruct o as [p w]. simpl. f_equal. apply HL. Qed.

  Lemma at_slot_tend o t : tend (at_slot ops o t) = t.
  Proof. unfold at_slot. simpl. apply HL. Qed.

  Notation osf := (offline_stream_from ops alg default).

  (** Enough fuel. *)
  Lemma offline_fuel t_end fuel : forall o xs m, (Z.to_nat (t_end - on_w o - tend o) < fuel)%nat ->
    exists res, stream_from ops alg default fuel (offline_update ops t_end) o xs m = Some res.
  Proof.
    induction fuel as [|fuel IH]; intros o xs m Hf; [lia|]. simpl.
    destruct (online_next _ _ _ _ _ _) as [xs1 [[x m1]|f|]]; eauto.
    unfold offline_update. destruct (_ <? _) eqn:E; [|eauto]. apply Z.ltb_lt in E.
    destruct (verify_o _ _); eauto. apply IH. rewrite inc_tend. simpl on_w. lia.
  Qed.

  Lemma offline_terminates t_end o xs m : exists res, osf t_end o xs m = Some res.
  Proof. apply offline_fuel. lia. Qed.

  (** One unfolding of the offline loop. *)
  Lemma offline_unfold t_end o xs m : osf t_end o xs m =
    match online_next ops alg default o xs m with
    | (xs', Ok (_, m1)) =>
        if tend o <? t_end - on_w o then
          match verify_o ops (inc ops o) with
          | Ok _ => osf t_end (inc ops o) xs' m1
          | Err f => Some (inc ops o, xs', Err f)
          | Panic => Some (inc ops o, xs', Panic)
          end
        else Some (o, xs', Ok m1)
    | (xs', Err f) => Some (o, xs', Err f)
    | (xs', Panic) => Some (o, xs', Panic)
    end.
  Proof.
    unfold offline_stream_from at 1. cbn [stream_from].
    destruct (online_next _ _ _ _ _ _) as [xs1 [[x m1]|f|]]; auto.
    unfold offline_update at 1. destruct (_ <? _) eqn:E; [|reflexivity]. apply Z.ltb_lt in E.
    destruct (verify_o _ _) eqn:EV; auto.
    destruct (offline_terminates t_end (inc ops o) xs1 m1) as [res Hres]. rewrite Hres.
    eapply stream_fuel; [|exact Hres]. rewrite inc_tend. simpl on_w. lia.
  Qed.

  (** The result of a successful offline stream. *)
  Lemma offline_ok n : forall t_end o xs m o' xs' m', n = Z.to_nat (t_end - on_w o - tend o) ->
    osf t_end o xs m = Some (o', xs', Ok m') ->
    tend o = Z.of_nat (length xs) + 1 /\
    Z.of_nat (length xs') = Z.max (t_end - on_w o) (tend o) /\
    o' = at_slot ops o (Z.of_nat (length xs')) /\
    exists ys, xs' = xs ++ ys /\ chooses ops alg default o xs m ys m'.
  Proof.
    induction n as [|n IH]; intros t_end o xs m o' xs' m' Hn H; rewrite offline_unfold in H;
      destruct (online_next _ _ _ _ _ _) as [xs1 r1] eqn:EN; apply next_cases in EN;
      destruct r1 as [[x m1]|f|]; try congruence; destruct EN as (Ex & Et & EA);
      assert (EA' : alg (at_slot ops o (Z.of_nat (length xs) + 1)) (Z.of_nat (length xs) + 1) xs
                      (match m with None => default (at_slot ops o (Z.of_nat (length xs) + 1)) | Some m0 => m0 end) = Ok (x, m1))
        by (rewrite <- Et, at_slot_self, Et; exact EA);
      destruct (tend o <? t_end - on_w o) eqn:E.
    - apply Z.ltb_lt in E. lia.
    - apply Z.ltb_ge in E. assert (o' = o) by congruence. assert (xs' = xs1) by congruence. assert (m' = m1) by congruence. subst.
      rewrite app_length. simpl length. split; [exact Et|]. split; [lia|].
      split; [replace (Z.of_nat (length xs + 1)) with (tend o) by lia; symmetry; apply at_slot_self|].
      exists [x]. split; [reflexivity|]. econstructor; [exact EA'|constructor].
    - apply Z.ltb_lt in E. destruct (verify_o _ _); try congruence.
      apply IH in H as (H1 & H2 & H3 & ys & H4 & H5); [|rewrite inc_tend; simpl on_w; lia].
      rewrite inc_tend in *. simpl on_w in *. split; [exact Et|]. split; [lia|].
      split; [rewrite H3, inc_at_slot, at_slot_at_slot; reflexivity|].
      exists (x :: ys). split; [rewrite H4, Ex, <- app_assoc; reflexivity|].
      econstructor; [exact EA'|]. rewrite Ex in H5. clear -H5 HL.
      revert H5. generalize (xs ++ [x]) m1. intros xs2 m2 H. induction H; [constructor|].
      econstructor; [|exact IHchooses]. unfold t in *. rewrite inc_at_slot, !at_slot_at_slot in H. exact H.
    - apply Z.ltb_ge in E. assert (o' = o) by congruence. assert (xs' = xs1) by congruence. assert (m' = m1) by congruence. subst.
      rewrite app_length. simpl length. split; [exact Et|]. split; [lia|].
      split; [replace (Z.of_nat (length xs + 1)) with (tend o) by lia; symmetry; apply at_slot_self|].
      exists [x]. split; [reflexivity|]. econstructor; [exact EA'|constructor].
  Qed.

  (** A stream succeeds if the algorithm and the verification do. *)
  Lemma offline_succeeds n : forall t_end o xs m, n = Z.to_nat (t_end - on_w o - tend o) ->
    tend o = Z.of_nat (length xs) + 1 ->
    (forall t xs1 m1, tend o <= t <= Z.max (t_end - on_w o) (tend o) -> Z.of_nat (length xs1) + 1 = t ->
       exists r, alg (at_slot ops o t) t xs1 m1 = Ok r) ->
    (forall t, tend o < t <= t_end - on_w o -> verify_o ops (at_slot ops o t) = Ok tt) ->
    exists o' xs' m', osf t_end o xs m = Some (o', xs', Ok m').
  Proof.
    induction n as [|n IH]; intros t_end o xs m Hn Ht HA HV; rewrite offline_unfold; unfold online_next;
      rewrite <- Ht, Z.eqb_refl; simpl; unfold alg_next; rewrite <- Ht;
      destruct (HA (tend o) xs (match m with None => default o | Some m0 => m0 end) ltac:(lia) ltac:(lia)) as [[x m1] EA];
      rewrite at_slot_self in EA; rewrite EA; destruct (tend o <? t_end - on_w o) eqn:E; eauto.
    - apply Z.ltb_lt in E. lia.
    - apply Z.ltb_lt in E. rewrite inc_at_slot, HV by lia. rewrite <- inc_at_slot. apply IH.
      + rewrite inc_tend. simpl on_w. lia.
      + rewrite inc_tend, app_length. simpl. lia.
      + intros t xs1 m2 H1 H2. rewrite inc_tend in H1. simpl on_w in H1. rewrite inc_at_slot, at_slot_at_slot. apply HA; [lia|exact H2].
      + intros t H1. rewrite inc_tend in H1. simpl on_w in H1. rewrite inc_at_slot, at_slot_at_slot. apply HV. lia.
  Qed.

  (** Interrupting and resuming. *)
  Lemma offline_resume n : forall t1 t2 o xs m o1 xs1 m1, n = Z.to_nat (t1 - on_w o - tend o) ->
    tend o <= t1 - on_w o -> t1 < t2 ->
    osf t1 o xs m = Some (o1, xs1, Ok m1) ->
    osf t2 o xs m =
      match verify_o ops (inc ops o1) with
      | Ok _ => osf t2 (inc ops o1) xs1 m1
      | Err f => Some (inc ops o1, xs1, Err f)
      | Panic => Some (inc ops o1, xs1, Panic)
      end.
  Proof.
    induction n as [|n IH]; intros t1 t2 o xs m o1 xs1 m1 Hn Ht H12 H; rewrite offline_unfold in H; rewrite (offline_unfold t2);
      destruct (online_next _ _ _ _ _ _) as [xs2 [[x m2]|f|]]; try congruence;
      (destruct (tend o <? t2 - on_w o) eqn:E2; [|apply Z.ltb_ge in E2; lia]);
      destruct (tend o <? t1 - on_w o) eqn:E1.
    - apply Z.ltb_lt in E1. lia.
    - assert (o1 = o) by congruence. assert (xs1 = xs2) by congruence. assert (m1 = m2) by congruence. subst. reflexivity.
    - destruct (verify_o ops (inc ops o)); try congruence. apply Z.ltb_lt in E1.
      apply (IH t1 t2 (inc ops o)); try assumption; rewrite inc_tend; simpl on_w; lia.
    - apply Z.ltb_ge in E1. lia.
  Qed.

  (** *** Preparation and server *)
  Context {Y B : Type}.
  Variable to_int : X -> Y.
  Variable of_int : Y -> X.
  Variable model_update : online P -> B -> outcome (online P).

  Lemma prepare_ok w p o r : prepare ops alg default to_int of_int w p = Ok (o, r) ->
    0 <= w /\ on_w o = w /\ of_int_xs r = map to_int (of_xs r) /\
    po_objective ops (on_p o) (of_xs r) = Ok (of_cost r) /\
    po_objective ops (on_p o) (map of_int (of_int_xs r)) = Ok (of_int_cost r) /\
    (if 1 <=? po_tend ops p - w
     then Z.of_nat (length (of_xs r)) = Z.max 1 (po_tend ops p - 2 * w) /\ o = mkOnline (po_set ops p (Z.of_nat (length (of_xs r)))) w /\
          chooses ops alg default (mkOnline p w) [] None (of_xs r) (of_m r)
     else of_xs r = [] /\ of_m r = None /\ o = mkOnline (if 1 <? po_tend ops p then po_set ops p 1 else p) w).
  Proof.
    unfold prepare. set (o0 := mkOnline _ w). intros H.
    destruct (verify_o ops o0) eqn:EV; try discriminate H. cbn [obind] in H.
    assert (Hw : 0 <= w).
    { unfold verify_o, verify_online, assert_validity in EV. simpl in EV. destruct (0 <=? w) eqn:E; [|discriminate EV].
      apply Z.leb_le in E. exact E. }
    destruct (1 <=? po_tend ops p - w) eqn:E1.
    - apply Z.leb_le in E1.
      destruct (offline_stream ops alg default (po_tend ops p - w) o0) as [[[o' xs] [m|f|]]|] eqn:EO; try discriminate H.
      cbn [obind] in H. unfold offline_stream in EO.
      apply (offline_ok _ _ _ _ _ _ _ _ eq_refl) in EO as (Et & EL & Eo & ys & Ey & EC).
      simpl in Ey. subst ys. change (Z.of_nat (length (@nil X)) + 1) with 1 in Et.
      assert (E0 : o0 = at_slot ops (mkOnline p w) 1).
      { unfold o0, at_slot. simpl. f_equal. destruct (1 <? po_tend ops p) eqn:E; [reflexivity|].
        assert (po_tend ops p = 1) as <- by exact Et. symmetry. apply HL. }
      rewrite Et in EL. simpl on_w in EL.
      destruct (po_objective ops (on_p o') xs) as [c| |] eqn:EC1; try discriminate H. cbn [obind] in H.
      destruct (po_objective ops (on_p o') (map of_int (map to_int xs))) as [ic| |] eqn:EC2; try discriminate H. cbn [obind] in H.
      assert (o' = o) by congruence. assert (r = mkOffline xs c (map to_int xs) ic m) by congruence. subst r o. cbn [of_xs of_cost of_int_xs of_int_cost of_m].
      split; [exact Hw|]. split; [rewrite Eo; reflexivity|]. split; [reflexivity|]. split; [exact EC1|]. split; [exact EC2|].
      split; [lia|]. split; [rewrite Eo, E0, at_slot_at_slot; reflexivity|].
      rewrite E0 in EC. clear -EC HL. induction EC; [constructor|]. econstructor; [|exact IHEC].
      unfold t in *. rewrite !at_slot_at_slot in H. exact H.
    - cbn [obind] in H.
      destruct (po_objective ops (on_p o0) []) as [c| |] eqn:EC1; try discriminate H. cbn [obind map] in H.
      rewrite EC1 in H. cbn [obind] in H.
      assert (o0 = o) by congruence. assert (r = mkOffline [] c [] c None) by congruence. subst r. rewrite <- H0. cbn [of_xs of_cost of_int_xs of_int_cost of_m].
      split; [exact Hw|]. split; [reflexivity|]. split; [reflexivity|]. split; [exact EC1|]. split; [exact EC1|].
      split; [reflexivity|]. split; reflexivity.
  Qed.

  Notation serve := (serve ops alg default to_int of_int model_update).
  Notation run := (run ops alg default to_int of_int model_update).

  Lemma serve_ok o xs m b r o' xs' m' : serve (o, xs, m) b = Ok (r, (o', xs', m')) ->
    model_update o b = Ok o' /\ tend o' = Z.of_nat (length xs) + 1 /\
    alg o' (Z.of_nat (length xs) + 1) xs (match m with None => default o' | Some m0 => m0 end) = Ok (r_x r, m') /\
    xs' = xs ++ [r_x r] /\ r_m r = m' /\
    po_objective ops (on_p o') xs' = Ok (r_cost r) /\
    r_int_x r = to_int (r_x r) /\
    po_objective ops (on_p o') (map of_int (map to_int xs')) = Ok (r_int_cost r).
  Proof.
    unfold StreamModel.serve. intros H. destruct (model_update o b) as [o1| |] eqn:EU; try discriminate H. cbn [obind] in H.
    destruct (online_next ops alg default o1 xs m) as [xs1 r1] eqn:EN. pose proof (next_cases _ _ _ _ _ EN) as HN.
    destruct r1 as [[x m1]|f|]; try discriminate H. cbn [obind unwrap fst snd] in H. destruct HN as (Ex & Et & EA).
    destruct (po_objective ops (on_p o1) xs1) as [c| |] eqn:EC1; try discriminate H. cbn [obind unwrap] in H.
    destruct (po_objective ops (on_p o1) (map of_int (map to_int xs1))) as [ic| |] eqn:EC2; try discriminate H. cbn [obind unwrap] in H.
    destruct (nth_error (map to_int xs1) (length (map to_int xs1) - 1)) as [ix|] eqn:EI; try discriminate H. cbn [obind from_option] in H.
    assert (r = mkResponse x c ix ic m1) by congruence. assert (o' = o1) by congruence. assert (xs' = xs1) by congruence.
    assert (m' = m1) by congruence. subst r o' xs' m'. cbn [r_x r_cost r_int_x r_int_cost r_m].
    split; [reflexivity|]. split; [exact Et|]. split; [exact EA|]. split; [exact Ex|]. split; [reflexivity|]. split; [exact EC1|].
    split; [|exact EC2]. rewrite Ex, map_length, app_length in EI. simpl length in EI.
    rewrite nth_error_map, nth_error_app2 in EI by lia. replace (_ - _)%nat with 0%nat in EI by lia. simpl in EI. congruence.
  Qed.

  Lemma run_app : forall reqs1 reqs2 st, run st (reqs1 ++ reqs2) =
    match run st reqs1 with
    | (answers, Some st') => let (answers', final) := run st' reqs2 in (answers ++ answers', final)
    | (answers, None) => (answers, None)
    end.
  Proof.
    induction reqs1 as [|[b|] reqs1 IH]; intros reqs2 st; cbn [app StreamModel.run].
    - destruct (run st reqs2). reflexivity.
    - destruct (serve st b) as [[r st']| |]; auto. rewrite IH. destruct (run st' reqs1) as [a [st1|]].
      + destruct (run st1 reqs2). reflexivity.
      + reflexivity.
    - reflexivity.
  Qed.

  Lemma run_running : forall reqs o xs m answers o' xs' m', run (o, xs, m) reqs = (answers, Some (o', xs', m')) ->
    answers = map Answered (answered answers) /\ length answers = length reqs /\
    xs' = xs ++ map r_x (answered answers).
  Proof.
    induction reqs as [|[b|] reqs IH]; intros o xs m answers o' xs' m' H; cbn [StreamModel.run] in H.
    - assert (answers = []) by congruence. assert (xs' = xs) by congruence. subst. simpl. rewrite app_nil_r. auto.
    - destruct (serve (o, xs, m) b) as [[r [[o1 xs1] m1]]| |] eqn:ES; try congruence.
      destruct (run (o1, xs1, m1) reqs) as [a f] eqn:ER. assert (answers = Answered r :: a) by congruence. assert (f = Some (o', xs', m')) by congruence.
      subst. apply IH in ER as (E1 & E2 & E3). apply serve_ok in ES as (_ & _ & _ & Ex & _).
      cbn [answered map length]. split; [f_equal; exact E1|]. split; [f_equal; exact E2|]. rewrite E3, Ex, <- app_assoc. reflexivity.
    - discriminate H.
  Qed.

  (** The first failing request is answered by a failure, and nothing after it. *)
  Lemma run_stopped : forall reqs st answers, run st reqs = (answers, None) ->
    exists reqs1 st' rest, run st reqs1 = (map Answered (answered answers), Some st') /\
      ((reqs = reqs1 ++ Undecodable :: rest /\ answers = map Answered (answered answers)) \/
       exists b, reqs = reqs1 ++ Input b :: rest /\ answers = map Answered (answered answers) ++ [Failed] /\
         forall res, serve st' b <> Ok res).
  Proof.
    induction reqs as [|[b|] reqs IH]; intros st answers H; cbn [StreamModel.run] in H.
    - discriminate H.
    - destruct (serve st b) as [[r st1]| |] eqn:ES.
      + destruct (run st1 reqs) as [a f] eqn:ER. assert (answers = Answered r :: a) by congruence. assert (f = None) by congruence. subst.
        apply IH in ER as (reqs1 & st' & rest & E1 & E2). exists (Input b :: reqs1), st', rest.
        cbn [answered map StreamModel.run]. rewrite ES, E1. split; [reflexivity|].
        destruct E2 as [[-> E2]|(b' & -> & E2 & E3)].
        * left. split; [reflexivity|]. f_equal. exact E2.
        * right. exists b'. split; [reflexivity|]. split; [|exact E3]. simpl. f_equal. exact E2.
      + assert (answers = [Failed]) by congruence. subst. exists [], st, reqs. split; [reflexivity|]. right. exists b. split; [reflexivity|].
        split; [reflexivity|]. congruence.
      + assert (answers = [Failed]) by congruence. subst. exists [], st, reqs. split; [reflexivity|]. right. exists b. split; [reflexivity|].
        split; [reflexivity|]. congruence.
    - assert (answers = []) by congruence. subst. exists [], st, reqs. split; [reflexivity|]. left. split; reflexivity.
  Qed.

  (** The k-th answer reports the configuration of its slot and the cost of the schedule so far. *)
  Lemma run_answers : forall reqs o xs m answers final, run (o, xs, m) reqs = (answers, final) ->
    forall k r, nth_error answers k = Some (Answered r) ->
    exists ok, let xsk := xs ++ map r_x (firstn (S k) (answered answers)) in
      Z.of_nat (length xsk) = Z.of_nat (length xs) + Z.of_nat k + 1 /\
      nth_error (answered answers) k = Some r /\
      tend ok = Z.of_nat (length xsk) /\
      po_objective ops (on_p ok) xsk = Ok (r_cost r) /\
      r_int_x r = to_int (r_x r) /\
      po_objective ops (on_p ok) (map of_int (map to_int xsk)) = Ok (r_int_cost r).
  Proof.
    induction reqs as [|[b|] reqs IH]; intros o xs m answers final H k r Hk; cbn [StreamModel.run] in H.
    - assert (answers = []) by congruence. subst. destruct k; discriminate Hk.
    - destruct (serve (o, xs, m) b) as [[r0 [[o1 xs1] m1]]| |] eqn:ES.
      + destruct (run (o1, xs1, m1) reqs) as [a f] eqn:ER. assert (answers = Answered r0 :: a) by congruence. subst.
        apply serve_ok in ES as (EU & Et & EA & Ex & Em & EC & EI & EIC).
        destruct k as [|k].
        * simpl in Hk. assert (r0 = r) by congruence. subst r0. exists o1. cbn [answered firstn map nth_error].
          subst xs1. rewrite app_length in *. simpl length. split; [lia|]. split; [reflexivity|]. split; [lia|].
          split; [exact EC|]. split; [exact EI|exact EIC].
        * simpl in Hk. destruct (IH _ _ _ _ _ ER k r Hk) as (ok & E1 & E2 & E3 & E4 & E5 & E6). exists ok.
          cbv zeta. cbn [answered nth_error]. change (firstn (S (S k)) (r0 :: answered a)) with (r0 :: firstn (S k) (answered a)).
          cbn [map]. replace (xs ++ r_x r0 :: map r_x (firstn (S k) (answered a))) with (xs1 ++ map r_x (firstn (S k) (answered a))).
          2:{ rewrite Ex, <- app_assoc. reflexivity. }
          split; [rewrite E1, Ex, app_length; simpl length; lia|]. split; [exact E2|]. split; [exact E3|]. split; [exact E4|].
          split; [exact E5|exact E6].
      + assert (answers = [Failed]) by congruence. subst. destruct k as [|[|k]]; discriminate Hk.
      + assert (answers = [Failed]) by congruence. subst. destruct k as [|[|k]]; discriminate Hk.
    - assert (answers = []) by congruence. subst. destruct k; discriminate Hk.
  Qed.

  (** The first online request after the preparation. *)
  Lemma prepare_in_step w p o r : prepare ops alg default to_int of_int w p = Ok (o, r) ->
    (tend o = Z.of_nat (length (of_xs r)) <-> w < po_tend ops p \/ po_tend ops p <= 0) \/ po_tend ops p < 0.
  Proof.
    intros H. destruct (Z_lt_le_dec (po_tend ops p) 0) as [Hneg|Hpos]; [right; exact Hneg|left].
    apply prepare_ok in H as (Hw & _ & _ & _ & _ & H). destruct (1 <=? po_tend ops p - w) eqn:E.
    - apply Z.leb_le in E. destruct H as (HL1 & -> & _). cbn [on_p]. rewrite (proj1 HL). split; [lia|reflexivity].
    - apply Z.leb_gt in E. destruct H as (Hx & _ & ->). cbn [on_p]. rewrite Hx. simpl length.
      destruct (1 <? po_tend ops p) eqn:E1.
      + apply Z.ltb_lt in E1. rewrite (proj1 HL). split; [lia|]. intros [?|?]; lia.
      + apply Z.ltb_ge in E1. split; [lia|]. intros [?|?]; lia.
  Qed.

  Lemma first_request_fails w p o r b reqs : prepare ops alg default to_int of_int w p = Ok (o, r) ->
    advances ops model_update -> 1 <= po_tend ops p <= w ->
    run (o, of_xs r, of_m r) (Input b :: reqs) = ([Failed], None).
  Proof.
    intros H HA Hw. cbn [StreamModel.run]. unfold StreamModel.serve.
    destruct (model_update o b) as [o1| |] eqn:EU; [|reflexivity|reflexivity]. cbn [obind].
    apply HA in EU as [EU _].
    rewrite next_out_of_step; [reflexivity|]. rewrite EU. intros E.
    destruct (prepare_in_step w p o r H) as [HS|HS]; [|lia]. assert (HT : tend o = Z.of_nat (length (of_xs r))) by lia.
    apply HS in HT. lia.
  Qed.
End Stream.

(** *** Updates of the data-centre model *)

Lemma ssco_ops_lawful {T C D} (v : value T) merge vmerge outside s : lawful_ops (@ssco_ops T C D v merge vmerge outside s).
Proof. split; [reflexivity|]. split; [reflexivity|]. intros []. reflexivity. Qed.

Lemma sco_ops_lawful {T C D} (v : value T) merge vmerge outside s : lawful_ops (@sco_ops T C D v merge vmerge outside s).
Proof. split; [reflexivity|]. split; [reflexivity|]. intros []. reflexivity. Qed.

Lemma verify_update_ok w span : verify_update w span = Ok tt <-> w < span.
Proof. unfold verify_update. destruct (w <? span) eqn:E; [apply Z.ltb_lt in E|apply Z.ltb_ge in E]; split; intros; try lia; try reflexivity; discriminate. Qed.

Section Updates.
  Context {T C D : Type}.
  Variable v : value T.
  Variable vmerge : C -> C -> outcome C.
  Variable outside : D.
  Variable predicted : list (list (list Q)) -> Z -> single_fn (list T) C D.

  Notation registrations := (registrations predicted).

  Lemma of_history_app hist hist' : @of_history (list T) C D (hist ++ hist') = fold_left (fun cf e => cf_add cf (fst e) (snd e)) hist' (of_history hist).
  Proof. unfold of_history. apply fold_left_app. Qed.

  Lemma updates_ssco_spec : forall bs o o' hist, g_cost (on_p o) = of_history hist ->
    updates (update_ssco predicted) o bs = Ok o' ->
    Forall (fun b => on_w o < Z.of_nat (length b)) bs /\
    on_w o' = on_w o /\
    on_p o' = mkGSSCO (g_d (on_p o)) (g_tend (on_p o) + Z.of_nat (length bs)) (g_bounds (on_p o)) (g_switching (on_p o))
                (of_history (hist ++ registrations (g_tend (on_p o) + 1) bs)).
  Proof.
    induction bs as [|b bs IH]; intros o o' hist HC H.
    - simpl in H. assert (o' = o) by congruence. subst. split; [constructor|]. split; [reflexivity|].
      simpl. rewrite app_nil_r, Z.add_0_r, <- HC. destruct (on_p o). reflexivity.
    - cbn [updates] in H. unfold update_ssco at 1 in H.
      destruct (verify_update (on_w o) (Z.of_nat (length b))) as [[]| |] eqn:EV; try discriminate H. cbn [obind] in H.
      apply verify_update_ok in EV. apply (IH _ _ (hist ++ [(g_tend (on_p o) + 1, predicted b (g_tend (on_p o) + 1))])) in H.
      + destruct H as (H1 & H2 & H3). cbn [on_w on_p g_d g_tend g_bounds g_switching] in *. split; [constructor; assumption|].
        split; [exact H2|]. rewrite H3. rewrite <- app_assoc. cbn [registrations app length].
        replace (g_tend (on_p o) + 1 + Z.of_nat (length bs)) with (g_tend (on_p o) + Z.of_nat (S (length bs))) by lia. reflexivity.
      + cbn [on_p g_cost]. rewrite of_history_app. cbn [fold_left fst snd]. rewrite <- HC. reflexivity.
  Qed.

  Lemma registrations_later bs : forall t e, In e (registrations t bs) -> t <= fst e.
  Proof.
    induction bs as [|b bs IH]; intros t e H; [destruct H|]. simpl in H. destruct H as [<-|H]; [simpl; lia|]. apply IH in H. lia.
  Qed.

  Lemma history_later (hist' : list (Z * single_fn (list T) C D)) : forall hist t x, (forall e, In e hist' -> t < fst e) ->
    call_mean vmerge (of_history (hist ++ hist')) t x = call_mean vmerge (of_history hist) t x.
  Proof.
    induction hist' as [|[s f] hist' IH]; intros hist t x H; [rewrite app_nil_r; reflexivity|].
    replace (hist ++ (s, f) :: hist') with ((hist ++ [(s, f)]) ++ hist') by (rewrite <- app_assoc; reflexivity).
    rewrite IH by (intros e He; apply H; right; exact He).
    rewrite of_history_app. cbn [fold_left fst snd].
    apply (calls_later vmerge hist s f t x). apply (H (s, f)). left. reflexivity.
  Qed.

  Lemma updates_keep_costs bs o o' hist : g_cost (on_p o) = of_history hist ->
    updates (update_ssco predicted) o bs = Ok o' ->
    forall t x, t <= g_tend (on_p o) -> gssco_hit v vmerge outside (on_p o') t x = gssco_hit v vmerge outside (on_p o) t x.
  Proof.
    intros HC H t x Ht. apply (updates_ssco_spec bs o o' hist HC) in H as (_ & _ & ->).
    unfold gssco_hit, call_mean_within. cbn [g_bounds g_cost]. destruct (within_upper v (g_bounds (on_p o)) x) as [[|]| |]; auto.
    cbn [obind]. rewrite HC. apply history_later. intros e He. apply registrations_later in He. lia.
  Qed.

  Lemma updates_keep_objective bs o o' hist merge s : g_cost (on_p o) = of_history hist ->
    updates (update_ssco predicted) o bs = Ok o' ->
    forall xs t, t <= g_tend (on_p o) ->
    let ops := ssco_ops v merge vmerge outside s in
    po_objective ops (po_set ops (on_p o') t) xs = po_objective ops (po_set ops (on_p o) t) xs.
  Proof.
    intros HC H xs t Ht ops. pose proof (updates_keep_costs bs o o' hist HC H) as HK.
    apply (updates_ssco_spec bs o o' hist HC) in H as (_ & _ & HO).
    unfold ops. cbn [po_objective po_set ssco_ops]. unfold objective_o. cbn [g_d g_tend]. 
    replace (g_d (on_p o')) with (g_d (on_p o)) by (rewrite HO; reflexivity).
    f_equal. apply omap_ext. intros u Hu. apply zrange_In in Hu. unfold step_cost_o. cbn [gssco_problem op_tend op_hit op_move g_tend].
    replace (gssco_move v (mkGSSCO (g_d (on_p o)) t (g_bounds (on_p o')) (g_switching (on_p o')) (g_cost (on_p o'))))
      with (gssco_move v (mkGSSCO (g_d (on_p o)) t (g_bounds (on_p o)) (g_switching (on_p o)) (g_cost (on_p o))))
      by (rewrite HO; reflexivity).
    destruct (t <? u) eqn:E; [reflexivity|]. specialize (HK u (get_or xs (gzero v (g_d (on_p o))) u) ltac:(lia)).
    unfold gssco_hit in *. cbn [g_bounds g_cost] in *. rewrite HK. reflexivity.
  Qed.

  Lemma update_ssco_window o b : Z.of_nat (length b) <= on_w o -> update_ssco predicted o b = Panic.
  Proof.
    intros H. unfold update_ssco, verify_update. destruct (on_w o <? Z.of_nat (length b)) eqn:E; [apply Z.ltb_lt in E; lia|]. reflexivity.
  Qed.

  Lemma update_ssco_advances merge s : advances (ssco_ops v merge vmerge outside s) (update_ssco predicted).
  Proof.
    intros o b o' H. unfold update_ssco in H. destruct (verify_update _ _) as [[]| |]; try discriminate H. cbn [obind] in H.
    assert (o' = mkOnline (mkGSSCO (g_d (on_p o)) (g_tend (on_p o) + 1) (g_bounds (on_p o)) (g_switching (on_p o))
      (cf_add (g_cost (on_p o)) (g_tend (on_p o) + 1) (predicted b (g_tend (on_p o) + 1)))) (on_w o)) by congruence. subst. split; reflexivity.
  Qed.

  Lemma update_sco_spec (o o' : online (gsco T C D)) b hist : o_cost (on_p o) = of_history hist ->
    update_sco predicted o b = Ok o' ->
    on_w o < Z.of_nat (length b) /\ on_w o' = on_w o /\ o_tend (on_p o') = o_tend (on_p o) + 1 /\
    forall t x, t <= o_tend (on_p o) -> gsco_hit v vmerge outside (on_p o') t x = gsco_hit v vmerge outside (on_p o) t x.
  Proof.
    intros HC H. unfold update_sco in H. destruct (verify_update _ _) as [[]| |] eqn:EV; try discriminate H. cbn [obind] in H.
    apply verify_update_ok in EV. split; [exact EV|].
    assert (o' = mkOnline (mkGSCO (o_d (on_p o)) (o_tend (on_p o) + 1) (o_bounds (on_p o)) (o_norm (on_p o))
      (cf_add (o_cost (on_p o)) (o_tend (on_p o) + 1) (predicted b (o_tend (on_p o) + 1)))) (on_w o)) by congruence. subst o'.
    split; [reflexivity|]. split; [reflexivity|]. intros t x Ht. unfold gsco_hit, call_mean_within. cbn [on_p o_bounds o_cost].
    destruct (within_pairs v (o_bounds (on_p o)) x) as [[|]| |]; auto. cbn [obind]. rewrite HC. apply calls_later. lia.
  Qed.

  Lemma update_slo_spec (cast : Q -> T) (o o' : online (gslo T)) b : update_slo cast o b = Ok o' ->
    exists l, b = [[[l]]] /\ l_tend (on_p o) = Z.of_nat (length (l_load (on_p o))) /\ on_w o < 1 /\
      on_w o' = on_w o /\
      on_p o' = mkGSLO (l_d (on_p o)) (l_tend (on_p o) + 1) (l_bounds (on_p o)) (l_switching (on_p o)) (l_hitting (on_p o))
                  (l_load (on_p o) ++ [cast l]).
  Proof.
    unfold update_slo, pushed_load. destruct (_ =? _) eqn:E; cbn [negb]; [|discriminate]. apply Z.eqb_eq in E.
    destruct b as [|[|[|l [|? ?]] [|? ?]] [|? ?]]; try discriminate.
    destruct (verify_update _ _) as [[]| |] eqn:EV; try discriminate. cbn [obind]. apply verify_update_ok in EV.
    intros H. exists l. split; [reflexivity|]. split; [lia|]. split; [exact EV|].
    assert (o' = mkOnline (mkGSLO (l_d (on_p o)) (l_tend (on_p o) + 1) (l_bounds (on_p o)) (l_switching (on_p o)) (l_hitting (on_p o))
                  (l_load (on_p o) ++ [cast l])) (on_w o)) by congruence. subst. split; reflexivity.
  Qed.

  Lemma update_sblo_spec (cast : Q -> T) (o o' : online (gsblo T)) b : update_sblo cast o b = Ok o' ->
    exists l, b = [[[l]]] /\ b_tend (on_p o) = Z.of_nat (length (b_load (on_p o))) /\ on_w o < 1 /\
      on_w o' = on_w o /\
      on_p o' = mkGSBLO (b_d (on_p o)) (b_tend (on_p o) + 1) (b_bounds (on_p o)) (b_switching (on_p o)) (b_cost (on_p o))
                  (b_load (on_p o) ++ [cast l]).
  Proof.
    unfold update_sblo, pushed_load. destruct (_ =? _) eqn:E; cbn [negb]; [|discriminate]. apply Z.eqb_eq in E.
    destruct b as [|[|[|l [|? ?]] [|? ?]] [|? ?]]; try discriminate.
    destruct (verify_update _ _) as [[]| |] eqn:EV; try discriminate. cbn [obind]. apply verify_update_ok in EV.
    intros H. exists l. split; [reflexivity|]. split; [lia|]. split; [exact EV|].
    assert (o' = mkOnline (mkGSBLO (b_d (on_p o)) (b_tend (on_p o) + 1) (b_bounds (on_p o)) (b_switching (on_p o)) (b_cost (on_p o))
                  (b_load (on_p o) ++ [cast l])) (on_w o)) by congruence. subst. split; reflexivity.
  Qed.

  Lemma access_app {A} (l l' : list A) t : t <= Z.of_nat (length l) -> access (l ++ l') t = access l t.
  Proof.
    intros H. unfold access. destruct (1 <=? t) eqn:E; [|reflexivity]. apply Z.leb_le in E. cbn [andb].
    rewrite app_length. destruct (t <=? Z.of_nat (length l)) eqn:E1; [|apply Z.leb_gt in E1; lia].
    destruct (t <=? Z.of_nat (length l + length l')) eqn:E2; [|apply Z.leb_gt in E2; lia].
    apply nth_error_app1. lia.
  Qed.

  Lemma update_slo_keeps (cast : Q -> T) (o o' : online (gslo T)) b : update_slo cast o b = Ok o' ->
    forall t x, t <= l_tend (on_p o) -> slo_hit v (on_p o') t x = slo_hit v (on_p o) t x.
  Proof.
    intros H t x Ht. apply update_slo_spec in H as (l & _ & HL & _ & _ & ->). unfold slo_hit. cbn [l_load l_hitting l_d].
    rewrite access_app by lia. reflexivity.
  Qed.

  Lemma update_sblo_keeps minimize (cast : Q -> T) (o o' : online (gsblo T)) b : update_sblo cast o b = Ok o' ->
    forall t x, t <= b_tend (on_p o) -> sblo_hit v minimize (on_p o') t x = sblo_hit v minimize (on_p o) t x.
  Proof.
    intros H t x Ht. apply update_sblo_spec in H as (l & _ & HL & _ & _ & ->). unfold sblo_hit, call_certain_within. cbn [b_bounds b_load b_d].
    destruct (within_upper v (b_bounds (on_p o)) x) as [[|]| |]; auto. cbn [obind].
    unfold call_certain, apply_loads_over_time, cf_get, cf_new. cbn [bt_insert filter fst snd].
    destruct (1 <=? t) eqn:E1; [|reflexivity]. cbn [Z.leb Z.compare Pos.compare Pos.compare_cont andb map last from_option obind].
    unfold single_certain, single_predictive, certain. cbn [fst snd map last from_option obind].
    rewrite map_app. rewrite access_app; [reflexivity|]. rewrite map_length. lia.
  Qed.
End Updates.
