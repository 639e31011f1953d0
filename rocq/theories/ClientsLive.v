(** Concurrent clients of the server: every call returns. *)
From Coq Require Import Lia.
From Verif Require Import ClientsSpec ClientsProofs.
Local Open Scope nat_scope.

Section Live.
  Context {St B A : Type}.
  Variable handle : St -> B -> A * option St.
  Variable program : nat -> command (B := B).
  Variable st0 : St.

  Definition phase_weight (p : phase (A := A)) : nat :=
    match p with Calling => 6 | Connected => 2 | Waiting => 1 | _ => 0 end.
  Definition server_weight (sv : server_phase (St := St) (B := B)) : nat :=
    match sv with Starting _ => 1 | Listening _ => 0 | Reading _ _ => 2 | Computing _ _ _ => 1 | Gone => 0 end.
  Definition total (ph : nat -> phase) (L : list nat) : nat := list_sum (map (fun c => phase_weight (ph c)) L).
  Definition measure (s : system (St := St) (B := B) (A := A)) (L : list nat) : nat :=
    total (s_phase s) L + 3 * length (s_queue s) + server_weight (s_server s).

  Lemma total_out ph c np L : ~ In c L -> total (upd ph c np) L = total ph L.
  Proof.
    unfold total. induction L as [|x L IH]; intros H; [reflexivity|]. cbn [map list_sum fold_right]. unfold list_sum in IH. cbn [In] in H.
    rewrite IH by tauto. rewrite upd_other by (intros ->; tauto). reflexivity.
  Qed.

  Lemma total_upd ph c np L : NoDup L -> In c L -> total (upd ph c np) L + phase_weight (ph c) = total ph L + phase_weight np.
  Proof.
    induction L as [|x L IH]; intros HN HI; [contradiction|]. inversion HN as [|? ? H1 H2]; subst.
    assert (E : forall p, total p (x :: L) = phase_weight (p x) + total p L) by reflexivity. rewrite !E.
    destruct (Nat.eq_dec x c) as [->|Hx].
    - rewrite upd_same, total_out by exact H1. lia.
    - destruct HI as [HI|HI]; [contradiction|]. rewrite upd_other by exact Hx. specialize (IH H2 HI). lia.
  Qed.

  Definition covered (s : system (St := St) (B := B) (A := A)) (L : list nat) : Prop :=
    forall c, s_phase s c <> NotCalled -> In c L.

  Lemma internal_decreases s e s' L : NoDup L -> covered s L -> step handle program s e s' -> internal e ->
    covered s' L /\ (measure s' L < measure s L)%nat.
  Proof.
    intros HN HC HS HI.
    assert (HU : forall sv q ml ph c np, covered (mkSystem sv q ph ml) L -> ph c <> NotCalled -> np <> NotCalled ->
              covered (mkSystem sv q (upd ph c np) ml) L /\ total (upd ph c np) L + phase_weight (ph c) = total ph L + phase_weight np).
    { intros sv q ml ph c np H H1 H2. split.
      - intros c'. cbn [s_phase]. destruct (upd_cases ph c np c') as [[-> ->]|[Hn ->]]; intros H3; apply (H _); assumption.
      - apply total_upd; [exact HN|]. apply (H c). exact H1. }
    destruct HS.
    2: { split; [exact HC|]. unfold measure. cbn. lia. }
    1: { split; [exact HC|]. unfold measure. cbn. lia. }
    1: { inversion HI; contradiction. }
    1: { destruct (HU sv q ml ph c Connected HC) as [H2 H3]; [congruence|discriminate|]. split; [exact H2|].
         rewrite H in H3. unfold measure. cbn [s_phase s_queue s_server]. rewrite app_length. cbn in *. lia. }
    1: { destruct (HU sv q ml ph c (Returned Refused) HC) as [H2 H3]; [congruence|discriminate|]. split; [exact H2|].
         rewrite H in H3. unfold measure. cbn [s_phase s_queue s_server]. cbn in *. lia. }
    1: { destruct (HU sv q ml ph c Waiting HC) as [H2 H3]; [congruence|discriminate|]. split; [exact H2|].
         rewrite H in H3. unfold measure. cbn [s_phase s_queue s_server]. cbn in *. lia. }
    1: { destruct (HU sv q ml ph c (Returned Done) HC) as [H2 H3]; [congruence|discriminate|]. split; [exact H2|].
         rewrite H in H3. unfold measure. cbn [s_phase s_queue s_server]. cbn in *. lia. }
    1: { inversion HI; contradiction. }
    1: { inversion HI; contradiction. }
    1: { split; [exact HC|]. unfold measure. cbn [s_phase s_queue s_server length server_weight]. lia. }
    1: { split; [exact HC|]. unfold measure. cbn [s_phase s_queue s_server length server_weight]. lia. }
    1: { split; [exact HC|]. unfold measure. cbn [s_phase s_queue s_server length server_weight]. lia. }
    1: { split; [exact HC|]. unfold measure. destruct next; cbn [s_phase s_queue s_server length server_weight after]; lia. }
    1: { split; [exact HC|]. unfold measure. destruct next; cbn [s_phase s_queue s_server length server_weight after]; lia. }
    1: { split; [exact HC|]. unfold measure. cbn [s_phase s_queue s_server length server_weight]. lia. }
    1: { destruct (HU sv q ml ph c (Returned (Answer a)) HC) as [H2 H3]; [congruence|discriminate|]. split; [exact H2|].
         rewrite H in H3. unfold measure. cbn [s_phase s_queue s_server]. cbn in *. lia. }
    1: { destruct (HU Gone q ml ph c (Returned Lost) HC) as [H2 H3]; [congruence|discriminate|]. split; [exact H2|].
         rewrite H in H3. unfold measure. cbn [s_phase s_queue s_server]. cbn in *. lia. }
  Qed.

  Lemma internal_bounded k s e s' L : NoDup L -> covered s L -> internal_steps handle program k s e s' ->
    covered s' L /\ (k + measure s' L <= measure s L)%nat.
  Proof.
    intros HN HC H. induction H as [s|k s evs s' evs' s'' H IH HS HI]; [split; [exact HC|lia]|].
    destruct (IH HC) as [HC' Hk]. destruct (internal_decreases _ _ _ L HN HC' HS HI) as [HC'' Hm]. split; [exact HC''|lia].
  Qed.

  Lemma step_covered s e s' L : NoDup L -> covered s L -> step handle program s e s' -> exists L', NoDup L' /\ covered s' L'.
  Proof.
    intros HN HC HS.
    assert (HU : forall sv q ml ph c np, covered (mkSystem sv q ph ml) L -> ph c <> NotCalled -> covered (mkSystem sv q (upd ph c np) ml) L).
    { intros sv q ml ph c np H H1 c'. cbn [s_phase]. destruct (upd_cases ph c np c') as [[-> ->]|[Hn ->]]; intros H3; apply (H _); assumption. }
    destruct HS; try (exists L; split; [exact HN|]; exact HC);
      try (exists L; split; [exact HN|]; apply (HU _ _ _ _ _ _ HC); congruence).
    destruct (in_dec Nat.eq_dec c L) as [Hc|Hc]; [exists L|exists (c :: L)]; (split; [try constructor; assumption|]); intros c'; cbn [s_phase];
      (destruct (upd_cases ph c Calling c') as [[-> ->]|[Hn ->]]; intros H3; [|pose proof (HC c' H3)]; cbn [In]; auto).
  Qed.

  Lemma steps_covered sv evs s : steps handle program (initially sv) evs s -> exists L, NoDup L /\ covered s L.
  Proof.
    intros H. remember (initially sv) as s0 eqn:E. induction H as [s|s evs s' evs' s'' H IH HS].
    - subst s. exists []. split; [constructor|]. intros c Hc. cbn in Hc. congruence.
    - destruct (IH E) as (L & HN & HC). exact (step_covered _ _ _ L HN HC HS).
  Qed.

  (** What else holds in every reachable state. *)
  Record live (s : system (St := St) (B := B) (A := A)) : Prop := {
    j_waiting : forall c, s_phase s c = Waiting \/ s_phase s c = Dead true -> exists b, program c = Request b;
    j_connected : forall c, s_phase s c = Connected -> s_server s <> Gone -> In c (unread s);
    j_pending : forall c, s_phase s c = Waiting -> s_server s <> Gone ->
      s_mail s c <> None \/ In c (unread s) \/ exists st b, s_server s = Computing st c b;
    j_lost : forall c, s_phase s c = Returned Lost -> s_server s = Gone;
    j_refused : forall c, s_phase s c = Returned Refused -> ~ In c (unread s)
  }.

  Lemma live_initially sv : live (initially sv).
  Proof. split; cbn [initially s_phase]; intros; try discriminate. destruct H; discriminate. Qed.

  Lemma live_step s evs qs e s' : inv handle program st0 s evs qs -> live s -> step handle program s e s' -> live s'.
  Proof.
    intros I J HS. pose proof (i_arrived _ _ _ _ _ _ I) as HA.
    assert (HU : forall c, In c (unread s) -> s_phase s c <> NotCalled /\ s_phase s c <> Calling) by (intros c Hc; apply HA, in_or_app; right; exact Hc).
    clear HA I. destruct J as [J1 J2 J3 J4 J5]. destruct HS.
    - split; cbn [s_phase s_server s_mail] in *; eauto.
      + intros c H _. apply (J2 c H). discriminate.
      + intros c H _. destruct (J3 c H) as [H1|[H1|(st' & b & H1)]]; [discriminate|left; exact H1|right; left; exact H1|discriminate].
      + intros c H. specialize (J4 c H). discriminate.
    - split; cbn [s_phase s_server s_mail] in *; eauto; try contradiction.
    - split; cbn [s_phase s_server s_mail] in *; intros c'; destruct (upd_cases ph c Calling c') as [[-> ->]|[Hn ->]]; eauto; try discriminate.
      intros [Hc|Hc]; discriminate.
    -
      assert (EA : forall c', In c' (unread (mkSystem sv (q ++ [c]) (upd ph c Connected) ml)) <-> In c' (unread (mkSystem sv q ph ml)) \/ c = c').
      { intros c'. unfold unread. cbn [s_server s_queue]. rewrite app_assoc, in_snoc. reflexivity. }
      split; cbn [s_phase s_server s_mail] in *; intros c'; rewrite ?EA; destruct (upd_cases ph c Connected c') as [[-> ->]|[Hn ->]]; eauto; try discriminate.
      + intros [Hc|Hc]; discriminate.
      + intros H9 Hg. destruct (J3 c' H9 Hg) as [H3|[H3|H3]]; eauto.
      + intros H9 [H3|H3]; [exact (J5 c' H9 H3)|congruence].
    - split; cbn [s_phase s_server s_mail] in *; intros c'; destruct (upd_cases ph c (Returned Refused) c') as [[-> ->]|[Hn ->]]; eauto; try discriminate.
      + intros [Hc|Hc]; discriminate.
      + intros _ Hc. destruct (HU c Hc) as [_ Hc']. contradiction.
    - split; cbn [s_phase s_server s_mail] in *; intros c'; destruct (upd_cases ph c Waiting c') as [[-> ->]|[Hn ->]]; eauto; try discriminate.
    - split; cbn [s_phase s_server s_mail] in *; intros c'; destruct (upd_cases ph c (Returned Done) c') as [[-> ->]|[Hn ->]]; eauto; try discriminate.
      intros [Hc|Hc]; discriminate.
    - split; cbn [s_phase s_server s_mail] in *; intros c'; destruct (upd_cases ph c (Dead false) c') as [[-> ->]|[Hn ->]]; eauto; try discriminate.
      intros [Hc|Hc]; discriminate.
    - split; cbn [s_phase s_server s_mail] in *; intros c'; destruct (upd_cases ph c (Dead true) c') as [[-> ->]|[Hn ->]]; eauto; try discriminate.
    - split; cbn [s_phase s_server s_mail] in *; eauto.
      + intros c' H _. apply (J2 c' H). discriminate.
      + intros c' H _. destruct (J3 c' H) as [H1|[H1|(st' & b & H1)]]; [discriminate|left; exact H1|right; left; exact H1|discriminate].
      + intros c' H. specialize (J4 c' H). discriminate.
    - assert (HW : ph c <> Connected) by (unfold wire in H; cbn [s_phase] in H; destruct (ph c); destruct (program c); discriminate).
      split; cbn [s_phase s_server s_mail] in *; eauto.
      + intros c' H0 _. destruct (J2 c' H0) as [H1|H1]; [discriminate|subst c'; contradiction|exact H1].
      + intros c' H0 _. destruct (J3 c' H0) as [H1|[H1|(st' & b' & H1)]]; [discriminate|left; exact H1|destruct H1 as [<-|H1]; [right; right; eauto|right; left; exact H1]|discriminate].
      + intros c' H0. specialize (J4 c' H0). discriminate.
      + intros c' H0 H1. apply (J5 c' H0). right. exact H1.
    - split; cbn [s_phase s_server s_mail] in *; eauto; try contradiction. intros c' H0 H1. apply (J5 c' H0). right. exact H1.
    - assert (HX : forall c', In c' (unread (mkSystem (St := St) (B := B) (A := A) (after next) q ph (upd ml c (Some a)))) <-> In c' (unread (mkSystem (A := A) (Computing st c b) q ph ml))) by (intros; unfold unread, after; destruct next; reflexivity).
      split; cbn [s_phase s_server s_mail] in *; intros c'; rewrite ?HX; eauto.
      + intros H1 _. apply (J2 c' H1). discriminate.
      + intros H1 _. destruct (upd_cases ml c (Some a) c') as [[-> ->]|[Hn ->]]; [left; discriminate|].
        destruct (J3 c' H1) as [H2|[H2|(st' & b' & H2)]]; [discriminate|left; exact H2|right; left; exact H2|congruence].
      + intros H1. specialize (J4 c' H1). discriminate.
    - assert (HX : forall c', In c' (unread (mkSystem (St := St) (B := B) (A := A) (after next) q ph ml)) <-> In c' (unread (mkSystem (A := A) (Computing st c b) q ph ml))) by (intros; unfold unread, after; destruct next; reflexivity).
      split; cbn [s_phase s_server s_mail] in *; intros c'; rewrite ?HX; eauto.
      + intros H1 _. apply (J2 c' H1). discriminate.
      + intros H1 _. destruct (J3 c' H1) as [H2|[H2|(st' & b' & H2)]]; [discriminate|left; exact H2|right; left; exact H2|congruence].
      + intros H1. specialize (J4 c' H1). discriminate.
    - split; cbn [s_phase s_server s_mail] in *; eauto; try contradiction.
    - split; cbn [s_phase s_server s_mail] in *; intros c'; destruct (upd_cases ph c (Returned (Answer a)) c') as [[-> ->]|[Hn ->]]; eauto; try discriminate; intros [Hc|Hc]; discriminate.
    - split; cbn [s_phase s_server s_mail] in *; intros c'; destruct (upd_cases ph c (Returned Lost) c') as [[-> ->]|[Hn ->]]; eauto; try discriminate; try contradiction.
  Qed.

  Lemma live_steps sv evs s : sv = Starting st0 \/ sv = Listening st0 -> steps handle program (initially sv) evs s -> live s.
  Proof.
    intros Hsv H. remember (initially sv) as s0 eqn:E. revert E. induction H as [s|s evs s' evs' s'' H IH HS]; intros E.
    - subst s. apply live_initially.
    - subst s. destruct (inv_steps handle program st0 sv evs s' Hsv H) as [qs I]. exact (live_step _ _ _ _ _ I (IH eq_refl) HS).
  Qed.

  Lemma internal_steps_steps k s evs s' evs' s'' : steps handle program s evs s' -> internal_steps handle program k s' evs' s'' ->
    steps handle program s (evs ++ evs') s''.
  Proof.
    intros H H'. induction H' as [s'|k s' evs1 s1 evs2 s2 H1 IH HS HI]; [rewrite app_nil_r; exact H|]. rewrite app_assoc. econstructor; [apply IH; exact H|exact HS].
  Qed.

  (** Nothing can happen any more only if nobody waits. *)
  Lemma quiescent s evs qs c : inv handle program st0 s evs qs -> live s -> (forall e s', step handle program s e s' -> ~ internal e) ->
    In (Called c) evs -> (exists r, In (Got c r) evs) \/ In (Died c) evs.
  Proof.
    intros I J HQ Hc. apply (i_called _ _ _ _ _ _ I) in Hc. destruct s as [sv q ph ml]. cbn [s_phase] in *.
    assert (G : forall r, internal [Got (A := A) c r]) by (intros r; repeat constructor).
    assert (G0 : internal (A := A) []) by constructor.
    assert (HConn : forall c', ph c' <> Connected).
    { intros c' E. destruct (program c') as [b|] eqn:EP.
      - exact (HQ _ _ (step_send handle program sv q ph ml c' b E EP) G0).
      - refine (HQ _ _ (step_close handle program sv q ph ml c' E EP) _). repeat constructor. }
    destruct (ph c) as [| | | |r|b] eqn:E; [congruence|..].
    - exfalso. destruct sv as [st|st|st c'|st c' b|].
      + exact (HQ _ _ (step_refused handle program _ q ph ml c E (or_introl (ex_intro _ st eq_refl))) (G _)).
      + refine (HQ _ _ (step_connect handle program _ q ph ml c E _ _) G0); discriminate.
      + refine (HQ _ _ (step_connect handle program _ q ph ml c E _ _) G0); discriminate.
      + refine (HQ _ _ (step_connect handle program _ q ph ml c E _ _) G0); discriminate.
      + exact (HQ _ _ (step_refused handle program _ q ph ml c E (or_intror eq_refl)) (G _)).
    - destruct (HConn c E).
    - exfalso. destruct (ml c) as [a|] eqn:EM; [exact (HQ _ _ (step_receive handle program sv q ph ml c a E EM) (G _))|].
      destruct sv as [st|st|st c'|st c' b|].
      + exact (HQ _ _ (step_bind handle program st q ph ml) G0).
      + destruct (j_pending _ J c E) as [H|[H|(st' & b & H)]]; cbn in *; try discriminate; [contradiction|].
        destruct q as [|c' q]; [contradiction|]. exact (HQ _ _ (step_accept handle program st c' q ph ml) G0).
      + assert (HR : In c' (map fst qs ++ unread (mkSystem (St := St) (B := B) (A := A) (Reading st c') q ph ml))) by (apply in_or_app; right; left; reflexivity).
        destruct (i_arrived _ _ _ _ _ _ I c' HR) as [H1 H2]. cbn [s_phase] in H1, H2.
        assert (HN : forall a, ph c' <> Returned (Answer a)).
        { intros a Ha. apply (i_answer _ _ _ _ _ _ I) in Ha. apply (i_mail _ _ _ _ _ _ I) in Ha. destruct Ha as (k & b & K & _).
          pose proof (i_nodup _ _ _ _ _ _ I) as ND. cbn in ND. apply nth_error_In, (in_map fst) in K. cbn [fst] in K.
          apply NoDup_remove_2 in ND. apply ND, in_or_app. left. exact K. }
        destruct (wire program (mkSystem (Reading st c') q ph ml) c') as [[b|]|] eqn:EW.
        * exact (HQ _ _ (step_read handle program st c' q ph ml b EW) G0).
        * exact (HQ _ _ (step_end handle program st c' q ph ml EW) G0).
        * pose proof (j_waiting _ J c') as JW. pose proof (j_lost _ J c') as JL. pose proof (j_refused _ J c') as JR.
          cbn [s_phase s_server] in JW, JL, JR. unfold wire in EW. cbn [s_phase] in EW.
          destruct (ph c') as [| | | |[]|[]] eqn:E'; try contradiction; try discriminate.
          -- destruct (HConn c' E').
          -- destruct JW as [b EP]; [auto|]. rewrite EP in EW. discriminate.
          -- apply (HN a eq_refl).
          -- apply JR; [reflexivity|left; reflexivity].
          -- specialize (JL eq_refl). discriminate.
          -- destruct JW as [b EP]; [auto|]. rewrite EP in EW. discriminate.
      + destruct (handle st b) as [a next] eqn:EH.
        assert (HD : ph c' = Dead true \/ ph c' <> Dead true) by (destruct (ph c') as [| | | | |[]]; auto; right; discriminate).
        destruct HD as [HD|HD].
        * exact (HQ _ _ (step_unnoticed handle program st c' b q ph ml a next EH HD) G0).
        * exact (HQ _ _ (step_answer handle program st c' b q ph ml a next EH HD) G0).
      + exact (HQ _ _ (step_lost handle program q ph ml c E EM) (G _)).
    - left. exists r. apply (i_got _ _ _ _ _ _ I). exact E.
    - right. apply (i_died _ _ _ _ _ _ I c b). exact E.
  Qed.

  Lemma calls_end sv evs s : sv = Starting st0 \/ sv = Listening st0 -> steps handle program (initially sv) evs s ->
    exists n, forall k evs' s', internal_steps handle program k s evs' s' ->
      (k <= n)%nat /\
      ((forall e s'', step handle program s' e s'' -> ~ internal e) ->
       forall c, In (Called c) evs -> (exists r, In (Got c r) (evs ++ evs')) \/ In (Died c) evs).
  Proof.
    intros Hsv H. destruct (steps_covered sv evs s H) as (L & HN & HC). exists (measure s L). intros k evs' s' HI.
    destruct (internal_bounded k s evs' s' L HN HC HI) as [_ Hk]. split; [lia|]. intros HQ c Hc.
    pose proof (internal_steps_steps _ _ _ _ _ _ H HI) as H'. destruct (inv_steps handle program st0 sv _ s' Hsv H') as [qs I].
    destruct (quiescent s' _ qs c I (live_steps sv _ s' Hsv H') HQ) as [HG|HD]; [apply in_or_app; left; exact Hc|left; exact HG|].
    right. apply in_app_or in HD as [HD|HD]; [exact HD|]. exfalso. clear -HI HD.
    induction HI as [s|k s evs s' evs1 s'' H IH HS HI]; [contradiction|]. apply in_app_or in HD as [HD|HD]; [auto|].
    unfold internal in HI. rewrite Forall_forall in HI. exact (HI _ HD).
  Qed.

  (** Without deaths, stops and failures, the server stays up. *)
  Lemma healthy evs s : steps handle program (initially (Listening st0)) evs s ->
    (forall c, In (Called c) evs -> program c <> Halt) -> (forall c, ~ In (Died c) evs) ->
    (forall bs, Forall (fun b => exists c, program c = Request b) bs -> snd (sequential handle st0 (map Input bs)) <> None) ->
    (s_server s <> Gone /\ forall st, s_server s <> Starting st) /\ forall c r, In (Got c r) evs -> exists a, r = Answer a.
  Proof.
    intros H HP HD HF. remember (initially (Listening st0)) as s0 eqn:E. revert E. induction H as [s|s evs s' evs' s'' H IH HS]; intros E.
    - subst s. cbn. split; [split; discriminate|contradiction].
    - subst s. assert (HD' : forall c, ~ In (Died c) evs) by (intros c Hc; apply (HD c), in_or_app; left; exact Hc).
      assert (HP' : forall c, In (Called c) evs -> program c <> Halt) by (intros c Hc; apply HP, in_or_app; left; exact Hc).
      specialize (IH HP' HD' eq_refl). destruct IH as [[IG IS] IR].
      destruct (inv_steps handle program st0 (Listening st0) evs s' (or_intror eq_refl) H) as [qs I].
      assert (ND : forall c b, s_phase s' c <> Dead b) by (intros c b Hc; exact (HD' c (i_died _ _ _ _ _ _ I c b Hc))).
      assert (NH : forall c, s_phase s' c <> Returned Done) by (intros c Hc; refine (HP' c _ (i_done _ _ _ _ _ _ I c Hc)); apply (i_called _ _ _ _ _ _ I); rewrite Hc; discriminate).
      assert (HI : forall qs' : list (nat * request (B := B)), (forall q, In q qs' -> In q qs) -> exists bs, map snd qs' = map Input bs /\ Forall (fun b => exists c, program c = Request b) bs).
      { induction qs' as [|[c [b|]] qs' IH]; intros Hin.
        - exists []. split; [reflexivity|constructor].
        - destruct IH as (bs & E1 & E2); [intros q Hq; apply Hin; right; exact Hq|]. exists (b :: bs). cbn [map snd]. split; [f_equal; exact E1|].
          constructor; [|exact E2]. exists c. apply (i_request _ _ _ _ _ _ I). apply Hin. left. reflexivity.
        - exfalso. destruct (i_stop _ _ _ _ _ _ I c (Hin _ (or_introl eq_refl))) as [Hc|Hc]; [|exact (HD' c Hc)]. refine (HP' c _ Hc).
          apply (i_called _ _ _ _ _ _ I). refine (proj1 (i_arrived _ _ _ _ _ _ I c _)). apply in_or_app. left.
          exact (in_map fst _ _ (Hin _ (or_introl eq_refl))). }
      assert (HH : forall st c b a next, s_server s' = Computing st c b -> handle st b = (a, next) -> next <> None).
      { intros st c b a next ES EH En. subst next. pose proof (i_state _ _ _ _ _ _ I) as HS'. rewrite ES in HS'. cbn [state_ok] in HS'. destruct HS' as (qs' & Eq & Est).
        destruct (last_answer handle st0 qs' st c b a None Est EH) as [E1 _]. rewrite <- Eq in E1.
        destruct (HI qs (fun q Hq => Hq)) as (bs & Eb & Hbs). rewrite Eb in E1. apply (HF bs Hbs). rewrite E1. reflexivity. }
      assert (HX : forall e, (forall c r, In (Got c r) e -> exists a, r = Answer a) -> forall c r, In (Got c r) (evs ++ e) -> exists a, r = Answer a).
      { intros e He c r Hc. apply in_app_or in Hc as [Hc|Hc]; eauto. }
      assert (HY : forall (e : event (A := A)) c, (forall c' r', e <> Got c' r') -> forall r, In (Got c r) [e] -> exists a, r = Answer a) by (intros e c He r [Hc|[]]; destruct (He _ _ Hc)).
      assert (HZ : forall c r, In (Got (A := A) c r) [] -> exists a, r = Answer a) by contradiction.
      destruct HS as [st q ph ml|st q ph ml|sv q ph ml c E|sv q ph ml c E E1 E2|sv q ph ml c E E1|sv q ph ml c b E E1|sv q ph ml c E E1|sv q ph ml c E|sv q ph ml c E|st c q ph ml|st c q ph ml b E|st c q ph ml E|st c b q ph ml a next E E1|st c b q ph ml a next E E1|st c b q ph ml E|sv q ph ml c a E E1|q ph ml c E E1];
        cbn [s_server s_phase s_mail] in *.
      + destruct (IS st eq_refl).
      + destruct (IS st eq_refl).
      + split; [split; assumption|]. apply HX. intros c' r. apply HY. discriminate.
      + split; [split; assumption|]. apply HX. exact HZ.
      + exfalso. destruct E1 as [[st E1]|E1]; [exact (IS st E1)|exact (IG E1)].
      + split; [split; assumption|]. apply HX. exact HZ.
      + exfalso. refine (HP' c _ E1). apply (i_called _ _ _ _ _ _ I). cbn [s_phase]. rewrite E. discriminate.
      + destruct (HD c). apply in_snoc. right. reflexivity.
      + destruct (HD c). apply in_snoc. right. reflexivity.
      + split; [split; discriminate|]. apply HX. exact HZ.
      + split; [split; discriminate|]. apply HX. exact HZ.
      + exfalso. unfold wire in E. cbn [s_phase] in E. destruct (ph c) as [| | | |[]|[]] eqn:E'; destruct (program c); try discriminate; try (exact (ND c _ E')); exact (NH c E').
      + split; [|apply HX; exact HZ]. destruct next as [st'|]; [cbn; split; discriminate|]. destruct (HH st c b a None eq_refl E eq_refl).
      + destruct (ND c _ E1).
      + destruct (ND c _ E).
      + split; [split; assumption|]. apply HX. intros c' r [Hc|[]]. injection Hc as _ <-. eauto.
      + destruct IG. reflexivity.
  Qed.

  (** Executions can be cut after every event. *)
  Lemma steps_cut s0 evs s : steps handle program s0 evs s -> forall l1 e l2, evs = l1 ++ e :: l2 ->
    exists s', steps handle program s0 (l1 ++ [e]) s'.
  Proof.
    intros H. induction H as [s|s evs s' evs' s'' H IH HS]; intros l1 e l2 E; [destruct l1; discriminate|].
    assert (HL : evs' = [] \/ exists x, evs' = [x]) by (destruct HS; eauto).
    destruct HL as [-> |[x ->]]; [rewrite app_nil_r in E; eauto|].
    destruct l2 as [|y l2] using rev_ind.
    - exists s''. rewrite <- E. exact (steps_more _ _ _ _ _ _ _ H HS).
    - clear IHl2. rewrite app_comm_cons, app_assoc in E. apply app_inj_tail in E as [E _]. eauto.
  Qed.
End Live.

(** The server of StreamModel.v. *)
Section Server.
  Context {P X C D M Y B : Type}.
  Variable ops : problem_ops P X C D.
  Variable alg : online P -> Z -> list X -> M -> outcome (X * option M).
  Variable default : online P -> M.
  Variable to_int : X -> Y.
  Variable of_int : Y -> X.
  Variable model_update : online P -> B -> outcome (online P).
  Notation handle := (handle_input ops alg default to_int of_int model_update).
  Notation requests_run := (run ops alg default to_int of_int model_update).

  Lemma sequential_run : forall qs st, sequential handle st qs = requests_run st qs.
  Proof.
    induction qs as [|[b|] qs IH]; intros st; cbn [sequential run]; [reflexivity| |reflexivity]. unfold handle_input.
    destruct (serve ops alg default to_int of_int model_update st b) as [[r st']|f|]; [|reflexivity|reflexivity]. rewrite IH. reflexivity.
  Qed.

  Lemma server_linearizes program st0 sv evs s : sv = Starting st0 \/ sv = Listening st0 -> steps handle program (initially sv) evs s ->
    exists order : list (nat * request (B := B)),
      NoDup (map fst order) /\
      (forall c q, In (c, q) order -> In (Called c) evs /\
         match q with Input b => program c = Request b | Undecodable => program c = Halt \/ In (Died c) evs end) /\
      (forall c a, In (Got c (Answer a)) evs -> exists k b,
         nth_error order k = Some (c, Input b) /\ nth_error (fst (requests_run st0 (map snd order))) k = Some a) /\
      (forall c r c' k k' q q', precedes (Got c r) (Called c') evs ->
         nth_error order k = Some (c, q) -> nth_error order k' = Some (c', q') -> (k < k')%nat).
  Proof.
    intros Hsv H. destruct (linearizes handle program st0 sv evs s Hsv H) as (order & H1 & H2 & H3 & H4). exists order. rewrite sequential_run in H3. auto.
  Qed.

  Lemma run_all_answered : forall qs st, snd (requests_run st qs) <> None -> forall a, In a (fst (requests_run st qs)) -> exists r, a = Answered r.
  Proof.
    induction qs as [|[b|] qs IH]; intros st H a; cbn [run] in *; [contradiction| |contradiction].
    destruct (serve ops alg default to_int of_int model_update st b) as [[r st']|f|]; cbn [snd fst] in *; [|congruence|congruence].
    specialize (IH st'). destruct (requests_run st' qs) as [l f]. cbn [snd fst] in *. intros [<-|Ha]; eauto.
  Qed.

  Lemma server_healthy program st0 evs s : steps handle program (initially (Listening st0)) evs s ->
    (forall c, In (Called c) evs -> program c <> Halt) -> (forall c, ~ In (Died c) evs) ->
    (forall bs, Forall (fun b => exists c, program c = Request b) bs -> snd (requests_run st0 (map Input bs)) <> None) ->
    forall c r, In (Got c r) evs -> exists x, r = Answer (Answered x).
  Proof.
    intros H HP HD HF c r Hc. assert (HF' : forall bs, Forall (fun b => exists c, program c = Request b) bs -> snd (sequential handle st0 (map Input bs)) <> None) by (intros bs Hbs; rewrite sequential_run; auto).
    destruct (healthy handle program st0 evs s H HP HD HF') as [_ HA]. destruct (HA c r Hc) as [a ->].
    destruct (server_linearizes program st0 _ evs s (or_intror eq_refl) H) as (order & _ & H2 & H3 & _).
    destruct (H3 c a Hc) as (k & b & _ & K). apply nth_error_In in K.
    assert (HB : exists bs, map snd order = map Input bs /\ Forall (fun b => exists c, program c = Request b) bs).
    { clear -H2 HP HD. induction order as [|[c [b|]] order IH].
      - exists []. split; [reflexivity|constructor].
      - destruct IH as (bs & E1 & E2); [intros c' q Hq; apply H2; right; exact Hq|]. exists (b :: bs). cbn [map snd]. split; [f_equal; exact E1|].
        constructor; [|exact E2]. exists c. apply (H2 c (Input b)). left. reflexivity.
      - exfalso. destruct (H2 c Undecodable (or_introl eq_refl)) as [HC [Hc|Hc]]; [exact (HP c HC Hc)|exact (HD c Hc)]. }
    destruct HB as (bs & Eb & Hbs). rewrite Eb in K. destruct (run_all_answered _ _ (HF bs Hbs) a K) as [x ->]. exists x. reflexivity.
  Qed.

  Lemma server_healthy_before program st0 evs s : steps handle program (initially (Listening st0)) evs s ->
    (forall bs, Forall (fun b => exists c, program c = Request b) bs -> snd (requests_run st0 (map Input bs)) <> None) ->
    forall before c r later, evs = before ++ Got c r :: later ->
    (forall c', In (Called c') before -> program c' <> Halt) -> (forall c', ~ In (Died c') before) ->
    exists x, r = Answer (Answered x).
  Proof.
    intros H HF before c r later E HP HD. destruct (steps_cut handle program _ _ _ H before (Got c r) later E) as [s' H'].
    apply (server_healthy program st0 _ s' H') with (c := c); [| |exact HF|apply in_snoc; right; reflexivity].
    - intros c' Hc. apply in_snoc in Hc as [Hc|Hc]; [auto|discriminate].
    - intros c' Hc. apply in_snoc in Hc as [Hc|Hc]; [exact (HD c' Hc)|discriminate].
  Qed.
End Server.
