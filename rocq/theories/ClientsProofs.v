(** Concurrent clients of the server. *)
From Coq Require Import Lia.
From Verif Require Import ClientsSpec.

Lemma precedes_snoc {E} (x y z : E) l : precedes x y (l ++ [z]) <-> precedes x y l \/ (z = y /\ In x l).
Proof.
  split.
  - intros (l1 & l2 & l3 & H). destruct l3 as [|e l3] using rev_ind.
    + right. change (l1 ++ x :: l2 ++ [y]) with (l1 ++ (x :: l2) ++ [y]) in H. rewrite app_assoc in H. apply app_inj_tail in H as [H ->].
      split; [reflexivity|]. rewrite H. apply in_or_app. right. left. reflexivity.
    + left. replace (l1 ++ x :: l2 ++ y :: l3 ++ [e]) with ((l1 ++ x :: l2 ++ y :: l3) ++ [e]) in H.
      * apply app_inj_tail in H as [H _]. exists l1, l2, l3. exact H.
      * repeat (rewrite <- app_assoc; cbn [app]). reflexivity.
  - intros [(l1 & l2 & l3 & ->)|[-> H]].
    + exists l1, l2, (l3 ++ [z]). repeat (rewrite <- app_assoc; cbn [app]). reflexivity.
    + apply in_split in H as (l1 & l2 & ->). exists l1, l2, []. rewrite <- app_assoc. reflexivity.
Qed.

Lemma precedes_app_nil {E} (x y : E) l : precedes x y (l ++ []) <-> precedes x y l.
Proof. rewrite app_nil_r. reflexivity. Qed.

Lemma nodup_front {E} (l l' : list E) : NoDup (l ++ l') -> NoDup l.
Proof.
  induction l as [|x l IH]; cbn [app]; intros H; [constructor|]. inversion H as [|? ? H1 H2]; subst.
  constructor; [intros HI; apply H1, in_or_app; left; exact HI|apply IH; exact H2].
Qed.

Lemma in_snoc {E} (x y : E) l : In x (l ++ [y]) <-> In x l \/ y = x.
Proof. rewrite in_app_iff. cbn [In]. tauto. Qed.

Lemma upd_same {V} (f : nat -> V) c v : upd f c v c = v.
Proof. unfold upd. rewrite Nat.eqb_refl. reflexivity. Qed.
Lemma upd_other {V} (f : nat -> V) c v c' : c' <> c -> upd f c v c' = f c'.
Proof. intros H. unfold upd. apply Nat.eqb_neq in H. rewrite H. reflexivity. Qed.
Lemma upd_cases {V} (f : nat -> V) c v c' : (c' = c /\ upd f c v c' = v) \/ (c' <> c /\ upd f c v c' = f c').
Proof. destruct (Nat.eq_dec c' c) as [->|H]; [left; split; [reflexivity|apply upd_same]|right; split; [exact H|apply upd_other; exact H]]. Qed.

Section Clients.
  Context {St B A : Type}.
  Variable handle : St -> B -> A * option St.
  Variable program : nat -> command (B := B).
  Variable st0 : St.

  (** The answers to requests handled one after the other. *)
  Fixpoint sequential (st : St) (qs : list (request (B := B))) : list A * option St :=
    match qs with
    | [] => ([], Some st)
    | Undecodable :: _ => ([], None)
    | Input b :: qs' =>
        match handle st b with
        | (a, Some st') => let (l, final) := sequential st' qs' in (a :: l, final)
        | (a, None) => ([a], None)
        end
    end.

  Lemma sequential_app : forall qs st qs', sequential st (qs ++ qs') =
    match sequential st qs with
    | (l, Some st') => let (l', final) := sequential st' qs' in (l ++ l', final)
    | (l, None) => (l, None)
    end.
  Proof.
    induction qs as [|[b|] qs IH]; intros st qs'; cbn [sequential app].
    - destruct (sequential st qs'). reflexivity.
    - destruct (handle st b) as [a [st'|]]; [|reflexivity]. rewrite IH. destruct (sequential st' qs) as [l [st''|]]; [|reflexivity].
      destruct (sequential st'' qs'). reflexivity.
    - reflexivity.
  Qed.

  Lemma sequential_length : forall qs st l st', sequential st qs = (l, Some st') -> length l = length qs.
  Proof.
    induction qs as [|[b|] qs IH]; intros st l st'; cbn [sequential]; intros H.
    - injection H as <- _. reflexivity.
    - destruct (handle st b) as [a [st1|]]; [|discriminate]. destruct (sequential st1 qs) as [l1 f] eqn:E. injection H as <- ->.
      cbn [length]. f_equal. exact (IH _ _ _ E).
    - discriminate.
  Qed.

  Lemma sequential_prefix qs qs' k a : nth_error (fst (sequential st0 qs)) k = Some a ->
    nth_error (fst (sequential st0 (qs ++ qs'))) k = Some a.
  Proof.
    intros H. rewrite sequential_app. destruct (sequential st0 qs) as [l [st'|]]; [|exact H].
    destruct (sequential st' qs') as [l' f]. cbn [fst] in *. rewrite nth_error_app1; [exact H|]. apply nth_error_Some. rewrite H. discriminate.
  Qed.

  (** Clients that are connected but whose requests were not read. *)
  Definition unread (s : system (St := St) (B := B) (A := A)) : list nat :=
    (match s_server s with Reading _ c => [c] | _ => [] end) ++ s_queue s.

  Definition state_ok (sv : server_phase (St := St) (B := B)) (qs : list (nat * request (B := B))) : Prop :=
    match sv with
    | Starting st => qs = [] /\ st = st0
    | Listening st | Reading st _ => snd (sequential st0 (map snd qs)) = Some st
    | Computing st c b => exists qs', qs = qs' ++ [(c, Input b)] /\ snd (sequential st0 (map snd qs')) = Some st
    | Gone => True
    end.

  Definition answered_with (qs : list (nat * request (B := B))) (c : nat) (a : A) : Prop :=
    exists k b, nth_error qs k = Some (c, Input b) /\ nth_error (fst (sequential st0 (map snd qs))) k = Some a.

  Record inv (s : system) (evs : list event) (qs : list (nat * request)) : Prop := {
    i_nodup : NoDup (map fst qs ++ unread s);
    i_arrived : forall c, In c (map fst qs ++ unread s) -> s_phase s c <> NotCalled /\ s_phase s c <> Calling;
    i_called : forall c, In (Called c) evs <-> s_phase s c <> NotCalled;
    i_got : forall c r, In (Got c r) evs <-> s_phase s c = Returned r;
    i_died : forall c b, s_phase s c = Dead b -> In (Died c) evs;
    i_done : forall c, s_phase s c = Returned Done -> program c = Halt;
    i_request : forall c b, In (c, Input b) qs -> program c = Request b;
    i_stop : forall c, In (c, Undecodable) qs -> program c = Halt \/ In (Died c) evs;
    i_state : state_ok (s_server s) qs;
    i_mail : forall c a, s_mail s c = Some a -> answered_with qs c a;
    i_answer : forall c a, s_phase s c = Returned (Answer a) -> s_mail s c = Some a;
    i_order : forall l1 c l2 c' r, map fst qs ++ unread s = l1 ++ c :: l2 -> In c' l2 -> ~ precedes (Got c' r) (Called c) evs;
    i_self : forall c r, ~ precedes (Got c r) (Called c) evs
  }.

  Lemma answered_more qs q c a : answered_with qs c a -> answered_with (qs ++ [q]) c a.
  Proof.
    intros (k & b & H1 & H2). exists k, b. split.
    - rewrite nth_error_app1; [exact H1|]. apply nth_error_Some. rewrite H1. discriminate.
    - rewrite map_app. apply sequential_prefix. exact H2.
  Qed.

  Lemma inv_initially sv : sv = Starting st0 \/ sv = Listening st0 -> inv (initially sv) [] [].
  Proof.
    intros H. split; cbn [initially s_phase s_mail s_server s_queue map app]; try (intros; cbn in *; contradiction || discriminate).
    - unfold unread. destruct H as [-> | ->]; constructor.
    - intros c. unfold unread. destruct H as [-> | ->]; intros [].
    - intros c. split; [intros []|intros H0; congruence].
    - intros c r. split; [intros []|discriminate].
    - destruct H as [-> | ->]; cbn; auto.
    - intros l1 c l2 c' r _ _ (a & b & d & E). destruct a; discriminate.
    - intros c r (a & b & d & E). destruct a; discriminate.
  Qed.

  (** Steps of the server: the calls and the events stay the same. *)
  Lemma inv_server sv sv' q q' ph ml ml' evs qs qs' :
    inv (mkSystem sv q ph ml) evs qs ->
    map fst qs' ++ unread (mkSystem sv' q' ph ml') = map fst qs ++ unread (mkSystem sv q ph ml) ->
    state_ok sv' qs' ->
    (forall c b, In (c, Input b) qs' -> program c = Request b) ->
    (forall c, In (c, Undecodable) qs' -> program c = Halt \/ In (Died c) evs) ->
    (forall c a, ml' c = Some a -> answered_with qs' c a) ->
    (forall c a, ph c = Returned (Answer a) -> ml c = Some a -> ml' c = Some a) ->
    inv (mkSystem sv' q' ph ml') (evs ++ []) qs'.
  Proof.
    intros I EA H1 H2 H3 H4 H5. rewrite app_nil_r. destruct I. split; rewrite ?EA; cbn [s_phase s_server s_mail] in *; auto.
  Qed.

  (** Steps of a call. *)
  Lemma inv_call sv q ph ml evs qs c : ph c = NotCalled ->
    inv (mkSystem sv q ph ml) evs qs -> inv (mkSystem sv q (upd ph c Calling) ml) (evs ++ [Called c]) qs.
  Proof.
    intros Hc I. pose proof (i_arrived _ _ _ I) as HA. pose proof (i_got _ _ _ I) as HG. destruct I. cbn [s_phase s_server s_mail] in *.
    assert (Hn : ~ In c (map fst qs ++ unread (mkSystem sv q ph ml))) by (intros H; exact (proj1 (HA c H) Hc)).
    split; cbn [s_phase s_server s_mail]; auto.
    - intros c' H. change (unread _) with (unread (mkSystem sv q ph ml)) in H. rewrite upd_other by (intros ->; contradiction). apply HA. exact H.
    - intros c'. rewrite in_snoc. destruct (upd_cases ph c Calling c') as [[-> ->]|[Hn' ->]].
      + split; [discriminate|]. right. reflexivity.
      + rewrite i_called0. split; [intros [H|H]; [exact H|congruence]|left; exact H].
    - intros c' r. rewrite in_snoc. destruct (upd_cases ph c Calling c') as [[-> ->]|[Hn' ->]].
      + split; [intros [H|H]; [apply HG in H; congruence|discriminate]|discriminate].
      + rewrite HG. split; [intros [H|H]; [exact H|discriminate]|left; exact H].
    - intros c' b. rewrite in_snoc. destruct (upd_cases ph c Calling c') as [[-> ->]|[Hn' ->]]; [discriminate|]. intros H. left. eauto.
    - intros c'. destruct (upd_cases ph c Calling c') as [[-> ->]|[Hn' ->]]; [discriminate|]. auto.
    - intros c' H. rewrite in_snoc. destruct (i_stop0 c' H); auto.
    - intros c' a. destruct (upd_cases ph c Calling c') as [[-> ->]|[Hn' ->]]; [discriminate|]. auto.
    - intros l1 c1 l2 c' r E H. rewrite precedes_snoc. intros [HP|[EC HI]].
      + exact (i_order0 l1 c1 l2 c' r E H HP).
      + injection EC as <-. apply Hn. change (unread _) with (unread (mkSystem sv q ph ml)) in E. rewrite E. apply in_elt.
    - intros c' r. rewrite precedes_snoc. intros [HP|[EC HI]]; [exact (i_self0 _ _ HP)|]. injection EC as <-. apply HG in HI. congruence.
  Qed.

  Lemma inv_move sv q ph ml evs qs c np e :
    ph c <> NotCalled -> (forall r, ph c <> Returned r) -> (forall b, ph c <> Dead b) ->
    np <> NotCalled -> (np <> Calling) ->
    (e = [] /\ np = Waiting) \/
    (exists r, e = [Got c r] /\ np = Returned r /\ (r = Done -> program c = Halt) /\ (forall a, r = Answer a -> ml c = Some a)) \/
    (exists b, e = [Died c] /\ np = Dead b) ->
    inv (mkSystem sv q ph ml) evs qs -> inv (mkSystem sv q (upd ph c np) ml) (evs ++ e) qs.
  Proof.
    intros H1 H2 H3 H4 H5 He I. pose proof (i_arrived _ _ _ I) as HA. pose proof (i_got _ _ _ I) as HG. destruct I. cbn [s_phase s_server s_mail] in *.
    assert (Hin : forall x, In x (evs ++ e) <-> In x evs \/ In x e) by (intros; apply in_app_iff).
    assert (HC : forall c', ~ In (Called c') e) by (intros c' HI; destruct He as [[-> _]|[(r & -> & _)|(b & -> & _)]]; cbn in HI; intuition discriminate).
    assert (HP : forall x c', precedes x (Called c') (evs ++ e) -> precedes x (Called c') evs).
    { intros x c' HP. destruct He as [[-> _]|[(r & -> & _)|(b & -> & _)]].
      - rewrite app_nil_r in HP. exact HP.
      - apply precedes_snoc in HP as [HP|[E _]]; [exact HP|discriminate].
      - apply precedes_snoc in HP as [HP|[E _]]; [exact HP|discriminate]. }
    split; cbn [s_phase s_server s_mail]; auto.
    - intros c' H. change (unread _) with (unread (mkSystem sv q ph ml)) in H. destruct (upd_cases ph c np c') as [[-> ->]|[Hn' ->]]; [auto|].
      apply HA. exact H.
    - intros c'. rewrite Hin. destruct (upd_cases ph c np c') as [[-> ->]|[Hn' ->]].
      + split; [intros _; exact H4|]. intros _. left. apply i_called0. exact H1.
      + rewrite i_called0. split; [intros [H|H]; [exact H|destruct (HC c' H)]|left; exact H].
    - intros c' r. rewrite Hin. destruct (upd_cases ph c np c') as [[-> ->]|[Hn' ->]].
      + split.
        * intros [H|H]; [apply HG in H; destruct (H2 r H)|].
          destruct He as [[-> _]|[(r' & -> & -> & _)|(b & -> & _)]]; cbn in H; [contradiction| |]; destruct H as [H|[]]; [congruence|discriminate].
        * intros E. right. destruct He as [[_ E']|[(r' & -> & E' & _)|(b & _ & E')]]; rewrite E' in E; try discriminate. injection E as <-. left. reflexivity.
      + rewrite HG. split; [intros [H|H]; [exact H|]|left; exact H].
        destruct He as [[-> _]|[(r' & -> & _)|(b & -> & _)]]; cbn in H; [contradiction| |]; destruct H as [H|[]]; [congruence|discriminate].
    - intros c' b. rewrite Hin. destruct (upd_cases ph c np c') as [[-> ->]|[Hn' ->]].
      + intros E. right. destruct He as [[_ E']|[(r' & _ & E' & _)|(b' & -> & _)]]; try (rewrite E' in E; discriminate). left. reflexivity.
      + intros H. left. eauto.
    - intros c'. destruct (upd_cases ph c np c') as [[-> ->]|[Hn' ->]]; [|auto].
      intros E. destruct He as [[_ E']|[(r' & _ & E' & HD & _)|(b' & _ & E')]]; rewrite E' in E; try discriminate. injection E as E. auto.
    - intros c' H. rewrite Hin. destruct (i_stop0 c' H); auto.
    - intros c' a. destruct (upd_cases ph c np c') as [[-> ->]|[Hn' ->]]; [|auto].
      intros E. destruct He as [[_ E']|[(r' & _ & E' & _ & HD)|(b' & _ & E')]]; rewrite E' in E; try discriminate. injection E as E. auto.
    - intros l1 c1 l2 c' r E H HQ. exact (i_order0 l1 c1 l2 c' r E H (HP _ _ HQ)).
    - intros c' r HQ. exact (i_self0 _ _ (HP _ _ HQ)).
  Qed.

  Lemma inv_connect sv q ph ml evs qs c : ph c = Calling ->
    inv (mkSystem sv q ph ml) evs qs -> inv (mkSystem sv (q ++ [c]) (upd ph c Connected) ml) (evs ++ []) qs.
  Proof.
    intros Hc I. rewrite app_nil_r. pose proof (i_arrived _ _ _ I) as HA. pose proof (i_got _ _ _ I) as HG. destruct I. cbn [s_phase s_server s_mail] in *.
    assert (Hn : ~ In c (map fst qs ++ unread (mkSystem sv q ph ml))) by (intros H; exact (proj2 (HA c H) Hc)).
    assert (EA : map fst qs ++ unread (mkSystem sv (q ++ [c]) (upd ph c Connected) ml) = (map fst qs ++ unread (mkSystem sv q ph ml)) ++ [c]).
    { unfold unread. cbn [s_server s_queue]. rewrite !app_assoc. reflexivity. }
    split; rewrite ?EA; cbn [s_phase s_server s_mail]; auto.
    - rewrite <- (rev_involutive ((map fst qs ++ unread (mkSystem sv q ph ml)) ++ [c])). apply NoDup_rev.
      rewrite rev_app_distr. cbn [rev app]. constructor; [rewrite <- in_rev; exact Hn|apply NoDup_rev; exact i_nodup0].
    - intros c' H. destruct (upd_cases ph c Connected c') as [[-> ->]|[Hn' ->]]; [split; discriminate|]. apply in_snoc in H as [H|H]; [auto|congruence].
    - intros c'. destruct (upd_cases ph c Connected c') as [[-> ->]|[Hn' ->]]; [|auto]. rewrite i_called0, Hc. split; discriminate.
    - intros c' r. destruct (upd_cases ph c Connected c') as [[-> ->]|[Hn' ->]]; [|auto]. rewrite HG, Hc. split; discriminate.
    - intros c' b. destruct (upd_cases ph c Connected c') as [[-> ->]|[Hn' ->]]; [discriminate|eauto].
    - intros c'. destruct (upd_cases ph c Connected c') as [[-> ->]|[Hn' ->]]; [discriminate|auto].
    - intros c' a. destruct (upd_cases ph c Connected c') as [[-> ->]|[Hn' ->]]; [discriminate|auto].
    - intros l1 c1 l2 c' r E H HP. destruct l2 as [|e l2 _] using rev_ind; [contradiction|].
      replace (l1 ++ c1 :: l2 ++ [e]) with ((l1 ++ c1 :: l2) ++ [e]) in E by (rewrite <- app_assoc; reflexivity).
      apply app_inj_tail in E as [E <-]. apply in_snoc in H as [H| <-].
      + exact (i_order0 l1 c1 l2 c' r E H HP).
      + destruct HP as (a & b & d & E'). assert (HI : In (Got c r) evs) by (rewrite E'; apply in_elt). apply HG in HI. congruence.
  Qed.

  Lemma last_answer (qs : list (nat * request (B := B))) st c b a next : snd (sequential st0 (map snd qs)) = Some st -> handle st b = (a, next) ->
    sequential st0 (map snd (qs ++ [(c, Input b)])) = (fst (sequential st0 (map snd qs)) ++ [a], next) /\
    nth_error (fst (sequential st0 (map snd (qs ++ [(c, Input b)])))) (length qs) = Some a.
  Proof.
    intros H1 H2. assert (E : sequential st0 (map snd (qs ++ [(c, Input b)])) = (fst (sequential st0 (map snd qs)) ++ [a], next)).
    { rewrite map_app, sequential_app. destruct (sequential st0 (map snd qs)) as [l f]. cbn [snd] in H1. subst f. cbn [map snd sequential fst].
      rewrite H2. destruct next; reflexivity. }
    split; [exact E|]. rewrite E. cbn [fst]. destruct (sequential st0 (map snd qs)) as [l f] eqn:ES. cbn [snd fst] in *. subst f.
    apply sequential_length in ES. rewrite map_length in ES. rewrite nth_error_app2 by lia. rewrite ES, Nat.sub_diag. reflexivity.
  Qed.

  Lemma inv_step s evs qs e s' : inv s evs qs -> step handle program s e s' -> exists qs', inv s' (evs ++ e) qs'.
  Proof.
    intros I HS. destruct HS.
    - exists qs. pose proof (i_state _ _ _ I) as HI. cbn in HI. destruct HI as [-> ->].
      apply (inv_server _ _ _ _ _ _ _ _ _ _ I); try apply I; [reflexivity|reflexivity|auto].
    - exists qs. apply (inv_server _ _ _ _ _ _ _ _ _ _ I); try apply I; [reflexivity|exact Logic.I|auto].
    - exists qs. apply inv_call; assumption.
    - exists qs. apply inv_connect; assumption.
    - exists qs. apply inv_move; try (rewrite H || idtac; discriminate || (intros; rewrite H; discriminate)); [..|exact I].
      + right. left. exists Refused. repeat split; discriminate.
    - exists qs. apply inv_move; try (rewrite H || idtac; discriminate || (intros; rewrite H; discriminate)); [..|exact I]. left. auto.
    - exists qs. apply inv_move; try (rewrite H || idtac; discriminate || (intros; rewrite H; discriminate)); [..|exact I].
      right. left. exists Done. repeat split; auto; discriminate.
    - exists qs. apply inv_move; try (rewrite H || idtac; discriminate || (intros; rewrite H; discriminate)); [..|exact I]. right. right. eauto.
    - exists qs. apply inv_move; try (rewrite H || idtac; discriminate || (intros; rewrite H; discriminate)); [..|exact I]. right. right. eauto.
    - exists qs. apply (inv_server _ _ _ _ _ _ _ _ _ _ I); try apply I; auto.
    - exists (qs ++ [(c, Input b)]). apply (inv_server _ _ _ _ _ _ _ _ _ _ I).
      + rewrite map_app, <- app_assoc. reflexivity.
      + exists qs. split; [reflexivity|apply I].
      + intros c' b' HI. apply in_snoc in HI as [HI|HI]; [apply (i_request _ _ _ I); exact HI|]. injection HI as <- <-.
        unfold wire in H. cbn [s_phase] in H. destruct (ph c) as [| | | |[]|[]]; destruct (program c); congruence.
      + intros c' HI. apply in_snoc in HI as [HI|HI]; [apply (i_stop _ _ _ I); exact HI|discriminate].
      + intros c' a HM. apply answered_more. apply (i_mail _ _ _ I). exact HM.
      + auto.
    - exists (qs ++ [(c, Undecodable)]). apply (inv_server _ _ _ _ _ _ _ _ _ _ I).
      + rewrite map_app, <- app_assoc. reflexivity.
      + exact Logic.I.
      + intros c' b' HI. apply in_snoc in HI as [HI|HI]; [apply (i_request _ _ _ I); exact HI|discriminate].
      + intros c' HI. apply in_snoc in HI as [HI|HI]; [apply (i_stop _ _ _ I); exact HI|]. injection HI as <-.
        pose proof (i_died _ _ _ I c) as HD. pose proof (i_done _ _ _ I c) as HN. cbn [s_phase] in HD, HN.
        unfold wire in H. cbn [s_phase] in H. destruct (ph c) as [| | | |[]|[]]; destruct (program c); try discriminate; eauto.
      + intros c' a HM. apply answered_more. apply (i_mail _ _ _ I). exact HM.
      + auto.
    - pose proof (i_state _ _ _ I) as HI. cbn [s_server state_ok] in HI. destruct HI as (qs' & Eqs & Hst).
      destruct (last_answer qs' st c b a next Hst H) as [E1 E2]. rewrite <- Eqs in E1, E2.
      assert (HL : nth_error qs (length qs') = Some (c, Input b)) by (rewrite Eqs, nth_error_app2, Nat.sub_diag by lia; reflexivity).
      exists qs. apply (inv_server _ _ _ _ _ _ _ _ _ _ I); try apply I.
      + destruct next; reflexivity.
      + unfold after. destruct next; cbn [state_ok]; [rewrite E1; reflexivity|exact Logic.I].
      + intros c' a'. destruct (upd_cases ml c (Some a) c') as [[-> ->]|[Hn ->]]; [|apply (i_mail _ _ _ I)].
        intros Ea. injection Ea as <-. exists (length qs'), b. split; assumption.
      + intros c' a' _ HM. destruct (upd_cases ml c (Some a) c') as [[-> ->]|[Hn ->]]; [|exact HM].
        destruct (i_mail _ _ _ I c a' HM) as (k & b' & K1 & K2). pose proof (i_nodup _ _ _ I) as ND.
        apply nodup_front in ND. assert (k = length qs').
        { apply (proj1 (NoDup_nth_error _) ND); [rewrite map_length; apply nth_error_Some; rewrite K1; discriminate|].
          rewrite !nth_error_map, K1, HL. reflexivity. }
        subst k. congruence.
    - pose proof (i_state _ _ _ I) as HI. cbn [s_server state_ok] in HI. destruct HI as (qs' & Eqs & Hst).
      destruct (last_answer qs' st c b a next Hst H) as [E1 E2]. rewrite <- Eqs in E1, E2.
      exists qs. apply (inv_server _ _ _ _ _ _ _ _ _ _ I); try apply I; auto.
      + destruct next; reflexivity.
      + unfold after. destruct next; cbn [state_ok]; [rewrite E1; reflexivity|exact Logic.I].
    - exists qs. apply (inv_server _ _ _ _ _ _ _ _ _ _ I); try apply I; [reflexivity|exact Logic.I|auto].
    - exists qs. apply inv_move; try (rewrite H || idtac; discriminate || (intros; rewrite H; discriminate)); [..|exact I].
      right. left. exists (Answer a). repeat split; [discriminate|]. intros a' E. injection E as <-. assumption.
    - exists qs. apply inv_move; try (rewrite H || idtac; discriminate || (intros; rewrite H; discriminate)); [..|exact I].
      right. left. exists Lost. repeat split; discriminate.
  Qed.

  Lemma inv_steps sv evs s : sv = Starting st0 \/ sv = Listening st0 -> steps handle program (initially sv) evs s -> exists qs, inv s evs qs.
  Proof.
    intros Hsv H. remember (initially sv) as s0 eqn:E. induction H as [s|s evs s' evs' s'' H IH HS].
    - subst s. exists []. apply inv_initially. exact Hsv.
    - destruct (IH E) as [qs I]. exact (inv_step _ _ _ _ _ I HS).
  Qed.

  Lemma linearizes sv evs s : sv = Starting st0 \/ sv = Listening st0 -> steps handle program (initially sv) evs s ->
    exists order : list (nat * request (B := B)),
      NoDup (map fst order) /\
      (forall c q, In (c, q) order -> In (Called c) evs /\
         match q with Input b => program c = Request b | Undecodable => program c = Halt \/ In (Died c) evs end) /\
      (forall c a, In (Got c (Answer a)) evs -> exists k b,
         nth_error order k = Some (c, Input b) /\ nth_error (fst (sequential st0 (map snd order))) k = Some a) /\
      (forall c r c' k k' q q', precedes (Got c r) (Called c') evs ->
         nth_error order k = Some (c, q) -> nth_error order k' = Some (c', q') -> (k < k')%nat).
  Proof.
    intros Hsv H. destruct (inv_steps sv evs s Hsv H) as [qs I]. exists qs. pose proof (i_nodup _ _ _ I) as ND. apply nodup_front in ND.
    split; [exact ND|]. split; [|split].
    - intros c q HI. split.
      + apply (i_called _ _ _ I). apply (i_arrived _ _ _ I). apply in_or_app. left. apply (in_map fst) in HI. exact HI.
      + destruct q; [apply (i_request _ _ _ I)|apply (i_stop _ _ _ I)]; exact HI.
    - intros c a HI. apply (i_got _ _ _ I) in HI. apply (i_answer _ _ _ I) in HI. apply (i_mail _ _ _ I) in HI. exact HI.
    - intros c r c' k k' q q' HP K K'. destruct (Nat.lt_trichotomy k k') as [Hlt|[Heq|Hgt]]; [exact Hlt|..]; exfalso.
      + subst k'. assert (c' = c) by congruence. subst c'. exact (i_self _ _ _ I c r HP).
      + assert (HD : exists l1 l2, map fst qs = l1 ++ c' :: l2 /\ In c l2).
        { apply (map_nth_error fst) in K, K'. cbn [fst] in K, K'. destruct (nth_error_split _ _ K') as (l1 & l2 & E & EL).
          exists l1, l2. split; [exact E|]. rewrite E, nth_error_app2 in K by lia. destruct (k - length l1)%nat as [|j] eqn:EJ; [lia|].
          cbn [nth_error] in K. apply nth_error_In in K. exact K. }
        destruct HD as (l1 & l2 & E & HI). refine (i_order _ _ _ I l1 c' (l2 ++ unread s) c r _ _ HP).
        * rewrite E, <- app_assoc. reflexivity.
        * apply in_or_app. left. exact HI.
  Qed.
End Clients.
