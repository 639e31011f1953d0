(** The order in which the multi-dimensional graph search visits configurations.
    Vectors are lists of natural numbers counting steps away from the base
    configuration of a layer. *)
From Verif Require Import NumLemmas GraphSearchModel.
From Coq Require Import Arith.
Local Open Scope nat_scope.

Lemma update_length {A} (l : list A) : forall k a, length (update l k a) = length l.
Proof. induction l as [|x l IH]; intros [|k] a; cbn; auto. Qed.

Lemma nth_update_same {A} (l : list A) : forall k a d, k < length l -> nth k (update l k a) d = a.
Proof. induction l as [|x l IH]; intros [|k] a d H; cbn in *; try lia; auto. apply IH. lia. Qed.

Lemma nth_update_other {A} (l : list A) : forall k j a d, j <> k -> nth j (update l k a) d = nth j l d.
Proof.
  induction l as [|x l IH]; intros [|k] [|j] a d H; cbn; auto; try lia. 
Qed.

Lemma update_self {A} (l : list A) : forall k d, update l k (nth k l d) = l.
Proof. induction l as [|x l IH]; intros [|k] d; cbn; auto. rewrite IH. reflexivity. Qed.

Lemma update_update {A} (l : list A) : forall k a b, update (update l k a) k b = update l k b.
Proof. induction l as [|x l IH]; intros [|k] a b; cbn; auto. rewrite IH. reflexivity. Qed.

Lemma update_comm {A} (l : list A) : forall k j a b, k <> j -> update (update l k a) j b = update (update l j b) k a.
Proof.
  induction l as [|x l IH]; intros [|k] [|j] a b H; cbn; auto; try lia. rewrite IH by lia. reflexivity.
Qed.

Lemma map_update {A B} (f : A -> B) (l : list A) : forall k a, map f (update l k a) = update (map f l) k (f a).
Proof. induction l as [|x l IH]; intros [|k] a; cbn; auto. rewrite IH. reflexivity. Qed.

Lemma nth_error_nth_lt {A} (l : list A) : forall k d, k < length l -> nth_error l k = Some (nth k l d).
Proof. induction l as [|x l IH]; intros [|k] d H; cbn in *; try lia; auto. apply IH. lia. Qed.

Definition dec (a : list nat) (l : nat) : list nat := update a l (pred (nth l a 0)).

Fixpoint ordS (S : list (list nat)) (M : list (list nat)) : Prop :=
  match M with
  | [] => True
  | x :: r => (forall l, 0 < nth l x 0 -> In (dec x l) S) /\ ordS (x :: S) r
  end.

Lemma ordS_mono M : forall S S', incl S S' -> ordS S M -> ordS S' M.
Proof.
  induction M as [|x M IH]; intros S S' Hi H; cbn in *; auto.
  destruct H as [H1 H2]. split; [auto|]. eapply IH; [|exact H2].
  intros y [->|Hy]; [left; auto|right; auto].
Qed.

Lemma ordS_app M : forall S N, ordS S (M ++ N) <-> ordS S M /\ ordS (rev M ++ S) N.
Proof.
  induction M as [|x M IH]; intros S N; cbn [app ordS rev].
  - tauto.
  - rewrite IH. rewrite <- app_assoc. cbn [app]. tauto.
Qed.

Section Order.
  Variable b : list nat.
  Definition box (a : list nat) : Prop := Forall2 le a b.

  Lemma box_length a : box a -> length a = length b.
  Proof. intros H. induction H; cbn; auto. Qed.

  Lemma box_nth a k : box a -> nth k a 0 <= nth k b 0.
  Proof.
    intros H. revert k. induction H; intros [|k]; cbn; auto.
  Qed.

  Lemma box_intro a : length a = length b -> (forall k, nth k a 0 <= nth k b 0) -> box a.
  Proof.
    unfold box. revert b. induction a as [|x a IH]; intros [|y c] Hl H; cbn in Hl; try discriminate; constructor.
    - apply (H 0).
    - apply IH; [lia|]. intros k. apply (H (S k)).
  Qed.

  Lemma box_update a k x : box a -> x <= nth k b 0 -> box (update a k x).
  Proof.
    intros H Hx. apply box_intro; [rewrite update_length; apply box_length; auto|].
    intros j. destruct (Nat.eq_dec j k) as [->|Hne].
    - destruct (lt_dec k (length a)) as [Hl|Hl].
      + rewrite nth_update_same by auto. exact Hx.
      + rewrite nth_overflow by (rewrite update_length; lia). lia.
    - rewrite nth_update_other by auto. apply box_nth; auto.
  Qed.

  Lemma box_dec a l : box a -> box (dec a l).
  Proof. intros H. apply box_update; auto. apply (box_nth _ l) in H. lia. Qed.

  Definition ch (k : nat) (a : list nat) : list (list nat) :=
    map (update a k) (seq 1 (nth k b 0)).

  Fixpoint stage (k : nat) : list (list nat) :=
    match k with
    | O => [repeat 0 (length b)]
    | S k' => stage k' ++ flat_map (ch k') (stage k')
    end.

  Lemma nth_repeat_0 n k : nth k (repeat 0 n) 0 = 0.
  Proof. revert k. induction n as [|n IH]; intros [|k]; cbn; auto. Qed.

  Lemma In_ch k a x : In x (ch k a) <-> exists j, 1 <= j <= nth k b 0 /\ x = update a k j.
  Proof.
    unfold ch. rewrite in_map_iff. split.
    - intros (j & <- & Hj). apply in_seq in Hj. exists j. split; [lia|auto].
    - intros (j & Hj & ->). exists j. split; auto. apply in_seq. lia.
  Qed.

  Lemma stage_spec k : k <= length b -> forall a,
    In a (stage k) <-> box a /\ forall l, k <= l -> nth l a 0 = 0.
  Proof.
    induction k as [|k IH]; intros Hk a; cbn [stage].
    - cbn [In]. split.
      + intros [<-|[]]. split; [|intros; apply nth_repeat_0].
        apply box_intro; [apply repeat_length|]. intros k. rewrite nth_repeat_0. lia.
      + intros [Hb H]. left. symmetry. apply box_length in Hb. apply nth_ext with (d := 0) (d' := 0).
        * rewrite repeat_length. exact Hb.
        * intros l _. rewrite nth_repeat_0. apply H. lia.
    - rewrite in_app_iff, in_flat_map. split.
      + intros [H|(c & Hc & H)].
        * apply IH in H; [|lia]. destruct H as [H1 H2]. split; auto. intros; apply H2; lia.
        * apply IH in Hc; [|lia]. destruct Hc as [H1 H2]. apply In_ch in H. destruct H as (j & Hj & ->).
          split; [apply box_update; auto; lia|]. intros l Hl. rewrite nth_update_other by lia. apply H2. lia.
      + intros [Hb H]. destruct (Nat.eq_dec (nth k a 0) 0) as [E|E].
        * left. apply IH; [lia|]. split; auto. intros l Hl.
          destruct (Nat.eq_dec l k) as [->|]; auto. apply H. lia.
        * right. exists (update a k 0). split.
          -- apply IH; [lia|]. split; [apply box_update; auto; lia|]. intros l Hl.
             destruct (Nat.eq_dec l k) as [->|].
             ++ apply nth_update_same. apply box_length in Hb. lia.
             ++ rewrite nth_update_other by auto. apply H. lia.
          -- apply In_ch. exists (nth k a 0). split; [split; [lia|apply box_nth; auto]|].
             rewrite update_update, update_self. reflexivity.
  Qed.

  Lemma ordS_chain k a Z0 : k < length b -> box a -> nth k a 0 = 0 ->
    In a Z0 ->
    (forall l j, l <> k -> 0 < nth l a 0 -> 1 <= j <= nth k b 0 -> In (update (dec a l) k j) Z0) ->
    ordS Z0 (ch k a).
  Proof.
    intros Hk Hb Ha Hin Hl. unfold ch.
    assert (G : forall n i Z1, i + n <= S (nth k b 0) -> 1 <= i ->
               In (update a k (pred i)) Z1 ->
               (forall l j, l <> k -> 0 < nth l a 0 -> 1 <= j <= nth k b 0 -> In (update (dec a l) k j) Z1) ->
               ordS Z1 (map (update a k) (seq i n))).
    { clear Z0 Hin Hl. induction n as [|n IH]; intros i Z1 Hn Hi Hin Hl; cbn; auto. split.
      - intros l Hlt. destruct (Nat.eq_dec l k) as [->|Hne].
        + rewrite nth_update_same in Hlt by (apply box_length in Hb; lia).
          unfold dec. rewrite nth_update_same by (apply box_length in Hb; lia).
          rewrite update_update. exact Hin.
        + rewrite nth_update_other in Hlt by auto. unfold dec. rewrite nth_update_other by auto.
          rewrite update_comm by auto. apply (Hl l i); auto. lia.
      - apply IH; [lia|lia|left; cbn; reflexivity|]. intros; right; auto. }
    apply G; auto; try lia.
    cbn [pred]. assert (E := update_self a k 0). rewrite Ha in E. rewrite E. exact Hin.
  Qed.

  Lemma ordS_stage_flat k : k < length b -> forall M P,
    stage k = P ++ M -> ordS [] (stage k) ->
    ordS (stage k ++ flat_map (ch k) P) (flat_map (ch k) M).
  Proof.
    intros Hk. induction M as [|a M IH]; intros P E Ho; cbn [flat_map]; [exact I|].
    assert (Ha : In a (stage k)) by (rewrite E; apply in_elt).
    assert (Ha' := proj1 (stage_spec k ltac:(lia) a) Ha). destruct Ha' as [Hb Hz].
    assert (Hp : forall l, 0 < nth l a 0 -> In (dec a l) P).
    { rewrite E in Ho. apply ordS_app in Ho. destruct Ho as [_ Ho]. cbn in Ho. destruct Ho as [Ho _].
      intros l Hl. apply Ho in Hl. rewrite app_nil_r, <- in_rev in Hl. exact Hl. }
    apply ordS_app. split.
    - apply ordS_chain; auto.
      + apply in_or_app; left; auto.
      + intros l j Hne Hlt Hj. apply in_or_app; right. apply in_flat_map.
        exists (dec a l). split; [apply Hp; auto|]. apply In_ch. exists j. split; auto.
    - eapply ordS_mono; [|apply (IH (P ++ [a]))]; auto.
      + intros x Hx. rewrite flat_map_app in Hx. cbn [flat_map] in Hx. rewrite app_nil_r in Hx.
        rewrite !in_app_iff in *. rewrite <- in_rev. tauto.
      + rewrite <- app_assoc. exact E.
  Qed.

  Lemma ordS_stage k : k <= length b -> ordS [] (stage k).
  Proof.
    induction k as [|k IH]; intros Hk; cbn [stage].
    - cbn. split; auto. intros l. rewrite nth_repeat_0. lia.
    - apply ordS_app. split; [apply IH; lia|].
      eapply ordS_mono; [|apply (ordS_stage_flat k ltac:(lia) (stage k) [])]; [|reflexivity|apply IH; lia].
      intros x. cbn. rewrite !app_nil_r, <- in_rev. auto.
  Qed.

  Lemma ordS_stage_next k : k < length b -> ordS (stage k) (flat_map (ch k) (stage k)).
  Proof.
    intros Hk. assert (H := ordS_stage_flat k Hk (stage k) [] eq_refl (ordS_stage k ltac:(lia))).
    cbn in H. rewrite app_nil_r in H. exact H.
  Qed.
End Order.
