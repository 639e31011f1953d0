(** Proofs about piecewise integration. *)
From Coq Require Import Lia Lqa Setoid Sorted.
From Verif Require Import NumLemmas PiecewiseModel PiecewiseSpec.
Local Open Scope Z_scope.

Lemma point_leb_iff a b : point_leb a b = true <-> point_le a b.
Proof. destruct a, b; cbn; try tauto; try (split; [discriminate|contradiction]). apply Qle_bool_iff. Qed.
Lemma point_leb_false a b : point_leb a b = false <-> point_lt b a.
Proof.
  destruct a as [|x|], b as [|y|]; cbn; try tauto; try (split; [discriminate|contradiction]).
  destruct (Qle_bool x y) eqn:E; [apply Qle_bool_iff in E; split; [discriminate|lra]|].
  split; [intros _|reflexivity]. destruct (Qlt_le_dec y x) as [H|H]; [exact H|]. apply Qle_bool_iff in H. congruence.
Qed.
Lemma point_le_refl a : point_le a a.
Proof. destruct a; cbn; auto. lra. Qed.
Lemma point_lt_le a b : point_lt a b -> point_le a b.
Proof. destruct a, b; cbn; auto; try contradiction. lra. Qed.
Lemma point_le_trans a b c : point_le a b -> point_le b c -> point_le a c.
Proof. destruct a, b, c; cbn; auto; try contradiction. lra. Qed.

(** ** Directions *)
Definition ahead (dir : direction) (a b : Q) : Prop := match dir with ToLeft => (b < a)%Q | ToRight => (a < b)%Q end.
Definition ahead_pt (dir : direction) (a b : point) : Prop := match dir with ToLeft => point_lt b a | ToRight => point_lt a b end.
Definition upto (dir : direction) (a b : point) : Prop := match dir with ToLeft => point_le b a | ToRight => point_le a b end.
Definition reached (dir : direction) (b : Q) (to : point) : bool :=
  match dir with ToLeft => point_leb (Pt b) to | ToRight => point_leb to (Pt b) end.
Definition seg (dir : direction) (b e : point) : point * point := match dir with ToLeft => (e, b) | ToRight => (b, e) end.
Definition nearer (dir : direction) (a b : Q) : bool := match dir with ToLeft => Qltb b a | ToRight => Qltb a b end.

Lemma reached_true dir b to : reached dir b to = true <-> upto dir to (Pt b).
Proof. destruct dir; apply point_leb_iff. Qed.
Lemma reached_false dir b to : reached dir b to = false <-> ahead_pt dir (Pt b) to.
Proof. destruct dir; apply point_leb_false. Qed.
Lemma nearer_true dir a b : nearer dir a b = true <-> ahead dir a b.
Proof. destruct dir; apply Qltb_iff. Qed.
Lemma ahead_trans dir a b c : ahead dir a b -> ahead dir b c -> ahead dir a c.
Proof. destruct dir; cbn; lra. Qed.
Lemma ahead_ahead_pt dir a b : ahead dir a b -> ahead_pt dir (Pt a) (Pt b).
Proof. destruct dir; auto. Qed.
Lemma ahead_upto dir a b : ahead_pt dir a b -> upto dir a b.
Proof. destruct dir; apply point_lt_le. Qed.
Lemma upto_trans dir a b c : upto dir a b -> upto dir b c -> upto dir a c.
Proof. destruct dir; cbn; intros; eapply point_le_trans; eassumption. Qed.
Lemma upto_refl dir a : upto dir a a.
Proof. destruct dir; apply point_le_refl. Qed.
Lemma upto_eq dir a b : upto dir a b -> upto dir b a -> point_eq a b.
Proof. destruct dir; cbn; split; assumption. Qed.

Section Walk.
  Variable integral : point -> point -> Q.
  Variable next : option (Q -> option Q * option Q).
  Variable dir : direction.
  Variable to : point.

  Definition dyn (b : Q) : option Q :=
    match next with None => None | Some f => match dir with ToLeft => fst (f b) | ToRight => snd (f b) end end.
  Definition smallb (p : point * point) : bool := Qltb (integral (fst p) (snd p)) PRECISION.

  (** The walk, with the fixed breakpoints ahead as a list. *)
  Fixpoint go (fuel : nat) (b : Q) (rest : list Q) (n : Z) : option (list (point * point)) :=
    match fuel with
    | O => None
    | S fuel' =>
        if reached dir b to then Some []
        else
          let choice :=
            match rest with
            | [] => (dyn b, [])
            | fb :: rest' =>
                match dyn b with
                | None => (Some fb, rest')
                | Some rb => if nearer dir rb fb then (Some rb, rest) else (Some fb, rest')
                end
            end in
          match fst choice with
          | None => Some [seg dir (Pt b) to]
          | Some nb =>
              if reached dir nb to then Some [seg dir (Pt b) to]
              else
                let piece := seg dir (Pt b) (Pt nb) in
                let n' := if smallb piece then n + 1 else n in
                if smallb piece && (CONVERGENCE_THRESHOLD <=? n') then Some [piece]
                else match go fuel' nb (snd choice) n' with Some r => Some (piece :: r) | None => None end
          end
    end.

  Hypothesis Hdyn : forall b rb, dyn b = Some rb -> ahead dir b rb.

  (** Intervals following each other from [b] to [e] in direction [dir]. *)
  Fixpoint path (b : point) (ps : list (point * point)) (e : point) : Prop :=
    match ps with
    | [] => b = e
    | p :: r => exists c, p = seg dir b c /\ ahead_pt dir b c /\ path c r e
    end.

  Lemma choice_ahead b rest : StronglySorted (ahead dir) (b :: rest) ->
    forall nb rest',
    match rest with
    | [] => (dyn b, [])
    | fb :: rest' =>
        match dyn b with
        | None => (Some fb, rest')
        | Some rb => if nearer dir rb fb then (Some rb, rest) else (Some fb, rest')
        end
    end = (Some nb, rest') -> ahead dir b nb /\ StronglySorted (ahead dir) (nb :: rest') /\ exists pre, rest = pre ++ rest'.
  Proof.
    intros HS nb rest' H. pose proof (StronglySorted_inv HS) as [HS' HF]. destruct rest as [|fb r].
    - assert (dyn b = Some nb) by congruence. assert (rest' = []) by congruence. subst. split; [apply Hdyn; assumption|].
      split; [repeat constructor|]. exists []. reflexivity.
    - pose proof (StronglySorted_inv HS') as [HSr HFr]. inversion HF as [|? ? Hfb HFb]; subst.
      destruct (dyn b) as [rb|] eqn:ED.
      + destruct (nearer dir rb fb) eqn:EN.
        * assert (nb = rb) by congruence. assert (rest' = fb :: r) by congruence. subst. apply nearer_true in EN.
          split; [apply Hdyn; assumption|]. split; [|exists []; reflexivity]. constructor; [exact HS'|].
          constructor; [exact EN|]. eapply Forall_impl; [|exact HFr]. intros x Hx. eapply ahead_trans; eassumption.
        * assert (nb = fb) by congruence. assert (rest' = r) by congruence. subst. split; [exact Hfb|]. split; [exact HS'|]. exists [fb]. reflexivity.
      + assert (nb = fb) by congruence. assert (rest' = r) by congruence. subst. split; [exact Hfb|]. split; [exact HS'|]. exists [fb]. reflexivity.
  Qed.

  Lemma go_path fuel : forall b rest n ps, StronglySorted (ahead dir) (b :: rest) -> 0 <= n -> upto dir (Pt b) to ->
    go fuel b rest n = Some ps ->
    exists e, path (Pt b) ps e /\ upto dir e to /\ (point_eq e to \/ 10 <= n + Z.of_nat (length (filter smallb ps))) /\
      (next = None -> n + Z.of_nat (length rest) < 10 -> point_eq e to).
  Proof.
    induction fuel as [|fuel IH]; intros b rest n ps HS Hn Hto; [discriminate|]. cbn [go].
    destruct (reached dir b to) eqn:ER.
    { intros H. assert (ps = []) by congruence. subst. exists (Pt b). split; [reflexivity|]. split; [exact Hto|].
      apply reached_true in ER. pose proof (upto_eq _ _ _ Hto ER). split; [left|]; auto. }
    apply reached_false in ER.
    assert (HL : exists e, path (Pt b) [seg dir (Pt b) to] e /\ upto dir e to /\ (point_eq e to \/ 10 <= n + Z.of_nat (length (filter smallb [seg dir (Pt b) to]))) /\
      (next = None -> n + Z.of_nat (length rest) < 10 -> point_eq e to)).
    { exists to. split; [exists to; repeat split; exact ER|]. split; [apply upto_refl|].
      assert (point_eq to to) by (split; apply point_le_refl). split; [left|]; auto. }
    pose proof (choice_ahead b rest HS) as HC.
    assert (HX : next = None -> forall nb rest', match rest with [] => (dyn b, []) | fb :: rest' => match dyn b with None => (Some fb, rest')
        | Some rb => if nearer dir rb fb then (Some rb, rest) else (Some fb, rest') end end = (Some nb, rest') -> length rest = S (length rest')).
    { intros HN nb rest' H. assert (HD : dyn b = None) by (unfold dyn; rewrite HN; reflexivity). rewrite HD in H. destruct rest; [discriminate|].
      assert (rest = rest') by congruence. subst. reflexivity. }
    destruct (match rest with [] => _ | _ => _ end) as [[nb|] rest'].
    2:{ cbn [fst]. intros H. assert (ps = [seg dir (Pt b) to]) by congruence. subst. exact HL. }
    cbn [fst snd]. destruct (HC nb rest' eq_refl) as (Hnb & HS' & _). destruct (reached dir nb to) eqn:ERn.
    { intros H. assert (ps = [seg dir (Pt b) to]) by congruence. subst. exact HL. }
    apply reached_false in ERn. set (piece := seg dir (Pt b) (Pt nb)).
    destruct (smallb piece && (CONVERGENCE_THRESHOLD <=? (if smallb piece then n + 1 else n))) eqn:ES.
    { intros H. assert (ps = [piece]) by congruence. subst. exists (Pt nb).
      split; [exists (Pt nb); repeat split; apply ahead_ahead_pt; exact Hnb|]. split; [apply ahead_upto; exact ERn|].
      apply andb_prop in ES as [E1 E2]. cbn [filter]. rewrite E1 in E2 |- *. apply Z.leb_le in E2. unfold CONVERGENCE_THRESHOLD in E2. cbn [length].
      split; [right; lia|]. intros HN HL'. rewrite (HX HN nb rest' eq_refl) in HL'. lia. }
    destruct (go fuel nb rest' (if smallb piece then n + 1 else n)) as [r|] eqn:EG; [|discriminate]. intros H.
    assert (ps = piece :: r) by congruence. subst.
    destruct (IH nb rest' (if smallb piece then n + 1 else n) r HS' ltac:(destruct (smallb piece); lia) (ahead_upto _ _ _ ERn) EG) as (e & HP & HU & HE & HN).
    exists e. split; [exists (Pt nb); repeat split; [apply ahead_ahead_pt; exact Hnb|exact HP]|]. split; [exact HU|].
    split.
    - destruct HE as [HE|HE]; [left; exact HE|right]. cbn [filter]. destruct (smallb piece); cbn [length]; lia.
    - intros HN1 HN2. apply HN; [exact HN1|]. rewrite (HX HN1 nb rest' eq_refl) in HN2. destruct (smallb piece); lia.
  Qed.

  Lemma go_mono fuel : forall b rest n ps, go fuel b rest n = Some ps -> go (S fuel) b rest n = Some ps.
  Proof.
    induction fuel as [|fuel IH]; intros b rest n ps H; [discriminate|]. cbn [go] in H. remember (S fuel) as m. cbn [go]. subst m.
    destruct (reached dir b to); [exact H|]. destruct (match rest with [] => _ | _ => _ end) as [[nb|] rest']; cbn [fst snd] in *; [|exact H].
    destruct (reached dir nb to); [exact H|]. destruct (_ && _); [exact H|].
    destruct (go fuel nb rest' _) as [r|] eqn:E; [|discriminate]. rewrite (IH _ _ _ _ E). exact H.
  Qed.
  Lemma go_enough fuel fuel' b rest n ps : (fuel <= fuel')%nat -> go fuel b rest n = Some ps -> go fuel' b rest n = Some ps.
  Proof. induction 1; [auto|]. intros H'. apply go_mono. auto. Qed.

  (** Termination. *)
  Lemma go_fixed fuel : forall b rest n, next = None -> (length rest < fuel)%nat -> go fuel b rest n <> None.
  Proof.
    induction fuel as [|fuel IH]; intros b rest n HN HF; [lia|]. cbn [go]. destruct (reached dir b to); [discriminate|].
    assert (HD : dyn b = None) by (unfold dyn; rewrite HN; reflexivity). rewrite HD. destruct rest as [|fb rest]; cbn [fst snd]; [discriminate|].
    destruct (reached dir fb to); [discriminate|]. destruct (_ && _); [discriminate|].
    specialize (IH fb rest (if smallb (seg dir (Pt b) (Pt fb)) then n + 1 else n) HN ltac:(cbn in HF; lia)). destruct (go fuel fb rest _); [discriminate|congruence].
  Qed.

  Lemma go_dynamic (phi : Q -> Z) (limit : Z) : (forall a b, ahead dir a b -> phi a <= phi b) -> (forall b rb, dyn b = Some rb -> phi b + 1 <= phi rb) ->
    (forall b, limit < phi b -> reached dir b to = true) ->
    forall fuel b rest n, StronglySorted (ahead dir) (b :: rest) -> (Z.of_nat (length rest) + Z.max 0 (limit + 1 - phi b) < Z.of_nat fuel) -> go fuel b rest n <> None.
  Proof.
    intros Hm Hd Hl. induction fuel as [|fuel IH]; intros b rest n HS HF; [lia|]. cbn [go]. destruct (reached dir b to) eqn:ER; [discriminate|].
    assert (HB : phi b <= limit).
    { destruct (Z_le_gt_dec (phi b) limit) as [|H]; [assumption|]. rewrite Hl in ER by lia. discriminate. }
    pose proof (choice_ahead b rest HS) as HC.
    assert (HM : forall nb rest', match rest with [] => (dyn b, []) | fb :: rest' => match dyn b with None => (Some fb, rest')
        | Some rb => if nearer dir rb fb then (Some rb, rest) else (Some fb, rest') end end = (Some nb, rest') ->
        Z.of_nat (length rest') + Z.max 0 (limit + 1 - phi nb) < Z.of_nat fuel).
    { intros nb rest' H. destruct (HC nb rest' H) as (Hnb & _ & _). specialize (Hm _ _ Hnb).
      destruct rest as [|fb r].
      - assert (HD : dyn b = Some nb) by congruence. assert (rest' = []) by congruence. subst. specialize (Hd _ _ HD). cbn [length] in *. lia.
      - destruct (dyn b) as [rb|] eqn:ED; [destruct (nearer dir rb fb)|].
        + assert (nb = rb) by congruence. assert (rest' = fb :: r) by congruence. subst. specialize (Hd _ _ ED). cbn [length] in *. lia.
        + assert (rest' = r) by congruence. subst. cbn [length] in *. lia.
        + assert (rest' = r) by congruence. subst. cbn [length] in *. lia. }
    destruct (match rest with [] => _ | _ => _ end) as [[nb|] rest']; cbn [fst snd]; [|discriminate].
    destruct (HC nb rest' eq_refl) as (_ & HS' & _). specialize (HM nb rest' eq_refl).
    destruct (reached dir nb to); [discriminate|]. destruct (_ && _); [discriminate|].
    specialize (IH nb rest' (if smallb (seg dir (Pt b) (Pt nb)) then n + 1 else n) HS' HM). destruct (go fuel nb rest' _); [discriminate|congruence].
  Qed.

  (** Breakpoints beyond the limit do not matter. *)
  Definition before_limit (x : Q) : bool := negb (reached dir x to).

  Lemma reached_mono a b : ahead dir a b -> reached dir a to = true -> reached dir b to = true.
  Proof.
    rewrite !reached_true. intros H1 H2. eapply upto_trans; [exact H2|]. apply ahead_upto. apply ahead_ahead_pt. exact H1.
  Qed.

  Lemma go_filter fuel : forall b rest n, StronglySorted (ahead dir) (b :: rest) -> go fuel b rest n = go fuel b (filter before_limit rest) n.
  Proof.
    induction fuel as [|fuel IH]; intros b rest n HS; [reflexivity|]. cbn [go]. destruct (reached dir b to); [reflexivity|].
    pose proof (StronglySorted_inv HS) as [HS' HF]. destruct rest as [|fb r]; [reflexivity|]. cbn [filter].
    pose proof (StronglySorted_inv HS') as [HSr HFr]. destruct (reached dir fb to) eqn:EF.
    - assert (EBL : before_limit fb = false) by (unfold before_limit; rewrite EF; reflexivity). rewrite EBL.
      assert (EN : filter before_limit r = []).
      { clear -HFr EF. induction HFr as [|x r Hx _ IH]; [reflexivity|]. cbn [filter]. unfold before_limit at 1.
        rewrite (reached_mono fb x Hx EF). exact IH. }
      rewrite EN. destruct (dyn b) as [rb|] eqn:ED; [|cbn [fst]; rewrite EF; reflexivity].
      destruct (nearer dir rb fb) eqn:ENr; cbn [fst snd].
      + destruct (reached dir rb to); [reflexivity|]. destruct (_ && _); [reflexivity|]. apply nearer_true in ENr.
        assert (HS2 : StronglySorted (ahead dir) (rb :: fb :: r)).
        { constructor; [exact HS'|]. constructor; [exact ENr|]. eapply Forall_impl; [|exact HFr]. intros x Hx. eapply ahead_trans; eassumption. }
        rewrite (IH rb (fb :: r) _ HS2). cbn [filter]. rewrite EBL, EN. reflexivity.
      + rewrite EF. assert (ERB : reached dir rb to = true).
        { destruct (reached dir rb to) eqn:E; [reflexivity|]. exfalso.
          assert (HN : ~ ahead dir rb fb) by (rewrite <- nearer_true; congruence).
          apply reached_true in EF. apply reached_false in E. clear -HN EF E. destruct dir, to; cbn in *; auto; lra. }
        rewrite ERB. reflexivity.
    - assert (EBL : before_limit fb = true) by (unfold before_limit; rewrite EF; reflexivity). rewrite EBL.
      inversion HF as [|? ? Hfb HFb]; subst. destruct (dyn b) as [rb|] eqn:ED.
      + destruct (nearer dir rb fb) eqn:ENr; cbn [fst snd].
        * destruct (reached dir rb to); [reflexivity|]. destruct (_ && _); [reflexivity|]. apply nearer_true in ENr.
          assert (HS2 : StronglySorted (ahead dir) (rb :: fb :: r)).
          { constructor; [exact HS'|]. constructor; [exact ENr|]. eapply Forall_impl; [|exact HFr]. intros x Hx. eapply ahead_trans; eassumption. }
          rewrite (IH rb (fb :: r) _ HS2). cbn [filter]. rewrite EBL. reflexivity.
        * destruct (reached dir fb to); [reflexivity|]. destruct (_ && _); [reflexivity|]. rewrite (IH fb r _ HS'). reflexivity.
      + cbn [fst snd]. destruct (reached dir fb to); [reflexivity|]. destruct (_ && _); [reflexivity|]. rewrite (IH fb r _ HS'). reflexivity.
  Qed.
End Walk.

Section Index.
  Variable integral : point -> point -> Q.
  Variable breaks : breakpoints.

  Lemma skipn_cons {A} (l : list A) i x : nth_error l i = Some x -> skipn i l = x :: skipn (S i) l.
  Proof. revert i. induction l as [|a l IH]; intros [|i] H; cbn in *; try discriminate; [congruence|]. apply IH. exact H. Qed.
  Lemma firstn_snoc {A} (l : list A) i x : nth_error l i = Some x -> firstn (S i) l = firstn i l ++ [x].
  Proof. revert i. induction l as [|a l IH]; intros [|i] H; cbn in *; try discriminate; [congruence|]. f_equal. apply IH. exact H. Qed.

  Lemma right_go fuel to : forall b i n, 0 <= i ->
    pieces_from integral breaks fuel ToRight b to i n = go integral (br_next breaks) ToRight to fuel b (skipn (Z.to_nat i) (br_fixed breaks)) n.
  Proof.
    induction fuel as [|fuel IH]; intros b i n Hi; [reflexivity|]. cbn [pieces_from go]. change (point_leb to (Pt b)) with (reached ToRight b to).
    destruct (reached ToRight b to); [reflexivity|]. rewrite (proj2 (Z.leb_le 0 i) Hi).
    set (d := match br_next breaks with Some next => next b | None => (None, None) end).
    assert (EDy : dyn (br_next breaks) ToRight b = snd d) by (unfold dyn, d; destruct (br_next breaks); reflexivity).
    rewrite EDy. clear EDy.
    destruct (nth_error (br_fixed breaks) (Z.to_nat i)) as [fb|] eqn:EF.
    - rewrite (skipn_cons _ _ _ EF). destruct (snd d) as [rb|].
      + change (Qltb rb fb) with (nearer ToRight rb fb). destruct (nearer ToRight rb fb); cbn [fst snd].
        * change (point_leb to (Pt rb)) with (reached ToRight rb to). destruct (reached ToRight rb to); [reflexivity|].
          rewrite (IH rb i _ Hi), (skipn_cons _ _ _ EF). reflexivity.
        * change (point_leb to (Pt fb)) with (reached ToRight fb to). destruct (reached ToRight fb to); [reflexivity|].
          rewrite (IH fb (i + 1) _ ltac:(lia)). replace (Z.to_nat (i + 1)) with (S (Z.to_nat i)) by lia. reflexivity.
      + cbn [fst snd]. change (point_leb to (Pt fb)) with (reached ToRight fb to). destruct (reached ToRight fb to); [reflexivity|].
        rewrite (IH fb (i + 1) _ ltac:(lia)). replace (Z.to_nat (i + 1)) with (S (Z.to_nat i)) by lia. reflexivity.
    - assert (ES : skipn (Z.to_nat i) (br_fixed breaks) = []) by (apply skipn_all2; apply nth_error_None; exact EF).
      rewrite ES. cbn [fst snd]. destruct (snd d) as [rb|]; [|reflexivity].
      change (point_leb to (Pt rb)) with (reached ToRight rb to). destruct (reached ToRight rb to); [reflexivity|].
      rewrite (IH rb i _ Hi), ES. reflexivity.
  Qed.

  Lemma left_go fuel to : forall b i n, -1 <= i < Z.of_nat (length (br_fixed breaks)) ->
    pieces_from integral breaks fuel ToLeft b to i n = go integral (br_next breaks) ToLeft to fuel b (rev (firstn (Z.to_nat (i + 1)) (br_fixed breaks))) n.
  Proof.
    induction fuel as [|fuel IH]; intros b i n Hi; [reflexivity|]. cbn [pieces_from go]. change (point_leb (Pt b) to) with (reached ToLeft b to).
    destruct (reached ToLeft b to); [reflexivity|].
    set (d := match br_next breaks with Some next => next b | None => (None, None) end).
    assert (EDy : dyn (br_next breaks) ToLeft b = fst d) by (unfold dyn, d; destruct (br_next breaks); reflexivity).
    rewrite EDy. clear EDy. destruct (Z_le_gt_dec 0 i) as [H0|H0].
    - rewrite (proj2 (Z.leb_le 0 i) H0). destruct (nth_error (br_fixed breaks) (Z.to_nat i)) as [fb|] eqn:EF; [|apply nth_error_None in EF; lia].
      assert (ER : rev (firstn (Z.to_nat (i + 1)) (br_fixed breaks)) = fb :: rev (firstn (Z.to_nat i) (br_fixed breaks))).
      { replace (Z.to_nat (i + 1)) with (S (Z.to_nat i)) by lia. rewrite (firstn_snoc _ _ _ EF), rev_app_distr. reflexivity. }
      rewrite ER. destruct (fst d) as [rb|].
      + change (Qltb fb rb) with (nearer ToLeft rb fb). destruct (nearer ToLeft rb fb); cbn [fst snd].
        * change (point_leb (Pt rb) to) with (reached ToLeft rb to). destruct (reached ToLeft rb to); [reflexivity|].
          rewrite (IH rb i _ Hi), ER. reflexivity.
        * change (point_leb (Pt fb) to) with (reached ToLeft fb to). destruct (reached ToLeft fb to); [reflexivity|].
          rewrite (IH fb (i - 1) _ ltac:(lia)). replace (i - 1 + 1) with i by lia. reflexivity.
      + cbn [fst snd]. change (point_leb (Pt fb) to) with (reached ToLeft fb to). destruct (reached ToLeft fb to); [reflexivity|].
        rewrite (IH fb (i - 1) _ ltac:(lia)). replace (i - 1 + 1) with i by lia. reflexivity.
    - assert (i = -1) by lia. subst i. change (0 <=? -1) with false. cbv iota. change (Z.to_nat (-1 + 1)) with 0%nat. cbn [firstn rev fst snd].
      destruct (fst d) as [rb|]; [|reflexivity].
      change (point_leb (Pt rb) to) with (reached ToLeft rb to). destruct (reached ToLeft rb to); [reflexivity|].
      rewrite (IH rb (-1) _ Hi). reflexivity.
  Qed.

  Lemma position_spec f l : match position f l with
    | Some i => 0 <= i < Z.of_nat (length l) /\ (exists x, nth_error l (Z.to_nat i) = Some x /\ f x = true) /\ Forall (fun x => f x = false) (firstn (Z.to_nat i) l)
    | None => Forall (fun x => f x = false) l
    end.
  Proof.
    induction l as [|x l IH]; cbn [position]; [constructor|]. destruct (f x) eqn:E.
    - cbn. split; [lia|]. split; [exists x; auto|constructor].
    - destruct (position f l) as [i|]; [|constructor; assumption]. destruct IH as (H1 & (y & H2 & H3) & H4). cbn [length].
      split; [lia|]. replace (Z.to_nat (i + 1)) with (S (Z.to_nat i)) by lia. cbn [nth_error firstn]. split; [eauto|]. constructor; assumption.
  Qed.

  Hypothesis HS : StronglySorted Qlt (br_fixed breaks).

  Lemma filter_above c l : StronglySorted Qlt l -> forall i, Forall (fun x => (x <= c)%Q) (firstn i l) -> Forall (fun x => (c < x)%Q) (skipn i l) ->
    filter (fun x => Qltb c x) l = skipn i l.
  Proof.
    intros _ i H1 H2. rewrite <- (firstn_skipn i l) at 1. rewrite filter_app.
    assert (E1 : filter (fun x => Qltb c x) (firstn i l) = []).
    { clear -H1. induction H1 as [|x k Hx _ IH]; [reflexivity|]. cbn [filter]. rewrite (proj2 (Qltb_false _ _) Hx). exact IH. }
    assert (E2 : filter (fun x => Qltb c x) (skipn i l) = skipn i l).
    { clear -H2. induction H2 as [|x k Hx _ IH]; [reflexivity|]. cbn [filter]. rewrite (proj2 (Qltb_iff _ _) Hx). f_equal. exact IH. }
    rewrite E1, E2. reflexivity.
  Qed.

  Lemma filter_below c l : forall i, Forall (fun x => (x < c)%Q) (firstn i l) -> Forall (fun x => (c <= x)%Q) (skipn i l) ->
    filter (fun x => Qltb x c) l = firstn i l.
  Proof.
    intros i H1 H2. rewrite <- (firstn_skipn i l) at 1. rewrite filter_app.
    assert (E1 : filter (fun x => Qltb x c) (firstn i l) = firstn i l).
    { clear -H1. induction H1 as [|x k Hx _ IH]; [reflexivity|]. cbn [filter]. rewrite (proj2 (Qltb_iff _ _) Hx). f_equal. exact IH. }
    assert (E2 : filter (fun x => Qltb x c) (skipn i l) = []).
    { clear -H2. induction H2 as [|x k Hx _ IH]; [reflexivity|]. cbn [filter]. rewrite (proj2 (Qltb_false _ _) Hx). exact IH. }
    rewrite E1, E2, app_nil_r. reflexivity.
  Qed.

  Lemma sorted_split (l : list Q) i x : StronglySorted Qlt l -> nth_error l i = Some x ->
    Forall (fun y => (y < x)%Q) (firstn i l) /\ Forall (fun y => (x < y)%Q) (skipn (S i) l).
  Proof.
    revert i. induction l as [|a l IH]; intros i H Hx; [destruct i; discriminate|]. apply StronglySorted_inv in H as [H1 H2].
    destruct i as [|i]; cbn [nth_error firstn skipn] in *.
    - assert (a = x) by congruence. subst. split; [constructor|exact H2].
    - destruct (IH i H1 Hx) as [A B]. split; [|exact B]. constructor; [|exact A]. eapply Forall_forall in H2; [exact H2|]. eapply nth_error_In; exact Hx.
  Qed.

  (** The walk as a function of the set of breakpoints. *)
  Lemma piecewise_go fuel from to :
    piecewise integral breaks fuel from to =
    let init := initial from to in
    match go integral (br_next breaks) ToLeft from fuel init (rev (filter (fun x => Qltb x init) (br_fixed breaks))) 0,
          go integral (br_next breaks) ToRight to fuel init (filter (fun x => Qltb init x) (br_fixed breaks)) 0 with
    | Some l, Some r => Some (l, r)
    | _, _ => None
    end.
  Proof.
    unfold piecewise. set (init := initial from to). set (fx := br_fixed breaks) in *. cbv zeta.
    set (i := match position (fun x => Qltb init x) fx with Some i => i | None => Z.of_nat (length fx) end).
    assert (Hi : 0 <= i <= Z.of_nat (length fx) /\ Forall (fun x => (x <= init)%Q) (firstn (Z.to_nat i) fx) /\ Forall (fun x => (init < x)%Q) (skipn (Z.to_nat i) fx)).
    { unfold i. pose proof (position_spec (fun x => Qltb init x) fx) as H. destruct (position _ fx) as [j|].
      - destruct H as (H1 & (x & H2 & H3) & H4). split; [lia|]. split.
        + eapply Forall_impl; [|exact H4]. intros y Hy. apply Qltb_false in Hy. exact Hy.
        + apply Qltb_iff in H3. rewrite (skipn_cons _ _ _ H2). constructor; [exact H3|]. destruct (sorted_split fx _ x HS H2) as [_ H5].
          eapply Forall_impl; [|exact H5]. intros y Hy. cbv beta in *. lra.
      - split; [lia|]. rewrite Nat2Z.id, firstn_all, skipn_all. split; [|constructor]. eapply Forall_impl; [|exact H]. intros y Hy. apply Qltb_false in Hy. exact Hy. }
    destruct Hi as (Hi & HL & HR). clearbody i.
    set (pi := if (0 <? i) && _ then i - 2 else i - 1).
    assert (Hp : -1 <= pi < Z.of_nat (length fx) /\ filter (fun x => Qltb x init) fx = firstn (Z.to_nat (pi + 1)) fx).
    { unfold pi. destruct (0 <? i) eqn:E0; cbn [andb]; [apply Z.ltb_lt in E0|apply Z.ltb_ge in E0].
      - destruct (nth_error fx (Z.to_nat (i - 1))) as [x|] eqn:EX; [|apply nth_error_None in EX; lia].
        destruct (sorted_split fx _ x HS EX) as [A B].
        assert (ESk : skipn (Z.to_nat (i - 1)) fx = x :: skipn (Z.to_nat i) fx).
        { rewrite (skipn_cons _ _ _ EX). f_equal. f_equal. lia. }
        assert (EFi : firstn (Z.to_nat i) fx = firstn (Z.to_nat (i - 1)) fx ++ [x]).
        { rewrite <- (firstn_snoc _ _ _ EX). f_equal. lia. }
        assert (Hx : (x <= init)%Q). { rewrite EFi in HL. apply Forall_app in HL as [_ HL]. inversion HL; assumption. }
        destruct (Qeq_bool x init) eqn:EQ.
        + apply Qeq_bool_iff in EQ. split; [lia|]. replace (i - 2 + 1) with (i - 1) by lia. apply filter_below.
          * eapply Forall_impl; [|exact A]. intros y Hy. cbv beta in *. lra.
          * rewrite ESk. constructor; [lra|]. eapply Forall_impl; [|exact HR]. intros y Hy. cbv beta in *. lra.
        + assert (x < init)%Q. { destruct (Qlt_le_dec x init) as [|H]; [assumption|]. exfalso. rewrite (proj2 (Qeq_bool_iff x init)) in EQ by lra. discriminate. }
          split; [lia|]. replace (i - 1 + 1) with i by lia. apply filter_below.
          * rewrite EFi. apply Forall_app. split; [|repeat constructor; assumption]. eapply Forall_impl; [|exact A]. intros y Hy. cbv beta in *. lra.
          * eapply Forall_impl; [|exact HR]. intros y Hy. cbv beta in *. lra.
      - assert (i = 0) by lia. subst i. split; [lia|]. change (Z.to_nat (0 - 1 + 1)) with 0%nat. apply filter_below; [constructor|].
        change (skipn 0 fx) with fx in HR |- *. eapply Forall_impl; [|exact HR]. intros y Hy. cbv beta in *. lra. }
    destruct Hp as (Hp & EL). clearbody pi. rewrite (right_go fuel to init i 0 ltac:(lia)), (left_go fuel from init pi 0 Hp). fold fx.
    rewrite EL, (filter_above init fx HS (Z.to_nat i) HL HR). reflexivity.
  Qed.
End Index.

(** ** The theorems *)
Section Results.
  Variable integral : point -> point -> Q.

  Lemma initial_inside from to : interval from to -> point_le from (Pt (initial from to)) /\ point_le (Pt (initial from to)) to.
  Proof.
    intros (H1 & H2 & H3). destruct from as [|a|], to as [|b|]; cbn in *; try congruence; auto; try contradiction; try (split; auto; lra).
    split.
    - assert (0 <= (b - a) / 2)%Q; [apply Qle_shift_div_l; lra|lra].
    - assert ((b - a) / 2 <= b - a)%Q; [apply Qle_shift_div_r; lra|lra].
  Qed.

  Lemma dyn_ahead breaks dir : ordered_breaks breaks -> forall b rb, dyn (br_next breaks) dir b = Some rb -> ahead dir b rb.
  Proof.
    intros [_ H] b rb. unfold dyn. destruct (br_next breaks) as [f|]; [|discriminate]. destruct (H b) as [H1 H2]. destruct dir; cbn; auto.
  Qed.

  Lemma sorted_filter {A} (R : A -> A -> Prop) f l : StronglySorted R l -> StronglySorted R (filter f l).
  Proof.
    induction 1 as [|x l _ IH HF]; cbn [filter]; [constructor|]. destruct (f x); [|exact IH]. constructor; [exact IH|].
    apply Forall_forall. intros y Hy. apply filter_In in Hy as [Hy _]. eapply Forall_forall in HF; eassumption.
  Qed.
  Lemma sorted_snoc {A} (R : A -> A -> Prop) l x : StronglySorted R l -> Forall (fun y => R y x) l -> StronglySorted R (l ++ [x]).
  Proof.
    induction 1 as [|y l _ IH HF]; intros H; cbn [app]; [repeat constructor|]. inversion H; subst. constructor; [apply IH; assumption|].
    apply Forall_app. split; [exact HF|]. repeat constructor. assumption.
  Qed.
  Lemma sorted_rev l : StronglySorted Qlt l -> StronglySorted (ahead ToLeft) (rev l).
  Proof.
    induction 1 as [|x l _ IH HF]; cbn [rev]; [constructor|]. apply sorted_snoc; [exact IH|]. apply Forall_rev. exact HF.
  Qed.
  Lemma start_right init bs : StronglySorted Qlt bs -> StronglySorted (ahead ToRight) (init :: filter (fun x => Qltb init x) bs).
  Proof.
    intros H. constructor; [apply (sorted_filter Qlt); exact H|]. apply Forall_forall. intros x Hx. apply filter_In in Hx as [_ Hx]. apply Qltb_iff in Hx. exact Hx.
  Qed.
  Lemma start_left init bs : StronglySorted Qlt bs -> StronglySorted (ahead ToLeft) (init :: rev (filter (fun x => Qltb x init) bs)).
  Proof.
    intros H. constructor; [apply sorted_rev; apply sorted_filter; exact H|]. apply Forall_rev. apply Forall_forall. intros x Hx. apply filter_In in Hx as [_ Hx]. apply Qltb_iff in Hx. exact Hx.
  Qed.

  Lemma path_tiles_right ps : forall b e, path ToRight b ps e -> tiles b ps e.
  Proof. induction ps as [|p ps IH]; intros b e H; [exact H|]. destruct H as (c & -> & H1 & H2). cbn. repeat split; auto. Qed.
  Lemma tiles_app ps : forall qs a b c, tiles a ps b -> tiles b qs c -> tiles a (ps ++ qs) c.
  Proof.
    induction ps as [|[x y] ps IH]; intros qs a b c H1 H2; cbn in *; [subst; exact H2|]. destruct H1 as (-> & H & H1). repeat split; [exact H|]. eapply IH; eassumption.
  Qed.
  Lemma path_tiles_left ps : forall b e, path ToLeft b ps e -> tiles e (rev ps) b.
  Proof.
    induction ps as [|p ps IH]; intros b e H; cbn [path] in H; [symmetry; exact H|]. destruct H as (c & -> & H1 & H2). cbn [rev].
    eapply tiles_app; [apply IH; exact H2|]. cbn. repeat split. exact H1.
  Qed.

  Lemma pieces_spec breaks fuel from to l r : ordered_breaks breaks -> interval from to ->
    piecewise integral breaks fuel from to = Some (l, r) ->
    exists a b, tiles a (rev l) (Pt (initial from to)) /\ tiles (Pt (initial from to)) r b /\ point_le from a /\ point_le b to /\
      (point_eq a from \/ converged integral l) /\ (point_eq b to \/ converged integral r) /\
      (br_next breaks = None -> (length (br_fixed breaks) < 10)%nat -> point_eq a from /\ point_eq b to).
  Proof.
    intros HO HI. destruct (initial_inside from to HI) as [H1 H2]. rewrite (piecewise_go _ _ (proj1 HO)). cbv zeta.
    destruct (go integral _ ToLeft _ _ _ _ _) as [l'|] eqn:EL; [|discriminate]. destruct (go integral _ ToRight _ _ _ _ _) as [r'|] eqn:ER; [|discriminate].
    intros H. assert (l' = l) by congruence. assert (r' = r) by congruence. subst.
    destruct (go_path integral (br_next breaks) ToLeft from (dyn_ahead breaks ToLeft HO) fuel _ _ 0 l (start_left _ _ (proj1 HO)) ltac:(lia) H1 EL) as (a & A1 & A2 & A3 & A4).
    destruct (go_path integral (br_next breaks) ToRight to (dyn_ahead breaks ToRight HO) fuel _ _ 0 r (start_right _ _ (proj1 HO)) ltac:(lia) H2 ER) as (b & B1 & B2 & B3 & B4).
    exists a, b. split; [apply path_tiles_left; exact A1|]. split; [apply path_tiles_right; exact B1|]. split; [exact A2|]. split; [exact B2|].
    split; [destruct A3 as [A3|A3]; [left; exact A3|right; unfold converged; apply Nat2Z.inj_le; exact A3]|].
    split; [destruct B3 as [B3|B3]; [left; exact B3|right; unfold converged; apply Nat2Z.inj_le; exact B3]|].
    intros HN HL.
    assert (HF : forall f, (length (filter f (br_fixed breaks)) <= length (br_fixed breaks))%nat).
    { intros f. induction (br_fixed breaks) as [|x k IH]; cbn; [lia|]. assert (length (filter f k) <= length k)%nat.
      { clear. induction k as [|y k IH]; cbn; [lia|]. destruct (f y); cbn; lia. } destruct (f x); cbn; lia. }
    split; [apply A4|apply B4]; auto.
    - rewrite rev_length. specialize (HF (fun x => Qltb x (initial from to))). lia.
    - specialize (HF (fun x => Qltb (initial from to) x)). lia.
  Qed.

  Lemma value_of_app ps qs : (value_of integral (ps ++ qs) == value_of integral ps + value_of integral qs)%Q.
  Proof. unfold value_of. rewrite map_app, Qsum_app. reflexivity. Qed.
  Lemma value_of_rev ps : (value_of integral (rev ps) == value_of integral ps)%Q.
  Proof. induction ps as [|p ps IH]; [reflexivity|]. cbn [rev]. rewrite value_of_app, IH. unfold value_of. cbn. lra. Qed.
  Lemma tiles_le ps : forall a b, tiles a ps b -> point_le a b.
  Proof.
    induction ps as [|[c e] ps IH]; intros a b H; cbn in H; [subst; apply point_le_refl|]. destruct H as (-> & H1 & H2).
    eapply point_le_trans; [apply point_lt_le; exact H1|apply IH; exact H2].
  Qed.
  Lemma tiles_value ps : exact_quadrature integral -> forall a b, tiles a ps b -> (value_of integral ps == integral a b)%Q.
  Proof.
    intros [HA HP]. induction ps as [|[c e] ps IH]; intros a b H; cbn in H.
    - subst. unfold value_of. cbn. specialize (HA b b b (point_le_refl b) (point_le_refl b)). lra.
    - destruct H as (-> & H1 & H2). change (value_of integral ((c, e) :: ps)) with (integral c e + value_of integral ps)%Q. rewrite (IH _ _ H2).
      apply HA; [apply point_lt_le; exact H1|apply tiles_le in H2; exact H2].
  Qed.

  Lemma exact_value breaks fuel from to l r : exact_quadrature integral -> ordered_breaks breaks -> interval from to ->
    piecewise integral breaks fuel from to = Some (l, r) ->
    (~ converged integral l /\ ~ converged integral r) \/ (br_next breaks = None /\ (length (br_fixed breaks) < 10)%nat) ->
    (value_of integral l + value_of integral r == integral from to)%Q.
  Proof.
    intros HQ HO HI HP HC. destruct (pieces_spec breaks fuel from to l r HO HI HP) as (a & b & H1 & H2 & H3 & H4 & H5 & H6 & H7).
    assert (HE : point_eq a from /\ point_eq b to) by (destruct HC as [[C1 C2]|[C1 C2]]; [split; tauto|auto]). destruct HE as [E1 E2].
    pose proof (tiles_value _ HQ _ _ (tiles_app _ _ _ _ _ H1 H2)) as HV. rewrite value_of_app, value_of_rev in HV. rewrite HV.
    apply (proj2 HQ); assumption.
  Qed.

  (** Breakpoints outside the interval. *)
  Lemma filter_filter {A} (f g : A -> bool) l : filter f (filter g l) = filter (fun x => g x && f x) l.
  Proof. induction l as [|x l IH]; cbn; [reflexivity|]. destruct (g x); cbn; [destruct (f x); rewrite IH; reflexivity|exact IH]. Qed.
  Lemma filter_rev {A} (f : A -> bool) l : filter f (rev l) = rev (filter f l).
  Proof. induction l as [|x l IH]; cbn; [reflexivity|]. rewrite filter_app, IH. cbn. destruct (f x); cbn; [reflexivity|apply app_nil_r]. Qed.

  Lemma outside_irrelevant breaks fuel from to : ordered_breaks breaks -> interval from to ->
    piecewise integral breaks fuel from to = piecewise integral (only_inside from to breaks) fuel from to.
  Proof.
    intros HO HI. destruct (initial_inside from to HI) as [H1 H2]. rewrite (piecewise_go _ _ (proj1 HO)).
    rewrite (piecewise_go integral (only_inside from to breaks)) by (apply sorted_filter; exact (proj1 HO)). cbv zeta. cbn [only_inside br_fixed br_next].
    set (init := initial from to) in *.
    rewrite (go_filter integral (br_next breaks) ToLeft from fuel init _ 0 (start_left _ _ (proj1 HO))).
    rewrite (go_filter integral (br_next breaks) ToRight to fuel init _ 0 (start_right _ _ (proj1 HO))).
    rewrite filter_rev, !filter_filter.
    assert (E1 : forall x, (Qltb x init && before_limit ToLeft from x)%bool = ((negb (point_leb (Pt x) from) && negb (point_leb to (Pt x))) && Qltb x init)%bool).
    { intros x. unfold before_limit, reached. destruct (Qltb x init) eqn:E; [|cbn; rewrite andb_false_r; reflexivity]. apply Qltb_iff in E.
      assert (EF : point_leb to (Pt x) = false) by (apply point_leb_false; clear -E H2; destruct to; cbn in *; auto; lra). rewrite EF. cbn [negb]. rewrite !andb_true_r. reflexivity. }
    assert (E2 : forall x, (Qltb init x && before_limit ToRight to x)%bool = ((negb (point_leb (Pt x) from) && negb (point_leb to (Pt x))) && Qltb init x)%bool).
    { intros x. unfold before_limit, reached. destruct (Qltb init x) eqn:E; [|cbn; rewrite andb_false_r; reflexivity]. apply Qltb_iff in E.
      assert (EF : point_leb (Pt x) from = false) by (apply point_leb_false; clear -E H1; destruct from; cbn in *; auto; lra). rewrite EF. cbn [negb]. rewrite andb_true_r. reflexivity. }
    rewrite (filter_ext _ _ E1), (filter_ext _ _ E2). reflexivity.
  Qed.

  (** Termination. *)
  Lemma join breaks from to : StronglySorted Qlt (br_fixed breaks) ->
    (exists f, go integral (br_next breaks) ToLeft from f (initial from to) (rev (filter (fun x => Qltb x (initial from to)) (br_fixed breaks))) 0 <> None) ->
    (exists f, go integral (br_next breaks) ToRight to f (initial from to) (filter (fun x => Qltb (initial from to) x) (br_fixed breaks)) 0 <> None) ->
    exists r fuel0, forall fuel, (fuel0 <= fuel)%nat -> piecewise integral breaks fuel from to = Some r.
  Proof.
    intros HS [f1 H1] [f2 H2]. destruct (go integral _ ToLeft _ f1 _ _ _) as [l|] eqn:E1; [|congruence]. destruct (go integral _ ToRight _ f2 _ _ _) as [r|] eqn:E2; [|congruence].
    exists (l, r), (max f1 f2). intros fuel HF. rewrite (piecewise_go _ _ HS). cbv zeta.
    rewrite (go_enough _ _ _ _ f1 fuel _ _ _ _ ltac:(lia) E1), (go_enough _ _ _ _ f2 fuel _ _ _ _ ltac:(lia) E2). reflexivity.
  Qed.

  Lemma terminates_fixed breaks from to : ordered_breaks breaks -> br_next breaks = None ->
    exists r fuel0, forall fuel, (fuel0 <= fuel)%nat -> piecewise integral breaks fuel from to = Some r.
  Proof. intros HO HN. apply join; [exact (proj1 HO)| |]; eexists; apply go_fixed; auto. Qed.

  Lemma floor_step (d a b : Q) : (0 < d)%Q -> (a < b)%Q -> (a + d <= b)%Q \/ (exists k, b == inject_Z k * d)%Q -> Qfloor (a / d) + 1 <= Qfloor (b / d).
  Proof.
    intros Hd Hab H. assert (HA : (inject_Z (Qfloor (a / d)) <= a / d)%Q) by apply Qfloor_le.
    destruct H as [H|[k H]].
    - assert (HB : (inject_Z (Qfloor (a / d) + 1) <= b / d)%Q).
      { rewrite inject_Z_plus. assert (a / d + 1 <= b / d)%Q; [|change (inject_Z 1) with 1%Q; lra].
        apply Qle_shift_div_l; [exact Hd|]. assert ((a / d + 1) * d == a + d)%Q by (field; lra). lra. }
      apply Qfloor_resp_le in HB. rewrite Qfloor_Z in HB. exact HB.
    - assert (HB : (b / d == inject_Z k)%Q) by (rewrite H; field; lra). rewrite HB, Qfloor_Z.
      assert ((a / d < inject_Z k)%Q). { rewrite <- HB. apply Qlt_shift_div_l; [exact Hd|]. assert (a / d * d == a)%Q by (field; lra). lra. }
      assert (inject_Z (Qfloor (a / d)) < inject_Z k)%Q by lra. rewrite <- Zlt_Qlt in H1. lia.
  Qed.

  Lemma terminates_dynamic breaks next d a b : ordered_breaks breaks -> br_next breaks = Some next -> (0 < d)%Q -> steps d next ->
    exists r fuel0, forall fuel, (fuel0 <= fuel)%nat -> piecewise integral breaks fuel (Pt a) (Pt b) = Some r.
  Proof.
    intros HO HN Hd HS. apply join; [exact (proj1 HO)| |].
    - set (init := initial _ _). set (rest := rev _). set (phi := fun x => - Qceiling (x / d)).
      exists (S (Z.to_nat (Z.of_nat (length rest) + Z.max 0 (- Qceiling (a / d) + 1 - phi init)))).
      apply (go_dynamic integral (br_next breaks) ToLeft (Pt a) (dyn_ahead breaks ToLeft HO) phi (- Qceiling (a / d))).
      + intros x y H. cbn in H. unfold phi. assert (Qceiling (y / d) <= Qceiling (x / d)); [|lia]. apply Qceiling_resp_le. apply Qle_shift_div_l; [exact Hd|].
        assert (y / d * d == y)%Q by (field; lra). lra.
      + intros x y. unfold dyn. rewrite HN. intros H. destruct (HS x) as [HS1 _]. destruct (HS1 y H) as [H1 H2]. unfold phi, Qceiling.
        rewrite !Z.opp_involutive.
        assert (HE : forall z, Qfloor (- (z / d)) = Qfloor ((- z) / d)) by (intros z; apply Qfloor_comp; field; lra). rewrite !HE.
        apply floor_step; [exact Hd|lra|]. destruct H2 as [H2|[k H2]]; [left; lra|right; exists (- k)]. rewrite inject_Z_opp. rewrite H2. ring.
      + intros x H. unfold phi in H. apply reached_true. cbn. destruct (Qlt_le_dec a x) as [H1|H1]; [|exact H1]. exfalso.
        assert (Qceiling (a / d) <= Qceiling (x / d)); [|lia]. apply Qceiling_resp_le. apply Qle_shift_div_l; [exact Hd|]. assert (a / d * d == a)%Q by (field; lra). lra.
      + apply start_left. exact (proj1 HO).
      + lia.
    - set (init := initial _ _). set (rest := filter _ _). set (phi := fun x => Qfloor (x / d)).
      exists (S (Z.to_nat (Z.of_nat (length rest) + Z.max 0 (Qfloor (b / d) + 1 - phi init)))).
      apply (go_dynamic integral (br_next breaks) ToRight (Pt b) (dyn_ahead breaks ToRight HO) phi (Qfloor (b / d))).
      + intros x y H. cbn in H. unfold phi. apply Qfloor_resp_le. apply Qle_shift_div_l; [exact Hd|]. assert (x / d * d == x)%Q by (field; lra). lra.
      + intros x y. unfold dyn. rewrite HN. intros H. destruct (HS x) as [_ HS1]. destruct (HS1 y H) as [H1 H2]. unfold phi. apply floor_step; assumption.
      + intros x H. unfold phi in H. apply reached_true. cbn. destruct (Qlt_le_dec x b) as [H1|H1]; [|exact H1]. exfalso.
        assert (Qfloor (x / d) <= Qfloor (b / d)); [|lia]. apply Qfloor_resp_le. apply Qle_shift_div_l; [exact Hd|]. assert (x / d * d == x)%Q by (field; lra). lra.
      + apply start_right. exact (proj1 HO).
      + lia.
  Qed.

  (** The grid of integers. *)
  Lemma grid_ordered : ordered_breaks (br_grid 1).
  Proof.
    split; [constructor|]. cbn. intros b. split; intros x H; assert (HE : Some x = Some x) by reflexivity.
    - assert (x = inject_Z (Qceiling b) - 1)%Q by congruence. subst. pose proof (Qceiling_lt b) as HC. unfold Z.sub in HC. rewrite inject_Z_plus, inject_Z_opp in HC. change (inject_Z 1) with 1%Q in HC. lra.
    - assert (x = inject_Z (Qfloor b) + 1)%Q by congruence. subst. pose proof (Qlt_floor b) as HC. rewrite inject_Z_plus in HC. change (inject_Z 1) with 1%Q in HC. lra.
  Qed.
  Lemma grid_steps next : br_next (br_grid 1) = Some next -> steps 1 next.
  Proof.
    intros H b. pose proof (proj2 grid_ordered) as HO. cbn [br_grid br_next] in HO, H.
    assert (HN : next = (fun b => (Some (inject_Z (Qceiling b) - 1)%Q, Some (inject_Z (Qfloor b) + 1)%Q))) by congruence.
    subst next. destruct (HO b) as [H1 H2]. split; intros x Hx; (split; [auto|]); right; cbn in Hx.
    - assert (x = inject_Z (Qceiling b) - 1)%Q by congruence. subst x. exists (Qceiling b - 1). unfold Z.sub. rewrite inject_Z_plus, inject_Z_opp. change (inject_Z 1) with 1%Q. ring.
    - assert (x = inject_Z (Qfloor b) + 1)%Q by congruence. subst x. exists (Qfloor b + 1). rewrite inject_Z_plus. change (inject_Z 1) with 1%Q. ring.
  Qed.
End Results.

(** ** Adding breakpoints *)
Lemma insert_in x l y : In y (insert x l) <-> y = x \/ In y l.
Proof.
  induction l as [|z l IH]; cbn; [intuition|]. destruct (Qle_bool x z); cbn; [intuition|]. rewrite IH. intuition.
Qed.
Lemma sort_in l y : In y (sort l) <-> In y l.
Proof. induction l as [|x l IH]; cbn; [tauto|]. rewrite insert_in, IH. intuition. Qed.
Lemma insert_sorted x l : StronglySorted Qlt l -> (forall y, In y l -> ~ (x == y)%Q) -> StronglySorted Qlt (insert x l).
Proof.
  induction 1 as [|z l HS IH HF]; intros HN; cbn; [repeat constructor|]. destruct (Qle_bool x z) eqn:E.
  - apply Qle_bool_iff in E. assert (x < z)%Q by (specialize (HN z (or_introl eq_refl)); lra). constructor; [constructor; assumption|].
    constructor; [assumption|]. eapply Forall_impl; [|exact HF]. intros y Hy. cbv beta in *. lra.
  - assert (z < x)%Q. { destruct (Qlt_le_dec z x) as [|H]; [assumption|]. apply Qle_bool_iff in H. congruence. }
    constructor; [apply IH; intros; apply HN; right; assumption|]. apply Forall_forall. intros y Hy. apply insert_in in Hy as [->|Hy]; [assumption|].
    eapply Forall_forall in HF; eassumption.
Qed.
Lemma sort_sorted l : ForallOrdPairs (fun x y => ~ (x == y)%Q) l -> StronglySorted Qlt (sort l).
Proof.
  induction 1 as [|x l HF _ IH]; cbn; [constructor|]. apply insert_sorted; [exact IH|]. intros y Hy. apply (proj1 (sort_in l y)) in Hy. eapply Forall_forall in HF; eassumption.
Qed.
Lemma fop_app {A} (R : A -> A -> Prop) l k : ForallOrdPairs R l -> ForallOrdPairs R k -> (forall x y, In x l -> In y k -> R x y) -> ForallOrdPairs R (l ++ k).
Proof.
  induction 1 as [|x l HF _ IH]; intros HK HX; cbn; [exact HK|]. constructor.
  - apply Forall_app. split; [exact HF|]. apply Forall_forall. intros y Hy. apply HX; [left; reflexivity|exact Hy].
  - apply IH; [exact HK|]. intros; apply HX; [right|]; assumption.
Qed.
Lemma fop_filter {A} (R : A -> A -> Prop) f l : ForallOrdPairs R l -> ForallOrdPairs R (filter f l).
Proof.
  induction 1 as [|x l HF _ IH]; cbn; [constructor|]. destruct (f x); [|exact IH]. constructor; [|exact IH].
  apply Forall_forall. intros y Hy. apply filter_In in Hy as [Hy _]. eapply Forall_forall in HF; eassumption.
Qed.

Lemma add_spec bs b : StronglySorted Qlt (br_fixed b) -> distinct bs ->
  StronglySorted Qlt (br_fixed (br_add bs b)) /\ br_next (br_add bs b) = br_next b /\
  (forall x, (exists y, In y (br_fixed (br_add bs b)) /\ (x == y)%Q) <-> (exists y, In y (br_fixed b ++ bs) /\ (x == y)%Q)).
Proof.
  intros HS HD. unfold br_add; cbn [br_fixed br_next]. split; [|split; [reflexivity|]].
  - apply sort_sorted. apply fop_app.
    + clear -HS. induction HS as [|x l _ IH HF]; constructor; [|exact IH]. eapply Forall_impl; [|exact HF]. intros y Hy. cbv beta in *. lra.
    + apply fop_filter. exact HD.
    + intros x y Hx Hy HE. apply filter_In in Hy as [_ Hy]. apply negb_true_iff in Hy. apply Bool.not_true_iff_false in Hy. apply Hy.
      apply existsb_exists. exists x. split; [exact Hx|]. apply Qeq_bool_iff. lra.
  - intros x. split; intros (y & Hy & HE).
    + apply (proj1 (sort_in _ _)) in Hy. apply in_app_or in Hy as [Hy|Hy]; [exists y; split; [apply in_or_app; left; exact Hy|exact HE]|].
      apply filter_In in Hy as [Hy _]. exists y; split; [apply in_or_app; right; exact Hy|exact HE].
    + apply in_app_or in Hy as [Hy|Hy]; [exists y; split; [apply sort_in; apply in_or_app; left; exact Hy|exact HE]|].
      destruct (existsb (Qeq_bool y) (br_fixed b)) eqn:E.
      * apply existsb_exists in E as (z & Hz & E). apply Qeq_bool_iff in E. exists z. split; [apply sort_in; apply in_or_app; left; exact Hz|lra].
      * exists y. split; [|exact HE]. apply sort_in. apply in_or_app. right. apply filter_In. split; [exact Hy|]. rewrite E. reflexivity.
Qed.

Lemma inside_ordered from to breaks : ordered_breaks breaks -> ordered_breaks (only_inside from to breaks).
Proof. intros [H1 H2]. split; [apply sorted_filter; exact H1|exact H2]. Qed.

Lemma few_breaks_value integral breaks from to : exact_quadrature integral -> ordered_breaks breaks -> interval from to ->
  br_next breaks = None -> (length (br_fixed (only_inside from to breaks)) < 10)%nat ->
  exists fuel0, forall fuel, (fuel0 <= fuel)%nat -> exists v, piecewise_integral integral breaks fuel from to = Some v /\ (v == integral from to)%Q.
Proof.
  intros HQ HO HI HN HL. destruct (terminates_fixed integral breaks from to HO HN) as ([l r] & f0 & HF). exists f0. intros fuel H.
  exists (value_of integral l + value_of integral r)%Q. unfold piecewise_integral. rewrite (HF fuel H). split; [reflexivity|].
  apply (exact_value integral (only_inside from to breaks) fuel from to l r HQ (inside_ordered _ _ _ HO) HI); [|right; auto].
  rewrite <- outside_irrelevant by assumption. apply HF. exact H.
Qed.

Lemma whole_value integral breaks fuel from to l r : exact_quadrature integral -> ordered_breaks breaks -> interval from to ->
  piecewise integral breaks fuel from to = Some (l, r) -> ~ converged integral l -> ~ converged integral r ->
  exists v, piecewise_integral integral breaks fuel from to = Some v /\ (v == integral from to)%Q.
Proof.
  intros HQ HO HI HP H1 H2. unfold piecewise_integral. rewrite HP. eexists. split; [reflexivity|]. eapply exact_value; eauto.
Qed.

Lemma pieces_tile integral breaks fuel from to l r : ordered_breaks breaks -> interval from to ->
  piecewise integral breaks fuel from to = Some (l, r) ->
  (exists a b, tiles a (rev l ++ r) b /\ point_le from a /\ point_le b to /\
    (point_eq a from \/ converged integral l) /\ (point_eq b to \/ converged integral r)) /\
  piecewise_integral integral breaks fuel from to = Some (value_of integral l + value_of integral r)%Q.
Proof.
  intros HO HI HP. split; [|unfold piecewise_integral; rewrite HP; reflexivity].
  destruct (pieces_spec integral breaks fuel from to l r HO HI HP) as (a & b & H1 & H2 & H3 & H4 & H5 & H6 & _).
  exists a, b. split; [eapply tiles_app; eassumption|]. auto.
Qed.

Lemma terminates integral breaks from to : ordered_breaks breaks ->
  br_next breaks = None \/
  (exists next d a b, br_next breaks = Some next /\ (0 < d)%Q /\ steps d next /\ from = Pt a /\ to = Pt b) ->
  exists r fuel0, forall fuel, (fuel0 <= fuel)%nat -> piecewise integral breaks fuel from to = Some r.
Proof.
  intros HO [HN|(next & d & a & b & HN & Hd & HS & -> & ->)]; [apply terminates_fixed; assumption|]. eapply terminates_dynamic; eassumption.
Qed.
