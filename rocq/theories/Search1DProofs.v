(** Proofs about the one-dimensional graph search. *)
From Verif Require Import NumLemmas ObjectiveSpec Search1DModel.
Local Open Scope Z_scope.

(** * The dynamic program *)
Section DP.
  Variable hit : Z -> Z -> ext.
  Variable beta alpha : Q.
  Variable inverted : bool.
  Variable x_start : Z.

  Local Notation bc := (build_cost hit beta alpha inverted).

  (** Cost of a path through the layers t, t+1, ... *)
  Fixpoint pc (t prev : Z) (xs : list Z) : ext :=
    match xs with
    | [] => Fin 0
    | x :: r => eadd (bc t prev x) (pc (t + 1) x r)
    end.

  Lemma pc_snoc xs : forall t prev j,
    eeq (pc t prev (xs ++ [j]))
        (eadd (pc t prev xs) (bc (t + Z.of_nat (length xs)) (last xs prev) j)).
  Proof.
    induction xs as [|x r IH]; intros t prev j.
    - cbn [app pc length last]. rewrite Z.add_0_r, eadd_0_l, eadd_0_r. reflexivity.
    - cbn [app pc]. rewrite IH, eadd_assoc.
      replace (t + 1 + Z.of_nat (length r)) with (t + Z.of_nat (length (x :: r)))
        by (cbn [length]; lia).
      replace (last r x) with (last (x :: r) prev); [reflexivity|].
      clear. revert x prev. induction r as [|y r IH]; intros x prev; [reflexivity|].
      change (last (x :: y :: r) prev) with (last (y :: r) prev).
      rewrite (IH y prev), (IH y x). reflexivity.
  Qed.

  (** Paths through given rows. *)
  Fixpoint in_rows (R : Z -> list Z) (t : Z) (xs : list Z) : Prop :=
    match xs with
    | [] => True
    | x :: r => In x (R t) /\ in_rows R (t + 1) r
    end.

  Lemma in_rows_snoc R xs : forall t j,
    in_rows R t (xs ++ [j]) <-> in_rows R t xs /\ In j (R (t + Z.of_nat (length xs))).
  Proof.
    induction xs as [|x r IH]; intros t j.
    - cbn [app in_rows length]. rewrite Z.add_0_r. tauto.
    - cbn [app in_rows]. rewrite IH.
      replace (t + 1 + Z.of_nat (length r)) with (t + Z.of_nat (length (x :: r)))
        by (cbn [length]; lia). tauto.
  Qed.

  Lemma lookup_insert_same ps v p : lookup (insert ps v p) v = Some p.
  Proof. destruct v; cbn. rewrite !Z.eqb_refl. reflexivity. Qed.

  Lemma lookup_insert_other ps v w p : v <> w -> lookup (insert ps v p) w = lookup ps w.
  Proof.
    destruct v as [a b], w as [c d]; cbn. intros H.
    destruct (a =? c) eqn:E1, (b =? d) eqn:E2; cbn; auto.
    exfalso; apply H; f_equal; lia.
  Qed.

  (** What is known about the path stored at a vertex of layer [n] (with row [j]). *)
  Definition vertex_ok (R : Z -> list Z) (n : nat) (j : Z) (p : path) : Prop :=
    length (pa_xs p) = n /\ in_rows R 1 (pa_xs p) /\ last (pa_xs p) x_start = j /\
    eeq (pa_cost p) (pc 1 x_start (pa_xs p)) /\
    forall ys, length ys = n -> in_rows R 1 ys -> last ys x_start = j ->
               ele (pa_cost p) (pc 1 x_start ys).

  (** The previous layer: the rows of layer [n]. *)
  Definition rows_at (R : Z -> list Z) (n : nat) : list Z :=
    match n with O => [x_start] | _ => R (Z.of_nat n) end.

  Definition layer_ok R (n : nat) (ps : paths) : Prop :=
    forall j, In j (rows_at R n) ->
      exists p, lookup ps (Z.of_nat n, j) = Some p /\ vertex_ok R n j p.

  Lemma pick_source_spec ps t to : forall from s0 c0,
    (forall s, In s from -> lookup ps (t - 1, s) <> None) ->
    exists s c, pick_source hit beta alpha inverted ps t to from (s0, c0) = Ok (s, c) /\
      ele c c0 /\
      (forall s', In s' from -> forall p, lookup ps (t - 1, s') = Some p ->
         ele c (eadd (pa_cost p) (bc t s' to))) /\
      ((s = s0 /\ c = c0) \/
       (In s from /\ exists p, lookup ps (t - 1, s) = Some p /\
          c = eadd (pa_cost p) (bc t s to))).
  Proof.
    induction from as [|a from IH]; intros s0 c0 Hl.
    - exists s0, c0. cbn. split; [reflexivity|]. split; [apply ele_refl|].
      split; [tauto|]. left; auto.
    - cbn [pick_source]. destruct (lookup ps (t - 1, a)) as [pa|] eqn:Ea.
      2:{ exfalso; apply (Hl a); cbn; auto. }
      cbn [from_option obind snd].
      set (nc := eadd (pa_cost pa) (bc t a to)).
      destruct (eltb nc c0) eqn:E.
      + destruct (IH a nc) as (s & c & H1 & H2 & H3 & H4).
        { intros s Hs; apply Hl; cbn; auto. }
        exists s, c. split; [exact H1|].
        apply eltb_iff in E. split; [eapply ele_trans; [exact H2|apply elt_ele, E]|].
        split.
        { intros s' [<-|Hs'] p Hp; [|eapply H3; eauto].
          rewrite Ea in Hp; inversion Hp; subst. exact H2. }
        right. destruct H4 as [[-> ->]|(Hin & p & Hp & Hc)].
        * split; [cbn; auto|]. exists pa. split; [exact Ea|reflexivity].
        * split; [cbn; auto|]. eauto.
      + destruct (IH s0 c0) as (s & c & H1 & H2 & H3 & H4).
        { intros s Hs; apply Hl; cbn; auto. }
        exists s, c. split; [exact H1|]. split; [exact H2|].
        apply eltb_false in E. split.
        { intros s' [<-|Hs'] p Hp; [|eapply H3; eauto].
          rewrite Ea in Hp; inversion Hp; subst. eapply ele_trans; [exact H2|exact E]. }
        destruct H4 as [?|(Hin & p & Hp & Hc)]; [left; auto|right].
        split; [cbn; auto|]. eauto.
  Qed.

  Lemma rows_in_layer R n ys :
    length ys = n -> in_rows R 1 ys -> In (last ys x_start) (rows_at R n).
  Proof.
    intros Hl Hr. destruct n as [|n].
    - destruct ys; [|discriminate]. cbn; auto.
    - destruct (exists_last (l:=ys)) as (zs & z & ->); [destruct ys; discriminate|].
      rewrite last_last. apply in_rows_snoc in Hr. destruct Hr as [_ Hz].
      rewrite app_length in Hl. cbn [length] in Hl. cbn [rows_at].
      replace (Z.of_nat (S n)) with (1 + Z.of_nat (length zs)) by lia. exact Hz.
  Qed.

  Lemma find_shortest_subpath_spec R ps n to :
    layer_ok R n ps -> rows_at R n <> [] -> In to (R (Z.of_nat (S n))) ->
    exists p, find_shortest_subpath hit beta alpha inverted ps (Z.of_nat (S n)) (rows_at R n) to
              = Ok (insert ps (Z.of_nat (S n), to) p) /\ vertex_ok R (S n) to p.
  Proof.
    intros HL Hne Hto. unfold find_shortest_subpath.
    destruct (rows_at R n) as [|r0 rs] eqn:ER; [congruence|]. rewrite <- ER in *.
    replace (Z.of_nat (S n)) with (Z.of_nat n + 1) in * by lia.
    destruct (pick_source_spec ps (Z.of_nat n + 1) to (rows_at R n) r0 Inf)
      as (s & c & Hp & _ & Hmin & Hwit).
    { intros s Hs. replace (Z.of_nat n + 1 - 1) with (Z.of_nat n) by lia.
      destruct (HL s Hs) as (p & Hp & _). congruence. }
    replace (Z.of_nat n + 1 - 1) with (Z.of_nat n) in * by lia.
    rewrite Hp. cbn [obind fst snd].
    assert (Hs : In s (rows_at R n) /\ exists p, lookup ps (Z.of_nat n, s) = Some p /\
                 eeq c (eadd (pa_cost p) (bc (Z.of_nat n + 1) s to))).
    { destruct Hwit as [[-> ->]|(Hin & p & Hl & ->)].
      - assert (Hin : In r0 (rows_at R n)) by (rewrite ER; cbn; auto).
        split; [exact Hin|]. destruct (HL r0 Hin) as (p & Hl & _).
        exists p. split; [exact Hl|]. specialize (Hmin r0 Hin p Hl).
        destruct (eadd (pa_cost p) (bc (Z.of_nat n + 1) r0 to)); cbn in *; auto.
      - split; [exact Hin|]. exists p. split; [exact Hl|reflexivity]. }
    destruct Hs as (Hin & p & Hl & Hc).
    unfold update_paths. replace (Z.of_nat n + 1 - 1) with (Z.of_nat n) by lia.
    rewrite Hl. cbn [from_option obind].
    exists (mkPath (pa_xs p ++ [to]) c). split; [reflexivity|].
    destruct (HL s Hin) as (p' & Hl' & Hlen & Hrow & Hlast & Hcost & Hopt).
    rewrite Hl in Hl'; inversion Hl'; subst p'. clear Hl'.
    unfold vertex_ok; cbn [pa_xs pa_cost].
    split; [rewrite app_length; cbn [length]; lia|].
    split.
    { apply in_rows_snoc. split; [exact Hrow|]. rewrite Hlen.
      replace (1 + Z.of_nat n) with (Z.of_nat n + 1) by lia. exact Hto. }
    split; [apply last_last|]. split.
    { rewrite Hc, pc_snoc, Hlast, Hlen, Hcost.
      replace (1 + Z.of_nat n) with (Z.of_nat n + 1) by lia. reflexivity. }
    intros ys Hy Hry Hly.
    destruct (exists_last (l:=ys)) as (zs & z & ->); [destruct ys; discriminate|].
    rewrite last_last in Hly; subst z. apply in_rows_snoc in Hry. destruct Hry as [Hrz _].
    rewrite app_length in Hy; cbn [length] in Hy.
    assert (Hlz : length zs = n) by lia.
    assert (Hlast_in : In (last zs x_start) (rows_at R n)) by (apply rows_in_layer; auto).
    destruct (HL _ Hlast_in) as (q & Hlq & _ & _ & _ & _ & Hoq).
    eapply ele_trans; [apply (Hmin _ Hlast_in q Hlq)|].
    rewrite pc_snoc, Hlz. replace (1 + Z.of_nat n) with (Z.of_nat n + 1) by lia.
    apply eadd_mono; [apply Hoq; auto|apply ele_refl].
  Qed.

  (** [layer_ok] does not depend on entries of other layers. *)
  Lemma layer_ok_insert R n ps to p :
    layer_ok R n ps -> layer_ok R n (insert ps (Z.of_nat (S n), to) p).
  Proof.
    intros HL j Hj. destruct (HL j Hj) as (q & Hq & Hok). exists q.
    split; [|exact Hok]. rewrite lookup_insert_other; [exact Hq|].
    intros E; inversion E; lia.
  Qed.

  Lemma find_subpaths_spec R n : forall rows ps (done : list Z),
    layer_ok R n ps -> rows_at R n <> [] ->
    (forall j, In j rows -> In j (R (Z.of_nat (S n)))) ->
    (forall j, In j done -> exists p, lookup ps (Z.of_nat (S n), j) = Some p /\ vertex_ok R (S n) j p) ->
    exists ps', find_subpaths hit beta alpha inverted ps (Z.of_nat (S n)) (rows_at R n) rows = Ok ps' /\
      (forall j, In j rows \/ In j done ->
         exists p, lookup ps' (Z.of_nat (S n), j) = Some p /\ vertex_ok R (S n) j p).
  Proof.
    induction rows as [|r rows IH]; intros ps done HL Hne Hsub Hdone.
    - exists ps. split; [reflexivity|]. intros j [[]|Hj]; auto.
    - cbn [find_subpaths].
      destruct (find_shortest_subpath_spec R ps n r) as (p & -> & Hp); auto.
      { apply Hsub; cbn; auto. }
      cbn [obind].
      destruct (IH (insert ps (Z.of_nat (S n), r) p) (r :: done)) as (ps' & H1 & H2).
      + apply layer_ok_insert, HL.
      + exact Hne.
      + intros j Hj; apply Hsub; cbn; auto.
      + intros j Hj. destruct (Z.eq_dec r j) as [<-|Hrj].
        * exists p. split; [apply lookup_insert_same|exact Hp].
        * destruct Hj as [?|Hj]; [contradiction|].
          destruct (Hdone j Hj) as (q & Hq & Hok). exists q. split; [|exact Hok].
          rewrite lookup_insert_other; [exact Hq|]. intros E; inversion E; contradiction.
      + exists ps'. split; [exact H1|]. intros j Hj. apply H2. cbn in *; tauto.
  Qed.

  Lemma find_layers_spec R sel : forall k n ps,
    layer_ok R n ps -> rows_at R n <> [] ->
    (forall i, (n < i <= n + k)%nat -> sel (Z.of_nat i) = Ok (R (Z.of_nat i)) /\ R (Z.of_nat i) <> []) ->
    exists ps', find_layers hit beta alpha inverted sel ps (rows_at R n)
                  (zrange (Z.of_nat n + 1) (Z.of_nat (n + k))) = Ok (ps', rows_at R (n + k)) /\
                layer_ok R (n + k) ps'.
  Proof.
    induction k as [|k IH]; intros n ps HL Hne Hsel.
    - exists ps. rewrite Nat.add_0_r, zrange_nil by lia. cbn. split; [reflexivity|exact HL].
    - rewrite zrange_cons by lia. cbn [find_layers].
      destruct (Hsel (S n)) as [Hs Hn]; [lia|].
      replace (Z.of_nat n + 1) with (Z.of_nat (S n)) by lia.
      rewrite Hs. cbn [obind].
      destruct (find_subpaths_spec R n (R (Z.of_nat (S n))) ps []) as (ps' & -> & Hps'); auto.
      { intros j []. }
      cbn [obind].
      destruct (IH (S n) ps') as (ps'' & H1 & H2).
      + intros j Hj. apply Hps'. left. exact Hj.
      + exact Hn.
      + intros i Hi; apply Hsel; lia.
      + exists ps''. replace (n + S k)%nat with (S n + k)%nat by lia.
        split; [exact H1|exact H2].
  Qed.

  Lemma pick_final_spec ps T : forall rows r0,
    (forall j, In j rows -> lookup ps (T, j) <> None) ->
    exists r, pick_final ps T rows r0 = Ok r /\
      (forall j p, In j rows -> lookup ps (T, j) = Some p -> ele (pa_cost r) (pa_cost p)) /\
      ele (pa_cost r) (pa_cost r0) /\
      (r = r0 \/ (exists j, In j rows /\ lookup ps (T, j) = Some r /\ elt (pa_cost r) (pa_cost r0))).
  Proof.
    induction rows as [|j rows IH]; intros r0 Hl.
    - exists r0. cbn. split; [reflexivity|]. split; [tauto|]. split; [apply ele_refl|auto].
    - cbn [pick_final]. destruct (lookup ps (T, j)) as [p|] eqn:Ej.
      2:{ exfalso; apply (Hl j); cbn; auto. }
      cbn [from_option obind].
      destruct (eltb (pa_cost p) (pa_cost r0)) eqn:E.
      + apply eltb_iff in E. destruct (IH p) as (r & H1 & H2 & H3 & H4).
        { intros j' Hj'; apply Hl; cbn; auto. }
        exists r. split; [exact H1|]. split.
        { intros j' q [<-|Hj'] Hq; [|eapply H2; eauto]. rewrite Ej in Hq; inversion Hq; subst; exact H3. }
        split; [eapply ele_trans; [exact H3|apply elt_ele, E]|].
        right. destruct H4 as [->|(j' & Hin & Hlk & Hlt)].
        * exists j. split; [cbn; auto|]. auto.
        * exists j'. split; [cbn; auto|]. split; [exact Hlk|].
          apply elt_not_ele. intros C. apply elt_not_ele in Hlt. apply Hlt.
          eapply ele_trans; [|exact C]. apply elt_ele, E.
      + apply eltb_false in E. destruct (IH r0) as (r & H1 & H2 & H3 & H4).
        { intros j' Hj'; apply Hl; cbn; auto. }
        exists r. split; [exact H1|]. split.
        { intros j' q [<-|Hj'] Hq; [|eapply H2; eauto].
          rewrite Ej in Hq; inversion Hq; subst. eapply ele_trans; [exact H3|exact E]. }
        split; [exact H3|]. destruct H4 as [->|(j' & Hin & Hlk & Hlt)]; [left; auto|].
        right. exists j'. split; [cbn; auto|auto].
  Qed.

  (** [find_schedule] returns a cheapest path through the rows, or the empty path of
      infinite cost if all paths have infinite cost. *)
  Lemma find_schedule_spec R sel (n : nat) :
    (forall i, (0 < i <= n)%nat -> sel (Z.of_nat i) = Ok (R (Z.of_nat i)) /\ R (Z.of_nat i) <> []) ->
    exists r, find_schedule hit beta alpha inverted x_start (Z.of_nat n) sel = Ok r /\
      (forall ys, length ys = n -> in_rows R 1 ys -> ele (pa_cost r) (pc 1 x_start ys)) /\
      ((r = mkPath [] Inf) \/
       (length (pa_xs r) = n /\ in_rows R 1 (pa_xs r) /\
        eeq (pa_cost r) (pc 1 x_start (pa_xs r)) /\ is_fin (pa_cost r))).
  Proof.
    intros Hsel. unfold find_schedule.
    set (initial := insert [] (0, x_start) (mkPath [] (Fin 0))).
    destruct (find_layers_spec R sel n 0 initial) as (ps & H1 & H2).
    { intros j [<-|[]]. exists (mkPath [] (Fin 0)).
      split; [apply lookup_insert_same|].
      unfold vertex_ok; cbn. repeat split; auto; try reflexivity.
      intros ys Hy _ _. destruct ys; [|discriminate]. cbn. lra. }
    { cbn; discriminate. }
    { intros i Hi; apply Hsel; lia. }
    cbn [rows_at] in H1. change (Z.of_nat 0 + 1) with 1 in H1. rewrite Nat.add_0_l in H1.
    rewrite H1. cbn [obind fst snd]. cbn [Nat.add] in H2.
    destruct (pick_final_spec ps (Z.of_nat n) (rows_at R n) (mkPath [] Inf)) as (r & Hr & Hmin & _ & Hw).
    { intros j Hj. destruct (H2 j Hj) as (p & Hp & _). congruence. }
    exists r. split; [exact Hr|]. split.
    - intros ys Hl Hry. assert (Hin := rows_in_layer R n ys Hl Hry).
      destruct (H2 _ Hin) as (p & Hp & _ & _ & _ & _ & Hopt).
      eapply ele_trans; [apply (Hmin _ p Hin Hp)|]. apply Hopt; auto.
    - destruct Hw as [->|(j & Hin & Hlk & Hlt)]; [left; auto|right].
      destruct (H2 j Hin) as (p & Hp & Hlen & Hrow & _ & Hc & _).
      rewrite Hlk in Hp; inversion Hp; subst p.
      split; [exact Hlen|]. split; [exact Hrow|]. split; [exact Hc|].
      cbn in Hlt. destruct (pa_cost r); cbn in *; auto.
  Qed.
End DP.
