(** Proofs about the one-dimensional graph search with rounding. *)
From Coq Require Import Lqa.
From Verif Require Import NumLemmas ObjectiveSpec Search1DModel Search1DProofs Search1DExchange Search1DLevels Search1DTop
  GraphSearchSpec FloatModel FloatSpec FloatProofs Float1DModel.
From Verif Require Import ProblemModel.
Local Open Scope Z_scope.

Section DP.
  Variable rnd : Q -> Q.
  Variable F : Q -> Prop.
  Variables u small : Q.
  Hypothesis HR : rounds rnd F u small.
  Variable hit : Z -> Z -> ext.
  Variable beta alpha : Q.
  Variable inverted : bool.
  Variable x_start : Z.
  Hypothesis alpha_nonneg : (0 <= alpha)%Q.
  Hypothesis hit_F : forall t j, match hit t j with Fin q => F q | Inf => True end.
  Hypothesis beta_F : F beta /\ no_underflow small beta /\ no_underflow small (alpha * beta).

  Local Notation fbc := (f_build_cost rnd hit beta alpha inverted).
  Local Notation bc' := (build_cost hit beta alpha inverted).
  Local Notation pc' := (pc hit beta alpha inverted).

  Lemma build_near t i j : nearE F u 3 (bc' t i j) (fbc t i j).
  Proof.
    unfold build_cost, f_build_cost.
    apply (nearE_add rnd F u small HR 2).
    - specialize (hit_F t j). destruct (hit t j); cbn; auto. apply (near_exact rnd F u small HR); [auto|reflexivity].
    - cbn [nearE]. apply (movement_near rnd F u small HR [beta]); auto.
  Qed.

  (** The computed cost of a path: roundings from the left. *)
  Fixpoint fpc (acc : ext) (t prev : Z) (xs : list Z) : ext :=
    match xs with
    | [] => acc
    | x :: r => fpc (fadd rnd acc (fbc t prev x)) (t + 1) x r
    end.

  Lemma fpc_snoc xs : forall acc t prev j,
    fpc acc t prev (xs ++ [j]) = fadd rnd (fpc acc t prev xs) (fbc (t + Z.of_nat (length xs)) (last xs prev) j).
  Proof.
    induction xs as [|x r IH]; intros acc t prev j.
    - cbn [app fpc length last]. rewrite Z.add_0_r. reflexivity.
    - cbn [app fpc]. rewrite IH.
      replace (t + 1 + Z.of_nat (length r)) with (t + Z.of_nat (length (x :: r))) by (cbn [length]; lia).
      replace (last r x) with (last (x :: r) prev); [reflexivity|].
      clear. revert x prev. induction r as [|y r IH]; intros x prev; [reflexivity|].
      change (last (x :: y :: r) prev) with (last (y :: r) prev).
      rewrite (IH y prev), (IH y x). reflexivity.
  Qed.

  Lemma fpc_near t prev xs : nearE F u (length xs + 3) (pc' t prev xs) (fpc (Fin 0) t prev xs).
  Proof.
    induction xs as [|j xs IH] using rev_ind.
    - cbn. apply (near_exact rnd F u small HR); [apply (r_zero _ _ _ _ HR)|reflexivity].
    - rewrite fpc_snoc. eapply (nearE_compat F u); [symmetry; apply pc_snoc|].
      rewrite app_length. replace (length xs + length [j] + 3)%nat with (S (length xs + 3)) by (cbn; lia).
      apply (nearE_add rnd F u small HR); [exact IH|].
      apply (nearE_mono rnd F u small HR 3); [lia|apply build_near].
  Qed.

  Lemma fadd_mono n a b c ea eb ec : nearE F u n ea a -> nearE F u n eb b -> nearE F u n ec c ->
    ele a b -> ele (fadd rnd a c) (fadd rnd b c).
  Proof.
    destruct a as [a|], b as [b|], c as [c|], ea, eb, ec; cbn; try tauto.
    intros (_ & Fa & _) _ (_ & Fc & _) H.
    assert (A := r_nonneg _ _ _ _ HR a Fa). assert (B := r_nonneg _ _ _ _ HR c Fc).
    apply (r_mono _ _ _ _ HR); lra.
  Qed.

  Definition f_vertex_ok (R : Z -> list Z) (n : nat) (j : Z) (p : path) : Prop :=
    length (pa_xs p) = n /\ in_rows R 1 (pa_xs p) /\ last (pa_xs p) x_start = j /\
    pa_cost p = fpc (Fin 0) 1 x_start (pa_xs p) /\
    forall ys, length ys = n -> in_rows R 1 ys -> last ys x_start = j ->
               ele (pa_cost p) (fpc (Fin 0) 1 x_start ys).

  Definition f_layer_ok R (n : nat) (ps : paths) : Prop :=
    forall j, In j (rows_at x_start R n) ->
      exists p, lookup ps (Z.of_nat n, j) = Some p /\ f_vertex_ok R n j p.

  Lemma f_pick_source_spec ps t to : forall from s0 c0,
    (forall s, In s from -> lookup ps (t - 1, s) <> None) ->
    exists s c, f_pick_source rnd hit beta alpha inverted ps t to from (s0, c0) = Ok (s, c) /\
      ele c c0 /\
      (forall s', In s' from -> forall p, lookup ps (t - 1, s') = Some p ->
         ele c (fadd rnd (pa_cost p) (fbc t s' to))) /\
      ((s = s0 /\ c = c0) \/
       (In s from /\ exists p, lookup ps (t - 1, s) = Some p /\
          c = fadd rnd (pa_cost p) (fbc t s to))).
  Proof.
    induction from as [|a from IH]; intros s0 c0 Hl.
    - exists s0, c0. cbn. split; [reflexivity|]. split; [apply ele_refl|].
      split; [tauto|]. left; auto.
    - cbn [f_pick_source]. destruct (lookup ps (t - 1, a)) as [pa|] eqn:Ea.
      2:{ exfalso; apply (Hl a); cbn; auto. }
      cbn [from_option obind snd].
      set (nc := fadd rnd (pa_cost pa) (fbc t a to)).
      destruct (eltb nc c0) eqn:E.
      + destruct (IH a nc) as (s & c & H1 & H2 & H3 & H4).
        { intros s Hs; apply Hl; cbn; auto. }
        exists s, c. split; [exact H1|].
        apply eltb_iff in E. split; [eapply ele_trans; [exact H2|apply elt_ele, E]|].
        split.
        { intros s' [<-|Hs'] p Hp; [|eapply H3; eauto].
          rewrite Ea in Hp; inversion Hp; subst. exact H2. }
        right. destruct H4 as [[-> ->]|(Hin & p & Hp & Hc)].
        * split; [cbn; auto|]. exists pa. split; [exact Ea|reflexivity].
        * split; [cbn; auto|]. eauto.
      + destruct (IH s0 c0) as (s & c & H1 & H2 & H3 & H4).
        { intros s Hs; apply Hl; cbn; auto. }
        exists s, c. split; [exact H1|]. split; [exact H2|].
        apply eltb_false in E. split.
        { intros s' [<-|Hs'] p Hp; [|eapply H3; eauto].
          rewrite Ea in Hp; inversion Hp; subst. eapply ele_trans; [exact H2|exact E]. }
        destruct H4 as [?|(Hin & p & Hp & Hc)]; [left; auto|right].
        split; [cbn; auto|]. eauto.
  Qed.


  Lemma f_find_shortest_subpath_spec R ps n to :
    f_layer_ok R n ps -> rows_at x_start R n <> [] -> In to (R (Z.of_nat (S n))) ->
    exists p, f_find_shortest_subpath rnd hit beta alpha inverted ps (Z.of_nat (S n)) (rows_at x_start R n) to
              = Ok (insert ps (Z.of_nat (S n), to) p) /\ f_vertex_ok R (S n) to p.
  Proof.
    intros HL Hne Hto. unfold f_find_shortest_subpath.
    destruct (rows_at x_start R n) as [|r0 rs] eqn:ER; [congruence|]. rewrite <- ER in *.
    replace (Z.of_nat (S n)) with (Z.of_nat n + 1) in * by lia.
    destruct (f_pick_source_spec ps (Z.of_nat n + 1) to (rows_at x_start R n) r0 Inf)
      as (s & c & Hp & _ & Hmin & Hwit).
    { intros s Hs. replace (Z.of_nat n + 1 - 1) with (Z.of_nat n) by lia.
      destruct (HL s Hs) as (p & Hp & _). congruence. }
    replace (Z.of_nat n + 1 - 1) with (Z.of_nat n) in * by lia.
    rewrite Hp. cbn [obind fst snd].
    assert (Hs : In s (rows_at x_start R n) /\ exists p, lookup ps (Z.of_nat n, s) = Some p /\
                 c = fadd rnd (pa_cost p) (fbc (Z.of_nat n + 1) s to)).
    { destruct Hwit as [[-> ->]|(Hin & p & Hl & ->)].
      - assert (Hin : In r0 (rows_at x_start R n)) by (rewrite ER; cbn; auto).
        split; [exact Hin|]. destruct (HL r0 Hin) as (p & Hl & _).
        exists p. split; [exact Hl|]. specialize (Hmin r0 Hin p Hl).
        destruct (fadd rnd (pa_cost p) (fbc (Z.of_nat n + 1) r0 to)); cbn in *; [contradiction|reflexivity].
      - split; [exact Hin|]. exists p. split; [exact Hl|reflexivity]. }
    destruct Hs as (Hin & p & Hl & Hc).
    unfold update_paths. replace (Z.of_nat n + 1 - 1) with (Z.of_nat n) by lia.
    rewrite Hl. cbn [from_option obind].
    exists (mkPath (pa_xs p ++ [to]) c). split; [reflexivity|].
    destruct (HL s Hin) as (p' & Hl' & Hlen & Hrow & Hlast & Hcost & Hopt).
    rewrite Hl in Hl'; inversion Hl'; subst p'. clear Hl'.
    unfold f_vertex_ok; cbn [pa_xs pa_cost].
    split; [rewrite app_length; cbn [length]; lia|].
    split.
    { apply (proj2 (in_rows_snoc hit 0 R (pa_xs p) 1 to)). split; [exact Hrow|]. rewrite Hlen.
      replace (1 + Z.of_nat n) with (Z.of_nat n + 1) by lia. exact Hto. }
    split; [apply last_last|]. split.
    { rewrite Hc, fpc_snoc, Hlast, Hlen, Hcost.
      replace (1 + Z.of_nat n) with (Z.of_nat n + 1) by lia. reflexivity. }
    intros ys Hy Hry Hly.
    destruct (exists_last (l:=ys)) as (zs & z & ->); [destruct ys; discriminate|].
    rewrite last_last in Hly; subst z. apply (proj1 (in_rows_snoc hit 0 R zs 1 to)) in Hry. destruct Hry as [Hrz _].
    rewrite app_length in Hy; cbn [length] in Hy.
    assert (Hlz : length zs = n) by lia.
    assert (Hlast_in : In (last zs x_start) (rows_at x_start R n)) by (apply (rows_in_layer hit); auto).
    destruct (HL _ Hlast_in) as (q & Hlq & Hlenq & _ & _ & Hcq & Hoq).
    eapply ele_trans; [apply (Hmin _ Hlast_in q Hlq)|].
    rewrite fpc_snoc, Hlz. replace (1 + Z.of_nat n) with (Z.of_nat n + 1) by lia.
    assert (Nq := fpc_near 1 x_start (pa_xs q)). rewrite <- Hcq, Hlenq in Nq.
    assert (Nz := fpc_near 1 x_start zs). rewrite Hlz in Nz.
    eapply fadd_mono; [exact Nq|exact Nz| |apply Hoq; auto].
    apply (nearE_mono rnd F u small HR 3); [lia|apply build_near].
  Qed.


  Lemma f_layer_ok_insert R n ps to p :
    f_layer_ok R n ps -> f_layer_ok R n (insert ps (Z.of_nat (S n), to) p).
  Proof.
    intros HL j Hj. destruct (HL j Hj) as (q & Hq & Hok). exists q.
    split; [|exact Hok]. rewrite lookup_insert_other; [exact Hq|].
    intros E; inversion E; lia.
  Qed.


  Lemma f_find_subpaths_spec R n : forall rows ps (done : list Z),
    f_layer_ok R n ps -> rows_at x_start R n <> [] ->
    (forall j, In j rows -> In j (R (Z.of_nat (S n)))) ->
    (forall j, In j done -> exists p, lookup ps (Z.of_nat (S n), j) = Some p /\ f_vertex_ok R (S n) j p) ->
    exists ps', f_find_subpaths rnd hit beta alpha inverted ps (Z.of_nat (S n)) (rows_at x_start R n) rows = Ok ps' /\
      (forall j, In j rows \/ In j done ->
         exists p, lookup ps' (Z.of_nat (S n), j) = Some p /\ f_vertex_ok R (S n) j p).
  Proof.
    induction rows as [|r rows IH]; intros ps done HL Hne Hsub Hdone.
    - exists ps. split; [reflexivity|]. intros j [[]|Hj]; auto.
    - cbn [f_find_subpaths].
      destruct (f_find_shortest_subpath_spec R ps n r) as (p & -> & Hp); auto.
      { apply Hsub; cbn; auto. }
      cbn [obind].
      destruct (IH (insert ps (Z.of_nat (S n), r) p) (r :: done)) as (ps' & H1 & H2).
      + apply f_layer_ok_insert, HL.
      + exact Hne.
      + intros j Hj; apply Hsub; cbn; auto.
      + intros j Hj. destruct (Z.eq_dec r j) as [<-|Hrj].
        * exists p. split; [apply lookup_insert_same|exact Hp].
        * destruct Hj as [?|Hj]; [contradiction|].
          destruct (Hdone j Hj) as (q & Hq & Hok). exists q. split; [|exact Hok].
          rewrite lookup_insert_other; [exact Hq|]. intros E; inversion E; contradiction.
      + exists ps'. split; [exact H1|]. intros j Hj. apply H2. cbn in *; tauto.
  Qed.


  Lemma f_find_layers_spec R sel : forall k n ps,
    f_layer_ok R n ps -> rows_at x_start R n <> [] ->
    (forall i, (n < i <= n + k)%nat -> sel (Z.of_nat i) = Ok (R (Z.of_nat i)) /\ R (Z.of_nat i) <> []) ->
    exists ps', f_find_layers rnd hit beta alpha inverted sel ps (rows_at x_start R n)
                  (zrange (Z.of_nat n + 1) (Z.of_nat (n + k))) = Ok (ps', rows_at x_start R (n + k)) /\
                f_layer_ok R (n + k) ps'.
  Proof.
    induction k as [|k IH]; intros n ps HL Hne Hsel.
    - exists ps. rewrite Nat.add_0_r, zrange_nil by lia. cbn. split; [reflexivity|exact HL].
    - rewrite zrange_cons by lia. cbn [f_find_layers].
      destruct (Hsel (S n)) as [Hs Hn]; [lia|].
      replace (Z.of_nat n + 1) with (Z.of_nat (S n)) by lia.
      rewrite Hs. cbn [obind].
      destruct (f_find_subpaths_spec R n (R (Z.of_nat (S n))) ps []) as (ps' & -> & Hps'); auto.
      { intros j []. }
      cbn [obind].
      destruct (IH (S n) ps') as (ps'' & H1 & H2).
      + intros j Hj. apply Hps'. left. exact Hj.
      + exact Hn.
      + intros i Hi; apply Hsel; lia.
      + exists ps''. replace (n + S k)%nat with (S n + k)%nat by lia.
        split; [exact H1|exact H2].
  Qed.


  Lemma f_find_schedule_spec R sel (n : nat) :
    (forall i, (0 < i <= n)%nat -> sel (Z.of_nat i) = Ok (R (Z.of_nat i)) /\ R (Z.of_nat i) <> []) ->
    exists r, f_find_schedule rnd hit beta alpha inverted x_start (Z.of_nat n) sel = Ok r /\
      (forall ys, length ys = n -> in_rows R 1 ys -> ele (pa_cost r) (fpc (Fin 0) 1 x_start ys)) /\
      ((r = mkPath [] Inf) \/
       (length (pa_xs r) = n /\ in_rows R 1 (pa_xs r) /\
        pa_cost r = fpc (Fin 0) 1 x_start (pa_xs r) /\ is_fin (pa_cost r))).
  Proof.
    intros Hsel. unfold f_find_schedule.
    set (initial := insert [] (0, x_start) (mkPath [] (Fin 0))).
    destruct (f_find_layers_spec R sel n 0 initial) as (ps & H1 & H2).
    { intros j [<-|[]]. exists (mkPath [] (Fin 0)).
      split; [apply lookup_insert_same|].
      unfold f_vertex_ok. cbn [pa_xs pa_cost]. split; [reflexivity|]. split; [exact I|]. split; [reflexivity|].
      split; [reflexivity|].
      intros ys Hy _ _. destruct ys; [|discriminate]. cbn. lra. }
    { cbn; discriminate. }
    { intros i Hi; apply Hsel; lia. }
    cbn [rows_at] in H1. change (Z.of_nat 0 + 1) with 1 in H1. rewrite Nat.add_0_l in H1.
    rewrite H1. cbn [obind fst snd]. cbn [Nat.add] in H2.
    destruct (pick_final_spec hit 0 ps (Z.of_nat n) (rows_at x_start R n) (mkPath [] Inf)) as (r & Hr & Hmin & _ & Hw).
    { intros j Hj. destruct (H2 j Hj) as (p & Hp & _). congruence. }
    exists r. split; [exact Hr|]. split.
    - intros ys Hl Hry. assert (Hin := rows_in_layer hit x_start R n ys Hl Hry).
      destruct (H2 _ Hin) as (p & Hp & _ & _ & _ & _ & Hopt).
      eapply ele_trans; [apply (Hmin _ p Hin Hp)|]. apply Hopt; auto.
    - destruct Hw as [->|(j & Hin & Hlk & Hlt)]; [left; auto|right].
      destruct (H2 j Hin) as (p & Hp & Hlen & Hrow & _ & Hc & _).
      rewrite Hlk in Hp; inversion Hp; subst p.
      split; [exact Hlen|]. split; [exact Hrow|]. split; [exact Hc|].
      cbn in Hlt. destruct (pa_cost r); cbn in *; auto.
  Qed.
End DP.

(** * All refinements *)
Section Sound.
  Variable rnd : Q -> Q.
  Variable F : Q -> Prop.
  Variables u small : Q.
  Hypothesis HR : rounds rnd F u small.
  Variable hit : Z -> Z -> ext.
  Variable beta alpha : Q.
  Variable inverted : bool.
  Variable x_start : Z.
  Hypothesis alpha_nonneg : (0 <= alpha)%Q.
  Hypothesis hit_F : forall t j, match hit t j with Fin q => F q | Inf => True end.
  Hypothesis beta_F : F beta /\ no_underflow small beta /\ no_underflow small (alpha * beta).
  Variable n : nat.
  Variable m : Z.
  Hypothesis m_nonneg : 0 <= m.

  Local Notation pc' := (pc hit beta alpha inverted 1 x_start).
  Local Notation fpc' := (fpc rnd hit beta alpha inverted (Fin 0) 1 x_start).

  Definition f_sound (r : path) : Prop :=
    length (pa_xs r) = n /\ Forall (fun z => 0 <= z <= m) (pa_xs r) /\ is_fin (pa_cost r) /\
    pa_cost r = fpc' (pa_xs r).

  Definition quarters : list Z := map (fun e => e * m / 4) [0; 1; 2; 3; 4].

  Lemma f_initial :
    exists r, f_find_schedule rnd hit beta alpha inverted x_start (Z.of_nat n) (select_initial_rows m) = Ok r /\
      (r = mkPath [] Inf \/ f_sound r) /\
      (forall ys, length ys = n -> Forall (fun z => In z quarters) ys -> ele (pa_cost r) (fpc' ys)).
  Proof.
    destruct (f_find_schedule_spec rnd F u small HR hit beta alpha inverted x_start alpha_nonneg hit_F beta_F
                (fun _ => quarters) (select_initial_rows m) n)
      as (r & Hr & Hmin & Hor).
    { intros i Hi. split; [reflexivity|discriminate]. }
    exists r. split; [exact Hr|]. split.
    - destruct Hor as [->|(H1 & H2 & H3 & H4)]; [left; reflexivity|right].
      split; [exact H1|]. split; [|split; [exact H4|exact H3]].
      eapply in_rows_Forall; [|exact H2]. cbv beta. intros _ z Hz. apply quarter_bound; [exact m_nonneg|exact Hz].
    - intros ys Hl Hy. apply Hmin; [exact Hl|]. clear - Hy. generalize 1%Z.
      induction Hy; intros t; cbn; auto.
  Qed.

  (** A refinement never reports more than the schedule it refines. *)
  Lemma f_next p k : f_sound p ->
    exists r, f_find_schedule rnd hit beta alpha inverted x_start (Z.of_nat n) (select_next_rows m (pa_xs p) k) = Ok r /\
      f_sound r /\ ele (pa_cost r) (pa_cost p).
  Proof.
    intros (H1 & H2 & H3 & H4).
    set (R := fun t => match nth_error (pa_xs p) (Z.to_nat (t - 1)) with
                       | Some x => window m k x | None => [] end).
    destruct (f_find_schedule_spec rnd F u small HR hit beta alpha inverted x_start alpha_nonneg hit_F beta_F
                R (select_next_rows m (pa_xs p) k) n) as (r & Hr & Hmin & Hor).
    { intros i Hi. unfold select_next_rows, R.
      destruct (nth_error (pa_xs p) (Z.to_nat (Z.of_nat i - 1))) as [x|] eqn:E.
      2:{ apply nth_error_None in E. lia. }
      cbn [from_option obind]. split; [reflexivity|].
      apply nth_error_In in E. rewrite Forall_forall in H2. apply H2 in E. intros Hempty.
      assert (In x (window m k x)) by (apply In_window; split; [lia|exists 0; lia]).
      rewrite Hempty in H. destruct H. }
    exists r. split; [exact Hr|].
    assert (Hle : ele (pa_cost r) (pa_cost p)).
    { rewrite H4. apply Hmin; [exact H1|].
      assert (G : forall xs t, Forall (fun z => 0 <= z <= m) xs ->
                (forall i x, nth_error xs i = Some x -> R (t + Z.of_nat i) = window m k x) -> in_rows R t xs).
      { clear. induction xs as [|x xs IH]; intros t Hx HRx; cbn; auto. inversion Hx; subst. split.
        - replace t with (t + Z.of_nat 0) by lia. rewrite (HRx 0%nat x) by reflexivity.
          apply In_window. split; [lia|exists 0; lia].
        - apply IH; auto. intros i y Hy. replace (t + 1 + Z.of_nat i) with (t + Z.of_nat (S i)) by lia.
          apply HRx. exact Hy. }
      apply G; auto. intros i x Hx. unfold R. replace (Z.to_nat (1 + Z.of_nat i - 1)) with i by lia.
      rewrite Hx. reflexivity. }
    split; [|exact Hle].
    destruct Hor as [->|(G1 & G2 & G3 & G4)].
    { exfalso. destruct (pa_cost p); cbn in *; contradiction. }
    split; [exact G1|]. split; [|split; [exact G4|exact G3]].
    eapply in_rows_Forall; [|exact G2]. cbv beta. intros t z Hz. unfold R in Hz.
    destruct (nth_error (pa_xs p) (Z.to_nat (t - 1))); [|destruct Hz]. apply In_window in Hz. lia.
  Qed.

  Lemma f_refine_sound : forall k p, f_sound p ->
    exists r, f_refine rnd hit beta alpha inverted x_start (Z.of_nat n) m k p = Ok r /\
      f_sound r /\ ele (pa_cost r) (pa_cost p).
  Proof.
    induction k as [|k IH]; intros p Hp; cbn [f_refine].
    - exists p. split; [reflexivity|]. split; [exact Hp|apply ele_refl].
    - destruct (f_next p (Z.of_nat k) Hp) as (p' & -> & Hp' & Hle). cbn [obind].
      destruct (IH p' Hp') as (r & Hr & Hs & Hle'). exists r. split; [exact Hr|]. split; [exact Hs|].
      eapply ele_trans; eassumption.
  Qed.

  Lemma fin_fpc ys : length ys = n -> is_fin (pc' ys) -> is_fin (fpc' ys).
  Proof.
    intros Hl Hf. assert (N := fpc_near rnd F u small HR hit beta alpha inverted alpha_nonneg hit_F beta_F 1 x_start ys).
    destruct (pc' ys), (fpc' ys); cbn in *; auto.
  Qed.

  Lemma f_search_pow2_sound :
    (exists ys, length ys = n /\ Forall (fun z => In z quarters) ys /\ is_fin (pc' ys)) ->
    exists r, f_search_pow2 rnd hit beta alpha inverted x_start (Z.of_nat n) m = Ok r /\ f_sound r /\
      (forall ys, length ys = n -> Forall (fun z => In z quarters) ys -> ele (pa_cost r) (fpc' ys)).
  Proof.
    intros (fs & Hl & Hq & Hfin). unfold f_search_pow2.
    destruct f_initial as (p & -> & Hp & Hmin). cbn [obind].
    assert (Hs : f_sound p).
    { destruct Hp as [->|Hp]; auto. exfalso. specialize (Hmin fs Hl Hq). cbn in Hmin.
      assert (G := fin_fpc fs Hl Hfin). destruct (fpc' fs); cbn in *; contradiction. }
    destruct (f_refine_sound (k_init m) p Hs) as (r & Hr & Hsr & Hle). exists r. split; [exact Hr|].
    split; [exact Hsr|]. intros ys H1 H2. eapply ele_trans; [exact Hle|]. apply Hmin; auto.
  Qed.
End Sound.
