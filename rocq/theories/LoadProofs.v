(** Proofs about load distributions, SLO and SBLO. *)
From Coq Require Import Lia Lqa Setoid.
From Verif Require Import NumLemmas LoadModel LoadSpec CostSpec CostProofs ConvertProofs ConvertObjective.
From Verif Require Import ProblemModel.
Local Open Scope Z_scope.

Lemma nth_error_omap : forall {A B} (f : A -> outcome B) l bs k a,
  omap f l = Ok bs -> nth_error l k = Some a -> exists b, f a = Ok b /\ nth_error bs k = Some b.
Proof.
  induction l as [|a l IH]; intros bs k a' H Hk; simpl in *; [destruct k; discriminate|].
  destruct (f a) as [b|?|] eqn:E; simpl in H; try discriminate.
  destruct (omap f l) as [bs'|?|] eqn:E'; simpl in H; try discriminate. injection H as <-.
  destruct k as [|k]; simpl in *.
  - injection Hk as <-. eauto.
  - eauto.
Qed.

Lemma omap_exists : forall {A B} (f : A -> outcome B) l,
  (forall a, In a l -> exists b, f a = Ok b) -> exists bs, omap f l = Ok bs.
Proof.
  induction l as [|a l IH]; intros H; simpl; [eauto|].
  destruct (H a (or_introl eq_refl)) as [b ->]. simpl.
  destruct IH as [bs ->]; [intros; apply H; right; assumption|]. simpl. eauto.
Qed.

(** *** Fractions *)
Lemma get_fraction_S : forall zs d e k i lambda, (0 < d)%nat ->
  get_fraction (mkFractions zs d e) k i lambda =
  match Nat.compare k (d - 1) with
  | Lt => from_option (nth_error zs (k * e + i))
  | Eq =>
      if Qltb 0 (load_total lambda) then
        do li <- from_option (nth_error lambda i);
        do js <- omap (fun j => from_option (nth_error zs (j * e + i))) (seq 0 k);
        Ok (li / load_total lambda - Qsum js)%Q
      else Ok 0%Q
  | Gt => Panic
  end.
Proof.
  intros zs [|d'] e k i lambda H; [lia|]. unfold get_fraction. simpl f_d.
  replace (S d' - 1)%nat with d' by lia. reflexivity.
Qed.

Lemma seq_split_last : forall d, (0 < d)%nat -> seq 0 d = seq 0 (d - 1) ++ [(d - 1)%nat].
Proof. intros [|d'] H; [lia|]. replace (S d' - 1)%nat with d' by lia. apply seq_S. Qed.

Lemma nth_map_seq : forall {A} (f : nat -> A) m k d, (k < m)%nat -> nth k (map f (seq 0 m)) d = f k.
Proof.
  intros A f m k d H. rewrite nth_indep with (d' := f 0%nat) by (rewrite map_length, seq_length; exact H).
  rewrite map_nth, seq_nth by exact H. reflexivity.
Qed.

Section Fractions.
  Variable zs : list Q.
  Variable d e : nat.
  Variable lambda : list Q.
  Hypothesis d_pos : (0 < d)%nat.
  Hypothesis zs_len : length zs = ((d - 1) * e)%nat.
  Hypothesis lambda_len : length lambda = e.

  Let z := mkFractions zs d e.

  (** The column of fractions of job type [i]. *)
  Definition column (i n : nat) : list Q := map (fun j => nth (j * e + i) zs 0%Q) (seq 0 n).

  Lemma zs_nth j i : (j < d - 1)%nat -> (i < e)%nat ->
    from_option (nth_error zs (j * e + i)) = Ok (nth (j * e + i) zs 0%Q).
  Proof.
    intros Hj Hi. assert (H : (j * e + i < length zs)%nat) by (rewrite zs_len; nia).
    rewrite (nth_error_nth' zs 0%Q H). reflexivity.
  Qed.

  Lemma get_before k i : (k < d - 1)%nat -> (i < e)%nat ->
    get_fraction z k i lambda = Ok (nth (k * e + i) zs 0%Q).
  Proof.
    intros Hk Hi. unfold z. rewrite get_fraction_S by exact d_pos.
    replace (Nat.compare k (d - 1)) with Lt by (symmetry; apply Nat.compare_lt_iff; lia).
    rewrite zs_nth; [reflexivity|lia|exact Hi].
  Qed.

  Lemma get_last i l : (i < e)%nat -> nth_error lambda i = Some l ->
    get_fraction z (d - 1) i lambda =
    Ok (if Qltb 0 (load_total lambda) then (l / load_total lambda - Qsum (column i (d - 1)))%Q else 0%Q).
  Proof.
    intros Hi Hl. unfold z. rewrite get_fraction_S by exact d_pos. rewrite Nat.compare_refl.
    destruct (Qltb 0 (load_total lambda)); [|reflexivity].
    rewrite Hl. simpl.
    rewrite (omap_ext _ (fun j => Ok (nth (j * e + i) zs 0%Q))).
    - rewrite omap_Ok. simpl. reflexivity.
    - intros j Hj. apply in_seq in Hj. apply zs_nth; [lia|exact Hi].
  Qed.

  Lemma fractions_ok k i l : (k < d)%nat -> (i < e)%nat -> nth_error lambda i = Some l ->
    get_fraction z k i lambda =
    Ok (if (k <? d - 1)%nat then nth (k * e + i) zs 0%Q
        else if Qltb 0 (load_total lambda) then (l / load_total lambda - Qsum (column i (d - 1)))%Q else 0%Q).
  Proof.
    intros Hk Hi Hl. destruct (k <? d - 1)%nat eqn:E.
    - apply Nat.ltb_lt in E. apply get_before; assumption.
    - apply Nat.ltb_ge in E. replace k with (d - 1)%nat by lia. apply get_last; assumption.
  Qed.

  (** The fractions of a job type add up to its share of the total load. *)
  Lemma fractions_sum i l : (i < e)%nat -> nth_error lambda i = Some l -> (0 < load_total lambda)%Q ->
    exists gs, omap (fun k => get_fraction z k i lambda) (seq 0 d) = Ok gs /\ (Qsum gs == l / load_total lambda)%Q.
  Proof.
    intros Hi Hl HL. apply Qltb_iff in HL.
    rewrite (seq_split_last d d_pos), omap_app.
    rewrite (omap_ext _ (fun k => Ok (nth (k * e + i) zs 0%Q)) (seq 0 (d - 1))).
    2:{ intros k Hk. apply in_seq in Hk. apply get_before; [lia|exact Hi]. }
    rewrite omap_Ok. simpl. rewrite (get_last i l Hi Hl), HL. simpl. eexists. split; [reflexivity|].
    rewrite Qsum_app. fold (column i (d - 1)). simpl. ring.
  Qed.

  Lemma select_ok k : (k < d)%nat -> exists ls, select_loads z lambda k = Ok ls /\ length ls = e /\
    forall i l, (i < e)%nat -> nth_error lambda i = Some l ->
      exists g, get_fraction z k i lambda = Ok g /\ nth_error ls i = Some (l * g)%Q.
  Proof.
    intros Hk. unfold select_loads. simpl.
    assert (A : forall i, (i < e)%nat -> exists l, nth_error lambda i = Some l).
    { intros i Hi. destruct (nth_error lambda i) eqn:E; [eauto|]. apply nth_error_None in E. lia. }
    destruct (omap_exists (fun i => do li <- from_option (nth_error lambda i);
                 do g <- get_fraction z k i lambda; Ok (li * g)%Q) (seq 0 e)) as [ls Hls].
    { intros i Hi. apply in_seq in Hi. destruct (A i) as [l Hl]; [lia|].
      rewrite Hl. simpl. rewrite (fractions_ok k i l Hk); [|lia|exact Hl]. simpl. eauto. }
    exists ls. split; [exact Hls|]. split; [rewrite (omap_length _ _ _ Hls), seq_length; reflexivity|].
    intros i l Hi Hl. destruct (nth_error_omap _ _ _ i i Hls) as (b & Hb & Hn).
    { rewrite (nth_error_nth' (seq 0 e) 0%nat) by (rewrite seq_length; lia). f_equal. apply seq_nth. lia. }
    rewrite Hl in Hb. simpl in Hb.
    destruct (get_fraction z k i lambda) as [g|?|]; simpl in Hb; try discriminate.
    exists g. split; [reflexivity|]. rewrite Hn. f_equal. congruence.
  Qed.
End Fractions.

(** *** Sums of results *)
Lemma sum_results_value : forall l acc vs,
  Forall2 (fun m e => exists o, objective_value m = Some o /\ eeq o e) l vs ->
  exists o, objective_value (sum_results obj_add l acc) = Some o /\
            eeq o (fold_left eadd vs (obj_total acc)).
Proof.
  induction l as [|m l IH]; intros acc vs H; inversion H; subst; simpl.
  - eexists. split; [reflexivity|]. apply eeq_refl.
  - destruct H2 as (o & Ho & He). destruct m as [[c|f]|f|]; simpl in Ho; try discriminate; simpl.
    + assert (o = obj_total c) by congruence. subst o.
      destruct (IH (obj_add acc c) l' H4) as (o' & H1 & H2). exists o'. split; [exact H1|].
      eapply eeq_trans; [exact H2|]. clear - He.
      assert (G : forall vs a b, eeq a b -> eeq (fold_left eadd vs a) (fold_left eadd vs b)).
      { induction vs as [|x vs IHv]; intros a b Hab; simpl; [exact Hab|]. apply IHv. rewrite Hab. apply eeq_refl. }
      apply G. rewrite <- He. destruct acc as [a1 a2], c as [c1 c2]. unfold obj_add, obj_total. simpl.
      destruct a1, a2, c1, c2; simpl; try reflexivity; try exact I. ring.
    + exists Inf. split; [reflexivity|]. assert (o = Inf) by congruence. subst o.
      destruct y; [contradiction|]. clear.
      assert (G : forall vs, fold_left eadd vs Inf = Inf) by (induction vs; simpl; auto).
      rewrite eadd_Inf_r, G. exact I.
Qed.

Lemma fold_eadd_fin : forall vs a q, fold_left eadd vs a = Fin q ->
  exists b ys, a = Fin b /\ vs = map Fin ys /\ (q == b + Qsum ys)%Q.
Proof.
  induction vs as [|v vs IH]; intros a q H; simpl in H.
  - exists q, []. simpl. repeat split; [exact H|ring].
  - destruct (IH _ _ H) as (b & ys & Hb & Hv & Hq).
    apply eadd_fin in Hb as (x & y & -> & -> & ->). exists x, (y :: ys). simpl. repeat split.
    + congruence.
    + rewrite Hq. ring.
Qed.

Lemma fold_eadd_map : forall ys b, exists q, fold_left eadd (map Fin ys) (Fin b) = Fin q /\ (q == b + Qsum ys)%Q.
Proof.
  induction ys as [|y ys IH]; intros b; simpl.
  - exists b. split; [reflexivity|ring].
  - destruct (IH (b + y)%Q) as (q & H1 & H2). exists q. split; [exact H1|]. rewrite H2. ring.
Qed.

(** *** SLO as SBLO *)
Section IntoSBLO.
  Context {T : Type}.
  Variable v : value T.
  Variable p : gslo T.
  Variable t : Z.
  Variable x : list T.
  Variable l : T.
  Hypothesis Ht : 1 <= t.
  Hypothesis Hd : 0 < l_d p.
  Hypothesis Hhit : Z.of_nat (length (l_hitting p)) = l_d p.
  Hypothesis Hx : Z.of_nat (length x) = l_d p.
  Hypothesis Hx0 : Forall (fun j => 0 <= v_toQ v j)%Q x.
  Hypothesis Hl : access (l_load p) t = Some l.
  Hypothesis Hl0 : (0 <= v_toQ v l)%Q.

  Let n := Z.to_nat (l_d p).
  Let L := v_toQ v l.

  Section Distribution.
    Variable zs : list Q.
    Hypothesis Hzs : distribution n zs.
    Let z := mkFractions zs n 1.

    Definition share (k : nat) : Q :=
      if (k <? n - 1)%nat then nth k zs 0%Q
      else if Qltb 0 L then (1 - Qsum zs)%Q else 0%Q.

    Lemma column_all : column zs 1 0 (n - 1) = zs.
    Proof.
      unfold column. destruct Hzs as (Hlen & _). apply nth_ext with (d := 0%Q) (d' := 0%Q).
      - rewrite map_length, seq_length. lia.
      - intros k Hk. rewrite map_length, seq_length in Hk.
        rewrite nth_indep with (d' := nth (0 * 1 + 0) zs 0%Q) by (rewrite map_length, seq_length; exact Hk).
        rewrite (map_nth (fun j => nth (j * 1 + 0) zs 0%Q)). rewrite seq_nth by exact Hk.
        f_equal. lia.
    Qed.

    Lemma load_total_single : (load_total [L] == L)%Q.
    Proof. unfold load_total. simpl. ring. Qed.

    Lemma selected k : (k < n)%nat -> exists q, select_loads z [L] k = Ok [q] /\ (q == L * share k)%Q.
    Proof.
      intros Hk. unfold z. destruct (select_ok zs n 1 [L]) with (k := k) as (ls & H1 & H2 & H3).
      - unfold n. lia.
      - destruct Hzs as (Hlen & _). lia.
      - reflexivity.
      - exact Hk.
      - destruct ls as [|q [|? ?]]; simpl in H2; try lia.
        exists q. split; [exact H1|]. destruct (H3 0%nat L) as (g & Hg & Hq); [lia|reflexivity|].
        rewrite (fractions_ok zs n 1 [L]) with (l := L) in Hg; try reflexivity.
        + simpl in Hq. assert (q = L * g)%Q as -> by congruence. unfold share.
          destruct (k <? n - 1)%nat eqn:E.
          * assert (g = nth (k * 1 + 0) zs 0%Q) as -> by congruence.
            replace (k * 1 + 0)%nat with k by lia. ring.
          * rewrite column_all in Hg.
            assert (HQ : Qltb 0 (load_total [L]) = Qltb 0 L).
            { apply eq_true_iff_eq. rewrite !Qltb_iff. rewrite load_total_single. reflexivity. }
            rewrite HQ in Hg. destruct (Qltb 0 L) eqn:EL.
            -- assert (g = L / load_total [L] - Qsum zs)%Q as -> by congruence.
               apply Qltb_iff in EL. rewrite load_total_single. field. lra.
            -- assert (g = 0%Q) as -> by congruence. ring.
        + unfold n. lia.
        + destruct Hzs as (Hlen & _). lia.
        + exact Hk.
        + lia.
    Qed.

    Lemma share_nonneg k : (0 <= share k)%Q.
    Proof.
      unfold share. destruct Hzs as (Hlen & Hz & Hs). destruct (k <? n - 1)%nat eqn:E.
      - apply Nat.ltb_lt in E. rewrite Forall_forall in Hz. apply Hz. apply nth_In. lia.
      - destruct (Qltb 0 L); lra.
    Qed.

    (** Value of dimension [k]. *)
    Definition dim_value (k : nat) : ext :=
      if Qle_bool (L * share k) (v_toQ v (nth k x l)) then Fin (nth k (l_hitting p) 0%Q * v_toQ v (nth k x l))
      else Inf.

    Lemma term_value k : (k < n)%nat ->
      exists o, objective_value
        (do loads <- select_loads z [L] k;
         do total_load <- from_option (nth_error loads 0);
         do xk <- from_option (nth_error x k);
         rbind (safe_balancing (v_toQ v xk) total_load
                  (do f <- from_option (nth_error (b_cost (into_sblo p)) k);
                   do c <- call_mean unit_vmerge f t (total_load / v_toQ v xk)%Q;
                   Ok (ROk (escale (v_toQ v xk) (c_cost c)))))
               (fun e => Ok (ROk (e, Fin 0)))) = Some o /\ eeq o (dim_value k).
    Proof.
      intros Hk. destruct (selected k Hk) as (q & -> & Hq). simpl.
      assert (Hkx : (k < length x)%nat) by (unfold n in Hk; lia).
      rewrite (nth_error_nth' x l Hkx). simpl.
      rewrite nth_error_map. assert (Hkh : (k < length (l_hitting p))%nat) by (unfold n in Hk; lia).
      rewrite (nth_error_nth' (l_hitting p) 0%Q Hkh). simpl.
      match goal with |- context [call_mean ?vm ?cf ?t' ?a] =>
        pose proof (certain_call_mean unit_vmerge (fun _ l0 => Ok (if Qle_bool l0 1
          then mkCost (Fin (nth k (l_hitting p) 0%Q)) (MSuccess tt)
          else mkCost (D := dc_failure) Inf (MFailure SLOMaxUtilizationExceeded))) t a Ht) as HC;
        destruct (call_mean vm cf t' a) as [cc|?|] end; simpl in HC; try contradiction.
      destruct HC as [HC _].
      set (c := nth k (l_hitting p) 0%Q). set (xk := v_toQ v (nth k x l)).
      assert (Hxk : (0 <= xk)%Q).
      { unfold xk. rewrite Forall_forall in Hx0. apply Hx0. apply nth_In. exact Hkx. }
      assert (Hq0 : (0 <= q)%Q).
      { rewrite Hq. apply Qmult_le_0_compat; [exact Hl0|apply share_nonneg]. }
      unfold dim_value. fold xk. fold c. unfold safe_balancing.
      destruct (Qltb 0 xk) eqn:Exk.
      - apply Qltb_iff in Exk.
        assert (Hdiv : Qle_bool (q / xk) 1 = Qle_bool (L * share k) xk).
        { apply eq_true_iff_eq. rewrite !Qle_bool_iff. rewrite <- Hq.
          rewrite <- (Qmult_le_r (q / xk) 1 xk) by exact Exk.
          assert (q / xk * xk == q)%Q as -> by (field; lra). rewrite Qmult_1_l. reflexivity. }
        fold xk in HC. fold c in HC. rewrite Hdiv in HC. simpl. eexists. split; [reflexivity|]. unfold obj_total. simpl.
        destruct (Qle_bool (L * share k) xk); destruct (c_cost cc) as [qc|]; simpl in *; try contradiction; try exact I.
        rewrite HC. ring.
      - apply Qltb_false in Exk. assert (E0 : (xk == 0)%Q) by lra.
        destruct (Qltb 0 q) eqn:Eq.
        + apply Qltb_iff in Eq. eexists. split; [reflexivity|].
          destruct (Qle_bool (L * share k) xk) eqn:E; [|exact I].
          apply Qle_bool_iff in E. rewrite <- Hq in E. lra.
        + apply Qltb_false in Eq. assert (E1 : (q == 0)%Q) by lra.
          apply Qeq_bool_iff in E1. rewrite E1. apply Qeq_bool_iff in E1.
          eexists. split; [reflexivity|].
          assert (E : Qle_bool (L * share k) xk = true) by (apply Qle_bool_iff; rewrite <- Hq; lra).
          rewrite E. unfold obj_total. simpl. rewrite E0. ring.
    Qed.

    Lemma sblo_value : exists o,
      objective_value (sblo_objective v (into_sblo p) t x [L] z) = Some o /\
      eeq o (fold_left eadd (map dim_value (seq 0 n)) (Fin 0)).
    Proof.
      unfold sblo_objective. simpl. rewrite Hx, Z.eqb_refl. simpl. fold n.
      assert (HF : forall ks, (forall k, In k ks -> (k < n)%nat) ->
        Forall2 (fun m e => exists o, objective_value m = Some o /\ eeq o e)
          (map (fun k =>
           do loads <- select_loads z [L] k;
           do total_load <- from_option (nth_error loads 0);
           do xk <- from_option (nth_error x k);
           rbind (safe_balancing (v_toQ v xk) total_load
                    (do f <- from_option (nth_error (b_cost (into_sblo p)) k);
                     do c <- call_mean unit_vmerge f t (total_load / v_toQ v xk)%Q;
                     Ok (ROk (escale (v_toQ v xk) (c_cost c)))))
                 (fun e => Ok (ROk (e, Fin 0)))) ks) (map dim_value ks)).
      { induction ks as [|k ks IH]; intros H; simpl; constructor.
        - apply term_value. apply H. left. reflexivity.
        - apply IH. intros. apply H. right. assumption. }
      assert (Hks : forall k, In k (seq 0 n) -> (k < n)%nat) by (intros k Hk; apply in_seq in Hk; lia).
      specialize (HF (seq 0 n) Hks). simpl in HF.
      set (terms := map _ (seq 0 n)) in *.
      change (sum_first obj_add (Fin 0, Fin 0) terms) with
        (match terms with [] => Ok (ROk (Fin 0, Fin 0)) | m :: r => rbind m (fun a => sum_results obj_add r a) end).
      (* summing from the first element or from zero gives the same value *)
      destruct (sum_results_value terms (Fin 0, Fin 0) _ HF) as (o & Ho & He).
      destruct terms as [|m r] eqn:Et.
      - simpl in Ho. exists o. split; [exact Ho|]. eapply eeq_trans; [exact He|].
        inversion HF; subst. simpl. ring.
      - inversion HF as [|? w ? ws Hm Hr E1 E2]; subst.
        destruct Hm as (om & Hom & Heom). destruct m as [[c|f]|f|]; simpl in Hom; try discriminate.
        + simpl. destruct (sum_results_value r c ws Hr) as (o' & Ho' & He').
          exists o'. split; [exact Ho'|]. eapply eeq_trans; [exact He'|].
          assert (om = obj_total c) by congruence. subst om. simpl.
          assert (G : forall vs a b, eeq a b -> eeq (fold_left eadd vs a) (fold_left eadd vs b)).
          { induction vs as [|y vs IHv]; intros a b Hab; simpl; [exact Hab|]. apply IHv. rewrite Hab. apply eeq_refl. }
          apply G. rewrite Heom. apply eeq_sym, eadd_0_l.
        + simpl. exists Inf. split; [reflexivity|]. assert (om = Inf) by congruence. subst om.
          destruct w; [contradiction|]. simpl.
          assert (G : forall vs, fold_left eadd vs Inf = Inf) by (induction vs; simpl; auto).
          rewrite G. exact I.
    Qed.
  End Distribution.

  Lemma nth_x_map k : (k < n)%nat -> nth_error x k = Some (nth k x l).
  Proof. intros Hk. apply nth_error_nth'. unfold n in Hk. lia. Qed.

  Lemma slo_value :
    slo_hit v p t x =
    Ok (if Qltb (config_total v x) L then mkCost Inf (MFailure DemandExceedingSupply)
        else mkCost (Fin (Qsum (map (fun k => nth k (l_hitting p) 0%Q * v_toQ v (nth k x l))%Q (seq 0 n)))) (MSuccess tt)).
  Proof.
    unfold slo_hit. rewrite Hl. simpl. fold L. destruct (Qltb (config_total v x) L); [reflexivity|].
    fold n.
    rewrite (omap_ext _ (fun k => Ok (nth k (l_hitting p) 0%Q * v_toQ v (nth k x l))%Q)).
    - rewrite omap_Ok. reflexivity.
    - intros k Hk. apply in_seq in Hk. rewrite nth_x_map by lia. simpl.
      rewrite (nth_error_nth' (l_hitting p) 0%Q) by (unfold n in Hk; lia). reflexivity.
  Qed.

  Lemma Qsum_map_le : forall (f g : nat -> Q) ks, (forall k, In k ks -> (f k <= g k)%Q) ->
    (Qsum (map f ks) <= Qsum (map g ks))%Q.
  Proof.
    induction ks as [|k ks IH]; intros H; simpl; [lra|].
    assert (H1 := H k (or_introl eq_refl)). assert (H2 : (Qsum (map f ks) <= Qsum (map g ks))%Q).
    { apply IH. intros. apply H. right. assumption. } lra.
  Qed.

  Lemma Qsum_map_scale : forall (f : nat -> Q) c ks, (Qsum (map (fun k => c * f k)%Q ks) == c * Qsum (map f ks))%Q.
  Proof. induction ks as [|k ks IH]; simpl; [ring|]. rewrite IH. ring. Qed.

  Lemma total_as_sum : (config_total v x == Qsum (map (fun k => v_toQ v (nth k x l)) (seq 0 n)))%Q.
  Proof.
    unfold config_total. assert (Hlen : length x = n) by (unfold n; lia). rewrite <- Hlen. clear.
    assert (G : forall (y : list T) pre, (Qsum (map (v_toQ v) y) == Qsum (map (fun k => v_toQ v (nth k (pre ++ y) l)) (seq (length pre) (length y))))%Q).
    { induction y as [|a y IH]; intros pre; simpl; [reflexivity|].
      rewrite app_nth2 by lia. replace (length pre - length pre)%nat with 0%nat by lia. simpl.
      rewrite (IH (pre ++ [a])). rewrite app_length. simpl. replace (length pre + 1)%nat with (S (length pre)) by lia.
      rewrite <- app_assoc. simpl. reflexivity. }
    apply (G x []).
  Qed.

  Lemma shares_sum zs : distribution n zs -> (0 < L)%Q -> (Qsum (map (share zs) (seq 0 n)) == 1)%Q.
  Proof.
    intros (Hlen & _) HL. rewrite (seq_split_last n) by (unfold n; lia).
    rewrite map_app, Qsum_app. simpl. unfold share at 2. rewrite (proj2 (Nat.ltb_ge _ _)) by lia.
    rewrite (proj2 (Qltb_iff _ _) HL).
    assert (E : map (share zs) (seq 0 (n - 1)) = zs).
    { apply nth_ext with (d := 0%Q) (d' := 0%Q); [rewrite map_length, seq_length; lia|].
      intros k Hk. rewrite map_length, seq_length in Hk.
      rewrite nth_indep with (d' := share zs 0) by (rewrite map_length, seq_length; exact Hk).
      rewrite map_nth, seq_nth by exact Hk. simpl. unfold share. rewrite (proj2 (Nat.ltb_lt _ _)) by lia. reflexivity. }
    rewrite E. ring.
  Qed.

  (** Finite assignments cost what the SLO configuration costs. *)
  Theorem sblo_finite zs q :
    distribution n zs ->
    objective_value (sblo_objective v (into_sblo p) t x [L] (mkFractions zs n 1)) = Some (Fin q) ->
    exists q', cost_number (slo_hit v p t x) = Some (Fin q') /\ (q == q')%Q.
  Proof.
    intros Hzs Hq. destruct (sblo_value zs Hzs) as (o & Ho & He).
    assert (o = Fin q) by congruence. subst o.
    destruct (fold_left eadd (map (dim_value zs) (seq 0 n)) (Fin 0)) as [r|] eqn:E; [|contradiction].
    apply fold_eadd_fin in E as (b & ys & Eb & Eys & Er). assert (b = 0%Q) by congruence. subst b.
    (* every dimension is supported *)
    assert (Hsup : forall k, In k (seq 0 n) -> (L * share zs k <= v_toQ v (nth k x l))%Q).
    { intros k Hk. assert (Hin : In (dim_value zs k) (map Fin ys)) by (rewrite <- Eys; apply in_map, Hk).
      apply in_map_iff in Hin as (y & Hy & _). unfold dim_value in Hy.
      destruct (Qle_bool (L * share zs k) (v_toQ v (nth k x l))) eqn:E; [|discriminate].
      apply Qle_bool_iff in E. exact E. }
    assert (Hys : ys = map (fun k => nth k (l_hitting p) 0%Q * v_toQ v (nth k x l))%Q (seq 0 n)).
    { apply (f_equal (map (fun e => match e with Fin y => y | Inf => 0%Q end))) in Eys.
      rewrite !map_map in Eys. rewrite map_id in Eys. rewrite <- Eys. apply map_ext_in. intros k Hk.
      unfold dim_value. rewrite (proj2 (Qle_bool_iff _ _) (Hsup k Hk)). reflexivity. }
    assert (Htot : (L <= config_total v x)%Q).
    { destruct (Qlt_le_dec 0 L) as [HL|HL].
      - rewrite total_as_sum. assert (H1 := shares_sum zs Hzs HL).
        assert (H2 := Qsum_map_le (fun k => L * share zs k)%Q (fun k => v_toQ v (nth k x l)) (seq 0 n) Hsup).
        rewrite Qsum_map_scale, H1 in H2. lra.
      - assert (0 <= config_total v x)%Q; [|lra]. unfold config_total. clear - Hx0.
        revert Hx0. generalize x. intros y Hy. induction Hy as [|a y Ha Hy IH]; simpl; [lra|]. lra. }
    rewrite slo_value. assert (EL : Qltb (config_total v x) L = false) by (apply Qltb_false; exact Htot).
    rewrite EL. simpl. eexists. split; [reflexivity|]. simpl in He. rewrite He, Er, Hys. ring.
  Qed.

  (** If the configuration covers the load, dividing it in proportion is feasible. *)
  Theorem sblo_supported : (L <= config_total v x)%Q ->
    exists zs q, distribution n zs /\
      objective_value (sblo_objective v (into_sblo p) t x [L] (mkFractions zs n 1)) = Some (Fin q).
  Proof.
    intros Htot.
    set (tot := config_total v x) in *.
    set (zs := map (fun k => if Qltb 0 L then (v_toQ v (nth k x l) / tot)%Q else 0%Q) (seq 0 (n - 1))).
    assert (Hxk : forall k, In k (seq 0 n) -> (0 <= v_toQ v (nth k x l))%Q).
    { intros k Hk. apply in_seq in Hk. rewrite Forall_forall in Hx0. apply Hx0, nth_In. unfold n in Hk. lia. }
    assert (Hsplit : seq 0 n = seq 0 (n - 1) ++ [(n - 1)%nat]).
    { apply seq_split_last. unfold n. lia. }
    assert (Hsum : (Qsum (map (fun k => v_toQ v (nth k x l)) (seq 0 (n - 1))) == tot - v_toQ v (nth (n - 1) x l))%Q).
    { unfold tot. rewrite total_as_sum, Hsplit, map_app, Qsum_app. simpl. ring. }
    assert (Hlast : (0 <= v_toQ v (nth (n - 1) x l))%Q) by (apply Hxk, in_seq; unfold n; lia).
    assert (Hzsum : (0 < L)%Q -> (Qsum zs == 1 - v_toQ v (nth (n - 1) x l) / tot)%Q).
    { intros HL. unfold zs. rewrite (proj2 (Qltb_iff _ _) HL).
      assert (E : (Qsum (map (fun k => (v_toQ v (nth k x l) / tot)%Q) (seq 0 (n - 1))) ==
                   / tot * Qsum (map (fun k => v_toQ v (nth k x l)) (seq 0 (n - 1))))%Q).
      { rewrite <- Qsum_map_scale. clear. induction (seq 0 (n - 1)) as [|k ks IH]; simpl; [reflexivity|].
        rewrite IH. unfold Qdiv. ring. }
      rewrite E, Hsum. field. lra. }
    assert (Hzs : distribution n zs).
    { split; [unfold zs; rewrite map_length, seq_length; reflexivity|]. split.
      - unfold zs. rewrite Forall_forall. intros q Hq. apply in_map_iff in Hq as (k & <- & Hk).
        destruct (Qltb 0 L) eqn:EL; [|lra]. apply Qltb_iff in EL.
        apply Qle_shift_div_l; [lra|]. rewrite Qmult_0_l. apply Hxk. rewrite Hsplit. apply in_or_app. left. exact Hk.
      - destruct (Qltb 0 L) eqn:EL.
        + apply Qltb_iff in EL. rewrite (Hzsum EL).
          assert (0 <= v_toQ v (nth (n - 1) x l) / tot)%Q by (apply Qle_shift_div_l; [lra|]; lra). lra.
        + unfold zs. try rewrite EL. assert (E : (Qsum (map (fun _ : nat => 0%Q) (seq 0 (n - 1))) == 0)%Q).
          { clear. induction (seq 0 (n - 1)) as [|k ks IH]; simpl; [reflexivity|]. rewrite IH. ring. }
          rewrite E. lra. }
    destruct (sblo_value zs Hzs) as (o & Ho & He).
    assert (Hsup : forall k, In k (seq 0 n) -> (L * share zs k <= v_toQ v (nth k x l))%Q).
    { intros k Hk. destruct (Qltb 0 L) eqn:EL.
      - apply Qltb_iff in EL.
        assert (Hsh : (share zs k == v_toQ v (nth k x l) / tot)%Q).
        { unfold share. destruct (k <? n - 1)%nat eqn:E.
          - apply Nat.ltb_lt in E. unfold zs.
            rewrite nth_map_seq by exact E. simpl. try rewrite (proj2 (Qltb_iff _ _) EL). reflexivity.
          - apply Nat.ltb_ge in E. apply in_seq in Hk. replace k with (n - 1)%nat by lia.
            rewrite (proj2 (Qltb_iff _ _) EL). rewrite (Hzsum EL). ring. }
        rewrite Hsh. assert (Hk0 := Hxk k Hk).
        setoid_replace (L * (v_toQ v (nth k x l) / tot))%Q with (L / tot * v_toQ v (nth k x l))%Q by (field; lra).
        assert (L / tot <= 1)%Q by (apply Qle_shift_div_r; lra).
        assert (H' := Qmult_le_compat_r (L / tot) 1 (v_toQ v (nth k x l)) H Hk0). lra.
      - apply Qltb_false in EL. assert (E : (L == 0)%Q) by (unfold L in *; lra). rewrite E, Qmult_0_l. apply Hxk, Hk. }
    assert (Hmap : map (dim_value zs) (seq 0 n) = map Fin (map (fun k => nth k (l_hitting p) 0%Q * v_toQ v (nth k x l))%Q (seq 0 n))).
    { rewrite map_map. apply map_ext_in. intros k Hk. unfold dim_value.
      rewrite (proj2 (Qle_bool_iff _ _) (Hsup k Hk)). reflexivity. }
    rewrite Hmap in He.
    destruct (fold_eadd_map (map (fun k => nth k (l_hitting p) 0%Q * v_toQ v (nth k x l))%Q (seq 0 n)) 0) as (q & E & _).
    rewrite E in He. destruct o as [q'|]; [|contradiction]. exists zs, q'. split; [exact Hzs|exact Ho].
  Qed.
End IntoSBLO.
