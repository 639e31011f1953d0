(** Sessions in terms of SCO instances. *)
From Coq Require Import Lia Lqa.
From Verif Require Import NumLemmas CostSpec CostProofs ConvertProofs ConvertCosts ConvertObjective ObjectiveProofs VerifySpec VerifyProofs DataCenterModel DataCenterInstances
  StreamModel StreamSpec StreamProofs SessionModel SessionSpec SessionStream SessionDay SessionEnd TerminalModel TerminalSpec.
From Verif Require Import ProblemModel CostModel.
Local Open Scope Z_scope.

Lemma half_halfw {T} (v : value T) : forall beta x, half_switching v beta x = halfw v beta x.
Proof.
  unfold half_switching, Qsum. induction beta as [|b beta IH]; intros [|j x]; cbn [combine map fold_right halfw]; auto. rewrite IH. reflexivity.
Qed.

(** An SCO instance whose hitting costs include powering down after slot [T]. *)
Section Early.
  Context {T C D : Type}.
  Variable v : value T.
  Hypothesis Hlaw : lawful v.
  Variable vmerge : C -> C -> outcome C.
  Variable merge : C -> C -> C.
  Variable outside : D.
  Variables (s : gsco T C D) (q : gssco T C D) (e : Z).
  Let n := Z.to_nat (g_d q).
  Hypothesis Hsw : length (g_switching q) = n.
  Hypothesis Htend : o_tend s = g_tend q.
  Hypothesis Hd : o_d s = g_d q.
  Hypothesis Hnorm : o_norm s = manhattan_scaled v (g_switching q).
  Hypothesis He : 0 <= e <= g_tend q.
  Hypothesis Hhit : forall t x, 1 <= t <= g_tend q -> length x = n ->
    outcome_rel (fun b a => c_out b = c_out a /\ eeq (c_cost b) (eadd (c_cost a) (Fin (if t =? e then halfw v (g_switching q) x else 0))))
      (gsco_hit v vmerge outside s t x) (gssco_hit v vmerge outside q t x).

  Variable xs : list (list T).
  Hypothesis Hxs : Forall (fun x => length x = n) xs.
  Let x_ (t : Z) := get_or xs (gzero v (g_d q)) t.
  Let h (t : Z) : Q := halfw v (g_switching q) (x_ t).

  Lemma early_length t : length (x_ t) = n.
  Proof.
    unfold x_, get_or, gzero. destruct (access xs t) as [x|] eqn:E.
    - apply access_spec in E. destruct E as [_ E]. apply nth_error_In in E. rewrite Forall_forall in Hxs. auto.
    - apply repeat_length.
  Qed.

  Let A (t : Z) := step_cost_o (gssco_problem v vmerge outside q) 1 false t (x_ (t - 1)) (x_ t).
  Let B (t : Z) := step_cost_o (gsco_problem v vmerge outside s) 1 false t (x_ (t - 1)) (x_ t).

  Lemma early_steps t : 1 <= t <= g_tend q ->
    outcome_rel (fun b a => c_out b = c_out a /\
      eeq (eadd (c_cost b) (Fin (h t - h (t - 1)))) (eadd (c_cost a) (Fin (if t =? e then h t else 0)))) (B t) (A t).
  Proof.
    intros Ht. unfold A, B, step_cost_o. cbn [gssco_problem gsco_problem op_tend op_hit op_move]. rewrite Htend.
    rewrite (proj2 (Z.ltb_ge _ _)) by lia.
    pose proof (Hhit t (x_ t) Ht (early_length t)) as HH.
    destruct (moves v Hlaw (g_switching q) (x_ t) (x_ (t - 1))) as (m & N & Hm & HN & EN);
      [rewrite early_length; auto|rewrite early_length; auto|].
    unfold gssco_move, gsco_move. rewrite Hnorm, Hm, HN.
    destruct (gsco_hit v vmerge outside s t (x_ t)) as [hb|f|]; destruct (gssco_hit v vmerge outside q t (x_ t)) as [ha|f'|];
      cbn [outcome_rel obind] in *; try contradiction; auto.
    destruct HH as [H1 H2]. split; auto. cbn [c_cost]. fold (h t) in H2, EN. fold (h (t - 1)) in EN.
    destruct (c_cost ha) as [ca|], (c_cost hb) as [cb|]; cbn [eadd eeq] in *; auto.
    rewrite H2. destruct (t =? e); rewrite EN; ring.
  Qed.

  Lemma early_prefix k : Z.of_nat k <= g_tend q ->
    outcome_rel (fun b a => map c_out b = map c_out a /\
      eeq (eadd (esum (map c_cost b)) (Fin (h (Z.of_nat k) - h 0)))
          (eadd (esum (map c_cost a)) (Fin (if (1 <=? e) && (e <=? Z.of_nat k) then h e else 0))))
      (omap B (zrange 1 (Z.of_nat k))) (omap A (zrange 1 (Z.of_nat k))).
  Proof.
    induction k as [|k IH]; intros Hk.
    - cbn. split; [reflexivity|]. replace ((1 <=? e) && (e <=? 0)) with false by (symmetry; apply Bool.andb_false_iff; destruct (Z.leb_spec 1 e); [right; apply Z.leb_gt; lia|auto]).
      ring.
    - rewrite Nat2Z.inj_succ. unfold Z.succ. rewrite zrange_snoc by lia. rewrite !omap_app.
      specialize (IH ltac:(lia)).
      destruct (omap B (zrange 1 (Z.of_nat k))) as [b|f|];
        destruct (omap A (zrange 1 (Z.of_nat k))) as [a|f'|]; cbn [outcome_rel obind] in *; try contradiction; auto.
      destruct IH as [I1 I2]. pose proof (early_steps (Z.of_nat k + 1) ltac:(lia)) as HS.
      replace (Z.of_nat k + 1 - 1) with (Z.of_nat k) in HS by lia. cbn [omap].
      destruct (B (Z.of_nat k + 1)) as [b1|f|]; destruct (A (Z.of_nat k + 1)) as [a1|f'|];
        cbn [outcome_rel obind] in *; try contradiction; auto.
      destruct HS as [S1 S2]. rewrite !map_app. cbn [map]. split; [congruence|].
      rewrite !esum_app. cbn [esum fold_right].
      assert (EE : ((if (1 <=? e)%Z && (e <=? Z.of_nat k + 1)%Z then h e else 0) ==
        (if (1 <=? e)%Z && (e <=? Z.of_nat k)%Z then h e else 0) + (if (Z.of_nat k + 1 =? e)%Z then h (Z.of_nat k + 1) else 0))%Q).
      { destruct (Z.leb_spec 1 e); destruct (Z.leb_spec e (Z.of_nat k + 1)); destruct (Z.leb_spec e (Z.of_nat k)); destruct (Z.eqb_spec (Z.of_nat k + 1) e);
          cbn [andb]; try lia; subst; try ring. }
      destruct (esum (map c_cost b)) as [sb|], (c_cost b1) as [cb|], (esum (map c_cost a)) as [sa|], (c_cost a1) as [ca|]; cbn [eadd eeq] in *; try contradiction; auto.
      rewrite EE. transitivity (sb + (h (Z.of_nat k) - h 0) + (cb + (h (Z.of_nat k + 1) - h (Z.of_nat k))))%Q; [ring|]. rewrite I2, S2. ring.
  Qed.

  Lemma half_x t : 0 <= t -> (half_switching v (g_switching q) (in_slot xs (Z.to_nat t)) == h t)%Q.
  Proof.
    intros Ht. rewrite half_halfw. unfold h, x_, get_or. destruct (Z.to_nat t) as [|k] eqn:E.
    - assert (t = 0) by lia. subst t. replace (access xs 0) with (@None (list T)) by reflexivity. unfold gzero. rewrite halfw_zero by exact Hlaw.
      cbn [in_slot]. destruct (g_switching q); reflexivity.
    - cbn [in_slot]. unfold access. destruct (1 <=? t) eqn:E1; [|apply Z.leb_gt in E1; lia]. cbn [andb].
      destruct (t <=? Z.of_nat (length xs)) eqn:E2.
      + apply Z.leb_le in E2. replace (Z.to_nat (t - 1)) with k by lia. rewrite (nth_error_nth' xs [] (n:=k)) by lia. reflexivity.
      + apply Z.leb_gt in E2. rewrite nth_overflow by lia. unfold gzero. rewrite halfw_zero by exact Hlaw. destruct (g_switching q); reflexivity.
  Qed.

  Lemma early_objective sp :
    outcome_rel (charged_early v (g_switching q) xs (Z.to_nat e) (Z.to_nat (g_tend q)))
      (objective_o merge sp (gsco_problem v vmerge outside s) xs (gzero v (o_d s)) 1 false (o_tend s))
      (objective_o merge sp (gssco_problem v vmerge outside q) xs (gzero v (g_d q)) 1 false (g_tend q)).
  Proof.
    rewrite Hd, Htend. unfold objective_o. fold x_. change (fun t => step_cost_o _ 1 false t (get_or xs (gzero v (g_d q)) (t - 1)) _) with B at 1.
    change (fun t => step_cost_o (gssco_problem v vmerge outside q) 1 false t (get_or xs (gzero v (g_d q)) (t - 1)) _) with A.
    pose proof (early_prefix (Z.to_nat (g_tend q)) ltac:(lia)) as HP.
    rewrite Z2Nat.id in HP by lia.
    destruct (omap B (zrange 1 (g_tend q))) as [b|f|];
      destruct (omap A (zrange 1 (g_tend q))) as [a|f'|]; cbn [outcome_rel obind] in *; try contradiction; auto.
    destruct HP as [P1 P2]. split; [apply par_sum_out_ext; auto|].
    rewrite !par_sum_cost.
    assert (h 0 == 0)%Q as E0.
    { unfold h, x_, get_or. replace (access xs 0) with (@None (list T)) by reflexivity. apply halfw_zero. exact Hlaw. }
    pose proof (half_x (g_tend q) ltac:(lia)) as X1. pose proof (half_x e ltac:(lia)) as X2.
    assert (EE : ((if (1 <=? e)%Z && (e <=? g_tend q)%Z then h e else 0) == h e)%Q).
    { destruct (Z.leb_spec 1 e); destruct (Z.leb_spec e (g_tend q)); cbn [andb]; try lia; try reflexivity. assert (e = 0) by lia. subst e. rewrite E0. reflexivity. }
    destruct (esum (map c_cost b)), (esum (map c_cost a)); cbn [eadd eeq] in *; try contradiction; auto.
    rewrite X1, X2. rewrite EE, E0 in P2. rewrite <- P2. ring.
  Qed.
End Early.
