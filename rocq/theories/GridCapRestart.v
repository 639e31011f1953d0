(** What fractional bounds optimise after a restart, and its consequence for lazy capacity
    provisioning (C84). *)
From Coq Require Import Lia Lqa Setoid Morphisms Qabs.
From Verif Require Import NumLemmas ObjectiveSpec CapacitySpec CapacityWork CapacityChain CapacityModel
  ObjectiveProofs ConvertObjective StaticProofs CapacityProofs CapacityBrcp OptimizeModel OptimizeSpec OptimizeProofs
  GridCapModel GridCapSpec GridCapProofs GridCapEnd.
From Verif Require Import ProblemModel CostModel.
Local Open Scope Z_scope.

Lemma get_or_repeat {X} (xs : list X) c n t : get_or (xs ++ repeat c n) c t = get_or xs c t.
Proof.
  unfold get_or, access.
  destruct (Z.leb_spec 1 t) as [H1|H1]; cbn [andb]; [|reflexivity].
  rewrite app_length, repeat_length.
  destruct (Z.leb_spec t (Z.of_nat (length xs))) as [H2|H2].
  - destruct (Z.leb_spec t (Z.of_nat (length xs + n))); [|lia]. rewrite nth_error_app1 by lia. reflexivity.
  - destruct (Z.leb_spec t (Z.of_nat (length xs + n))); [|reflexivity].
    rewrite nth_error_app2 by lia. rewrite nth_error_repeat by lia. reflexivity.
Qed.

(** The objective beyond the horizon: the missing configurations are the default. *)
Lemma objective_padded {X C D} merge s (p : oproblem X C D) xs c alpha inv n :
  objective_o merge s p xs c alpha inv n
  = objective_o merge s (mkOProblem n (fun t x => if op_tend p <? t then Ok cost_default else op_hit p t x) (op_move p))
      (xs ++ repeat c (Z.to_nat n - length xs)) c alpha inv n.
Proof.
  unfold objective_o.
  assert (E : forall ts, (forall t, In t ts -> t <= n) ->
    omap (fun t => step_cost_o p alpha inv t (get_or xs c (t - 1)) (get_or xs c t)) ts
    = omap (fun t => step_cost_o (mkOProblem n (fun t x => if op_tend p <? t then Ok cost_default else op_hit p t x) (op_move p)) alpha inv t
        (get_or (xs ++ repeat c (Z.to_nat n - length xs)) c (t - 1)) (get_or (xs ++ repeat c (Z.to_nat n - length xs)) c t)) ts).
  { induction ts as [|t ts IH]; intros Hts; cbn [omap]; [reflexivity|].
    rewrite IH by (intros; apply Hts; right; assumption). rewrite !get_or_repeat.
    unfold step_cost_o at 1 3. cbn [op_tend op_hit op_move]. pose proof (Hts t (or_introl eq_refl)).
    rewrite (proj2 (Z.ltb_ge n t)) by lia. reflexivity. }
  rewrite E; [reflexivity|]. intros t Ht. apply zrange_In in Ht. lia.
Qed.

Lemma total_cost_ext_f {X} (f g : Z -> X -> ext) sw alpha : forall xs t a,
  (forall k x, t <= k < t + Z.of_nat (length xs) -> In x xs -> eeq (f k x) (g k x)) ->
  eeq (total_cost f sw alpha t a xs) (total_cost g sw alpha t a xs).
Proof.
  induction xs as [|x xs IH]; intros t a H; cbn [total_cost]; [reflexivity|].
  apply eadd_proper.
  - apply eadd_proper; [|reflexivity]. apply H; [cbn [length]; lia|left; reflexivity].
  - apply IH. intros k y Hk Hy. apply H; [cbn [length]; lia|right; exact Hy].
Qed.

Lemma stay_free (f : Z -> Q -> ext) beta inv alpha c : forall n t, (forall k x, t <= k -> f k x = Fin 0) ->
  eeq (total_cost f (sw1 beta inv) alpha t c (repeat c n)) (Fin 0).
Proof.
  induction n as [|n IH]; intros t H; cbn [repeat total_cost]; [reflexivity|].
  rewrite H by lia. rewrite IH by (intros; apply H; lia). cbn [eadd eeq]. unfold sw1.
  destruct inv; (destruct (qpos_cases (c - c)) as [[? E]|[? E]]; rewrite E; ring).
Qed.

Section Restart.
  Context {C D : Type}.
  Variable vmerge : C -> C -> outcome C.
  Variable merge : C -> C -> C.
  Variable outside : D.
  Variable sched : split.
  Variable p : gssco Q C D.
  Variables (m beta : Q) (f : Z -> Q -> ext).
  Hypothesis Hb : g_bounds p = [m].
  Hypothesis Hs : g_switching p = [beta].
  Hypothesis Hcosts : certain_costs vmerge p m f.

  Lemma restart_objective alpha inv s c xs : 1 <= s -> Z.of_nat (length xs) = g_tend p - s -> (0 <= c <= m)%Q ->
    Forall (fun x => (0 <= x <= m)%Q) xs ->
    exists v, bound_objective vmerge merge outside sched (gssco_extend (ssco_reset p s) 0) alpha inv 0 (g_tend p) c xs = Ok v /\
      eeq v (eadd (total_cost (fun t => f (s + t)) (sw1 beta inv) alpha 1 c xs) (Fin (alpha * sw1 beta inv (last xs c) c))).
  Proof.
    intros H1 HL Hc Hx. unfold bound_objective. set (q := gssco_extend (ssco_reset p s) 0).
    rewrite Z.add_0_r, objective_padded. rewrite map_length.
    set (k := (Z.to_nat (g_tend p) - length xs)%nat).
    replace (map (fun x => [x]) xs ++ repeat [c] k) with (map (fun x : Q => [x]) (xs ++ repeat c k)).
    2: { rewrite map_app. f_equal. induction k; [reflexivity|]. cbn [repeat map]. f_equal. assumption. }
    set (g := fun (t : Z) (x : Q) => if g_tend p - s <? t then Fin 0 else f (s + t) x).
    destruct (objective_along merge
      (mkOProblem (g_tend p)
        (fun t x => if op_tend (gssco_problem valQ vmerge outside q) <? t then Ok cost_default else op_hit (gssco_problem valQ vmerge outside q) t x)
        (op_move (gssco_problem valQ vmerge outside q)))
      (fun t (x : list Q) => g t (hd 0%Q x)) (fun a b => sw1 beta inv (hd 0%Q a) (hd 0%Q b)) [c] alpha inv sched
      (map (fun x => [x]) (xs ++ repeat c k))) as (v & E & Ev).
    - rewrite map_length, app_length, repeat_length. cbn [op_tend]. unfold k. lia.
    - intros t y Hty Hy. apply in_map_iff in Hy. destruct Hy as (x & <- & Hin). cbn [op_hit hd op_tend gssco_problem] in *.
      unfold g. cbn [q gssco_extend ssco_reset g_tend]. rewrite Z.add_0_r.
      destruct (Z.ltb_spec (g_tend p - s) t) as [H2|H2]; [exists cost_default; split; reflexivity|].
      assert (Hx' : (0 <= x <= m)%Q).
      { apply in_app_or in Hin. destruct Hin as [Hin|Hin]; [rewrite Forall_forall in Hx; auto|]. apply repeat_spec in Hin. subst x. exact Hc. }
      destruct (Hcosts (s + t) x ltac:(lia) Hx') as [(c' & Ec & Eq) _]. exists c'. split; [|exact Eq].
      change (gssco_hit valQ vmerge outside (ssco_reset p s) t [x] = Ok c').
      rewrite reset_hit; [|lia|lia|].
      + unfold gssco_hit, call_mean_within, within_upper. rewrite Hb. cbn [length Nat.eqb combine forallb fst snd].
        unfold v_leb. cbn [valQ v_toQ v_zero]. destruct Hx' as [B1 B2].
        apply Qle_bool_iff in B1. apply Qle_bool_iff in B2. rewrite B1, B2. cbn [andb obind].
        exact Ec.
      + intros -> rs. apply (Hcosts (s + 1) x); auto; lia.
    - intros a b Hab Hy. apply in_map_iff in Hy. destruct Hy as (x & <- & Hin).
      assert (Ea : exists z, a = [z]).
      { destruct Hab as [->|Hab]; [eauto|]. apply in_map_iff in Hab. destruct Hab as (z & <- & _). eauto. }
      destruct Ea as (z & ->). cbn [op_move gssco_problem]. unfold gssco_move, q. cbn [gssco_extend ssco_reset g_switching]. rewrite Hs.
      rewrite scaled_movement_o_total by reflexivity. eexists. split; [reflexivity|]. cbn [hd].
      unfold scaled_movement, sw1. simpl. unfold scalar_movement. destruct inv; ring.
    - exists (c_cost v). cbn [op_tend] in E. split; [rewrite E; reflexivity|].
      rewrite Ev, (total_cost_hd beta alpha g). rewrite total_cost_app. apply eadd_proper.
      + apply total_cost_ext_f. intros t x Ht Hin. unfold g. rewrite (proj2 (Z.ltb_ge _ _)) by lia. reflexivity.
      + assert (Hk : k = S (k - 1)) by lia. rewrite Hk. cbn [repeat total_cost].
        rewrite stay_free.
        * unfold g. rewrite (proj2 (Z.ltb_lt _ _)) by lia. cbn [eadd eeq]. ring.
        * intros j x Hj. unfold g. rewrite (proj2 (Z.ltb_lt _ _)) by lia. reflexivity.
  Qed.
End Restart.
