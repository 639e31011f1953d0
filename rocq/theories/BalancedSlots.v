(** Proofs about lazy budgeting for SBLO: sub-slots and whole runs. *)
From Coq Require Import Lia Lqa Setoid.
From Verif Require Import NumLemmas CostSpec CostProofs ConvertProofs ConvertObjective LoadProofs BudgetProofs BudgetRun
  StreamSpec StreamProofs BalancedModel BalancedSpec BalancedSearch BalancedProofs BalancedRun.
From Verif Require Import CostModel ProblemModel.
Local Open Scope Z_scope.

Lemma access_in {A} (l : list A) i : 1 <= i <= Z.of_nat (length l) -> access l i = nth_error l (Z.to_nat (i - 1)).
Proof. intros H. unfold access. rewrite (proj2 (Z.leb_le _ _)), (proj2 (Z.leb_le _ _)) by lia. reflexivity. Qed.

Lemma access_map {A B} (f : A -> B) l i : access (map f l) i = option_map f (access l i).
Proof. unfold access. rewrite map_length. destruct (_ && _); [apply nth_error_map|reflexivity]. Qed.

Lemma map_nth_seq {A} (d : A) l : map (fun k => nth k l d) (seq 0 (length l)) = l.
Proof.
  induction l as [|a l IH]; [reflexivity|]. cbn [length seq map nth]. f_equal. rewrite <- seq_shift, map_map. exact IH.
Qed.

Lemma repeat_map {A B} (f : A -> B) a k : map f (repeat a k) = repeat (f a) k.
Proof. induction k as [|k IH]; [reflexivity|]. cbn [repeat map]. f_equal. exact IH. Qed.

Section Slots.
  Variable n : Z -> Z.
  Notation U t := (Z.of_nat (length (sub_slots n t))).

  Lemma sub_slots_snoc t : 0 <= t -> sub_slots n (t + 1) = sub_slots n t ++ repeat (t + 1) (Z.to_nat (n (t + 1))).
  Proof. intros H. unfold sub_slots. rewrite zrange_snoc by lia. rewrite flat_map_app. cbn [flat_map]. rewrite app_nil_r. reflexivity. Qed.

  Lemma U_snoc t : 0 <= t -> 0 <= n (t + 1) -> U (t + 1) = U t + n (t + 1).
  Proof. intros H Hn. rewrite sub_slots_snoc by exact H. rewrite app_length, repeat_length. lia. Qed.

  Lemma sub_slots_prefix t k : 0 <= t -> exists rest, sub_slots n (t + Z.of_nat k) = sub_slots n t ++ rest.
  Proof.
    intros Ht. induction k as [|k [rest IH]]; [exists []; rewrite Z.add_0_r, app_nil_r; reflexivity|].
    replace (t + Z.of_nat (S k)) with (t + Z.of_nat k + 1) by lia. rewrite sub_slots_snoc, IH by lia.
    rewrite <- app_assoc. eexists. reflexivity.
  Qed.

  Lemma sub_slots_le s t : 0 <= s <= t -> exists rest, sub_slots n t = sub_slots n s ++ rest.
  Proof. intros H. destruct (sub_slots_prefix s (Z.to_nat (t - s)) ltac:(lia)) as [rest E]. replace (s + _) with t in E by lia. eauto. Qed.

  Lemma U_mono s t : 0 <= s <= t -> U s <= U t.
  Proof. intros H. destruct (sub_slots_le s t H) as [rest ->]. rewrite app_length. lia. Qed.

  Lemma slot_of t T u : 1 <= t <= T -> U (t - 1) < u <= U t -> access (sub_slots n T) u = Some t.
  Proof.
    intros Ht Hu. destruct (sub_slots_le t T ltac:(lia)) as [rest E]. rewrite E.
    pose proof (sub_slots_snoc (t - 1) ltac:(lia)) as ES. replace (t - 1 + 1) with t in ES by lia.
    rewrite access_in by (rewrite app_length; lia).
    rewrite nth_error_app1 by lia. rewrite ES in Hu |- *. rewrite app_length, repeat_length in Hu.
    rewrite nth_error_app2 by lia. apply nth_error_repeat. lia.
  Qed.

  (** The registrations for one dimension. *)
  Definition hist (f : dim_cost) (t : Z) : list (Z * single_fn Q unit dc_failure) :=
    map (fun s => (U (s - 1) + 1, sub_slot_cost f s (n s) (U (s - 1) + 1) (U s))) (zrange 1 t).

  Lemma hist_snoc f t : 0 <= t -> hist f (t + 1) = hist f t ++ [(U t + 1, sub_slot_cost f (t + 1) (n (t + 1)) (U t + 1) (U (t + 1)))].
  Proof.
    intros H. unfold hist. rewrite zrange_snoc by lia. rewrite map_app. cbn [map]. replace (t + 1 - 1) with t by lia. reflexivity.
  Qed.

  Lemma hist_get f t s u : 1 <= s <= t -> U (s - 1) < u <= U s ->
    cf_get (of_history (hist f t)) u = Ok (U (s - 1) + 1, sub_slot_cost f s (n s) (U (s - 1) + 1) (U s)).
  Proof.
    intros Hs Hu. apply get_answers. split; [lia|].
    exists (hist f (s - 1)), (map (fun s => (U (s - 1) + 1, sub_slot_cost f s (n s) (U (s - 1) + 1) (U s))) (zrange (s + 1) t)).
    split; [|split].
    - unfold hist. rewrite <- (map_cons (fun s => (U (s - 1) + 1, sub_slot_cost f s (n s) (U (s - 1) + 1) (U s))) s), <- map_app.
      f_equal. rewrite <- (zrange_cons s t) by lia.
      clear -Hs. assert (H : forall k, 1 + Z.of_nat k <= t + 1 -> zrange 1 t = zrange 1 (Z.of_nat k) ++ zrange (1 + Z.of_nat k) t).
      { induction k as [|k IH]; intros H; [rewrite (zrange_nil 1 (Z.of_nat 0)) by lia; reflexivity|].
        rewrite IH by lia. rewrite (zrange_cons (1 + Z.of_nat k) t) by lia.
        replace (Z.of_nat (S k)) with (Z.of_nat k + 1) by lia. rewrite (zrange_snoc 1) by lia. rewrite <- app_assoc. cbn [app].
        replace (1 + Z.of_nat k) with (Z.of_nat k + 1) by lia. replace (1 + (Z.of_nat k + 1)) with (Z.of_nat k + 1 + 1) by lia. reflexivity. }
      specialize (H (Z.to_nat (s - 1)) ltac:(lia)). replace (Z.of_nat (Z.to_nat (s - 1))) with (s - 1) in H by lia.
      replace (1 + (s - 1)) with s in H by lia. exact H.
    - intros k' f' HIn _. apply in_map_iff in HIn as (s' & E & HIn). apply zrange_In in HIn. injection E as <- _.
      pose proof (U_mono (s' - 1) (s - 1) ltac:(lia)). lia.
    - intros k' f' HIn Hk. exfalso. apply in_map_iff in HIn as (s' & E & HIn). apply zrange_In in HIn. injection E as <- _.
      pose proof (U_mono s (s' - 1) ltac:(lia)). lia.
  Qed.

  Lemma hist_call f t s u z : 1 <= s <= t -> U (s - 1) < u <= U s ->
    call_predictive (of_history (hist f t)) u z =
      do c <- call_certain f s z; Ok [mkCost (escale (1 / inject_Z (n s)) (c_cost c)) (c_out c)].
  Proof.
    intros Hs Hu. unfold call_predictive. rewrite (hist_get f t s u Hs Hu). cbn [obind fst snd].
    unfold single_predictive, sub_slot_cost, certain. rewrite (proj2 (Z.ltb_ge _ _)) by lia.
    rewrite (proj2 (Z.leb_le (U (s - 1) + 1) u)), (proj2 (Z.leb_le u (U s))) by lia. cbn [andb].
    destruct (call_certain f s z) as [c| |]; cbn [obind]; try reflexivity. cbn [length Nat.eqb negb]. rewrite Bool.andb_false_r. reflexivity.
  Qed.

  Lemma sub_call (f : dim_cost) T t u z : 1 <= t <= T -> U (t - 1) < u <= U t ->
    call_predictive (cf_new 1 (certain (fun u z =>
       match access (sub_slots n T) u with
       | Some t => do c <- call_certain f t z; Ok (mkCost (escale (1 / inject_Z (n t)) (c_cost c)) (c_out c))
       | None => Panic
       end))) u z =
    do c <- call_certain f t z; Ok [mkCost (escale (1 / inject_Z (n t)) (c_cost c)) (c_out c)].
  Proof.
    intros Ht Hu. assert (0 <= U (t - 1)) by lia. unfold call_predictive. rewrite cf_new_get by lia. cbn [obind fst snd].
    unfold single_predictive, certain. rewrite (proj2 (Z.ltb_ge _ _)) by lia. rewrite (slot_of t T u Ht Hu).
    destruct (call_certain f t z) as [c| |]; cbn [obind]; try reflexivity. cbn [length Nat.eqb negb]. rewrite Bool.andb_false_r. reflexivity.
  Qed.

  Lemma slot_exists t u : 0 <= t -> 1 <= u <= U t -> exists s, 1 <= s <= t /\ U (s - 1) < u <= U s.
  Proof.
    intros Ht Hu. revert u Hu. pattern t. apply natlike_ind; [| |exact Ht].
    - intros u Hu. change (sub_slots n 0) with (@nil Z) in Hu. cbn in Hu. lia.
    - intros t' Ht' IH u Hu. destruct (Z_le_gt_dec u (U t')) as [H|H].
      + destruct (IH u ltac:(lia)) as (s & Hs & Hr). exists s. split; [lia|exact Hr].
      + exists (Z.succ t'). split; [lia|]. replace (Z.succ t' - 1) with t' by lia. lia.
  Qed.

  Lemma modified_agrees p q T t : 0 <= t <= T ->
    b_d q = b_d p -> b_bounds q = b_bounds p -> b_switching q = b_switching p ->
    b_load q = map (fun t => match access (b_load p) t with Some l => l | None => 0 end) (sub_slots n t) ->
    b_cost q = map (fun f => of_history (hist f t)) (b_cost p) ->
    agrees_upto q (sub_problem p n T) (U t).
  Proof.
    intros Ht A B S L C u Hu. destruct (slot_exists t u ltac:(lia) Hu) as (s & Hs & Hr).
    constructor; cbn [sub_problem b_d b_bounds b_switching b_load b_cost]; auto.
    - rewrite L, !access_map. rewrite (slot_of s t u), (slot_of s T u) by lia. reflexivity.
    - intros k. rewrite C, !nth_error_map. unfold dim_cost in *. destruct (nth_error (b_cost p) k) as [f|]; [|exact I]. cbn [option_map]. intros z.
      rewrite (hist_call f t s u z Hs Hr). symmetry. apply sub_call; [lia|exact Hr].
  Qed.
End Slots.

Section Runs.
  Variable minimize :
    (list Q -> outcome ext) -> list (Q * Q) -> list Q -> list (list Q -> outcome Q) -> option (list Q * ext).
  Variable sched : Z -> Z -> vertice -> split.
  Hypothesis HX : solver_extensional minimize.

  (** The loop choosing the sub-slot. *)
  Lemma least_slot_ok q xs (c : Z -> ext) a k : forall b u0,
    (forall v, a <= v <= b + Z.of_nat k -> exists x r, access xs v = Some x /\ sblo_hit valZ minimize q v x = Ok r /\ c_cost r = c v) ->
    a <= u0 <= b -> (forall v, a <= v < u0 -> elt (c u0) (c v)) -> (forall v, u0 < v <= b -> ele (c u0) (c v)) ->
    exists u, least_slot minimize q xs (zrange (b + 1) (b + Z.of_nat k)) (u0, c u0) = Ok (u, c u) /\
      a <= u <= b + Z.of_nat k /\ (forall v, a <= v < u -> elt (c u) (c v)) /\ (forall v, u < v <= b + Z.of_nat k -> ele (c u) (c v)).
  Proof.
    induction k as [|k IH]; intros b u0 HE Hu H1 H2.
    - rewrite zrange_nil by lia. exists u0. split; [reflexivity|]. replace (b + Z.of_nat 0) with b by lia. auto.
    - rewrite zrange_cons by lia. cbn [least_slot].
      destruct (HE (b + 1) ltac:(lia)) as (x & r & Ex & Er & Hr). rewrite Ex. cbn [from_option obind]. rewrite Er. cbn [obind snd]. rewrite Hr.
      replace (b + Z.of_nat (S k)) with (b + 1 + Z.of_nat k) by lia.
      destruct (eltb (c (b + 1)) (c u0)) eqn:E.
      + apply eltb_iff in E. apply (IH (b + 1) (b + 1)); [intros; apply HE; lia|lia| |intros; lia].
        intros v Hv. destruct (Z_lt_ge_dec v u0) as [Hl|Hl].
        * specialize (H1 v ltac:(lia)). destruct (c (b + 1)), (c u0), (c v); cbn in *; auto; try contradiction. lra.
        * destruct (Z.eq_dec v u0) as [->|]; [exact E|]. specialize (H2 v ltac:(lia)).
          destruct (c (b + 1)), (c u0), (c v); cbn in *; auto; try contradiction. lra.
      + apply eltb_false in E. apply (IH (b + 1) u0); [intros; apply HE; lia|lia|exact H1|].
        intros v Hv. destruct (Z.eq_dec v (b + 1)) as [->|]; [exact E|]. apply H2. lia.
  Qed.

  Lemma first_least_app p xs ys a b u : 1 <= a -> b <= Z.of_nat (length xs) -> first_least_slot minimize p xs a b u ->
    first_least_slot minimize p (xs ++ ys) a b u.
  Proof.
    intros Ha Hb (H1 & H2 & H3).
    assert (E : forall v, a <= v <= b -> nth (Z.to_nat (v - 1)) (xs ++ ys) [] = nth (Z.to_nat (v - 1)) xs []) by (intros; apply app_nth1; lia).
    split; [exact H1|]. split; intros v Hv; rewrite !E by lia; [apply H2|apply H3]; exact Hv.
  Qed.

  Section Instance.
    Variable p : gsblo Z.
    Variable epsilon : Q.
    Variable T : Z.
    Variable n : Z -> Z.
    Hypothesis Hcount : forall t, 1 <= t <= T -> determine_sub_time_slots p t epsilon = Ok (n t) /\ 0 < n t.
    Hypothesis Hload : T <= Z.of_nat (length (b_load p)).
    Notation q := (sub_problem p n T).
    Notation U t := (Z.of_nat (length (sub_slots n t))).
    Hypothesis HI : balanced_instance minimize q (U T).

    Definition loads_of (t : Z) : list Z := map (fun t => match access (b_load p) t with Some l => l | None => 0 end) (sub_slots n t).
    Definition InvM (t : Z) (m : sblo_memory) : Prop :=
      bm_load m = loads_of t /\ bm_cost m = map (fun f => of_history (hist n f t)) (b_cost p) /\
      InvB minimize q (U t) (bm_xs m) (or_default (bm_prev m)).

    Lemma p_costs : Z.of_nat (length (b_cost p)) = b_d p /\ 0 < b_d p.
    Proof.
      pose proof (bi_costs _ _ _ HI) as H. cbn [sub_problem b_cost b_d] in H. rewrite map_length in H. split; [exact H|].
      apply (bi_form _ _ _ HI).
    Qed.

    Lemma InvM_init : InvM 0 (sblo_default (b_d p)).
    Proof.
      split; [reflexivity|]. split.
      - cbn [sblo_default bm_cost]. change (of_history (hist n _ 0)) with (@cf_empty Q unit dc_failure).
        destruct p_costs as [H _]. rewrite <- H, Nat2Z.id. clear. induction (b_cost p) as [|f l IH]; [reflexivity|]. cbn. f_equal. exact IH.
      - apply InvB_init.
    Qed.

    Lemma modify_ok t m : 0 <= t < T -> InvM t m ->
      exists q', modify_problem (sblo_at p (t + 1)) (bm_load m) (bm_cost m) (t + 1) (n (t + 1)) (U t + 1) (U (t + 1)) = Ok q' /\
        b_d q' = b_d p /\ b_tend q' = U t + 1 /\ b_bounds q' = b_bounds p /\ b_switching q' = b_switching p /\
        b_load q' = loads_of (t + 1) /\ b_cost q' = map (fun f => of_history (hist n f (t + 1))) (b_cost p).
    Proof.
      intros Ht (HL & HC & _). destruct (Hcount (t + 1) ltac:(lia)) as [_ Hn]. pose proof (U_snoc n t ltac:(lia) ltac:(lia)) as EU.
      destruct p_costs as [Hlc Hd]. unfold modify_problem. cbn [sblo_at b_d b_bounds b_switching b_cost b_load].
      rewrite (proj2 (Z.eqb_eq _ _)) by lia. cbn [negb].
      set (g f := of_history (hist n f (t + 1))).
      assert (EO : omap (fun k => do raw <- from_option (nth_error (b_cost p) k); do f <- from_option (nth_error (bm_cost m) k);
                          Ok (cf_add f (U t + 1) (sub_slot_cost raw (t + 1) (n (t + 1)) (U t + 1) (U (t + 1))))) (seq 0 (Z.to_nat (b_d p)))
                   = Ok (map g (b_cost p))).
      { rewrite (omap_exact _ (fun k => nth k (map g (b_cost p)) [])).
        - f_equal. replace (Z.to_nat (b_d p)) with (length (map g (b_cost p))) by (rewrite map_length; unfold dim_cost in *; lia). apply map_nth_seq.
        - intros k Hk. apply in_seq in Hk. unfold dim_cost in *. destruct (nth_error_ex (b_cost p) k) as [f Hf]; [lia|]. rewrite Hf. cbn [from_option obind].
          rewrite HC, nth_error_map, Hf. cbn [option_map from_option obind]. rewrite <- of_history_snoc, <- hist_snoc by lia.
          f_equal. symmetry. exact (nth_error_nth _ _ [] (map_nth_error g k _ Hf)). }
      rewrite EO. cbn [obind].
      destruct (nth_error_ex (b_load p) (Z.to_nat (t + 1 - 1))) as [l Hl]; [lia|].
      assert (EL : access (b_load p) (t + 1) = Some l) by (rewrite access_in by lia; exact Hl).
      rewrite EL. cbn [from_option obind]. rewrite (proj2 (Z.ltb_ge _ _)) by lia.
      assert (ELL : bm_load m ++ repeat l (Z.to_nat (n (t + 1))) = loads_of (t + 1)).
      { unfold loads_of. rewrite sub_slots_snoc by lia. rewrite map_app, HL. f_equal. rewrite repeat_map, EL. reflexivity. }
      rewrite ELL. unfold loads_of at 1. rewrite map_length, Z.eqb_refl. cbn [negb].
      eexists. split; [reflexivity|]. cbn [b_d b_tend b_bounds b_switching b_load b_cost].
      repeat split. rewrite HC, skipn_all2 by (rewrite map_length; unfold dim_cost in *; lia). apply app_nil_r.
    Qed.

    Lemma lb_step t xs m : 0 <= t < T -> InvM t m ->
      exists x m' u, sblo_lb minimize sched epsilon (mkOnline (sblo_at p (t + 1)) 0) (t + 1) xs m = Ok (x, Some m') /\ InvM (t + 1) m' /\
        (exists ys, bm_xs m' = bm_xs m ++ ys) /\
        first_least_slot minimize q (bm_xs m') (U t + 1) (U (t + 1)) u /\ nth_error (bm_xs m') (Z.to_nat (u - 1)) = Some x.
    Proof.
      intros Ht HM. destruct (Hcount (t + 1) ltac:(lia)) as [EN Hn]. pose proof (U_snoc n t ltac:(lia) ltac:(lia)) as EU.
      destruct (modify_ok t m Ht HM) as (q' & EM & A & E & B & S & L & C).
      pose proof HM as (HL & _ & HB).
      assert (HU : U (t + 1) <= U T) by (apply U_mono; lia).
      assert (AG : agrees_upto q' q (U (t + 1))) by (apply modified_agrees; auto; lia).
      destruct (algb_stream minimize sched HX q (U T) HI _ q' (U t) (U (t + 1)) (bm_xs m) (bm_prev m) eq_refl ltac:(lia) AG E HB)
        as (ys & m' & ES & HB').
      pose proof HB' as (_ & HLz & _). pose proof HLz as ((HLx & HFx) & _).
      set (xs' := bm_xs m ++ ys) in *.
      assert (HE : forall v, U t + 1 <= v <= U (t + 1) -> exists x r, access xs' v = Some x /\
        sblo_hit valZ minimize (sblo_at q' (U (t + 1))) v x = Ok r /\ c_cost r = hitting minimize q v (nth (Z.to_nat (v - 1)) xs' [])).
      { intros v Hv. destruct (nth_error_ex xs' (Z.to_nat (v - 1))) as [x Hx]; [lia|].
        assert (HFv : feasible_config (b_bounds q) x) by (eapply Forall_forall; [exact HFx|]; eapply nth_error_In; exact Hx).
        destruct (bi_hit _ _ _ HI v x ltac:(lia) HFv) as [r Hr]. exists x, r. split; [rewrite access_in by lia; exact Hx|].
        assert (Eh : sblo_hit valZ minimize (sblo_at q' (U (t + 1))) v x = sblo_hit valZ minimize q v x).
        { apply (hit_agrees minimize HX); [lia|]. eapply agrees_trans; [apply agrees_at_slot|]. apply AG. lia. }
        split; [rewrite Eh; exact Hr|]. rewrite (nth_error_nth xs' _ [] Hx). unfold hitting. rewrite Hr. reflexivity. }
      set (c v := hitting minimize q v (nth (Z.to_nat (v - 1)) xs' [])) in *.
      destruct (least_slot_ok (sblo_at q' (U (t + 1))) xs' c (U t + 1) (Z.to_nat (n (t + 1) - 1)) (U t + 1) (U t + 1)) as (u & EL & Hu & H1 & H2);
        try (intros; lia).
      { intros v Hv. apply HE. lia. }
      replace (U t + 1 + Z.of_nat (Z.to_nat (n (t + 1) - 1))) with (U (t + 1)) in * by lia.
      destruct (nth_error_ex xs' (Z.to_nat (u - 1))) as [x Hx]; [lia|].
      exists x. eexists. exists u. split; [|split; [|split; [|split]]].
      - unfold sblo_lb. cbn [on_w on_p]. change (negb (0 =? 0)) with false. cbn match.
        change (determine_sub_time_slots (sblo_at p (t + 1)) (t + 1) epsilon) with (determine_sub_time_slots p (t + 1) epsilon).
        rewrite EN. cbn [obind].
        assert (ELen : Z.of_nat (length (bm_load m)) = U t) by (rewrite HL; unfold loads_of; rewrite map_length; reflexivity).
        rewrite !ELen. replace (U t + 1 + n (t + 1) - 1) with (U (t + 1)) by lia. rewrite EM. cbn [obind].
        rewrite ES. unfold determine_config. cbn [on_p].
        destruct (HE (U t + 1) ltac:(lia)) as (x0 & r0 & E0 & Er0 & Ec0). rewrite E0. cbn [from_option obind]. rewrite Er0. cbn [obind].
        rewrite Ec0. change (hitting minimize q (U t + 1) (nth (Z.to_nat (U t + 1 - 1)) xs' [])) with (c (U t + 1)).
        rewrite EL. cbn [obind fst]. rewrite access_in by lia. rewrite Hx. cbn [from_option obind]. reflexivity.
      - split; [exact L|]. split; [exact C|]. exact HB'.
      - exists ys. reflexivity.
      - split; [exact Hu|]. split; [exact H1|exact H2].
      - exact Hx.
    Qed.

    Definition or_default_m (m : option sblo_memory) : sblo_memory := match m with Some m => m | None => sblo_default (b_d p) end.

    (** The run after [t] slots. *)
    Definition RunM (t : Z) (xs : list (list Z)) (m : option sblo_memory) : Prop :=
      InvM t (or_default_m m) /\ Z.of_nat (length xs) = t /\
      forall s, 1 <= s <= t -> exists u, first_least_slot minimize q (bm_xs (or_default_m m)) (U (s - 1) + 1) (U s) u /\
        nth_error xs (Z.to_nat (s - 1)) = nth_error (bm_xs (or_default_m m)) (Z.to_nat (u - 1)).

    Lemma run_steps k : forall t xs m, t + Z.of_nat k <= T -> RunM t xs m ->
      exists xs' m', sblo_steps minimize sched epsilon p k xs m = Ok (xs', m') /\ RunM (t + Z.of_nat k) xs' m' /\ (0 < Z.of_nat k -> m' <> None).
    Proof.
      induction k as [|k IH]; intros t xs m Hk HR.
      - exists xs, m. split; [reflexivity|]. rewrite Z.add_0_r. split; [exact HR|]. lia.
      - pose proof HR as (HM & HLx & HS). cbn [sblo_steps]. rewrite HLx.
        destruct (lb_step t xs (or_default_m m) ltac:(lia) HM) as (x & m1 & u & E & HM1 & (ys & EY) & HF & Hx).
        unfold or_default_m in E. rewrite E. cbn [obind fst snd].
        destruct (IH (t + 1) (xs ++ [x]) (Some m1)) as (xs' & m' & E' & HR' & HN); [lia| |].
        + split; [exact HM1|]. split; [rewrite app_length; cbn [length]; lia|]. intros s Hs. cbn [or_default_m].
          destruct (Z.eq_dec s (t + 1)) as [->|Hne].
          * exists u. replace (t + 1 - 1) with t by lia. split; [exact HF|]. rewrite Hx.
            rewrite nth_error_app2 by lia. replace (Z.to_nat t - length xs)%nat with 0%nat by lia. reflexivity.
          * destruct (HS s ltac:(lia)) as (v & HFv & Ev). exists v. rewrite EY.
            assert (Hlen : Z.of_nat (length (bm_xs (or_default_m m))) = U t) by (destruct HM as (_ & _ & _ & ((HLm & _) & _) & _); exact HLm).
            pose proof (U_mono n s t ltac:(lia)).
            pose proof HFv as (Hv & _).
            split; [apply first_least_app; [lia|lia|exact HFv]|]. rewrite nth_error_app1 by lia. rewrite Ev.
            rewrite nth_error_app1 by lia. reflexivity.
        + exists xs', m'. split; [exact E'|]. replace (t + Z.of_nat (S k)) with (t + 1 + Z.of_nat k) by lia. split; [exact HR'|].
          intros _. destruct k as [|k]; [|apply HN; lia]. cbn [sblo_steps] in E'. injection E' as _ <-. discriminate.
    Qed.

    Lemma lb_run : 1 <= T ->
      exists xs m ups, sblo_run minimize sched epsilon p (Z.to_nat T) = Ok (xs, Some m) /\
        feasible_schedule T (b_bounds p) xs /\
        bm_load m = b_load q /\ lazy_schedule minimize q (U T) ups (bm_xs m) /\
        forall t, 1 <= t <= T -> exists u, first_least_slot minimize q (bm_xs m) (U (t - 1) + 1) (U t) u /\
          nth_error xs (Z.to_nat (t - 1)) = nth_error (bm_xs m) (Z.to_nat (u - 1)).
    Proof.
      intros HT. destruct (run_steps (Z.to_nat T) 0 [] None) as (xs & m & E & (HM & HLx & HS) & HN).
      - lia.
      - split; [apply InvM_init|]. split; [reflexivity|]. intros; lia.
      - destruct m as [m|]; [|exfalso; apply HN; [lia|reflexivity]]. cbn [or_default_m] in *.
        replace (0 + Z.of_nat (Z.to_nat T)) with T in * by lia. destruct HM as (HL & _ & _ & HLz & _).
        exists xs, m, (ab_init (or_default (bm_prev m))). split; [exact E|]. split; [|split; [exact HL|split; [exact HLz|exact HS]]].
        split; [exact HLx|]. apply Forall_forall. intros x Hx. apply In_nth_error in Hx as [i Hi].
        assert (Hi' : (i < length xs)%nat) by (eapply nth_error_lt; exact Hi).
        destruct (HS (Z.of_nat i + 1) ltac:(lia)) as (u & HF & Eu). replace (Z.to_nat (Z.of_nat i + 1 - 1)) with i in Eu by lia. rewrite Hi in Eu.
        destruct HLz as ((_ & HFx) & _). eapply Forall_forall in HFx; [exact HFx|]. eapply nth_error_In. symmetry. exact Eu.
    Qed.
  End Instance.
End Runs.
