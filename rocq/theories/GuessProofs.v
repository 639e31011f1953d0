(** Proofs for GuessProps.v. *)
From Coq Require Import Lia Lqa.
From Verif Require Import NumLemmas OptimizeProofs LoadModel LoadSpec LoadProofs LoadObjective CostSpec CostProofs ConvertObjective PiecewiseProofs GuessSpec.
From Verif Require Import ProblemModel.
Local Open Scope Z_scope.

Lemma nth_error_blocks {A B} (f : A -> B) e : forall l k i, (i < e)%nat ->
  nth_error (flat_map (fun j => repeat (f j) e) l) (k * e + i) = option_map f (nth_error l k).
Proof.
  induction l as [|a l IH]; intros k i Hi.
  - cbn [flat_map]. destruct k; destruct (_ + i)%nat; reflexivity.
  - cbn [flat_map]. destruct k as [|k].
    + rewrite nth_error_app1 by (rewrite repeat_length; lia). cbn [nth_error option_map Nat.mul Nat.add].
      apply nth_error_repeat. exact Hi.
    + rewrite nth_error_app2 by (rewrite repeat_length; lia). rewrite repeat_length.
      replace (S k * e + i - e)%nat with (k * e + i)%nat by lia. cbn [nth_error]. apply IH. exact Hi.
Qed.

Lemma blocks_length {A B} (f : A -> B) e l : length (flat_map (fun j => repeat (f j) e) l) = (length l * e)%nat.
Proof. induction l as [|a l IH]; [reflexivity|]. cbn [flat_map length]. rewrite app_length, repeat_length, IH. lia. Qed.

Lemma nth_error_removelast {A} : forall (l : list A) k, (k < length l - 1)%nat -> nth_error (removelast l) k = nth_error l k.
Proof.
  induction l as [|a l IH]; intros k Hk; [cbn in Hk; lia|].
  destruct l as [|b l]; [cbn in Hk; lia|].
  change (removelast (a :: b :: l)) with (a :: removelast (b :: l)).
  destruct k as [|k]; [reflexivity|]. cbn [nth_error]. apply IH. cbn [length] in *. lia.
Qed.

Lemma removelast_length {A} (l : list A) : length (removelast l) = (length l - 1)%nat.
Proof.
  induction l as [|a [|b l] IH]; [reflexivity|reflexivity|].
  change (removelast (a :: b :: l)) with (a :: removelast (b :: l)). cbn [length] in *. lia.
Qed.

Lemma busy_zero {T} (v : value T) j : (0 <= v_toQ v j)%Q -> Qeq_bool (v_toQ v j) 0 = negb (busy v j).
Proof.
  intros H. unfold busy. destruct (Qltb 0 (v_toQ v j)) eqn:E.
  - apply Qltb_iff in E. cbn. apply Bool.not_true_iff_false. rewrite Qeq_bool_iff. lra.
  - apply Qltb_false in E. cbn. apply Qeq_bool_iff. lra.
Qed.

Definition share_of {T} (v : value T) (val : Q) (j : T) : Q := if busy v j then val else 0%Q.

Lemma guess_busy {T} (v : value T) e s x : Forall (fun j => 0 <= v_toQ v j)%Q x -> (0 < busy_types v x)%nat ->
  initial_guess v e s x =
  flat_map (fun j => repeat (share_of v (1 / (inject_Z (Z.of_nat (busy_types v x)) * inject_Z (Z.of_nat e)))%Q j) e) (removelast x).
Proof.
  intros Hx Hn. unfold initial_guess. fold (busy_types v x).
  change (length (filter (fun j => Qltb 0 (v_toQ v j)) x)) with (busy_types v x).
  destruct (busy_types v x =? 0)%nat eqn:E; [apply Nat.eqb_eq in E; lia|].
  rewrite !flat_map_concat_map. f_equal. apply map_ext_in. intros j Hj. f_equal.
  assert (Hj' : In j x).
  { destruct x as [|a x]; [destruct Hj|]. rewrite (app_removelast_last a) by discriminate. apply in_or_app. left. exact Hj. }
  rewrite Forall_forall in Hx. rewrite (busy_zero v j (Hx j Hj')). unfold share_of. destruct (busy v j); reflexivity.
Qed.

Lemma unit_part (n : nat) : (0 < n)%nat -> (0 <= 1 / inject_Z (Z.of_nat n) <= 1)%Q.
Proof.
  intros H.
  assert (E : (1 <= inject_Z (Z.of_nat n))%Q). { change 1%Q with (inject_Z 1). rewrite <- Zle_Qle. lia. }
  split.
  - apply Qle_shift_div_l; lra.
  - apply Qle_shift_div_r; lra.
Qed.

Lemma inject_nat_mult a b : (inject_Z (Z.of_nat a) * inject_Z (Z.of_nat b) == inject_Z (Z.of_nat (a * b)))%Q.
Proof. rewrite Nat2Z.inj_mul. rewrite inject_Z_mult. reflexivity. Qed.

(** The starting point: its shape, its bounds and what it spares. *)
Lemma guess_bounds {T} (v : value T) (d e : nat) (x : list T) :
  length x = d -> (0 < d)%nat -> (0 < e)%nat -> Forall (fun j => 0 <= v_toQ v j)%Q x ->
  length (initial_guess v e (d * e - e) x) = (d * e - e)%nat /\
  Forall (fun z => 0 <= z <= 1)%Q (initial_guess v e (d * e - e) x).
Proof.
  intros Hl Hd He Hx.
  assert (Hbl : length (removelast x) = (d - 1)%nat) by (rewrite removelast_length; lia).
  assert (Hde : (0 < d * e)%nat) by (apply Nat.mul_pos_pos; assumption).
  destruct (Nat.eq_dec (busy_types v x) 0) as [E|E].
  - unfold initial_guess. change (length (filter (fun j => Qltb 0 (v_toQ v j)) x)) with (busy_types v x).
    rewrite E. cbn [Nat.eqb]. split; [apply repeat_length|].
    assert (B : (0 <= 1 / (inject_Z (Z.of_nat (d * e - e)) + inject_Z (Z.of_nat e)) <= 1)%Q).
    { rewrite <- inject_Z_plus, <- Nat2Z.inj_add. apply unit_part. nia. }
    apply Forall_forall. intros z Hz. apply repeat_spec in Hz. subst z. exact B.
  - rewrite (guess_busy v e _ x Hx) by lia.
    rewrite blocks_length, Hbl. split; [nia|].
    apply Forall_forall. intros z Hz. apply in_flat_map in Hz. destruct Hz as (j & _ & Hz). apply repeat_spec in Hz. subst z.
    unfold share_of. destruct (busy v j); [|lra]. rewrite inject_nat_mult. apply unit_part. nia.
Qed.

Lemma apply_precision_0 : (apply_precision 0 == 0)%Q.
Proof. reflexivity. Qed.

Lemma guess_at {T} (v : value T) (d e : nat) (x : list T) k i j :
  length x = d -> (0 < e)%nat -> Forall (fun j => 0 <= v_toQ v j)%Q x -> (0 < busy_types v x)%nat ->
  (k < d - 1)%nat -> (i < e)%nat -> nth_error x k = Some j ->
  nth_error (map apply_precision (initial_guess v e (d * e - e) x)) (k * e + i) =
  Some (apply_precision (share_of v (1 / (inject_Z (Z.of_nat (busy_types v x)) * inject_Z (Z.of_nat e))) j)).
Proof.
  intros Hl He Hx Hn Hk Hi Hj.
  rewrite (guess_busy v e _ x Hx Hn), nth_error_map, nth_error_blocks by exact Hi.
  rewrite nth_error_removelast by lia. rewrite Hj. reflexivity.
Qed.

Lemma guess_spares {T} (v : value T) (d e : nat) (x : list T) lambda k i j :
  length x = d -> (0 < e)%nat -> Forall (fun j => 0 <= v_toQ v j)%Q x -> (0 < busy_types v x)%nat ->
  (k < d - 1)%nat -> (i < e)%nat -> nth_error x k = Some j -> busy v j = false ->
  exists q, get_fraction (new_fractions (initial_guess v e (d * e - e) x) d e) k i lambda = Ok q /\ (q == 0)%Q.
Proof.
  intros Hl He Hx Hn Hk Hi Hj Hb.
  unfold get_fraction, new_fractions. cbn [f_d f_zs f_e]. destruct d as [|d']; [lia|].
  assert (C : Nat.compare k d' = Lt) by (apply Nat.compare_lt_iff; lia). rewrite C.
  rewrite (guess_at v (S d') e x k i j) by (assumption || lia).
  cbn [from_option]. eexists. split; [reflexivity|]. unfold share_of. rewrite Hb. reflexivity.
Qed.

(** Sum of shares. *)
Lemma shares_sum {T} (v : value T) val (l : list T) :
  (Qsum (map (share_of v val) l) == inject_Z (Z.of_nat (busy_types v l)) * val)%Q.
Proof.
  unfold busy_types. induction l as [|a l IH]; [cbn; ring|].
  cbn [map filter Qsum]. rewrite IH. unfold share_of at 1. destruct (busy v a); [|ring].
  cbn [length]. rewrite Nat2Z.inj_succ. unfold Z.succ. rewrite inject_Z_plus. change (inject_Z 1) with 1%Q. ring.
Qed.

Lemma busy_split {T} (v : value T) (l : list T) d : l <> [] ->
  busy_types v l = (busy_types v (removelast l) + if busy v (last l d) then 1 else 0)%nat.
Proof.
  intros H. rewrite (app_removelast_last d H) at 1. unfold busy_types. rewrite filter_app, app_length. f_equal.
  cbn [filter]. destruct (busy v (last l d)); reflexivity.
Qed.

Lemma last_nth_error {A} (l : list A) d : l <> [] -> nth_error l (length l - 1) = Some (last l d).
Proof.
  intros H. rewrite (app_removelast_last d H) at 1. rewrite nth_error_app2 by (rewrite removelast_length; lia).
  rewrite removelast_length. replace (_ - _)%nat with O by lia. reflexivity.
Qed.

Lemma equal_load_part (lambda : list Q) l0 i li :
  Forall (fun l => l == l0)%Q lambda -> nth_error lambda i = Some li -> (0 < load_total lambda)%Q ->
  (li / load_total lambda == 1 / inject_Z (Z.of_nat (length lambda)))%Q.
Proof.
  intros F Hi Hp.
  assert (S : (load_total lambda == inject_Z (Z.of_nat (length lambda)) * l0)%Q).
  { clear Hi Hp. unfold load_total. induction F as [|a l Ha F IH]; [cbn; ring|].
    cbn [Qsum length]. rewrite IH, Ha, Nat2Z.inj_succ. unfold Z.succ. rewrite inject_Z_plus. change (inject_Z 1) with 1%Q. ring. }
  assert (E : (li == l0)%Q). { rewrite Forall_forall in F. apply F. eapply nth_error_In; eauto. }
  rewrite S in *. rewrite E.
  assert (N : ~ (inject_Z (Z.of_nat (length lambda)) == 0)%Q). { intros N. rewrite N in Hp. lra. }
  assert (M : ~ (l0 == 0)%Q). { intros M. rewrite M in Hp. lra. }
  field. split; assumption.
Qed.

Lemma guess_even {T} (v : value T) (d e : nat) (x : list T) lambda l0 k i j :
  length x = d -> (0 < e)%nat -> length lambda = e -> Forall (fun j => 0 <= v_toQ v j)%Q x -> (0 < busy_types v x)%nat ->
  Forall (fun l => l == l0)%Q lambda -> (0 < load_total lambda)%Q ->
  hundredths (even_part 1 (busy_types v x * e)) ->
  nth_error x k = Some j -> (i < e)%nat ->
  exists q, get_fraction (new_fractions (initial_guess v e (d * e - e) x) d e) k i lambda = Ok q /\
    (q == if busy v j then even_part 1 (busy_types v x * e) else 0)%Q.
Proof.
  intros Hl He Hlam Hx Hn Heq Hpos Hh Hj Hi.
  assert (Hk : (k < d)%nat). { rewrite <- Hl. apply nth_error_Some. congruence. }
  set (val := (1 / (inject_Z (Z.of_nat (busy_types v x)) * inject_Z (Z.of_nat e)))%Q).
  assert (Ev : (val == even_part 1 (busy_types v x * e))%Q).
  { unfold val, even_part. rewrite inject_nat_mult. reflexivity. }
  assert (Ea : forall b, (apply_precision (share_of v val b) == share_of v val b)%Q).
  { intros b. unfold share_of. destruct (busy v b); [|reflexivity]. apply ap_fix.
    destruct Hh as [z Hz]. exists z. rewrite Ev. exact Hz. }
  unfold get_fraction, new_fractions. cbn [f_d f_zs f_e]. destruct d as [|d']; [lia|].
  destruct (Nat.compare k d') eqn:C.
  - apply Nat.compare_eq_iff in C. subst k.
    destruct (Qltb 0 (load_total lambda)) eqn:P; [|apply Qltb_false in P; lra].
    destruct (nth_error lambda i) as [li|] eqn:Eli; [|apply nth_error_None in Eli; lia].
    cbn [from_option obind].
    assert (O : omap (fun b => from_option (nth_error (map apply_precision (initial_guess v e (S d' * e - e) x)) (b * e + i)))
                  (seq 0 d') = Ok (map (fun b => apply_precision (share_of v val b)) (removelast x))).
    { rewrite <- (firstn_all (removelast x)). rewrite removelast_length. replace (length x - 1)%nat with d' by lia.
      assert (Hd : (d' <= length x - 1)%nat) by lia.
      clear Hj Hk.
      assert (G : forall m, (m <= d')%nat ->
         omap (fun b => from_option (nth_error (map apply_precision (initial_guess v e (S d' * e - e) x)) (b * e + i))) (seq 0 m)
         = Ok (map (fun b => apply_precision (share_of v val b)) (firstn m (removelast x)))).
      { induction m as [|m IH]; intros Hm; [reflexivity|].
        rewrite seq_S. cbn [Nat.add].
        destruct (nth_error x m) as [b|] eqn:Eb; [|apply nth_error_None in Eb; lia].
        assert (Er : nth_error (removelast x) m = Some b) by (rewrite nth_error_removelast by lia; exact Eb).
        rewrite (firstn_snoc _ _ _ Er), map_app.
        rewrite omap_app, IH by lia. cbn [omap obind map].
        rewrite (guess_at v (S d') e x m i b) by (assumption || lia). reflexivity. }
      apply G. lia. }
    rewrite O. cbn [obind]. eexists. split; [reflexivity|].
    assert (Hne : x <> []) by (intros ->; discriminate).
    pose proof (last_nth_error x j Hne) as L. rewrite Hl in L. replace (S d' - 1)%nat with d' in L by lia.
    rewrite Hj in L. injection L as L.
    pose proof (busy_split v x j Hne) as B. rewrite <- L in B.
    rewrite (equal_load_part lambda l0 i li Heq Eli Hpos), Hlam.
    assert (S0 : (Qsum (map (fun b => apply_precision (share_of v val b)) (removelast x)) == inject_Z (Z.of_nat (busy_types v (removelast x))) * val)%Q).
    { rewrite <- shares_sum. clear -Ea. induction (removelast x) as [|a l IH]; [reflexivity|]. cbn [map Qsum]. rewrite IH, Ea. reflexivity. }
    rewrite S0.
    assert (Ne : ~ (inject_Z (Z.of_nat e) == 0)%Q). { change 0%Q with (inject_Z 0). rewrite inject_Z_injective. lia. }
    assert (Nn : ~ (inject_Z (Z.of_nat (busy_types v x)) == 0)%Q). { change 0%Q with (inject_Z 0). rewrite inject_Z_injective. lia. }
    assert (E1 : (1 / inject_Z (Z.of_nat e) == inject_Z (Z.of_nat (busy_types v x)) * val)%Q).
    { unfold val. field. split; assumption. }
    rewrite E1. destruct (busy v j).
    + rewrite <- Ev. rewrite B, Nat2Z.inj_add, inject_Z_plus. change (inject_Z (Z.of_nat 1)) with 1%Q. ring.
    + rewrite B, Nat2Z.inj_add, inject_Z_plus. change (inject_Z (Z.of_nat 0)) with 0%Q. ring.
  - apply Nat.compare_lt_iff in C.
    rewrite (guess_at v (S d') e x k i j) by (assumption || lia). cbn [from_option].
    eexists. split; [reflexivity|]. fold val. rewrite Ea. unfold share_of. destruct (busy v j); [exact Ev|reflexivity].
  - apply Nat.compare_gt_iff in C. lia.
Qed.

(** *** SBLO *)
Section Balanced.
  Context {T : Type}.
  Variable v : value T.
  Variable p : gsblo T.
  Variable t : Z.
  Variable x : list T.
  Hypothesis Hd : b_d p = Z.of_nat (length x).
  Hypothesis Hx : Forall (fun j => 0 <= v_toQ v j)%Q x.

  (** The solver starts with an objective it can evaluate and never answers worse. *)
  Lemma improved_from_start minimize d e (objective : objective_fn T) lambda c o :
    improves_start minimize ->
    objective t x lambda (new_fractions (initial_guess v e (d * e - e) x) d e) = Ok (ROk o) ->
    apply_loads v minimize d e objective lambda t x = Ok c ->
    ele (c_cost c) (obj_total o).
  Proof.
    intros Hm Ho H. unfold apply_loads in H.
    destruct (negb _); [discriminate|]. destruct (_ <? _)%nat; [discriminate|].
    destruct (negb _) in H; [discriminate|].
    destruct (minimize _ _ _ _) as [[zs val]|] eqn:E; cbn [from_option obind fst snd] in H; [|discriminate].
    assert (L : ele val (obj_total o)). { eapply Hm; [exact E|]. cbn beta. rewrite Ho. reflexivity. }
    destruct (objective t x lambda (new_fractions zs d e)) as [[[en re]|f]|?|]; cbn [obind] in H; try discriminate.
    - destruct (_ && _); [|discriminate]. injection H as <-. exact L.
    - injection H as <-. exact L.
  Qed.

  Lemma panic_from_start minimize d e (objective : objective_fn T) lambda :
    evaluates_start minimize ->
    objective t x lambda (new_fractions (initial_guess v e (d * e - e) x) d e) = Panic ->
    apply_loads v minimize d e objective lambda t x = Panic.
  Proof.
    intros Hm Ho. unfold apply_loads.
    destruct (negb _); [reflexivity|]. destruct (_ <? _)%nat; [reflexivity|].
    match goal with |- (if ?b then _ else _) = _ => destruct b; [reflexivity|] end.
    rewrite Hm; [reflexivity|]. cbn beta. rewrite Ho. reflexivity.
  Qed.

  Lemma sblo_hit_load minimize l : 1 <= t -> access (b_load p) t = Some l ->
    within_upper v (b_bounds p) x = Ok true ->
    sblo_hit v minimize p t x =
    apply_loads v minimize (length x) 1 (sblo_objective v p) [v_toQ v l] t x.
  Proof.
    intros Ht Hl Hw. unfold sblo_hit, call_certain_within. rewrite Hw. cbn [obind].
    rewrite loads_over_time by lia.
    destruct (t <? 1) eqn:E; [apply Z.ltb_lt in E; lia|].
    apply access_spec in Hl. destruct Hl as (_ & Hl).
    rewrite nth_error_map. rewrite Hl. cbn [option_map]. rewrite Hd, Nat2Z.id. reflexivity.
  Qed.

  Section Even.
    Variable g : nat -> Q -> Q.
    Variable L : Q.
    Hypothesis Hg : forall k q q', (q == q')%Q -> (g k q == g k q')%Q.
    Hypothesis Hcost : forall k j q, nth_error x k = Some j -> busy v j = true ->
      (q == even_part L (busy_types v x) / v_toQ v j)%Q -> exists f c,
      nth_error (b_cost p) k = Some f /\ call_mean unit_vmerge f t q = Ok c /\ eeq (c_cost c) (Fin (g k q)).
    Hypothesis HL : (0 < L)%Q.
    Hypothesis Hn : (0 < busy_types v x)%nat.
    Hypothesis Hh : hundredths (even_part 1 (busy_types v x)).

    Let z := new_fractions (initial_guess v 1 (length x * 1 - 1) x) (length x) 1.

    Lemma start_selected k j : nth_error x k = Some j ->
      exists q, select_loads z [L] k = Ok [q] /\ (q == if busy v j then even_part L (busy_types v x) else 0)%Q.
    Proof.
      intros Hj.
      destruct (guess_even v (length x) 1 x [L] L k 0 j) as (q & E & Hq); try reflexivity; try exact Hx; try exact Hn; try exact Hj; try lia.
      - repeat constructor.
      - unfold load_total. cbn [Qsum]. lra.
      - rewrite Nat.mul_1_r. exact Hh.
      - exists (L * q)%Q. split.
        + unfold select_loads. change (f_e z) with 1%nat. cbn [seq omap nth_error from_option obind].
          unfold z. rewrite E. reflexivity.
        + rewrite Hq. rewrite Nat.mul_1_r. destruct (busy v j); [|ring].
          unfold even_part. field.
          change 0%Q with (inject_Z 0). rewrite inject_Z_injective. lia.
    Qed.

    Let entry (k : nat) : outcome (result dc_objective) :=
      do loads <- select_loads z [L] k;
      do total_load <- from_option (nth_error loads 0);
      do xk <- from_option (nth_error x k);
      rbind (safe_balancing (v_toQ v xk) total_load
               (do f <- from_option (nth_error (b_cost p) k);
                do c <- call_mean unit_vmerge f t (total_load / v_toQ v xk)%Q;
                Ok (ROk (escale (v_toQ v xk) (c_cost c)))))
            (fun e => Ok (ROk (e, Fin 0))).
    Let paid_k (k : nat) : Q :=
      match nth_error x k with
      | Some j => if busy v j then (v_toQ v j * g k (even_part L (busy_types v x) / v_toQ v j))%Q else 0%Q
      | None => 0%Q
      end.

    Lemma start_entry k : (k < length x)%nat -> exists o, entry k = Ok (ROk o) /\ eeq (obj_total o) (Fin (paid_k k)).
    Proof.
      intros Hk. unfold entry, paid_k.
      destruct (nth_error x k) as [j|] eqn:Ej; [|apply nth_error_None in Ej; lia].
      destruct (start_selected k j Ej) as (q & E & Hq). rewrite E. cbn [obind from_option nth_error].
      unfold safe_balancing. unfold busy in Hq |- *.
      destruct (Qltb 0 (v_toQ v j)) eqn:B.
      - destruct (Hcost k j (q / v_toQ v j)%Q Ej B) as (f & c & Ef & Ec & Hc); [rewrite Hq; reflexivity|]. rewrite Ef. cbn [from_option obind].
        rewrite Ec. cbn [obind rbind]. eexists. split; [reflexivity|].
        unfold obj_total. cbn [fst snd].
        apply Qltb_iff in B.
        destruct (c_cost c) as [y|]; [|contradiction]. cbn [eeq] in Hc.
        cbv [escale eadd eeq]. rewrite Hc. rewrite (Hg k (q / v_toQ v j) (even_part L (busy_types v x) / v_toQ v j)).
        + ring.
        + rewrite Hq. reflexivity.
      - assert (F : Qltb 0 q = false) by (apply Qltb_false; lra). rewrite F.
        assert (Z : Qeq_bool q 0 = true) by (apply Qeq_bool_iff; exact Hq). rewrite Z.
        cbn [rbind obind]. eexists. split; [reflexivity|]. reflexivity.
    Qed.

    Lemma start_value : exists o, sblo_objective v p t x [L] z = Ok (ROk o) /\ eeq (obj_total o) (Fin (even_cost v g L x)).
    Proof.
      unfold sblo_objective. rewrite Hd, Z.eqb_refl. cbn [negb]. rewrite Nat2Z.id.
      change (exists o, sum_first obj_add (Fin 0, Fin 0) (map entry (seq 0 (length x))) = Ok (ROk o) /\
        eeq (obj_total o) (Fin (Qsum (map paid_k (seq 0 (length x)))))).
      assert (A : forall ks acc a, Forall (fun k => k < length x)%nat ks -> eeq (obj_total acc) (Fin a) ->
        exists o, sum_results obj_add (map entry ks) acc = Ok (ROk o) /\ eeq (obj_total o) (Fin (a + Qsum (map paid_k ks)))).
      { induction ks as [|k ks IH]; intros acc a F Ha.
        - exists acc. split; [reflexivity|]. cbn [map Qsum]. eapply eeq_trans; [exact Ha|]. cbn [eeq]. ring.
        - destruct (start_entry k (Forall_inv F)) as (o & Eo & Ho). cbn [map sum_results]. rewrite Eo. cbn [rbind obind].
          destruct (IH (obj_add acc o) (a + paid_k k)%Q (Forall_inv_tail F)) as (o' & Eo' & Ho').
          + destruct acc as [a1 a2], o as [o1 o2]. unfold obj_total, obj_add in *. cbn [fst snd] in *.
            destruct a1, a2, o1, o2; cbn [eadd eeq] in *; try contradiction. lra.
          + exists o'. split; [exact Eo'|]. eapply eeq_trans; [exact Ho'|]. cbn [map Qsum eeq]. ring. }
      assert (Hlen : (0 < length x)%nat). { destruct x; [cbn in Hn; lia|cbn; lia]. }
      assert (Es : seq 0 (length x) = 0%nat :: seq 1 (length x - 1)).
      { destruct (length x) as [|m]; [lia|]. cbn [seq]. do 2 f_equal. lia. }
      rewrite Es. cbn [map sum_first Qsum].
      destruct (start_entry 0) as (o & Eo & Ho); [exact Hlen|]. rewrite Eo. cbn [rbind obind].
      destruct (A (seq 1 (length x - 1)) o (paid_k 0)) as (o' & Eo' & Ho').
      - apply Forall_forall. intros k Hk. apply in_seq in Hk. lia.
      - exact Ho.
      - exists o'. split; [exact Eo'|exact Ho'].
    Qed.
  End Even.
End Balanced.

Lemma sblo_even {T} (v : value T) minimize (p : gsblo T) (g : nat -> Q -> Q) t x l c :
  lawful v -> improves_start minimize -> b_d p = Z.of_nat (length x) -> length (b_bounds p) = length x ->
  in_box v (b_bounds p) x -> access (b_load p) t = Some l -> (0 < v_toQ v l)%Q ->
  (forall k q q', (q == q')%Q -> (g k q == g k q')%Q) ->
  (forall k j q, nth_error x k = Some j -> busy v j = true ->
      (q == even_part (v_toQ v l) (busy_types v x) / v_toQ v j)%Q -> exists f c,
      nth_error (b_cost p) k = Some f /\ call_mean unit_vmerge f t q = Ok c /\ eeq (c_cost c) (Fin (g k q))) ->
  (0 < busy_types v x)%nat -> hundredths (even_part 1 (busy_types v x)) ->
  sblo_hit v minimize p t x = Ok c ->
  ele (c_cost c) (Fin (even_cost v g (v_toQ v l) x)).
Proof.
  intros Hv Hm Hd Hb Hbox Hl HL Hg Hc Hn Hh H.
  assert (Hx : Forall (fun j => 0 <= v_toQ v j)%Q x).
  { clear -Hbox. unfold in_box in Hbox. induction Hbox; constructor; tauto. }
  assert (Hw : within_upper v (b_bounds p) x = Ok true).
  { destruct (within_upper_spec v (b_bounds p) x (proj1 Hv) (eq_sym Hb)) as (b & E & S).
    rewrite E. f_equal. apply S. exact Hbox. }
  pose proof (proj1 (proj1 (access_spec _ _ _) Hl)) as Ht.
  rewrite (sblo_hit_load v p t x Hd minimize l Ht Hl Hw) in H.
  destruct (start_value v p t x Hd Hx g (v_toQ v l) Hg Hc HL Hn Hh) as (o & Eo & Ho).
  pose proof (improved_from_start v t x minimize (length x) 1 _ _ c o Hm Eo H) as L.
  rewrite Ho in L. exact L.
Qed.

(** *** All server types but the last have active servers *)
Lemma busy_all {T} (v : value T) (ys : list T) j : Forall (fun y => busy v y = true) ys -> busy v j = false ->
  busy_types v (ys ++ [j]) = length ys.
Proof.
  intros F B. unfold busy_types. rewrite filter_app. cbn [filter]. rewrite B, app_nil_r.
  f_equal. induction F as [|a l Ha F IH]; [reflexivity|]. cbn [filter]. rewrite Ha, IH. reflexivity.
Qed.

Lemma removelast_snoc {A} (l : list A) a : removelast (l ++ [a]) = l.
Proof. induction l as [|b l IH]; [reflexivity|]. cbn [app]. destruct l; [reflexivity|]. cbn [app removelast] in *. f_equal. exact IH. Qed.

Lemma blocks_one {A B} (f : A -> B) l : flat_map (fun j => repeat (f j) 1) l = map f l.
Proof. induction l as [|a l IH]; [reflexivity|]. cbn [flat_map map repeat app] in *. f_equal. Qed.

Section LastIdle.
  Context {T : Type}.
  Variable v : value T.
  Variable p : gsblo T.
  Variable t : Z.
  Variable ys : list T.
  Variable j : T.
  Variable L : Q.
  Hypothesis Hd : b_d p = Z.of_nat (length ys + 1).
  Hypothesis Hys : Forall (fun y => busy v y = true) ys.
  Hypothesis Hj : (v_toQ v j == 0)%Q.
  Hypothesis Hm : (0 < length ys)%nat.
  Hypothesis HL : (0 < L)%Q.
  Hypothesis Hcost : forall k q, (k < length ys)%nat -> exists f c,
    nth_error (b_cost p) k = Some f /\ call_mean unit_vmerge f t q = Ok c.

  Let x := ys ++ [j].
  Let r := apply_precision (1 / (inject_Z (Z.of_nat (length ys)) * inject_Z (Z.of_nat 1))).
  Let z := new_fractions (initial_guess v 1 (length x * 1 - 1) x) (length x) 1.

  Lemma idle_busy : busy v j = false.
  Proof. unfold busy. apply Qltb_false. lra. Qed.

  Lemma idle_start : z = mkFractions (repeat r (length ys)) (S (length ys)) 1.
  Proof.
    unfold z, new_fractions. f_equal.
    - unfold x. rewrite guess_busy.
      + rewrite removelast_snoc, (busy_all v ys j Hys idle_busy).
        rewrite (blocks_one (share_of v _)), map_map. unfold r.
        generalize (1 / (inject_Z (Z.of_nat (length ys)) * inject_Z (Z.of_nat 1)))%Q. intros q.
        clear -Hys. induction Hys as [|a l Ha F IH]; [reflexivity|]. cbn [map length repeat].
        unfold share_of at 1. rewrite Ha. f_equal. exact (IH F).
      + apply Forall_app. split.
        * eapply Forall_impl; [|exact Hys]. intros a Ha. unfold busy in Ha. apply Qltb_iff in Ha. lra.
        * constructor; [lra|constructor].
      + rewrite (busy_all v ys j Hys idle_busy). exact Hm.
    - unfold x. rewrite app_length. cbn. lia.
  Qed.

  Lemma repeat_sum q n : (Qsum (repeat q n) == inject_Z (Z.of_nat n) * q)%Q.
  Proof.
    induction n as [|n IH]; [cbn; ring|]. cbn [repeat Qsum]. rewrite IH, Nat2Z.inj_succ. unfold Z.succ.
    rewrite inject_Z_plus. change (inject_Z 1) with 1%Q. ring.
  Qed.

  Lemma idle_last : exists q, select_loads z [L] (length ys) = Ok [q] /\
    (q == L * (1 - inject_Z (Z.of_nat (length ys)) * r))%Q.
  Proof.
    rewrite idle_start. unfold select_loads. cbn [f_e seq omap nth_error from_option obind].
    unfold get_fraction. cbn [f_d f_zs f_e]. rewrite Nat.compare_refl.
    assert (P : Qltb 0 (load_total [L]) = true). { apply Qltb_iff. unfold load_total. cbn [Qsum]. lra. }
    rewrite P. cbn [nth_error from_option obind].
    assert (O : omap (fun k => from_option (nth_error (repeat r (length ys)) (k * 1 + 0))) (seq 0 (length ys)) = Ok (repeat r (length ys))).
    { generalize r. clear. intros r.
      assert (G : forall m n, (n + m <= length ys)%nat ->
        omap (fun k => from_option (nth_error (repeat r (length ys)) (k * 1 + 0))) (seq n m) = Ok (repeat r m)).
      { induction m as [|m IH]; intros n Hn; [reflexivity|]. cbn [seq omap repeat].
        rewrite nth_error_repeat by lia. cbn [from_option obind]. rewrite IH by lia. reflexivity. }
      apply G. lia. }
    rewrite O. cbn [obind]. eexists. split; [reflexivity|]. rewrite repeat_sum.
    unfold load_total. cbn [Qsum]. field. lra.
  Qed.

  Let entry (k : nat) : outcome (result dc_objective) :=
    do loads <- select_loads z [L] k;
    do total_load <- from_option (nth_error loads 0);
    do xk <- from_option (nth_error x k);
    rbind (safe_balancing (v_toQ v xk) total_load
             (do f <- from_option (nth_error (b_cost p) k);
              do c <- call_mean unit_vmerge f t (total_load / v_toQ v xk)%Q;
              Ok (ROk (escale (v_toQ v xk) (c_cost c)))))
          (fun e => Ok (ROk (e, Fin 0))).

  Lemma idle_entry k : (k < length ys)%nat -> exists o, entry k = Ok (ROk o).
  Proof.
    intros Hk. unfold entry. rewrite idle_start. unfold select_loads. cbn [f_e seq omap nth_error from_option obind].
    unfold get_fraction. cbn [f_d f_zs f_e].
    assert (C : Nat.compare k (length ys) = Lt) by (apply Nat.compare_lt_iff; exact Hk). rewrite C.
    rewrite nth_error_repeat by lia. cbn [from_option obind nth_error].
    unfold x. rewrite nth_error_app1 by exact Hk.
    destruct (nth_error ys k) as [y|] eqn:Ey; [|apply nth_error_None in Ey; lia]. cbn [from_option obind].
    unfold safe_balancing. rewrite Forall_forall in Hys. pose proof (Hys y (nth_error_In _ _ Ey)) as B. unfold busy in B.
    rewrite B. destruct (Hcost k (L * r / v_toQ v y)%Q Hk) as (f & c & Ef & Ec). rewrite Ef. cbn [from_option obind].
    rewrite Ec. cbn [obind rbind]. eauto.
  Qed.

  Lemma idle_objective : exists o, sblo_objective v p t x [L] z = rbind (entry (length ys)) (fun a => Ok (ROk (obj_add o a))).
  Proof.
    unfold sblo_objective.
    assert (Hx : length x = (length ys + 1)%nat) by (unfold x; rewrite app_length; reflexivity).
    rewrite Hx, Hd, Z.eqb_refl. cbn [negb]. rewrite Nat2Z.id.
    change (exists o, sum_first obj_add (Fin 0, Fin 0) (map entry (seq 0 (length ys + 1))) = rbind (entry (length ys)) (fun a => Ok (ROk (obj_add o a)))).
    rewrite Nat.add_1_r, seq_S. cbn [Nat.add].
    assert (A : forall ks acc, Forall (fun k => k < length ys)%nat ks -> exists o,
      sum_results obj_add (map entry (ks ++ [length ys])) acc = rbind (entry (length ys)) (fun a => Ok (ROk (obj_add o a)))).
    { induction ks as [|k ks IH]; intros acc F.
      - exists acc. cbn [app map sum_results]. reflexivity.
      - destruct (idle_entry k (Forall_inv F)) as (o & Eo). cbn [app map sum_results]. rewrite Eo. cbn [rbind obind].
        apply IH. exact (Forall_inv_tail F). }
    assert (Es : seq 0 (length ys) = 0%nat :: seq 1 (length ys - 1)).
    { destruct (length ys) as [|m]; [lia|]. cbn [seq]. do 2 f_equal. lia. }
    rewrite Es. cbn [app map sum_first].
    destruct (idle_entry 0 Hm) as (o & Eo). rewrite Eo. cbn [rbind obind]. apply A.
    apply Forall_forall. intros k Hk. apply in_seq in Hk. lia.
  Qed.

  Lemma idle_entry_last : exists q, (q == L * (1 - inject_Z (Z.of_nat (length ys)) * r))%Q /\
    entry (length ys) = rbind (safe_balancing (v_toQ v j) q
             (do f <- from_option (nth_error (b_cost p) (length ys));
              do c <- call_mean unit_vmerge f t (q / v_toQ v j)%Q;
              Ok (ROk (escale (v_toQ v j) (c_cost c)))))
          (fun e => Ok (ROk (e, Fin 0))).
  Proof.
    destruct idle_last as (q & E & Hq). exists q. split; [exact Hq|]. unfold entry. rewrite E.
    cbn [obind nth_error from_option]. unfold x. rewrite nth_error_app2 by lia. rewrite Nat.sub_diag. reflexivity.
  Qed.

  Lemma idle_round_down : (inject_Z (Z.of_nat (length ys)) * r < 1)%Q ->
    sblo_objective v p t x [L] z = Ok (RErr LoadToInactiveServer).
  Proof.
    intros Hr. destruct idle_objective as (o & ->). destruct idle_entry_last as (q & Hq & ->).
    pose proof idle_busy as B. unfold busy in B. unfold safe_balancing. rewrite B.
    assert (P : Qltb 0 q = true). { apply Qltb_iff. rewrite Hq. nra. }
    rewrite P. reflexivity.
  Qed.

  Lemma idle_round_up : (1 < inject_Z (Z.of_nat (length ys)) * r)%Q -> sblo_objective v p t x [L] z = Panic.
  Proof.
    intros Hr. destruct idle_objective as (o & ->). destruct idle_entry_last as (q & Hq & ->).
    pose proof idle_busy as B. unfold busy in B. unfold safe_balancing. rewrite B.
    assert (N : (q < 0)%Q). { rewrite Hq. nra. }
    assert (P : Qltb 0 q = false). { apply Qltb_false. lra. }
    assert (P0 : Qeq_bool q 0 = false). { apply Bool.not_true_iff_false. rewrite Qeq_bool_iff. lra. }
    rewrite P, P0. reflexivity.
  Qed.
End LastIdle.

Lemma rounded_share n : apply_precision (1 / (inject_Z (Z.of_nat n) * inject_Z (Z.of_nat 1))) = apply_precision (even_part 1 n).
Proof. apply ap_comp. unfold even_part. change (inject_Z (Z.of_nat 1)) with 1%Q. rewrite Qmult_1_r. reflexivity. Qed.

Lemma start_idle_last {T} (v : value T) (p : gsblo T) t ys j L :
  b_d p = Z.of_nat (length ys + 1) -> Forall (fun y => 0 < v_toQ v y)%Q ys -> (v_toQ v j == 0)%Q -> ys <> [] -> (0 < L)%Q ->
  (forall k q, (k < length ys)%nat -> exists f c, nth_error (b_cost p) k = Some f /\ call_mean unit_vmerge f t q = Ok c) ->
  let x := ys ++ [j] in
  let start := initial_guess v 1 (length ys) x in
  let total := (inject_Z (Z.of_nat (length ys)) * apply_precision (even_part 1 (length ys)))%Q in
  ((total < 1)%Q -> sblo_objective v p t x [L] (new_fractions start (length x) 1) = Ok (RErr LoadToInactiveServer)) /\
  ((1 < total)%Q -> sblo_objective v p t x [L] (new_fractions start (length x) 1) = Panic).
Proof.
  intros Hd Hys Hj Hne HL Hc x start total.
  assert (Hb : Forall (fun y => busy v y = true) ys).
  { eapply Forall_impl; [|exact Hys]. intros a Ha. unfold busy. apply Qltb_iff. exact Ha. }
  assert (Hm : (0 < length ys)%nat) by (destruct ys; [congruence|cbn; lia]).
  assert (El : (length x * 1 - 1 = length ys)%nat) by (unfold x; rewrite app_length; cbn; lia).
  unfold total, start. rewrite <- rounded_share. rewrite <- El. split; intros H.
  - apply idle_round_down; auto. rewrite <- El. exact H.
  - apply idle_round_up; auto. rewrite <- El. exact H.
Qed.

Lemma sblo_hit_panics {T} (v : value T) minimize (p : gsblo T) t ys j l :
  lawful v -> evaluates_start minimize -> b_d p = Z.of_nat (length ys + 1) ->
  in_box v (b_bounds p) (ys ++ [j]) -> access (b_load p) t = Some l -> (0 < v_toQ v l)%Q ->
  Forall (fun y => 0 < v_toQ v y)%Q ys -> (v_toQ v j == 0)%Q -> ys <> [] ->
  (forall k q, (k < length ys)%nat -> exists f c, nth_error (b_cost p) k = Some f /\ call_mean unit_vmerge f t q = Ok c) ->
  (1 < inject_Z (Z.of_nat (length ys)) * apply_precision (even_part 1 (length ys)))%Q ->
  sblo_hit v minimize p t (ys ++ [j]) = Panic.
Proof.
  intros Hv Hm Hd Hbox Hl HL Hys Hj Hne Hc Hr.
  assert (Hx : length (ys ++ [j]) = (length ys + 1)%nat) by (rewrite app_length; reflexivity).
  assert (Hb : length (ys ++ [j]) = length (b_bounds p)).
  { clear -Hbox. unfold in_box in Hbox. induction Hbox; [reflexivity|cbn; lia]. }
  assert (Hw : within_upper v (b_bounds p) (ys ++ [j]) = Ok true).
  { destruct (within_upper_spec v (b_bounds p) (ys ++ [j]) (proj1 Hv) Hb) as (b & E & S).
    rewrite E. f_equal. apply S. exact Hbox. }
  pose proof (proj1 (proj1 (access_spec _ _ _) Hl)) as Ht.
  rewrite (sblo_hit_load v p t (ys ++ [j])) with (l := l) by (auto; rewrite Hx; exact Hd).
  apply panic_from_start; [exact Hm|].
  destruct (start_idle_last v p t ys j (v_toQ v l) Hd Hys Hj Hne HL Hc) as [_ P]. specialize (P Hr).
  replace (length (ys ++ [j]) * 1 - 1)%nat with (length ys) by lia. exact P.
Qed.
