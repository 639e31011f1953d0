(** Concrete instances for the static solver, and behaviours of the code that deviate from
    the expected property. *)
From Coq Require Import Lia Lqa.
From Verif Require Import NumLemmas StaticModel StaticSpec StaticProofs StaticSeparable.
From Verif Require Import ProblemModel.
Local Open Scope Z_scope.

Definition um (a b : unit) : outcome unit := Ok tt.
Definition um' (a b : unit) : unit := tt.
Definition leaf (x : list Z) : split := Leaf.

Definition inst (d T : Z) (bounds : list (Z * Z)) (norm : list Z -> Q) (h : Z -> list Z -> ext) : gsco Z unit unit :=
  mkGSCO d T bounds (fun x => Ok (norm x)) (cf_new 1 (certain (fun t x => Ok (mkCost (h t x) MNone)))).

Lemma inst_costs d T bounds norm h : has_costs um (inst d T bounds norm h) h norm.
Proof.
  split; simpl.
  - intros t x Ht _. eexists. split.
    + unfold call_mean, inst, cf_new, cf_get, bt_insert, o_cost. cbn [filter fst].
      rewrite (proj2 (Z.leb_le 1 t)) by lia. cbn [andb Z.leb Z.compare Pos.compare Pos.compare_cont map last].
      cbn [from_option obind snd fst]. unfold single_mean, single_predictive, certain.
      rewrite (proj2 (Z.ltb_ge _ _)) by lia. cbn [obind length].
      replace ((t =? 1) && negb (1 =? 1)%nat) with false by (destruct (t =? 1); reflexivity).
      cbn [obind]. unfold cost_mean, emean. cbn [map length fold_left c_cost c_out].
      cbn [obind vertical_reduce ofold_outputs]. reflexivity.
    + cbn [c_cost]. destruct (h t x); simpl; auto. field.
  - intros x _. eexists. split; [reflexivity|]. reflexivity.
Qed.

(** Three slots, two dimensions, separable convex costs (some infinite) and a lower bound. *)
Definition sep_h (t : Z) (k : nat) (j : Z) : ext :=
  match k with
  | O => if j <? 2 then Inf else Fin (inject_Z ((j - 3) * (j - 3)))
  | _ => Fin (inject_Z (Z.abs (2 * t - 2 * j)))
  end.
Definition sep_p := inst 2 3 [(1, 5); (0, 4)] (manhattan [1; 2]%Q) (fun t => separable_sum (sep_h t) 0).

Example sep_p_wf : well_formed sep_p.
Proof. repeat split; simpl; try lia. repeat constructor; simpl; lia. Qed.

Example sep_p_convex : forall t k b, 1 <= t <= o_tend sep_p -> nth_error (o_bounds sep_p) k = Some b ->
  convex_between (fst b) (snd b) (sep_h t k).
Proof.
  intros t k b Ht Hk. destruct k as [|[|k]]; [| |destruct k; discriminate]; injection Hk as <-; cbn [fst snd].
  - intros a y c qa qc Hab Hbc Ha Hc. unfold sep_h in *.
    destruct (a <? 2) eqn:Ea; [discriminate|]. destruct (c <? 2) eqn:Ec; [discriminate|].
    assert (y <? 2 = false) as -> by lia. eexists. split; [reflexivity|].
    injection Ha as <-. injection Hc as <-. rewrite <- !inject_Z_mult, <- inject_Z_plus, <- Zle_Qle.
    assert (0 <= (c - a) * (c - y) * (y - a)) by (repeat apply Z.mul_nonneg_nonneg; lia). lia.
  - intros a y c qa qc Hab Hbc Ha Hc. unfold sep_h in *. eexists. split; [reflexivity|].
    assert (qa = inject_Z (Z.abs (2 * t - 2 * a))) by congruence. assert (qc = inject_Z (Z.abs (2 * t - 2 * c))) by congruence. subst qa qc.
     rewrite <- !inject_Z_mult, <- inject_Z_plus, <- Zle_Qle. destruct (Z.abs_spec (2 * t - 2 * a)) as [[? ->]|[? ->]], (Z.abs_spec (2 * t - 2 * y)) as [[? ->]|[? ->]],
      (Z.abs_spec (2 * t - 2 * c)) as [[? ->]|[? ->]]; nia.
Qed.

Example sep_p_run : static_integral um um' tt leaf sep_p false 1 None = Ok [[3; 1]; [3; 1]; [3; 1]].
Proof. vm_compute. reflexivity. Qed.

(** All hypotheses of [static_optimal_separable] hold for it. *)
Example sep_p_applies :
  let J := static_total (fun t => separable_sum (sep_h t) 0) (manhattan [1; 2]%Q) 1 2 3 in
  exists x, static_integral um um' tt leaf sep_p false 1 None = Ok (repeat x 3) /\
    in_range [(1, 5); (0, 4)] x /\ forall y, in_range [(1, 5); (0, 4)] y -> ele (J x) (J y).
Proof.
  apply (static_separable um um' tt leaf sep_p sep_h [1; 2]%Q 1 None).
  - exact sep_p_wf.
  - apply inst_costs.
  - repeat constructor; lra.
  - exact sep_p_convex.
  - left. reflexivity.
  - exists [2; 0]. split; [repeat constructor; simpl; lia|vm_compute; exact I].
Qed.

(** Only unimodal: a cost that is not convex. *)
Definition uni_p := inst 1 1 [(0, 3)] (manhattan [0%Q]) (fun _ x => match x with [1] => Fin 3 | [2] => Fin 3 | [3] => Fin 0 | _ => Fin 5 end).
Example uni_run : static_integral um um' tt leaf uni_p false 1 None = Ok [[3]].
Proof. vm_compute. reflexivity. Qed.

(** The weight [alpha] of the switching cost is ignored. *)
Theorem static_alpha_refuted :
  exists (p : gsco Z unit unit) f norm alpha x y,
    well_formed p /\ has_costs um p f norm /\ (0 <= alpha)%Q /\
    (forall t, convex_between 0 1 (fun j => f t [j])) /\
    static_integral um um' tt leaf p false alpha None = Ok (repeat x (Z.to_nat (o_tend p))) /\
    in_range (o_bounds p) y /\
    elt (static_total f norm alpha (o_d p) (o_tend p) y) (static_total f norm alpha (o_d p) (o_tend p) x).
Proof.
  set (h := fun (_ : Z) (x : list Z) => match x with [j] => Fin ((3 # 2) * inject_Z (1 - j)) | _ => Fin 0 end).
  exists (inst 1 1 [(0, 1)] (manhattan [1%Q]) h), h, (manhattan [1%Q]), 2%Q, [1], [0].
  split; [|split; [apply inst_costs|split; [lra|split; [|split; [vm_compute; reflexivity|split]]]]].
  - repeat split; simpl; try lia. repeat constructor; simpl; lia.
  - intros t a b c qa qc Hab Hbc Ha Hc. unfold h in *. eexists. split; [reflexivity|].
    assert (qa = (3 # 2) * inject_Z (1 - a))%Q by congruence. assert (qc = (3 # 2) * inject_Z (1 - c))%Q by congruence. subst qa qc.
    unfold Zminus. rewrite !inject_Z_plus, !inject_Z_opp. apply Qle_lteq. right. ring.
  - repeat constructor; simpl; lia.
  - vm_compute. reflexivity.
Qed.

(** Convexity does not suffice in two dimensions: the loop over the first dimension stops at
    the first increase although the best completion gets better again.  The cost is the
    restriction of the convex function 10 |2y - x| + 5 (2 - x). *)
Definition ridge (_ : Z) (x : list Z) : ext :=
  match x with [a; b] => Fin (inject_Z (10 * Z.abs (2 * b - a) + 5 * (2 - a))) | _ => Inf end.
Theorem static_convex_refuted :
  exists (p : gsco Z unit unit) norm x y,
    well_formed p /\ has_costs um p ridge norm /\
    static_integral um um' tt leaf p false 1 None = Ok (repeat x (Z.to_nat (o_tend p))) /\
    in_range (o_bounds p) y /\
    elt (static_total ridge norm 1 (o_d p) (o_tend p) y) (static_total ridge norm 1 (o_d p) (o_tend p) x).
Proof.
  exists (inst 2 1 [(0, 2); (0, 1)] (manhattan [1; 1]%Q) ridge), (manhattan [1; 1]%Q), [0; 0], [2; 1].
  split; [|split; [apply inst_costs|split; [vm_compute; reflexivity|split]]].
  - repeat split; simpl; try lia. repeat constructor; simpl; lia.
  - repeat constructor; simpl; lia.
  - vm_compute. reflexivity.
Qed.

(** If no configuration has finite cost, the zero configuration is returned even when
    it lies outside the bounds. *)
Theorem static_infeasible_refuted :
  exists (p : gsco Z unit unit) x,
    well_formed p /\
    static_integral um um' tt leaf p false 1 None = Ok (repeat x (Z.to_nat (o_tend p))) /\
    ~ in_range (o_bounds p) x.
Proof.
  exists (inst 1 1 [(1, 2)] (manhattan [1%Q]) (fun _ _ => Inf)), [0].
  split; [|split; [vm_compute; reflexivity|]].
  - repeat split; simpl; try lia. repeat constructor; simpl; lia.
  - intros H. inversion H; subst. simpl in *. lia.
Qed.
