(** Concrete cases for the theorems about piecewise integration, and cases where the code does
    not do what is documented. *)
From Coq Require Import Lia Lqa Sorted.
From Verif Require Import NumLemmas PiecewiseModel PiecewiseSpec PiecewiseProofs.
Local Open Scope Z_scope.

(** The integral of a constant, finite limits. *)
Definition place (p : point) : Q := match p with Pt x => x | _ => 0%Q end.
Definition constant_integral (c : Q) (a b : point) : Q := (c * (place b - place a))%Q.
Example constant_exact : forall c, exact_quadrature (constant_integral c).
Proof.
  intros c. split; unfold constant_integral; intros.
  - ring.
  - assert (forall p q, point_eq p q -> (place p == place q)%Q).
    { intros [|x|] [|y|] [H1 H2]; cbn in *; try contradiction; try reflexivity. lra. }
    rewrite (H1 _ _ H), (H1 _ _ H0). reflexivity.
Qed.

(** Two breakpoints inside, two outside. *)
Definition some_breaks : breakpoints := br_from [(7#1)%Q; (1#1)%Q; (3#1)%Q; (-(2)#1)%Q].
Example some_breaks_ordered : ordered_breaks some_breaks.
Proof. split; [|exact I]. vm_compute. repeat constructor. Qed.
Example some_pieces : piecewise (constant_integral 1) some_breaks 5 (Pt 0) (Pt 4) =
  Some ([(Pt 1, Pt (4#2)); (Pt 0, Pt 1)], [(Pt (4#2), Pt 3); (Pt 3, Pt 4)]).
Proof. vm_compute. reflexivity. Qed.
Example some_interval : interval (Pt 0) (Pt 4) /\ interval MInf (Pt 4) /\ interval (Pt 1) PInf.
Proof. unfold interval; cbn. repeat split; try discriminate; lra. Qed.
Example some_inside : length (br_fixed (only_inside (Pt 0) (Pt 4) some_breaks)) = 2%nat /\ ~ converged (constant_integral 1) [(Pt 1, Pt 2); (Pt 0, Pt 1)].
Proof. split; [reflexivity|]. vm_compute. lia. Qed.
Example distinct_breaks : distinct [(7#1)%Q; (1#1)%Q; (3#1)%Q].
Proof. repeat constructor; discriminate. Qed.

(** Ten small pieces end the integration, however much is left: the counter is not reset and does
    not require the pieces to decrease. *)
Theorem piecewise_cut_off_refuted :
  ~ (forall integral breaks fuel from to v, exact_quadrature integral -> ordered_breaks breaks -> interval from to ->
       piecewise_integral integral breaks fuel from to = Some v -> (v == integral from to)%Q).
Proof.
  intros H.
  assert (HI : interval (Pt 0) (Pt 100)) by (unfold interval; cbn; repeat split; try discriminate; lra).
  assert (HV : exists v, piecewise_integral (constant_integral (1#1000)) (br_grid 1) 60 (Pt 0) (Pt 100) = Some v /\ (v == 20#1000)%Q).
  { eexists. split; [vm_compute; reflexivity|reflexivity]. }
  destruct HV as (v & HV & HE). specialize (H _ _ _ _ _ v (constant_exact (1#1000)) grid_ordered HI HV). rewrite HE in H. vm_compute in H. discriminate H.
Qed.

(** A grid with another distance than one is not a grid of multiples: from 11/2 the next
    breakpoint of [grid(1/2)] is 11/2 again, and the integration stops there. *)
Theorem half_grid_stuck_refuted :
  (exists next, br_next (br_grid (1#2)) = Some next /\ (exists r, snd (next (11#2)%Q) = Some r /\ (r == 11#2)%Q)) /\
  (exists v, piecewise_integral (constant_integral 1) (br_grid (1#2)) 60 (Pt 0) (Pt 10) = Some v /\ (v == 1)%Q).
Proof.
  split.
  - eexists. split; [reflexivity|]. eexists. split; [reflexivity|reflexivity].
  - eexists. split; [vm_compute; reflexivity|reflexivity].
Qed.

(** On an infinite interval a rule for further breakpoints need not finish. *)
Theorem infinite_interval_refuted : forall fuel, piecewise (constant_integral 1) (br_grid 1) fuel (Pt 0) PInf = None.
Proof.
  assert (H : forall fuel k n, 0 <= k -> n < 10 -> pieces_from (constant_integral 1) (br_grid 1) fuel ToRight (inject_Z k) PInf 0 n = None).
  { induction fuel as [|fuel IH]; intros k n Hk Hn; [reflexivity|]. cbn [pieces_from]. cbn [point_leb br_fixed br_grid br_next].
    change (Z.to_nat 0) with 0%nat. cbn [nth_error]. change (0 <=? 0) with true. cbv iota. cbn [fst snd]. rewrite Qfloor_Z.
    assert (E : Qltb (constant_integral 1 (Pt (inject_Z k)) (Pt (inject_Z k + 1))) PRECISION = false).
    { apply Qltb_false. unfold constant_integral, PRECISION, place. assert (1 * (inject_Z k + 1 - inject_Z k) == 1)%Q by ring. lra. }
    cbn [fst snd]. rewrite E. cbn [andb].
    assert (EK : (inject_Z k + 1)%Q = inject_Z (k + 1)). { unfold inject_Z, Qplus. cbn. f_equal. lia. }
    rewrite EK, IH by lia. reflexivity. }
  intros fuel. unfold piecewise. cbn [initial]. change (position _ _) with (@None Z). cbn [br_fixed br_grid length]. change (Z.of_nat 0) with 0.
  change (Pt 0) with (Pt (inject_Z 0)). change 0%Q with (inject_Z 0). rewrite (H fuel 0 0) by lia. destruct (pieces_from _ _ _ ToLeft _ _ _ _); reflexivity.
Qed.

(** Breakpoints given twice stay twice. *)
Example twice : br_fixed (br_from [(1#1)%Q; (1#1)%Q]) = [(1#1)%Q; (1#1)%Q].
Proof. reflexivity. Qed.
