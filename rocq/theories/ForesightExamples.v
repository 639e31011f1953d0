(** The hypotheses of the theorems of ForesightProps.v are met by concrete libraries and instances,
    and an algorithm that looks ahead is not unforeseeing. *)
From Coq Require Import Lia.
From Verif Require Import NumLemmas CostProofs ConvertProofs OptimizeBrute SessionModel SessionSpec BalancedSpec BalancedExamples
  DescentExamples ProbabilisticExamples ForesightSpec ForesightModel ForesightProps.
From Verif Require LoadExamples.
From Verif Require Import ProblemModel CostModel.
Local Open Scope Z_scope.

(** *** Libraries that only use the values of functions *)
Lemma best_ext f g l : (forall x, f x = g x) -> best f l = best g l.
Proof. intros H. induction l as [|x l IH]; [reflexivity|]. cbn [best]. rewrite H, IH. reflexivity. Qed.
Example brute_observes : observes_nlopt brute.
Proof.
  intros a dir f g bounds cs ds x0 Hf Hc. unfold brute. cbn [nl_bounds nl_constraints nl_objective].
  assert (EA : forall x, admissible cs x = admissible ds x).
  { intros x. unfold admissible. induction Hc as [|c d cs ds H _ IH]; [reflexivity|]. cbn [forallb]. rewrite H, IH. reflexivity. }
  rewrite (filter_ext _ _ EA), (best_ext f g _ Hf). reflexivity.
Qed.
Lemma bisect_ext n ab f g : (forall x, f x = g x) -> bisect n ab f = bisect n ab g.
Proof.
  intros H. unfold bisect. generalize (fst ab) (snd ab). induction n as [|n IH]; intros a b; [reflexivity|]. cbv zeta. rewrite H.
  destruct (g _) as [[|q|]| |]; cbn [obind]; try reflexivity. destruct (Qltb 0 q); apply IH.
Qed.
Example bisect_observes n : observes_brent (bisect n).
Proof. intros ab f g H. apply bisect_ext. exact H. Qed.
Example difference_observes : observes_diff difference /\ observes_diff difference2.
Proof. split; intros f g x H; unfold difference, difference2; rewrite !H; reflexivity. Qed.
Example weighted_observes : observes_quadrature weighted.
Proof. intros f g a b H. unfold weighted. f_equal. apply map_ext. intros n. unfold weigh. rewrite H. reflexivity. Qed.
Example solver_observes : solver_extensional LoadExamples.guess_solver.
Proof. exact guess_extensional. Qed.

(** *** Two days that begin alike: three servers are useful in two slots, then none or three *)
Definition useful (js : list Z) : gssco Z unit unit :=
  mkGSSCO 1 (Z.of_nat (length js)) [3] [1%Q]
    (cf_new 1 (certain (fun t x =>
       match access js t, x with
       | Some j, [k] => Ok (mkCost (Fin (2 * inject_Z (Z.abs (k - j)))) (MSuccess tt))
       | _, _ => Panic
       end))).
Notation lcp_run js w T :=
  (chosen (offline_stream (ssco_ops valZ (fun _ _ : unit => tt) (fun _ _ : unit => Ok tt) tt Leaf)
    (lcp_ssco (fun _ _ : unit => Ok tt) tt) (@lcp_memory unit unit) T (mkOnline (until (useful js) 1) w))).

Example useful_agree : agree 2 (useful [3; 2; 0; 0]) (useful [3; 2; 3; 1; 1]) /\ ~ agree 3 (useful [3; 2; 0; 0]) (useful [3; 2; 3; 1; 1]).
Proof.
  split.
  - repeat split; try reflexivity. intros t x Ht. unfold useful. cbn [g_cost]. unfold call_predictive. rewrite !cf_new_get by lia. cbn [obind fst snd].
    unfold single_predictive, certain. assert (t = 1 \/ t = 2) as [-> | ->] by lia; reflexivity.
  - intros (_ & _ & _ & H). specialize (H 3 [0] ltac:(lia)). vm_compute in H. discriminate H.
Qed.
Example runs_begin_alike :
  lcp_run [3; 2; 0; 0] 0 4 = [[3]; [2]; [0]; [0]] /\ lcp_run [3; 2; 3; 1; 1] 0 5 = [[3]; [2]; [3]; [1]; [1]] /\
  firstn 2 (lcp_run [3; 2; 0; 0] 0 4) = firstn 2 (lcp_run [3; 2; 3; 1; 1] 0 5).
Proof. split; [|split]; vm_compute; reflexivity. Qed.
(** With a prediction window of one slot the third slot may matter for the second configuration. *)
Example runs_with_window : lcp_run [3; 2; 0; 0] 1 4 <> [] /\ firstn 1 (lcp_run [3; 2; 0; 0] 1 4) = firstn 1 (lcp_run [3; 2; 3; 1; 1] 1 5).
Proof.
  split; [vm_compute; discriminate|].
  apply (lcp_unforeseeing (fun _ _ : unit => Ok tt) (fun _ _ => tt) tt Leaf (useful [3; 2; 0; 0]) (useful [3; 2; 3; 1; 1]) 1 1%nat 4 5); try lia. exact (proj1 useful_agree).
Qed.

(** *** An algorithm that looks one slot further than it may *)
Definition peeking (o : online (gssco Z unit unit)) (t : Z) (xs : list (list Z)) (m : unit) : outcome (list Z * option unit) :=
  do c <- call_certain (g_cost (on_p o)) (t + on_w o + 1) [0];
  Ok ([if eltb (Fin 1) (c_cost c) then 3 else 0], None).
Example peeking_foresees s : ~ unforeseeing (ssco_ops valZ (fun _ _ : unit => tt) (fun _ _ : unit => Ok tt) tt s) agree peeking (fun _ => tt).
Proof.
  intros H. specialize (H (useful [3; 2; 0; 0]) (useful [3; 2; 3; 1; 1]) 0 2%nat 2 2 ltac:(lia) ltac:(lia) (proj1 useful_agree)).
  vm_compute in H. discriminate H.
Qed.
