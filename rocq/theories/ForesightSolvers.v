(** The numerical procedures only use the values of the functions given to them. *)
From Coq Require Import Lia.
From Verif Require Import NumLemmas ConvertProofs ConvertObjective ForesightSpec WindowModel GridCapModel.
From Verif Require Import ProblemModel CostModel.
Local Open Scope Z_scope.

Lemma obind_ext {A B} (a b : outcome A) (f g : A -> outcome B) : a = b -> (forall x, f x = g x) -> obind a f = obind b g.
Proof. intros -> H. destruct b; [apply H|reflexivity|reflexivity]. Qed.

Lemma same_certain {X C D} n (f g : cost_fn X C D) t x : same_costs n f g -> 1 <= t <= n -> call_certain f t x = call_certain g t x.
Proof. intros H Ht. rewrite !call_certain_of_predictive, (H t x Ht). reflexivity. Qed.
Lemma same_mean {X C D} vmerge n (f g : cost_fn X C D) t x : same_costs n f g -> 1 <= t <= n -> call_mean vmerge f t x = call_mean vmerge g t x.
Proof. intros H Ht. rewrite !call_mean_of_predictive, (H t x Ht). reflexivity. Qed.
Lemma same_certain_cost {C D} n (f g : cost_fn (list Q) C D) t x : same_costs n f g -> 1 <= t <= n -> certain_cost f t x = certain_cost g t x.
Proof. intros H Ht. unfold certain_cost. rewrite (same_certain n f g t x H Ht). reflexivity. Qed.

Section Nlopt.
  Variable nlopt : nl_problem -> outcome nl_result.
  Hypothesis HN : observes_nlopt nlopt.

  Lemma optimize_ext dir f g bounds init cs ds : (forall x, f x = g x) -> Forall2 (fun c d : callback => forall x, c x = d x) cs ds ->
    optimize nlopt dir f bounds init cs = optimize nlopt dir g bounds init ds.
  Proof.
    intros Hf Hc. unfold optimize. apply obind_ext; [reflexivity|]. intros x. apply obind_ext; [|reflexivity].
    assert (EL : length cs = length ds) by (clear -Hc; induction Hc; cbn; congruence). rewrite EL.
    apply HN; [intros y; apply Hf|]. clear -Hc. induction Hc as [|c d cs ds H _ IH]; [constructor|]. cbn [map]. constructor; [|exact IH]. intros y. apply H.
  Qed.
  Lemma minimize_ext f g bounds init cs ds : (forall x, f x = g x) -> Forall2 (fun c d : callback => forall x, c x = d x) cs ds ->
    minimize nlopt f bounds init cs = minimize nlopt g bounds init ds.
  Proof. apply optimize_ext. Qed.
  Lemma find_minimizer_ext f g bounds : (forall x, f x = g x) -> find_minimizer nlopt f bounds = find_minimizer nlopt g bounds.
  Proof. intros H. apply minimize_ext; [exact H|constructor]. Qed.
  Lemma find_hitting_ext {C D} n t (f g : cost_fn (list Q) C D) bounds : same_costs n f g -> 1 <= t <= n ->
    find_minimizer_of_hitting_cost nlopt t f bounds = find_minimizer_of_hitting_cost nlopt t g bounds.
  Proof. intros H Ht. apply find_minimizer_ext. intros x. eapply same_certain_cost; eassumption. Qed.
  Lemma find_unbounded_ext f g d cs ds : (forall x, f x = g x) -> Forall2 (fun c d : callback => forall x, c x = d x) cs ds ->
    find_unbounded_maximizer nlopt f d cs = find_unbounded_maximizer nlopt g d ds.
  Proof. apply optimize_ext. Qed.
  Lemma dual_norm_ext (n n' : list Q -> outcome Q) x : (forall y, n y = n' y) -> dual_norm nlopt n x = dual_norm nlopt n' x.
  Proof.
    intros H. unfold dual_norm. destruct (forallb finite x); [|reflexivity]. apply obind_ext; [|reflexivity].
    apply find_unbounded_ext; [reflexivity|]. constructor; [|constructor]. intros y. rewrite H. reflexivity.
  Qed.
  Lemma window_minimize_ext f g bounds cs ds : (forall x, f x = g x) -> Forall2 (fun c d : list Q -> outcome Q => forall x, c x = d x) cs ds ->
    window_minimize nlopt f bounds cs = window_minimize nlopt g bounds ds.
  Proof.
    intros Hf Hc. unfold window_minimize. apply obind_ext; [|reflexivity]. apply minimize_ext; [intros x; rewrite Hf; reflexivity|].
    clear -Hc. induction Hc as [|c d cs ds H _ IH]; [constructor|]. cbn [map]. constructor; [|exact IH]. intros y. rewrite H. reflexivity.
  Qed.
  Lemma point_minimize_ext f g bounds : (forall x, f x = g x) -> point_minimize nlopt f bounds = point_minimize nlopt g bounds.
  Proof. intros Hf. unfold point_minimize. apply obind_ext; [|reflexivity]. apply find_minimizer_ext. intros x. rewrite Hf. reflexivity. Qed.
End Nlopt.

Lemma find_root_ext brent a b f g : observes_brent brent -> (forall x, f x = g x) -> find_root brent a b f = find_root brent a b g.
Proof.
  intros HB H. unfold find_root. destruct (Qltb _ _); [reflexivity|]. rewrite !H. apply obind_ext; [reflexivity|]. intros l. apply obind_ext; [reflexivity|]. intros r.
  destruct (ngtb _ _); [reflexivity|]. destruct (ngtb _ _); [reflexivity|]. destruct (same_sign l r); [reflexivity|]. rewrite (HB (a, b) f g H). reflexivity.
Qed.

Lemma gradient_ext eps (f g : callback) x : (forall y, f y = g y) -> gradient eps f x = gradient eps g x.
Proof. intros H. unfold gradient. apply omap_ext. intros i _. rewrite !H. reflexivity. Qed.

Lemma derivative_ext diff (f g : Q -> outcome fnum) x : observes_diff diff -> (forall y, f y = g y) -> derivative diff f x = derivative diff g x.
Proof. intros HD H. unfold derivative. rewrite H. apply obind_ext; [reflexivity|]. intros y. rewrite (HD f g x H). reflexivity. Qed.
