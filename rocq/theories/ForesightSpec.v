(** Specification used by the theorems which state that online algorithms do not look into the
    future. *)
From Verif Require Export StreamModel OptimizeModel QuadratureModel ProbabilisticModel SessionSpec.
From Verif Require Import CostModel.
Local Open Scope Z_scope.

(** Two cost functions that agree until slot [n]. *)
Definition same_costs {X C D} (n : Z) (f g : cost_fn X C D) : Prop :=
  forall t x, 1 <= t <= n -> call_predictive f t x = call_predictive g t x.

(** Instances of SCO, SBLO and SLO that differ at most in their horizon and in the costs and loads
    of the slots after [n] (for SSCO: [agree] in SessionSpec.v). *)
Definition agree_sco {T C D} (n : Z) (p q : gsco T C D) : Prop :=
  o_d p = o_d q /\ o_bounds p = o_bounds q /\ (forall x, o_norm p x = o_norm q x) /\ same_costs n (o_cost p) (o_cost q).
Definition agree_sblo {T} (n : Z) (p q : gsblo T) : Prop :=
  b_d p = b_d q /\ b_bounds p = b_bounds q /\ b_switching p = b_switching q /\
  Forall2 (same_costs n) (b_cost p) (b_cost q) /\
  forall t, 1 <= t <= n -> access (b_load p) t = access (b_load q) t.
Definition agree_slo {T} (n : Z) (p q : gslo T) : Prop :=
  l_d p = l_d q /\ l_bounds p = l_bounds q /\ l_switching p = l_switching q /\ l_hitting p = l_hitting q /\
  forall t, 1 <= t <= n -> access (l_load p) t = access (l_load q) t.

(** The schedule after streaming. *)
Definition chosen {P X M} (r : option (online P * list X * outcome (option M))) : list X :=
  match r with Some (_, xs, _) => xs | None => [] end.

(** Streaming two instances that agree until the end of the prediction window of slot [n] yields the
    same configurations for the slots up to [n], whatever their horizons, costs and loads after that
    (if the algorithm fails in one of these slots, then it does for both instances). *)
Definition unforeseeing {P X C D M} (ops : problem_ops P X C D) (same : Z -> P -> P -> Prop)
    (alg : online P -> Z -> list X -> M -> outcome (X * option M)) (default : online P -> M) : Prop :=
  forall (p q : P) (w : Z) (n : nat) (T T' : Z),
  Z.of_nat n + w <= T -> Z.of_nat n + w <= T' -> same (Z.of_nat n + w) p q ->
  firstn n (chosen (offline_stream ops alg default T (mkOnline (po_set ops p 1) w))) =
  firstn n (chosen (offline_stream ops alg default T' (mkOnline (po_set ops q 1) w))).

(** The external libraries only use the values of the functions given to them. *)
Definition observes_nlopt (nlopt : nl_problem -> outcome nl_result) : Prop :=
  forall a dir f g bounds cs ds x0, (forall x, f x = g x) -> Forall2 (fun c d => forall x, c x = d x) cs ds ->
  nlopt (mkNL a dir f bounds cs x0) = nlopt (mkNL a dir g bounds ds x0).
Definition observes_brent (brent : Q * Q -> (Q -> outcome fnum) -> outcome Q) : Prop :=
  forall I f g, (forall x, f x = g x) -> brent I f = brent I g.
Definition observes_diff (diff : (Q -> outcome fnum) -> Q -> outcome (option fnum)) : Prop :=
  forall f g x, (forall y, f y = g y) -> diff f x = diff g x.
Definition observes_quadrature (quadrature : density -> point -> point -> Q) : Prop :=
  forall f g a b, (forall x, f x = g x) -> quadrature f a b = quadrature g a b.
