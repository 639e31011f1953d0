(** Specification used by the theorems about randomised rounding. *)
From Verif Require Export RandomizedModel ObjectiveSpec StreamSpec.
From Verif Require Export CostModel.
Local Open Scope Z_scope.

(** [q] is the probability of the event [E] for a sample distributed uniformly on [0, 1]: up
    to its end points, [E] is an initial or a final interval of length [q]. *)
Definition has_probability (E : Q -> Prop) (q : Q) : Prop :=
  (0 <= q <= 1)%Q /\
  ((forall r, (0 < r < 1)%Q -> ((r < q)%Q -> E r) /\ ((q < r)%Q -> ~ E r)) \/
   (forall r, (0 < r < 1)%Q -> ((1 - q < r)%Q -> E r) /\ ((r < 1 - q)%Q -> ~ E r))).

(** Finite distributions of integers: weighted values. *)
Definition distribution : Type := list (Q * Z).
Definition mass (mu : distribution) : Q := Qsum (map fst mu).
Definition mean_of (mu : distribution) : Q := Qsum (map (fun e => fst e * inject_Z (snd e))%Q mu).

(** [mu] is the distribution of a number rounding [y] to a neighbouring integer such that its
    expectation is [y]. *)
Definition rounding (mu : distribution) (y : Q) : Prop :=
  Forall (fun e => (0 <= fst e)%Q /\ (snd e = Qfloor y \/ snd e = Qceiling y)) mu /\
  (mass mu == 1)%Q /\ (mean_of mu == y)%Q.

(** The distribution after a step to [y], if [up x] is the probability to move from [x] to the
    ceiling of [y] (and to its floor otherwise). *)
Definition after (up : Z -> Q) (y : Q) (mu : distribution) : distribution :=
  flat_map (fun e => [(fst e * up (snd e), Qceiling y); (fst e * (1 - up (snd e)), Qfloor y)])%Q mu.

(** The probabilities of a step from [prev_y] to [y]. *)
Definition step_probabilities (prev_y y : Q) (up : Z -> Q) : Prop :=
  forall x, has_probability (fun r => next x prev_y y r = Qceiling y) (up x).

(** The distribution along a trajectory of fractional values, with independent samples. *)
Inductive evolves : Q -> distribution -> list Q -> distribution -> Prop :=
| evolves_none y mu : evolves y mu [] mu
| evolves_step prev_y mu y up ys mu' :
    step_probabilities prev_y y up -> evolves y (after up y mu) ys mu' -> evolves prev_y mu (y :: ys) mu'.

(** [y] is an integer, or not less than [prev_y], or both are in an interval between two
    consecutive integers (the upper one excluded). *)
Definition gentle (prev_y y : Q) : Prop :=
  Qfloor y = Qceiling y \/ (prev_y <= y)%Q \/ (prev_y < inject_Z (Qceiling y))%Q.
Fixpoint gentle_trajectory (prev_y : Q) (ys : list Q) : Prop :=
  match ys with
  | [] => True
  | y :: r => gentle prev_y y /\ gentle_trajectory y r
  end.

(** The instance known at slot [t]. *)
Definition g_at {C D} (p : gssco Z C D) (t : Z) : gssco Z C D :=
  mkGSSCO (g_d p) t (g_bounds p) (g_switching p) (g_cost p).
