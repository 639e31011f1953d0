(** Specification used by the theorems about the expected cost of randomised rounding. *)
From Verif Require Export RandomizedSpec.
From Verif Require Export CostModel.
Local Open Scope Z_scope.

(** Finite distributions of schedules in one dimension: weighted sequences. *)
Definition schedules : Type := list (Q * list Z).
(** The schedules of [mu], preceded by [x], with their weights multiplied by [q]. *)
Definition preceded (q : Q) (x : Z) (mu : schedules) : schedules :=
  map (fun e => (q * fst e, x :: snd e)%Q) mu.

(** [rounded prev_y x ys mu]: starting from the integral value [x] and the fractional value
    [prev_y], rounding the fractional values [ys] one after the other with independent samples
    distributed uniformly on [0, 1] results in the distribution [mu] of schedules. *)
Inductive rounded : Q -> Z -> list Q -> schedules -> Prop :=
| rounded_none prev_y x : rounded prev_y x [] [(1%Q, [])]
| rounded_step prev_y x y q ys above below :
    has_probability (fun r => next x prev_y y r = Qceiling y) q ->
    rounded y (Qceiling y) ys above -> rounded y (Qfloor y) ys below ->
    rounded prev_y x (y :: ys) (preceded q (Qceiling y) above ++ preceded (1 - q) (Qfloor y) below).

(** [q] is the expected cost of a schedule distributed as [mu]. *)
Definition has_expectation {A C D} (cost_of : A -> outcome (cost C D)) (mu : list (Q * A)) (q : Q) : Prop :=
  exists value : A -> Q,
    Forall (fun e => exists c, cost_of (snd e) = Ok c /\ eeq (c_cost c) (Fin (value (snd e)))) mu /\
    (Qsum (map (fun e => fst e * value (snd e)) mu) == q)%Q.

(** Sequences of numbers as schedules of configurations with one entry. *)
Definition configs_1 {T} (xs : list T) : list (list T) := map (fun x => [x]) xs.

(** The schedule chosen for the fractional values [ys] and the samples [draw t], [draw (t+1)], ... *)
Fixpoint roundings (draw : Z -> Q) (t : Z) (x : Z) (prev_y : Q) (ys : list Q) : list Z :=
  match ys with
  | [] => []
  | y :: r => next x prev_y y (draw t) :: roundings draw (t + 1) (next x prev_y y (draw t)) y r
  end.

(** The answers of a relaxation, which does not look at the previous configurations, in the
    slots [t], ..., [t + n - 1]. *)
Fixpoint answers {C D M} (vmerge : C -> C -> outcome C)
    (relax : online (gssco Q C D) -> option M -> outcome (list Q * option M))
    (p : gssco Z C D) (t : Z) (m : option M) (n : nat) : outcome (list (list Q)) :=
  match n with
  | O => Ok []
  | S n' =>
      do s <- relax (mkOnline (ssco_into_f vmerge (g_at p t)) 0) m;
      do r <- answers vmerge relax p (t + 1) (snd s) n';
      Ok (fst s :: r)
  end.
