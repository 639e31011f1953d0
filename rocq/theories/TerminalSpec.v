(** Specification used by the theorems about sessions in terms of SCO instances. *)
From Verif Require Export SessionSpec.
From Verif Require Import CostModel.
Local Open Scope Z_scope.

(** The configuration of slot [t]; nothing runs before the first slot. *)
Definition in_slot {X} (xs : list (list X)) (t : nat) : list X :=
  match t with O => [] | S k => nth k xs [] end.

(** Half of the costs of switching all servers of a configuration. *)
Definition half_switching {T} (v : value T) (beta : list Q) (x : list T) : Q :=
  Qsum (map (fun bj => fst bj / 2 * v_toQ v (snd bj))%Q (combine beta x)).

(** The cost [c] charges powering down after slot [T] rather than after slot [n]; otherwise it is [c']. *)
Definition charged_early {X C D} (v : value X) (beta : list Q) (xs : list (list X)) (T n : nat) (c c' : cost C D) : Prop :=
  c_out c = c_out c' /\
  eeq (eadd (c_cost c) (Fin (half_switching v beta (in_slot xs n))))
      (eadd (c_cost c') (Fin (half_switching v beta (in_slot xs T)))).
