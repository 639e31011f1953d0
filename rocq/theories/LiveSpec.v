(** Specification used by the theorems about live sessions of load optimisation. *)
From Verif Require Export StreamSpec SessionSpec.
From Verif Require Import CostModel.
Local Open Scope Z_scope.

(** The instance with other loads. *)
Definition loaded_sblo {T} (p : gsblo T) (load : list T) : gsblo T :=
  mkGSBLO (b_d p) (b_tend p) (b_bounds p) (b_switching p) (b_cost p) load.
Definition loaded_slo {T} (p : gslo T) (load : list T) : gslo T :=
  mkGSLO (l_d p) (l_tend p) (l_bounds p) (l_switching p) (l_hitting p) load.

(** Online algorithms (without prediction window) which do not use the loads of later slots. *)
Definition waits_sblo {T M} (alg : online (gsblo T) -> Z -> list (list T) -> M -> outcome (list T * option M)) : Prop :=
  forall p load xs mem, 1 <= b_tend p -> (forall t, 1 <= t <= b_tend p -> access load t = access (b_load p) t) ->
    alg (mkOnline (loaded_sblo p load) 0) (b_tend p) xs mem = alg (mkOnline p 0) (b_tend p) xs mem.
Definition waits_slo {T M} (alg : online (gslo T) -> Z -> list (list T) -> M -> outcome (list T * option M)) : Prop :=
  forall p load xs mem, 1 <= l_tend p -> (forall t, 1 <= t <= l_tend p -> access load t = access (l_load p) t) ->
    alg (mkOnline (loaded_slo p load) 0) (l_tend p) xs mem = alg (mkOnline p 0) (l_tend p) xs mem.
(** Their initial memory does not depend on the loads. *)
Definition blank_sblo {T M} (default : online (gsblo T) -> M) : Prop :=
  forall p load w, default (mkOnline (loaded_sblo p load) w) = default (mkOnline p w).
Definition blank_slo {T M} (default : online (gslo T) -> M) : Prop :=
  forall p load w, default (mkOnline (loaded_slo p load) w) = default (mkOnline p w).

(** The instance [q] with the operating costs of [p]. *)
Definition at_costs_of {T} (p q : gslo T) : gslo T :=
  mkGSLO (l_d q) (l_tend q) (l_bounds q) (l_switching q) (l_hitting p) (l_load q).

(** The first [t] slots of an instance. *)
Definition sblo_part {T} (q : gsblo T) (t : nat) : gsblo T :=
  mkGSBLO (b_d q) (Z.of_nat t) (b_bounds q) (b_switching q) (b_cost q) (firstn t (b_load q)).
Definition slo_part {T} (q : gslo T) (t : nat) : gslo T :=
  mkGSLO (l_d q) (Z.of_nat t) (l_bounds q) (l_switching q) (l_hitting q) (firstn t (l_load q)).
