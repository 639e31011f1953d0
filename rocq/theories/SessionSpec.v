(** Specification used by the theorems about sessions with a data centre. *)
From Coq Require Export Permutation.
From Verif Require Export StreamSpec.
From Verif Require Import CostModel.
Local Open Scope Z_scope.

(** Two SSCO instances that differ at most in their horizon and in the costs of the slots
    after [n]. *)
Definition agree {T C D} (n : Z) (p q : gssco T C D) : Prop :=
  g_d p = g_d q /\ g_bounds p = g_bounds q /\ g_switching p = g_switching q /\
  forall t x, 1 <= t <= n -> call_predictive (g_cost p) t x = call_predictive (g_cost q) t x.

(** An online algorithm that only uses the costs of the slots up to the end of its prediction window. *)
Definition causal {T C D M} (alg : online (gssco T C D) -> Z -> list (list T) -> M -> outcome (list T * option M)) : Prop :=
  forall p q w t xs mem, g_tend p = g_tend q -> agree (g_tend p + w) p q ->
    alg (mkOnline p w) t xs mem = alg (mkOnline q w) t xs mem.
Definition causal_memory {T C D M} (default : online (gssco T C D) -> M) : Prop :=
  forall p q w, g_tend p = g_tend q -> agree (g_tend p + w) p q -> default (mkOnline p w) = default (mkOnline q w).

(** Sampling: [n] of the given samples are chosen. *)
Definition selects (choose : nat -> list Q -> nat -> list Q) : Prop :=
  forall i zs n, (n <= length zs)%nat ->
    length (choose i zs n) = n /\ exists rest, Permutation (choose i zs n ++ rest) zs.

(** The instance with another horizon. *)
Definition until {T C D} (p : gssco T C D) (t : Z) : gssco T C D :=
  mkGSSCO (g_d p) t (g_bounds p) (g_switching p) (g_cost p).

(** The cost reported by a session after [k] requests. *)
Definition reported {X C D M Y} (off : @offline_response X C D M Y) (answers : list (@online_response X C D M Y)) (k : nat) (c : cost C D) : Prop :=
  match k with
  | O => c = of_cost off
  | S j => exists r, nth_error answers j = Some r /\ c = r_cost r
  end.
