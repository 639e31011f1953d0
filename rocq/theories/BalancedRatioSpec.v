(** Specification used by the theorems about the competitive ratio of lazy budgeting for SBLO. *)
From Verif Require Export BalancedSpec OfflineSpec.
From Verif Require Import CostModel.
Local Open Scope Z_scope.

(** What a server of type [k] (from 0) with load [l] costs at slot [t]. *)
Definition server_cost (p : gsblo Z) (k : nat) (t : Z) (l : Q) : ext :=
  match nth_error (b_cost p) k with
  | Some f => match call_certain f t l with Ok c => c_cost c | _ => Inf end
  | None => Inf
  end.

(** Servers as the literature assumes them: the cost of a server is known for every load,
    not negative, non-decreasing and convex in the load, and finite for an idle server. *)
Record convex_servers (p : gsblo Z) : Prop := {
  cs_known : forall k f t l, nth_error (b_cost p) k = Some f -> 1 <= t <= b_tend p -> (0 <= l)%Q ->
    exists c, call_certain f t l = Ok c;
  cs_nonneg : forall k t l, Z.of_nat k < b_d p -> 1 <= t <= b_tend p -> (0 <= l)%Q ->
    ele (Fin 0) (server_cost p k t l);
  cs_increasing : forall k t l l', Z.of_nat k < b_d p -> 1 <= t <= b_tend p -> (0 <= l)%Q -> (l <= l')%Q ->
    ele (server_cost p k t l) (server_cost p k t l');
  cs_convex : forall k t a b s, Z.of_nat k < b_d p -> 1 <= t <= b_tend p -> (0 <= a)%Q -> (0 <= b)%Q -> (0 <= s <= 1)%Q ->
    ele (server_cost p k t ((1 - s) * a + s * b))
        (eadd (escale (1 - s) (server_cost p k t a)) (escale s (server_cost p k t b)));
  cs_idle : forall k t, Z.of_nat k < b_d p -> 1 <= t <= b_tend p -> is_fin (server_cost p k t 0)
}.

(** An idle server costs at most the fraction [c] of powering it up (one per type). *)
Definition idle_at_most (p : gsblo Z) (c : list Q) : Prop :=
  Z.of_nat (length c) = b_d p /\ Forall (fun a => 0 <= a)%Q c /\
  forall k t a beta, nth_error c k = Some a -> nth_error (b_switching p) k = Some beta -> 1 <= t <= b_tend p ->
    ele (server_cost p k t 0) (Fin (a * beta)).
