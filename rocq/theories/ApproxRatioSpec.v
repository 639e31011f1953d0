(** Specification used by the approximation guarantee. *)
From Verif Require Export GraphSearchSpec ApproxSearchModel.
Local Open Scope Z_scope.

(** [y] has in every dimension at least the level of [x] and at most [c] times it. *)
Definition raised (c : Q) (x y : list Z) : Prop :=
  Forall2 (fun i j => i <= j /\ (inject_Z j <= c * inject_Z i)%Q) x y.

(** Raising the levels by a factor of at most [c] raises the hitting costs by a factor of at most
    [c]; this holds when hitting costs are sums over active servers of a cost that does not grow
    when each of them has less to do. *)
Definition grows_at_most {C D} (c : Q) (p : ssco C D) : Prop :=
  forall t x y, 1 <= t <= s_tend p -> feasible_config (s_bounds p) x -> feasible_config (s_bounds p) y ->
    raised c x y -> ele (c_cost (s_hit p t y)) (escale c (c_cost (s_hit p t x))).

(** Costs of a load: [sum_k c_k x_k] if the servers suffice for the load, infinite otherwise. *)
Definition load_cost (cs : list Q) (load : Q) (x : list Z) : ext :=
  if Qltb (Qsum (map inject_Z x)) load then Inf
  else Fin (Qsum (map (fun p => fst p * inject_Z (snd p))%Q (combine cs x))).
