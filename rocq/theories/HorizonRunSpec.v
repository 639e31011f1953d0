(** Specification of the cost of whole runs of horizon control. *)
From Verif Require Export HorizonSpec StreamSpec.
Local Open Scope Z_scope.

(** The same instance with another last slot. *)
Definition ending {C D} (p : gssco Q C D) (T : Z) : gssco Q C D :=
  mkGSSCO (g_d p) T (g_bounds p) (g_switching p) (g_cost p).

(** The first [n] configurations of a user who, in slot t, hands to [next] the instance which
    ends in slot [ends t] together with the configurations chosen so far. *)
Fixpoint advised {C D} (next : gssco Q C D -> list (list Q) -> outcome (list Q)) (p : gssco Q C D)
    (ends : Z -> Z) (n : nat) : outcome (list (list Q)) :=
  match n with
  | O => Ok []
  | S n' =>
      do xs <- advised next p ends n';
      do x <- next (ending p (ends (Z.of_nat n))) xs;
      Ok (xs ++ [x])
  end.

(** sum over k of e_k * x_k *)
Fixpoint weighted (e x : list Q) : Q :=
  match e, x with
  | a :: es, j :: js => (a * j + weighted es js)%Q
  | _, _ => 0%Q
  end.

(** In the slots 1..T every active server of type k costs at least e_k per slot, and powering
    it up costs at most c times as much. *)
Definition costly_operation (hit : Z -> list Q -> ext) (beta e bounds : list Q) (c : Q) (T : Z) : Prop :=
  (0 <= c)%Q /\
  Forall2 (fun b a => 0 <= b /\ 0 <= a /\ b <= c * a)%Q beta e /\
  forall s x, 1 <= s <= T -> within_bounds bounds x -> ele (Fin (weighted e x)) (hit s x).

(** Hitting costs are convex within the bounds. *)
Definition convex_hitting (hit : Z -> list Q -> ext) (bounds : list Q) (T : Z) : Prop :=
  forall s xs x, 1 <= s <= T -> xs <> [] -> Forall (within_bounds bounds) xs -> within_bounds bounds x ->
  average_config xs x ->
  ele (hit s x) (escale (1 / inject_Z (Z.of_nat (length xs))) (fold_right eadd (Fin 0) (map (hit s) xs))).

(** A schedule with [n] configurations within the bounds. *)
Definition fractional_schedule (bounds : list Q) (n : Z) (xs : list (list Q)) : Prop :=
  Z.of_nat (length xs) = n /\ Forall (within_bounds bounds) xs.

(** The configurations and the memory of a user who, in slot t, hands to [next] the instance
    which ends in slot t. *)
Fixpoint advised_memory {C D M} (next : gssco Q C D -> list (list Q) -> option M -> outcome (list Q * M))
    (p : gssco Q C D) (n : nat) : outcome (list (list Q) * option M) :=
  match n with
  | O => Ok ([], None)
  | S n' =>
      do r <- advised_memory next p n';
      do s <- next (ending p (Z.of_nat n)) (fst r) (snd r);
      Ok (fst r ++ [fst s], Some (snd s))
  end.
