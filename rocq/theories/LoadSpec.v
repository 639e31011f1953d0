(** Independent specification for load distributions. *)
From Verif Require Export LoadModel.
Local Open Scope Z_scope.

(** A distribution of one load over [n] dimensions as the solver sees it: non-negative
    fractions for all but the last dimension, which takes the rest. *)
Definition distribution (n : nat) (zs : list Q) : Prop :=
  length zs = (n - 1)%nat /\ Forall (fun z => 0 <= z)%Q zs /\ (Qsum zs <= 1)%Q.

(** What an objective is worth to the solver: failures count as infinity. *)
Definition objective_value (o : outcome (result dc_objective)) : option ext :=
  match o with
  | Ok (ROk c) => Some (obj_total c)
  | Ok (RErr _) => Some Inf
  | _ => None
  end.

(** The number of a cost, if the call succeeds. *)
Definition cost_number {C D} (o : outcome (cost C D)) : option ext :=
  match o with Ok c => Some (c_cost c) | _ => None end.

(** Scalar product. *)
Definition dot (a b : list Q) : Q := Qsum (map (fun p => fst p * snd p)%Q (combine a b)).
