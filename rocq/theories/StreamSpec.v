(** Specification used by the theorems about streaming. *)
From Verif Require Export StreamModel.
Local Open Scope Z_scope.

(** Setting the horizon of a problem sets the horizon and nothing else. *)
Definition lawful_ops {P X C D} (ops : problem_ops P X C D) : Prop :=
  (forall p t, po_tend ops (po_set ops p t) = t) /\
  (forall p t u, po_set ops (po_set ops p t) u = po_set ops p u) /\
  (forall p, po_set ops p (po_tend ops p) = p).

(** An online problem at slot [t]. *)
Definition at_slot {P X C D} (ops : problem_ops P X C D) (o : online P) (t : Z) : online P :=
  mkOnline (po_set ops (on_p o) t) (on_w o).

(** [ys] are the configurations an algorithm chooses for the slots following the schedule
    [xs], one per slot, when the problem is only extended from slot to slot; [m'] is the final
    memory (the memory is reset to the default if the algorithm returned none). *)
Inductive chooses {P X C D M} (ops : problem_ops P X C D)
    (alg : online P -> Z -> list X -> M -> outcome (X * option M)) (default : online P -> M) (o : online P)
    : list X -> option M -> list X -> option M -> Prop :=
| chooses_none xs m : chooses ops alg default o xs m [] m
| chooses_one xs m x m1 ys m' :
    let t := Z.of_nat (length xs) + 1 in
    alg (at_slot ops o t) t xs (match m with None => default (at_slot ops o t) | Some m0 => m0 end) = Ok (x, m1) ->
    chooses ops alg default o (xs ++ [x]) m1 ys m' ->
    chooses ops alg default o xs m (x :: ys) m'.

(** The answers up to (not including) the first failure. *)
Fixpoint answered {X C D M Y} (l : list (@answer X C D M Y)) : list (@online_response X C D M Y) :=
  match l with
  | Answered r :: l' => r :: answered l'
  | _ => []
  end.

(** Updates of an online problem that move on to the next slot. *)
Definition advances {P X C D B} (ops : problem_ops P X C D) (update : online P -> B -> outcome (online P)) : Prop :=
  forall o b o', update o b = Ok o' -> po_tend ops (on_p o') = po_tend ops (on_p o) + 1 /\ on_w o' = on_w o.

(** Successive updates. *)
Fixpoint updates {A B} (update : A -> B -> outcome A) (o : A) (bs : list B) : outcome A :=
  match bs with
  | [] => Ok o
  | b :: r => do o' <- update o b; updates update o' r
  end.

(** The cost functions registered by successive updates for the slots [t], [t + 1], ... *)
Fixpoint registrations {T C D B} (predicted : B -> Z -> single_fn (list T) C D) (t : Z) (bs : list B)
    : list (Z * single_fn (list T) C D) :=
  match bs with
  | [] => []
  | b :: r => (t, predicted b t) :: registrations predicted (t + 1) r
  end.
