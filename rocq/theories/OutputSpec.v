(** Independent specification of combined model outputs. *)
From Verif Require Export ProblemModel.

Section Spec.
  Context {C D : Type}.

  (** The first failure in a list of outputs. *)
  Fixpoint first_failure (l : list (model_output C D)) : option D :=
    match l with
    | [] => None
    | MFailure d :: _ => Some d
    | _ :: r => first_failure r
    end.

  (** The successful outputs, in order. *)
  Fixpoint successes (l : list (model_output C D)) : list C :=
    match l with
    | [] => []
    | MSuccess c :: r => c :: successes r
    | _ :: r => successes r
    end.

  (** The combination: the first failure dominates, otherwise the successes are
      merged from left to right, otherwise there is no output. *)
  Definition combined (merge : C -> C -> C) (l : list (model_output C D)) : model_output C D :=
    match first_failure l with
    | Some d => MFailure d
    | None =>
        match successes l with
        | [] => MNone
        | c :: cs => MSuccess (fold_left merge cs c)
        end
    end.

  (** Equal outputs, successes being compared by [R]. *)
  Definition same_output (R : C -> C -> Prop) (a b : model_output C D) : Prop :=
    match a, b with
    | MSuccess x, MSuccess y => R x y
    | MFailure d, MFailure e => d = e
    | MNone, MNone => True
    | _, _ => False
    end.

  Definition is_nil {A} (l : list A) : bool := match l with [] => true | _ => false end.
End Spec.
