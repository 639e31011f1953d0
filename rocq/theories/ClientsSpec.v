(** Specifications used by the theorems about concurrent clients. *)
From Verif Require Export ClientsModel.

(** One event happens before another one. *)
Definition precedes {E : Type} (x y : E) (evs : list E) : Prop :=
  exists l1 l2 l3, evs = l1 ++ x :: l2 ++ y :: l3.

(** Nobody makes a new call or dies. *)
Definition internal {A : Type} (evs : list (event (A := A))) : Prop :=
  Forall (fun e => match e with Got _ _ => True | _ => False end) evs.

(** [k] steps of the server and of calls already made. *)
Inductive internal_steps {St B A : Type} (handle : St -> B -> A * option St) (program : nat -> command (B := B)) :
  nat -> system -> list event -> system -> Prop :=
| internal_none s : internal_steps handle program 0 s [] s
| internal_more k s evs s' evs' s'' : internal_steps handle program k s evs s' ->
    step handle program s' evs' s'' -> internal evs' -> internal_steps handle program (S k) s (evs ++ evs') s''.
