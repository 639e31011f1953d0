(** Independent specification for the start of load balancing: which loads the solver is
    started with. *)
From Verif Require Export LoadModel OptimizeSpec.
Local Open Scope Z_scope.

(** Server types with active servers. *)
Definition busy {T} (v : value T) (j : T) : bool := Qltb 0 (v_toQ v j).
Definition busy_types {T} (v : value T) (x : list T) : nat := length (filter (busy v) x).

(** Spreading [amount] evenly over [n] parties. *)
Definition even_part (amount : Q) (n : nat) : Q := (amount / inject_Z (Z.of_nat n))%Q.

(** The solver never answers anything worse than the point it starts from. *)
Definition improves_start
    (minimize : (list Q -> outcome ext) -> list (Q * Q) -> list Q -> list (list Q -> outcome Q) -> option (list Q * ext)) : Prop :=
  forall f bounds init cs xs e e0, minimize f bounds init cs = Some (xs, e) -> f init = Ok e0 -> ele e e0.

(** The solver evaluates the objective at the point it starts from. *)
Definition evaluates_start
    (minimize : (list Q -> outcome ext) -> list (Q * Q) -> list Q -> list (list Q -> outcome Q) -> option (list Q * ext)) : Prop :=
  forall f bounds init cs, f init = Panic -> minimize f bounds init cs = None.

(** The cost of spreading the load [l] evenly over the server types with active servers:
    every server of type [k] then handles [l / (n x_k)], at cost [g k]. *)
Definition even_cost {T} (v : value T) (g : nat -> Q -> Q) (l : Q) (x : list T) : Q :=
  Qsum (map (fun k => match nth_error x k with
                      | Some j => if busy v j
                                  then v_toQ v j * g k (even_part l (busy_types v x) / v_toQ v j)
                                  else 0
                      | None => 0
                      end)%Q (seq 0 (length x))).
