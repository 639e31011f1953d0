(** Load balancing with NLopt as the numerical solver: the oracle of LoadModel.v in terms of the one
    of OptimizeModel.v.  No proofs. *)
From Verif Require Export LoadModel OptimizeModel.
From Verif Require Import CostModel.
Local Open Scope Z_scope.

(** src/model/data_center/loads.rs:565-585, src/numerics/convex_optimization.rs:77-84 -- the call of
    [minimize] in [apply_loads]: the objective and the constraints are converted to floats, the
    answer is the point found and its value.  [None] if [minimize] panics; a value of minus
    infinity, which no objective has here, is also [None]. *)
Definition load_minimize (nlopt : nl_problem -> outcome nl_result) (f : list Q -> outcome ext) (bounds : list (Q * Q))
    (init : list Q) (cs : list (list Q -> outcome Q)) : option (list Q * ext) :=
  match OptimizeModel.minimize nlopt (fun x => do c <- f x; Ok (num_of c)) bounds (Some init)
          (map (fun g x => do q <- g x; Ok (Num q)) cs) with
  | Ok (x, Num q) => Some (x, Fin q)
  | Ok (x, PosInf) => Some (x, Inf)
  | _ => None
  end.
