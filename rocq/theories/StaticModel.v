(** Model of src/algorithms/offline/multi_dimensional/static_integral.rs.  No proofs. *)
From Verif Require Export CostModel.
Local Open Scope Z_scope.

(** [base_config[k] = j]: panics when [k] is out of range. *)
Fixpoint config_set (x : list Z) (k : nat) (j : Z) : outcome (list Z) :=
  match x, k with
  | [], _ => Panic
  | _ :: r, O => Ok (j :: r)
  | i :: r, S k' => do r' <- config_set r k' j; Ok (i :: r')
  end.

Section Static.
  Context {C D : Type}.
  Variable vmerge : C -> C -> outcome C.
  Variable merge : C -> C -> C.
  Variable outside : D.
  (** rayon's division of the parallel sum, for each evaluated configuration. *)
  Variable sched : list Z -> split.
  Variable p : gsco Z C D.

  (** static_integral.rs:63-71 -- the objective of the schedule repeating [config]
      ([objective_function], src/problem.rs:90-102). *)
  Definition static_cost (config : list Z) : outcome ext :=
    do c <- objective_o merge (sched config) (gsco_problem valZ vmerge outside p)
              (repeat config (Z.to_nat (o_tend p))) (gzero valZ (o_d p)) 1 false (o_tend p);
    Ok (c_cost c).

  (** static_integral.rs:49-59 -- the loop over the values of one dimension: [eval j] is
      the recursive call. *)
  Fixpoint pick_value (eval : Z -> outcome (list Z * ext)) (js : list Z)
      (picked : list Z * ext) : outcome (list Z * ext) :=
    match js with
    | [] => Ok picked
    | j :: js' =>
        do r <- eval j;
        if eltb (snd r) (snd picked) then pick_value eval js' r
        else if eltb (snd picked) (snd r) then Ok picked
        else pick_value eval js' picked
    end.

  (** static_integral.rs:35-73 -- [check_configs]; [n] is the number of dimensions left,
      [d - k]. *)
  Fixpoint check_configs (n k : nat) (base_config : list Z) : outcome (list Z * ext) :=
    match n with
    | O => do c <- static_cost base_config; Ok (base_config, c)
    | S n' =>
        do b <- from_option (nth_error (o_bounds p) k);
        pick_value (fun j => do x <- config_set base_config k j; check_configs n' (S k) x)
          (zrange (fst b) (snd b)) (base_config, Inf)
    end.

  (** static_integral.rs:14-33 -- [static_integral]; [alpha] is passed on and never
      used. *)
  Definition static_integral (inverted : bool) (alpha : Q) (l : option Q) : outcome (list (list Z)) :=
    if inverted then Err UnsupportedInvertedCost
    else if match l with None => false | Some q => negb (Qeq_bool q 0) end
    then Err UnsupportedLConstrainedMovement
    else
      do r <- check_configs (Z.to_nat (o_d p)) 0 (repeat 0 (Z.to_nat (o_d p)));
      Ok (repeat (fst r) (Z.to_nat (o_tend p))).
End Static.
