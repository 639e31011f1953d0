(** Model of whole runs of receding and averaging fixed horizon control: the two algorithms
    with the calling convention of the streaming functions.  No proofs. *)
From Verif Require Export StreamModel HorizonModel.
Local Open Scope Z_scope.

Section Runs.
  Context {C D : Type}.
  Variable vmerge : C -> C -> outcome C.
  Variable merge : C -> C -> C.
  Variable outside : D.
  Variable sched : list Q -> split.
  Variable minimize : (list Q -> outcome ext) -> list (Q * Q) -> list (list Q -> outcome Q) -> outcome (list Q).

  (** receding_horizon_control.rs:10-24 -- [rhc] as an online algorithm: the prediction
      window is the one of the online instance, the memory is the unit type and the step
      returns none. *)
  Definition rhc_alg (o : online (gssco Q C D)) (t : Z) (xs : list (list Q)) (_ : unit)
      : outcome (list Q * option unit) :=
    do x <- rhc vmerge merge outside sched minimize (on_p o) (on_w o) t xs;
    Ok (x, None).

  (** averaging_fixed_horizon_control.rs:41-61 -- [afhc] as an online algorithm; the step
      returns the memory. *)
  Definition afhc_alg (o : online (gssco Q C D)) (t : Z) (xs : list (list Q)) (m : list (list Q))
      : outcome (list Q * option (list (list Q))) :=
    do r <- afhc vmerge merge outside sched minimize (on_p o) (on_w o) t m;
    Ok (fst r, Some (snd r)).

  (** averaging_fixed_horizon_control.rs:31-37 -- the default memory. *)
  Definition afhc_dflt (o : online (gssco Q C D)) : list (list Q) := afhc_default (on_p o) (on_w o).
End Runs.
