(** Model of a session with a data centre in terms of SCO instances:
    src/model/data_center/model.rs:604-657.  No proofs. *)
From Verif Require Export StreamModel DataCenterModel SessionModel.
From Verif Require Export CostModel.
Local Open Scope Z_scope.

Section Updates.
  Variable powf : Q -> Q -> Q.
  Variable m : data_center.
  Context {T : Type}.
  Variable v : value T.
  Variable minimize :
    (list Q -> outcome ext) -> list (Q * Q) -> list Q -> list (list Q -> outcome Q) -> option (list Q * ext).
  Variable choose_multiple : nat -> list Q -> nat -> list Q.

  (** model.rs:512-536, 637-657 -- [update] of an SCO instance generated by the model
      ([to_sco] in DataCenterModel.v). *)
  Definition dc_update_sco (o : online (gsco T dc_success dc_failure)) (loads : list (list (list Q)))
      : outcome (online (gsco T dc_success dc_failure)) :=
    update_sco (apply_predicted_loads v minimize choose_multiple (dc_d m) (dc_e m) (dc_objective_of powf m v)) o loads.
End Updates.
