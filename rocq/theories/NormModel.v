(** Model of src/distance.rs as far as it is not part of ConvertModel.v and DescentModel.v: the
    Mahalanobis distance.  No proofs. *)
From Verif Require Export DescentModel.
Local Open Scope Z_scope.

(** A matrix, given by its rows (nalgebra's [DMatrix]). *)
Definition matrix : Type := list (list Q).

(** src/config.rs:211-221 -- [Mul for Config], the dot product of two configurations: superfluous
    entries are ignored. *)
Definition config_dot (x y : list Q) : Q := Qsum (map (fun ab => (fst ab * snd ab)%Q) (combine x y)).
(** nalgebra's products of a row and a column and of a matrix and a column: dimensions must agree. *)
Definition row_times (r v : list Q) : outcome Q :=
  if (length r =? length v)%nat then Ok (config_dot r v) else Panic.
Definition matrix_times (m : matrix) (v : list Q) : outcome (list Q) := omap (fun r => row_times r v) m.

(** src/distance.rs:62-82 -- [mahalanobis]; [inverse] is nalgebra's [try_inverse]. *)
Definition mahalanobis (inverse : matrix -> option matrix) (q : matrix) (mean : list Q)
    : outcome (list Q -> outcome Q) :=
  match inverse q with
  | None => Err MatrixMustBeInvertible
  | Some q_i => Ok (fun x => let d := minus x mean in do v <- matrix_times q_i d; row_times d v)
  end.
