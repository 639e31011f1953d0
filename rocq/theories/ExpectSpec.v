(** Specification used by the theorem about randomised lazy budgeting. *)
From Coq Require Import Reals Qreals.
From Verif Require Export ExpectModel.
From Verif Require Import BudgetSpec CostModel.

(** [draw r] is the floating-point number kept in the memory if [r] is drawn from the unit
    interval: the numbers of slots it stands for are those of the exact number. *)
Definition draws (p : gslo Z) (draw : R -> Q) : Prop :=
  forall r, (0 <= r <= 1)%R -> (0 <= draw r)%Q /\
    forall k b h, nth_error (l_switching p) k = Some b -> nth_error (l_hitting p) k = Some h ->
      Qround.Qfloor (draw r * b / h) = Int_part (sample_gamma r * (Q2R b / Q2R h))%R.
