(** Model of src/algorithms/online/uni_dimensional/randomized.rs and of the helpers of
    src/utils.rs it uses.  No proofs. *)
From Verif Require Export StreamModel ConvertModel.
From Verif Require Export CostModel.
Local Open Scope Z_scope.

(** src/utils.rs:18-20 -- [frac]. *)
Definition frac (x : Q) : Q := (x - inject_Z (Qfloor x))%Q.
(** src/utils.rs:23-32 -- [max]. *)
Definition fmax (x y : Q) : Q := if Qltb y x then x else y.
(** src/utils.rs:35-44 -- [min]. *)
Definition fmin (x y : Q) : Q := if Qltb y x then y else x.
(** src/utils.rs:55-60 -- [project]. *)
Definition project (x a b : Q) : Q := fmax a (fmin b x).

(** [r <= num / den] for floats: dividing by zero gives an infinity with the sign of [num], or
    not-a-number, which is not greater than anything. *)
Definition at_most_ratio (r num den : Q) : bool :=
  if Qeq_bool den 0 then Qltb 0 num else Qle_bool r (num / den)%Q.

(** randomized.rs:156-190 -- [next]; [r] is the sample drawn from [0, 1]
    (src/utils.rs:77-80). *)
Definition next (prev_x : Z) (prev_y y r : Q) : Z :=
  if Qle_bool prev_y y then
    if prev_x =? Qceiling y then prev_x
    else
      let prev_y_proj := project prev_y (inject_Z (Qfloor y)) (inject_Z (Qceiling y)) in
      if at_most_ratio r (y - prev_y_proj)%Q (1 - frac prev_y_proj)%Q then Qceiling y else Qfloor y
  else
    if prev_x =? Qfloor y then prev_x
    else
      let prev_y_proj := project prev_y (inject_Z (Qfloor y)) (inject_Z (Qceiling y)) in
      if at_most_ratio r (prev_y_proj - y)%Q (frac prev_y_proj)%Q then Qfloor y else Qceiling y.

(** randomized.rs:34-47 -- [Memory] and its default. *)
Record rand_memory (M : Type) : Type := mkRM { rm_y : list Q; rm_relax : option M }.
Arguments mkRM {M} rm_y rm_relax.
Arguments rm_y {M} r.
Arguments rm_relax {M} r.
Definition rand_default {M} : rand_memory M := mkRM [0%Q] None.

Section Randomized.
  Context {C D M : Type}.
  Variable vmerge : C -> C -> outcome C.
  (** randomized.rs:69-123 -- [ExecutableRelaxation::execute]: a step of the fractional
      algorithm. *)
  Variable execute : online (gssco Q C D) -> list (list Q) -> option M -> outcome (list Q * option M).

  (** randomized.rs:128-154 -- [randomized] with the sample [r]. *)
  Definition randomized (r : Q) (o : online (gssco Z C D)) (_ : Z) (xs : list (list Z)) (prev_m : rand_memory M)
      : outcome (list Z * option (rand_memory M)) :=
    if negb (on_w o =? 0) then Err UnsupportedPredictionWindow
    else if negb (g_d (on_p o) =? 1) then Err UnsupportedProblemDimension
    else
      do s <- execute (mkOnline (ssco_into_f vmerge (on_p o)) (on_w o)) (schedule_to xs) (rm_relax prev_m);
      do prev_x <- from_option (nth_error (last xs [0]) 0);
      do prev_y <- from_option (nth_error (rm_y prev_m) 0);
      do y <- from_option (nth_error (fst s) 0);
      Ok ([next prev_x prev_y y r], Some (mkRM (fst s) (snd s))).
End Randomized.
