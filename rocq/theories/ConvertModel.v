(** Model of src/convert.rs and of the parts of src/schedule.rs, src/config.rs and
    src/distance.rs it uses.  No proofs. *)
From Coq Require Import Qabs.
From Verif Require Export CostModel.
Local Open Scope Z_scope.

(** ** Rounding and casting (src/convert.rs:23-55, 353-412; src/value.rs:45-78).
    [as i32] is exact here (no saturation); [NumCast] to an integer is not used. *)

(** src/convert.rs:34-36, 364-366 -- [ceil] of a vector / configuration. *)
Definition config_ceil (x : list Q) : list Z := map Qceiling x.
(** src/convert.rs:38-40, 368-370 -- [floor]. *)
Definition config_floor (x : list Q) : list Z := map Qfloor x.
(** src/convert.rs:52-54, 382-384 -- [to], from integers to floats. *)
Definition config_to (x : list Z) : list Q := map inject_Z x.
(** src/convert.rs:396-398 -- [Schedule::to_i]. *)
Definition schedule_to_i (xs : list (list Q)) : list (list Z) := map config_ceil xs.
(** src/convert.rs:410-412 -- [Schedule::to], from integers to floats. *)
Definition schedule_to (xs : list (list Z)) : list (list Q) := map config_to xs.

Section CostConversions.
  Context {C D : Type}.
  (** [vertical_merge]. *)
  Variable vmerge : C -> C -> outcome C.

  (** src/convert.rs:72-80 -- [CostFn::into_i]. *)
  Definition cf_into_i (cf : cost_fn (list Q) C D) : cost_fn (list Z) C D :=
    cf_new 1 (certain (fun t x => call_certain cf t (config_to x))).

  (** src/convert.rs:97-126 -- [CostFn::into_f]; [j.fract() == 0] holds iff [j] is an
      integer. *)
  Definition cf_into_f (cf : cost_fn (list Z) C D) : cost_fn (list Q) C D :=
    cf_new 1 (certain (fun t x =>
      match x with
      | [j] =>
          if Qeq_bool j (inject_Z (Qfloor j)) then call_certain cf t [Qfloor j]
          else
            do lower <- call_certain cf t [Qfloor j];
            do upper <- call_certain cf t [Qceiling j];
            do o <- vertical_reduce vmerge [c_out lower; c_out upper];
            Ok (mkCost (eadd (escale (inject_Z (Qceiling j) - j) (c_cost lower))
                             (escale (j - inject_Z (Qfloor j)) (c_cost upper))) o)
      | _ => Panic
      end)).

  (** src/convert.rs:144-152 -- [SSCO::into_i]. *)
  Definition ssco_into_i (p : gssco Q C D) : gssco Z C D :=
    mkGSSCO (g_d p) (g_tend p) (config_floor (g_bounds p)) (g_switching p) (cf_into_i (g_cost p)).

  (** src/convert.rs:170-180 -- [SSCO::into_f]. *)
  Definition ssco_into_f (p : gssco Z C D) : gssco Q C D :=
    mkGSSCO (g_d p) (g_tend p) (config_to (g_bounds p)) (g_switching p) (cf_into_f (g_cost p)).
End CostConversions.

Section IntoSCO.
  Context {T C D : Type}.
  Variable v : value T.
  Variable vmerge : C -> C -> outcome C.
  Variable outside : D.

  (** src/distance.rs:35-48 -- [manhattan_scaled]; indexing [switching_cost] panics when
      it is too short. *)
  Fixpoint manhattan_scaled (switching_cost : list Q) (x : list T) : outcome Q :=
    match x with
    | [] => Ok 0%Q
    | j :: x' =>
        match switching_cost with
        | b :: bs => do r <- manhattan_scaled bs x'; Ok (b / 2 * Qabs.Qabs (v_toQ v j) + r)%Q
        | [] => Panic
        end
    end.

  (** src/convert.rs:191-218 -- [SSCO::into_sco]. *)
  Definition into_sco (p : gssco T C D) : gsco T C D :=
    mkGSCO (g_d p) (g_tend p) (map (fun u => (v_zero v, u)) (g_bounds p))
      (manhattan_scaled (g_switching p))
      (cf_new 1 (certain (fun t x =>
         if t =? g_tend p then
           do hitting_cost <- gssco_hit v vmerge outside p t x;
           do m <- manhattan_scaled (g_switching p) x;
           Ok (mkCost (eadd (c_cost hitting_cost) (Fin m)) (c_out hitting_cost))
         else gssco_hit v vmerge outside p t x))).
End IntoSCO.

Section Reset.
  Context {X C D : Type}.

  (** src/utils.rs:82-85 -- [shift_time]. *)
  Definition shift_time (t t_start : Z) : Z := t + t_start - 1.

  (** src/convert.rs:426-438 -- [CostFn::reset]. *)
  Definition cf_reset (cf : cost_fn X C D) (t_start : Z) : cost_fn X C D :=
    cf_new 1 (fun t j =>
      let shifted_t := shift_time t (t_start + 1) in
      if 1 <=? shifted_t then call_predictive cf shifted_t j else Ok [cost_default]).

  (** src/schedule.rs:84-87, src/convert.rs:466-468 -- [Schedule::skip], [reset]; a negative
      [delta] becomes a huge [usize], so everything is skipped. *)
  Definition schedule_skip (xs : list X) (delta : Z) : list X :=
    if delta <? 0 then [] else skipn (Z.to_nat delta) xs.
End Reset.

(** src/convert.rs:448-459 -- [SSCO::reset]. *)
Definition ssco_reset {T C D} (p : gssco T C D) (t_start : Z) : gssco T C D :=
  mkGSSCO (g_d p) (g_tend p - t_start) (g_bounds p) (g_switching p) (cf_reset (g_cost p) t_start).

(** ** Raw encodings (src/schedule.rs:94-132) *)
Section Raw.
  Context {A : Type}.

  (** src/schedule.rs:129-132 -- [raw_encoding_len]. *)
  Definition raw_encoding_len (d w : Z) : Z := d * w.

  (** src/schedule.rs:97-113 -- [from_raw].  The slice [raw_xs[i..i+d]] panics if it is
      out of range (it never is after the length check). [w as usize] and [d as usize]
      of a negative number are huge; the model answers [Panic] there (a negative length
      product is rejected by the assertion; [d < 0] and [w < 0] together would try to
      allocate). *)
  Definition from_raw (d w : Z) (raw_xs : list A) : outcome (list (list A)) :=
    if Z.of_nat (length raw_xs) =? raw_encoding_len d w then
      if (d <? 0) || (w <? 0) then Panic
      else Ok (map (fun t => firstn (Z.to_nat d) (skipn (Z.to_nat d * t) raw_xs))
                   (seq 0 (Z.to_nat w)))
    else Panic.

  (** src/schedule.rs:116-127 -- [build_raw]. *)
  Definition build_raw (w : Z) (x : list A) : outcome (list A) :=
    if w <? 0 then Panic else
    let raw_xs := flat_map (fun _ => x) (seq 0 (Z.to_nat w)) in
    if Z.of_nat (length raw_xs) =? raw_encoding_len (Z.of_nat (length x)) w then Ok raw_xs else Panic.
End Raw.
