(** Independent specification for conversions between problems, schedules and encodings. *)
From Verif Require Export ConvertModel ObjectiveSpec CostSpec.
Local Open Scope Z_scope.

(** Convexity of an extended-valued function on the rationals of [0, m]. *)
Definition convex_on_Q (m : Z) (F : Q -> option ext) : Prop :=
  forall (a b c qa qc : Q), (0 <= a <= b)%Q -> (b <= c <= inject_Z m)%Q ->
  F a = Some (Fin qa) -> F c = Some (Fin qc) ->
  exists qb, F b = Some (Fin qb) /\ ((c - a) * qb <= (c - b) * qa + (b - a) * qc)%Q.

(** The number of a cost, if the computation succeeds. *)
Definition number {C D} (o : outcome (cost C D)) : option ext :=
  match o with Ok c => Some (c_cost c) | _ => None end.

(** Point-wise order between fractional and integral schedules. *)
Definition config_below (x : list Q) (z : list Z) : Prop := Forall2 (fun q j => (q <= inject_Z j)%Q) x z.
Definition config_above (x : list Q) (z : list Z) : Prop := Forall2 (fun q j => (inject_Z j <= q)%Q) x z.
Definition configs_le (x y : list Z) : Prop := Forall2 Z.le x y.

(** Flattening a schedule. *)
Definition flatten {A} (xs : list (list A)) : list A := concat xs.
