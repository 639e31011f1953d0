(** Specification of a format for messages. *)
From Verif Require Export WireModel.
Local Open Scope Z_scope.

(** What is written is read again, whatever follows; and as long as bytes are missing, reading fails
    with an error. *)
Definition reliable {A} (c : codec A) : Prop :=
  (forall v rest, fits c v -> read c (write c v ++ rest) = Read v rest) /\
  (forall v sent missing, fits c v -> write c v = sent ++ missing -> missing <> [] -> read c sent = Malformed).

(** NaN in the format of IEEE 754: all bits of the exponent are set, and some bit of the significand. *)
Definition not_a_number (bits : Z) : Prop := (bits / 2 ^ 52) mod 2 ^ 11 = 2047 /\ bits mod 2 ^ 52 <> 0.

(** Inputs of data centres that a client may hold: numbers of 64 bits that are not NaN (for each time
    slot, type of load and sample), in vectors of fewer than 2^64 elements. *)
Definition short {A} (l : list A) : Prop := Z.of_nat (length l) < 2 ^ 64.
Definition sendable (loads : list (list (list Z))) : Prop :=
  short loads /\ forall profile, In profile loads -> short profile /\
    forall samples, In samples profile -> short samples /\
      forall z, In z samples -> 0 <= z < 2 ^ 64 /\ ~ not_a_number z.

(** Costs, outputs and texts that a server may hold. *)
Definition float (z : Z) : Prop := 0 <= z < 2 ^ 64.
Definition a_text (utf8 : list Z -> bool) (s : list Z) : Prop :=
  short s /\ utf8 s = true /\ forall b, In b s -> 0 <= b < 256.
Definition an_output (utf8 : list Z -> bool) (o : output (Z * (Z * list (list (list Z)))) failure) : Prop :=
  match o with
  | Success (energy, (revenue_loss, assignment)) =>
      float energy /\ float revenue_loss /\ short assignment /\ forall a, In a assignment -> short a /\
        forall b, In b a -> short b /\ forall z, In z b -> float z
  | Failure (InfiniteDelay s n d) => a_text utf8 s /\ float n /\ float d
  | _ => True
  end.
Definition a_cost (utf8 : list Z -> bool) (c : Z * output (Z * (Z * list (list (list Z)))) failure) : Prop :=
  float (fst c) /\ ~ not_a_number (fst c) /\ an_output utf8 (snd c).

(** The entries of a map [m], in some order. *)
Definition lists {A B} (m : A -> option B) (entries : list (A * B)) : Prop :=
  NoDup (map fst entries) /\ forall k v, m k = Some v <-> In (k, v) entries.
