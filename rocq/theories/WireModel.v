(** Model of what clients and the server of src/streaming/online.rs write to and read from their
    connections: the format of bincode 1.3.3 with its default options (fixed-width little-endian
    numbers), the derived and hand-written implementations of [Serialize] and [Deserialize].
    No proofs.  Numbers of type [f64] are their 64 bits, bytes are numbers from 0 to 255. *)
From Coq Require Export ZArith List Bool Lia.
Export ListNotations.
Local Open Scope Z_scope.

(** The result of reading a value: the value and the bytes behind it; an error of bincode (also if the
    bytes end too early); a panic. *)
Inductive parse (A : Type) : Type :=
| Read (a : A) (rest : list Z)
| Malformed
| Crash.
Arguments Read {A} a rest.
Arguments Malformed {A}.
Arguments Crash {A}.

Definition pbind {A B} (m : parse A) (f : A -> list Z -> parse B) : parse B :=
  match m with Read a rest => f a rest | Malformed => Malformed | Crash => Crash end.

(** The values of a type, how they are written and how they are read. *)
Record codec (A : Type) : Type := mkCodec {
  fits : A -> Prop;
  write : A -> list Z;
  read : list Z -> parse A
}.
Arguments mkCodec {A} fits write read.
Arguments fits {A} c a.
Arguments write {A} c a.
Arguments read {A} c l.

(** ** bincode *)
(** Unsigned numbers of [n] bytes. *)
Fixpoint write_le (n : nat) (z : Z) : list Z :=
  match n with O => [] | S n' => z mod 256 :: write_le n' (z / 256) end.
Fixpoint read_le (n : nat) (l : list Z) : parse Z :=
  match n, l with
  | O, _ => Read 0 l
  | S _, [] => Malformed
  | S n', b :: l' => pbind (read_le n' l') (fun z rest => Read (b + 256 * z) rest)
  end.
Definition uint (n : nat) : codec Z := mkCodec (fun z => 0 <= z < 256 ^ Z.of_nat n) (write_le n) (read_le n).
(** [i32], in two's complement. *)
Definition i32 : codec Z :=
  mkCodec (fun z => - 2 ^ 31 <= z < 2 ^ 31) (fun z => write_le 4 (z mod 2 ^ 32))
    (fun l => pbind (read_le 4 l) (fun z rest => Read (if z <? 2 ^ 31 then z else z - 2 ^ 32) rest)).
Definition f64 : codec Z := uint 8.
Definition u128 : codec Z := uint 16.
(** [()]. *)
Definition nothing : codec unit := mkCodec (fun _ => True) (fun _ => []) (fun l => Read tt l).
(** [bool]: a byte 0 or 1. *)
Definition boolean : codec bool :=
  mkCodec (fun _ => True) (fun v : bool => [if v then 1 else 0])
    (fun l => match l with
              | [] => Malformed
              | b :: l' => if b =? 0 then Read false l' else if b =? 1 then Read true l' else Malformed
              end).
(** Tuples and the fields of a struct, one after the other. *)
Definition pair {A B} (c : codec A) (d : codec B) : codec (A * B) :=
  mkCodec (fun v => fits c (fst v) /\ fits d (snd v)) (fun v => write c (fst v) ++ write d (snd v))
    (fun l => pbind (read c l) (fun a rest => pbind (read d rest) (fun b rest => Read (a, b) rest))).
(** [Option]: a byte 0 or 1. *)
Definition option_of {A} (c : codec A) : codec (option A) :=
  mkCodec (fun v => match v with Some a => fits c a | None => True end)
    (fun v => match v with Some a => 1 :: write c a | None => [0] end)
    (fun l => match l with
              | [] => Malformed
              | tag :: l' =>
                  if tag =? 0 then Read None l'
                  else if tag =? 1 then pbind (read c l') (fun a rest => Read (Some a) rest)
                  else Malformed
              end).
(** [Vec]: the length as [u64], then the elements. *)
Fixpoint read_n {A} (r : list Z -> parse A) (n : nat) (l : list Z) : parse (list A) :=
  match n with
  | O => Read [] l
  | S n' => pbind (r l) (fun a rest => pbind (read_n r n' rest) (fun v rest => Read (a :: v) rest))
  end.
Definition vec {A} (c : codec A) : codec (list A) :=
  mkCodec (fun v => Forall (fits c) v /\ Z.of_nat (length v) < 256 ^ 8)
    (fun v => write_le 8 (Z.of_nat (length v)) ++ flat_map (write c) v)
    (fun l => pbind (read_le 8 l) (fun n rest => read_n (read c) (Z.to_nat n) rest)).
(** Enumerations: the number of the variant as [u32], then its fields. *)
Definition either {A B} (c : codec A) (d : codec B) : codec (A + B) :=
  mkCodec (fun v => match v with inl a => fits c a | inr b => fits d b end)
    (fun v => match v with inl a => write_le 4 0 ++ write c a | inr b => write_le 4 1 ++ write d b end)
    (fun l => pbind (read_le 4 l) (fun tag rest =>
       if tag =? 0 then pbind (read c rest) (fun a rest => Read (inl a) rest)
       else if tag =? 1 then pbind (read d rest) (fun b rest => Read (inr b) rest)
       else Malformed)).

(** [HashMap]: its entries, in an arbitrary order, like a vector of pairs. *)
Definition hash_map {A B} (c : codec A) (d : codec B) : codec (list (A * B)) := vec (pair c d).
(** The map that is read: the entries are inserted one after the other. *)
Definition collect {A B} (eqb : A -> A -> bool) (l : list (A * B)) : A -> option B :=
  fold_left (fun m e k => if eqb (fst e) k then Some (snd e) else m k) l (fun _ => None).

(** Values that [n64] accepts: all but NaN. *)
Definition is_nan (bits : Z) : bool := 2047 * 2 ^ 52 <? bits mod 2 ^ 63.
(** A hand-written [deserialize] that calls [n64] on what it has read; NaN panics (in builds with debug
    assertions, such as those of the tests; other builds go on with NaN, which is not modelled). *)
Definition checked {A} (bad : A -> bool) (c : codec A) : codec A :=
  mkCodec (fun v => fits c v /\ bad v = false) (write c)
    (fun l => pbind (read c l) (fun a rest => if bad a then Crash else Read a rest)).

Section Messages.
  (** Whether bytes are UTF-8, as those of every [String] are. *)
  Variable utf8 : list Z -> bool.
  Definition text : codec (list Z) :=
    mkCodec (fun v => fits (vec (uint 1)) v /\ utf8 v = true) (write (vec (uint 1)))
      (fun l => pbind (read (vec (uint 1)) l) (fun v rest => if utf8 v then Read v rest else Malformed)).

  (** ** Requests *)
  (** model/data_center/loads.rs:272-284 -- [PredictedLoadProfile]: types of loads, samples. *)
  Definition load_profile : codec (list (list Z)) := checked (existsb (existsb is_nan)) (vec (vec f64)).
  (** model/data_center/model.rs:594-599 -- [DataCenterOnlineInput]. *)
  Definition online_input : codec (list (list (list Z))) := vec load_profile.

  (** ** Responses *)
  (** model/data_center/mod.rs:17-28 -- [DataCenterModelOutputSuccess]: energy cost, revenue loss, assignments. *)
  Definition success : codec (Z * (Z * list (list (list Z)))) := pair f64 (pair f64 (vec (vec (vec f64)))).
  (** model/data_center/mod.rs:67-83 -- [DataCenterModelOutputFailure]. *)
  Inductive failure : Type :=
  | DemandExceedingSupply
  | InfiniteDelay (server_type : list Z) (number_of_jobs mean_job_duration : Z)
  | LoadToInactiveServer
  | OutsideDecisionSpace
  | SLOMaxUtilizationExceeded.
  Definition delay : codec (list Z * (Z * Z)) := pair text (pair f64 f64).
  Definition dc_failure : codec failure :=
    mkCodec
      (fun v => match v with InfiniteDelay s n d => fits delay (s, (n, d)) | _ => True end)
      (fun v => match v with
                | DemandExceedingSupply => write_le 4 0
                | InfiniteDelay s n d => write_le 4 1 ++ write delay (s, (n, d))
                | LoadToInactiveServer => write_le 4 2
                | OutsideDecisionSpace => write_le 4 3
                | SLOMaxUtilizationExceeded => write_le 4 4
                end)
      (fun l => pbind (read_le 4 l) (fun tag rest =>
         if tag =? 0 then Read DemandExceedingSupply rest
         else if tag =? 1 then pbind (read delay rest) (fun v rest => Read (InfiniteDelay (fst v) (fst (snd v)) (snd (snd v))) rest)
         else if tag =? 2 then Read LoadToInactiveServer rest
         else if tag =? 3 then Read OutsideDecisionSpace rest
         else if tag =? 4 then Read SLOMaxUtilizationExceeded rest
         else Malformed)).
  (** model/mod.rs:48-53 -- [ModelOutput]. *)
  Inductive output (C D : Type) : Type := Success (c : C) | Failure (d : D) | NoOutput.
  Arguments Success {C D} c.
  Arguments Failure {C D} d.
  Arguments NoOutput {C D}.
  Definition model_output {C D} (c : codec C) (d : codec D) : codec (output C D) :=
    mkCodec
      (fun v => match v with Success a => fits c a | Failure b => fits d b | NoOutput => True end)
      (fun v => match v with
                | Success a => write_le 4 0 ++ write c a
                | Failure b => write_le 4 1 ++ write d b
                | NoOutput => write_le 4 2
                end)
      (fun l => pbind (read_le 4 l) (fun tag rest =>
         if tag =? 0 then pbind (read c rest) (fun a rest => Read (Success a) rest)
         else if tag =? 1 then pbind (read d rest) (fun b rest => Read (Failure b) rest)
         else if tag =? 2 then Read NoOutput rest
         else Malformed)).
  (** cost.rs:85-107 -- [Cost]: as the pair of a number and the output. *)
  Definition cost {C D} (c : codec C) (d : codec D) : codec (Z * output C D) :=
    checked (fun v => is_nan (fst v)) (pair f64 (model_output c d)).
  (** streaming/online.rs:42-51 -- [OnlineResponse]; [config.rs:21-22]: a configuration is its vector. *)
  Definition response {T C D M} (t : codec T) (c : codec C) (d : codec D) (m : codec M) :
      codec (((list T * (Z * output C D)) * ((list Z * (Z * output C D)) * (option M * Z))) + list Z) :=
    either (pair (pair (vec t) (cost c d)) (pair (pair (vec i32) (cost c d)) (pair (option_of m) u128))) text.

  (** ** Memories *)
  (** lazy_capacity_provisioning.rs:15-19 and capacity_provisioning.rs:21-25. *)
  Definition lcp_memory {T} (t : codec T) : codec (list (T * T)) := vec (pair t t).
  (** averaging_fixed_horizon_control.rs:15-19. *)
  Definition afhc_memory : codec (list (list Z)) := vec (vec f64).
  (** randomly_biased_greedy.rs:16-20. *)
  Definition rbg_memory : codec Z := f64.
  (** randomized.rs:34-40. *)
  Definition randomized_memory {M} (m : codec M) : codec (list Z * option M) := pair (vec f64) (option_of m).
  (** probabilistic.rs:23-37 -- the density is skipped; the one read is [default_p], which panics
      ([None] here). *)
  Record prob_memory : Type := mkProb { pm_density : Z -> option Z; pm_breakpoints : list Z }.
  Definition default_p : Z -> option Z := fun _ => None.
  Definition write_prob (m : prob_memory) : list Z := write (vec f64) (pm_breakpoints m).
  Definition read_prob (l : list Z) : parse prob_memory :=
    pbind (read (vec f64) l) (fun v rest => Read (mkProb default_p v) rest).
  (** multi_dimensional/graph_search.rs:20-33 -- [Vertice]: configuration, indices ([usize] as 64 bits), phase. *)
  Definition vertice_key : codec ((list Z * list Z) * bool) := pair (pair (vec i32) (vec (uint 8))) boolean.
  (** offline/graph_search.rs:20-27, 34-44 -- [Path] and [Cache]. *)
  Definition cached_path : codec (list (list Z) * Z) := pair (vec (vec i32)) f64.
  Definition cache : codec (Z * list (((list Z * list Z) * bool) * (list (list Z) * Z))) := pair i32 (hash_map vertice_key cached_path).
  (** lazy_budgeting/smoothed_load_optimization.rs:23-36 -- lanes, horizons, gamma, cache. *)
  Definition slo_memory := pair (vec i32) (pair (vec i32) (pair f64 (option_of cache))).
  (** lazy_budgeting/smoothed_balanced_load_optimization.rs:247-254 -- [AlgBMemory]. *)
  Definition alg_b_memory := pair (vec (vec i32)) (option_of cache).
  (** lazy_budgeting/smoothed_balanced_load_optimization.rs:26-42 -- the hitting costs (functions, here of any
      type) are skipped; those read are an empty vector. *)
  Definition sblo_fields := pair (vec i32) (pair (vec (vec i32)) (option_of alg_b_memory)).
  Definition write_sblo {F} (m : list F * (list Z * (list (list Z) * option (list (list Z) *
      option (Z * list (((list Z * list Z) * bool) * (list (list Z) * Z))))))) : list Z := write sblo_fields (snd m).
  Definition read_sblo {F} (l : list Z) : parse (list F * (list Z * (list (list Z) * option (list (list Z) *
      option (Z * list (((list Z * list Z) * bool) * (list (list Z) * Z))))))) :=
    pbind (read sblo_fields l) (fun v rest => Read ([], v) rest).
End Messages.
Arguments Success {C D} c.
Arguments Failure {C D} d.
Arguments NoOutput {C D}.
