(** Property C95: messages between clients and the server. *)
From Verif Require Import WireSpec WireProofs.
Local Open Scope Z_scope.

(** The server reads exactly the input that the client wrote, whatever else is sent. *)
Theorem requests_arrive :
  forall (loads : list (list (list Z))) (rest : list Z), sendable loads ->
  read online_input (write online_input loads ++ rest) = Read loads rest.
Proof. exact requests_round. Qed.
Print Assumptions requests_arrive.

(** As long as bytes of an input are missing, the server does not take it for another one; in particular it
    does not take the empty message of [stop] for an input. *)
Theorem incomplete_requests_recognised :
  forall (loads : list (list (list Z))) (sent missing : list Z), sendable loads ->
  write online_input loads = sent ++ missing -> missing <> [] ->
  read online_input sent = Malformed.
Proof. exact requests_short. Qed.
Print Assumptions incomplete_requests_recognised.

(** No input is written as the beginning of another one, as assumed in ClientsModel.v (C91). *)
Theorem requests_prefix_free :
  forall (a b : list (list (list Z))) (rest : list Z), sendable a -> sendable b ->
  write online_input b = write online_input a ++ rest -> a = b /\ rest = [].
Proof. exact requests_prefix. Qed.
Print Assumptions requests_prefix_free.

(** Responses are reliable, for all reliable kinds of numbers, outputs of models and memories ... *)
Theorem responses_arrive :
  forall (utf8 : list Z -> bool) (T C D M : Type) (t : codec T) (c : codec C) (d : codec D) (m : codec M),
  reliable t -> reliable c -> reliable d -> reliable m -> reliable (response utf8 t c d m).
Proof. exact @response_reliable. Qed.
Print Assumptions responses_arrive.

(** ... and these are: integers and floats, the outputs of the models, and the memories of lazy capacity
    provisioning, averaging fixed horizon control, randomly biased greedy and of the randomised relaxations. *)
Theorem response_parts_arrive :
  forall utf8 : list Z -> bool,
  reliable i32 /\ reliable f64 /\ reliable nothing /\ reliable success /\ reliable (dc_failure utf8) /\
  (forall T (t : codec T), reliable t -> reliable (lcp_memory t)) /\ reliable afhc_memory /\ reliable rbg_memory /\
  (forall M (m : codec M), reliable m -> reliable (randomized_memory m)).
Proof. exact parts_reliable. Qed.
Print Assumptions response_parts_arrive.

(** Whatever bytes arrive, the server panics while reading them only because of a load that is NaN. *)
Theorem reading_panics_only_for_nan_partial :
  forall bytes : list Z, read online_input bytes = Crash ->
  exists bytes' profile rest, read (vec (vec f64)) bytes' = Read profile rest /\
    exists samples z, In samples profile /\ In z samples /\ not_a_number z.
Proof. exact requests_crash. Qed.
Print Assumptions reading_panics_only_for_nan_partial.

(** In particular, the client reads exactly the results and the errors of the server of a data centre. *)
Theorem results_arrive :
  forall (utf8 : list Z -> bool) (T M : Type) (t : codec T) (m : codec M) x c i ci memory runtime rest,
  reliable t -> reliable m ->
  short x -> (forall v, In v x -> fits t v) -> a_cost utf8 c ->
  short i -> (forall v, In v i -> - 2 ^ 31 <= v < 2 ^ 31) -> a_cost utf8 ci ->
  (forall v, memory = Some v -> fits m v) -> 0 <= runtime < 2 ^ 128 ->
  let codec := response utf8 t success (dc_failure utf8) m in
  let v := inl ((x, c), ((i, ci), (memory, runtime))) in
  read codec (write codec v ++ rest) = Read v rest.
Proof. exact @results_arrive_lemma. Qed.
Print Assumptions results_arrive.
Theorem errors_arrive :
  forall (utf8 : list Z -> bool) (T M : Type) (t : codec T) (m : codec M) s rest,
  reliable t -> reliable m -> a_text utf8 s ->
  let codec := response utf8 t success (dc_failure utf8) m in
  read codec (write codec (inr s) ++ rest) = Read (inr s) rest.
Proof. exact @errors_arrive_lemma. Qed.
Print Assumptions errors_arrive.

(** So are the memory of lazy budgeting for load optimisation, with its cache, and what is written of the one
    for balanced load optimisation; ... *)
Theorem budgeting_memories_arrive :
  reliable vertice_key /\ reliable cached_path /\ reliable cache /\ reliable slo_memory /\ reliable sblo_fields.
Proof. exact budgeting_memories_reliable. Qed.
Print Assumptions budgeting_memories_arrive.

(** ... and maps arrive with the same entries, in whatever order they are written. *)
Theorem maps_arrive :
  forall (A B : Type) (c : codec A) (d : codec B) (eqb : A -> A -> bool) (m : A -> option B) (entries : list (A * B)) rest,
  reliable c -> reliable d -> (forall a b, eqb a b = true <-> a = b) ->
  lists m entries -> fits (hash_map c d) entries ->
  exists entries', read (hash_map c d) (write (hash_map c d) entries ++ rest) = Read entries' rest /\
    forall k, collect eqb entries' k = m k.
Proof. exact @maps_arrive_lemma. Qed.
Print Assumptions maps_arrive.
