(** Theorems about concurrent clients of the server (C91). *)
From Verif Require Import ClientsSpec ClientsLive.

(** C91: whatever the interleaving of calls, deaths of callers and steps of the server, the
    responses received are those of some sequence of the calls, one after the other: no call is
    handled twice, only calls that were made are handled, with the input they were made with, and
    a call made after another one had returned comes later. *)
Theorem concurrent_calls_are_sequential :
  forall (P X C D M Y B : Type) (ops : problem_ops P X C D) alg (default : online P -> M)
         (to_int : X -> Y) (of_int : Y -> X) (model_update : online P -> B -> outcome (online P)) program st0 sv evs s,
  sv = Starting st0 \/ sv = Listening st0 ->
  steps (handle_input ops alg default to_int of_int model_update) program (initially sv) evs s ->
  exists order : list (nat * request),
    NoDup (map fst order) /\
    (forall c q, In (c, q) order -> In (Called c) evs /\
       match q with Input b => program c = Request b | Undecodable => program c = Halt \/ In (Died c) evs end) /\
    (forall c a, In (Got c (Answer a)) evs -> exists k b,
       nth_error order k = Some (c, Input b) /\
       nth_error (fst (run ops alg default to_int of_int model_update st0 (map snd order))) k = Some a) /\
    (forall c r c' k k' q q', precedes (Got c r) (Called c') evs ->
       nth_error order k = Some (c, q) -> nth_error order k' = Some (c', q') -> (k < k')%nat).
Proof. intros P X C D M Y B. exact server_linearizes. Qed.
Print Assumptions concurrent_calls_are_sequential.

(** C91: left alone, the server and the calls already made take a bounded number of steps in any
    order, and when no step is left every caller has its result, unless it died. *)
Theorem concurrent_calls_return :
  forall (P X C D M Y B : Type) (ops : problem_ops P X C D) alg (default : online P -> M)
         (to_int : X -> Y) (of_int : Y -> X) (model_update : online P -> B -> outcome (online P)) program st0 sv evs s,
  let handle := handle_input ops alg default to_int of_int model_update in
  sv = Starting st0 \/ sv = Listening st0 -> steps handle program (initially sv) evs s ->
  exists n, forall k evs' s', internal_steps handle program k s evs' s' ->
    (k <= n)%nat /\
    ((forall e s'', step handle program s' e s'' -> ~ internal e) ->
     forall c, In (Called c) evs -> (exists r, In (Got c r) (evs ++ evs')) \/ In (Died c) evs).
Proof. intros P X C D M Y B ops alg default to_int of_int model_update program st0 sv evs s handle. exact (calls_end handle program st0 sv evs s). Qed.
Print Assumptions concurrent_calls_return.

(** C91: once the server listens, if no sequence of the inputs makes it fail, every result is a
    configuration with its costs, unless somebody called [stop] or died before: no call fails for
    another reason. *)
Theorem concurrent_calls_answered :
  forall (P X C D M Y B : Type) (ops : problem_ops P X C D) alg (default : online P -> M)
         (to_int : X -> Y) (of_int : Y -> X) (model_update : online P -> B -> outcome (online P)) program st0 evs s,
  steps (handle_input ops alg default to_int of_int model_update) program (initially (Listening st0)) evs s ->
  (forall bs, Forall (fun b => exists c, program c = Request b) bs ->
     snd (run ops alg default to_int of_int model_update st0 (map Input bs)) <> None) ->
  forall before c r later, evs = before ++ Got c r :: later ->
  (forall c', In (Called c') before -> program c' <> Halt) -> (forall c', ~ In (Died c') before) ->
  exists x, r = Answer (Answered x).
Proof. intros P X C D M Y B. exact server_healthy_before. Qed.
Print Assumptions concurrent_calls_answered.
