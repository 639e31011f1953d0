(** Model of src/streaming/utils.rs, src/streaming/online.rs, src/streaming/offline.rs and of
    the calling convention of online algorithms (src/algorithms/online/mod.rs).  No proofs.

    Simplifications: logging and run times are dropped; sockets are reduced to the sequence of
    connections the server accepts, each carrying a decodable input or not. *)
From Verif Require Export VerifyModel ConvertModel.
Local Open Scope Z_scope.

(** src/problem.rs:255-262 -- [Online]. *)
Record online (P : Type) : Type := mkOnline { on_p : P; on_w : Z }.
Arguments mkOnline {P} on_p on_w.
Arguments on_p {P} o.
Arguments on_w {P} o.

(** src/problem.rs:26-39, 78-183 and src/verifiers.rs:16-18 -- the operations of the traits
    [BaseProblem], [VerifiableProblem] and [Problem] used for streaming. *)
Record problem_ops (P X C D : Type) : Type := mkOps {
  po_tend : P -> Z;
  po_set : P -> Z -> P;
  po_verify : P -> outcome unit;
  po_objective : P -> list X -> outcome (cost C D)
}.
Arguments mkOps {P X C D} po_tend po_set po_verify po_objective.
Arguments po_tend {P X C D} p.
Arguments po_set {P X C D} p.
Arguments po_verify {P X C D} p.
Arguments po_objective {P X C D} p.

(** src/problem.rs:41-76, 268-341 -- these operations for SSCO and SCO. *)
Definition ssco_ops {T C D} (v : value T) merge vmerge outside (s : split) : problem_ops (gssco T C D) (list T) C D :=
  mkOps g_tend
    (fun p t => mkGSSCO (g_d p) t (g_bounds p) (g_switching p) (g_cost p))
    (verify_ssco v)
    (fun p xs => objective_o merge s (gssco_problem v vmerge outside p) xs (gzero v (g_d p)) 1 false (g_tend p)).
Definition sco_ops {T C D} (v : value T) merge vmerge outside (s : split) : problem_ops (gsco T C D) (list T) C D :=
  mkOps o_tend
    (fun p t => mkGSCO (o_d p) t (o_bounds p) (o_norm p) (o_cost p))
    verify_sco
    (fun p xs => objective_o merge s (gsco_problem v vmerge outside p) xs (gzero v (o_d p)) 1 false (o_tend p)).

Section Streaming.
  Context {P X C D M : Type}.
  Variable ops : problem_ops P X C D.
  (** An online algorithm with its options (src/algorithms/online/mod.rs:68-76) and the
      default memory (src/problem.rs:228-248). *)
  Variable alg : online P -> Z -> list X -> M -> outcome (X * option M).
  Variable default : online P -> M.

  (** src/problem.rs:36-38 -- [inc_t_end] on the problem of an online instance. *)
  Definition inc (o : online P) : online P :=
    mkOnline (po_set ops (on_p o) (po_tend ops (on_p o) + 1)) (on_w o).

  (** src/verifiers.rs:238-250 -- [Online::verify]. *)
  Definition verify_o (o : online P) : outcome unit := verify_online (on_w o) (po_verify ops (on_p o)).

  (** src/algorithms/online/mod.rs:80-94 -- [OnlineAlgorithm::next]. *)
  Definition alg_next (o : online P) (xs : list X) (prev_m : option M) : outcome (X * option M) :=
    alg o (Z.of_nat (length xs) + 1) xs (match prev_m with None => default o | Some m => m end).

  (** src/streaming/utils.rs:84-110 -- [Online::next]; the first component is the schedule
      after the call. *)
  Definition online_next (o : online P) (xs : list X) (prev_m : option M) : list X * outcome (X * option M) :=
    if negb (Z.of_nat (length xs) + 1 =? po_tend ops (on_p o)) then (xs, Err OnlineInconsistentCurrentTimeSlot)
    else
      match alg_next o xs prev_m with
      | Ok (x, m) => (xs ++ [x], Ok (x, m))
      | Err f => (xs, Err f)
      | Panic => (xs, Panic)
      end.

  (** src/streaming/utils.rs:51-76 -- [stream_from]: the loop is bounded by [fuel] ([None]:
      not finished); otherwise the problem and the schedule after the call and its result. *)
  Fixpoint stream_from (fuel : nat) (update : online P -> list X -> online P * bool)
      (o : online P) (xs : list X) (prev_m : option M) : option (online P * list X * outcome (option M)) :=
    match fuel with
    | O => None
    | S fuel' =>
        match online_next o xs prev_m with
        | (xs', Ok (_, m)) =>
            let (o', continue) := update o xs' in
            if continue then
              match verify_o o' with
              | Ok _ => stream_from fuel' update o' xs' m
              | Err f => Some (o', xs', Err f)
              | Panic => Some (o', xs', Panic)
              end
            else Some (o', xs', Ok m)
        | (xs', Err f) => Some (o, xs', Err f)
        | (xs', Panic) => Some (o, xs', Panic)
        end
    end.

  (** src/streaming/utils.rs:131-143, 173-181 -- the update used offline. *)
  Definition offline_update (t_end : Z) (o : online P) (_ : list X) : online P * bool :=
    if po_tend ops (on_p o) <? t_end - on_w o then (inc o, true) else (o, false).

  (** src/streaming/utils.rs:156-184 -- [offline_stream_from]; the fuel suffices (see
      StreamProps.v). *)
  Definition offline_stream_from (t_end : Z) (o : online P) (xs : list X) (prev_m : option M)
      : option (online P * list X * outcome (option M)) :=
    stream_from (S (Z.to_nat (t_end - on_w o - po_tend ops (on_p o)))) (offline_update t_end) o xs prev_m.

  (** src/streaming/utils.rs:23-40, 112-144 -- [offline_stream] (through [stream]). *)
  Definition offline_stream (t_end : Z) (o : online P) : option (online P * list X * outcome (option M)) :=
    offline_stream_from t_end o [] None.

  (** src/convert.rs:396-398 and its cast back: the integral schedule of a schedule. *)
  Context {Y : Type}.
  Variable to_int : X -> Y.
  Variable of_int : Y -> X.

  (** src/streaming/online.rs:36-52 -- [OfflineResponse] and [OnlineResponse]. *)
  Record offline_response : Type := mkOffline {
    of_xs : list X; of_cost : cost C D; of_int_xs : list Y; of_int_cost : cost C D; of_m : option M }.
  Record online_response : Type := mkResponse {
    r_x : X; r_cost : cost C D; r_int_x : Y; r_int_cost : cost C D; r_m : option M }.

  (** src/streaming/online.rs:92-141 -- [prepare]; [p] is the instance generated by the model. *)
  Definition prepare (w : Z) (p : P) : outcome (online P * offline_response) :=
    let t_end := po_tend ops p - w in
    let o := mkOnline (if 1 <? po_tend ops p then po_set ops p 1 else p) w in
    do _ <- verify_o o;
    do r <- (if 1 <=? t_end
             then match offline_stream t_end o with
                  | Some (o', xs, Ok m) => Ok (o', xs, m)
                  | Some (_, _, Err f) => Err f
                  | _ => Panic
                  end
             else Ok (o, [], None));
    let '(o', xs, m) := r in
    do c <- po_objective ops (on_p o') xs;
    let int_xs := map to_int xs in
    do ic <- po_objective ops (on_p o') (map of_int int_xs);
    Ok (o', mkOffline xs c int_xs ic m).

  (** The state of the server: problem, schedule and memory. *)
  Definition server_state : Type := online P * list X * option M.

  (** [Result::unwrap]. *)
  Definition unwrap {A} (r : outcome A) : outcome A := match r with Ok a => Ok a | _ => Panic end.

  Context {B : Type}.
  (** src/model/mod.rs:124-126 -- [Model::update]. *)
  Variable model_update : online P -> B -> outcome (online P).

  (** src/streaming/online.rs:179-223 -- the closure run for one request. *)
  Definition serve (st : server_state) (input : B) : outcome (online_response * server_state) :=
    let '(o, xs, prev_m) := st in
    do o' <- model_update o input;
    let (xs', r) := online_next o' xs prev_m in
    do r' <- unwrap r;
    do c <- unwrap (po_objective ops (on_p o') xs');
    let int_xs := map to_int xs' in
    do ic <- unwrap (po_objective ops (on_p o') (map of_int int_xs));
    do ix <- from_option (nth_error int_xs (length int_xs - 1));
    Ok (mkResponse (fst r') c ix ic (snd r'), (o', xs', snd r')).

  (** One connection: an input, or bytes that cannot be decoded (the client's [stop] sends no
      bytes at all, src/streaming/online.rs:285-291). *)
  Inductive request : Type := Input (b : B) | Undecodable.
  (** What the client receives. *)
  Inductive answer : Type := Answered (r : online_response) | Failed.

  (** src/streaming/online.rs:168-247 -- the loop of [run] over the accepted connections:
      answers, and the state of the server unless it stopped. *)
  Fixpoint run (st : server_state) (reqs : list request) : list answer * option server_state :=
    match reqs with
    | [] => ([], Some st)
    | Undecodable :: _ => ([], None)
    | Input b :: reqs' =>
        match serve st b with
        | Ok (r, st') => let (answers, final) := run st' reqs' in (Answered r :: answers, final)
        | _ => ([Failed], None)
        end
    end.

  (** src/streaming/online.rs:56-86 -- [start]: the offline response, and what the server
      answers to the requests afterwards. *)
  Definition start (w : Z) (p : P) (reqs : list request)
      : outcome (offline_response * (list answer * option server_state)) :=
    do r <- prepare w p;
    Ok (snd r, run (fst r, of_xs (snd r), of_m (snd r)) reqs).

  (** src/streaming/offline.rs:24-58 -- [solve]; [alg] is an offline algorithm with its options. *)
  Definition offline_solve (algorithm : P -> outcome (list X)) (p : P) : outcome (list X * cost C D) :=
    do _ <- po_verify ops p;
    do xs <- algorithm p;
    do c <- po_objective ops p xs;
    Ok (xs, c).
End Streaming.
Arguments mkOffline {X C D M Y} of_xs of_cost of_int_xs of_int_cost of_m.
Arguments of_xs {X C D M Y} o.
Arguments of_cost {X C D M Y} o.
Arguments of_int_xs {X C D M Y} o.
Arguments of_int_cost {X C D M Y} o.
Arguments of_m {X C D M Y} o.
Arguments mkResponse {X C D M Y} r_x r_cost r_int_x r_int_cost r_m.
Arguments r_x {X C D M Y} o.
Arguments r_cost {X C D M Y} o.
Arguments r_int_x {X C D M Y} o.
Arguments r_int_cost {X C D M Y} o.
Arguments r_m {X C D M Y} o.
Arguments Input {B} b.
Arguments Undecodable {B}.
Arguments Answered {X C D M Y} r.
Arguments Failed {X C D M Y}.

(** src/model/mod.rs:130-140 -- [verify_update]. *)
Definition verify_update (w span : Z) : outcome unit := if w <? span then Ok tt else Panic.

Section DataCenterUpdates.
  Context {T : Type}.
  Variable v : value T.

  (** src/model/data_center/model.rs:701-721 (SSCO) -- [update]; [predicted loads t] is
      [apply_predicted_loads] (src/model/data_center/loads.rs:437-468). *)
  Definition update_ssco {C D} (predicted : list (list (list Q)) -> Z -> single_fn (list T) C D)
      (o : online (gssco T C D)) (loads : list (list (list Q))) : outcome (online (gssco T C D)) :=
    let p := on_p o in
    let t := g_tend p + 1 in
    do _ <- verify_update (on_w o) (Z.of_nat (length loads));
    Ok (mkOnline (mkGSSCO (g_d p) t (g_bounds p) (g_switching p) (cf_add (g_cost p) t (predicted loads t))) (on_w o)).

  (** src/model/data_center/model.rs:637-656 (SCO) -- [update]. *)
  Definition update_sco {C D} (predicted : list (list (list Q)) -> Z -> single_fn (list T) C D)
      (o : online (gsco T C D)) (loads : list (list (list Q))) : outcome (online (gsco T C D)) :=
    let p := on_p o in
    let t := o_tend p + 1 in
    do _ <- verify_update (on_w o) (Z.of_nat (length loads));
    Ok (mkOnline (mkGSCO (o_d p) t (o_bounds p) (o_norm p) (cf_add (o_cost p) t (predicted loads t))) (on_w o)).

  (** src/model/data_center/model.rs:796-816, 883-903 -- the loads part of [update] for SBLO
      and SLO; [cast] is [NumCast::from] of a load. *)
  Variable cast : Q -> T.
  Definition pushed_load (t_end : Z) (load : list T) (w : Z) (loads : list (list (list Q))) : outcome (list T) :=
    if negb (t_end + 1 =? Z.of_nat (length load) + 1) then Panic
    else
      match loads with
      | [[[l]]] => do _ <- verify_update w 1; Ok (load ++ [cast l])
      | _ => Panic
      end.
  Definition update_sblo (o : online (gsblo T)) (loads : list (list (list Q))) : outcome (online (gsblo T)) :=
    let p := on_p o in
    do load <- pushed_load (b_tend p) (b_load p) (on_w o) loads;
    Ok (mkOnline (mkGSBLO (b_d p) (b_tend p + 1) (b_bounds p) (b_switching p) (b_cost p) load) (on_w o)).
  Definition update_slo (o : online (gslo T)) (loads : list (list (list Q))) : outcome (online (gslo T)) :=
    let p := on_p o in
    do load <- pushed_load (l_tend p) (l_load p) (on_w o) loads;
    Ok (mkOnline (mkGSLO (l_d p) (l_tend p + 1) (l_bounds p) (l_switching p) (l_hitting p) load) (on_w o)).
End DataCenterUpdates.
