(** Model of concurrent clients of the server of src/streaming/online.rs: any number of calls of
    [next] and [stop] from any number of threads or processes, each of which may die at any
    point.  No proofs.

    Simplifications: every call is a client of its own; the listening socket queues connections in
    the order in which they are established; writing to a living client succeeds, whereas writing
    to one that died may succeed or fail; the bytes of no input are a proper prefix of, or equal to,
    those of another one, so that a client that dies before it has sent its whole input leaves
    undecodable bytes (proved for the inputs of data centres: C95). *)
From Verif Require Export StreamModel.

Section Clients.
  Context {St B A : Type}.
  (** What the server does with a decoded input: the answer, and its next state unless it stops. *)
  Variable handle : St -> B -> A * option St.
  (** The calls: [next] with an input, or [stop]. *)
  Inductive command : Type := Request (b : B) | Halt.
  Variable program : nat -> command.

  (** src/streaming/online.rs:256-282 ([next]) and 285-291 ([stop]) -- what a call ends with: the
      response; no connection; a connection that ends without a response (both panics of the
      caller, in [unwrap]); nothing to wait for. *)
  Inductive result : Type := Answer (a : A) | Refused | Lost | Done.

  (** Where a call is: not made yet; made; connected; everything sent; returned; dead, with or
      without having sent its whole input. *)
  Inductive phase : Type :=
    NotCalled | Calling | Connected | Waiting | Returned (r : result) | Dead (sent : bool).

  (** src/streaming/online.rs:78-82, 162-250 -- where the thread of the server is: before
      [TcpListener::bind]; in [incoming]; in [deserialize_from]; between decoding and answering;
      at its end. *)
  Inductive server_phase : Type :=
    Starting (st : St) | Listening (st : St) | Reading (st : St) (c : nat) | Computing (st : St) (c : nat) (b : B) | Gone.

  Record system : Type := mkSystem {
    s_server : server_phase;
    s_queue : list nat;
    s_phase : nat -> phase;
    s_mail : nat -> option A
  }.

  Definition upd {V} (f : nat -> V) (c : nat) (v : V) : nat -> V := fun c' => if (c' =? c)%nat then v else f c'.

  (** What the callers see, and when they die. *)
  Inductive event : Type := Called (c : nat) | Got (c : nat) (r : result) | Died (c : nat).

  (** Whether the bytes sent on the connection of [c] decode; [None] as long as more may come. *)
  Definition wire (s : system) (c : nat) : option (request (B := B)) :=
    match s_phase s c, program c with
    | (Waiting | Dead true), Request b => Some (Input b)
    | Dead false, _ => Some Undecodable
    | Returned Done, _ => Some Undecodable
    | _, _ => None
    end.

  Definition after (next : option St) : server_phase := match next with Some st => Listening st | None => Gone end.

  Inductive step : system -> list event -> system -> Prop :=
  (** 162-166 -- [TcpListener::bind(addr).unwrap()]. *)
  | step_bind st q ph ml : step (mkSystem (Starting st) q ph ml) [] (mkSystem (Listening st) q ph ml)
  | step_bind_fails st q ph ml : step (mkSystem (Starting st) q ph ml) [] (mkSystem Gone q ph ml)
  (** 256, 285 -- a call is made. *)
  | step_call sv q ph ml c : ph c = NotCalled ->
      step (mkSystem sv q ph ml) [Called c] (mkSystem sv q (upd ph c Calling) ml)
  (** 268, 286 -- [TcpStream::connect(addr).unwrap()]. *)
  | step_connect sv q ph ml c : ph c = Calling -> (forall st, sv <> Starting st) -> sv <> Gone ->
      step (mkSystem sv q ph ml) [] (mkSystem sv (q ++ [c]) (upd ph c Connected) ml)
  | step_refused sv q ph ml c : ph c = Calling -> (exists st, sv = Starting st) \/ sv = Gone ->
      step (mkSystem sv q ph ml) [Got c Refused] (mkSystem sv q (upd ph c (Returned Refused)) ml)
  (** 270-274 -- [write_all], [flush]. *)
  | step_send sv q ph ml c b : ph c = Connected -> program c = Request b ->
      step (mkSystem sv q ph ml) [] (mkSystem sv q (upd ph c Waiting) ml)
  (** 288-291 -- no bytes are written; the connection is closed as [stop] returns. *)
  | step_close sv q ph ml c : ph c = Connected -> program c = Halt ->
      step (mkSystem sv q ph ml) [Got c Done] (mkSystem sv q (upd ph c (Returned Done)) ml)
  (** The process of the caller dies. *)
  | step_die_connected sv q ph ml c : ph c = Connected ->
      step (mkSystem sv q ph ml) [Died c] (mkSystem sv q (upd ph c (Dead false)) ml)
  | step_die_waiting sv q ph ml c : ph c = Waiting ->
      step (mkSystem sv q ph ml) [Died c] (mkSystem sv q (upd ph c (Dead true)) ml)
  (** 168-170 -- the next connection. *)
  | step_accept st c q ph ml : step (mkSystem (Listening st) (c :: q) ph ml) [] (mkSystem (Reading st c) q ph ml)
  (** 172-173 -- an input is decoded. *)
  | step_read st c q ph ml b : wire (mkSystem (Reading st c) q ph ml) c = Some (Input b) ->
      step (mkSystem (Reading st c) q ph ml) [] (mkSystem (Computing st c b) q ph ml)
  (** 244-248 -- the connection ended before an input was decoded. *)
  | step_end st c q ph ml : wire (mkSystem (Reading st c) q ph ml) c = Some Undecodable ->
      step (mkSystem (Reading st c) q ph ml) [] (mkSystem Gone q ph ml)
  (** 182-243 -- the response (or the message of a panic) is written. *)
  | step_answer st c b q ph ml a next : handle st b = (a, next) -> ph c <> Dead true ->
      step (mkSystem (Computing st c b) q ph ml) [] (mkSystem (after next) q ph (upd ml c (Some a)))
  (** 215-216 -- writing to a dead client goes unnoticed, ... *)
  | step_unnoticed st c b q ph ml a next : handle st b = (a, next) -> ph c = Dead true ->
      step (mkSystem (Computing st c b) q ph ml) [] (mkSystem (after next) q ph ml)
  (** ... or it panics within [catch_unwind]; then 239-240, which write the message of the panic
      to the same connection, panic outside. *)
  | step_broken_pipe st c b q ph ml : ph c = Dead true ->
      step (mkSystem (Computing st c b) q ph ml) [] (mkSystem Gone q ph ml)
  (** 276-278 -- [deserialize_from(&mut stream).unwrap()]. *)
  | step_receive sv q ph ml c a : ph c = Waiting -> ml c = Some a ->
      step (mkSystem sv q ph ml) [Got c (Answer a)] (mkSystem sv q (upd ph c (Returned (Answer a))) ml)
  | step_lost q ph ml c : ph c = Waiting -> ml c = None ->
      step (mkSystem Gone q ph ml) [Got c Lost] (mkSystem Gone q (upd ph c (Returned Lost)) ml).

  Inductive steps : system -> list event -> system -> Prop :=
  | steps_none s : steps s [] s
  | steps_more s evs s' evs' s'' : steps s evs s' -> step s' evs' s'' -> steps s (evs ++ evs') s''.

  (** Before the first call. *)
  Definition initially (sv : server_phase) : system := mkSystem sv [] (fun _ => NotCalled) (fun _ => None).
End Clients.
Arguments Request {B} b.
Arguments Halt {B}.
Arguments Answer {A} a.
Arguments Refused {A}.
Arguments Lost {A}.
Arguments Done {A}.
Arguments NotCalled {A}.
Arguments Calling {A}.
Arguments Connected {A}.
Arguments Waiting {A}.
Arguments Returned {A} r.
Arguments Dead {A} sent.
Arguments Starting {St B} st.
Arguments Listening {St B} st.
Arguments Reading {St B} st c.
Arguments Computing {St B} st c b.
Arguments Gone {St B}.
Arguments Called {A} c.
Arguments Got {A} c r.
Arguments Died {A} c.

(** src/streaming/online.rs:179-243 -- the answer of the server of StreamModel.v to an input. *)
Section Handle.
  Context {P X C D M Y B : Type}.
  Variable ops : problem_ops P X C D.
  Variable alg : online P -> Z -> list X -> M -> outcome (X * option M).
  Variable default : online P -> M.
  Variable to_int : X -> Y.
  Variable of_int : Y -> X.
  Variable model_update : online P -> B -> outcome (online P).
  Definition handle_input (st : server_state) (b : B) : answer * option server_state :=
    match serve ops alg default to_int of_int model_update st b with
    | Ok (r, st') => (Answered r, Some st')
    | _ => (Failed, None)
    end.
End Handle.
