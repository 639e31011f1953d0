(** Model of the process-wide cache of work functions of randomly biased greedy
    (src/algorithms/online/uni_dimensional/randomly_biased_greedy.rs:49-138, [WORK]) and of calls of
    [rbg] by several threads of one process.  No proofs. *)
From Verif Require Export DescentModel.
From Coq Require Import QArith.
Local Open Scope Z_scope.

(** ** NLopt, asking for one value of the objective function after the other *)
(** A run of the optimiser: it either ends, or asks for the value at a point and goes on depending on
    the answer.  Every run ends (the number of evaluations is limited, convex_optimization.rs:12, 143). *)
Inductive strategy : Type :=
| Answer (r : nl_result)
| Ask (x : list Q) (k : fnum -> strategy).

(** What it returns for an objective function; [Panic] if the function panics. *)
Fixpoint ask (s : strategy) (f : callback) : outcome nl_result :=
  match s with
  | Answer r => Ok r
  | Ask x k => do v <- f x; ask (k v) f
  end.

(** The optimiser as a function of the problem, for problems without constraints ([rbg] has none). *)
Definition optimizer : Type := algorithm -> target -> list (fnum * fnum) -> list Q -> strategy.
Definition by_asking (opt : optimizer) : nl_problem -> outcome nl_result := fun q =>
  ask (opt (nl_algorithm q) (nl_target q) (nl_bounds q) (nl_init q)) (nl_objective q).

(** ** The cache *)
(** randomly_biased_greedy.rs:121-122 -- the key is the text of [t] and [x], from which both can be read
    off; here it is the pair.  Points are rounded before the function is evaluated
    (convex_optimization.rs:216-225), so equal numbers are equal fractions. *)
Definition key : Type := nat * list Q.
Definition key_eq_dec : forall a b : key, {a = b} + {a <> b}.
Proof. repeat decide equality. Defined.
Definition cache : Type := list (key * fnum).
Definition cache_get (k : key) (c : cache) : option fnum :=
  option_map snd (find (fun e => if key_eq_dec (fst e) k then true else false) c).
Definition cache_set (k : key) (v : fnum) (c : cache) : cache :=
  (k, v) :: filter (fun e => if key_eq_dec (fst e) k then false else true) c.

(** ** Threads *)
(** The accesses of a call to the cache, each under its lock, and its result. *)
Inductive thread (A : Type) : Type :=
| Done (r : outcome A)
| Get (k : key) (next : option fnum -> thread A)
| Set_ (k : key) (v : fnum) (next : thread A)
| Clear (next : thread A).
Arguments Done {A} r.
Arguments Get {A} k next.
Arguments Set_ {A} k v next.
Arguments Clear {A} next.

Fixpoint tbind {A B} (m : thread A) (f : A -> thread B) : thread B :=
  match m with
  | Done (Ok a) => f a
  | Done (Err e) => Done (Err e)
  | Done Panic => Done Panic
  | Get k next => Get k (fun v => tbind (next v) f)
  | Set_ k v next => Set_ k v (tbind next f)
  | Clear next => Clear (tbind next f)
  end.

(** The optimiser, asking a function that uses the cache. *)
Fixpoint ask_thread (s : strategy) (f : list Q -> thread fnum) : thread nl_result :=
  match s with
  | Answer r => Done (Ok r)
  | Ask x k => tbind (f x) (fun v => ask_thread (k v) f)
  end.

Section Rbg.
  Context {C D : Type}.
  Variable vmerge : C -> C -> outcome C.
  Variable outside : D.
  Variable opt : optimizer.

  (** convex_optimization.rs:60-65, 100-183 -- [find_minimizer], see OptimizeModel.v. *)
  Definition find_minimizer_thread (f : list Q -> thread fnum) (bounds : list (Q * Q)) : thread (list Q * fnum) :=
    tbind (Done (omap finite_upper (num_bounds bounds))) (fun x =>
    tbind (ask_thread (opt (choose_algorithm 0) Minimize (num_bounds bounds) x) (fun xs => f (map apply_precision xs))) (fun r =>
    Done (match r with
          | NlOk (MaxEvalReached | MaxTimeReached) _ x => Ok (map apply_precision x, PosInf)
          | NlOk _ opt x => Ok (map apply_precision x, opt)
          | NlErr RoundoffLimited opt x => Ok (map apply_precision x, opt)
          | NlErr _ _ _ => Panic
          end))).

  (** randomly_biased_greedy.rs:120-138 -- [w] as expanded by [cached_key!]: look up the key, otherwise
      compute the value without holding the lock, then store it. *)
  Fixpoint work_thread (p : gsco Q C D) (theta : Q) (t : nat) (x : list Q) : thread fnum :=
    Get (t, x) (fun cached =>
      match cached with
      | Some v => Done (Ok v)
      | None =>
          tbind (match t with
                 | O => Done (do n <- o_norm p x; Ok (Num (theta * n)))
                 | S t' =>
                     tbind (find_minimizer_thread (fun y =>
                              tbind (work_thread p theta t' y) (fun w =>
                              Done (do c <- hit_num vmerge outside p (Z.of_nat t) y;
                                    do n <- o_norm p (minus x y);
                                    do s <- nadd w c;
                                    nadd s (Num (theta * n))))) (o_bounds p))
                           (fun r => Done (Ok (snd r)))
                 end)
                (fun v => Set_ (t, x) v (Done (Ok v)))
      end).

  (** randomly_biased_greedy.rs:49-109 -- [rbg] and [next]: the cache is cleared first. *)
  Definition rbg_thread (theta : Q) (o : online (gsco Q C D)) (t : Z) (r : Q) : thread (list Q * option Q) :=
    if negb (on_w o =? 0) then Done (Err UnsupportedPredictionWindow) else
    let p := on_p o in
    if negb (o_d p =? 1) then Done (Err UnsupportedProblemDimension) else
    Clear (
      tbind (find_minimizer_thread (fun x =>
               tbind (work_thread p theta (Z.to_nat t) x) (fun w =>
               Done (do n <- o_norm p x; nadd w (Num (r * theta * n))))) (o_bounds p)) (fun x =>
      Done (do x0 <- from_option (nth_error (fst x) 0); Ok ([x0], None)))).
End Rbg.

(** ** A process with several threads *)
Record process (A : Type) : Type := mkProcess { pr_cache : cache; pr_threads : list (thread A) }.
Arguments mkProcess {A} pr_cache pr_threads.
Arguments pr_cache {A} p.
Arguments pr_threads {A} p.

(** One access of a thread to the cache. *)
Definition access_cache {A} (c : cache) (m : thread A) : option (cache * thread A) :=
  match m with
  | Done _ => None
  | Get k next => Some (c, next (cache_get k c))
  | Set_ k v next => Some (cache_set k v c, next)
  | Clear next => Some ([], next)
  end.

Definition replace_nth {A} (i : nat) (a : A) (l : list A) : list A := firstn i l ++ a :: skipn (S i) l.

(** One access by thread [i]. *)
Definition access_by {A} (i : nat) (s s' : process A) : Prop :=
  exists m c' m', nth_error (pr_threads s) i = Some m /\ access_cache (pr_cache s) m = Some (c', m') /\
    s' = mkProcess c' (replace_nth i m' (pr_threads s)).

(** Steps: some thread accesses the cache, or entries are dropped (the cache holds 1000 entries and drops
    the least recently used one; here any entries may be dropped at any time). *)
Inductive step {A} (s s' : process A) : Prop :=
| step_access i : access_by i s s' -> step s s'
| step_drop keep : s' = mkProcess (filter keep (pr_cache s)) (pr_threads s) -> step s s'.

Inductive steps {A} (s : process A) : process A -> Prop :=
| steps_refl : steps s s
| steps_next s' s'' : steps s s' -> step s' s'' -> steps s s''.

(** Calls of [rbg]: the instance, the slot and the bias. *)
Record call (C D : Type) : Type := mkCall { ca_o : online (gsco Q C D); ca_t : Z; ca_r : Q }.
Arguments mkCall {C D} ca_o ca_t ca_r.
Arguments ca_o {C D} c.
Arguments ca_t {C D} c.
Arguments ca_r {C D} c.
