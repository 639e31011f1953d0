(** Property theorems: the start of load balancing (C85). *)
From Verif Require Import LoadModel LoadSpec CostSpec GuessSpec GuessProofs.
From Verif Require Import ProblemModel.
Local Open Scope Z_scope.

(** C85: the point the solver is started from has one entry in [0, 1] per job type and
    server type but the last one. *)
Theorem start_within_bounds :
  forall (T : Type) (v : value T) (d e : nat) (x : list T),
  length x = d -> (0 < d)%nat -> (0 < e)%nat -> Forall (fun j => 0 <= v_toQ v j)%Q x ->
  length (initial_guess v e (d * e - e) x) = (d * e - e)%nat /\
  Forall (fun z => 0 <= z <= 1)%Q (initial_guess v e (d * e - e) x).
Proof. exact @guess_bounds. Qed.
Print Assumptions start_within_bounds.

(** C85: at the start, a server type without active servers gets no load, unless it is the
    last one or there are no active servers at all. *)
Theorem start_spares_inactive_types_partial :
  forall (T : Type) (v : value T) (d e : nat) (x : list T) (lambda : list Q) (k i : nat) (j : T),
  length x = d -> (0 < e)%nat -> Forall (fun j => 0 <= v_toQ v j)%Q x -> (0 < busy_types v x)%nat ->
  (k < d - 1)%nat -> (i < e)%nat -> nth_error x k = Some j -> busy v j = false ->
  exists q, get_fraction (new_fractions (initial_guess v e (d * e - e) x) d e) k i lambda = Ok q /\ (q == 0)%Q.
Proof. exact @guess_spares. Qed.
Print Assumptions start_spares_inactive_types_partial.

(** C85: if all job types have the same load and an even part is a multiple of 0.01, the
    start spreads all loads evenly over the server types with active servers; the others,
    including the last one, get nothing. *)
Theorem start_spreads_evenly :
  forall (T : Type) (v : value T) (d e : nat) (x : list T) (lambda : list Q) (l0 : Q) (k i : nat) (j : T),
  length x = d -> (0 < e)%nat -> length lambda = e -> Forall (fun j => 0 <= v_toQ v j)%Q x -> (0 < busy_types v x)%nat ->
  Forall (fun l => l == l0)%Q lambda -> (0 < load_total lambda)%Q ->
  hundredths (even_part 1 (busy_types v x * e)) ->
  nth_error x k = Some j -> (i < e)%nat ->
  exists q, get_fraction (new_fractions (initial_guess v e (d * e - e) x) d e) k i lambda = Ok q /\
    (q == if busy v j then even_part 1 (busy_types v x * e) else 0)%Q.
Proof. exact @guess_even. Qed.
Print Assumptions start_spreads_evenly.

(** C85: hence the hitting cost of a SBLO instance is at most the cost of spreading the load
    evenly over the server types with active servers, for every solver that answers nothing
    worse than its start. *)
Theorem sblo_cost_at_most_even_spread :
  forall (T : Type) (v : value T) minimize (p : gsblo T) (g : nat -> Q -> Q) (t : Z) (x : list T) (l : T)
         (c : cost dc_success dc_failure),
  lawful v -> improves_start minimize -> b_d p = Z.of_nat (length x) -> length (b_bounds p) = length x ->
  in_box v (b_bounds p) x -> access (b_load p) t = Some l -> (0 < v_toQ v l)%Q ->
  (forall k q q', (q == q')%Q -> (g k q == g k q')%Q) ->
  (forall k j q, nth_error x k = Some j -> busy v j = true ->
      (q == even_part (v_toQ v l) (busy_types v x) / v_toQ v j)%Q -> exists f c,
      nth_error (b_cost p) k = Some f /\ call_mean unit_vmerge f t q = Ok c /\ eeq (c_cost c) (Fin (g k q))) ->
  (0 < busy_types v x)%nat -> hundredths (even_part 1 (busy_types v x)) ->
  sblo_hit v minimize p t x = Ok c ->
  ele (c_cost c) (Fin (even_cost v g (v_toQ v l) x)).
Proof. exact @sblo_even. Qed.
Print Assumptions sblo_cost_at_most_even_spread.

(** C85: if only the last server type has no active servers, rounding decides.  If the
    rounded parts add up to less than one, the rest goes to the inactive servers and the
    start has infinite cost; if they add up to more than one, evaluating the start panics. *)
Theorem start_with_inactive_last_type :
  forall (T : Type) (v : value T) (p : gsblo T) (t : Z) (ys : list T) (j : T) (L : Q),
  b_d p = Z.of_nat (length ys + 1) -> Forall (fun y => 0 < v_toQ v y)%Q ys -> (v_toQ v j == 0)%Q -> ys <> [] -> (0 < L)%Q ->
  (forall k q, (k < length ys)%nat -> exists f c, nth_error (b_cost p) k = Some f /\ call_mean unit_vmerge f t q = Ok c) ->
  let x := ys ++ [j] in
  let start := initial_guess v 1 (length ys) x in
  let total := (inject_Z (Z.of_nat (length ys)) * apply_precision (even_part 1 (length ys)))%Q in
  ((total < 1)%Q -> sblo_objective v p t x [L] (new_fractions start (length x) 1) = Ok (RErr LoadToInactiveServer)) /\
  ((1 < total)%Q -> sblo_objective v p t x [L] (new_fractions start (length x) 1) = Panic).
Proof. exact @start_idle_last. Qed.
Print Assumptions start_with_inactive_last_type.
