(** Property theorems: verification of instances and schedules (C21, C22) and the index
    encoding of the data-centre model (C20). *)
From Verif Require Import LoadModel VerifyModel CostSpec VerifySpec VerifyProofs.
Local Open Scope Z_scope.

(** C21: [verify] accepts exactly the well-formed instances, rejects all others with an
    error and does not panic. *)
Theorem verify_sco_exact :
  forall (T C D : Type) (p : gsco T C D),
  (verify_sco p = Ok tt <-> well_formed_sco p) /\ (verify_sco p = Ok tt \/ verify_sco p = Err Invalid).
Proof. exact sco_verified. Qed.
Print Assumptions verify_sco_exact.

Theorem verify_ssco_exact :
  forall (T C D : Type) (v : value T) (p : gssco T C D),
  (verify_ssco v p = Ok tt <-> well_formed_ssco v p) /\
  (verify_ssco v p = Ok tt \/ verify_ssco v p = Err Invalid).
Proof. exact ssco_verified. Qed.
Print Assumptions verify_ssco_exact.

Theorem verify_sblo_exact :
  forall (T : Type) (v : value T) (p : gsblo T),
  (verify_sblo v p = Ok tt <-> well_formed_sblo v p) /\
  (verify_sblo v p = Ok tt \/ verify_sblo v p = Err Invalid).
Proof. exact sblo_verified. Qed.
Print Assumptions verify_sblo_exact.

(** For SLO this needs one hitting cost per dimension, which is not checked (see
    [verify_slo_short_hitting_cost_refuted]). *)
Theorem verify_slo_exact_partial :
  forall (T : Type) (v : value T) (p : gslo T),
  Z.of_nat (length (l_hitting p)) = l_d p ->
  (verify_slo v p = Ok tt <-> well_formed_slo v p) /\
  (verify_slo v p = Ok tt \/ verify_slo v p = Err Invalid).
Proof. exact slo_verified. Qed.
Print Assumptions verify_slo_exact_partial.

(** Online instances add a non-negative prediction window. *)
Theorem verify_online_exact :
  forall (T C D : Type) (v : value T) (p : gssco T C D) (q : gsblo T) (w : Z),
  (verify_online w (verify_ssco v p) = Ok tt <-> 0 <= w /\ well_formed_ssco v p) /\
  (verify_online w (verify_ssco v p) = Ok tt \/ verify_online w (verify_ssco v p) = Err Invalid) /\
  (verify_online w (verify_sblo v q) = Ok tt <-> 0 <= w /\ well_formed_sblo v q) /\
  (verify_online w (verify_sblo v q) = Ok tt \/ verify_online w (verify_sblo v q) = Err Invalid).
Proof. exact online_verified. Qed.
Print Assumptions verify_online_exact.

(** C22: schedules whose configurations have the dimension of the bounds are accepted iff
    they are feasible. *)
Theorem verify_schedule_exact_partial :
  forall (T : Type) (v : value T) (t_end : Z) (bounds : list T) (xs : list (list T)),
  Forall (fun x => length x = length bounds) xs ->
  (verify_schedule v t_end bounds xs = Ok tt <-> feasible v t_end bounds xs) /\
  (verify_schedule v t_end bounds xs = Ok tt \/ verify_schedule v t_end bounds xs = Err Invalid).
Proof. exact schedule_verified. Qed.
Print Assumptions verify_schedule_exact_partial.

(** C22: without this assumption, an accepted schedule still has the right length and its
    entries are within the bounds of their positions. *)
Theorem verify_schedule_accepted :
  forall (T : Type) (v : value T) (t_end : Z) (bounds : list T) (xs : list (list T)),
  verify_schedule v t_end bounds xs = Ok tt ->
  Z.of_nat (length xs) = t_end /\
  Forall (fun x => (length x <= length bounds)%nat /\ in_box v (firstn (length x) bounds) x) xs.
Proof. exact @schedule_accepted. Qed.
Print Assumptions verify_schedule_accepted.

(** C20: [encode] and [parse] are inverse bijections between the pairs (outer < m, inner < n)
    and the numbers below m * n. *)
Theorem index_encoding_bijective :
  forall n m : nat,
  (forall outer inner, (outer < m)%nat -> (inner < n)%nat ->
     (encode n outer inner < m * n)%nat /\ parse n (encode n outer inner) = Ok (outer, inner)) /\
  (forall i, (i < m * n)%nat -> exists outer inner,
     parse n i = Ok (outer, inner) /\ (outer < m)%nat /\ (inner < n)%nat /\ encode n outer inner = i).
Proof. exact encoding_bijection. Qed.
Print Assumptions index_encoding_bijective.
