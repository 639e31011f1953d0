(** Model of src/verifiers.rs and of [parse]/[encode] in
    src/model/data_center/model.rs:562-572.  No proofs. *)
From Verif Require Export LoadModel.
Local Open Scope Z_scope.

(** verifiers.rs:293-299 -- [assert_validity]. *)
Definition assert_validity (pred : bool) : outcome unit := if pred then Ok tt else Err Invalid.

(** A [for] loop whose body may return early with an error (or panic). *)
Fixpoint for_each {A} (l : list A) (body : A -> outcome unit) : outcome unit :=
  match l with
  | [] => Ok tt
  | a :: r => do _ <- body a; for_each r body
  end.

(** Indexing, panicking when out of range. *)
Definition index {A} (l : list A) (k : nat) : outcome A := from_option (nth_error l k).

Section Verifiers.
  Context {T : Type}.
  Variable v : value T.

  (** [j > 0], [j >= 0], [j <= u] on values. *)
  Definition v_pos (j : T) : bool := Qltb 0 (v_toQ v j).
  Definition v_nonneg (j : T) : bool := Qle_bool 0 (v_toQ v j).

  (** verifiers.rs:20-39 -- SCO. *)
  Definition verify_sco {C D} (p : gsco T C D) : outcome unit :=
    do _ <- assert_validity (0 <? o_d p);
    do _ <- assert_validity (0 <=? o_tend p);
    assert_validity (length (o_bounds p) =? Z.to_nat (o_d p))%nat.

  (** The checks of bounds and switching costs shared by verifiers.rs:48-80, 88-129 and
      184-223. *)
  Definition verify_header (d t_end : Z) (bounds : list T) (switching : list Q) : outcome unit :=
    do _ <- assert_validity (0 <? d);
    do _ <- assert_validity (0 <=? t_end);
    do _ <- assert_validity (length bounds =? Z.to_nat d)%nat;
    assert_validity (length switching =? Z.to_nat d)%nat.

  Definition verify_dimension (bounds : list T) (switching : list Q) (k : nat) : outcome unit :=
    do b <- index bounds k;
    do _ <- assert_validity (v_pos b);
    do s <- index switching k;
    assert_validity (Qltb 0 s).

  (** verifiers.rs:165-173, 225-233 -- non-negative loads. *)
  Definition verify_loads (load : list T) (t_end : Z) : outcome unit :=
    for_each (seq 0 (Z.to_nat t_end)) (fun t => do l <- index load t; assert_validity (v_nonneg l)).

  (** verifiers.rs:42-80 -- SSCO. *)
  Definition verify_ssco {C D} (p : gssco T C D) : outcome unit :=
    do _ <- verify_header (g_d p) (g_tend p) (g_bounds p) (g_switching p);
    for_each (seq 0 (Z.to_nat (g_d p))) (verify_dimension (g_bounds p) (g_switching p)).

  (** verifiers.rs:83-176 -- SLO. *)
  Definition verify_slo (p : gslo T) : outcome unit :=
    do _ <- verify_header (l_d p) (l_tend p) (l_bounds p) (l_switching p);
    do _ <- assert_validity (Z.to_nat (l_tend p) <=? length (l_load p))%nat;
    do _ <- for_each (seq 0 (Z.to_nat (l_d p))) (fun k =>
      do _ <- verify_dimension (l_bounds p) (l_switching p) k;
      do hk <- index (l_hitting p) k;
      do _ <- assert_validity (Qle_bool 0 hk);
      for_each (seq 0 (Z.to_nat (l_d p))) (fun l =>
        if (k =? l)%nat then Ok tt else
        do hl <- index (l_hitting p) l;
        if Qle_bool hl hk then
          do sk <- index (l_switching p) k;
          do sl <- index (l_switching p) l;
          assert_validity (negb (Qle_bool sl sk))
        else Ok tt));
    do _ <- for_each (seq 1 (Z.to_nat (l_d p) - 1)) (fun k =>
      do hk <- index (l_hitting p) k;
      do hp <- index (l_hitting p) (k - 1);
      do _ <- assert_validity (Qltb hk hp);
      do sk <- index (l_switching p) k;
      do sp <- index (l_switching p) (k - 1);
      assert_validity (Qltb sp sk));
    verify_loads (l_load p) (l_tend p).

  (** verifiers.rs:179-235 -- SBLO. *)
  Definition verify_sblo (p : gsblo T) : outcome unit :=
    do _ <- verify_header (b_d p) (b_tend p) (b_bounds p) (b_switching p);
    do _ <- assert_validity (Z.to_nat (b_tend p) <=? length (b_load p))%nat;
    do _ <- for_each (seq 0 (Z.to_nat (b_d p))) (verify_dimension (b_bounds p) (b_switching p));
    verify_loads (b_load p) (b_tend p).

  (** verifiers.rs:238-249 -- [Online::verify], given the verification of the problem. *)
  Definition verify_online (w : Z) (verify : outcome unit) : outcome unit :=
    do _ <- assert_validity (0 <=? w); verify.

  (** verifiers.rs:252-273 -- [Config::verify]; [bounds[k]] panics when out of range. *)
  Definition verify_config (bounds x : list T) : outcome unit :=
    for_each (combine (seq 0 (length x)) x) (fun kj =>
      do _ <- assert_validity (v_nonneg (snd kj));
      do u <- index bounds (fst kj);
      assert_validity (v_leb v (snd kj) u)).

  (** verifiers.rs:276-291 -- [Schedule::verify]. *)
  Definition verify_schedule (t_end : Z) (bounds : list T) (xs : list (list T)) : outcome unit :=
    do _ <- assert_validity (Z.of_nat (length xs) =? t_end);
    for_each xs (verify_config bounds).
End Verifiers.

(** model/data_center/model.rs:562-567 -- [parse]; division by zero panics. *)
Definition parse (inner_len i : nat) : outcome (nat * nat) :=
  match inner_len with
  | O => Panic
  | _ => let outer := Nat.div i inner_len in Ok (outer, (i - outer * inner_len)%nat)
  end.

(** model/data_center/model.rs:569-572 -- [encode]. *)
Definition encode (inner_len outer inner : nat) : nat := (outer * inner_len + inner)%nat.
