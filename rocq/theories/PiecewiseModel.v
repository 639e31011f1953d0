(** Model of src/breakpoints.rs and src/numerics/quadrature/piecewise.rs.  No proofs.

    The quadrature (src/numerics/quadrature/mod.rs) is a variable; it is taken to return finite
    numbers. *)
From Verif Require Export Num.
Local Open Scope Z_scope.

(** Floats as limits of integration. *)
Inductive point : Type := MInf | Pt (q : Q) | PInf.
Definition point_leb (a b : point) : bool :=
  match a, b with
  | MInf, _ => true
  | _, PInf => true
  | Pt x, Pt y => Qle_bool x y
  | _, _ => false
  end.
Definition infinite (a : point) : bool := match a with Pt _ => false | _ => true end.

(** src/breakpoints.rs:9-20 -- [Breakpoints]. *)
Record breakpoints : Type := mkBreaks {
  br_fixed : list Q;
  br_next : option (Q -> option Q * option Q)
}.
(** src/breakpoints.rs:22-27 -- [empty]. *)
Definition br_empty : breakpoints := mkBreaks [] None.
(** src/breakpoints.rs:35-42 -- [grid]. *)
Definition br_grid (d : Q) : breakpoints :=
  mkBreaks [] (Some (fun b => (Some (inject_Z (Qceiling b) - d)%Q, Some (inject_Z (Qfloor b) + d)%Q))).
(** [par_sort_unstable]: by insertion. *)
Fixpoint insert (x : Q) (l : list Q) : list Q :=
  match l with
  | [] => [x]
  | y :: r => if Qle_bool x y then x :: l else y :: insert x r
  end.
Definition sort (l : list Q) : list Q := fold_right insert [] l.
(** src/breakpoints.rs:44-55 -- [add]. *)
Definition br_add (bs : list Q) (b : breakpoints) : breakpoints :=
  mkBreaks (sort (br_fixed b ++ filter (fun x => negb (existsb (Qeq_bool x) (br_fixed b))) bs)) (br_next b).
(** src/breakpoints.rs:29-33 -- [from]. *)
Definition br_from (bs : list Q) : breakpoints := br_add bs br_empty.

(** piecewise.rs:9 -- [CONVERGENCE_THRESHOLD]. *)
Definition CONVERGENCE_THRESHOLD : Z := 10.

(** piecewise.rs:58-62 -- [Direction]. *)
Inductive direction : Type := ToLeft | ToRight.

Section Piecewise.
  (** src/numerics/quadrature/mod.rs:13-32 -- [integral] of the integrand. *)
  Variable integral : point -> point -> Q.
  Variable breaks : breakpoints.

  (** piecewise.rs:64-184 -- [__piecewise_integral]: the intervals [integral] is called for, in
      order; the result is the sum of its results.  The recursion is bounded by [fuel] ([None]:
      not finished). *)
  Fixpoint pieces_from (fuel : nat) (dir : direction) (b : Q) (to : point) (i n : Z) : option (list (point * point)) :=
    match fuel with
    | O => None
    | S fuel' =>
        if match dir with ToLeft => point_leb (Pt b) to | ToRight => point_leb to (Pt b) end then Some []
        else
          let fixed_b := if 0 <=? i then nth_error (br_fixed breaks) (Z.to_nat i) else None in
          let dynamic := match br_next breaks with None => (None, None) | Some next => next b end in
          let choice :=
            match fixed_b with
            | None => (match dir with ToLeft => fst dynamic | ToRight => snd dynamic end, i)
            | Some fixed_b =>
                match dir with
                | ToLeft =>
                    match fst dynamic with
                    | None => (Some fixed_b, i - 1)
                    | Some left_b => if Qltb fixed_b left_b then (Some left_b, i) else (Some fixed_b, i - 1)
                    end
                | ToRight =>
                    match snd dynamic with
                    | None => (Some fixed_b, i + 1)
                    | Some right_b => if Qltb right_b fixed_b then (Some right_b, i) else (Some fixed_b, i + 1)
                    end
                end
            end in
          let last_piece := match dir with ToLeft => (to, Pt b) | ToRight => (Pt b, to) end in
          match fst choice with
          | None => Some [last_piece]
          | Some next_b =>
              if match dir with ToLeft => point_leb (Pt next_b) to | ToRight => point_leb to (Pt next_b) end
              then Some [last_piece]
              else
                let piece := match dir with ToLeft => (Pt next_b, Pt b) | ToRight => (Pt b, Pt next_b) end in
                let small := Qltb (integral (fst piece) (snd piece)) PRECISION in
                let next_n := if small then n + 1 else n in
                if small && (CONVERGENCE_THRESHOLD <=? next_n) then Some [piece]
                else
                  match pieces_from fuel' dir next_b to (snd choice) next_n with
                  | Some r => Some (piece :: r)
                  | None => None
                  end
          end
    end.

  (** [Iterator::position]. *)
  Fixpoint position (f : Q -> bool) (l : list Q) : option Z :=
    match l with
    | [] => None
    | x :: r => if f x then Some 0 else match position f r with Some i => Some (i + 1) | None => None end
    end.

  (** piecewise.rs:19-28 -- the initial breakpoint. *)
  Definition initial (from to : point) : Q :=
    match from, to with
    | Pt a, Pt b => ((b - a) / 2 + a)%Q
    | Pt a, _ => a
    | _, Pt b => b
    | _, _ => 0%Q
    end.

  (** piecewise.rs:13-56 -- [piecewise_integral]: the intervals to the left and to the right. *)
  Definition piecewise (fuel : nat) (from to : point) : option (list (point * point) * list (point * point)) :=
    let init := initial from to in
    let i := match position (fun x => Qltb init x) (br_fixed breaks) with
             | Some i => i
             | None => Z.of_nat (length (br_fixed breaks))
             end in
    let prev_i := if (0 <? i) && match nth_error (br_fixed breaks) (Z.to_nat (i - 1)) with
                                 | Some x => Qeq_bool x init
                                 | None => false
                                 end
                  then i - 2 else i - 1 in
    match pieces_from fuel ToLeft init from prev_i 0, pieces_from fuel ToRight init to i 0 with
    | Some l, Some r => Some (l, r)
    | _, _ => None
    end.
  Definition value_of (ps : list (point * point)) : Q := Qsum (map (fun p => integral (fst p) (snd p)) ps).
  Definition piecewise_integral (fuel : nat) (from to : point) : option Q :=
    match piecewise fuel from to with
    | Some (l, r) => Some (value_of l + value_of r)%Q
    | None => None
    end.
End Piecewise.
