(** Model of src/numerics/quadrature/mod.rs: how the library calls bacon_sci's quadrature rules.
    No proofs. *)
From Verif Require Export ProbabilisticModel.
Local Open Scope Z_scope.

Section Quadrature.
  (** [std::f64::consts::E.powf]. *)
  Variable exp : Q -> Q.
  (** bacon_sci's [integrate] (tanh-sinh; the value found, also if it reports an error),
      [integrate_laguerre] and [integrate_hermite] ([Panic] if they report an error, as the results are
      unwrapped); [None]: not a number. *)
  Variable tanh_sinh : Q -> Q -> (Q -> outcome fnum) -> outcome (option fnum).
  Variable laguerre : (Q -> outcome fnum) -> outcome (option fnum).
  Variable hermite : (Q -> outcome fnum) -> outcome (option fnum).

  (** quadrature/mod.rs:34-37 and 52-62 -- [finite_integral] with [handle_integration_result]. *)
  Definition finite_integral (from to : Q) (f : Q -> outcome fnum) : outcome (option fnum) :=
    tanh_sinh from to f.
  (** quadrature/mod.rs:39-45 -- [semi_infinite_integral]. *)
  Definition semi_infinite_integral (f : Q -> outcome fnum) : outcome (option fnum) :=
    laguerre (fun x => do y <- f x; nscale (exp x) y).
  (** quadrature/mod.rs:47-50 -- [infinite_integral]. *)
  Definition infinite_integral (f : Q -> outcome fnum) : outcome (option fnum) := hermite f.

  (** quadrature/mod.rs:13-32 -- [integral].  Only finite points are arguments of integrands here, so
      that intervals starting in infinity or ending in minus infinity are a [Panic] (the Rust code
      panics for (infinity, minus infinity) and evaluates the integrand at infinity otherwise). *)
  Definition integral (from to : point) (f : Q -> outcome fnum) : outcome fnum :=
    do r <- match from, to with
            | MInf, PInf => infinite_integral f
            | Pt a, PInf => semi_infinite_integral (fun x => f (a + x)%Q)
            | MInf, Pt b => semi_infinite_integral (fun x => f (b - x)%Q)
            | Pt a, Pt b => finite_integral a b f
            | PInf, _ | _, MInf => Panic
            end;
    match r with None => Panic | Some v => Ok (round_num v) end.
End Quadrature.

(** bacon_sci's [second_derivative] as documented: the symmetric second difference with step [h];
    finite_differences.rs:26-39 calls it with [h = TOLERANCE.powf(-0.25)]. *)
Definition second_difference (h : Q) (f : Q -> outcome fnum) (x : Q) : outcome (option fnum) :=
  do a <- f (x - h)%Q;
  do b <- f x;
  do c <- f (x + h)%Q;
  do s <- nadd a c;
  do d <- nsub s (match b with Num q => Num (2 * q) | _ => b end);
  do r <- nscale (1 / (h * h)) d;
  Ok (Some r).
