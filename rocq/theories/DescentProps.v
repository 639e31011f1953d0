(** Properties of the algorithms based on convex optimisation (C57-C65): theorems only. *)
From Coq Require Import Qabs.
From Verif Require Import DescentModel DescentSpec DescentProofs DescentAlgorithms DescentMore DescentBounds.
From Verif Require Import ProblemModel CostModel.
Local Open Scope Z_scope.

(** C57.  Online balanced descent moves to a configuration of hitting cost at most [l] that
    is closest to the previous one in Bregman divergence, or else to a cheapest one. *)
Theorem obd_projects :
  forall (C D : Type) nlopt, exact_nlopt nlopt ->
  forall eps l h hf (o : online (gsco Q C D)) t xs H,
  let p := on_p o in let d := length (o_bounds p) in let prev := previous d xs in
  on_w o = 0 -> o_d p = Z.of_nat d -> length prev = d ->
  aligned (o_bounds p) -> charges (o_cost p) (o_bounds p) t H -> respects_eq eeq H ->
  computes d h hf -> respects_eq Qeq hf ->
  exists x, obd nlopt eps l h o t xs tt = Ok (x, None) /\
    map apply_precision x = x /\ descends (o_bounds p) H (divergence eps hf prev) l x.
Proof. intros C D nlopt Hex eps. exact (@obd_spec nlopt Hex C D eps). Qed.
Print Assumptions obd_projects.

(** C57.  Negative entropy, the other distance-generating function offered, is the sum of [j log2 j];
    it is not defined (the code panics) unless all coordinates are positive. *)
Theorem negative_entropy_value :
  forall (log2 : Q -> Q) (x : list Q),
  (Forall (fun j => 0 < j)%Q x ->
   exists q, negative_entropy log2 x = Ok q /\ (q == fold_right (fun j s => j * log2 j + s) 0 x)%Q) /\
  (Exists (fun j => j <= 0)%Q x -> negative_entropy log2 x = Panic).
Proof. exact entropy_value. Qed.
Print Assumptions negative_entropy_value.

(** C57.  With half the squared Euclidean norm as distance-generating function: the hitting
    cost is at most [l] whenever possible, and (unless the optimiser's tolerance interferes)
    no configuration of cost at most [l] is closer to the previous one in Euclidean
    distance, up to the error [delta] of the square root. *)
Theorem obd_euclidean :
  forall (C D : Type) nlopt, exact_nlopt nlopt ->
  forall eps sqrt delta l (o : online (gsco Q C D)) t xs H,
  let p := on_p o in let d := length (o_bounds p) in let prev := previous d xs in
  on_w o = 0 -> o_d p = Z.of_nat d -> length prev = d ->
  aligned (o_bounds p) -> charges (o_cost p) (o_bounds p) t H -> respects_eq eeq H ->
  (0 < eps)%Q -> (forall a b, (a == b)%Q -> (sqrt a == sqrt b)%Q) ->
  (forall q, (0 <= q)%Q -> (Qabs (sqrt q * sqrt q - q) <= delta)%Q) ->
  exists x, obd nlopt eps l (norm_squared (euclidean_norm sqrt)) o t xs tt = Ok (x, None) /\
    grid (o_bounds p) x /\
    ((exists z, grid (o_bounds p) z /\ ele (H z) (Fin l)) -> ele (H x) (Fin l)) /\
    ((exists z, grid (o_bounds p) z /\ ele (H z) (Fin l)) ->
     (forall z, grid (o_bounds p) z -> ele (H z) (Fin (l + (1 # 1000))) -> ele (H z) (Fin l)) ->
     forall z, grid (o_bounds p) z -> ele (H z) (Fin l) ->
       (distance2 prev x <= distance2 prev z + delta * (4 + (distance1 prev x + distance1 prev z) / eps))%Q).
Proof. intros C D nlopt Hex. exact (@obd_euclidean_spec C D nlopt Hex). Qed.
Print Assumptions obd_euclidean.

(** C58.  Primal online balanced descent moves to a cheapest configuration if moving there
    costs at most [beta] times its hitting cost.  Otherwise it takes a step of balanced
    descent to a level [l] which root finding answered for: cost of moving equals [beta l].
    Partial: the cost of moving should be at most [beta] times the hitting cost; but root
    finding accepts errors up to 10, see [pobd_balance_refuted]. *)
Theorem pobd_step_partial :
  forall (C D : Type) (vmerge : C -> C -> outcome C) (outside : D) nlopt, exact_nlopt nlopt ->
  forall brent eps h hf (o : online (gsco Q C D)) xs H N,
  let p := on_p o in let bounds := o_bounds p in let d := length bounds in let prev := previous d xs in
  let t := Z.of_nat (length xs) + 1 in
  on_w o = 0 -> o_d p = Z.of_nat d ->
  aligned bounds -> charges (o_cost p) bounds t H -> respects_eq eeq H ->
  computes d (o_norm p) N -> computes d h hf -> respects_eq Qeq hf ->
  forall beta,
  (forall ab f, (forall l, exists q, f l = Ok (Num q)) -> exists r, brent ab f = Ok r) ->
  grid bounds prev -> (forall z, grid bounds z -> ele (Fin 0) (H z)) -> (exists z, grid bounds z /\ is_fin (H z)) ->
  exists x v a, pobd vmerge outside nlopt brent eps beta h o t xs tt = Ok (x, None) /\
    cheapest bounds H v /\ eeq (H v) (Fin a) /\
    (((N (differenceQ v prev) <= beta * a)%Q /\ x = v) \/
     ((beta * a < N (differenceQ v prev))%Q /\
      exists b step F l,
        (eeq (H prev) (Fin b) \/ H prev = Inf /\ b = (1000 * a)%Q) /\
        (forall l, descends bounds H (divergence eps hf prev) l (step l) /\
           (F l == N (differenceQ (step l) prev) - beta * l)%Q) /\
        balances a b F (fun r => exists f, (forall l, f l = Ok (Num (F l))) /\ brent (a, b) f = Ok r) l /\
        x = step l)).
Proof. exact @pobd_spec. Qed.
Print Assumptions pobd_step_partial.

(** C59.  Greedy online balanced descent: with [s = mu * sqrt m], the weighted mean
    [s v + (1 - s) y] of a cheapest configuration [v] and the step [y] of primal balanced
    descent, or [v] itself if [s >= 1]. *)
Theorem gobd_mean :
  forall (C D : Type) (vmerge : C -> C -> outcome C) (outside : D) nlopt, exact_nlopt nlopt ->
  forall brent eps h (o : online (gsco Q C D)) xs H,
  let p := on_p o in let bounds := o_bounds p in let d := length bounds in
  let t := Z.of_nat (length xs) + 1 in
  on_w o = 0 -> aligned bounds -> charges (o_cost p) bounds t H -> respects_eq eeq H ->
  forall sqrt m mu gamma y mem,
  alg_next (pobd vmerge outside nlopt brent eps gamma h) (fun _ => tt) o xs None = Ok (y, mem) -> length y = d ->
  exists x v, gobd vmerge outside nlopt brent eps sqrt m mu gamma h o t xs tt = Ok (x, None) /\
    cheapest bounds H v /\
    let s := (mu * sqrt m)%Q in
    ((1 <= s)%Q -> x = v) /\
    ((s < 1)%Q -> length x = d /\ forall i, (nth i x 0 == s * nth i v 0 + (1 - s) * nth i y 0)%Q).
Proof. intros C D vm outside nlopt Hex brent eps h. exact (@gobd_spec C D vm outside nlopt Hex brent eps h (fun _ => 0%Q)). Qed.
Print Assumptions gobd_mean.

(** C60.  Regularised online balanced descent minimises the hitting cost plus
    [2 / (1 + sqrt (1 + 4 beta^2 / (alpha m)))] times the cost of moving from the previous
    configuration (the second regulariser always has weight 0). *)
Theorem robd_minimizes :
  forall (C D : Type) (vmerge : C -> C -> outcome C) (outside : D) nlopt, exact_nlopt nlopt ->
  forall (o : online (gsco Q C D)) xs H N,
  let p := on_p o in let bounds := o_bounds p in let d := length bounds in let prev := previous d xs in
  let t := Z.of_nat (length xs) + 1 in
  on_w o = 0 -> o_d p = Z.of_nat d ->
  aligned bounds -> charges (o_cost p) bounds t H -> respects_eq eeq H ->
  computes d (o_norm p) N ->
  forall sqrt m alpha beta,
  respects_eq Qeq N -> length prev = d -> (forall q, (0 <= sqrt q)%Q) ->
  exists x, robd vmerge outside nlopt sqrt m alpha beta o t xs tt = Ok (x, None) /\ grid bounds x /\
    let lambda := (2 / (1 + sqrt (1 + 4 * (beta * beta) / (alpha * m))))%Q in
    forall z, grid bounds z ->
      ele (eadd (H x) (Fin (lambda * N (differenceQ x prev)))) (eadd (H z) (Fin (lambda * N (differenceQ z prev)))).
Proof. exact @robd_spec. Qed.
Print Assumptions robd_minimizes.

(** C61.  Online gradient descent, if the previous configuration is inside of the bounds
    (by the step of finite differences) and costs are finite: a configuration closest (in
    Euclidean distance) to the previous one minus [eta t] times the gradient.  Partial: not
    at the bounds, see [ogd_boundary_refuted]. *)
Theorem ogd_step_partial :
  forall (C D : Type) (vmerge : C -> C -> outcome C) (outside : D) nlopt, exact_nlopt nlopt ->
  forall eps sqrt,
  (forall a b, (a == b -> sqrt a == sqrt b)%Q) -> (forall a b, (0 <= a -> a < b -> sqrt a < sqrt b)%Q) ->
  forall (o : online (gsco Q C D)) xs F,
  let p := on_p o in let bounds := o_bounds p in let d := length bounds in let prev := previous d xs in
  forall t,
  on_w o = 0 -> o_d p = Z.of_nat d -> aligned bounds ->
  charges (o_cost p) bounds t (fun x => Fin (F x)) ->
  length prev = d ->
  (forall i, (i < d)%nat -> in_boxQ bounds (moved prev i eps) /\ in_boxQ bounds (moved prev i (- eps))) ->
  forall eta,
  let y := map (fun i => nth i prev 0 - eta t * slope eps F prev i)%Q (seq 0 d) in
  exists x, ogd vmerge outside nlopt eps sqrt eta o t xs tt = Ok (x, None) /\ grid bounds x /\
    forall z, grid bounds z -> (distance2 x y <= distance2 z y)%Q.
Proof. exact @ogd_spec. Qed.
Print Assumptions ogd_step_partial.

(** C62.  Memoryless algorithm: moving to the answer costs at most half of its hitting cost
    (up to the tolerance 0.001), and no configuration to which that applies is cheaper. *)
Theorem memoryless_balances :
  forall (C D : Type) (vmerge : C -> C -> outcome C) (outside : D) nlopt, exact_nlopt nlopt ->
  forall (o : online (gssco Q C D)) xs H,
  let p := on_p o in
  forall u b prev t,
  on_w o = 0 -> g_d p = 1 -> g_bounds p = [u] -> g_switching p = [b] -> previous 1 xs = [prev] ->
  (0 <= u)%Q /\ hundredths u -> (0 <= prev <= u)%Q /\ hundredths prev ->
  (forall x, (0 <= x <= u)%Q -> exists c, call_mean vmerge (g_cost p) t [x] = Ok c /\ eeq (c_cost c) (H x)) ->
  (forall x y, (x == y)%Q -> eeq (H x) (H y)) -> (forall x, (0 <= x <= u)%Q -> ele (Fin 0) (H x)) ->
  exists x, memoryless vmerge outside nlopt o t xs tt = Ok ([x], None) /\
    ((0 <= x <= u)%Q /\ hundredths x) /\
    ele (Fin (b * Qabs (x - prev))) (eadd (escale (1 # 2) (H x)) (Fin (1 # 1000))) /\
    forall z, (0 <= z <= u)%Q -> hundredths z -> ele (Fin (b * Qabs (z - prev))) (escale (1 # 2) (H z)) -> ele (H x) (H z).
Proof. exact @memoryless_spec. Qed.
Print Assumptions memoryless_balances.

(** C63.  Randomly biased greedy: in slot [T] the answer minimises [W x + r theta N x] where
    [W x] is the least cost of any schedule for the slots 1..T followed by a move to [x],
    movement being weighted by [theta]. *)
Theorem rbg_minimizes :
  forall (C D : Type) (vmerge : C -> C -> outcome C) (outside : D) nlopt, exact_nlopt nlopt ->
  forall (p : gsco Q C D) H N theta,
  let bounds := o_bounds p in let d := length bounds in
  forall T,
  aligned bounds -> (forall t, 1 <= t <= Z.of_nat T -> charges (o_cost p) bounds t (H t)) ->
  (forall t, respects_eq eeq (H t)) -> computes d (o_norm p) N -> respects_eq Qeq N ->
  forall o xs r, on_p o = p -> on_w o = 0 -> o_d p = 1 -> d = 1%nat -> T = S (length xs) ->
  exists x W, rbg vmerge outside nlopt theta o (Z.of_nat (length xs) + 1) xs r = Ok (x, None) /\
    grid bounds x /\ (forall z, grid bounds z -> least_work bounds H N theta T z (W z)) /\
    forall z, grid bounds z ->
      ele (eadd (W x) (Fin (r * theta * N x))) (eadd (W z) (Fin (r * theta * N z))).
Proof. exact @rbg_spec. Qed.
Print Assumptions rbg_minimizes.

(** C64.  The static fractional optimum stays at one configuration in all slots, and no such
    schedule has a smaller alpha-unfair cost. *)
Theorem static_fractional_optimal :
  forall (C D : Type) (vmerge : C -> C -> outcome C) (merge : C -> C -> C) (outside : D) nlopt, exact_nlopt nlopt ->
  forall (sched : list Q -> split) (p : gsco Q C D) hit N,
  let bounds := o_bounds p in let d := length bounds in let n := Z.to_nat (o_tend p) in
  aligned bounds -> o_d p = Z.of_nat d -> 0 <= o_tend p ->
  (forall s x, 1 <= s <= o_tend p -> in_boxQ bounds x ->
     exists c, call_mean vmerge (o_cost p) s x = Ok c /\ eeq (c_cost c) (hit s x)) ->
  (forall s, respects_eq eeq (hit s)) -> computes d (o_norm p) N -> respects_eq Qeq N ->
  forall alpha l, (l = None \/ exists q, l = Some q /\ (q == 0)%Q) ->
  exists x, static_fractional vmerge merge outside nlopt sched p false alpha l = Ok (repeat x n) /\ grid bounds x /\
    forall z, grid bounds z ->
      ele (alpha_cost hit N d alpha (repeat x n)) (alpha_cost hit N d alpha (repeat z n)).
Proof. exact @static_spec. Qed.
Print Assumptions static_fractional_optimal.

(** C64.  Inverted movement costs and limits on movement other than 0 are rejected. *)
Theorem static_fractional_rejects :
  forall (C D : Type) (vmerge : C -> C -> outcome C) (merge : C -> C -> C) (outside : D) nlopt
    (sched : list Q -> split) (p : gsco Q C D) alpha l q,
  static_fractional vmerge merge outside nlopt sched p true alpha l = Err UnsupportedInvertedCost /\
  (~ (q == 0)%Q -> static_fractional vmerge merge outside nlopt sched p false alpha (Some q) = Err UnsupportedLConstrainedMovement).
Proof. exact @static_rejects. Qed.
Print Assumptions static_fractional_rejects.

(** C65.  With any optimiser that keeps to the bounds it is given, whatever Brent's method,
    finite differences and the distance-generating function do, all answers are within the
    bounds (if these are multiples of 0.01). *)
Theorem answers_within_bounds :
  forall (C D : Type) (vmerge : C -> C -> outcome C) (outside : D) nlopt, keeps_bounds nlopt ->
  forall brent eps sqrt (o : online (gsco Q C D)) xs,
  let bounds := o_bounds (on_p o) in
  aligned bounds ->
  forall h l beta eta steps m mu gamma alpha theta r t x mem mem',
  (obd nlopt eps l h o t xs tt = Ok (x, mem) -> in_boxQ bounds x) /\
  (pobd vmerge outside nlopt brent eps beta h o t xs tt = Ok (x, mem) -> in_boxQ bounds x) /\
  (dobd vmerge outside nlopt brent eps eta h o t xs tt = Ok (x, mem) -> in_boxQ bounds x) /\
  ((0 <= mu * sqrt m)%Q ->
   gobd vmerge outside nlopt brent eps sqrt m mu gamma h o t xs tt = Ok (x, mem) -> in_boxQ bounds x) /\
  (robd vmerge outside nlopt sqrt m alpha beta o t xs tt = Ok (x, mem) -> in_boxQ bounds x) /\
  (ogd vmerge outside nlopt eps sqrt steps o t xs tt = Ok (x, mem) -> in_boxQ bounds x) /\
  (length bounds = 1%nat -> rbg vmerge outside nlopt theta o t xs r = Ok (x, mem') -> in_boxQ bounds x).
Proof. exact @all_within_bounds. Qed.
Print Assumptions answers_within_bounds.

(** C65.  The same for the memoryless algorithm. *)
Theorem memoryless_within_bounds :
  forall (C D : Type) (vmerge : C -> C -> outcome C) (outside : D) nlopt (o : online (gssco Q C D)) xs t u x m,
  keeps_bounds nlopt -> g_bounds (on_p o) = [u] -> (0 <= u)%Q -> hundredths u ->
  memoryless vmerge outside nlopt o t xs tt = Ok (x, m) -> in_boxQ [(0%Q, u)] x.
Proof. exact @memoryless_box. Qed.
Print Assumptions memoryless_within_bounds.

(** C65.  Prediction windows are rejected with an error. *)
Theorem windows_rejected :
  forall (C D : Type) (vmerge : C -> C -> outcome C) (outside : D) nlopt brent eps sqrt (o : online (gsco Q C D))
    (o' : online (gssco Q C D)) xs h l beta eta steps m mu gamma alpha theta r t,
  on_w o <> 0 -> on_w o' <> 0 ->
  obd nlopt eps l h o t xs tt = Err UnsupportedPredictionWindow /\
  pobd vmerge outside nlopt brent eps beta h o t xs tt = Err UnsupportedPredictionWindow /\
  dobd vmerge outside nlopt brent eps eta h o t xs tt = Err UnsupportedPredictionWindow /\
  gobd vmerge outside nlopt brent eps sqrt m mu gamma h o t xs tt = Err UnsupportedPredictionWindow /\
  robd vmerge outside nlopt sqrt m alpha beta o t xs tt = Err UnsupportedPredictionWindow /\
  ogd vmerge outside nlopt eps sqrt steps o t xs tt = Err UnsupportedPredictionWindow /\
  rbg vmerge outside nlopt theta o t xs r = Err UnsupportedPredictionWindow /\
  memoryless vmerge outside nlopt o' t xs tt = Err UnsupportedPredictionWindow.
Proof. exact @windows_err. Qed.
Print Assumptions windows_rejected.

(** C66.  Dual online balanced descent takes a step of balanced descent to some level, which
    root finding answered. *)
Theorem dobd_step :
  forall (C D : Type) (vmerge : C -> C -> outcome C) (outside : D) nlopt, exact_nlopt nlopt ->
  forall brent eps h hf (o : online (gsco Q C D)) xs H,
  let p := on_p o in let bounds := o_bounds p in let d := length bounds in let prev := previous d xs in
  let t := Z.of_nat (length xs) + 1 in
  on_w o = 0 -> o_d p = Z.of_nat d -> length prev = d ->
  aligned bounds -> charges (o_cost p) bounds t H -> respects_eq eeq H ->
  computes d h hf -> respects_eq Qeq hf ->
  forall eta x mem, dobd vmerge outside nlopt brent eps eta h o t xs tt = Ok (x, mem) ->
  mem = None /\ exists a b f l, (forall v, cheapest bounds H v -> eeq (H v) (Fin a)) /\
    find_root brent a b f = Ok l /\ descends bounds H (divergence eps hf prev) l x.
Proof. exact @dobd_spec. Qed.
Print Assumptions dobd_step.
