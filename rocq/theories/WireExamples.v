(** Concrete messages, and what the format breaks. *)
From Verif Require Import WireSpec WireProofs WireProps.
Local Open Scope Z_scope.

(** The bits of 1.0 and 2.5, of infinity and of NaN. *)
Definition one : Z := 1023 * 2 ^ 52.
Definition two_and_a_half : Z := 1024 * 2 ^ 52 + 2 ^ 50.
Definition infinity : Z := 2047 * 2 ^ 52.
Definition nan : Z := 2047 * 2 ^ 52 + 2 ^ 51.

Lemma no_nan z : is_nan z = false -> ~ not_a_number z.
Proof. intros E H. apply is_nan_spec in H. congruence. Qed.
Example nan_is_nan : not_a_number nan /\ ~ not_a_number infinity.
Proof. split; [split; [reflexivity|discriminate]|]. apply no_nan. reflexivity. Qed.

(** Two types of loads, with two and one samples. *)
Definition forecast : list (list (list Z)) := [[[one; two_and_a_half]; [infinity]]].
Example forecast_sendable : sendable forecast.
Proof.
  unfold sendable, short. split; [reflexivity|]. intros profile [<- |[]]. split; [reflexivity|].
  intros samples [<- |[<- |[]]]; (split; [reflexivity|]); cbn [In].
  - intros z [<- |[<- |[]]]; (split; [split; [discriminate|reflexivity]|apply no_nan; reflexivity]).
  - intros z [<- |[]]. split; [split; [discriminate|reflexivity]|apply no_nan; reflexivity].
Qed.
Example forecast_bytes : write online_input forecast =
  [1;0;0;0;0;0;0;0; 2;0;0;0;0;0;0;0; 2;0;0;0;0;0;0;0; 0;0;0;0;0;0;240;63; 0;0;0;0;0;0;4;64;
   1;0;0;0;0;0;0;0; 0;0;0;0;0;0;240;127].
Proof. vm_compute. reflexivity. Qed.
Example forecast_cut_off : read online_input (firstn 55 (write online_input forecast)) = Malformed.
Proof. vm_compute. reflexivity. Qed.
Example stop_is_no_input : read online_input [] = Malformed.
Proof. reflexivity. Qed.

(** A response of lazy capacity provisioning: two servers, at an infinite cost. *)
Definition anything (_ : list Z) : bool := true.
Definition lcp_response := response anything i32 nothing (dc_failure anything) (lcp_memory i32).
Definition two_servers :
  (list Z * (Z * output unit failure) * (list Z * (Z * output unit failure) * (option (list (Z * Z)) * Z)) + list Z) :=
  inl (([2], (infinity, Failure OutsideDecisionSpace)), (([2], (one, Success tt)), (Some [(1, 2); (-1, 3)], 12))).
Example two_servers_arrive : read lcp_response (write lcp_response two_servers ++ [7]) = Read two_servers [7].
Proof. vm_compute. reflexivity. Qed.

(** A client that sends NaN (none written in Rust can hold it, but the bytes can be sent) makes the thread of
    the server panic while it reads (in builds with debug assertions), where panics are not caught
    (online.rs:173): the server ends, without a response, for everybody. *)
Theorem requests_read_orderly_refuted :
  ~ (forall bytes, Forall (fun b => 0 <= b < 256) bytes -> read online_input bytes <> Crash).
Proof.
  intros H. apply (H (write (vec (vec (vec f64))) [[[nan]]])).
  - vm_compute. repeat (constructor; [split; [discriminate|reflexivity]|]). constructor.
  - vm_compute. reflexivity.
Qed.
Print Assumptions requests_read_orderly_refuted.

(** The memory of the probabilistic algorithm does not arrive: the density a client receives panics
    wherever it is evaluated, whatever the memory of the server is. *)
Theorem memory_arrives_refuted :
  forall m rest, fits (vec f64) (pm_breakpoints m) ->
  read_prob (write_prob m ++ rest) = Read (mkProb default_p (pm_breakpoints m)) rest /\
  ((exists z y, pm_density m z = Some y) -> read_prob (write_prob m) <> Read m []).
Proof.
  intros m rest H. assert (R : forall rest, read_prob (write_prob m ++ rest) = Read (mkProb default_p (pm_breakpoints m)) rest).
  { intros r. unfold read_prob, write_prob. rewrite (proj1 (vec_reliable f64 (uint_reliable 8)) _ r H). reflexivity. }
  split; [apply R|]. intros (z & y & E) F. assert (G := R []). rewrite app_nil_r, F in G. injection G as G.
  rewrite G in E. discriminate.
Qed.
Print Assumptions memory_arrives_refuted.

(** The hypotheses of [results_arrive] hold of a response with all kinds of outputs. *)
Example results_possible :
  a_cost anything (infinity, Failure (InfiniteDelay [65; 66] one two_and_a_half)) /\
  a_cost anything (one, Success (one, (0, [[[one; 0]; [0]]; [[]]]))) /\
  (forall v, In v [2; -1] -> - 2 ^ 31 <= v < 2 ^ 31) /\ a_text anything [69; 33].
Proof.
  assert (F : forall z, (0 <=? z) && (z <? 2 ^ 64) = true -> float z).
  { intros z H. apply andb_prop in H as [A B]. apply Z.leb_le in A. apply Z.ltb_lt in B. split; assumption. }
  unfold a_cost, an_output, a_text, short. cbn [fst snd]. repeat split; try (apply F; reflexivity); try (apply no_nan; reflexivity); try reflexivity.
  - destruct H as [<- |[<- |[]]]; discriminate.
  - destruct H as [<- |[<- |[]]]; reflexivity.
  - destruct H as [<- |[<- |[]]]; reflexivity.
  - destruct H as [<- |[<- |[]]]; [destruct H0 as [<- |[<- |[]]]|destruct H0 as [<- |[]]]; reflexivity.
  - destruct H as [<- |[<- |[]]]; [destruct H0 as [<- |[<- |[]]]|destruct H0 as [<- |[]]]; cbn [In] in H1; intuition subst; discriminate.
  - destruct H as [<- |[<- |[]]]; [destruct H0 as [<- |[<- |[]]]|destruct H0 as [<- |[]]]; cbn [In] in H1; intuition subst; reflexivity.
  - destruct H as [<- |[<- |[]]]; discriminate.
  - destruct H as [<- |[<- |[]]]; reflexivity.
  - destruct H as [<- |[<- |[]]]; discriminate.
  - destruct H as [<- |[<- |[]]]; reflexivity.
Qed.

(** Nor do the hitting costs in the memory of lazy budgeting for balanced load optimisation. *)
Theorem sblo_memory_arrives_refuted :
  forall (F : Type) (hitting_cost : list F) fields rest, fits sblo_fields fields ->
  read_sblo (write_sblo (hitting_cost, fields) ++ rest) = Read (@nil F, fields) rest /\
  (hitting_cost <> [] -> read_sblo (write_sblo (hitting_cost, fields)) <> Read (hitting_cost, fields) []).
Proof.
  intros F hs fields rest H.
  assert (R : forall rest, read_sblo (write_sblo (hs, fields) ++ rest) = Read (@nil F, fields) rest).
  { intros r. unfold read_sblo, write_sblo. cbn [snd]. rewrite (proj1 sblo_fields_reliable _ r H). reflexivity. }
  split; [apply R|]. intros N E. assert (G := R []). rewrite app_nil_r, E in G. injection G as G. contradiction.
Qed.
Print Assumptions sblo_memory_arrives_refuted.

(** A memory of lazy budgeting with two cached paths, and the map of these. *)
Definition up : (list Z * list Z) * bool := ([1; 0], [1; 0], true).
Definition down : (list Z * list Z) * bool := ([1; 0], [1; 0], false).
Definition paths : list (((list Z * list Z) * bool) * (list (list Z) * Z)) := [(down, ([[1; 0]], one)); (up, ([], two_and_a_half))].
Definition same (a b : (list Z * list Z) * bool) : bool :=
  if list_eq_dec Z.eq_dec (fst (fst a)) (fst (fst b)) then
    if list_eq_dec Z.eq_dec (snd (fst a)) (snd (fst b)) then Bool.eqb (snd a) (snd b) else false
  else false.
Example same_spec : forall a b, same a b = true <-> a = b.
Proof.
  intros [[a1 a2] a3] [[b1 b2] b3]. unfold same. cbn [fst snd]. destruct (list_eq_dec _ _ _) as [-> |N]; [|split; [discriminate|congruence]].
  destruct (list_eq_dec _ _ _) as [-> |N]; [|split; [discriminate|congruence]]. rewrite Bool.eqb_true_iff. split; congruence.
Qed.
Example budgeting_memory_arrives :
  fits slo_memory ([2; 1], ([5; 7], (one, Some (4, paths)))) /\
  read slo_memory (write slo_memory ([2; 1], ([5; 7], (one, Some (4, paths))))) = Read ([2; 1], ([5; 7], (one, Some (4, paths)))) [].
Proof.
  split; [|vm_compute; reflexivity].
  assert (I : forall l : list Z, short l -> forallb (fun z => (- 2 ^ 31 <=? z) && (z <? 2 ^ 31)) l = true -> fits (vec i32) l).
  { intros l Hs Hl. apply vec_fits; [exact Hs|]. intros z Hz. rewrite forallb_forall in Hl. specialize (Hl z Hz).
    apply andb_prop in Hl as [A B]. apply Z.leb_le in A. apply Z.ltb_lt in B. split; assumption. }
  assert (U : fits (vec (uint 8)) [1; 0]).
  { apply vec_fits; [reflexivity|]. intros z [<- |[<- |[]]]; (split; [discriminate|reflexivity]). }
  split; [apply I; reflexivity|]. split; [apply I; reflexivity|]. split; [split; [discriminate|reflexivity]|].
  split; [split; [discriminate|reflexivity]|]. apply vec_fits; [reflexivity|].
  intros e [<- |[<- |[]]]; (split; [split; [split; [apply I; reflexivity|exact U]|exact Logic.I]|]); (split; [|split; [discriminate|reflexivity]]);
    (apply vec_fits; [reflexivity|]); cbn [snd fst In]; intros x Hx.
  - destruct Hx as [<- |[]]. apply I; reflexivity.
  - destruct Hx.
Qed.
Example paths_listed : lists (collect same paths) paths.
Proof.
  split.
  - repeat constructor; cbn; intuition discriminate.
  - intros k v. unfold collect, paths. cbn [fold_left fst snd In]. destruct (same up k) eqn:U.
    + apply same_spec in U. subst k. split; [intros E; injection E as <-; auto|unfold up, down; intros [E|[E|[]]]; congruence].
    + destruct (same down k) eqn:V.
      * apply same_spec in V. subst k. split; [intros E; injection E as <-; auto|unfold up, down; intros [E|[E|[]]]; congruence].
      * split; [discriminate|]. intros [E|[E|[]]]; apply (f_equal fst) in E; cbn [fst] in E; subst k; discriminate.
Qed.
