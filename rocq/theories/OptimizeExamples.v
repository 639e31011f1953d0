(** Concrete instances for the properties of OptimizeProps, and their limits. *)
From Coq Require Import Lia Lqa Qabs.
From Verif Require Import NumLemmas OptimizeModel OptimizeSpec OptimizeProofs OptimizeBrute OptimizeProps.
From Verif Require Import ProblemModel CostModel.
Local Open Scope Z_scope.

(** ** An ideal optimiser exists, and the other hypotheses can be met *)
Example ideal_optimiser_exists : exists nlopt, exact_nlopt nlopt.
Proof. exists brute. exact brute_exact. Qed.

(** Minimise (x - 1)^2 on [0, 2] subject to x <= 1/2. *)
Definition parabola (x : list Q) : fnum := match x with [j] => Num ((j - 1) * (j - 1)) | _ => PosInf end.
Definition half_limit (x : list Q) : fnum := match x with [j] => Num (j - (1 # 2)) | _ => PosInf end.

Example minimize_hypotheses :
  let bounds := [(0, 2)]%Q in
  aligned bounds /\
  agrees bounds (fun x => Ok (parabola x)) parabola /\ respects_eq num_eq parabola /\
  Forall2 (agrees bounds) [fun x => Ok (half_limit x)] [half_limit] /\ Forall (respects_eq num_eq) [half_limit] /\
  minimize brute (fun x => Ok (parabola x)) bounds None [fun x => Ok (half_limit x)] =
    Ok ([50 # 100]%Q, parabola [50 # 100]%Q).
Proof.
  intros bounds.
  assert (forall F, agrees bounds (fun x => Ok (F x)) F) as HA.
  { intros F x _. exists (F x). split; [reflexivity|apply num_eq_refl]. }
  split; [|split; [apply HA|split; [|split; [constructor; [apply HA|constructor]|split]]]].
  - repeat constructor; [exists 0|exists 200|simpl]; unfold Qeq, Qle; simpl; lia.
  - intros x y H. destruct H as [|a b x y Hab H]; [exact I|]. destruct H; simpl; auto. rewrite Hab. reflexivity.
  - repeat constructor. intros x y H. destruct H as [|a b x y Hab H]; [exact I|]. destruct H; simpl; auto. rewrite Hab. reflexivity.
  - vm_compute. reflexivity.
Qed.

(** ** The bounds must be multiples of 0.01 *)

(** An optimiser which answers the upper bounds: the exact minimum of [-x]. *)
Definition upper_end (p : nl_problem) : outcome nl_result :=
  match omap finite_upper (nl_bounds p) with
  | Ok x => do v <- nl_objective p x; Ok (NlOk Success v x)
  | _ => Panic
  end.

(** The optimiser answers a point between the bounds 0 and 0.005, which minimises [-x]
    there; the answer of the library exceeds the upper bound. *)
Theorem minimize_bounds_refuted :
  let f (x : list Q) := match x with [j] => Ok (Num (- j)) | _ => Panic end in
  (forall p r, (forall b, In b (nl_bounds p) -> num_le (fst b) (snd b) /\ finite (fst b) = true) ->
     upper_end p = Ok r -> Forall2 (fun b j => num_le (fst b) (Num j) /\ num_le (Num j) (snd b)) (nl_bounds p) (nl_point r)) /\
  exists x v, minimize upper_end f [(0, 5 # 1000)]%Q None [] = Ok ([x], v) /\ ((5 # 1000) < x)%Q.
Proof.
  intros f. split.
  - intros p r Hb H. unfold upper_end in H. destruct (omap finite_upper (nl_bounds p)) as [x| |] eqn:E; try discriminate.
    apply obind_Ok in H as (v & _ & H). injection H as <-. cbn [nl_point].
    revert x E. induction (nl_bounds p) as [|[lo hi] bs IH]; intros x E.
    + injection E as <-. constructor.
    + cbn [omap] in E. apply obind_Ok in E as (u & Eu & E). apply obind_Ok in E as (us & Es & E). injection E as <-.
      destruct hi as [|q|]; try discriminate Eu. injection Eu as <-.
      constructor; [|apply IH; auto; intros b Hin; apply Hb; right; exact Hin].
      destruct (Hb (lo, Num q) (or_introl eq_refl)) as [H _]. split; [exact H|apply num_le_refl].
  - exists (1 # 100)%Q, (Num (- (1 # 100))%Q). split; [vm_compute; reflexivity|reflexivity].
Qed.

(** ** Roots *)

(** The function x - 9 has the root 9 in the interval [0, 100]; whatever Brent's method does,
    0 is answered. *)
Theorem find_root_refuted :
  forall brent, find_root brent 0 100 (fun x => Ok (Num (x - 9))) = Ok 0%Q /\ (9 - 9 == 0)%Q /\ ~ (0 - 9 == 0)%Q.
Proof. intros brent. split; [reflexivity|]. split; [reflexivity|]. unfold Qeq. simpl. lia. Qed.

(** A steep function: Brent's method is used. *)
Example find_root_steep :
  let brent (ab : Q * Q) (f : Q -> outcome fnum) : outcome Q := Ok (1234 # 1000)%Q in
  find_root brent 0 100 (fun x => Ok (Num (1000 * x - 1234))) = Ok (123 # 100)%Q.
Proof. vm_compute. reflexivity. Qed.
