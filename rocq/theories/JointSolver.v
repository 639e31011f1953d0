(** Load balancing with ideal optimisers. *)
From Coq Require Import Lia Lqa Setoid.
From Verif Require Import NumLemmas OptimizeProofs OptimizeBrute DescentProofs LoadProofs LoadObjective JointSpec.
From Verif Require Import ProblemModel CostModel.
Local Open Scope Z_scope.

(** What load balancing needs of the solver, for given functions. *)
Definition allowed (cs : list (list Q -> outcome Q)) (z : list Q) : Prop :=
  Forall (fun g => exists q, g z = Ok q /\ (q <= 0)%Q) cs.
Definition balanced (bounds : list (Q * Q)) (f : list Q -> outcome ext) (cs : list (list Q -> outcome Q)) (z : list Q) (c : ext) : Prop :=
  grid bounds z /\ map apply_precision z = z /\ allowed cs z /\ f z = Ok c /\
  forall y d, grid bounds y -> allowed cs y -> f y = Ok d -> ele c d.

Definition rounds {A} (g : list Q -> outcome A) : Prop := forall x, g x = g (map apply_precision x).

Lemma num_of_inj a b : num_of a = num_of b -> a = b.
Proof. destruct a, b; simpl; congruence. Qed.

Lemma evaluate_rounds f : (forall x, f x = f (map apply_precision x)) -> forall x, evaluate f x = f x.
Proof. intros H x. unfold evaluate. symmetry. apply H. Qed.

Lemma lifted_rounds {A} (g : list Q -> outcome A) (h : A -> fnum) : rounds g -> forall x, (do c <- g x; Ok (h c)) = (do c <- g (map apply_precision x); Ok (h c)).
Proof. intros H x. rewrite <- H. reflexivity. Qed.

Lemma allowed_satisfies cs z : Forall rounds cs ->
  allowed cs z <-> satisfies (map evaluate (map (fun g x => do q <- g x; Ok (Num q)) cs)) z 0.
Proof.
  intros HR. unfold allowed, satisfies. rewrite map_map, Forall_map. rewrite !Forall_forall in *. split; intros H g Hg.
  - destruct (H g Hg) as (q & E & L). unfold evaluate. rewrite <- (HR g Hg z), E. cbn [obind]. eexists. split; [reflexivity|exact L].
  - destruct (H g Hg) as (v & E & L). unfold evaluate in E. rewrite <- (HR g Hg z) in E. destruct (g z) as [q| |]; try discriminate. injection E as <-. exists q. split; [reflexivity|exact L].
Qed.

Lemma allowed_rounded cs z : Forall rounds cs -> allowed cs z -> allowed cs (map apply_precision z).
Proof.
  intros HR. unfold allowed. rewrite !Forall_forall in *. intros H g Hg. rewrite <- (HR g Hg z). auto.
Qed.

Section Careful.
  Variables (bounds : list (Q * Q)) (f : list Q -> outcome ext) (cs : list (list Q -> outcome Q)) (init : list Q).
  Hypothesis Ha : aligned bounds.
  Hypothesis Hinit : in_boxQ bounds init.
  Hypothesis Hf : rounds f.
  Hypothesis Hcs : Forall rounds cs.
  Hypothesis Dcs : forall g z, In g cs -> grid bounds z -> exists q, g z = Ok q.
  Hypothesis Hex : exists z, grid bounds z /\ allowed cs z.

  Let F := evaluate (fun x => do c <- f x; Ok (num_of c)).
  Let G := map evaluate (map (fun (g : list Q -> outcome Q) x => do q <- g x; Ok (Num q)) cs).

  Lemma F_eq x : F x = do c <- f x; Ok (num_of c).
  Proof. unfold F, evaluate. rewrite <- Hf. reflexivity. Qed.
  Lemma FG_rounds g : In g (F :: G) -> forall x, g x = g (map apply_precision x).
  Proof.
    intros Hg x. assert (exists h, g = evaluate h) as (h & ->).
    { destruct Hg as [<-|Hg]; [eexists; reflexivity|]. apply in_map_iff in Hg as (h & <- & _). eexists; reflexivity. }
    unfold evaluate. rewrite map_ap_idem. reflexivity.
  Qed.
  Lemma G_defined g : In g G -> forall x, in_boxQ bounds x -> exists v, g x = Ok v.
  Proof.
    intros Hg x Hx. unfold G in Hg. rewrite map_map in Hg. apply in_map_iff in Hg as (h & <- & Hh).
    destruct (Dcs h _ Hh (map_ap_grid _ _ Ha Hx)) as (q & E). unfold evaluate. rewrite E. cbn [obind]. eauto.
  Qed.

  Lemma G_supported : supports (choose_algorithm (length (map (fun (g : list Q -> outcome Q) x => do q <- g x; Ok (Num q)) cs))) G.
  Proof. apply chosen_supports. Qed.

  Lemma finish s v y nlopt a :
    nlopt (mkNL a Minimize F (num_bounds bounds) G init) = Ok (NlOk s v y) ->
    a = choose_algorithm (length (map (fun (g : list Q -> outcome Q) x => do q <- g x; Ok (Num q)) cs)) ->
    s <> MaxEvalReached -> s <> MaxTimeReached -> in_boxQ bounds y -> allowed cs y -> F y = Ok v ->
    (forall z w, in_boxQ bounds z -> allowed cs z -> F z = Ok w -> num_le v w) ->
    exists z c, load_minimize nlopt f bounds init cs = Some (z, c) /\ balanced bounds f cs z c.
  Proof.
    intros E -> Hs1 Hs2 Hy Hay Ev Hopt. unfold load_minimize, OptimizeModel.minimize, optimize.
    assert (length init = length bounds) as Hl by (symmetry; exact (Forall2_len _ _ _ Hinit)).
    assert (length (num_bounds bounds) = length bounds) as Hb by apply map_length. rewrite Hb, Hl, Nat.eqb_refl. cbn [obind]. match goal with |- context [nlopt ?q] => replace (nlopt q) with (@Ok nl_result (NlOk s v y)) by (symmetry; exact E) end. cbn [obind].
    rewrite F_eq in Ev. destruct (f y) as [c| |] eqn:Ec; try discriminate. cbn [obind] in Ev. injection Ev as Ev.
    exists (map apply_precision y), c. split.
    - destruct s; try congruence; rewrite <- Ev; destruct c; reflexivity.
    - split; [apply map_ap_grid; auto|]. split; [apply map_ap_idem|]. split; [apply allowed_rounded; auto|]. split; [rewrite <- Hf; exact Ec|].
      intros z d Hz Haz Ez. apply num_of_le. rewrite Ev. apply (Hopt z).
      + apply Hz.
      + exact Haz.
      + rewrite F_eq, Ez. reflexivity.
  Qed.

  Lemma careful_balances nlopt : careful_nlopt nlopt ->
    (forall z, grid bounds z -> allowed cs z -> exists c, f z = Ok c) ->
    exists z c, load_minimize nlopt f bounds init cs = Some (z, c) /\ balanced bounds f cs z c.
  Proof.
    intros HC Df.
    destruct (HC (choose_algorithm (length (map (fun (g : list Q -> outcome Q) x => do q <- g x; Ok (Num q)) cs))) F bounds G init G_supported Ha Hinit)
      as (s & v & y & E & Hs1 & Hs2 & Hy & Sy & Ev & Hopt).
    - exact FG_rounds.
    - exact G_defined.
    - intros x Hx Sx. apply allowed_satisfies in Sx; [|exact Hcs].
      destruct (Df _ (map_ap_grid _ _ Ha Hx) (allowed_rounded _ _ Hcs Sx)) as (c & Ec). rewrite <- Hf in Ec. rewrite F_eq, Ec. cbn [obind]. eauto.
    - destruct Hex as (z & Hz & Haz). exists z. split; [apply Hz|]. apply allowed_satisfies; auto.
    - eapply finish; eauto.
      + apply allowed_satisfies; auto.
      + intros z w Hz Haz. apply Hopt; [exact Hz|]. apply allowed_satisfies; auto.
  Qed.

  (** An ideal optimiser which may evaluate all points between the bounds, if all of them are allowed. *)
  Lemma exact_balances nlopt : exact_nlopt nlopt ->
    (forall z, grid bounds z -> exists c, f z = Ok c) -> (forall z, grid bounds z -> allowed cs z) ->
    exists z c, load_minimize nlopt f bounds init cs = Some (z, c) /\ balanced bounds f cs z c.
  Proof.
    intros HC Df Hall.
    assert (Hall' : forall z, in_boxQ bounds z -> allowed cs z).
    { intros z Hz. pose proof (Hall _ (map_ap_grid _ _ Ha Hz)) as H. unfold allowed in *. rewrite Forall_forall in *. intros g Hg. rewrite (Hcs g Hg z). auto. }
    destruct (HC (choose_algorithm (length (map (fun (g : list Q -> outcome Q) x => do q <- g x; Ok (Num q)) cs))) F bounds G init G_supported Ha Hinit)
      as (s & v & y & E & Hs1 & Hs2 & Hy & Ev & Hopt).
    - exact FG_rounds.
    - intros g [<-|Hg] x Hx; [|exact (G_defined g Hg x Hx)].
      destruct (Df _ (map_ap_grid _ _ Ha Hx)) as (c & Ec). rewrite <- Hf in Ec. rewrite F_eq, Ec. cbn [obind]. eauto.
    - destruct Hopt as [_ Hopt].
      { destruct Hex as (z & Hz & Haz). exists z. split; [apply Hz|]. apply allowed_satisfies; auto. }
      eapply finish; eauto. intros z w Hz Haz. apply Hopt; [exact Hz|]. apply allowed_satisfies; auto.
  Qed.
End Careful.

(** Trying all points of the grid is careful. *)
Theorem brute_careful : careful_nlopt brute.
Proof.
  intros a f bounds cs x0 _ Ha Hx0 Hr Dcs Df (z & Hz & Sz). unfold brute. cbn [nl_bounds nl_constraints nl_objective].
  change (map (fun b : Q * Q => (Num (fst b), Num (snd b))) bounds) with (num_bounds bounds).
  assert (Hsat : forall x, satisfies cs x 0 -> satisfies cs (map apply_precision x) 0).
  { intros x H. unfold satisfies in *. rewrite Forall_forall in *. intros g Hg. rewrite <- (Hr g (or_intror Hg) x). auto. }
  assert (Hin : forall x, in_boxQ bounds x -> satisfies cs x 0 -> In (map apply_precision x) (filter (admissible cs) (points (num_bounds bounds)))).
  { intros x Hx Sx. apply filter_In. split; [apply points_complete; auto|]. apply admissible_iff. auto. }
  pose proof (Hin z Hz Sz) as Hne.
  set (some := filter (admissible cs) (points (num_bounds bounds))) in *.
  assert (match some with [] => points (num_bounds bounds) | _ => some end = some) as -> by (destruct some; [destruct Hne|reflexivity]).
  assert (Hsome : forall x, In x some -> in_boxQ bounds x /\ satisfies cs x 0).
  { intros x Hx. apply filter_In in Hx as [H1 H2]. split; [apply points_sound; auto|apply admissible_iff; exact H2]. }
  destruct (best_spec f some) as (v & y & E & Hy & Ev & Hmin).
  - intros E. rewrite E in Hne. destruct Hne.
  - intros x Hx. destruct (Hsome x Hx). auto.
  - rewrite E. destruct (Hsome y Hy) as [By Sy]. exists Success, v, y. repeat (split; [first [reflexivity|discriminate|assumption]|]).
    intros w u Hw Sw Ew. apply (Hmin (map apply_precision w)); [auto|]. rewrite <- (Hr f (or_introl eq_refl) w). exact Ew.
Qed.
