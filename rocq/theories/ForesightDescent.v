(** The descent algorithms, the memoryless algorithm and randomly biased greedy do not look into the
    future. *)
From Coq Require Import Lia.
From Verif Require Import NumLemmas ConvertProofs ConvertObjective StreamSpec StreamProofs SessionStream ForesightSpec ForesightStream ForesightSolvers.
From Verif Require Import ProblemModel CostModel.
Local Open Scope Z_scope.

Lemma same_answer_eq {X M} (a b : outcome (X * option M)) : a = b -> same_answer (@eq M) a b.
Proof. intros ->. destruct b as [[x [m|]]| |]; cbn; auto. Qed.

(** *** Both kinds of instances *)
Section Instances.
  Context {C D : Type}.
  Variable vmerge : C -> C -> outcome C.
  Variable merge : C -> C -> C.
  Variable outside : D.
  Variable s : split.

  Lemma sco_set n (p q : gsco Q C D) t t' : agree_sco n p q ->
    agree_sco n (po_set (sco_ops valQ merge vmerge outside s) p t) (po_set (sco_ops valQ merge vmerge outside s) q t').
  Proof. intros (A & B & E & F). repeat split; auto. Qed.
  Lemma sco_less n n' (p q : gsco Q C D) : n' <= n -> agree_sco n p q -> agree_sco n' p q.
  Proof. intros H (A & B & E & F). repeat split; auto. intros t x Ht. apply F. lia. Qed.
  Lemma sco_verified n w (p q : gsco Q C D) : o_tend p = o_tend q -> o_tend p <= n -> agree_sco n p q ->
    verify_o (sco_ops valQ merge vmerge outside s) (mkOnline p w) = verify_o (sco_ops valQ merge vmerge outside s) (mkOnline q w).
  Proof.
    intros Ht _ (A & B & _). unfold verify_o. cbn [on_w on_p sco_ops po_verify]. unfold verify_sco. rewrite Ht, A, B. reflexivity.
  Qed.

  Lemma ssco_verified {T} (v : value T) n w (p q : gssco T C D) : g_tend p = g_tend q -> g_tend p <= n -> agree n p q ->
    verify_o (ssco_ops v merge vmerge outside s) (mkOnline p w) = verify_o (ssco_ops v merge vmerge outside s) (mkOnline q w).
  Proof.
    intros Ht _ (A & B & E & _). unfold verify_o. cbn [on_w on_p ssco_ops po_verify]. unfold verify_ssco. rewrite Ht, A, B, E. reflexivity.
  Qed.

  (** A step that is causal up to its memory makes an algorithm unforeseeing. *)
  Lemma unforeseeing_sco {M} (R : M -> M -> Prop) (alg : online (gsco Q C D) -> Z -> list (list Q) -> M -> outcome (list Q * option M)) default :
    (forall p q w t xs m m', o_tend p = t -> o_tend q = t -> t = Z.of_nat (length xs) + 1 -> agree_sco (t + w) p q -> R m m' ->
       same_answer R (alg (mkOnline p w) t xs m) (alg (mkOnline q w) t xs m')) ->
    (forall p q w, o_tend p = o_tend q -> agree_sco (o_tend p + w) p q -> R (default (mkOnline p w)) (default (mkOnline q w))) ->
    unforeseeing (sco_ops valQ merge vmerge outside s) agree_sco alg default.
  Proof.
    intros HS HD p q w n T T' HT HT' HA. unfold offline_stream.
    apply (stream_alike (sco_ops valQ merge vmerge outside s) agree_sco R alg alg default default (sco_ops_lawful _ _ _ _ _)) with (G := fun _ _ => True) (k := n).
    - intros. apply sco_set. assumption.
    - apply sco_less.
    - apply sco_verified.
    - auto.
    - intros p1 q1 w1 t xs m m' _. apply HS.
    - intros p1 q1 w1 _. apply HD.
    - exact I.
    - cbn. lia.
    - cbn. lia.
    - reflexivity.
    - reflexivity.
    - exact HT.
    - exact HT'.
    - apply sco_set. exact HA.
    - exact I.
  Qed.
  Lemma unforeseeing_ssco {T M} (v : value T) (R : M -> M -> Prop) (alg : online (gssco T C D) -> Z -> list (list T) -> M -> outcome (list T * option M)) default :
    (forall p q w t xs m m', g_tend p = t -> g_tend q = t -> t = Z.of_nat (length xs) + 1 -> agree (t + w) p q -> R m m' ->
       same_answer R (alg (mkOnline p w) t xs m) (alg (mkOnline q w) t xs m')) ->
    (forall p q w, g_tend p = g_tend q -> agree (g_tend p + w) p q -> R (default (mkOnline p w)) (default (mkOnline q w))) ->
    unforeseeing (ssco_ops v merge vmerge outside s) agree alg default.
  Proof.
    intros HS HD p q w n T0 T' HT HT' HA. unfold offline_stream.
    apply (stream_alike (ssco_ops v merge vmerge outside s) agree R alg alg default default (ssco_ops_lawful _ _ _ _ _)) with (G := fun _ _ => True) (k := n).
    - intros n0 p0 q0 t t' H. exact (agree_until n0 p0 q0 t t' H).
    - apply agree_less.
    - apply ssco_verified.
    - auto.
    - intros p1 q1 w1 t xs m m' _. apply HS.
    - intros p1 q1 w1 _. apply HD.
    - exact I.
    - cbn. lia.
    - cbn. lia.
    - reflexivity.
    - reflexivity.
    - exact HT.
    - exact HT'.
    - exact (agree_until _ p q 1 1 HA).
    - exact I.
  Qed.
  (** The case of algorithms which are causal in the sense of SessionSpec.v. *)
  Lemma unforeseeing_causal {T M} (v : value T) (alg : online (gssco T C D) -> Z -> list (list T) -> M -> outcome (list T * option M)) default :
    causal alg -> causal_memory default -> unforeseeing (ssco_ops v merge vmerge outside s) agree alg default.
  Proof.
    intros HA HD. apply unforeseeing_ssco with (R := @eq M).
    - intros p q w t xs m m' Hp Hq _ Hag <-. apply same_answer_eq. apply HA; [congruence|]. rewrite Hp. exact Hag.
    - intros p q w Ht Hag. apply HD; assumption.
  Qed.
End Instances.

Section Descent.
  Context {C D : Type}.
  Variable vmerge : C -> C -> outcome C.
  Variable merge : C -> C -> C.
  Variable outside : D.
  Variable nlopt : nl_problem -> outcome nl_result.
  Variable brent : Q * Q -> (Q -> outcome fnum) -> outcome Q.
  Variable eps : Q.
  Variable sqrt : Q -> Q.
  Variable s : split.
  Hypothesis HN : observes_nlopt nlopt.
  Hypothesis HB : observes_brent brent.

  Lemma hit_alike n (p q : gsco Q C D) t x : agree_sco n p q -> 1 <= t <= n -> hit_num vmerge outside p t x = hit_num vmerge outside q t x.
  Proof.
    intros (_ & B & _ & F) Ht. unfold hit_num, gsco_hit, call_mean_within. rewrite B. apply obind_ext; [|reflexivity]. apply obind_ext; [reflexivity|].
    intros [|]; [|reflexivity]. eapply same_mean; eassumption.
  Qed.

  Lemma bregman_alike n h l bounds (f g : cost_fn (list Q) C D) t x : same_costs n f g -> 1 <= t <= n ->
    bregman_projection nlopt eps h l bounds f t x = bregman_projection nlopt eps h l bounds g t x.
  Proof.
    intros H Ht. unfold bregman_projection. apply obind_ext; [eapply find_hitting_ext; eassumption|]. intros v. apply obind_ext.
    - apply (minimize_ext nlopt HN); [reflexivity|]. constructor; [|constructor]. intros y. rewrite (same_certain_cost n f g t y H Ht). reflexivity.
    - intros y. rewrite (same_certain_cost n f g t _ H Ht). reflexivity.
  Qed.

  Lemma obd_alike l h p q w t xs m : o_tend p = o_tend q -> 1 <= t -> agree_sco (t + w) p q ->
    obd nlopt eps l h (mkOnline p w : online (gsco Q C D)) t xs m = obd nlopt eps l h (mkOnline q w) t xs m.
  Proof.
    intros _ Ht (A & B & _ & F). unfold obd. cbn [on_w on_p]. destruct (negb (w =? 0)) eqn:E; [reflexivity|]. apply negb_false_iff, Z.eqb_eq in E. subst w.
    rewrite A, B. apply obind_ext; [|reflexivity]. eapply bregman_alike; [exact F|lia].
  Qed.
  Lemma obd_next_alike l h (p q : gsco Q C D) w xs : o_tend p = o_tend q -> agree_sco (Z.of_nat (length xs) + 1 + w) p q ->
    obd_next nlopt eps l h (mkOnline p w) xs = obd_next nlopt eps l h (mkOnline q w) xs.
  Proof. intros Ht H. unfold obd_next, alg_next. apply obd_alike; [exact Ht|lia|exact H]. Qed.

  Lemma pobd_alike beta h (p q : gsco Q C D) w t xs m : o_tend p = o_tend q -> t = Z.of_nat (length xs) + 1 -> agree_sco (t + w) p q ->
    pobd vmerge outside nlopt brent eps beta h (mkOnline p w) t xs m = pobd vmerge outside nlopt brent eps beta h (mkOnline q w) t xs m.
  Proof.
    intros Hpq Ht HA. pose proof HA as (A & B & E & F). unfold pobd. cbn [on_w on_p]. destruct (negb (w =? 0)) eqn:EW; [reflexivity|].
    apply negb_false_iff, Z.eqb_eq in EW. subst w. rewrite A, B. apply obind_ext; [eapply find_hitting_ext; [exact HN|exact F|lia]|]. intros v.
    rewrite E. apply obind_ext; [reflexivity|]. intros m1. apply obind_ext; [reflexivity|]. intros limit. destruct (negb _); [reflexivity|].
    apply obind_ext; [reflexivity|]. intros a. rewrite (hit_alike _ p q t _ HA) by lia. apply obind_ext; [reflexivity|]. intros b.
    apply obind_ext; [|intros l; apply obd_next_alike; [exact Hpq|subst t; exact HA]].
    apply find_root_ext; [exact HB|]. intros l. rewrite (obd_next_alike l h p q 0 xs Hpq) by (subst t; exact HA). apply obind_ext; [reflexivity|].
    intros y. rewrite E. reflexivity.
  Qed.

  Lemma dobd_alike eta h (p q : gsco Q C D) w t xs m : o_tend p = o_tend q -> t = Z.of_nat (length xs) + 1 -> agree_sco (t + w) p q ->
    dobd vmerge outside nlopt brent eps eta h (mkOnline p w) t xs m = dobd vmerge outside nlopt brent eps eta h (mkOnline q w) t xs m.
  Proof.
    intros Hpq Ht HA. pose proof HA as (A & B & E & F). unfold dobd. cbn [on_w on_p]. destruct (negb (w =? 0)) eqn:EW; [reflexivity|].
    apply negb_false_iff, Z.eqb_eq in EW. subst w. rewrite A, B. apply obind_ext; [eapply find_hitting_ext; [exact HN|exact F|lia]|]. intros v.
    apply obind_ext; [reflexivity|]. intros a. rewrite (hit_alike _ p q t _ HA) by lia. apply obind_ext; [reflexivity|]. intros b.
    apply obind_ext; [|intros l; apply obd_next_alike; [exact Hpq|subst t; exact HA]].
    apply find_root_ext; [exact HB|]. intros l. rewrite (obd_next_alike l h p q 0 xs Hpq) by (subst t; exact HA). apply obind_ext; [reflexivity|].
    intros y. apply obind_ext; [reflexivity|]. intros gx. apply obind_ext; [reflexivity|]. intros gp. apply obind_ext; [reflexivity|]. intros g.
    apply obind_ext; [apply dual_norm_ext; assumption|]. intros dist.
    apply obind_ext; [apply gradient_ext; intros z; apply (hit_alike _ p q t z HA); lia|]. intros gf.
    apply obind_ext; [apply dual_norm_ext; assumption|]. reflexivity.
  Qed.

  Lemma gobd_alike m0 mu gamma h (p q : gsco Q C D) w t xs m : o_tend p = o_tend q -> t = Z.of_nat (length xs) + 1 -> agree_sco (t + w) p q ->
    gobd vmerge outside nlopt brent eps sqrt m0 mu gamma h (mkOnline p w) t xs m = gobd vmerge outside nlopt brent eps sqrt m0 mu gamma h (mkOnline q w) t xs m.
  Proof.
    intros Hpq Ht HA. pose proof HA as (A & B & E & F). unfold gobd. cbn [on_w on_p]. destruct (negb (w =? 0)) eqn:EW; [reflexivity|].
    apply negb_false_iff, Z.eqb_eq in EW. subst w. rewrite B. apply obind_ext; [eapply find_hitting_ext; [exact HN|exact F|lia]|]. intros v.
    apply obind_ext; [|reflexivity]. unfold alg_next. apply pobd_alike; [exact Hpq|reflexivity|]. subst t. exact HA.
  Qed.

  Lemma robd_alike m0 alpha beta (p q : gsco Q C D) w t xs m : 1 <= t -> agree_sco (t + w) p q ->
    robd vmerge outside nlopt sqrt m0 alpha beta (mkOnline p w) t xs m = robd vmerge outside nlopt sqrt m0 alpha beta (mkOnline q w) t xs m.
  Proof.
    intros Ht HA. pose proof HA as (A & B & E & F). unfold robd. cbn [on_w on_p]. destruct (negb (w =? 0)) eqn:EW; [reflexivity|].
    apply negb_false_iff, Z.eqb_eq in EW. subst w. cbv zeta. rewrite A, B. apply obind_ext; [eapply find_hitting_ext; [exact HN|exact F|lia]|]. intros v.
    apply obind_ext; [|reflexivity]. apply find_minimizer_ext; [exact HN|]. intros x. rewrite (hit_alike _ p q t x HA), !E by lia. reflexivity.
  Qed.

  Lemma ogd_alike eta (p q : gsco Q C D) w t xs m : 1 <= t -> agree_sco (t + w) p q ->
    ogd vmerge outside nlopt eps sqrt eta (mkOnline p w) t xs m = ogd vmerge outside nlopt eps sqrt eta (mkOnline q w) t xs m.
  Proof.
    intros Ht HA. pose proof HA as (A & B & E & F). unfold ogd. cbn [on_w on_p]. destruct (negb (w =? 0)) eqn:EW; [reflexivity|].
    apply negb_false_iff, Z.eqb_eq in EW. subst w. cbv zeta. rewrite A, B.
    apply obind_ext; [apply gradient_ext; intros z; apply (hit_alike _ p q t z HA); lia|]. reflexivity.
  Qed.

  Lemma work_alike n theta (p q : gsco Q C D) : agree_sco n p q -> forall t x, Z.of_nat t <= n -> work vmerge outside nlopt p theta t x = work vmerge outside nlopt q theta t x.
  Proof.
    intros HA. pose proof HA as (A & B & E & F). induction t as [|t IH]; intros x Ht; cbn [work].
    - rewrite E. reflexivity.
    - rewrite B. apply obind_ext; [|reflexivity]. apply find_minimizer_ext; [exact HN|]. intros y. rewrite IH by lia.
      rewrite (hit_alike _ p q _ y HA), E by lia. reflexivity.
  Qed.
  Lemma rbg_alike theta (p q : gsco Q C D) w t xs r : 1 <= t -> agree_sco (t + w) p q ->
    rbg vmerge outside nlopt theta (mkOnline p w) t xs r = rbg vmerge outside nlopt theta (mkOnline q w) t xs r.
  Proof.
    intros Ht HA. pose proof HA as (A & B & E & F). unfold rbg. cbn [on_w on_p]. destruct (negb (w =? 0)) eqn:EW; [reflexivity|].
    apply negb_false_iff, Z.eqb_eq in EW. subst w. cbv zeta. rewrite A, B. destruct (negb _); [reflexivity|].
    apply obind_ext; [|reflexivity]. apply find_minimizer_ext; [exact HN|]. intros x. rewrite (work_alike _ theta p q HA) by lia. rewrite E. reflexivity.
  Qed.

  Lemma memoryless_alike (p q : gssco Q C D) w t xs m : 1 <= t -> agree (t + w) p q ->
    memoryless vmerge outside nlopt (mkOnline p w) t xs m = memoryless vmerge outside nlopt (mkOnline q w) t xs m.
  Proof.
    intros Ht HA. pose proof HA as (A & B & E & F). unfold memoryless. cbn [on_w on_p]. destruct (negb (w =? 0)) eqn:EW; [reflexivity|].
    apply negb_false_iff, Z.eqb_eq in EW. subst w. rewrite A. destruct (negb _); [reflexivity|]. apply obind_ext; [reflexivity|]. intros prev.
    apply obind_ext; [|reflexivity]. unfold memoryless_next. rewrite B. apply obind_ext; [reflexivity|]. intros u. apply obind_ext; [|reflexivity].
    apply minimize_ext; [exact HN| |].
    - intros x. rewrite (agree_hit valQ vmerge outside _ p q t x HA) by lia. reflexivity.
    - constructor; [|constructor]. intros x. rewrite E. apply obind_ext; [reflexivity|]. intros b. apply obind_ext; [reflexivity|]. intros x0.
      rewrite (agree_hit valQ vmerge outside _ p q t _ HA) by lia. reflexivity.
  Qed.

  (** *** The algorithms *)
  Notation ops := (sco_ops valQ merge vmerge outside s).
  Notation none := (fun _ => tt).

  Lemma unit_steps (alg : online (gsco Q C D) -> Z -> list (list Q) -> unit -> outcome (list Q * option unit)) :
    (forall p q w t xs m, o_tend p = o_tend q -> t = Z.of_nat (length xs) + 1 -> agree_sco (t + w) p q ->
       alg (mkOnline p w) t xs m = alg (mkOnline q w) t xs m) -> unforeseeing ops agree_sco alg none.
  Proof.
    intros H. apply unforeseeing_sco with (R := @eq unit); [|reflexivity]. intros p q w t xs m m' Hp Hq Ht HA <-.
    apply same_answer_eq. apply H; [congruence|exact Ht|exact HA].
  Qed.

  Lemma obd_unforeseeing l h : unforeseeing ops agree_sco (obd nlopt eps l h) none.
  Proof. apply unit_steps. intros. apply obd_alike; try assumption. lia. Qed.
  Lemma pobd_unforeseeing beta h : unforeseeing ops agree_sco (pobd vmerge outside nlopt brent eps beta h) none.
  Proof. apply unit_steps. intros. apply pobd_alike; assumption. Qed.
  Lemma dobd_unforeseeing eta h : unforeseeing ops agree_sco (dobd vmerge outside nlopt brent eps eta h) none.
  Proof. apply unit_steps. intros. apply dobd_alike; assumption. Qed.
  Lemma gobd_unforeseeing m mu gamma h : unforeseeing ops agree_sco (gobd vmerge outside nlopt brent eps sqrt m mu gamma h) none.
  Proof. apply unit_steps. intros. apply gobd_alike; assumption. Qed.
  Lemma robd_unforeseeing m alpha beta : unforeseeing ops agree_sco (robd vmerge outside nlopt sqrt m alpha beta) none.
  Proof. apply unit_steps. intros. apply robd_alike; try assumption. lia. Qed.
  Lemma ogd_unforeseeing eta : unforeseeing ops agree_sco (ogd vmerge outside nlopt eps sqrt eta) none.
  Proof. apply unit_steps. intros. apply ogd_alike; try assumption. lia. Qed.
  Lemma rbg_blind theta (bias : Z -> Q) : unforeseeing ops agree_sco (rbg vmerge outside nlopt theta) (fun o => bias (o_tend (on_p o))).
  Proof.
    apply unforeseeing_sco with (R := @eq Q).
    - intros p q w t xs m m' Hp Hq Ht HA <-. apply same_answer_eq. apply rbg_alike; [lia|exact HA].
    - intros p q w Ht _. cbn [on_p]. rewrite Ht. reflexivity.
  Qed.
  Lemma memoryless_blind : unforeseeing (ssco_ops valQ merge vmerge outside s) agree (memoryless vmerge outside nlopt) none.
  Proof.
    apply unforeseeing_ssco with (R := @eq unit); [|reflexivity]. intros p q w t xs m m' Hp Hq Ht HA <-. apply same_answer_eq. apply memoryless_alike; [lia|exact HA].
  Qed.

  Lemma descents_unforeseeing :
    let streams_blindly alg := unforeseeing ops agree_sco alg none in
    (forall l h, streams_blindly (obd nlopt eps l h)) /\
    (forall beta h, streams_blindly (pobd vmerge outside nlopt brent eps beta h)) /\
    (forall eta h, streams_blindly (dobd vmerge outside nlopt brent eps eta h)) /\
    (forall m mu gamma h, streams_blindly (gobd vmerge outside nlopt brent eps sqrt m mu gamma h)) /\
    (forall m alpha beta, streams_blindly (robd vmerge outside nlopt sqrt m alpha beta)) /\
    (forall eta, streams_blindly (ogd vmerge outside nlopt eps sqrt eta)).
  Proof.
    split; [exact obd_unforeseeing|]. split; [exact pobd_unforeseeing|]. split; [exact dobd_unforeseeing|]. split; [exact gobd_unforeseeing|].
    split; [exact robd_unforeseeing|exact ogd_unforeseeing].
  Qed.
End Descent.
