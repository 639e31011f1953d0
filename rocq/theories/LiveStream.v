(** Sessions whose instances agree with the instance of the whole day as far as the algorithm sees. *)
From Coq Require Import Lia.
From Verif Require Import NumLemmas StreamModel StreamSpec StreamProofs SessionSpec SessionStream.
From Verif Require Import ProblemModel CostModel.
Local Open Scope Z_scope.

Section Live.
  Context {P X C D M B : Type}.
  Variable ops : problem_ops P X C D.
  Hypothesis HL : lawful_ops ops.
  Variable alg : online P -> Z -> list X -> M -> outcome (X * option M).
  Variable default : online P -> M.
  Variable upd : online P -> B -> outcome (online P).
  Notation same := (fun x : X => x).
  Notation runs := (run ops alg default same same upd).
  Notation picks := (chooses ops alg default).

  (** [q]: the instance of the day; [live t]: the one after [t] slots; [n] slots are known at first. *)
  Variable q : P.
  Variable live : nat -> P.
  Hypothesis Htend : forall t, po_tend ops (live t) = Z.of_nat t.

  Lemma firstn_more (xs ys : list X) y : firstn (S (length xs)) (xs ++ y :: ys) = xs ++ [y].
  Proof.
    rewrite firstn_app, firstn_all2 by lia. replace (S (length xs) - length xs)%nat with 1%nat by lia. reflexivity.
  Qed.

  Lemma run_live : forall ins xs m ys m',
    (forall j b, nth_error ins j = Some b ->
       upd (mkOnline (live (length xs + j)) 0) b = Ok (mkOnline (live (S (length xs + j))) 0)) ->
    (forall t us mem, (length xs < t <= length xs + length ins)%nat ->
       alg (mkOnline (live t) 0) (Z.of_nat t) us mem = alg (at_slot ops (mkOnline q 0) (Z.of_nat t)) (Z.of_nat t) us mem) ->
    (forall t, (length xs < t <= length xs + length ins)%nat ->
       default (mkOnline (live t) 0) = default (at_slot ops (mkOnline q 0) (Z.of_nat t))) ->
    (forall t, (length xs < t <= length xs + length ins)%nat -> exists c, po_objective ops (live t) (firstn t (xs ++ ys)) = Ok c) ->
    length ys = length ins -> picks (mkOnline q 0) xs m ys m' ->
    exists rs, runs (mkOnline (live (length xs)) 0, xs, m) (map Input ins)
        = (map Answered rs, Some (mkOnline (live (length xs + length ins)) 0, xs ++ ys, m')) /\
      map r_x rs = ys /\
      forall k r, nth_error rs k = Some r ->
        po_objective ops (live (length xs + S k)) (firstn (length xs + S k) (xs ++ ys)) = Ok (r_cost r).
  Proof.
    induction ins as [|b ins IH]; intros xs m ys m' HU HA HD HO HN HC.
    - destruct ys; [|discriminate HN]. inversion HC; subst. exists []. cbn [map run length]. rewrite Nat.add_0_r, app_nil_r.
      split; [reflexivity|]. split; [reflexivity|]. intros [|k] r Hr; discriminate Hr.
    - destruct ys as [|y ys]; [discriminate HN|]. cbn [length] in *. injection HN as HN.
      inversion HC as [|? ? ? m1 ? ? t HS HR]; subst.
      assert (Et : t = Z.of_nat (S (length xs))) by (unfold t; lia).
      pose proof (HU 0%nat b eq_refl) as U0. rewrite Nat.add_0_r in U0.
      destruct (HO (S (length xs)) ltac:(lia)) as [c Hc]. rewrite firstn_more in Hc.
      destruct (IH (xs ++ [y]) m1 ys m') as (rs & R1 & R2 & R3).
      + intros j b' Hj. rewrite app_length. cbn [length]. replace (length xs + 1 + j)%nat with (length xs + S j)%nat by lia. apply HU. exact Hj.
      + intros u us mem Hu. rewrite app_length in Hu. cbn [length] in Hu. apply HA. lia.
      + intros u Hu. rewrite app_length in Hu. cbn [length] in Hu. apply HD. lia.
      + intros u Hu. rewrite app_length in Hu. cbn [length] in Hu. rewrite <- app_assoc. apply HO. lia.
      + exact HN.
      + exact HR.
      + rewrite app_length in R1, R3. cbn [length] in R1, R3. rewrite <- app_assoc in R1, R3. cbn [app] in R1, R3.
        exists (mkResponse y c y c m1 :: rs). split; [|split].
        * cbn [map run]. unfold serve. rewrite U0. cbn [obind]. unfold online_next. cbn [on_p]. rewrite Htend.
          rewrite (proj2 (Z.eqb_eq _ _)) by lia. cbn [negb]. unfold alg_next. fold t. rewrite Et.
          rewrite HA by lia. rewrite HD by lia. rewrite Et in HS. rewrite HS. cbn [obind unwrap fst snd on_p]. rewrite Hc. cbn [obind unwrap].
          rewrite !map_id, Hc. cbn [obind unwrap]. rewrite app_length. cbn [length].
          replace (length xs + 1 - 1)%nat with (length xs) by lia. rewrite nth_error_app2, Nat.sub_diag by lia. cbn [nth_error from_option obind].
          replace (S (length xs)) with (length xs + 1)%nat by lia. rewrite R1. replace (length xs + 1 + length ins)%nat with (length xs + S (length ins))%nat by lia. reflexivity.
        * cbn [map r_x]. rewrite R2. reflexivity.
        * intros [|k] r Hr.
          -- injection Hr as <-. cbn [r_cost]. replace (length xs + 1)%nat with (S (length xs)) by lia. rewrite firstn_more. exact Hc.
          -- cbn [nth_error] in Hr. specialize (R3 k r Hr). replace (length xs + S (S k))%nat with (length xs + 1 + S k)%nat by lia. exact R3.
  Qed.

  (** The start. *)
  Variable n : nat.
  Hypothesis Hfirst : forall t us mem, (1 <= t <= n)%nat ->
    alg (at_slot ops (mkOnline (live n) 0) (Z.of_nat t)) (Z.of_nat t) us mem = alg (at_slot ops (mkOnline q 0) (Z.of_nat t)) (Z.of_nat t) us mem.
  Hypothesis Hblank : forall t, (1 <= t <= n)%nat ->
    default (at_slot ops (mkOnline (live n) 0) (Z.of_nat t)) = default (at_slot ops (mkOnline q 0) (Z.of_nat t)).
  Hypothesis Hverify : forall t, (t <= n)%nat -> po_verify ops (po_set ops (live n) (Z.of_nat t)) = Ok tt.

  Lemma picks_first : forall ys xs m m', (length xs + length ys <= n)%nat ->
    picks (mkOnline q 0) xs m ys m' -> picks (mkOnline (live n) 0) xs m ys m'.
  Proof.
    induction ys as [|y ys IH]; intros xs m m' Hn HC; inversion HC as [|? ? ? m1 ? ? t HS HR]; subst; [constructor|].
    cbn [length] in Hn. econstructor; [|apply IH; [rewrite app_length; cbn [length]; lia|exact HR]].
    assert (Et : Z.of_nat (length xs) + 1 = Z.of_nat (S (length xs))) by lia. unfold t in HS. cbv zeta. rewrite Et in *.
    rewrite Hfirst, Hblank by lia. exact HS.
  Qed.

  Lemma verify_first w t : 0 <= w -> (t <= n)%nat -> verify_o ops (mkOnline (po_set ops (live n) (Z.of_nat t)) w) = Ok tt.
  Proof.
    intros Hw Ht. unfold verify_o, verify_online, assert_validity. cbn [on_w on_p]. rewrite (proj2 (Z.leb_le 0 w)) by exact Hw. cbn [obind]. apply Hverify. exact Ht.
  Qed.

  Lemma prepare_live xs m c : length xs = n -> picks (mkOnline q 0) [] None xs m -> po_objective ops (live n) xs = Ok c ->
    prepare ops alg default same same 0 (live n) = Ok (mkOnline (live n) 0, mkOffline xs c xs c m).
  Proof.
    intros HN HC HO. unfold prepare. rewrite Htend.
    assert (Eself : po_set ops (live n) (Z.of_nat n) = live n) by (rewrite <- (Htend n); apply HL).
    assert (HV : forall t, (t <= n)%nat -> verify_o ops (mkOnline (po_set ops (live n) (Z.of_nat t)) 0) = Ok tt) by (intros; apply verify_first; lia).
    destruct n as [|n'] eqn:En.
    - destruct xs; [|discriminate HN]. inversion HC; subst. change (1 <? Z.of_nat 0) with false. cbv iota.
      assert (EV : verify_o ops (mkOnline (live 0) 0) = Ok tt) by (rewrite <- Eself at 1; apply HV; lia). rewrite EV. cbn [obind].
      change (1 <=? Z.of_nat 0 - 0) with false. cbn [obind on_p map]. rewrite HO. cbn [obind]. reflexivity.
    - rewrite <- En in *. assert (E1 : (if 1 <? Z.of_nat n then po_set ops (live n) 1 else live n) = po_set ops (live n) 1).
      { destruct (1 <? Z.of_nat n) eqn:E; [reflexivity|]. apply Z.ltb_ge in E. replace 1 with (Z.of_nat n) by lia. symmetry. exact Eself. }
      rewrite E1. rewrite (HV 1%nat ltac:(lia) : verify_o ops (mkOnline (po_set ops (live n) 1) 0) = Ok tt). cbn [obind].
      rewrite (proj2 (Z.leb_le 1 _)) by lia. unfold offline_stream.
      rewrite (stream_chosen ops alg default HL xs (Z.of_nat n - 0) (mkOnline (po_set ops (live n) 1) 0) [] None m).
      + cbn [app obind on_w]. unfold at_slot. cbn [on_p on_w]. rewrite !Z.sub_0_r.
        assert (E2 : po_set ops (po_set ops (live n) 1) (Z.of_nat n) = live n).
        { pose proof (at_slot_at_slot ops HL (mkOnline (live n) 0) 1 (Z.of_nat n)) as H. unfold at_slot in H. cbn [on_p on_w] in H.
          apply (f_equal on_p) in H. cbn [on_p] in H. rewrite H. exact Eself. }
        rewrite E2, HO. cbn [obind]. rewrite !map_id, HO. reflexivity.
      + intros ->. cbn [length] in HN. lia.
      + cbn [on_p length]. rewrite (proj1 HL). reflexivity.
      + cbn [length on_w]. lia.
      + intros t Ht. cbn [on_w on_p] in Ht. rewrite (proj1 HL) in Ht.
        pose proof (at_slot_at_slot ops HL (mkOnline (live n) 0) 1 t) as H. unfold at_slot in H at 2. cbn [on_p on_w] in H. rewrite H. unfold at_slot. cbn [on_p on_w].
        replace t with (Z.of_nat (Z.to_nat t)) by lia. apply HV. lia.
      + assert (HP : picks (mkOnline (live n) 0) [] None xs m) by (apply picks_first; [cbn [length]; lia|exact HC]).
        clear -HP HL. induction HP; [constructor|]. econstructor; [|eassumption].
        pose proof (at_slot_at_slot ops HL (mkOnline (live n) 0) 1 (Z.of_nat (length xs) + 1)) as E. unfold at_slot in E at 2. cbn [on_p on_w] in E. rewrite E. exact H.
  Qed.

  Variable ins : list B.
  Hypothesis Hupd : forall j b, nth_error ins j = Some b -> upd (mkOnline (live (n + j)) 0) b = Ok (mkOnline (live (S (n + j))) 0).
  Hypothesis Hlater : forall t us mem, (n < t <= n + length ins)%nat ->
    alg (mkOnline (live t) 0) (Z.of_nat t) us mem = alg (at_slot ops (mkOnline q 0) (Z.of_nat t)) (Z.of_nat t) us mem.
  Hypothesis Hblank_later : forall t, (n < t <= n + length ins)%nat ->
    default (mkOnline (live t) 0) = default (at_slot ops (mkOnline q 0) (Z.of_nat t)).

  Lemma session_live xs mem :
    picks (mkOnline q 0) [] None xs mem -> length xs = (n + length ins)%nat ->
    (forall t, (n <= t <= n + length ins)%nat -> exists c, po_objective ops (live t) (firstn t xs) = Ok c) ->
    exists off rs,
      start ops alg default same same upd 0 (live n) (map Input ins)
        = Ok (off, (map Answered rs, Some (mkOnline (live (n + length ins)) 0, xs, mem))) /\
      length rs = length ins /\ length (of_xs off) = n /\ xs = of_xs off ++ map r_x rs /\
      forall k c, (k <= length ins)%nat -> reported off rs k c -> po_objective ops (live (n + k)) (of_xs off ++ map r_x (firstn k rs)) = Ok c.
  Proof.
    intros HC HN HO. rewrite <- (firstn_skipn n xs) in HC. apply chooses_app in HC as (m1 & H1 & H2).
    assert (L1 : length (firstn n xs) = n) by (rewrite firstn_length; lia).
    destruct (HO n ltac:(lia)) as [c0 Hc0].
    pose proof (prepare_live (firstn n xs) m1 c0 L1 H1 Hc0) as HP.
    destruct (run_live ins (firstn n xs) m1 (skipn n xs) mem) as (rs & R1 & R2 & R3); rewrite ?L1, ?firstn_skipn; auto.
    { intros t Ht. apply HO. lia. }
    { rewrite skipn_length. lia. }
    rewrite L1, firstn_skipn in R1. rewrite L1, firstn_skipn in R3.
    exists (mkOffline (firstn n xs) c0 (firstn n xs) c0 m1), rs. unfold start. rewrite HP. cbn [obind fst snd of_xs of_m]. rewrite R1.
    assert (LR : length rs = length ins) by (rewrite <- (map_length r_x), R2, skipn_length; lia).
    split; [reflexivity|]. split; [exact LR|]. split; [exact L1|]. split; [rewrite R2, firstn_skipn; reflexivity|].
    intros k c Hk Hr.
    assert (EX : firstn n xs ++ map r_x (firstn k rs) = firstn (n + k) xs).
    { rewrite <- firstn_map, R2. rewrite <- (firstn_skipn n xs) at 3. rewrite firstn_app, L1, (firstn_all2 (firstn n xs)) by lia. do 2 f_equal. lia. }
    rewrite EX. destruct k as [|k]; cbn [reported of_cost] in Hr.
    - subst c. rewrite Nat.add_0_r. exact Hc0.
    - destruct Hr as (r & Hr & ->). exact (R3 k r Hr).
  Qed.
End Live.
