(** The formats of all messages are reliable. *)
From Verif Require Import WireSpec.
Local Open Scope Z_scope.

Lemma split_app {A} (a b p q : list A) : a ++ b = p ++ q ->
  (exists q', a = p ++ q' /\ q' <> []) \/ (exists p', p = a ++ p' /\ b = p' ++ q).
Proof.
  revert p. induction a as [|x a IH]; intros p E; cbn in E.
  - right. exists p. auto.
  - destruct p as [|y p]; cbn in E.
    + left. exists (x :: a). split; [reflexivity|discriminate].
    + injection E as <- E. destruct (IH p E) as [(q' & -> & Hq)|(p' & -> & ->)].
      * left. exists q'. auto.
      * right. exists p'. auto.
Qed.

Lemma uint_reliable n : reliable (uint n).
Proof.
  split; cbn [uint fits write read].
  - induction n as [|n IH]; intros z rest Hz; cbn [write_le read_le app].
    + f_equal. change (256 ^ Z.of_nat 0) with 1 in Hz. lia.
    + rewrite Nat2Z.inj_succ, Z.pow_succ_r in Hz by lia. rewrite IH.
      * cbn [pbind]. f_equal. assert (H := Z.div_mod z 256). lia.
      * split; [apply Z.div_pos; lia|]. apply Z.div_lt_upper_bound; lia.
  - induction n as [|n IH]; intros z p q Hz E Hq; cbn [write_le] in E.
    + destruct p; [|discriminate]. cbn in E. subst q. contradiction.
    + destruct p as [|b p]; [reflexivity|]. cbn in E. injection E as <- E. cbn [read_le].
      rewrite Nat2Z.inj_succ, Z.pow_succ_r in Hz by lia. rewrite (IH (z / 256) p q); auto.
      split; [apply Z.div_pos; lia|]. apply Z.div_lt_upper_bound; lia.
Qed.

Lemma le_read n z rest : 0 <= z < 256 ^ Z.of_nat n -> read_le n (write_le n z ++ rest) = Read z rest.
Proof. intros H. exact (proj1 (uint_reliable n) z rest H). Qed.
Lemma le_short n z p q : 0 <= z < 256 ^ Z.of_nat n -> write_le n z = p ++ q -> q <> [] -> read_le n p = Malformed.
Proof. intros H. exact (proj2 (uint_reliable n) z p q H). Qed.

Lemma i32_reliable : reliable i32.
Proof.
  assert (R : forall z, 0 <= z mod 2 ^ 32 < 256 ^ Z.of_nat 4) by (intros z; apply Z.mod_pos_bound; reflexivity).
  split; cbn [i32 fits write read].
  - intros z rest Hz. rewrite le_read by apply R. cbn [pbind]. f_equal.
    change (2 ^ 31) with 2147483648 in *. change (2 ^ 32) with 4294967296 in *.
    destruct (Z_lt_le_dec z 0).
    + assert (E : z mod 4294967296 = z + 4294967296).
      { symmetry. apply (Z.mod_unique z 4294967296 (-1)); lia. }
      rewrite E. destruct (z + 4294967296 <? 2147483648) eqn:F; [apply Z.ltb_lt in F|]; lia.
    + rewrite Z.mod_small by lia. destruct (z <? 2147483648) eqn:F; [reflexivity|apply Z.ltb_ge in F; lia].
  - intros z p q Hz E Hq. rewrite (le_short 4 _ p q (R z) E Hq). reflexivity.
Qed.

Lemma nothing_reliable : reliable nothing.
Proof.
  split; cbn [nothing fits write read].
  - intros [] rest _. reflexivity.
  - intros [] p q _ E Hq. destruct p; [|discriminate]. cbn in E. subst q. contradiction.
Qed.

Lemma pair_reliable {A B} (c : codec A) (d : codec B) : reliable c -> reliable d -> reliable (pair c d).
Proof.
  intros [C1 C2] [D1 D2]. split; cbn [pair fits write read].
  - intros [a b] rest [Ha Hb]. cbn [fst snd] in *. rewrite <- app_assoc, C1 by auto. cbn [pbind]. rewrite D1 by auto. reflexivity.
  - intros [a b] p q [Ha Hb] E Hq. cbn [fst snd] in *. destruct (split_app _ _ _ _ E) as [(q' & Ea & Hq')|(p' & -> & Eb)].
    + rewrite (C2 a p q' Ha Ea Hq'). reflexivity.
    + rewrite C1 by auto. cbn [pbind]. rewrite (D2 b p' q Hb Eb Hq). reflexivity.
Qed.

Lemma option_reliable {A} (c : codec A) : reliable c -> reliable (option_of c).
Proof.
  intros [C1 C2]. split; cbn [option_of fits write read].
  - intros [a|] rest Ha; cbn; [rewrite C1 by auto|]; reflexivity.
  - intros [a|] p q Ha E Hq; destruct p as [|t p]; try reflexivity; cbn in E; injection E as <- E; cbn.
    + rewrite (C2 a p q Ha E Hq). reflexivity.
    + destruct p; [|discriminate]. cbn in E. subst q. contradiction.
Qed.

Lemma read_n_reliable {A} (c : codec A) : reliable c -> forall v, Forall (fits c) v ->
  (forall rest, read_n (read c) (length v) (flat_map (write c) v ++ rest) = Read v rest) /\
  (forall p q, flat_map (write c) v = p ++ q -> q <> [] -> read_n (read c) (length v) p = Malformed).
Proof.
  intros [C1 C2] v Hv. induction Hv as [|a v Ha Hv [IH1 IH2]]; cbn [length flat_map read_n].
  - split; [reflexivity|]. intros p q E Hq. destruct p; [|discriminate]. cbn in E. subst q. contradiction.
  - split.
    + intros rest. rewrite <- app_assoc, C1 by auto. cbn [pbind]. rewrite IH1. reflexivity.
    + intros p q E Hq. destruct (split_app _ _ _ _ E) as [(q' & Ea & Hq')|(p' & -> & Eb)].
      * rewrite (C2 a p q' Ha Ea Hq'). reflexivity.
      * rewrite C1 by auto. cbn [pbind]. rewrite (IH2 p' q Eb Hq). reflexivity.
Qed.

Lemma vec_reliable {A} (c : codec A) : reliable c -> reliable (vec c).
Proof.
  intros Hc.
  assert (R : forall v : list A, Z.of_nat (length v) < 256 ^ 8 -> 0 <= Z.of_nat (length v) < 256 ^ Z.of_nat 8).
  { intros v H. change (Z.of_nat 8) with 8. lia. }
  split; cbn [vec fits write read].
  - intros v rest [Hv Hl]. destruct (read_n_reliable c Hc v Hv) as [H1 _].
    rewrite <- app_assoc, le_read by auto. cbn [pbind]. rewrite Nat2Z.id. apply H1.
  - intros v p q [Hv Hl] E Hq. destruct (read_n_reliable c Hc v Hv) as [_ H2].
    destruct (split_app _ _ _ _ E) as [(q' & Ea & Hq')|(p' & -> & Eb)].
    + rewrite (le_short 8 _ p q' (R v Hl) Ea Hq'). reflexivity.
    + rewrite le_read by auto. cbn [pbind]. rewrite Nat2Z.id. apply (H2 p' q Eb Hq).
Qed.

Lemma tag_range k : 0 <= k < 8 -> 0 <= k < 256 ^ Z.of_nat 4.
Proof. intros H. change (256 ^ Z.of_nat 4) with 4294967296. lia. Qed.

Lemma either_reliable {A B} (c : codec A) (d : codec B) : reliable c -> reliable d -> reliable (either c d).
Proof.
  intros [C1 C2] [D1 D2]. split; cbn [either fits write read].
  - intros [a|b] rest H; rewrite <- app_assoc, le_read by (apply tag_range; lia); cbn [pbind Z.eqb Pos.eqb];
      [rewrite C1|rewrite D1]; auto.
  - intros [a|b] p q H E Hq; destruct (split_app _ _ _ _ E) as [(q' & Ea & Hq')|(p' & -> & Eb)].
    + rewrite (le_short 4 0 p q' (tag_range 0 ltac:(lia)) Ea Hq'). reflexivity.
    + rewrite le_read by (apply tag_range; lia). cbn [pbind Z.eqb Pos.eqb]. rewrite (C2 a p' q H Eb Hq). reflexivity.
    + rewrite (le_short 4 1 p q' (tag_range 1 ltac:(lia)) Ea Hq'). reflexivity.
    + rewrite le_read by (apply tag_range; lia). cbn [pbind Z.eqb Pos.eqb]. rewrite (D2 b p' q H Eb Hq). reflexivity.
Qed.

Lemma checked_reliable {A} bad (c : codec A) : reliable c -> reliable (checked bad c).
Proof.
  intros [C1 C2]. split; cbn [checked fits write read].
  - intros v rest [Hv Hb]. rewrite C1 by auto. cbn [pbind]. rewrite Hb. reflexivity.
  - intros v p q [Hv _] E Hq. rewrite (C2 v p q Hv E Hq). reflexivity.
Qed.

Section Messages.
  Variable utf8 : list Z -> bool.

  Lemma text_reliable : reliable (text utf8).
  Proof.
    destruct (vec_reliable _ (uint_reliable 1)) as [C1 C2]. split; cbn [text fits write read]; unfold text.
    - intros v rest [Hv Hu]. cbn [read write]. rewrite C1 by auto. cbn [pbind]. rewrite Hu. reflexivity.
    - intros v p q [Hv _] E Hq. cbn [read write] in *. rewrite (C2 v p q Hv E Hq). reflexivity.
  Qed.

  Lemma load_profile_reliable : reliable load_profile.
  Proof. apply checked_reliable, vec_reliable, vec_reliable, uint_reliable. Qed.
  Lemma online_input_reliable : reliable online_input.
  Proof. apply vec_reliable, load_profile_reliable. Qed.

  Lemma success_reliable : reliable success.
  Proof.
    apply pair_reliable; [apply uint_reliable|]. apply pair_reliable; [apply uint_reliable|].
    apply vec_reliable, vec_reliable, vec_reliable, uint_reliable.
  Qed.
  Lemma delay_reliable : reliable (delay utf8).
  Proof. apply pair_reliable; [apply text_reliable|]. apply pair_reliable; apply uint_reliable. Qed.

  Lemma tag_only k : 0 <= k < 8 ->
    (forall rest, read_le 4 (write_le 4 k ++ rest) = Read k rest) /\
    (forall p q, write_le 4 k = p ++ q -> q <> [] -> read_le 4 p = Malformed).
  Proof.
    intros H. split.
    - intros rest. apply le_read, tag_range, H.
    - intros p q. apply le_short, tag_range, H.
  Qed.

  Lemma dc_failure_reliable : reliable (dc_failure utf8).
  Proof.
    destruct delay_reliable as [C1 C2]. split; unfold dc_failure; cbn [fits write read].
    - intros [|s n d| | |] rest H.
      2:{ rewrite <- app_assoc, (proj1 (tag_only 1 ltac:(lia))). cbn [pbind Z.eqb Pos.eqb]. rewrite C1 by auto. reflexivity. }
      + rewrite (proj1 (tag_only 0 ltac:(lia))). reflexivity.
      + rewrite (proj1 (tag_only 2 ltac:(lia))). reflexivity.
      + rewrite (proj1 (tag_only 3 ltac:(lia))). reflexivity.
      + rewrite (proj1 (tag_only 4 ltac:(lia))). reflexivity.
    - intros [|s n d| | |] p q H E Hq.
      2:{ destruct (split_app _ _ _ _ E) as [(q' & Ea & Hq')|(p' & -> & Eb)].
          - rewrite (proj2 (tag_only 1 ltac:(lia)) p q' Ea Hq'). reflexivity.
          - rewrite (proj1 (tag_only 1 ltac:(lia))). cbn [pbind Z.eqb Pos.eqb]. rewrite (C2 _ p' q H Eb Hq). reflexivity. }
      + rewrite (proj2 (tag_only 0 ltac:(lia)) p q E Hq). reflexivity.
      + rewrite (proj2 (tag_only 2 ltac:(lia)) p q E Hq). reflexivity.
      + rewrite (proj2 (tag_only 3 ltac:(lia)) p q E Hq). reflexivity.
      + rewrite (proj2 (tag_only 4 ltac:(lia)) p q E Hq). reflexivity.
  Qed.

  Lemma output_reliable {C D} (c : codec C) (d : codec D) : reliable c -> reliable d -> reliable (model_output c d).
  Proof.
    intros [C1 C2] [D1 D2]. split; cbn [model_output fits write read].
    - intros [a|b|] rest H; rewrite <- ?app_assoc.
      + rewrite (proj1 (tag_only 0 ltac:(lia))). cbn [pbind Z.eqb Pos.eqb]. rewrite C1 by auto. reflexivity.
      + rewrite (proj1 (tag_only 1 ltac:(lia))). cbn [pbind Z.eqb Pos.eqb]. rewrite D1 by auto. reflexivity.
      + rewrite (proj1 (tag_only 2 ltac:(lia))). reflexivity.
    - intros [a|b|] p q H E Hq.
      + destruct (split_app _ _ _ _ E) as [(q' & Ea & Hq')|(p' & -> & Eb)].
        * rewrite (proj2 (tag_only 0 ltac:(lia)) p q' Ea Hq'). reflexivity.
        * rewrite (proj1 (tag_only 0 ltac:(lia))). cbn [pbind Z.eqb Pos.eqb]. rewrite (C2 _ p' q H Eb Hq). reflexivity.
      + destruct (split_app _ _ _ _ E) as [(q' & Ea & Hq')|(p' & -> & Eb)].
        * rewrite (proj2 (tag_only 1 ltac:(lia)) p q' Ea Hq'). reflexivity.
        * rewrite (proj1 (tag_only 1 ltac:(lia))). cbn [pbind Z.eqb Pos.eqb]. rewrite (D2 _ p' q H Eb Hq). reflexivity.
      + rewrite (proj2 (tag_only 2 ltac:(lia)) p q E Hq). reflexivity.
  Qed.

  Lemma cost_reliable {C D} (c : codec C) (d : codec D) : reliable c -> reliable d -> reliable (cost c d).
  Proof. intros Hc Hd. apply checked_reliable, pair_reliable; [apply uint_reliable|]. apply output_reliable; auto. Qed.

  Lemma response_reliable {T C D M} (t : codec T) (c : codec C) (d : codec D) (m : codec M) :
    reliable t -> reliable c -> reliable d -> reliable m -> reliable (response utf8 t c d m).
  Proof.
    intros Ht Hc Hd Hm. apply either_reliable; [|apply text_reliable].
    apply pair_reliable; [apply pair_reliable; [apply vec_reliable, Ht|apply cost_reliable; auto]|].
    apply pair_reliable; [apply pair_reliable; [apply vec_reliable, i32_reliable|apply cost_reliable; auto]|].
    apply pair_reliable; [apply option_reliable, Hm|apply uint_reliable].
  Qed.

  Lemma memories_reliable :
    (forall T (t : codec T), reliable t -> reliable (lcp_memory t)) /\ reliable afhc_memory /\ reliable rbg_memory /\
    (forall M (m : codec M), reliable m -> reliable (randomized_memory m)).
  Proof.
    split; [intros T t Ht; apply vec_reliable, pair_reliable; auto|].
    split; [apply vec_reliable, vec_reliable, uint_reliable|]. split; [apply uint_reliable|].
    intros M m Hm. apply pair_reliable; [apply vec_reliable, uint_reliable|apply option_reliable, Hm].
  Qed.

  (** No message is the beginning of another one. *)
  Lemma prefix_free {A} (c : codec A) v w rest : reliable c -> fits c v -> fits c w -> write c w = write c v ++ rest -> v = w /\ rest = [].
  Proof.
    intros [C1 C2] Hv Hw E. destruct rest as [|b rest].
    - split; [|reflexivity]. assert (F := C1 v [] Hv). rewrite <- E in F. assert (G := C1 w [] Hw).
      rewrite app_nil_r in G. rewrite G in F. congruence.
    - assert (F := C2 w _ _ Hw E ltac:(discriminate)). assert (G := C1 v [] Hv). rewrite app_nil_r in G. congruence.
  Qed.
End Messages.

Lemma is_nan_spec z : is_nan z = true <-> not_a_number z.
Proof.
  unfold is_nan, not_a_number. rewrite Z.ltb_lt.
  assert (D := Z.div_mod z (2 ^ 52) ltac:(discriminate)). assert (B := Z.mod_pos_bound z (2 ^ 52) ltac:(reflexivity)).
  assert (D' := Z.div_mod (z / 2 ^ 52) (2 ^ 11) ltac:(discriminate)).
  assert (B' := Z.mod_pos_bound (z / 2 ^ 52) (2 ^ 11) ltac:(reflexivity)).
  assert (E : z mod 2 ^ 63 = 2 ^ 52 * ((z / 2 ^ 52) mod 2 ^ 11) + z mod 2 ^ 52).
  { symmetry. apply (Z.mod_unique z (2 ^ 63) (z / 2 ^ 52 / 2 ^ 11)).
    - left. change (2 ^ 63) with (2 ^ 52 * 2048). change (2 ^ 11) with 2048 in *. nia.
    - change (2 ^ 63) with (2 ^ 52 * 2 ^ 11). lia. }
  rewrite E. set (e := (z / 2 ^ 52) mod 2 ^ 11) in *. set (m := z mod 2 ^ 52) in *.
  change (2 ^ 11) with 2048 in *. change (2 ^ 52) with 4503599627370496 in *. lia.
Qed.
Lemma is_nan_false z : ~ not_a_number z -> is_nan z = false.
Proof. intros H. destruct (is_nan z) eqn:E; [|reflexivity]. apply is_nan_spec in E. contradiction. Qed.

Lemma sendable_fits loads : sendable loads -> fits online_input loads.
Proof.
  intros [Hs H]. cbn [online_input vec fits]. change (256 ^ 8) with (2 ^ 64). split; [|exact Hs].
  apply Forall_forall. intros profile Hp. destruct (H profile Hp) as [Hps H'].
  unfold load_profile. cbn [checked fits]. split.
  - cbn [vec fits]. change (256 ^ 8) with (2 ^ 64). split; [|exact Hps].
    apply Forall_forall. intros samples Hz. destruct (H' samples Hz) as [Hss H'']. split; [|exact Hss].
    apply Forall_forall. intros z Hin. destruct (H'' z Hin) as [R _]. cbn [f64 uint fits]. change (Z.of_nat 8) with 8. change (256 ^ 8) with (2 ^ 64). exact R.
  - destruct (existsb (existsb is_nan) profile) eqn:E; [|reflexivity]. apply existsb_exists in E as (samples & Hz & E).
    apply existsb_exists in E as (z & Hin & E). destruct (H' samples Hz) as [_ H'']. destruct (H'' z Hin) as [_ R]. apply is_nan_spec in E. contradiction.
Qed.

Lemma requests_round loads rest : sendable loads -> read online_input (write online_input loads ++ rest) = Read loads rest.
Proof. intros H. apply online_input_reliable, sendable_fits, H. Qed.
Lemma requests_short loads sent missing : sendable loads -> write online_input loads = sent ++ missing -> missing <> [] ->
  read online_input sent = Malformed.
Proof. intros H. apply online_input_reliable, sendable_fits, H. Qed.
Lemma requests_prefix a b rest : sendable a -> sendable b -> write online_input b = write online_input a ++ rest -> a = b /\ rest = [].
Proof. intros Ha Hb. apply prefix_free; [apply online_input_reliable|apply sendable_fits, Ha|apply sendable_fits, Hb]. Qed.

Lemma parts_reliable utf8 :
  reliable i32 /\ reliable f64 /\ reliable nothing /\ reliable success /\ reliable (dc_failure utf8) /\
  (forall T (t : codec T), reliable t -> reliable (lcp_memory t)) /\ reliable afhc_memory /\ reliable rbg_memory /\
  (forall M (m : codec M), reliable m -> reliable (randomized_memory m)).
Proof.
  split; [apply i32_reliable|]. split; [apply uint_reliable|]. split; [apply nothing_reliable|].
  split; [apply success_reliable|]. split; [apply dc_failure_reliable|]. apply memories_reliable.
Qed.

(** A panic while reading needs a NaN among the loads. *)
Lemma read_le_no_crash n : forall l, read_le n l <> Crash.
Proof.
  induction n as [|n IH]; intros [|b l]; cbn [read_le]; try discriminate.
  specialize (IH l). destruct (read_le n l); cbn; congruence.
Qed.
Lemma read_n_no_crash {A} (r : list Z -> parse A) n : (forall l, r l <> Crash) -> forall l, read_n r n l <> Crash.
Proof.
  intros H. induction n as [|n IH]; intros l; cbn [read_n]; [discriminate|].
  specialize (H l). destruct (r l) as [a rest| |]; cbn [pbind]; try congruence.
  specialize (IH rest). destruct (read_n r n rest); cbn [pbind]; congruence.
Qed.
Lemma vec_no_crash {A} (c : codec A) : (forall l, read c l <> Crash) -> forall l, read (vec c) l <> Crash.
Proof.
  intros H l. cbn [vec read]. assert (N := read_le_no_crash 8 l). destruct (read_le 8 l) as [n rest| |]; cbn [pbind]; try congruence.
  apply read_n_no_crash, H.
Qed.
Lemma read_n_crash {A} (r : list Z -> parse A) n : forall l, read_n r n l = Crash -> exists l', r l' = Crash.
Proof.
  induction n as [|n IH]; intros l E; cbn [read_n] in E; [discriminate|].
  destruct (r l) as [a rest| |] eqn:F; cbn [pbind] in E; try discriminate; [|eauto].
  apply (IH rest). destruct (read_n r n rest); cbn [pbind] in E; congruence.
Qed.
Lemma requests_crash l : read online_input l = Crash ->
  exists l' profile rest, read (vec (vec f64)) l' = Read profile rest /\
    exists samples z, In samples profile /\ In z samples /\ not_a_number z.
Proof.
  intros E. unfold online_input in E. cbn [vec read] in E. assert (N := read_le_no_crash 8 l).
  destruct (read_le 8 l) as [n rest| |]; cbn [pbind] in E; try congruence.
  apply read_n_crash in E as (l' & E). exists l'. unfold load_profile in E. cbn [checked read] in E.
  assert (N' := vec_no_crash _ (vec_no_crash f64 (read_le_no_crash 8)) l').
  destruct (read (vec (vec f64)) l') as [profile rest'| |]; cbn [pbind] in E; try congruence.
  exists profile, rest'. split; [reflexivity|].
  destruct (existsb (existsb is_nan) profile) eqn:B; [|discriminate]. apply existsb_exists in B as (samples & Hs & B).
  apply existsb_exists in B as (z & Hz & B). apply is_nan_spec in B. eauto.
Qed.

Lemma vec_fits {A} (c : codec A) v : short v -> (forall a, In a v -> fits c a) -> fits (vec c) v.
Proof. intros Hs H. cbn [vec fits]. split; [apply Forall_forall, H|]. change (256 ^ 8) with (2 ^ 64). exact Hs. Qed.
Lemma float_fits z : float z -> fits f64 z.
Proof. intros H. cbn [f64 uint fits]. exact H. Qed.
Lemma text_fits utf8 s : a_text utf8 s -> fits (text utf8) s.
Proof. intros (Hs & Hu & Hb). split; [|exact Hu]. apply vec_fits; [exact Hs|]. intros b Hin. exact (Hb b Hin). Qed.
Lemma cost_fits utf8 c : a_cost utf8 c -> fits (cost success (dc_failure utf8)) c.
Proof.
  destruct c as [z o]. intros (Hz & Hn & Ho). cbn [fst snd] in *. split; [split|]; [apply float_fits, Hz| |apply is_nan_false, Hn].
  cbn [snd]. destruct o as [(e & r & a)|f|]; cbn [an_output model_output fits] in *; [| |exact I].
  - destruct Ho as (He & Hr & Hs & Ha). split; [apply float_fits, He|]. split; [apply float_fits, Hr|].
    apply vec_fits; [exact Hs|]. intros x Hx. destruct (Ha x Hx) as [Hxs Hx'].
    apply vec_fits; [exact Hxs|]. intros y Hy. destruct (Hx' y Hy) as [Hys Hy'].
    apply vec_fits; [exact Hys|]. intros w Hw. apply float_fits, Hy', Hw.
  - destruct f; cbn [dc_failure fits]; try exact I. destruct Ho as (Hs & Hn' & Hd).
    split; [apply text_fits, Hs|]. split; apply float_fits; assumption.
Qed.
Lemma results_arrive_lemma utf8 {T M} (t : codec T) (m : codec M) x c i ci memory runtime rest :
  reliable t -> reliable m ->
  short x -> (forall v, In v x -> fits t v) -> a_cost utf8 c ->
  short i -> (forall v, In v i -> - 2 ^ 31 <= v < 2 ^ 31) -> a_cost utf8 ci ->
  (forall v, memory = Some v -> fits m v) -> 0 <= runtime < 2 ^ 128 ->
  let codec := response utf8 t success (dc_failure utf8) m in
  let v := inl ((x, c), ((i, ci), (memory, runtime))) in
  read codec (write codec v ++ rest) = Read v rest.
Proof.
  intros Ht Hm Hx Hxv Hc Hi Hiv Hci Hmem Hrun codec v. apply response_reliable; auto;
    [apply success_reliable|apply dc_failure_reliable|].
  subst v. split; cbn [fst snd]; [split; [apply vec_fits; assumption|apply cost_fits, Hc]|].
  split; cbn [fst snd]; [split; [apply vec_fits; assumption|apply cost_fits, Hci]|].
  split; cbn [fst snd]; [|exact Hrun]. destruct memory as [w|]; [exact (Hmem w eq_refl)|exact I].
Qed.
Lemma errors_arrive_lemma utf8 {T M} (t : codec T) (m : codec M) s rest :
  reliable t -> reliable m -> a_text utf8 s ->
  let codec := response utf8 t success (dc_failure utf8) m in
  read codec (write codec (inr s) ++ rest) = Read (inr s) rest.
Proof.
  intros Ht Hm Hs codec. apply response_reliable; auto; [apply success_reliable|apply dc_failure_reliable|].
  apply text_fits, Hs.
Qed.

(** ** Memories of lazy budgeting *)
Lemma boolean_reliable : reliable boolean.
Proof.
  split; cbn [boolean fits write read].
  - intros [] rest _; reflexivity.
  - intros v p q _ E Hq. destruct p as [|x p]; [reflexivity|]. cbn in E. injection E as _ E. destruct p; [|discriminate].
    cbn in E. subst q. contradiction.
Qed.
Lemma cache_reliable : reliable cache.
Proof.
  apply pair_reliable; [apply i32_reliable|]. apply vec_reliable, pair_reliable.
  - apply pair_reliable; [|apply boolean_reliable]. apply pair_reliable; apply vec_reliable; [apply i32_reliable|apply uint_reliable].
  - apply pair_reliable; [apply vec_reliable, vec_reliable, i32_reliable|apply uint_reliable].
Qed.
Lemma slo_memory_reliable : reliable slo_memory.
Proof.
  apply pair_reliable; [apply vec_reliable, i32_reliable|]. apply pair_reliable; [apply vec_reliable, i32_reliable|].
  apply pair_reliable; [apply uint_reliable|]. apply option_reliable, cache_reliable.
Qed.
Lemma sblo_fields_reliable : reliable sblo_fields.
Proof.
  apply pair_reliable; [apply vec_reliable, i32_reliable|]. apply pair_reliable; [apply vec_reliable, vec_reliable, i32_reliable|].
  apply option_reliable. apply pair_reliable; [apply vec_reliable, vec_reliable, i32_reliable|]. apply option_reliable, cache_reliable.
Qed.

Lemma collect_from {A B} (eqb : A -> A -> bool) (Heq : forall a b, eqb a b = true <-> a = b) (l : list (A * B)) :
  forall m k, NoDup (map fst l) ->
  fold_left (fun m e k => if eqb (fst e) k then Some (snd e) else m k) l m k =
  match find (fun e => eqb (fst e) k) l with Some e => Some (snd e) | None => m k end.
Proof.
  induction l as [|[a b] l IH]; intros m k H; cbn [fold_left find fst snd]; [reflexivity|]. cbn [map fst] in H.
  inversion H as [|? ? Ha Hl]; subst. rewrite IH by exact Hl. destruct (eqb a k) eqn:E; [|reflexivity].
  apply Heq in E. subst k. destruct (find _ l) as [[a' b']|] eqn:F; [|reflexivity].
  apply find_some in F as [F G]. cbn [fst] in G. apply Heq in G. subst a'. exfalso. apply Ha.
  change a with (fst (a, b')). apply in_map, F.
Qed.
Lemma collect_lists {A B} (eqb : A -> A -> bool) (m : A -> option B) l : (forall a b, eqb a b = true <-> a = b) ->
  lists m l -> forall k, collect eqb l k = m k.
Proof.
  intros Heq [Hn Hl] k. unfold collect. rewrite collect_from by assumption.
  destruct (find _ l) as [[a b]|] eqn:F.
  - apply find_some in F as [F G]. cbn [fst] in G. apply Heq in G. subst a. symmetry. apply Hl, F.
  - destruct (m k) as [v|] eqn:E; [|reflexivity]. apply Hl in E. assert (X := find_none _ _ F _ E). cbn [fst] in X.
    assert (Y := proj2 (Heq k k) eq_refl). congruence.
Qed.
Lemma maps_arrive_lemma {A B} (c : codec A) (d : codec B) (eqb : A -> A -> bool) (m : A -> option B) entries rest :
  reliable c -> reliable d -> (forall a b, eqb a b = true <-> a = b) ->
  lists m entries -> fits (hash_map c d) entries ->
  exists entries', read (hash_map c d) (write (hash_map c d) entries ++ rest) = Read entries' rest /\
    forall k, collect eqb entries' k = m k.
Proof.
  intros Hc Hd Heq Hl Hf. exists entries. split; [|apply collect_lists; assumption].
  apply (vec_reliable _ (pair_reliable _ _ Hc Hd)), Hf.
Qed.
Lemma budgeting_memories_reliable :
  reliable vertice_key /\ reliable cached_path /\ reliable cache /\ reliable slo_memory /\ reliable sblo_fields.
Proof.
  split; [|split; [|split; [apply cache_reliable|split; [apply slo_memory_reliable|apply sblo_fields_reliable]]]].
  - apply pair_reliable; [|apply boolean_reliable]. apply pair_reliable; apply vec_reliable; [apply i32_reliable|apply uint_reliable].
  - apply pair_reliable; [apply vec_reliable, vec_reliable, i32_reliable|apply uint_reliable].
Qed.
