(** Concrete runs of receding and averaging fixed horizon control, and the disagreement with
    the ratio 1 + c / (w + 1) claimed for a prediction window w. *)
From Coq Require Import Lia Lqa.
From Verif Require Import NumLemmas HorizonRunModel HorizonRunSpec HorizonProofs HorizonExamples HorizonRunProofs HorizonRunProps.
From Verif Require Import ProblemModel CostModel.
Local Open Scope Z_scope.

(** One server is needed in odd slots, none in even ones; a server costs 1 per slot and
    powering it up 4. *)
Definition need (t : Z) (j : Q) : Q := if Z.odd t then (100 - 99 * j)%Q else j.
Definition server : gssco Q unit unit := one_server 1 1 4 need.

(** ** An exact optimiser for these instances: it tries all schedules of zeros and ones. *)
Fixpoint vertices (n : nat) : list (list Q) :=
  match n with
  | O => [[]]
  | S n' => map (cons 0%Q) (vertices n') ++ map (cons 1%Q) (vertices n')
  end.
Fixpoint best_of (g : list Q -> outcome ext) (c : list Q) (b : ext) (l : list (list Q)) : outcome (list Q) :=
  match l with
  | [] => Ok c
  | x :: r => do q <- g x; if eltb q b then best_of g x q r else best_of g c b r
  end.
Definition try_vertices (g : list Q -> outcome ext) (bs : list (Q * Q)) (cs : list (list Q -> outcome Q)) : outcome (list Q) :=
  do b <- g (map (fun _ => 0%Q) bs);
  best_of g (map (fun _ => 0%Q) bs) b (vertices (length bs)).

Definition singles (x : list Q) : list (list Q) := map (fun j => [j]) x.

Lemma concat_singles x : concat (singles x) = x.
Proof. unfold singles. induction x as [|j x IH]; [reflexivity|]. cbn. rewrite IH. reflexivity. Qed.

Lemma vertices_spec n : forall x, In x (vertices n) <-> length x = n /\ Forall (fun j => j = 0 \/ j = 1)%Q x.
Proof.
  induction n as [|n IH]; intros x; cbn [vertices].
  - split; [intros [<- | []]; split; [reflexivity|constructor]|].
    intros [H _]. destruct x; [left; reflexivity|discriminate].
  - rewrite in_app_iff, !in_map_iff. split.
    + intros [(y & <- & Hy)|(y & <- & Hy)]; apply IH in Hy as [H1 H2]; (split; [cbn; lia|constructor; auto]).
    + intros [H1 H2]. destruct x as [|j x]; [discriminate|]. pose proof (Forall_inv H2) as Hj. apply Forall_inv_tail in H2.
      assert (In x (vertices n)) as Hx by (apply IH; split; [cbn in H1; lia|exact H2]).
      destruct Hj as [-> | ->]; [left|right]; exists x; auto.
Qed.

Lemma rows_singles n xs : rows everything [(0, 1)]%Q n xs -> exists x, xs = singles x /\ length x = n /\ Forall (fun j => 0 <= j <= 1)%Q x.
Proof.
  revert n. induction xs as [|y xs IH]; intros n (HL & HB & _).
  - exists []. repeat split; [exact HL|constructor].
  - pose proof (Forall_inv HB) as Hy. apply Forall_inv_tail in HB. destruct (IH (length xs)) as (x & -> & H1 & H2); [split; [reflexivity|split; [exact HB|apply Forall_forall; intros ? _; exact I]]|].
    inversion Hy as [|? j ? l Hj Hl]; subst. inversion Hl; subst. exists (j :: x). cbn [fst snd] in Hj.
    repeat split; [cbn [length] in *; rewrite <- H1; reflexivity|constructor; assumption].
Qed.

Lemma singles_rows x : Forall (fun j => 0 <= j <= 1)%Q x -> rows everything [(0, 1)]%Q (length x) (singles x).
Proof.
  intros H. split; [unfold singles; apply map_length|]. split; [|apply Forall_forall; intros ? _; exact I]. unfold singles. apply Forall_forall. intros y Hy.
  apply in_map_iff in Hy as (j & <- & Hj). rewrite Forall_forall in H. constructor; [apply H; exact Hj|constructor].
Qed.

Lemma vertex_unit x : Forall (fun j => j = 0 \/ j = 1)%Q x -> Forall (fun j => 0 <= j <= 1)%Q x.
Proof. apply Forall_impl. intros j [-> | ->]; lra. Qed.

Lemma eltb_cases a b : (eltb a b = true /\ ele a b) \/ (eltb a b = false /\ ele b a).
Proof.
  destruct a as [a|], b as [b|]; cbn [eltb ele]; auto. destruct (Qltb a b) eqn:E; [left|right]; (split; [exact E|]).
  - apply Qltb_iff in E. lra.
  - apply Qltb_false in E. lra.
Qed.

Lemma best_of_spec n g F : 
  (forall xs, rows everything [(0, 1)]%Q n xs -> exists c, g (concat xs) = Ok c /\ eeq c (F xs)) ->
  forall l c b, Forall (fun x => In x (vertices n)) l -> In c (vertices n) -> eeq b (F (singles c)) ->
  exists r, best_of g c b l = Ok r /\ In r (vertices n) /\ ele (F (singles r)) (F (singles c)) /\
    Forall (fun x => ele (F (singles r)) (F (singles x))) l.
Proof.
  intros Hg. induction l as [|x l IH]; intros c b Hl Hc Hb; cbn [best_of].
  - exists c. repeat split; auto. apply ele_refl.
  - pose proof (Forall_inv Hl) as Hx. apply Forall_inv_tail in Hl.
    assert (rows everything [(0, 1)]%Q n (singles x)) as Rx.
    { apply vertices_spec in Hx as [<- Hx]. apply singles_rows, vertex_unit, Hx. }
    destruct (Hg _ Rx) as (q & E & Eq). rewrite concat_singles in E. rewrite E. cbn [obind].
    destruct (eltb_cases q b) as [[-> Hle]|[-> Hle]].
    + destruct (IH x q Hl Hx Eq) as (r & R1 & R2 & R3 & R4). exists r. repeat split; auto.
      eapply ele_trans; [exact R3|]. rewrite <- Eq, <- Hb. exact Hle.
    + destruct (IH c b Hl Hc Hb) as (r & R1 & R2 & R3 & R4). exists r. repeat split; auto. constructor; [|exact R4].
      eapply ele_trans; [exact R3|]. rewrite <- Eq, <- Hb. exact Hle.
Qed.

Lemma try_vertices_solves n F :
  (forall x, length x = n -> Forall (fun j => 0 <= j <= 1)%Q x ->
     exists z, In z (vertices n) /\ ele (F (singles z)) (F (singles x))) ->
  solves everything 0 try_vertices [(0, 1)]%Q n F [].
Proof.
  intros HF g cs Hg _. unfold try_vertices.
  assert (length (concat (repeat [(0, 1)]%Q n)) = n) as HL by (clear; induction n as [|n IH]; cbn; [reflexivity|rewrite IH; reflexivity]).
  set (z0 := map (fun _ => 0%Q) (concat (repeat [(0, 1)]%Q n))).
  assert (In z0 (vertices n)) as Hz0.
  { apply vertices_spec. unfold z0. rewrite map_length. split; [exact HL|]. apply Forall_forall. intros j Hj.
    apply in_map_iff in Hj as (_ & <- & _). auto. }
  assert (rows everything [(0, 1)]%Q n (singles z0)) as Rz.
  { apply vertices_spec in Hz0 as [Lz Fz]. pose proof (singles_rows z0 (vertex_unit z0 Fz)) as G. rewrite Lz in G. exact G. }
  destruct (Hg _ Rz) as (b & E & Eb). rewrite concat_singles in E. rewrite E. cbn [obind]. rewrite HL.
  destruct (best_of_spec n g F Hg (vertices n) z0 b) as (r & R1 & R2 & _ & R3); auto.
  { apply Forall_forall. auto. }
  exists (singles r). rewrite concat_singles. split; [exact R1|]. split; [|split; [constructor|]].
  - apply vertices_spec in R2 as [Lr Fr]. pose proof (singles_rows r (vertex_unit r Fr)) as G. rewrite Lr in G. exact G.
  - intros xs Hxs _. destruct (rows_singles _ _ Hxs) as (x & -> & H1 & H2).
    destruct (HF x H1 H2) as (z & Hz & Hle). rewrite Forall_forall in R3. eapply ele_trans; [apply R3; exact Hz|exact Hle].
Qed.

(** ** Plans of this instance are best when they consist of zeros and ones. *)
Definition need1 (t : Z) (j : Q) : Q := if t <? 1 then 0%Q else need t j.
Fixpoint chain_cost (a : Z) (p : Q) (x : list Q) : Q :=
  match x with
  | [] => 0%Q
  | j :: r => (need1 a j + 4 * (if Qle_bool j p then 0 else j - p) + chain_cost (a + 1) j r)%Q
  end.

Lemma chain_plan : forall x a p, eeq (plan_cost (lift need) [4]%Q a [p] (singles x)) (Fin (chain_cost a p x)).
Proof.
  unfold plan_cost. induction x as [|j x IH]; intros a p; cbn [singles map total_cost chain_cost]; [reflexivity|].
  fold (singles x). rewrite IH. unfold hit_from_1, need1. cbn [power_upQ lift].
  destruct (a <? 1); simpl; ring.
Qed.

Lemma need1_affine t j : (need1 t j == (1 - j) * need1 t 0 + j * need1 t 1)%Q.
Proof. unfold need1, need. destruct (t <? 1); [ring|]. destruct (Z.odd t); ring. Qed.

Lemma vertex_plans : forall n a, exists z0 z1, In z0 (vertices n) /\ In z1 (vertices n) /\
  forall p x, (0 <= p <= 1)%Q -> length x = n -> Forall (fun j => 0 <= j <= 1)%Q x ->
    ((1 - p) * chain_cost a 0 z0 + p * chain_cost a 1 z1 <= chain_cost a p x)%Q.
Proof.
  induction n as [|n IH]; intros a.
  - exists [], []. cbn. repeat split; auto. intros p [|j x] Hp HL _; [cbn; lra|discriminate].
  - destruct (IH (a + 1)) as (z0 & z1 & I0 & I1 & H).
    set (A := (need1 a 0 + chain_cost (a + 1) 0 z0)%Q). set (B := (need1 a 1 + chain_cost (a + 1) 1 z1)%Q).
    assert (forall v, In v (vertices n) -> In (0 :: v)%Q (vertices (S n)) /\ In (1 :: v)%Q (vertices (S n))) as HI.
    { intros v Hv. cbn [vertices]. rewrite !in_app_iff. split; [left|right]; apply in_map; exact Hv. }
    exists (if Qle_bool A (B + 4) then 0 :: z0 else 1 :: z1)%Q, (if Qle_bool A B then 0 :: z0 else 1 :: z1)%Q.
    split; [destruct (Qle_bool A (B + 4)); apply HI; assumption|].
    split; [destruct (Qle_bool A B); apply HI; assumption|].
    intros p x Hp HL Hx. destruct x as [|j x]; [discriminate|]. pose proof (Forall_inv Hx) as Hj. cbn beta in Hj. apply Forall_inv_tail in Hx.
    specialize (H j x Hj). assert (length x = n) as HL' by (cbn in HL; lia). specialize (H HL' Hx).
    assert (chain_cost a 0 (if Qle_bool A (B + 4) then 0 :: z0 else 1 :: z1)%Q <= A /\
            chain_cost a 0 (if Qle_bool A (B + 4) then 0 :: z0 else 1 :: z1)%Q <= B + 4)%Q as [U1 U2].
    { destruct (Qle_bool A (B + 4)) eqn:E; [apply Qle_bool_iff in E|apply Qle_bool_false in E];
        cbn [chain_cost]; change (Qle_bool 0 0) with true; change (Qle_bool 1 0) with false; cbv iota; unfold A, B in *; lra. }
    assert (chain_cost a 1 (if Qle_bool A B then 0 :: z0 else 1 :: z1)%Q <= A /\
            chain_cost a 1 (if Qle_bool A B then 0 :: z0 else 1 :: z1)%Q <= B)%Q as [V1 V2].
    { destruct (Qle_bool A B) eqn:E; [apply Qle_bool_iff in E|apply Qle_bool_false in E];
        cbn [chain_cost]; change (Qle_bool 0 1) with true; change (Qle_bool 1 1) with true; cbv iota; unfold A, B in *; lra. }
    revert U1 U2 V1 V2.
    generalize (chain_cost a 0 (if Qle_bool A (B + 4) then 0 :: z0 else 1 :: z1)%Q)
               (chain_cost a 1 (if Qle_bool A B then 0 :: z0 else 1 :: z1)%Q).
    intros u v U1 U2 V1 V2. cbn [chain_cost].
    assert (need1 a j + chain_cost (a + 1) j x >= (1 - j) * A + j * B)%Q as G.
    { rewrite need1_affine. unfold A, B. lra. }
    destruct (Qle_bool j p) eqn:E; [apply Qle_bool_iff in E|apply Qle_bool_false in E].
    + assert (0 <= (1 - p) * (A - u))%Q by (apply Qmult_le_0_compat; lra).
      assert (0 <= (p - j) * (A - v))%Q by (apply Qmult_le_0_compat; lra).
      assert (0 <= j * (B - v))%Q by (apply Qmult_le_0_compat; lra). lra.
    + assert (0 <= (1 - j) * (A - u))%Q by (apply Qmult_le_0_compat; lra).
      assert (0 <= (j - p) * (B + 4 - u))%Q by (apply Qmult_le_0_compat; lra).
      assert (0 <= p * (B - v))%Q by (apply Qmult_le_0_compat; lra). lra.
Qed.

(** The optimiser above is exact for every window which starts at zero or one. *)
Lemma window_solved n m a p : (p = 0 \/ p = 1)%Q -> (m <= n)%nat ->
  solves everything 0 try_vertices [(0, 1)]%Q n (fun ys => plan_cost (lift need) [4]%Q a [p] (firstn m ys)) [].
Proof.
  intros Hp Hm. apply try_vertices_solves. intros x HL Hx.
  destruct (vertex_plans m a) as (z0 & z1 & I0 & I1 & H).
  set (z := if Qle_bool p 0 then z0 else z1).
  assert (In z (vertices m)) as Iz by (unfold z; destruct (Qle_bool p 0); assumption).
  assert (forall l k, firstn k (singles l) = singles (firstn k l)) as HF.
  { intros l k. unfold singles. apply firstn_map. }
  exists (z ++ repeat 0%Q (n - m)). pose proof Iz as Iz'. apply vertices_spec in Iz' as [Lz Fz]. split.
  - apply vertices_spec. rewrite app_length, repeat_length. split; [lia|]. apply Forall_app. split; [exact Fz|].
    apply Forall_forall. intros j Hj. apply repeat_spec in Hj. auto.
  - rewrite !HF, !chain_plan. rewrite firstn_app, Lz, Nat.sub_diag. cbn [firstn]. rewrite app_nil_r, firstn_all2 by lia.
    simpl. specialize (H p (firstn m x)). 
    assert ((1 - p) * chain_cost a 0 z0 + p * chain_cost a 1 z1 <= chain_cost a p (firstn m x))%Q as G.
    { apply H; [destruct Hp as [-> | ->]; lra|rewrite firstn_length; lia|].
      apply Forall_forall. intros j Hj. rewrite Forall_forall in Hx. apply Hx. eapply firstn_In. exact Hj. }
    unfold z. destruct Hp as [-> | ->]; [change (Qle_bool 0 0) with true|change (Qle_bool 1 0) with false]; cbv iota; lra.
Qed.

(** ** The hypotheses *)
Example server_valid : verify_ssco valQ server = Ok tt.
Proof. reflexivity. Qed.

Example server_costs t x : 1 <= t -> within_bounds (g_bounds server) x ->
  exists o, call_predictive (g_cost server) t x = Ok [mkCost (lift need t x) o].
Proof. intros Ht Hx. apply (one_server_costs 1 1 4 need t x Ht Hx). Qed.

Example server_operation T : costly_operation (lift need) (g_switching server) [1]%Q (g_bounds server) 4 T.
Proof.
  split; [lra|]. split; [constructor; [lra|constructor]|].
  intros s x _ Hx. destruct (single 1 x Hx) as (j & -> & Hj). cbn. unfold need. destruct (Z.odd s); lra.
Qed.

Lemma lift_sum t : forall xs, Forall (within_bounds [1]%Q) xs ->
  eeq (fold_right eadd (Fin 0) (map (lift need t) xs))
      (Fin (inject_Z (Z.of_nat (length xs)) * need t 0 + (need t 1 - need t 0) * fold_right Qplus 0 (map (fun y => nth 0 y 0) xs))%Q).
Proof.
  induction xs as [|x xs IH]; intros H; cbn [map fold_right length].
  - change (inject_Z (Z.of_nat 0)) with 0%Q. simpl. ring.
  - pose proof (Forall_inv H) as Hx. apply Forall_inv_tail in H. destruct (single 1 x Hx) as (j & -> & Hj).
    rewrite (IH H). replace (Z.of_nat (S (length xs))) with (Z.of_nat (length xs) + 1) by lia. rewrite inject_Z_plus.
    change (inject_Z 1) with 1%Q. cbn [lift eadd nth eeq]. unfold need. destruct (Z.odd t); ring.
Qed.

Example server_convex T : convex_hitting (lift need) (g_bounds server) T.
Proof.
  intros s xs x Hs Hne Hxs Hx HA. change (g_bounds server) with [1%Q] in *.
  rewrite (lift_sum s xs Hxs). destruct (single 1 x Hx) as (j & -> & Hj).
  specialize (HA 0%nat). assert (0 < length [j])%nat as H0 by (cbn; lia). specialize (HA H0). cbn [nth] in HA.
  assert (0 < inject_Z (Z.of_nat (length xs)))%Q as HN.
  { change 0%Q with (inject_Z 0). rewrite <- Zlt_Qlt. destruct xs; [congruence|]. cbn [length]. lia. }
  rewrite <- HA. cbn [lift escale ele].
  apply Qle_lteq. right. unfold need. destruct (Z.odd s); field; lra.
Qed.

(** Zero or one, by computation. *)
Definition is_vertex (x : list Q) : bool :=
  match x with [Qmake 0 1] | [Qmake 1 1] => true | _ => false end.
Lemma is_vertex_true x : is_vertex x = true -> x = [0%Q] \/ x = [1%Q].
Proof.
  destruct x as [|[n d] [|]]; try discriminate.
  - destruct n as [|[ | |]|], d; try discriminate; auto.
  - destruct n as [|[ | |]|], d; discriminate.
Qed.

(** ** Receding horizon control with a prediction window of one slot it can look at: it keeps
    the server active. *)
Definition rhc_server w q xs := rhc_next (fun _ _ : unit => Panic) (fun a _ => a) tt (fun _ => Leaf) try_vertices q w xs.
Definition ahead (T t : Z) : Z := Z.min (t + 1) T.

Example rhc_lookahead :
  (forall t, 1 <= t <= 3 -> t <= ahead 3 t <= t + 1) /\
  (forall t, 1 <= t < 3 -> ahead 3 t <= ahead 3 (t + 1)) /\
  (forall m xs, (m < 3)%nat -> advised (rhc_server 1) server (ahead 3) m = Ok xs ->
     let t := Z.of_nat m + 1 in
     solves everything 0 try_vertices (map (fun u => (0%Q, u)) (g_bounds server)) (Z.to_nat (1 + 1))
       (fun ys => plan_cost (lift need) (g_switching server) t (last xs (repeat 0%Q (length (g_bounds server))))
                    (firstn (Z.to_nat (ahead 3 t - t + 1)) ys)) []) /\
  advised (rhc_server 1) server (ahead 3) 3 = Ok [[1]; [1]; [1]]%Q.
Proof.
  split; [unfold ahead; lia|]. split; [unfold ahead; lia|]. split; [|vm_compute; reflexivity].
  intros m xs Hm Hx t.
  assert (last xs [0%Q] = [0%Q] \/ last xs [0%Q] = [1%Q]) as HL.
  { destruct m as [|[|[|m]]]; [| | |lia]; vm_compute in Hx; inversion Hx; subst; cbn; auto. }
  change (repeat 0%Q (length (g_bounds server))) with [0%Q].
  assert (Z.to_nat (ahead 3 t - t + 1) <= Z.to_nat (1 + 1))%nat as Hn by (unfold ahead, t; lia).
  destruct HL as [-> | ->]; apply window_solved; auto.
Qed.

(** ** Streamed runs *)
Example rhc_streamed_hypotheses n m xs : (m < n)%nat -> (n <= 5)%nat -> advised (rhc_server 6) server (fun t => t) m = Ok xs ->
  solves everything 0 try_vertices (map (fun u => (0%Q, u)) (g_bounds server)) (Z.to_nat (6 + 1))
    (fun ys => plan_cost (lift need) (g_switching server) (Z.of_nat m + 1) (last xs (repeat 0%Q (length (g_bounds server))))
                 (firstn 1 ys)) [].
Proof.
  intros Hm Hn Hx. change (repeat 0%Q (length (g_bounds server))) with [0%Q].
  assert (last xs [0%Q] = [0%Q] \/ last xs [0%Q] = [1%Q]) as HL.
  { apply is_vertex_true.
    assert (match advised (rhc_server 6) server (fun t => t) m with Ok xs => is_vertex (last xs [0%Q]) | _ => true end = true) as G.
    { destruct m as [|[|[|[|[|m]]]]]; [| | | | |lia]; vm_compute; reflexivity. }
    rewrite Hx in G. exact G. }
  destruct HL as [-> | ->]; apply window_solved; auto; cbn; lia.
Qed.

Definition afhc_server w q xs m := afhc_next (fun _ _ : unit => Panic) (fun a _ => a) tt (fun _ => Leaf) try_vertices q w xs m.

Example afhc_streamed_hypotheses m xs mem k prev : (m < 5)%nat -> advised_memory (afhc_server 6) server m = Ok (xs, mem) ->
  nth_error (match mem with Some b => b | None => repeat (repeat 0%Q (length (g_bounds server))) (Z.to_nat (6 + 1)) end) k = Some prev ->
  solves everything 0 try_vertices (map (fun u => (0%Q, u)) (g_bounds server)) (Z.to_nat (6 + 1))
    (fun ys => plan_cost (lift need) (g_switching server) (Z.of_nat m + 1 - 6 + Z.of_nat k) prev (firstn (Z.to_nat (6 + 1) - k) ys)) [].
Proof.
  intros Hm Hx Hk.
  assert (prev = [0%Q] \/ prev = [1%Q]) as HL.
  { apply is_vertex_true. apply nth_error_In in Hk.
    assert (match advised_memory (afhc_server 6) server m with
            | Ok (_, mem) => forallb is_vertex (match mem with Some b => b | None => repeat (repeat 0%Q (length (g_bounds server))) (Z.to_nat (6 + 1)) end)
            | _ => true end = true) as G.
    { destruct m as [|[|[|[|[|m]]]]]; [| | | | |lia]; vm_compute; reflexivity. }
    rewrite Hx in G. rewrite forallb_forall in G. apply G. exact Hk. }
  destruct HL as [-> | ->]; apply window_solved; auto; lia.
Qed.

(** ** The ratio does not improve with the prediction window: although the window is six
    slots, both algorithms power the server up three times and pay 15, whereas keeping it
    active costs 9; the ratio 1 + c / (w + 1) claimed for them would allow 14 + 1/7. *)
Theorem rhc_window_ratio_refuted :
  let ops := ssco_ops valQ (fun a _ : unit => a) (fun _ _ => Panic) tt Leaf in
  let o' := at_slot ops (mkOnline server 6) 5 in
  exists xs ys v v',
    offline_stream ops (rhc_alg (fun _ _ => Panic) (fun a _ => a) tt (fun _ => Leaf) try_vertices) (fun _ => tt) (5 + 6)
      (mkOnline server 6) = Some (o', xs, Ok None) /\
    fractional_schedule (g_bounds server) 5 ys /\
    po_objective ops (on_p o') xs = Ok v /\ po_objective ops (on_p o') ys = Ok v' /\
    ~ ele (c_cost v) (escale (1 + 4 / (6 + 1)) (c_cost v')).
Proof.
  intros ops o'. exists [[1]; [0]; [1]; [0]; [1]]%Q, (repeat [1]%Q 5).
  destruct (po_objective ops (on_p o') [[1]; [0]; [1]; [0]; [1]]%Q) as [v| |] eqn:E1; [|vm_compute in E1; discriminate|vm_compute in E1; discriminate].
  destruct (po_objective ops (on_p o') (repeat [1]%Q 5)) as [v'| |] eqn:E2; [|vm_compute in E2; discriminate|vm_compute in E2; discriminate].
  exists v, v'. split; [vm_compute; reflexivity|]. split.
  { split; [reflexivity|]. repeat constructor; cbn; lra. }
  split; [reflexivity|]. split; [reflexivity|].
  vm_compute in E1, E2. inversion E1; inversion E2; subst. vm_compute. intros H. apply H. reflexivity.
Qed.

Theorem afhc_window_ratio_refuted :
  let ops := ssco_ops valQ (fun a _ : unit => a) (fun _ _ => Panic) tt Leaf in
  let o' := at_slot ops (mkOnline server 6) 5 in
  exists xs mem ys v v',
    offline_stream ops (afhc_alg (fun _ _ => Panic) (fun a _ => a) tt (fun _ => Leaf) try_vertices) afhc_dflt (5 + 6)
      (mkOnline server 6) = Some (o', xs, Ok mem) /\
    fractional_schedule (g_bounds server) 5 ys /\
    po_objective ops (on_p o') xs = Ok v /\ po_objective ops (on_p o') ys = Ok v' /\
    ~ ele (c_cost v) (escale (1 + 4 / (6 + 1)) (c_cost v')).
Proof.
  intros ops o'. exists [[7 # 7]; [0 # 7]; [7 # 7]; [0 # 7]; [7 # 7]]%Q. exists (Some [[0]; [0]; [1]; [1]; [1]; [1]; [1]]%Q), (repeat [1]%Q 5).
  destruct (po_objective ops (on_p o') [[7 # 7]; [0 # 7]; [7 # 7]; [0 # 7]; [7 # 7]]%Q) as [v| |] eqn:E1; [|vm_compute in E1; discriminate|vm_compute in E1; discriminate].
  destruct (po_objective ops (on_p o') (repeat [1]%Q 5)) as [v'| |] eqn:E2; [|vm_compute in E2; discriminate|vm_compute in E2; discriminate].
  exists v, v'. split; [vm_compute; reflexivity|]. split.
  { split; [reflexivity|]. repeat constructor; cbn; lra. }
  split; [reflexivity|]. split; [reflexivity|].
  vm_compute in E1, E2. inversion E1; inversion E2; subst. vm_compute. intros H. apply H. reflexivity.
Qed.
