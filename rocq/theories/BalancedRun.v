(** Proofs about lazy budgeting for SBLO: streaming algorithm B, sub-slots, whole runs. *)
From Coq Require Import Lia Lqa Setoid.
From Verif Require Import NumLemmas CostSpec CostProofs ConvertProofs ConvertObjective LoadProofs BudgetProofs BudgetRun
  StreamSpec StreamProofs VerifyProofs BalancedModel BalancedSpec BalancedSearch BalancedProofs.
From Verif Require Import CostModel ProblemModel.
Local Open Scope Z_scope.

Section Stream.
  Variable minimize :
    (list Q -> outcome ext) -> list (Q * Q) -> list Q -> list (list Q -> outcome Q) -> option (list Q * ext).
  Variable sched : Z -> Z -> vertice -> split.
  Hypothesis HX : solver_extensional minimize.

  Lemma sblo_ops_lawful : lawful_ops (sblo_ops minimize).
  Proof. repeat split; try reflexivity. intros []; reflexivity. Qed.

  Section Instance.
    Variable p : gsblo Z.
    Variable T : Z.
    Hypothesis HI : balanced_instance minimize p T.

    Notation osf := (offline_stream_from (sblo_ops minimize) (alg_b minimize sched) (fun _ => algb_default)).
    Definition or_default (m : option algb_memory) : algb_memory := match m with None => algb_default | Some m => m end.

    Lemma verify_agreeing q u : 1 <= u <= T -> agrees_upto q p u -> verify_o (sblo_ops minimize) (mkOnline (sblo_at q u) 0) = Ok tt.
    Proof.
      intros Hu Hq. unfold verify_o. cbn [on_w on_p].
      change (po_verify (sblo_ops minimize) (sblo_at q u)) with (verify_sblo valZ (sblo_at q u)).
      unfold verify_online. cbn [Z.leb Z.compare assert_validity obind]. apply (proj1 (sblo_verified Z valZ (sblo_at q u))).
      destruct (bi_form _ _ _ HI) as (Hd & _ & HLb & HLs & HB & HS). destruct (bi_loads _ _ _ HI) as (HLl & HLn).
      destruct (Hq u ltac:(lia)) as [A B S L _].
      split.
      - cbn [sblo_at b_d b_tend b_bounds b_switching]. rewrite A, B, S. repeat split; auto; lia.
      - cbn [sblo_at b_tend b_load]. split.
        + destruct (access (b_load p) u) as [l|] eqn:E.
          * apply access_spec in L as (H1 & H2). apply nth_error_lt in H2. lia.
          * exfalso. unfold access in E. rewrite (proj2 (Z.leb_le _ _)), (proj2 (Z.leb_le _ _)) in E by lia. cbn [andb] in E.
            apply nth_error_None in E. lia.
        + intros t l Ht Hl. eapply HLn; [|rewrite <- (ag_load _ _ _ (Hq t Ht)); exact Hl]. lia.
    Qed.

    Lemma algb_stream n : forall q u u_end xs m, n = Z.to_nat (u_end - (u + 1)) -> u + 1 <= u_end <= T ->
      agrees_upto q p u_end -> b_tend q = u + 1 -> InvB minimize p u xs (or_default m) ->
      exists ys m', osf u_end (mkOnline q 0) xs m = Some (mkOnline (sblo_at q u_end) 0, xs ++ ys, Ok (Some m')) /\
        InvB minimize p u_end (xs ++ ys) m'.
    Proof.
      induction n as [|n IH]; intros q u u_end xs m Hn Hu Hq Hend HV;
        rewrite (offline_unfold _ _ _ sblo_ops_lawful); unfold online_next;
        pose proof HV as (Hu0 & ((HLx & _) & _) & _);
        change (po_tend (sblo_ops minimize) (on_p (mkOnline q 0))) with (b_tend q); rewrite Hend, HLx, Z.eqb_refl; cbn [negb];
        unfold alg_next; rewrite HLx;
        destruct (algb_step minimize sched HX p T HI q 0 u xs (or_default m) ltac:(lia) ltac:(intros s Hs; apply Hq; lia) Hend HV)
          as (x & m' & E & HV');
        change (match m with Some m0 => m0 | None => algb_default end) with (or_default m); rewrite E; cbn [on_w]; rewrite Z.sub_0_r.
      - rewrite (proj2 (Z.ltb_ge _ _)) by lia. exists [x], m'. assert (u_end = u + 1) by lia. subst u_end. split; [|exact HV'].
        f_equal. f_equal. f_equal. f_equal. rewrite <- Hend. destruct q; reflexivity.
      - rewrite (proj2 (Z.ltb_lt _ _)) by lia.
        change (inc (sblo_ops minimize) (mkOnline q 0)) with (mkOnline (sblo_at q (b_tend q + 1)) 0). rewrite Hend.
        rewrite (verify_agreeing q (u + 1 + 1)) by (try (intros s Hs; apply Hq); lia).
        destruct (IH (sblo_at q (u + 1 + 1)) (u + 1) u_end (xs ++ [x]) (Some m')) as (ys & m2 & E2 & HV2); try lia.
        + intros s Hs. eapply agrees_trans; [apply agrees_at_slot|]. apply Hq. exact Hs.
        + reflexivity.
        + exact HV'.
        + exists (x :: ys), m2. rewrite <- app_assoc in E2, HV2. cbn [app] in E2, HV2. split; [exact E2|exact HV2].
    Qed.

    (** Streaming algorithm B on the instance itself. *)
    Lemma algb_run : 1 <= T ->
      exists xs m, offline_stream (sblo_ops minimize) (alg_b minimize sched) (fun _ => algb_default) T (mkOnline (sblo_at p 1) 0)
        = Some (mkOnline (sblo_at p T) 0, xs, Ok (Some m)) /\ lazy_schedule minimize p T (ab_init m) xs.
    Proof.
      intros HT. unfold offline_stream.
      destruct (algb_stream (Z.to_nat (T - (0 + 1))) (sblo_at p 1) 0 T [] None) as (ys & m & E & HV); try lia.
      - intros s Hs. apply agrees_at_slot.
      - reflexivity.
      - apply InvB_init.
      - exists ys, m. split; [exact E|]. apply HV.
    Qed.
  End Instance.
End Stream.
