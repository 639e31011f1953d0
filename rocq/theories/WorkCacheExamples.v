(** Concrete calls that share the cache of work functions, and what concurrent sessions break. *)
From Verif Require Import DescentModel ForesightSpec WorkCacheModel WorkCacheProofs WorkCacheProps.
From Verif Require Import ProblemModel CostModel.
Local Open Scope Z_scope.

(** An optimiser that asks for the values at both ends of the interval and returns the better one. *)
Definition ends : optimizer := fun _ _ bounds _ =>
  match bounds with
  | [(Num l, Num u)] =>
      Ask [l] (fun a => Ask [u] (fun b => Answer (if ngtb a b then NlOk Success b [u] else NlOk Success a [l])))
  | _ => Answer (NlErr InvalidArgs PosInf [])
  end.

(** One server; hitting costs [f t j]; moving costs the absolute difference. *)
Definition server (f : Z -> Q -> Q) : online (gsco Q unit unit) :=
  mkOnline (mkGSCO 1 1 [(0%Q, 1%Q)] manhattan
    (cf_new 1 (certain (fun t x => match x with [j] => Ok (mkCost (Fin (f t j)) MNone) | _ => Panic end)))) 0.
(** Serving is expensive / not serving is expensive. *)
Definition idle : online (gsco Q unit unit) := server (fun _ j => (10 * j)%Q).
Definition busy : online (gsco Q unit unit) := server (fun _ j => (10 * (1 - j))%Q).

Definition vm (a _ : unit) : outcome unit := Ok a.
Definition calling (o : online (gsco Q unit unit)) : thread (list Q * option Q) := rbg_thread vm tt ends 1 o 1 0.

Example idle_answer : rbg vm tt (by_asking ends) 1 idle 1 [] 0 = Ok ([0 # 100]%Q, None).
Proof. vm_compute. reflexivity. Qed.
Example busy_answer : rbg vm tt (by_asking ends) 1 busy 1 [] 0 = Ok ([100 # 100]%Q, None).
Proof. vm_compute. reflexivity. Qed.

(** Runs of a process, given the threads that make the next accesses. *)
Fixpoint run {A} (who : list nat) (s : process A) : option (process A) :=
  match who with
  | [] => Some s
  | i :: who' =>
      match nth_error (pr_threads s) i with
      | Some m =>
          match access_cache (pr_cache s) m with
          | Some (c', m') => run who' (mkProcess c' (replace_nth i m' (pr_threads s)))
          | None => None
          end
      | None => None
      end
  end.

Lemma steps_prepend {A} (s s' s'' : process A) : step s s' -> steps s' s'' -> steps s s''.
Proof. intros H Hs. induction Hs as [|a b Hs IH Hab]; [eapply steps_next; [apply steps_refl|exact H]|eapply steps_next; eauto]. Qed.

Lemma run_steps {A} who : forall (s s' : process A), run who s = Some s' -> steps s s'.
Proof.
  induction who as [|i who IH]; intros s s' E; cbn [run] in E; [injection E as <-; apply steps_refl|].
  destruct (nth_error (pr_threads s) i) as [m|] eqn:Em; [|discriminate].
  destruct (access_cache (pr_cache s) m) as [[c' m']|] eqn:Ea; [|discriminate].
  eapply steps_prepend; [|apply IH, E]. apply (step_access _ _ i). exists m, c', m'. auto.
Qed.

Definition threads_of {A} (s : option (process A)) : list (thread A) := match s with Some s => pr_threads s | None => [] end.

(** How long a call alone is. *)
Definition alone : nat := 11.

(** One call at a time: the second does not notice what the first has left in the cache. *)
Example one_after_the_other : exists s1 s2,
  steps (mkProcess [] [calling busy]) s1 /\ pr_threads s1 = [Done (Ok ([100 # 100]%Q, None))] /\
  pr_cache s1 <> [] /\
  steps (mkProcess (pr_cache s1) [calling idle]) s2 /\ pr_threads s2 = [Done (Ok ([0 # 100]%Q, None))].
Proof.
  destruct (run (repeat 0%nat alone) (mkProcess [] [calling busy])) as [s1|] eqn:E1; [|vm_compute in E1; discriminate].
  destruct (run (repeat 0%nat alone) (mkProcess (pr_cache s1) [calling idle])) as [s2|] eqn:E2.
  2:{ vm_compute in E1. injection E1 as <-. vm_compute in E2. discriminate. }
  exists s1, s2. split; [eapply run_steps, E1|]. split; [vm_compute in E1; injection E1 as <-; reflexivity|].
  split; [vm_compute in E1; injection E1 as <-; discriminate|]. split; [eapply run_steps, E2|].
  vm_compute in E1; injection E1 as <-. vm_compute in E2. injection E2 as <-. reflexivity.
Qed.

(** Two sessions of the same instance, interleaved: the second call uses what the first has stored. *)
Example same_instance : exists s,
  steps (mkProcess [] [calling busy; calling busy]) s /\
  pr_threads s = [Done (Ok ([100 # 100]%Q, None)); Done (Ok ([100 # 100]%Q, None))].
Proof.
  destruct (run ([1; 0] ++ repeat 0 10 ++ [1; 1])%nat (mkProcess [] [calling busy; calling busy])) as [s|] eqn:E;
    [|vm_compute in E; discriminate].
  exists s. split; [eapply run_steps, E|]. vm_compute in E. injection E as <-. reflexivity.
Qed.

Example same_instance_agrees :
  let calls := [mkCall busy 1 0%Q; mkCall busy 1 0%Q] in
  Forall (fun ca => 0 <= ca_t ca) calls /\
  forall a b, In a calls -> In b calls -> agree_sco (Z.min (ca_t a) (ca_t b)) (on_p (ca_o a)) (on_p (ca_o b)).
Proof.
  split; [repeat constructor; discriminate|].
  intros a b [<- |[<- |[]]] [<- |[<- |[]]]; unfold agree_sco, same_costs; auto.
Qed.

(** Two sessions of different instances in one process: the key of the cache does not mention the instance,
    so one of them may get its answer from the other. *)
Theorem rbg_cache_unnoticed_concurrently_refuted :
  ~ (forall (calls : list (call unit unit)) (s : process (list Q * option Q)) (i : nat) (ca : call unit unit)
            (res : outcome (list Q * option Q)),
       Forall (fun ca => 0 <= ca_t ca) calls ->
       steps (mkProcess []
                (map (fun ca => rbg_thread vm tt ends 1 (ca_o ca) (ca_t ca) (ca_r ca)) calls)) s ->
       nth_error calls i = Some ca -> nth_error (pr_threads s) i = Some (Done res) ->
       res = rbg vm tt (by_asking ends) 1 (ca_o ca) (ca_t ca) [] (ca_r ca)).
Proof.
  intros H. set (calls := [mkCall idle 1 0%Q; mkCall busy 1 0%Q]).
  set (start := mkProcess [] (map (fun ca => rbg_thread vm tt ends 1 (ca_o ca) (ca_t ca) (ca_r ca)) calls)).
  destruct (run ([0] ++ repeat 1 11 ++ [0; 0])%nat start) as [s|] eqn:E; [|vm_compute in E; discriminate].
  assert (F : Ok ([100 # 100]%Q, None) = rbg vm tt (by_asking ends) 1 idle 1 [] 0).
  { apply (H calls s 0%nat (mkCall idle 1 0%Q)).
    - repeat constructor; discriminate.
    - exact (run_steps _ _ _ E).
    - reflexivity.
    - vm_compute in E. injection E as <-. reflexivity. }
  rewrite idle_answer in F. discriminate F.
Qed.
Print Assumptions rbg_cache_unnoticed_concurrently_refuted.
