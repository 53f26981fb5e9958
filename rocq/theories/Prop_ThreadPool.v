(** Prop_ThreadPool.v - properties C20 and C21.  Statements only.  Model: ThreadPool.v. *)
From Verif Require Import Base ThreadPool ThreadPool_proofs.

(** ** C20 - every task runs exactly once before the destructor returns *)
Theorem C20_all_tasks_run n ts s k p : 0 < n -> preach s k (pool_init n ts) p -> p_owner p = Returned ->
  p_started p = ts /\ Permutation (p_finished p) ts /\ p_queue p = [] /\
  forall w, In w (p_workers p) -> w = Exited.
Proof. exact (pool_returned n ts s k p). Qed.
Print Assumptions C20_all_tasks_run.

(** At any time: tasks are started in the order of enqueueing, and a started task is either finished or
    being run by a worker, exactly once. *)
Theorem C20_order n ts s k p : preach s k (pool_init n ts) p ->
  (exists rest, p_started p ++ rest = ts) /\
  exists cur, Permutation (p_started p) (p_finished p ++ cur) /\
    forall t, In t cur <-> exists i, nth_error (p_workers p) i = Some (Runs t).
Proof. exact (pool_order n ts s k p). Qed.
Print Assumptions C20_order.

(** ** C21 - no deadlock *)
Theorem C21_no_deadlock n ts s k p : preach s k (pool_init n ts) p -> p_owner p <> Returned ->
  exists p', pstep p p'.
Proof. exact (pool_no_deadlock n ts s k p). Qed.
Print Assumptions C21_no_deadlock.

(** While a worker sleeps, every queued task has an awake worker about to look at the queue, or the owner
    is about to wake one. *)
Theorem C21_no_lost_wakeup n ts s k p : 0 < n -> preach s k (pool_init n ts) p ->
  (exists i, nth_error (p_workers p) i = Some Waiting) ->
  List.length (p_queue p) <= List.length (filter (fun w => match w with Testing => true | _ => false end) (p_workers p))
    + match p_owner p with Notifying _ => 1 | _ => 0 end.
Proof. exact (pool_no_lost_wakeup n ts s k p). Qed.
Print Assumptions C21_no_lost_wakeup.

(** An execution with k spurious wake-ups has at most (n+3)(2|ts|+n+3)+n+k proper steps. *)
Theorem C21_terminates n ts s k p : preach s k (pool_init n ts) p ->
  s <= (n + 3) * (2 * List.length ts + n + 3) + n + k.
Proof.
  exact (fun R => Nat.le_trans _ _ _ (Nat.le_add_r s (pmeasure p))
    (eq_ind _ (fun m => s + pmeasure p <= m + k) (pool_terminates n ts s k p R) _ (pool_bound n ts))).
Qed.
Print Assumptions C21_terminates.

(** Without workers no task is ever started, although the destructor returns. *)
Theorem C21_zero_workers ts s k p : preach s k (pool_init 0 ts) p -> p_started p = [] /\ p_finished p = [].
Proof. exact (pool_zero ts s k p). Qed.
Print Assumptions C21_zero_workers.

Ltac run_steps n := match n with O => apply PRRefl | S ?m => eapply PRStep; [run_steps m|] end.

(** Two workers, one task: worker 1 waits, is woken, runs the task; worker 0 starts late. *)
Example C20_example : exists p, preach 12 0 (pool_init 2 [7]) p /\ p_owner p = Returned /\ p_finished p = [7].
Proof.
  eexists. split; [|split].
  - run_steps 12.
    + apply (PWWait 1); reflexivity.
    + apply POPush.
    + apply (PONotify _ _ _ _ _ _ 1); reflexivity.
    + apply POShut.
    + apply (PWTake 1); reflexivity.
    + apply PONotifyAll.
    + apply (PWFinish 1); reflexivity.
    + apply (PWExit 1); reflexivity.
    + apply (PWExit 0); reflexivity.
    + apply (POJoin 0); reflexivity.
    + apply (POJoin 1); reflexivity.
    + apply (POReturn [Exited; Exited]).
  - reflexivity.
  - reflexivity.
Qed.

Example C21_example : exists p, preach 5 0 (pool_init 0 [7]) p /\ p_owner p = Returned /\ p_queue p = [7].
Proof.
  eexists. split; [|split].
  - run_steps 5.
    + apply POPush.
    + apply PONotifyNone; intros i; destruct i; discriminate.
    + apply POShut.
    + apply PONotifyAll.
    + apply (POReturn []).
  - reflexivity.
  - reflexivity.
Qed.
