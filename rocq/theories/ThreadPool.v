(** ThreadPool.v - model of src/utils/threadpool.{h,cc} as a transition system.  Definitions only.

    A task is named by a number.  A step of a thread is either one critical section of queue_mutex_ (executed
    without interruption by other critical sections) or one operation outside of it.  The owner is one
    thread that enqueues a list of tasks and then runs the destructor.  Tasks terminate and do not use the
    pool. *)
From Verif Require Import Base.

Definition task_id := nat.

(** Where a worker is in Invoke (threadpool.cc:37-62).
    [Testing]: about to take the lock and evaluate the wait predicate (line 43-46);
    [Waiting]: inside condition_.wait, lock released;
    [Runs t]: about to finish task() (line 60);  [Exited]: returned (line 51). *)
Inductive worker := Testing | Waiting | Runs (t : task_id) | Exited.

(** Where the owner is: the tasks still to be enqueued and
    [Enqueuing ts]: before Enqueue (threadpool.cc:27-31) of the first of [ts], or before ShutDown;
    [Notifying ts]: between push and notify_one (threadpool.cc:34);
    [NotifyingAll]: between setting the flag and notify_all (threadpool.cc:72);
    [Joining i]: about to join thread i (threadpool.cc:75-77);  [Returned]: the destructor returned. *)
Inductive owner :=
| Enqueuing (ts : list task_id) | Notifying (ts : list task_id) | NotifyingAll | Joining (i : nat) | Returned.

Record pool := mkPool {
  p_owner : owner;
  p_workers : list worker;
  p_queue : list task_id;         (* tasks_ *)
  p_shutdown : bool;              (* to_be_shutdown_ *)
  p_started : list task_id;       (* log: tasks in the order in which they were taken *)
  p_finished : list task_id       (* log: tasks in the order in which they were finished *)
}.

(** Constructor (threadpool.cc:20-25) *)
Definition pool_init (num_threads : nat) (ts : list task_id) : pool :=
  mkPool (Enqueuing ts) (repeat Testing num_threads) [] false [] [].

(** condition_.notify_all: every waiting worker has to test again. *)
Definition wake (w : worker) : worker := match w with Waiting => Testing | _ => w end.

Inductive pstep : pool -> pool -> Prop :=
(** Enqueue: push under the lock (threadpool.cc:28-31) *)
| POPush t ts ws q sd st fi :
    pstep (mkPool (Enqueuing (t :: ts)) ws q sd st fi) (mkPool (Notifying ts) ws (q ++ [t]) sd st fi)
(** notify_one (34): wakes some waiting worker ... *)
| PONotify ts ws q sd st fi i :
    nth_error ws i = Some Waiting ->
    pstep (mkPool (Notifying ts) ws q sd st fi) (mkPool (Enqueuing ts) (set_nth i Testing ws) q sd st fi)
(** ... and does nothing if no worker waits *)
| PONotifyNone ts ws q sd st fi :
    (forall i, nth_error ws i <> Some Waiting) ->
    pstep (mkPool (Notifying ts) ws q sd st fi) (mkPool (Enqueuing ts) ws q sd st fi)
(** ShutDown: the flag (65-69), notify_all (72), join (75-77) *)
| POShut ws q sd st fi :
    pstep (mkPool (Enqueuing []) ws q sd st fi) (mkPool NotifyingAll ws q true st fi)
| PONotifyAll ws q sd st fi :
    pstep (mkPool NotifyingAll ws q sd st fi) (mkPool (Joining 0) (map wake ws) q sd st fi)
| POJoin i ws q sd st fi :
    nth_error ws i = Some Exited ->
    pstep (mkPool (Joining i) ws q sd st fi) (mkPool (Joining (S i)) ws q sd st fi)
| POReturn ws q sd st fi :
    pstep (mkPool (Joining (List.length ws)) ws q sd st fi) (mkPool Returned ws q sd st fi)
(** The worker's critical section (42-57): the predicate is false ... *)
| PWWait i o ws st fi :
    nth_error ws i = Some Testing ->
    pstep (mkPool o ws [] false st fi) (mkPool o (set_nth i Waiting ws) [] false st fi)
(** ... or the pool is shut down and drained (50-52) ... *)
| PWExit i o ws st fi :
    nth_error ws i = Some Testing ->
    pstep (mkPool o ws [] true st fi) (mkPool o (set_nth i Exited ws) [] true st fi)
(** ... or there is a task (55-56) *)
| PWTake i o ws t q sd st fi :
    nth_error ws i = Some Testing ->
    pstep (mkPool o ws (t :: q) sd st fi) (mkPool o (set_nth i (Runs t) ws) q sd (st ++ [t]) fi)
(** task() returns (60) *)
| PWFinish i o ws t q sd st fi :
    nth_error ws i = Some (Runs t) ->
    pstep (mkPool o ws q sd st fi) (mkPool o (set_nth i Testing ws) q sd st (fi ++ [t])).

(** A spurious wake-up of condition_.wait. *)
Inductive pspurious : pool -> pool -> Prop :=
| PSpurious i o ws q sd st fi :
    nth_error ws i = Some Waiting ->
    pspurious (mkPool o ws q sd st fi) (mkPool o (set_nth i Testing ws) q sd st fi).

(** Executions with [n] proper steps and [k] spurious wake-ups. *)
Inductive preach : nat -> nat -> pool -> pool -> Prop :=
| PRRefl p : preach 0 0 p p
| PRStep n k p1 p2 p3 : preach n k p1 p2 -> pstep p2 p3 -> preach (S n) k p1 p3
| PRSpur n k p1 p2 p3 : preach n k p1 p2 -> pspurious p2 p3 -> preach n (S k) p1 p3.
