(** The thread worker pool on its real queues: the loops of Pool.v (parallel/thread/thread_worker_pool_templated.h, worker.h,
    thread_worker_pool_task.cpp, thread_worker_pool.cpp) with every Push and WaitAndPop executed by the lock and condition
    variable steps of Queue.v instead of in one atomic step. Every thread (the calling threads first, then the workers) is a thread of both queues.
    Destruction of the pool is in PoolStop.v; exceptions that are not std::exception (they end the process) are not modelled. *)
From Verif Require Import Base Queue Pool.
Local Open Scope list_scope.

Section LockPool.
Variable R : Type.
(** ITask::Perform: a result, or [None] for a std::exception. *)
Variable perform : task -> option R.

(** Where a thread in DoTasks is: between two operations, in Push of the next task (thread_worker_pool_templated.h:81), in WaitAndPop of
    a completion (line 88). [fc_sent], [fc_taken]: the Push and the WaitAndPop calls that have returned. *)
Inductive cat : Type := CTop | CPush | CPop.
Record fcall : Type := MkFC { fc_n : nat; fc_sent : nat; fc_taken : nat; fc_at : cat }.
Definition freturned (k : fcall) : Prop := fc_sent k = fc_n k /\ fc_taken k = fc_n k.

(** Where a worker is (worker.h:56-85): before WaitAndPop, in it, with a task to perform, with a performed task, in Push of it. *)
Inductive fworker : Type := FTop | FPop | FHas (t : task) | FDid (t : task) | FPush (t : task).

Record fstate : Type := MkF {
  f_calls : list fcall;
  f_workers : list fworker;
  f_todo : qstate task;               (* tasks_to_do_ *)
  f_done : qstate task;               (* done_tasks_ *)
  f_writes : list (task * R);         (* assignments to results[i] of a call, oldest first *)
  f_exec : list task }.               (* history: Perform calls *)

(** Thread [i], in no operation of the queue, calls [op]. *)
Definition enter (q : qstate task) (i : nat) (op : qop task) (d : list (qres task)) : qstate task :=
  MkQ task (q_items task q) (q_owner task q) (upd (q_threads task q) i (MkThread task [op] (PReady task) d)) (q_log task q).
(** Thread [i] is in no operation of the queue; [d]: the answers it got so far. *)
Definition outside (q : qstate task) (i : nat) (d : list (qres task)) : Prop := nth_error (q_threads task q) i = Some (MkThread task [] (PReady task) d).
(** The queue thread of worker [w]. *)
Definition wth (s : fstate) (w : nat) : nat := length (f_calls s) + w.

Inductive fstep : bool -> fstate -> fstate -> Prop :=
(* a lock, unlock, wait, notify, ... inside an operation of one of the queues; [b]: a spurious wake-up *)
| F_todo : forall b s q, qstep task b (f_todo s) q -> fstep b s (MkF (f_calls s) (f_workers s) q (f_done s) (f_writes s) (f_exec s))
| F_done : forall b s q, qstep task b (f_done s) q -> fstep b s (MkF (f_calls s) (f_workers s) (f_todo s) q (f_writes s) (f_exec s))
(* thread_worker_pool_templated.h:79-81 (tasks in vector order: thread_worker_pool.cpp:25-28): tasks_to_do_.Push is called *)
| F_submit : forall s c n i k d, nth_error (f_calls s) c = Some (MkFC n i k CTop) -> i < n -> outside (f_todo s) c d ->
    fstep false s (MkF (upd (f_calls s) c (MkFC n i k CPush)) (f_workers s) (enter (f_todo s) c (OpPush task (c, i)) d) (f_done s) (f_writes s) (f_exec s))
(* line 82: it has returned *)
| F_submitted : forall s c n i k d, nth_error (f_calls s) c = Some (MkFC n i k CPush) -> outside (f_todo s) c d ->
    fstep false s (MkF (upd (f_calls s) c (MkFC n (S i) k CTop)) (f_workers s) (f_todo s) (f_done s) (f_writes s) (f_exec s))
(* lines 85-88: done_tasks_.WaitAndPop is called *)
| F_collect : forall s c n k d, nth_error (f_calls s) c = Some (MkFC n n k CTop) -> k < n -> outside (f_done s) c d ->
    fstep false s (MkF (upd (f_calls s) c (MkFC n n k CPop)) (f_workers s) (f_todo s) (enter (f_done s) c (OpWaitAndPop task) d) (f_writes s) (f_exec s))
(* line 85: it has returned *)
| F_collected : forall s c n i k d, nth_error (f_calls s) c = Some (MkFC n i k CPop) -> outside (f_done s) c d ->
    fstep false s (MkF (upd (f_calls s) c (MkFC n i (S k) CTop)) (f_workers s) (f_todo s) (f_done s) (f_writes s) (f_exec s))
(* worker.h:62: tasks_to_do->WaitAndPop is called *)
| F_fetch : forall s w d, nth_error (f_workers s) w = Some FTop -> outside (f_todo s) (wth s w) d ->
    fstep false s (MkF (f_calls s) (upd (f_workers s) w FPop) (enter (f_todo s) (wth s w) (OpWaitAndPop task) d) (f_done s) (f_writes s) (f_exec s))
(* it has returned with a task *)
| F_fetched : forall s w d t, nth_error (f_workers s) w = Some FPop -> outside (f_todo s) (wth s w) (d ++ [ResPopped task t]) ->
    fstep false s (MkF (f_calls s) (upd (f_workers s) w (FHas t)) (f_todo s) (f_done s) (f_writes s) (f_exec s))
(* worker.h:63, thread_worker_pool_task.cpp: DoTask stores the result through the pointer to results[i] *)
| F_perform : forall s w t v, nth_error (f_workers s) w = Some (FHas t) -> perform t = Some v ->
    fstep false s (MkF (f_calls s) (upd (f_workers s) w (FDid t)) (f_todo s) (f_done s) (f_writes s ++ [(t, v)]) (f_exec s ++ [t]))
(* worker.h:63, 71-74, 56 *)
| F_throw : forall s w t, nth_error (f_workers s) w = Some (FHas t) -> perform t = None ->
    fstep false s (MkF (f_calls s) (upd (f_workers s) w FTop) (f_todo s) (f_done s) (f_writes s) (f_exec s ++ [t]))
(* worker.h:64: done_tasks->Push is called *)
| F_report : forall s w t d, nth_error (f_workers s) w = Some (FDid t) -> outside (f_done s) (wth s w) d ->
    fstep false s (MkF (f_calls s) (upd (f_workers s) w (FPush t)) (f_todo s) (enter (f_done s) (wth s w) (OpPush task t) d) (f_writes s) (f_exec s))
(* worker.h:65-85, 56: it has returned *)
| F_reported : forall s w t d, nth_error (f_workers s) w = Some (FPush t) -> outside (f_done s) (wth s w) d ->
    fstep false s (MkF (f_calls s) (upd (f_workers s) w FTop) (f_todo s) (f_done s) (f_writes s) (f_exec s)).

(** thread_worker_pool_templated.h:92-106: [w] workers started, one thread per entry of [ns] about to call DoTasks with that many tasks. *)
Definition finit (w : nat) (ns : list nat) : fstate :=
  MkF (map (fun n => MkFC n 0 0 CTop) ns) (repeat FTop w) (qinit task (repeat [] (length ns + w))) (qinit task (repeat [] (length ns + w))) [] [].

(** Runs, counting ordinary steps and spurious wake-ups. *)
Inductive frun : nat -> nat -> fstate -> fstate -> Prop :=
| frun_nil : forall s, frun 0 0 s s
| frun_step : forall n m s1 s2 s3, frun n m s1 s2 -> fstep false s2 s3 -> frun (S n) m s1 s3
| frun_spurious : forall n m s1 s2 s3, frun n m s1 s2 -> fstep true s2 s3 -> frun n (S m) s1 s3.
End LockPool.
