(** Model of the destruction of the pool: parallel/thread/thread_worker_pool_templated.h:51-66 (the destructor: Stop every
    worker, then Join every worker), worker.h:41-51 (Stop, Join) and the complete loop of a worker, worker.h:53-86
    (ProcessTasksQueue), with boost's interruption request as a flag of the thread. Pool.v is the part of it before the destructor starts.
    Simplified: the queues are atomic (PropQueue.v); spurious wake-ups of a waiting worker, which find the queue empty and wait again, are left
    out; Perform always ends. The destructor may start at any moment, also while calls of DoTasks are pending in other threads. *)
From Verif Require Import Base Pool.
Local Open Scope list_scope.

Section Stop.
Variable R : Type.
(** ITask::Perform: a result, or [None] for a std::exception. *)
Variable perform : task -> option R.
(** Tasks with a boost interruption point in Perform, and those among them that may catch boost::thread_interrupted themselves. *)
Variable interruptible swallows : task -> Prop.

(** Where a worker is: before WaitAndPop (worker.h:62), blocked in its condition variable (thread_safe_queue.h:76-79), in Perform (worker.h:63),
    before the Push of a performed task (worker.h:64), before interruption_point (worker.h:78), its function has returned (worker.h:69, 83). *)
Inductive xat : Type := XTop | XWait | XHas (t : task) | XDid (t : task) | XCheck | XEnd.
(** [xw_flag]: boost::thread::interrupt was called and no thread_interrupted has been thrown since. [xw_after]: history, the tasks it took after its Stop. *)
Record xworker : Type := MkXW { xw_at : xat; xw_flag : bool; xw_stopped : bool; xw_after : nat }.

Record xstate : Type := MkX {
  x_calls : list call; x_todo : list task; x_workers : list xworker; x_done : list task; x_writes : list (task * R);
  x_exec : list task; x_sub : list task; x_taken : list task; x_lost : list task;   (* as in Pool.v *)
  x_stop : nat; x_join : nat }.                                                     (* the loop counters of the two loops of the destructor *)

(** A worker moves to [a]. *)
Definition goes (x : xworker) (a : xat) : xworker := MkXW a (xw_flag x) (xw_stopped x) (xw_after x).
(** It pops a task. *)
Definition pops (x : xworker) (t : task) : xworker := MkXW (XHas t) (xw_flag x) (xw_stopped x) (if xw_stopped x then S (xw_after x) else xw_after x).
(** thread_interrupted is thrown in it: the request is withdrawn. *)
Definition thrown (x : xworker) (a : xat) : xworker := MkXW a false (xw_stopped x) (xw_after x).
(** worker.h:41-45: thread_.interrupt(). *)
Definition stopped (x : xworker) : xworker := MkXW (xw_at x) true true (xw_after x).

(** The parts of a state the steps of a worker and of a caller change. *)
Definition set_worker (s : xstate) (w : nat) (x : xworker) : xstate :=
  MkX (x_calls s) (x_todo s) (upd (x_workers s) w x) (x_done s) (x_writes s) (x_exec s) (x_sub s) (x_taken s) (x_lost s) (x_stop s) (x_join s).

Inductive xstep : xstate -> xstate -> Prop :=
(* thread_worker_pool_templated.h:79-83 *)
| X_submit : forall s c k, nth_error (x_calls s) c = Some k -> k_sent k < k_n k ->
    xstep s (MkX (upd (x_calls s) c (MkCall (k_n k) (S (k_sent k)) (k_taken k))) (x_todo s ++ [(c, k_sent k)]) (x_workers s) (x_done s)
                 (x_writes s) (x_exec s) (x_sub s ++ [(c, k_sent k)]) (x_taken s) (x_lost s) (x_stop s) (x_join s))
(* thread_worker_pool_templated.h:85-89 *)
| X_token : forall s c k t r, nth_error (x_calls s) c = Some k -> k_sent k = k_n k -> k_taken k < k_n k -> x_done s = t :: r ->
    xstep s (MkX (upd (x_calls s) c (MkCall (k_n k) (k_sent k) (S (k_taken k)))) (x_todo s) (x_workers s) r
                 (x_writes s) (x_exec s) (x_sub s) (x_taken s ++ [t]) (x_lost s) (x_stop s) (x_join s))
(* worker.h:62, thread_safe_queue.h:75-82: a task is there: it is taken, interruption requested or not *)
| X_get : forall s w x t r, nth_error (x_workers s) w = Some x -> xw_at x = XTop -> x_todo s = t :: r ->
    xstep s (MkX (x_calls s) r (upd (x_workers s) w (pops x t)) (x_done s) (x_writes s) (x_exec s) (x_sub s) (x_taken s) (x_lost s) (x_stop s) (x_join s))
(* thread_safe_queue.h:76-79: wait *)
| X_wait : forall s w x, nth_error (x_workers s) w = Some x -> xw_at x = XTop -> x_todo s = [] -> xw_flag x = false ->
    xstep s (set_worker s w (goes x XWait))
(* condition_variable::wait with an interruption requested throws at once; worker.h:66-70 *)
| X_wait_end : forall s w x, nth_error (x_workers s) w = Some x -> xw_at x = XTop -> x_todo s = [] -> xw_flag x = true ->
    xstep s (set_worker s w (thrown x XEnd))
(* notified, and the queue is not empty *)
| X_woken : forall s w x t r, nth_error (x_workers s) w = Some x -> xw_at x = XWait -> xw_flag x = false -> x_todo s = t :: r ->
    xstep s (MkX (x_calls s) r (upd (x_workers s) w (pops x t)) (x_done s) (x_writes s) (x_exec s) (x_sub s) (x_taken s) (x_lost s) (x_stop s) (x_join s))
(* interrupted while it waits; worker.h:66-70 *)
| X_interrupted : forall s w x, nth_error (x_workers s) w = Some x -> xw_at x = XWait -> xw_flag x = true ->
    xstep s (set_worker s w (thrown x XEnd))
(* worker.h:63 *)
| X_perform : forall s w x t v, nth_error (x_workers s) w = Some x -> xw_at x = XHas t -> perform t = Some v ->
    xstep s (MkX (x_calls s) (x_todo s) (upd (x_workers s) w (goes x (XDid t))) (x_done s) (x_writes s ++ [(t, v)]) (x_exec s ++ [t]) (x_sub s) (x_taken s) (x_lost s) (x_stop s) (x_join s))
(* worker.h:63, 71-74 *)
| X_throw : forall s w x t, nth_error (x_workers s) w = Some x -> xw_at x = XHas t -> perform t = None ->
    xstep s (MkX (x_calls s) (x_todo s) (upd (x_workers s) w (goes x XCheck)) (x_done s) (x_writes s) (x_exec s ++ [t]) (x_sub s) (x_taken s) (x_lost s ++ [t]) (x_stop s) (x_join s))
(* Perform reaches an interruption point and thread_interrupted leaves it; worker.h:66-70 *)
| X_abort : forall s w x t, nth_error (x_workers s) w = Some x -> xw_at x = XHas t -> xw_flag x = true -> interruptible t ->
    xstep s (MkX (x_calls s) (x_todo s) (upd (x_workers s) w (thrown x XEnd)) (x_done s) (x_writes s) (x_exec s ++ [t]) (x_sub s) (x_taken s) (x_lost s ++ [t]) (x_stop s) (x_join s))
(* Perform reaches an interruption point, catches thread_interrupted itself and goes on *)
| X_swallow : forall s w x t, nth_error (x_workers s) w = Some x -> xw_at x = XHas t -> xw_flag x = true -> swallows t ->
    xstep s (set_worker s w (thrown x (XHas t)))
(* worker.h:64 *)
| X_report : forall s w x t, nth_error (x_workers s) w = Some x -> xw_at x = XDid t ->
    xstep s (MkX (x_calls s) (x_todo s) (upd (x_workers s) w (goes x XCheck)) (x_done s ++ [t]) (x_writes s) (x_exec s) (x_sub s) (x_taken s) (x_lost s) (x_stop s) (x_join s))
(* worker.h:76-79 *)
| X_again : forall s w x, nth_error (x_workers s) w = Some x -> xw_at x = XCheck -> xw_flag x = false ->
    xstep s (set_worker s w (goes x XTop))
(* worker.h:80-84 *)
| X_check_end : forall s w x, nth_error (x_workers s) w = Some x -> xw_at x = XCheck -> xw_flag x = true ->
    xstep s (set_worker s w (thrown x XEnd))
(* thread_worker_pool_templated.h:54-57 *)
| X_stop : forall s x, nth_error (x_workers s) (x_stop s) = Some x ->
    xstep s (MkX (x_calls s) (x_todo s) (upd (x_workers s) (x_stop s) (stopped x)) (x_done s) (x_writes s) (x_exec s) (x_sub s) (x_taken s) (x_lost s) (S (x_stop s)) (x_join s))
(* thread_worker_pool_templated.h:60-63, worker.h:47-51: join returns once the function of the thread has returned *)
| X_join : forall s x, x_stop s = length (x_workers s) -> nth_error (x_workers s) (x_join s) = Some x -> xw_at x = XEnd ->
    xstep s (MkX (x_calls s) (x_todo s) (x_workers s) (x_done s) (x_writes s) (x_exec s) (x_sub s) (x_taken s) (x_lost s) (x_stop s) (S (x_join s))).

(** thread_worker_pool_templated.h:92-106 (Initialize): [w] workers started, one thread per entry of [ns] about to call DoTasks with that many tasks. *)
Definition xinit (w : nat) (ns : list nat) : xstate :=
  MkX (map (fun n => MkCall n 0 0) ns) [] (repeat (MkXW XTop false false 0) w) [] [] [] [] [] [] 0 0.

Inductive xrun : nat -> xstate -> xstate -> Prop :=
| xrun_nil : forall s, xrun 0 s s
| xrun_cons : forall n s1 s2 s3, xrun n s1 s2 -> xstep s2 s3 -> xrun (S n) s1 s3.

(** thread_worker_pool_templated.h:65-66: both loops are over. *)
Definition destroyed (s : xstate) : Prop := x_stop s = length (x_workers s) /\ x_join s = length (x_workers s).
End Stop.
