(** Model of parallel/thread/thread_worker_pool_templated.h, worker.h, thread_worker_pool_task.cpp and
    thread_worker_pool.cpp: workers and calling threads interleaved arbitrarily. The two queues are atomic FIFO queues
    here (what PropQueue.v proves of thread_safe_queue.h, including that a blocked pop is woken). Destruction of the pool
    (interruption) is modelled in PoolStop.v, exceptions that are not std::exception in PoolForeign.v. *)
From Verif Require Import Base.
Local Open Scope list_scope.

Section Pool.
Variable R : Type.
(** A task: index of the DoTasks call, position in its vector. *)
Definition task : Type := (nat * nat)%type.
(** ITask::Perform: a result, or [None] for a std::exception. *)
Variable perform : task -> option R.

(** One DoTasks call with [k_n] tasks: how many were pushed, how many completion tokens were popped. *)
Record call : Type := MkCall { k_n : nat; k_sent : nat; k_taken : nat }.
Definition returned (k : call) : Prop := k_sent k = k_n k /\ k_taken k = k_n k.

(** A worker: waiting for a task, holding one not performed yet, holding a performed one not reported yet. *)
Inductive worker : Type := WIdle | WHas (t : task) | WDid (t : task).

Record pstate : Type := MkPool {
  p_calls : list call;
  p_todo : list task;                 (* tasks_to_do_ *)
  p_workers : list worker;
  p_done : list task;                 (* done_tasks_ *)
  p_writes : list (task * R);         (* assignments to results[i] of a call, oldest first *)
  p_exec : list task;                 (* history: Perform calls *)
  p_sub : list task; p_taken : list task; p_lost : list task }. (* history: pushed, popped as completion token, dropped *)

(** The content of results[i] of call c: null until written. *)
Fixpoint last_write (t : task) (ws : list (task * R)) : option R :=
  match ws with
  | [] => None
  | (t', r) :: rest => match last_write t rest with
                       | Some r' => Some r'
                       | None => if (Nat.eqb (fst t) (fst t') && Nat.eqb (snd t) (snd t'))%bool then Some r else None
                       end
  end.

Inductive pstep : pstate -> pstate -> Prop :=
(* thread_worker_pool_templated.h:79-83 (tasks in vector order: thread_worker_pool.cpp:25-28) *)
| P_submit : forall s c k, nth_error (p_calls s) c = Some k -> k_sent k < k_n k ->
    pstep s (MkPool (upd (p_calls s) c (MkCall (k_n k) (S (k_sent k)) (k_taken k))) (p_todo s ++ [(c, k_sent k)]) (p_workers s) (p_done s)
                    (p_writes s) (p_exec s) (p_sub s ++ [(c, k_sent k)]) (p_taken s) (p_lost s))
(* worker.h:61-62 *)
| P_get : forall s w t r, nth_error (p_workers s) w = Some WIdle -> p_todo s = t :: r ->
    pstep s (MkPool (p_calls s) r (upd (p_workers s) w (WHas t)) (p_done s) (p_writes s) (p_exec s) (p_sub s) (p_taken s) (p_lost s))
(* worker.h:63, thread_worker_pool_task.cpp: DoTask stores the result through the pointer to results[i] *)
| P_perform : forall s w t v, nth_error (p_workers s) w = Some (WHas t) -> perform t = Some v ->
    pstep s (MkPool (p_calls s) (p_todo s) (upd (p_workers s) w (WDid t)) (p_done s) (p_writes s ++ [(t, v)]) (p_exec s ++ [t]) (p_sub s) (p_taken s) (p_lost s))
(* worker.h:63, 71-74: the exception is printed and forgotten; nothing is pushed to done_tasks *)
| P_throw : forall s w t, nth_error (p_workers s) w = Some (WHas t) -> perform t = None ->
    pstep s (MkPool (p_calls s) (p_todo s) (upd (p_workers s) w WIdle) (p_done s) (p_writes s) (p_exec s ++ [t]) (p_sub s) (p_taken s) (p_lost s ++ [t]))
(* worker.h:64 *)
| P_report : forall s w t, nth_error (p_workers s) w = Some (WDid t) ->
    pstep s (MkPool (p_calls s) (p_todo s) (upd (p_workers s) w WIdle) (p_done s ++ [t]) (p_writes s) (p_exec s) (p_sub s) (p_taken s) (p_lost s))
(* thread_worker_pool_templated.h:85-89: any completion token will do *)
| P_token : forall s c k t r, nth_error (p_calls s) c = Some k -> k_sent k = k_n k -> k_taken k < k_n k -> p_done s = t :: r ->
    pstep s (MkPool (upd (p_calls s) c (MkCall (k_n k) (k_sent k) (S (k_taken k)))) (p_todo s) (p_workers s) r
                    (p_writes s) (p_exec s) (p_sub s) (p_taken s ++ [t]) (p_lost s)).

(** A pool of [w] idle workers and one thread per entry of [ns] about to call DoTasks with that many tasks. *)
Definition pinit (w : nat) (ns : list nat) : pstate :=
  MkPool (map (fun n => MkCall n 0 0) ns) [] (repeat WIdle w) [] [] [] [] [] [].

Inductive prun : nat -> pstate -> pstate -> Prop :=
| prun_nil : forall s, prun 0 s s
| prun_cons : forall n s1 s2 s3, prun n s1 s2 -> pstep s2 s3 -> prun (S n) s1 s3.
End Pool.
