(** Model of the life of the MPI pool around the dispatch of Mpi.v: parallel/mpi/mpi_worker_pool.cpp with tasks that are not
    IMpiTask (DoTasks throws on the server, lines 165-175), tasks whose handling throws in the worker's process (no catch
    in RunWorkerLoop, lines 177-209, nor in the constructor, lines 26-41: the process leaves the pool), and the destructor
    (lines 43-47, FinalizeWorkers 225-235) with the exit of the worker processes (lines 192-196).
    Simplified: whether the MPI run time kills the other processes when one dies is not modelled (they go on); the
    server is in one call of DoTasks, after which the pool may be destroyed (the state after a call that returned is the
    initial one, C37_results); sending never blocks. *)
From Verif Require Import Base Mpi.
Local Open Scope list_scope.

Section Life.
Variable M : Type.
(** As in Mpi.v: the messages of the result of a task (for a task that throws: those the server expects). *)
Variable perform : nat -> list M.
Variables n size : nat.
(** Does the dynamic_cast to IMpiTask succeed on task [i] (line 167)? *)
Variable is_mpi : nat -> bool.
(** Does CreateTask, Receive, Perform or Send of task [i] throw in the worker (lines 200-207)? *)
Variable throws : nat -> bool.
Notation mstate := (mstate M).

(** The steps of the server, as in Mpi.v (there explained line by line). *)
Inductive server_step : mstate -> mstate -> Prop :=
| S_send_first : forall s, m_wait M s = false -> m_next M s < n -> m_first M s = false ->
    server_step s (MkMpi M (S (m_next M s)) (S (m_rank M s)) (Nat.leb size (S (m_rank M s))) (Nat.leb size (S (m_rank M s)))
                   (m_exp M s ++ [MkExpect M (m_rank M s) (m_next M s) []])
                   (upd (m_inbox M s) (m_rank M s) (nexts (m_inbox M s) (m_rank M s) ++ [m_next M s])) (m_outbox M s) (m_results M s) (m_stats M s)
                   (m_sent M s ++ [(m_next M s, m_rank M s)]))
| S_send_next : forall s, m_wait M s = false -> m_next M s < n -> m_first M s = true ->
    server_step s (MkMpi M (S (m_next M s)) (m_rank M s) true true
                   (m_exp M s ++ [MkExpect M (m_rank M s) (m_next M s) []])
                   (upd (m_inbox M s) (m_rank M s) (nexts (m_inbox M s) (m_rank M s) ++ [m_next M s])) (m_outbox M s) (m_results M s) (m_stats M s)
                   (m_sent M s ++ [(m_next M s, m_rank M s)]))
| S_receive : forall s l1 e l2 x rest, polling M n s -> m_exp M s = l1 ++ e :: l2 -> length (e_got M e) < length (perform (e_task M e)) ->
    nexts (m_outbox M s) (e_rank M e) = x :: rest ->
    server_step s (MkMpi M (m_next M s) (m_rank M s) (m_first M s) (m_wait M s) (l1 ++ MkExpect M (e_rank M e) (e_task M e) (e_got M e ++ [x]) :: l2) (m_inbox M s)
                   (upd (m_outbox M s) (e_rank M e) rest) (m_results M s) (m_stats M s) (m_sent M s))
| S_pop : forall s l1 e l2, m_wait M s = true -> m_exp M s = l1 ++ e :: l2 -> length (e_got M e) = length (perform (e_task M e)) ->
    server_step s (MkMpi M (m_next M s) (e_rank M e) (m_first M s) false (l1 ++ l2) (m_inbox M s) (m_outbox M s) (m_results M s ++ [(e_task M e, e_got M e)])
                   (m_stats M s ++ [e_rank M e]) (m_sent M s))
| S_drain : forall s l1 e l2, m_wait M s = false -> m_next M s = n -> m_exp M s = l1 ++ e :: l2 -> length (e_got M e) = length (perform (e_task M e)) ->
    server_step s (MkMpi M (m_next M s) (m_rank M s) (m_first M s) false (l1 ++ l2) (m_inbox M s) (m_outbox M s) (m_results M s ++ [(e_task M e, e_got M e)])
                   (m_stats M s ++ [e_rank M e]) (m_sent M s)).
(** A worker's turn of the loop, lines 184-207. *)
Definition worked (s : mstate) (r t : nat) (rest : list nat) : mstate :=
  MkMpi M (m_next M s) (m_rank M s) (m_first M s) (m_wait M s) (m_exp M s) (upd (m_inbox M s) r rest)
    (upd (m_outbox M s) r (nexts (m_outbox M s) r ++ perform t)) (m_results M s) (m_stats M s) (m_sent M s).

Record life : Type := MkLife {
  l_m : mstate;
  l_dead : list nat;        (* ranks whose process has left the pool by an exception, latest first *)
  l_refused : bool;         (* DoTasks has thrown std::logic_error *)
  l_fin : nat;              (* FinalizeWorkers has sent the end of work to the ranks 1 .. l_fin *)
  l_exited : list nat }.    (* ranks whose process has called exit(0), latest first *)
(** The call of DoTasks is over. *)
Definition over (s : life) : Prop := mreturned M n (l_m s) \/ l_refused s = true.
(** A worker's process that still runs its loop. *)
Definition alive (s : life) (r : nat) : Prop := 1 <= r /\ r < size /\ ~ In r (l_dead s) /\ ~ In r (l_exited s).

Inductive lstep : life -> life -> Prop :=
(* lines 65-93; the task about to be sent is an IMpiTask *)
| L_server : forall s m', l_refused s = false -> (m_wait M (l_m s) = false -> m_next M (l_m s) < n -> is_mpi (m_next M (l_m s)) = true) ->
    server_step (l_m s) m' -> lstep s (MkLife m' (l_dead s) false (l_fin s) (l_exited s))
(* lines 67, 165-175: the local expectations and results are dropped, whatever is under way *)
| L_refuse : forall s, l_refused s = false -> m_wait M (l_m s) = false -> m_next M (l_m s) < n -> is_mpi (m_next M (l_m s)) = false ->
    lstep s (MkLife (l_m s) (l_dead s) true (l_fin s) (l_exited s))
(* lines 184-207 *)
| L_work : forall s r t rest, alive s r -> nexts (m_inbox M (l_m s)) r = t :: rest -> throws t = false ->
    lstep s (MkLife (worked (l_m s) r t rest) (l_dead s) (l_refused s) (l_fin s) (l_exited s))
(* the same, with an exception: the constructor of the pool throws in the worker's process. (The task stays listed in the
   inbox of the rank, which nobody reads any more.) *)
| L_die : forall s r t rest, alive s r -> nexts (m_inbox M (l_m s)) r = t :: rest -> throws t = true ->
    lstep s (MkLife (l_m s) (r :: l_dead s) (l_refused s) (l_fin s) (l_exited s))
(* lines 225-235, one turn of the loop *)
| L_finalize : forall s, over s -> S (l_fin s) < size ->
    lstep s (MkLife (l_m s) (l_dead s) (l_refused s) (S (l_fin s)) (l_exited s))
(* lines 184-196: the end of work comes after all tasks sent before it *)
| L_exit : forall s r, alive s r -> r <= l_fin s -> nexts (m_inbox M (l_m s)) r = [] ->
    lstep s (MkLife (l_m s) (l_dead s) (l_refused s) (l_fin s) (r :: l_exited s)).

Definition linit : life := MkLife (minit M size) [] false 0 [].
Inductive lrun : nat -> life -> life -> Prop :=
| lrun_nil : forall s, lrun 0 s s
| lrun_cons : forall k s1 s2 s3, lrun k s1 s2 -> lstep s2 s3 -> lrun (S k) s1 s3.
(** The destructor has returned (lines 43-47). *)
Definition finalized (s : life) : Prop := over s /\ S (l_fin s) = size.
End Life.
