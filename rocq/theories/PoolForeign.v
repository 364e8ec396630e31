(** Model of the thread pool with tasks that leave Perform by something else than a std::exception: parallel/thread/worker.h:53-86
    (ProcessTasksQueue). boost::thread_interrupted thrown by a task of its own accord (nobody called Stop) is caught at lines 66-70: the worker's function
    returns and the task is not pushed to done_tasks. Any other exception that is not a std::exception (line 71) leaves the function of the thread:
    std::terminate ends the process. Everything else is Pool.v. Simplified as there (atomic queues, the pool is not destroyed: that is PoolStop.v). *)
From Verif Require Import Base Pool.
Local Open Scope list_scope.

(** How a task that does not end by a return or a std::exception ends its worker. *)
Inductive leaving : Type := Leaves | Terminates.

Section Foreign.
Variable R : Type.
Variable perform : task -> option R.
(** [None]: the task returns or throws a std::exception, as [perform] says. *)
Variable foreign : task -> option leaving.

Record fstate : Type := MkF {
  f_pool : pstate R;
  f_left : list nat;     (* the workers whose function has returned, latest first; Pool.v's state shows the task they held *)
  f_dead : bool }.       (* std::terminate has ended the process *)

Inductive fstep : fstate -> fstate -> Prop :=
(* a step of Pool.v; a task performed in it is an ordinary one *)
| F_pool : forall s p', f_dead s = false -> pstep R perform (f_pool s) p' ->
    (forall t, p_exec R p' = p_exec R (f_pool s) ++ [t] -> foreign t = None) ->
    fstep s (MkF p' (f_left s) false)
(* worker.h:63, 66-70 *)
| F_leave : forall s w t, f_dead s = false -> nth_error (p_workers R (f_pool s)) w = Some (WHas t) -> foreign t = Some Leaves -> ~ In w (f_left s) ->
    fstep s (MkF (f_pool s) (w :: f_left s) false)
(* worker.h:63: no handler *)
| F_terminate : forall s w t, f_dead s = false -> nth_error (p_workers R (f_pool s)) w = Some (WHas t) -> foreign t = Some Terminates ->
    fstep s (MkF (f_pool s) (f_left s) true).

Definition finit (w : nat) (ns : list nat) : fstate := MkF (pinit R w ns) [] false.
Inductive frun : nat -> fstate -> fstate -> Prop :=
| frun_nil : forall s, frun 0 s s
| frun_cons : forall k s1 s2 s3, frun k s1 s2 -> fstep s2 s3 -> frun (S k) s1 s3.
End Foreign.
