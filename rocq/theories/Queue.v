(** Model of parallel/thread/thread_safe_queue.h at the granularity of single mutex and condition-variable operations:
    any number of threads, each running its own list of queue operations, interleaved arbitrarily. *)
From Verif Require Import Base.
Local Open Scope list_scope.

Section Queue.
Variable V : Type.

(** What a thread may call (IsEmpty, lines 99-104, locks a non-mutable mutex in a const member: it cannot be instantiated
    and is not modelled). *)
Inductive qop : Type := OpPush (v : V) | OpWaitAndPop | OpTryPop.
(** What a finished call gave. *)
Inductive qres : Type := ResPush (v : V) | ResPopped (v : V) | ResTry (o : option V).

(** Program counters. *)
Inductive qpc : Type :=
| PReady                        (* between two calls *)
| PPushLocked (v : V)           (* Push: lock taken (line 47) *)
| PPushed (v : V)               (* Push: element in the queue (line 49), lock still held *)
| PPushNotify (v : V)           (* Push: unlocked (line 57), notify_one (line 62) still to come *)
| PPopLocked                    (* WaitAndPop: lock held, at the loop test (line 76) *)
| PWaiting                      (* WaitAndPop: blocked in wait, lock released (line 78) *)
| PWoken                        (* WaitAndPop: woken inside wait, must take the lock again *)
| PPopTaken (v : V)             (* WaitAndPop: front copied and removed (lines 81-82), destructor of the lock to come *)
| PTryLocked                    (* TryPop: lock taken (line 88) *)
| PTryTaken (o : option V).     (* TryPop: answer determined (lines 89-96), destructor of the lock to come *)

Record qthread : Type := MkThread { t_prog : list qop;      (* calls not returned yet, the current one first *)
                                    t_pc : qpc;
                                    t_done : list qres }.   (* answers of the returned calls, oldest first *)

(** One atomic effect on the queue, with the thread that had it. *)
Inductive qevent : Type := Enq (v : V) | Deq (v : V) | FoundEmpty.

Record qstate : Type := MkQ { q_items : list V;             (* std::queue *)
                              q_owner : option nat;         (* boost::mutex *)
                              q_threads : list qthread;
                              q_log : list (nat * qevent) }. (* history variable: effects in order *)

Definition set_thread (s : qstate) (i : nat) (t : qthread) : list qthread := upd (q_threads s) i t.

(** Steps. [spurious] marks a wake-up from wait without notification. *)
Inductive qstep : bool -> qstate -> qstate -> Prop :=
(* entering a call: scoped_lock constructor (lines 47, 75, 88) *)
| S_lock_push : forall s i v rest d, nth_error (q_threads s) i = Some (MkThread (OpPush v :: rest) PReady d) -> q_owner s = None ->
    qstep false s (MkQ (q_items s) (Some i) (set_thread s i (MkThread (OpPush v :: rest) (PPushLocked v) d)) (q_log s))
| S_lock_pop : forall s i rest d, nth_error (q_threads s) i = Some (MkThread (OpWaitAndPop :: rest) PReady d) -> q_owner s = None ->
    qstep false s (MkQ (q_items s) (Some i) (set_thread s i (MkThread (OpWaitAndPop :: rest) PPopLocked d)) (q_log s))
| S_lock_try : forall s i rest d, nth_error (q_threads s) i = Some (MkThread (OpTryPop :: rest) PReady d) -> q_owner s = None ->
    qstep false s (MkQ (q_items s) (Some i) (set_thread s i (MkThread (OpTryPop :: rest) PTryLocked d)) (q_log s))
(* line 49: queue_.push(element) *)
| S_push : forall s i v p d, nth_error (q_threads s) i = Some (MkThread p (PPushLocked v) d) ->
    qstep false s (MkQ (q_items s ++ [v]) (q_owner s) (set_thread s i (MkThread p (PPushed v) d)) (q_log s ++ [(i, Enq v)]))
(* line 57: lock.unlock() *)
| S_unlock : forall s i v p d, nth_error (q_threads s) i = Some (MkThread p (PPushed v) d) ->
    qstep false s (MkQ (q_items s) None (set_thread s i (MkThread p (PPushNotify v) d)) (q_log s))
(* line 62: notify_one with nobody waiting; Push returns *)
| S_notify_none : forall s i v p d, nth_error (q_threads s) i = Some (MkThread p (PPushNotify v) d) ->
    (forall j t, nth_error (q_threads s) j = Some t -> t_pc t <> PWaiting) ->
    qstep false s (MkQ (q_items s) (q_owner s) (set_thread s i (MkThread (tl p) PReady (d ++ [ResPush v]))) (q_log s))
(* line 62: notify_one wakes one of the waiting threads; Push returns *)
| S_notify_one : forall s i v p d j pj dj, nth_error (q_threads s) i = Some (MkThread p (PPushNotify v) d) ->
    nth_error (q_threads s) j = Some (MkThread pj PWaiting dj) ->
    qstep false s (MkQ (q_items s) (q_owner s)
      (upd (upd (q_threads s) i (MkThread (tl p) PReady (d ++ [ResPush v]))) j (MkThread pj PWoken dj)) (q_log s))
(* lines 76-79: queue_.empty(), wait releases the lock and blocks in one step *)
| S_wait : forall s i p d, nth_error (q_threads s) i = Some (MkThread p PPopLocked d) -> q_items s = [] ->
    qstep false s (MkQ (q_items s) None (set_thread s i (MkThread p PWaiting d)) (q_log s))
(* condition_variable::wait may return without notification *)
| S_spurious : forall s i p d, nth_error (q_threads s) i = Some (MkThread p PWaiting d) ->
    qstep true s (MkQ (q_items s) (q_owner s) (set_thread s i (MkThread p PWoken d)) (q_log s))
(* wait takes the lock again before returning *)
| S_relock : forall s i p d, nth_error (q_threads s) i = Some (MkThread p PWoken d) -> q_owner s = None ->
    qstep false s (MkQ (q_items s) (Some i) (set_thread s i (MkThread p PPopLocked d)) (q_log s))
(* lines 81-82 *)
| S_pop : forall s i v q p d, nth_error (q_threads s) i = Some (MkThread p PPopLocked d) -> q_items s = v :: q ->
    qstep false s (MkQ q (q_owner s) (set_thread s i (MkThread p (PPopTaken v) d)) (q_log s ++ [(i, Deq v)]))
(* line 83: the lock's destructor; WaitAndPop returns *)
| S_pop_return : forall s i v p d, nth_error (q_threads s) i = Some (MkThread p (PPopTaken v) d) ->
    qstep false s (MkQ (q_items s) None (set_thread s i (MkThread (tl p) PReady (d ++ [ResPopped v]))) (q_log s))
(* lines 89-92 *)
| S_try_empty : forall s i p d, nth_error (q_threads s) i = Some (MkThread p PTryLocked d) -> q_items s = [] ->
    qstep false s (MkQ (q_items s) (q_owner s) (set_thread s i (MkThread p (PTryTaken None) d)) (q_log s ++ [(i, FoundEmpty)]))
(* lines 94-96 *)
| S_try_pop : forall s i v q p d, nth_error (q_threads s) i = Some (MkThread p PTryLocked d) -> q_items s = v :: q ->
    qstep false s (MkQ q (q_owner s) (set_thread s i (MkThread p (PTryTaken (Some v)) d)) (q_log s ++ [(i, Deq v)]))
(* lines 91, 96-97: the lock's destructor; TryPop returns *)
| S_try_return : forall s i o p d, nth_error (q_threads s) i = Some (MkThread p (PTryTaken o) d) ->
    qstep false s (MkQ (q_items s) None (set_thread s i (MkThread (tl p) PReady (d ++ [ResTry o]))) (q_log s)).

(** line 30: a fresh queue, threads with their programs. *)
Definition qinit (programs : list (list qop)) : qstate := MkQ [] None (map (fun p => MkThread p PReady []) programs) [].

(** Runs, counting ordinary steps and spurious wake-ups. *)
Inductive qrun : nat -> nat -> qstate -> qstate -> Prop :=
| qrun_nil : forall s, qrun 0 0 s s
| qrun_step : forall n m s1 s2 s3, qrun n m s1 s2 -> qstep false s2 s3 -> qrun (S n) m s1 s3
| qrun_spurious : forall n m s1 s2 s3, qrun n m s1 s2 -> qstep true s2 s3 -> qrun n (S m) s1 s3.
End Queue.
