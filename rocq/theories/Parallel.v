(** Models of parallel/sequential_worker_pool.cpp, parallel/statistics_aggregator.cpp, parallel/worker_statistics.cpp,
    parallel/worker_pool_factory.cpp and parallel/mpi/identifyable_objects_manager.cpp. *)
From Verif Require Import Base.
Local Open Scope Z_scope.
Local Open Scope list_scope.

(** ** sequential worker pool *)
Section Sequential.
Variables T R W : Type.
(** ITask::Perform, with effects on the rest of the program ([W]); an exception leaves its effects behind. *)
Variable perform : T -> W -> outcome R * W.

(** sequential_worker_pool.cpp:15-26 DoTasks: results, the statistics counter (int; its overflow is not modelled), and the
    world. *)
Fixpoint seq_do_tasks (tasks : list T) (counted : Z) (w : W) : outcome (list R) * Z * W :=
  match tasks with
  | [] => (Ok [], counted, w)
  | t :: r =>
      match perform t w with
      | (Ok v, w1) => match seq_do_tasks r (counted + 1) w1 with
                      | (Ok vs, c, w2) => (Ok (v :: vs), c, w2)
                      | (Throw e, c, w2) => (Throw e, c, w2)
                      | (UB u, c, w2) => (UB u, c, w2)
                      end
      | (Throw e, w1) => (Throw e, counted, w1)
      | (UB u, w1) => (UB u, counted, w1)
      end
  end.
End Sequential.

(** ** worker statistics *)

(** worker_statistics.cpp:8-36 (ints; overflow not modelled). *)
Record wstat : Type := MkStat { ws_counted : Z; ws_errors : Z; ws_id : Z }.
Definition increase_counted (s : wstat) : wstat := MkStat (ws_counted s + 1) (ws_errors s) (ws_id s).
Definition increase_errors (s : wstat) : wstat := MkStat (ws_counted s) (ws_errors s + 1) (ws_id s).

(** std::map<int, WorkerStatistics>: association list in increasing order of keys. *)
Fixpoint sm_find (k : Z) (m : list (Z * wstat)) : option wstat :=
  match m with [] => None | (k', s) :: r => if k =? k' then Some s else sm_find k r end.
(** operator[] assignment *)
Fixpoint sm_put (k : Z) (s : wstat) (m : list (Z * wstat)) : list (Z * wstat) :=
  match m with
  | [] => [(k, s)]
  | (k', s') :: r => if k <? k' then (k, s) :: m else if k =? k' then (k, s) :: r else (k', s') :: sm_put k s r
  end.
(** statistics_aggregator.cpp:37-48. *)
Definition get_appropriate (m : list (Z * wstat)) (id : Z) : wstat :=
  match sm_find id m with Some s => s | None => MkStat 0 0 id end.
(** statistics_aggregator.cpp:10-15, 17-22. *)
Definition register_count (id : Z) (m : list (Z * wstat)) := sm_put id (increase_counted (get_appropriate m id)) m.
Definition register_error (id : Z) (m : list (Z * wstat)) := sm_put id (increase_errors (get_appropriate m id)) m.
(** statistics_aggregator.cpp:24-35. *)
Definition get_statistics (m : list (Z * wstat)) : list wstat := map snd m.
Inductive stat_op : Type := RegCount (id : Z) | RegError (id : Z).
Fixpoint stat_run (m : list (Z * wstat)) (os : list stat_op) : list (Z * wstat) :=
  match os with
  | [] => m
  | RegCount id :: r => stat_run (register_count id m) r
  | RegError id :: r => stat_run (register_error id m) r
  end.

(** ** worker pool factory *)
Inductive pool_type : Type := MpiPool | ThreadPool | SequentialPool.
(** The platform: which options the library was built with, the size of the MPI communicator and the number of hardware
    threads (0 when unknown) at the moment of a call. *)
Record platform : Type := MkPlatform { with_mpi : bool; with_thread : bool; mpi_size : Z; hw_threads : Z }.

(** worker_pool_factory.cpp:93-122 CanCreateWorkerPool; [created] is was_mpi_worker_pool_created_. *)
Definition can_create (pf : platform) (created : bool) (t : pool_type) : bool :=
  match t with
  | ThreadPool => with_thread pf
  | MpiPool => if with_mpi pf then negb created else false
  | SequentialPool => true
  end.
(** worker_pool_factory.cpp:61-91 CreateWorkerPool. The thread pool's constructor throws when no worker can be started
    (thread_worker_pool_templated.h:36-40, 95-101); the MPI pool is created on the server rank. *)
Definition create_pool (pf : platform) (created : bool) (t : pool_type) : outcome pool_type * bool :=
  match t with
  | ThreadPool => if with_thread pf then (if hw_threads pf <=? 0 then (Throw InvalidArgument, created) else (Ok ThreadPool, created))
                  else (Throw RuntimeError, created)
  | MpiPool => if with_mpi pf then (if created then (Throw RuntimeError, created) else (Ok MpiPool, true)) else (Throw RuntimeError, created)
  | SequentialPool => (Ok SequentialPool, created)
  end.
(** thread_worker_pool.cpp:12-15, 41-44; mpi_worker_pool.cpp:49-52, 199-202; sequential_worker_pool.cpp:10-13. *)
Definition is_valid (pf : platform) (t : pool_type) : bool :=
  match t with ThreadPool => 2 <=? hw_threads pf | MpiPool => 2 <=? mpi_size pf | SequentialPool => true end.
(** worker_pool_factory.cpp:24-59 CreateBestWorkerPool. *)
Fixpoint best_loop (pf : platform) (created : bool) (ts : list pool_type) : outcome pool_type * bool :=
  match ts with
  | [] => (Throw RuntimeError, created)
  | t :: r =>
      if can_create pf created t then
        match create_pool pf created t with
        | (Ok p, created1) => if is_valid pf p then (Ok p, created1) else best_loop pf created1 r
        | (Throw e, created1) => (Throw e, created1)
        | (UB u, created1) => (UB u, created1)
        end
      else best_loop pf created r
  end.
Definition create_best (pf : platform) (created : bool) : outcome pool_type * bool :=
  best_loop pf created [MpiPool; ThreadPool; SequentialPool].

(** ** registry of transferable objects *)
Section Registry.
Variable O : Type.
(** identifyable_objects_manager.h: std::map<std::string, ICloneable::shared_ptr>; ids are strings, here any type with
    equality. A null pointer is [None]. *)
Variable I : Type.
Variable ieqb : I -> I -> bool.
Definition registry : Type := list (I * option O).
Fixpoint rg_find (k : I) (m : registry) : option (option O) :=
  match m with [] => None | (k', o) :: r => if ieqb k k' then Some o else rg_find k r end.
Fixpoint rg_put (k : I) (o : option O) (m : registry) : registry :=
  match m with [] => [(k, o)] | (k', o') :: r => if ieqb k k' then (k', o) :: r else (k', o') :: rg_put k o r end.
(** identifyable_objects_manager.cpp:19-34 GetObject: operator[] inserts a null pointer for an unknown id. *)
Definition get_object (k : I) (m : registry) : outcome O * registry :=
  match rg_find k m with
  | Some (Some o) => (Ok o, m)
  | Some None => (Throw InvalidArgument, m)
  | None => (Throw InvalidArgument, rg_put k None m)
  end.
(** identifyable_objects_manager.cpp:36-39 RegisterObject (the object stored is a clone). *)
Definition register_object (k : I) (o : O) (m : registry) : registry := rg_put k (Some o) m.
Inductive reg_op : Type := Register (k : I) (o : O) | Lookup (k : I).
Fixpoint reg_run (m : registry) (os : list reg_op) : registry * list (I * outcome O) :=
  match os with
  | [] => (m, [])
  | Register k o :: r => reg_run (register_object k o m) r
  | Lookup k :: r => let (x, m1) := get_object k m in let (m2, ys) := reg_run m1 r in (m2, (k, x) :: ys)
  end.
End Registry.
