(** Models of parallel/mpi/mpi_worker_pool.cpp (the dispatch of DoTasks against the worker ranks, all interleavings) and of
    parallel/mpi/async_call_chain.cpp. *)
From Verif Require Import Base.
Local Open Scope list_scope.

Section Dispatch.
Variable M : Type.
(** The messages a worker sends back for task [i]: Perform followed by IMpiTaskResult::Send, one message per asynchronous
    call of the chain ReceiveAsync builds. Perform does not throw here (an exception ends the worker's process). *)
Variable perform : nat -> list M.
Variable n : nat.      (* tasks.size() *)
Variable size : nat.   (* communicator_->size() *)

(** mpi_worker_pool.cpp:20-24 ResultExpectation: rank, position of the task, messages received so far. *)
Record expect : Type := MkExpect { e_rank : nat; e_task : nat; e_got : list M }.

Record mstate : Type := MkMpi {
  m_next : nat;                    (* loop variable i *)
  m_rank : nat;                    (* current_worker_rank *)
  m_first : bool;                  (* was_first_part_sent *)
  m_wait : bool;                   (* inside the WaitAndPopNextExpectation of line 82 *)
  m_exp : list expect;             (* result_expectations *)
  m_inbox : list (list nat);       (* per rank: tasks sent to it, not yet received *)
  m_outbox : list (list M);        (* per rank: messages it has sent, not yet received by the server (MPI keeps their order) *)
  m_results : list (nat * list M); (* completed results: position, content *)
  m_stats : list nat;              (* ranks passed to RegisterCount, in order *)
  m_sent : list (nat * nat) }.     (* history: task, rank *)

Definition nexts {A} (l : list (list A)) (r : nat) : list A := nth r l [].

(** The server looks at the expectations whenever it is waiting, also while draining (lines 88-91). *)
Definition polling (s : mstate) : Prop := m_wait s = true \/ m_next s = n.

Inductive mstep : mstate -> mstate -> Prop :=
(* lines 65-85, 101-121: send task i to the current worker *)
| M_send_first : forall s, m_wait s = false -> m_next s < n -> m_first s = false ->
    mstep s (MkMpi (S (m_next s)) (S (m_rank s)) (Nat.leb size (S (m_rank s))) (Nat.leb size (S (m_rank s)))
                   (m_exp s ++ [MkExpect (m_rank s) (m_next s) []])
                   (upd (m_inbox s) (m_rank s) (nexts (m_inbox s) (m_rank s) ++ [m_next s])) (m_outbox s) (m_results s) (m_stats s)
                   (m_sent s ++ [(m_next s, m_rank s)]))
| M_send_next : forall s, m_wait s = false -> m_next s < n -> m_first s = true ->
    mstep s (MkMpi (S (m_next s)) (m_rank s) true true
                   (m_exp s ++ [MkExpect (m_rank s) (m_next s) []])
                   (upd (m_inbox s) (m_rank s) (nexts (m_inbox s) (m_rank s) ++ [m_next s])) (m_outbox s) (m_results s) (m_stats s)
                   (m_sent s ++ [(m_next s, m_rank s)]))
(* lines 184-207: a worker receives a task, performs it and sends the messages of its result *)
| M_work : forall s r t rest, 1 <= r -> r < size -> nexts (m_inbox s) r = t :: rest ->
    mstep s (MkMpi (m_next s) (m_rank s) (m_first s) (m_wait s) (m_exp s) (upd (m_inbox s) r rest) (upd (m_outbox s) r (nexts (m_outbox s) r ++ perform t))
                   (m_results s) (m_stats s) (m_sent s))
(* lines 132-137: the current asynchronous call of some expectation has finished, the next one is made *)
| M_receive : forall s l1 e l2 x rest, polling s -> m_exp s = l1 ++ e :: l2 -> length (e_got e) < length (perform (e_task e)) ->
    nexts (m_outbox s) (e_rank e) = x :: rest ->
    mstep s (MkMpi (m_next s) (m_rank s) (m_first s) (m_wait s) (l1 ++ MkExpect (e_rank e) (e_task e) (e_got e ++ [x]) :: l2) (m_inbox s)
                   (upd (m_outbox s) (e_rank e) rest) (m_results s) (m_stats s) (m_sent s))
(* lines 138-144 within line 82: all calls of the chain have finished *)
| M_pop : forall s l1 e l2, m_wait s = true -> m_exp s = l1 ++ e :: l2 -> length (e_got e) = length (perform (e_task e)) ->
    mstep s (MkMpi (m_next s) (e_rank e) (m_first s) false (l1 ++ l2) (m_inbox s) (m_outbox s) (m_results s ++ [(e_task e, e_got e)]) (m_stats s ++ [e_rank e]) (m_sent s))
(* the same within lines 88-91 *)
| M_drain : forall s l1 e l2, m_wait s = false -> m_next s = n -> m_exp s = l1 ++ e :: l2 -> length (e_got e) = length (perform (e_task e)) ->
    mstep s (MkMpi (m_next s) (m_rank s) (m_first s) false (l1 ++ l2) (m_inbox s) (m_outbox s) (m_results s ++ [(e_task e, e_got e)]) (m_stats s ++ [e_rank e]) (m_sent s)).

Definition minit : mstate := MkMpi 0 1 false false [] (repeat [] size) (repeat [] size) [] [] [].
(** line 93 *)
Definition mreturned (s : mstate) : Prop := m_next s = n /\ m_wait s = false /\ m_exp s = [].
Inductive mrun : nat -> mstate -> mstate -> Prop :=
| mrun_nil : forall s, mrun 0 s s
| mrun_cons : forall k s1 s2 s3, mrun k s1 s2 -> mstep s2 s3 -> mrun (S k) s1 s3.
End Dispatch.

(** ** async_call_chain.cpp *)
Section Chain.
Variable C : Type. (* the asynchronous calls *)
(** What calls_queue_.front()() gives: an asynchronous call may return no request at all (boost::optional). *)
Variable makes_request : C -> bool.

(** What is observable: a call is issued; a request is tested and found complete. *)
Inductive ch_event : Type := Issued (c : C) | FoundComplete (c : C).
Record chain : Type := MkChain { ch_queue : list C; ch_request : option C (* the call whose request is current, if any *); ch_finished : bool;
                                 ch_log : list ch_event (* history *) }.
(** lines 20-33 *)
Definition chain_new (first : C) : chain := MkChain [first] None false [].
Definition chain_add (c : C) (s : chain) : chain := MkChain (ch_queue s ++ [c]) (ch_request s) (ch_finished s) (ch_log s).
(** lines 35-56; [answer] is what request.test() says if it is asked. Testing the same request again after a positive test is
    an error in Boost.MPI: the log shows every positive test. *)
Definition chain_is_finished (answer : bool) (s : chain) : bool * chain :=
  if ch_finished s then (true, s)
  else match ch_request s with
       | Some c => (answer, MkChain (ch_queue s) (ch_request s) answer (if answer then ch_log s ++ [FoundComplete c] else ch_log s))
       | None => (true, MkChain (ch_queue s) None true (ch_log s))
       end.
(** lines 58-61 *)
Definition chain_will_be_next (s : chain) : bool := match ch_queue s with [] => false | _ => true end.
(** lines 63-75; front() of an empty queue is undefined *)
Definition chain_make_next (answer : bool) (s : chain) : outcome unit * chain :=
  let (f, s1) := chain_is_finished answer s in
  if f then match ch_queue s1 with
            | [] => (UB OutOfBounds, s1)
            | c :: q => (Ok tt, MkChain q (if makes_request c then Some c else None) false (ch_log s1 ++ [Issued c]))
            end
  else (Throw RuntimeError, s1).

(** mpi_worker_pool.cpp:128-147, one pass over the expectations: [answers] are the results of the tests, one per element
    asked. Returns the popped chain with the remaining ones, or the list after the pass. *)
Fixpoint wait_pass (answers : list bool) (l : list chain) : outcome (option chain * list chain) :=
  match l with
  | [] => Ok (None, [])
  | s :: r =>
      let (f, s1) := chain_is_finished (hd false answers) s in
      if f then
        if chain_will_be_next s1 then
          match chain_make_next false s1 with
          | (Ok _, s2) => let! p := wait_pass (tl answers) r in Ok (fst p, s2 :: snd p)
          | (Throw e, _) => Throw e
          | (UB u, _) => UB u
          end
        else Ok (Some s1, r)
      else let! p := wait_pass (tl answers) r in Ok (fst p, s1 :: snd p)
  end.
End Chain.
