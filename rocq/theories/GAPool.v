(** A worker pool used by one thread, DoTasks call after DoTasks call, and the optimisers that use it that way: the genetic algorithm
    (objective_function_counter.cpp), and the two parameters processors behind GridSearch and RandomSearch. *)
From Verif Require Import Base Num Random Cache Individual GA Misc Queue Pool LockPool Parallel Mpi.
Local Open Scope list_scope.

(** ** One client of a pool *)
Section Client.
Variables X R : Type.
(** ITask::Perform of the task made of [x]. *)
Variable f : X -> outcome R.

(** [bs]: the batches, one for each DoTasks call. What the pool performs as task [i] of call [c]; an exception is None. Undefined behaviour in a
    task is not modelled (it counts as an exception). *)
Definition performs (bs : list (list X)) (t : task) : option R :=
  match nth_error bs (fst t) with
  | Some b => match nth_error b (snd t) with Some x => match f x with Ok v => Some v | _ => None end | None => None end
  | None => None
  end.

(** The first [c] calls of one thread on a pool of [w] workers: each begins after the one before has returned; [rs] are the vectors
    returned, as they were at that moment (None: null pointer). The pool is the one of LockPool.v. *)
Inductive thread_session (w : nat) (bs : list (list X)) : nat -> list (list (option R)) -> fstate R -> Prop :=
| TS_open : thread_session w bs 0 [] (finit R w (map (@length X) bs))
| TS_call : forall c rs s b n m s' x, thread_session w bs c rs s -> nth_error bs c = Some b ->
    frun R (performs bs) n m s s' -> (forall d, d <> c -> nth_error (f_calls R s') d = nth_error (f_calls R s) d) ->
    nth_error (f_calls R s') c = Some x -> freturned x ->
    thread_session w bs (S c) (rs ++ [map (fun i => last_write R (c, i) (f_writes R s')) (seq 0 (length b))]) s'.

(** The same on the sequential pool, with tasks that do not act on the rest of the program. *)
Definition seq_session (bs : list (list X)) (rs : list (list R)) : Prop :=
  Forall2 (fun b r => exists counted, seq_do_tasks X R unit (fun x u => (f x, u)) b 0 tt = (Ok r, counted, tt)) bs rs.

(** The same on the MPI pool of [size] processes, when each result travels as one message (objective_function_task_result.cpp:30-45) and no task throws:
    [g x] is what a worker process computes for the task made of [x], after the transfer. After a call every worker waits for its next task again (C37). *)
Definition mpi_session (size : nat) (g : X -> R) (bs : list (list X)) (rs : list (list R)) : Prop :=
  Forall2 (fun b r => exists messages k s,
     (forall i, messages i <> []) /\ (forall i x, nth_error b i = Some x -> messages i = [g x]) /\
     mrun R messages (length b) size k (minit R size) s /\ mreturned R (length b) s /\
     length r = length b /\ forall i v, nth_error r i = Some v -> In (i, [v]) (m_results R s)) bs rs.
End Client.

(** ** The genetic algorithm, the values coming from a pool *)
Section GAPool.
Variable E : env.
Notation M := (wm (e_w E)).
Variable hash : list bool -> Z.

(** objective_function_counter.cpp:83-110, 128-140: the parameters of the tasks. *)
Definition batch_of (h : heap E) (todo : list nat) : outcome (list (e_par E)) := mapM (fun a => let! i := h_get E h a in Ok (i_par E i)) todo.

(** objective_function_counter.cpp:29-49 ObtainFitness, [vs] being what DoTasks returned for the batch, which is returned too. *)
Definition obtain_fitness_on (vs : list dbl) (h : heap E) (k : counter) (pop : list nat) : outcome (heap E * counter * list (e_par E)) :=
  let! x := process_population E hash h k pop in
  let '(h1, k1, todo) := x in
  let! b := batch_of h1 todo in
  let k2 := MkCounter (k_cache k1) (k_hits k1) (k_counts k1 + Z.of_nat (length todo)) in
  let! h2 := assign_fitness E h1 todo vs in
  match k_cache k2 with
  | None => Ok (h2, k2, b)
  | Some c =>
      let! rs := cache_records E hash h2 todo in
      let (c', o) := add_values Z dbl Z.eqb rs c in
      let! _ := o in Ok (h2, MkCounter (Some c') (k_hits k2) (k_counts k2), b)
  end.

(** genetic_algorithm.cpp:239-268. [answers]: what the DoTasks calls return, one per generation; the batches are returned. Out of answers: the
    program is still waiting (or the call threw). *)
Fixpoint run_generations_on (cfg : ga_cfg) (left : nat) (n : Z) (s : gstate E) (answers : list (list dbl)) : M (gstate E * list (snap E) * list (list (e_par E))) :=
  match left with
  | O => wret (s, [], [])
  | S left' =>
      match answers with
      | [] => wlift (UB OutOfFuel)
      | vs :: answers' =>
          let* x := wlift (obtain_fitness_on vs (g_heap E s) (g_counter E s) (g_pop E s)) in
          let '(h1, k1, bt) := x in
          let* best := wlift (update_best E h1 (g_pop E s) (g_best E s)) in
          let* is := wlift (mapM (h_get E h1) (g_pop E s)) in
          let* b := wlift (h_get E h1 best) in
          let k2 := MkCounter (k_cache k1) 0 (k_counts k1) in
          let* fb := wlift (get_fitness E b) in
          if d_leb (cf_stop cfg) fb then wret (MkG E h1 (g_pop E s) best k2, [MkSnap E is b], [bt])
          else
            let* y := generate_next E (cf_elit cfg) h1 (g_pop E s) in
            let* _ := apply_context E n (cf_gens cfg) in
            let* h3 := mutate_all E (fst y) (snd y) in
            let* z := run_generations_on cfg left' (n + 1) (MkG E h3 (snd y) best k2) answers' in
            wret (fst (fst z), MkSnap E is b :: snd (fst z), bt :: snd z)
      end
  end.

Variable same_type : e_par E -> e_par E -> bool.
Variable same_meta : e_par E -> e_par E -> outcome bool.
(** genetic_algorithm.cpp:122-143 Optimize. *)
Definition ga_optimize_on (cfg : ga_cfg) (initial : option (list (e_par E))) (parse : text -> dbl * text) (file : option text)
    (k : counter) (p : e_par E) (maximize : bool) (answers : list (list dbl)) : M (e_par E * list (snap E) * gstate E * list (list (e_par E))) :=
  if negb maximize then wlift (Throw InvalidArgument)
  else
    let* x := ga_initialize E same_type same_meta cfg initial p in
    let '(h, pop, best) := x in
    let* h1 := wlift (match file with None => Ok h | Some t => load_file E parse h pop t end) in
    let* z := run_generations_on cfg (Z.to_nat (cf_gens cfg)) 0 (MkG E h1 pop best k) answers in
    let* b := wlift (h_get E (g_heap E (fst (fst z))) (g_best E (fst (fst z)))) in
    let (q, o) := e_dec E p (i_chr E b) in
    let* _ := wlift o in
    wret (q, snd (fst z), fst (fst z), snd z).
End GAPool.

(** ** The parameters processors: one DoTasks call each *)
(** simple_parameters_processor.cpp:15-42, [vs] being what the pool returned for the batch [ps]. *)
Definition simple_process_on {P} (vs : list dbl) (ps : list P) (maximize : bool) : outcome P :=
  match ps with
  | [] => Throw InvalidArgument
  | _ => let! i := pick maximize vs in at_ ps i
  end.
(** optimization_parameters_processor.cpp:29-78, [rs] being the optimal parameters in what the pool returned. *)
Definition optimization_process_on {P} (f : P -> outcome dbl) (rs : list P) (maximize : bool) : outcome P :=
  let! vs := mapM f rs in let! i := pick maximize vs in at_ rs i.
