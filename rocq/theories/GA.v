(** Model of optimization/genetic_algorithm/genetic_algorithm.cpp and optimization/objective_function_counter.cpp.
    Individuals live in a heap (boost::shared_ptr<Individual>), so that the sharing of an individual between the
    population and best_individ_ is visible. The statistics and the call-back are in GAStats.v. *)
From Verif Require Import Base Num Random Cache Individual.
Local Open Scope Z_scope.
Local Open Scope list_scope.

(** ** construction *)

(** The members set by the constructor (the mutator is part of the environment). *)
Record ga_cfg : Type := MkCfg { cf_pop : nat; cf_elit : Z; cf_gens : Z; cf_stop : dbl }.

(** genetic_algorithm.cpp:79-120 constructor; [mutator] is whether the pointer is non-null. *)
Definition ga_construct (pop elit gens : Z) (mutator : bool) (stop : dbl) : outcome ga_cfg :=
  if negb (Z.rem pop 2 =? 0) then Throw InvalidArgument
  else if pop <=? 0 then Throw InvalidArgument
  else if gens <=? 0 then Throw InvalidArgument
  else if negb mutator then Throw InvalidArgument
  else Ok (MkCfg (Z.to_nat pop) elit gens stop).

(** genetic_algorithm.cpp:57-77 Create: null pointer when construction throws. *)
Definition ga_create (pop elit gens : Z) (mutator : bool) (stop : dbl) : option ga_cfg :=
  match ga_construct pop elit gens mutator stop with Ok c => Some c | _ => None end.

Section GA.
Variable E : env.
Notation M := (wm (e_w E)).
Notation indiv := (indiv E).

(** ** heap of individuals *)
Definition heap : Type := list indiv.
Definition h_get (h : heap) (a : nat) : outcome indiv :=
  match nth_error h a with Some i => Ok i | None => UB NullDeref end.
(** new Individual(...): appended, so every address is fresh. *)
Definition h_new (h : heap) (i : indiv) : heap * nat := (h ++ [i], length h).
Definition h_set (h : heap) (a : nat) (i : indiv) : heap := upd h a i.
Definition fit_of (h : heap) (a : nat) : outcome dbl := let! i := h_get h a in get_fitness E i.

(** ** objective_function_counter.cpp *)

(** boost::hash<ChromosomeType>, arbitrary here; keys are size_t. *)
Variable hash : list bool -> Z.
(** IObjectiveFunction::operator(), evaluated by the worker pool; tasks do not share state. *)
Variable f : e_par E -> outcome dbl.

Notation fcache := (cache Z dbl).
Record counter : Type := MkCounter { k_cache : option fcache; k_hits : Z; k_counts : Z }.

(** objective_function_counter.cpp:16-27; cache.h:139-143: sizeof(size_t) + sizeof(pair<const size_t, StoredValue<double>>) = 8 + (8 + 24) on a
    64-bit machine. *)
Definition counter_new (limit : dbl) : counter := MkCounter (c_create Z dbl 40 limit) 0 0.

(** objective_function_counter.cpp:83-110 ProcessPopulation. Returns the addresses of the individuals to evaluate (the
    code keeps their indices in the population). *)
Fixpoint process_population (h : heap) (k : counter) (pop : list nat) : outcome (heap * counter * list nat) :=
  match pop with
  | [] => Ok (h, k, [])
  | a :: r =>
      let! i := h_get h a in
      match k_cache k with
      | None => let! x := process_population h k r in Ok (fst (fst x), snd (fst x), a :: snd x)
      | Some c =>
          let key := hash (i_chr E i) in
          let (c1, b) := is_cached Z dbl Z.eqb key c in
          if (b : bool) then
            let (c2, v) := get_cached Z dbl Z.eqb key c1 in
            let! v := v in
            let! i' := set_fitness E i v in
            process_population (h_set h a i') (MkCounter (Some c2) (k_hits k + 1) (k_counts k)) r
          else
            let! x := process_population h (MkCounter (Some c1) (k_hits k) (k_counts k)) r in
            Ok (fst (fst x), snd (fst x), a :: snd x)
      end
  end.

(** objective_function_counter.cpp:51-66, 112-126: the values of the given individuals, in order (what every worker
    pool returns, see C32, C33, C37). *)
Definition count_values (h : heap) (todo : list nat) : outcome (list dbl) :=
  mapM (fun a => let! i := h_get h a in f (i_par E i)) todo.

(** objective_function_counter.cpp:40-43. *)
Fixpoint assign_fitness (h : heap) (todo : list nat) (vs : list dbl) : outcome heap :=
  match todo, vs with
  | a :: r, v :: vr => let! i := h_get h a in let! i' := set_fitness E i v in assign_fitness (h_set h a i') r vr
  | _, _ => Ok h
  end.

(** objective_function_counter.cpp:155-170 AddNewCacheValues: the records. *)
Definition cache_records (h : heap) (todo : list nat) : outcome (list (Z * dbl)) :=
  mapM (fun a => let! i := h_get h a in let! v := get_fitness E i in Ok (hash (i_chr E i), v)) todo.

(** objective_function_counter.cpp:29-49 ObtainFitness. *)
Definition obtain_fitness (h : heap) (k : counter) (pop : list nat) : outcome (heap * counter) :=
  let! x := process_population h k pop in
  let '(h1, k1, todo) := x in
  let! vs := count_values h1 todo in
  let k2 := MkCounter (k_cache k1) (k_hits k1) (k_counts k1 + Z.of_nat (length todo)) in
  let! h2 := assign_fitness h1 todo vs in
  match k_cache k2 with
  | None => Ok (h2, k2)
  | Some c =>
      let! rs := cache_records h2 todo in
      let (c', o) := add_values Z dbl Z.eqb rs c in
      let! _ := o in Ok (h2, MkCounter (Some c') (k_hits k2) (k_counts k2))
  end.

(** ** genetic_algorithm.cpp *)

(** genetic_algorithm.cpp:344-354: first individual of greatest fitness. *)
Fixpoint best_of (h : heap) (cur : nat) (rest : list nat) : outcome nat :=
  match rest with
  | [] => Ok cur
  | a :: r => let! fc := fit_of h cur in let! fa := fit_of h a in
              best_of h (if d_ltb fc fa then a else cur) r
  end.

(** genetic_algorithm.cpp:344-360 UpdateBestIndivid. *)
Definition update_best (h : heap) (pop : list nat) (best : nat) : outcome nat :=
  match pop with
  | [] => UB OutOfBounds
  | a :: r =>
      let! cur := best_of h a r in
      let! b := h_get h best in
      if negb (i_has E b) then Ok cur
      else let! fb := get_fitness E b in let! fc := fit_of h cur in
           Ok (if d_ltb fb fc then cur else best)
  end.

(** genetic_algorithm.cpp:366-378: walk through the population until the running sum reaches the drawn value (over any
    arithmetic; the algorithm below runs it in binary64). *)
Fixpoint roulette (N : Num) (x cur : num N) (fits : list (num N)) (i : nat) : outcome nat :=
  match fits with
  | [] => Throw LogicError
  | v :: r => let c := n_add N cur v in if n_leb N x c then Ok i else roulette N x c r (S i)
  end.

(** genetic_algorithm.cpp:362-379 SelectRandomIndividualIndexForCrossover; all fitness values are read before the walk
    (the code reads them one by one). *)
Definition select_index (h : heap) (pop : list nat) (total : dbl) : M nat := fun w =>
  let (r, w') := e_rand E w in
  (let! fits := mapM (fit_of h) pop in roulette FNum (d_mul (base_of FNum (e_rm E) r) total) (d_ofZ 0) fits 0, w').

(** individual.cpp:170-178. *)
Definition set_times (t : Z -> Z) (h : heap) (a : nat) : heap :=
  match nth_error h a with
  | Some i => h_set h a (MkInd E (i_par E i) (i_chr E i) (i_has E i) (i_fit E i) (t (i_times E i)))
  | None => h
  end.

(** genetic_algorithm.cpp:308-331: the do-while loop that makes one pair of children. *)
Fixpoint cross_loop (fuel : nat) (h : heap) (pop : list nat) (total : dbl) : M (heap * (indiv * indiv)) :=
  match fuel with
  | O => wlift (UB OutOfFuel)
  | S k =>
      let* n1 := select_index h pop total in
      let* n2 := select_index h pop total in
      let* a1 := wlift (at_ pop n1) in
      let* a2 := wlift (at_ pop n2) in
      let* p1 := wlift (h_get h a1) in
      let* p2 := wlift (h_get h a2) in
      let* c1 := wlift (ind_copy E p1) in
      let* c2 := wlift (ind_copy E p2) in
      let h2 := set_times (fun t => t + 1) (set_times (fun t => t + 1) h a1) a2 in
      let* r := ind_crossover E c1 c2 in
      if snd r then wret (h2, fst r) else cross_loop k h2 pop total
  end.

(** genetic_algorithm.cpp:295-336: the loop over pairs; [sorted] is what remains of the sorted population, [ready] is
    elitism_ready. *)
Fixpoint next_pairs (elit : Z) (pop : list nat) (total : dbl) (sorted : list nat) (ready : Z) (h : heap)
  : M (heap * list nat) :=
  match sorted with
  | [] => wret (h, [])
  | [_] => wlift (UB OutOfBounds)
  | a :: b :: r =>
      if ready <? elit then
        let* ia := wlift (h_get h a) in let* ca := wlift (ind_copy E ia) in
        let (h1, x) := h_new h ca in
        let* ib := wlift (h_get h1 b) in let* cb := wlift (ind_copy E ib) in
        let (h2, y) := h_new h1 cb in
        let* rest := next_pairs elit pop total r (ready + 1) h2 in
        wret (fst rest, x :: y :: snd rest)
      else
        let* c := cross_loop (e_fuel E) h pop total in
        let (h1, x) := h_new (fst c) (fst (snd c)) in
        let (h2, y) := h_new h1 (snd (snd c)) in
        let* rest := next_pairs elit pop total r ready h2 in
        wret (fst rest, x :: y :: snd rest)
  end.

(** genetic_algorithm.cpp:280-342 GenerateNextPopulation; the total is accumulated in population order. *)
Definition generate_next (elit : Z) (h : heap) (pop : list nat) : M (heap * list nat) :=
  let* fits := wlift (mapM (fit_of h) pop) in
  let total := fold_left d_add fits (d_ofZ 0) in
  let h1 := fold_left (set_times (fun _ => 0)) pop h in
  let sorted := map snd (e_sort E (combine fits pop)) in
  next_pairs elit pop total sorted 0 h1.

(** genetic_algorithm.cpp:270-278 Mutate, without the context. *)
Fixpoint mutate_all (h : heap) (pop : list nat) : M heap :=
  match pop with
  | [] => wret h
  | a :: r => let* i := wlift (h_get h a) in
              let* j := ind_mutate E i in
              mutate_all (h_set h a (fst j)) r
  end.
Definition apply_context (n gens : Z) : M unit := fun w => (Ok tt, e_ctx E n gens w).

(** What one generation showed: the population after ObtainFitness, and best_individ_ after UpdateBestIndivid.
    (Ghost output of the model.) *)
Record snap : Type := MkSnap { sn_pop : list indiv; sn_best : indiv }.

Record gstate : Type := MkG { g_heap : heap; g_pop : list nat; g_best : nat; g_counter : counter }.

(** genetic_algorithm.cpp:239-268 RunIterationsAndSetBestIndivid, from generation [n] on, [left] generations left. *)
Fixpoint run_generations (cfg : ga_cfg) (left : nat) (n : Z) (s : gstate) : M (gstate * list snap) :=
  match left with
  | O => wret (s, [])
  | S left' =>
      let* x := wlift (obtain_fitness (g_heap s) (g_counter s) (g_pop s)) in
      let (h1, k1) := x in
      let* best := wlift (update_best h1 (g_pop s) (g_best s)) in
      let* is := wlift (mapM (h_get h1) (g_pop s)) in
      let* b := wlift (h_get h1 best) in
      let k2 := MkCounter (k_cache k1) 0 (k_counts k1) in
      let* fb := wlift (get_fitness E b) in
      if d_leb (cf_stop cfg) fb then wret (MkG h1 (g_pop s) best k2, [MkSnap is b])
      else
        let* y := generate_next (cf_elit cfg) h1 (g_pop s) in
        let* _ := apply_context n (cf_gens cfg) in
        let* h3 := mutate_all (fst y) (snd y) in
        let* z := run_generations cfg left' (n + 1) (MkG h3 (snd y) best k2) in
        wret (fst z, MkSnap is b :: snd z)
  end.

(** genetic_algorithm.cpp:194-207, no initial parameters. *)
Fixpoint init_random (n : nat) (p : e_par E) (h : heap) : M (heap * list nat) :=
  match n with
  | O => wret (h, [])
  | S k => let* i := wlift (ind_new E p) in
           let* r := set_random E i in
           let (h1, a) := h_new h (fst r) in
           let* rest := init_random k p h1 in wret (fst rest, a :: snd rest)
  end.
(** genetic_algorithm.cpp:194-207, with initial parameters. *)
Fixpoint init_given (ps : list (e_par E)) (h : heap) : M (heap * list nat) :=
  match ps with
  | [] => wret (h, [])
  | p :: r => let* i := wlift (ind_new E p) in
              let (h1, a) := h_new h i in
              let* rest := init_given r h1 in wret (fst rest, a :: snd rest)
  end.

(** typeid comparison and HasSameMetaParameters, initial parameters first. *)
Variable same_type : e_par E -> e_par E -> bool.
Variable same_meta : e_par E -> e_par E -> outcome bool.

(** genetic_algorithm.cpp:211-237 ValidateInitialParameters, after the size check. *)
Fixpoint validate_initial (ps : list (e_par E)) (p : e_par E) : outcome unit :=
  match ps with
  | [] => Ok tt
  | q :: r => if negb (same_type q p) then Throw InvalidArgument
              else let! b := same_meta q p in
                   if (b : bool) then validate_initial r p else Throw InvalidArgument
  end.

(** genetic_algorithm.cpp:145-155 SetInitialParameters: the first population_size entries are cloned; a shorter vector
    is read out of bounds. *)
Definition set_initial (cfg : ga_cfg) (ps : list (e_par E)) : outcome (list (e_par E)) :=
  mapM (fun n => let! q := at_ ps n in e_cln E q) (seq 0 (cf_pop cfg)).

(** genetic_algorithm.cpp:184-209 Initialize: heap, population, best. *)
Definition ga_initialize (cfg : ga_cfg) (initial : option (list (e_par E))) (p : e_par E)
  : M (heap * list nat * nat) :=
  let* x := (match initial with
             | None => init_random (cf_pop cfg) p []
             | Some ps =>
                 if negb (Nat.eqb (length ps) (cf_pop cfg)) then wlift (Throw InvalidArgument)
                 else let* _ := wlift (validate_initial ps p) in init_given ps []
             end) in
  let* b := wlift (ind_new E p) in
  let (h, best) := h_new (fst x) b in
  wret (h, snd x, best).

(** genetic_algorithm.cpp:447-459 and 473-500: overwrite the individuals of the population with the file's. *)
Fixpoint store_all (h : heap) (pop : list nat) (is : list indiv) : heap :=
  match pop, is with
  | a :: r, i :: ir => store_all (h_set h a i) r ir
  | _, _ => h
  end.
Definition load_file (parse : text -> dbl * text) (h : heap) (pop : list nat) (file : text) : outcome heap :=
  let! is := mapM (h_get h) pop in
  let! js := read_population E parse is file in
  Ok (store_all h pop js).

(** genetic_algorithm.cpp:122-143 Optimize: the new value of *parameters_to_optimize, the generations, the final state.
    [file] is the contents of the population file when a name was given. *)
Definition ga_optimize (cfg : ga_cfg) (initial : option (list (e_par E))) (parse : text -> dbl * text) (file : option text)
    (k : counter) (p : e_par E) (maximize : bool) : M (e_par E * list snap * gstate) :=
  if negb maximize then wlift (Throw InvalidArgument)
  else
    let* x := ga_initialize cfg initial p in
    let '(h, pop, best) := x in
    let* h1 := wlift (match file with None => Ok h | Some t => load_file parse h pop t end) in
    let* z := run_generations cfg (Z.to_nat (cf_gens cfg)) 0 (MkG h1 pop best k) in
    let* b := wlift (h_get (g_heap (fst z)) (g_best (fst z))) in
    let (q, o) := e_dec E p (i_chr E b) in
    let* _ := wlift o in
    wret (q, snd z, fst z).

End GA.
