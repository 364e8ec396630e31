(** Model of the statistics and call-back side of optimization/genetic_algorithm/genetic_algorithm.cpp, of
    generation_statistics.cpp, individual_statistics.h and Individual::get_individual_statistics: the functions of GA.v
    again, with the members invalid_chromosomes_ and population_statistics_ and the call-back. That nothing else differs
    from GA.v is a theorem (C63_unwatched). int counters are unbounded integers here. *)
From Verif Require Import Base Num Random Cache Individual GA.
Local Open Scope Z_scope.
Local Open Scope list_scope.

(** individual_statistics.h:13-29. *)
Record istat : Type := MkIS { st_fitness : dbl; st_times : Z }.

(** list::sort(IndividualStatistics::Greater), genetic_algorithm.cpp:387: stable, by descending times_chosen_for_crossover
    (individual_statistics.h:21-24). *)
Fixpoint stat_insert (x : istat) (l : list istat) : list istat :=
  match l with
  | [] => [x]
  | y :: r => if st_times y >? st_times x then y :: stat_insert x r else x :: l
  end.
Definition stat_sort (l : list istat) : list istat := fold_right stat_insert [] l.

Section Stats.
Variable E : env.
Notation M := (wm (e_w E)).
Notation indiv := (indiv E).
Notation heap := (heap E).

(** generation_statistics.h: what the call-back can read, generation_statistics.cpp:12-31. *)
Record report : Type := MkReport {
  r_average : dbl; r_best : e_par E; r_best_fitness : dbl; r_number : Z; r_hits : Z; r_invalid : Z;
  r_individuals : list istat }.

(** NextGenerationReadyCallback: it may ask for the population to be saved (GenerationStatistics::
    SaveCurrentPopulationToFile, generation_statistics.cpp:54-57, any number of times); it returns the names in order. *)
Definition callback : Type := report -> M (list text).

(** One report with the files written because of it (name, contents). A file that cannot be opened is skipped silently
    (genetic_algorithm.cpp:437-445): the model lists the attempts. *)
Record shown : Type := MkShown { sh_report : report; sh_files : list (text * text) }.
(** What one generation showed: GA.v's ghost output, the call of the call-back if there was one, and the indices of the
    parents tried on the way to the next population, two for each attempt (empty when there was no next population). *)
Record watch : Type := MkWatch { wt_snap : snap E; wt_shown : option shown; wt_chosen : list nat }.

(** individual.cpp:209-217 get_individual_statistics; genetic_algorithm.cpp:421-427 GatherAllIndividualsStatistics. *)
Definition ind_stat (i : indiv) : outcome istat := let! v := get_fitness E i in Ok (MkIS v (i_times E i)).
Definition gather (h : heap) (pop : list nat) : outcome (list istat) := mapM (fun a => let! i := h_get E h a in ind_stat i) pop.

(** genetic_algorithm.cpp:410-419 GetPopulationAveradgeFitness. *)
Definition average_fitness (h : heap) (pop : list nat) : outcome dbl :=
  let! fits := mapM (fit_of E h) pop in Ok (d_div (fold_left d_add fits (d_ofZ 0)) (d_ofZ (Z.of_nat (length pop)))).

(** ostream << double *)
Variable show : dbl -> text.

(** genetic_algorithm.cpp:381-408 ProcessStatistics (best_parameters is cloned, generation_statistics.cpp:22). *)
Definition process_statistics (cb : callback) (h : heap) (pop : list nat) (best : nat) (n hits inv : Z) (ps : list istat) : M shown :=
  let all := stat_sort ps in
  let* avg := wlift (average_fitness h pop) in
  let* b := wlift (h_get E h best) in
  let* fb := wlift (get_fitness E b) in
  let* q := wlift (e_cln E (i_par E b)) in
  let r := MkReport avg q fb n hits inv all in
  let* names := cb r in
  let* is := wlift (mapM (h_get E h) pop) in
  let* files := wlift (mapM (fun name => let! t := write_population E show is in Ok (name, t)) names) in
  wret (MkShown r files).

(** genetic_algorithm.cpp:308-331, counting the failures, with the indices chosen. *)
Fixpoint cross_loop_s (fuel : nat) (h : heap) (pop : list nat) (total : dbl) (inv : Z) : M (heap * (indiv * indiv) * Z * list nat) :=
  match fuel with
  | O => wlift (UB OutOfFuel)
  | S k =>
      let* n1 := select_index E h pop total in
      let* n2 := select_index E h pop total in
      let* a1 := wlift (at_ pop n1) in
      let* a2 := wlift (at_ pop n2) in
      let* p1 := wlift (h_get E h a1) in
      let* p2 := wlift (h_get E h a2) in
      let* c1 := wlift (ind_copy E p1) in
      let* c2 := wlift (ind_copy E p2) in
      let h2 := set_times E (fun t => t + 1) (set_times E (fun t => t + 1) h a1) a2 in
      let* r := ind_crossover E c1 c2 in
      if snd r then wret (h2, fst r, inv, [n1; n2])
      else let* x := cross_loop_s k h2 pop total (inv + 1) in
           wret (fst (fst (fst x)), snd (fst (fst x)), snd (fst x), n1 :: n2 :: snd x)
  end.

(** genetic_algorithm.cpp:295-336. *)
Fixpoint next_pairs_s (elit : Z) (pop : list nat) (total : dbl) (sorted : list nat) (ready : Z) (h : heap) (inv : Z)
  : M (heap * list nat * Z * list nat) :=
  match sorted with
  | [] => wret (h, [], inv, [])
  | [_] => wlift (UB OutOfBounds)
  | a :: b :: r =>
      if ready <? elit then
        let* ia := wlift (h_get E h a) in let* ca := wlift (ind_copy E ia) in
        let (h1, x) := h_new E h ca in
        let* ib := wlift (h_get E h1 b) in let* cb := wlift (ind_copy E ib) in
        let (h2, y) := h_new E h1 cb in
        let* rest := next_pairs_s elit pop total r (ready + 1) h2 inv in
        wret (fst (fst (fst rest)), x :: y :: snd (fst (fst rest)), snd (fst rest), snd rest)
      else
        let* c := cross_loop_s (e_fuel E) h pop total inv in
        let (h1, x) := h_new E (fst (fst (fst c))) (fst (snd (fst (fst c)))) in
        let (h2, y) := h_new E h1 (snd (snd (fst (fst c)))) in
        let* rest := next_pairs_s elit pop total r ready h2 (snd (fst c)) in
        wret (fst (fst (fst rest)), x :: y :: snd (fst (fst rest)), snd (fst rest), snd c ++ snd rest)
  end.

(** genetic_algorithm.cpp:280-342 GenerateNextPopulation: heap, next population, invalid_chromosomes_, indices chosen,
    population_statistics_ (of the population that is replaced, line 339). *)
Definition generate_next_s (elit : Z) (h : heap) (pop : list nat) (inv : Z) : M (heap * list nat * Z * list nat * list istat) :=
  let* fits := wlift (mapM (fit_of E h) pop) in
  let total := fold_left d_add fits (d_ofZ 0) in
  let h1 := fold_left (set_times E (fun _ => 0)) pop h in
  let sorted := map snd (e_sort E (combine fits pop)) in
  let* x := next_pairs_s elit pop total sorted 0 h1 inv in
  let* ps := wlift (gather (fst (fst (fst x))) pop) in
  wret (x, ps).

(** genetic_algorithm.cpp:274-277. *)
Fixpoint mutate_all_s (h : heap) (pop : list nat) (inv : Z) : M (heap * Z) :=
  match pop with
  | [] => wret (h, inv)
  | a :: r => let* i := wlift (h_get E h a) in
              let* j := ind_mutate E i in
              mutate_all_s (h_set E h a (fst j)) r (inv + Z.of_nat (snd j))
  end.

Variable hash : list bool -> Z.
Variable f : e_par E -> outcome dbl.
Variable cb : option callback.

(** genetic_algorithm.cpp:239-268 RunIterationsAndSetBestIndivid. *)
Fixpoint run_watched (cfg : ga_cfg) (left : nat) (n : Z) (s : gstate E) (inv : Z) (ps : list istat) : M (gstate E * Z * list watch) :=
  match left with
  | O => wret (s, inv, [])
  | S left' =>
      let* x := wlift (obtain_fitness E hash f (g_heap E s) (g_counter E s) (g_pop E s)) in
      let (h1, k1) := x in
      let* best := wlift (update_best E h1 (g_pop E s) (g_best E s)) in
      let* is := wlift (mapM (h_get E h1) (g_pop E s)) in
      let* b := wlift (h_get E h1 best) in
      let* sh := match cb with
                 | None => wret None
                 | Some c => let* r := process_statistics c h1 (g_pop E s) best n (k_hits k1) inv ps in wret (Some r)
                 end in
      let k2 := MkCounter (k_cache k1) 0 (k_counts k1) in
      let* fb := wlift (get_fitness E b) in
      if d_leb (cf_stop cfg) fb then wret (MkG E h1 (g_pop E s) best k2, 0, [MkWatch (MkSnap E is b) sh []])
      else
        let* y := generate_next_s (cf_elit cfg) h1 (g_pop E s) 0 in
        let '(h2, np, inv2, chosen, ps2) := y in
        let* _ := apply_context E n (cf_gens cfg) in
        let* m := mutate_all_s h2 np inv2 in
        let* z := run_watched cfg left' (n + 1) (MkG E (fst m) np best k2) (snd m) ps2 in
        wret (fst z, MkWatch (MkSnap E is b) sh chosen :: snd z)
  end.

(** genetic_algorithm.cpp:194-207, no initial parameters. *)
Fixpoint init_random_s (n : nat) (p : e_par E) (h : heap) (inv : Z) : M (heap * list nat * Z) :=
  match n with
  | O => wret (h, [], inv)
  | S k => let* i := wlift (ind_new E p) in
           let* r := set_random E i in
           let (h1, a) := h_new E h (fst r) in
           let* rest := init_random_s k p h1 (inv + Z.of_nat (snd r)) in
           wret (fst (fst rest), a :: snd (fst rest), snd rest)
  end.

Variable same_type : e_par E -> e_par E -> bool.
Variable same_meta : e_par E -> e_par E -> outcome bool.

(** genetic_algorithm.cpp:184-209 Initialize; population_statistics_ is value-initialised (line 187). *)
Definition ga_initialize_s (cfg : ga_cfg) (initial : option (list (e_par E))) (p : e_par E) (inv : Z)
  : M (heap * list nat * nat * Z * list istat) :=
  let* x := (match initial with
             | None => init_random_s (cf_pop cfg) p [] inv
             | Some ps =>
                 if negb (Nat.eqb (length ps) (cf_pop cfg)) then wlift (Throw InvalidArgument)
                 else let* _ := wlift (validate_initial E same_type same_meta ps p) in
                      let* y := init_given E ps [] in wret (y, inv)
             end) in
  let* b := wlift (ind_new E p) in
  let (h, best) := h_new E (fst (fst x)) b in
  wret (h, snd (fst x), best, snd x, repeat (MkIS (d_ofZ 0) 0) (cf_pop cfg)).

(** genetic_algorithm.cpp:122-143 Optimize: as in GA.v, with invalid_chromosomes_ before ([inv]) and after, and what was
    shown. Reading a file replaces the statistics (line 499). *)
Definition ga_watched (cfg : ga_cfg) (initial : option (list (e_par E))) (parse : text -> dbl * text) (file : option text)
    (k : counter) (inv : Z) (p : e_par E) (maximize : bool) : M (e_par E * list watch * gstate E * Z) :=
  if negb maximize then wlift (Throw InvalidArgument)
  else
    let* x := ga_initialize_s cfg initial p inv in
    let '(h, pop, best, inv0, ps0) := x in
    let* h1 := wlift (match file with None => Ok h | Some t => load_file E parse h pop t end) in
    let* ps1 := wlift (match file with None => Ok ps0 | Some _ => gather h1 pop end) in
    let* z := run_watched cfg (Z.to_nat (cf_gens cfg)) 0 (MkG E h1 pop best k) inv0 ps1 in
    let s := fst (fst z) in
    let* b := wlift (h_get E (g_heap E s) (g_best E s)) in
    let (q, o) := e_dec E p (i_chr E b) in
    let* _ := wlift o in
    wret (q, snd z, s, snd (fst z)).
End Stats.
