# Formal model of k52 in Rocq (Coq 8.16.1)

## 1. Conventions of the model

* One Gallina definition per C++ function (or loop body), with a comment citing `file:lines` in `/repo`.
* `outcome A = Ok a | Throw e | UB u` (`Base.v`): an exception and undefined behaviour are distinct results. Signed
  32-bit overflow, shifts by >= 32, division by zero, float-to-int conversion out of range, out-of-bounds `[]` and
  dereference of null are `UB`. Loops the program does not bound run on fuel and return `UB OutOfFuel` when it is used up;
  theorems about such loops either prove that some fuel suffices (termination), prove that none does (non-termination), or
  hold for every fuel (then they speak about the runs that end).
* Objects are immutable records; a mutating method returns the new object together with the outcome, so the state left
  behind by an exception is visible.
* `rand()` is an explicit stream of results with values in `[0, RAND_MAX]`; `RAND_MAX` is a parameter where it matters.
* `double`: arithmetic code is written once over a record `Num` of operations (`Num.v`; `MNum` adds sqrt and abs, `TNum` the
  functions of `<cmath>`) and instantiated twice: `RNum` (exact real arithmetic, the ideal reading) and `FNum` (bit-exact
  IEEE binary64: Flocq's `BinarySingleNaN.binary_float 53 1024`, round to nearest even, with NaN, infinities and signed
  zeros). Each theorem says in its statement which arithmetic it is about: an arbitrary `N : Num` (any arithmetic), `RNum` or
  `FNum`. "Exact arithmetic" theorems say nothing about rounding; where rounding breaks the property a separate `_refuted`
  theorem at `FNum` exhibits it.
* Concurrency (thread queue, thread pool, MPI pool): small-step transition systems; properties are invariants of every
  reachable state, plus well-founded measures (runs are finite) and progress (no deadlock) for termination.
* Searches of the continuous optimisers are programs in a free monad (`Optim.v`: `Ret | Ask | Fail | Undef`), so that
  theorems can speak about every objective function, including throwing ones, and about the points asked.
* A theorem whose name ends in `_refuted` proves that the property a user would expect is false, by a universally quantified
  statement or a concrete counterexample that the kernel computes.
* Beside the theorems, `Example`s (`*_witness`, `*_run`, ...) show concrete, non-trivial cases that meet the hypotheses.

## 2. Files (rocq/theories)

| model | proofs and theorems | C++ sources |
|---|---|---|
| Base.v, Num.v, DblOrder.v | | outcomes, arithmetic records, order of binary64 |
| Params.v, ParamsSpec.v | IntProofs.v, PropIntParam.v, DoubleProofs.v, FloatLemmas.v, FDoubleProofs.v, ArrayProofs.v, CompositeProofs.v, PropParams.v | optimization/params/*.cpp, initialization_checker.cpp, chromosome.h |
| Heap.v, HeapSpec.v | HeapProofs.v, PropHeap.v | the same files and i_cloneable.h: objects with identity, for Clone |
| Random.v | PropRandom.v | common/random.cpp, random.h |
| Cache.v | CacheProofs.v, PropCache.v | common/cache.h, stored_value.h |
| Mutators.v | PropMutators.v | genetic_algorithm/gen_mutator_base.cpp, flip_bit_mutator.cpp, linear_mutator.cpp |
| Individual.v, LibEnv.v | PropIndividual.v, PropText.v | genetic_algorithm/individual.cpp |
| GA.v | CounterProofs.v, GAProofs.v, GAInit.v, PropGA.v, PropSelect.v, PropGATrace.v, PropInitial.v | genetic_algorithm/genetic_algorithm.cpp, objective_function_counter.cpp |
| GAStats.v | PropGAStats.v | the call-back and statistics side of genetic_algorithm.cpp, generation_statistics.cpp, individual_statistics.h |
| Misc.v | PropMisc.v | common/floating_point.cpp, simple_/optimization_parameters_processor.cpp, optimization_task.cpp (Perform), parallel/mpi/delay_supplier.cpp |
| Settings.v | PropSettings.v | common/settings_manager.h |
| Parallel.v | PropParallel.v | parallel/sequential_worker_pool.cpp, statistics_aggregator.cpp, worker_statistics.cpp, worker_pool_factory.cpp, mpi/identifyable_objects_manager.cpp |
| Queue.v | PropQueue.v | parallel/thread/thread_safe_queue.h |
| Pool.v | PropPool.v | parallel/thread/thread_worker_pool*.{h,cpp}, worker.h |
| Mpi.v | PropMpi.v | parallel/mpi/mpi_worker_pool.cpp, async_call_chain.cpp |
| Optim.v | PropOptim.v | optimization/continuous_optimizer.cpp, continuous_objective_function.cpp, params/continuous_parameters_array.cpp |
| Hooke.v, Searches.v, Annealing.v, NelderMead.v, Rosenbrock.v, Gradient.v | PropHooke.v, PropHookeRun.v, PropSearches.v, PropAnnealing.v, PropNelderMead.v, PropNMBounds.v, PropNMPass.v, PropRosenbrock.v, PropRosenProcess.v, PropGradient.v, PropSteepest.v, PropGradientProcess.v | the optimisers of the same names (grid_search, random_search, simulated_annealing, bounded_nelder_mead, hleborodov_rosenbrock_method, conjugate_gradient_method, steepest_descent_method, hooke_jeeves_method) |
| GAPool.v | PropGAPool.v | objective_function_counter.cpp:29-66, simple_ and optimization_parameters_processor.cpp as clients of the pools (thread, sequential, MPI) |
| LockPool.v | PropLockPool.v | the same loops as Pool.v on the lock-level queues (parallel/thread/*.h, *.cpp) |
| Pool.v, Queue.v, Mpi.v, PoolStop.v, LockPool.v, FftShared.v | PropSchedules.v | runs are exactly the finite schedules; bounds on schedules (C33, C36, C37, C64, C66, C70) |
| MpiLife.v | PropMpiLife.v | mpi_worker_pool.cpp: tasks that cannot be sent or throw, the destructor, exit of the workers (C75) |
| PoolForeign.v | PropPoolForeign.v | worker.h with tasks that throw thread_interrupted or something that is no std::exception (C76) |
| GA.v, Individual.v, Cache.v, Mutators.v, LibEnv.v, Params.v | PropGATotal.v, PropGALibrary.v, PropGAAgain.v | the whole of GeneticAlgorithm::Optimize: it always returns (C79) |
| GA.v | PropGABestCalls.v, PropGABestComposite.v | the same for any number of calls on one object, with initial parameters that survive encoding (C24) |
| GA.v | PropGABest.v | Optimize returns and its result is the best of all evaluated, with no assumption about the run (C24) |
| GA.v, Params.v, LibEnv.v, Examples.v | PropGAExample.v | the program examples/genetic_algorithm; arrays whose values were never set (C80) |
| ArrShared.v | PropArrShared.v | double_parameters_array.cpp: const calls from several threads (C78) |
| GASave.v | PropSave.v | SavePopulationToFile, population files that cannot be opened (C74) |
| Examples.v | PropExamples.v | examples/: test functions, their reported solutions, the tester, the objective of the genetic example (C73) |
| FastWavelet.v, Analytic.v | PropFwtRounding.v | the same code in binary64 (C72) |
| FftShared.v | PropFft.v | dsp/transform/fast_fourier_transform.cpp, its buffers and mutex, with threads |
| Dispatch.v | PropDispatch.v | the overloads on interfaces: optimization/continuous_optimizer.cpp, discrete_optimizer.cpp, *_objective_function.cpp, optimization_task.cpp |
| Dsp.v, Scales.v, Spline.v, FastWavelet.v, Cwt.v, Analytic.v (mathematics: Gauss.v) | PropAnalytic.v, PropDsp.v, RoundError.v, PropRounding.v, PropScales.v, PropSpline.v, PropSplineFloat.v, PropSplineLast.v, PropWaveletFn.v, PropFastWavelet.v, PropCwt.v | dsp/**/*.cpp, common/helpers.cpp, constants.cpp |
| Transfer.v | PropTransfer.v | Send/Receive members of the optimisers, parameters, tasks and results (MPI builds) |

## 3. Properties: what is modelled and how it is proved

(The status, the theorem names and the limits of each are in `MANIFEST.json`; the English statements in `properties.jsonl`.)

* **C01-C03 IntParameter.** `Params.v`: constructors, size computation with 32-bit overflow checks, bit loops. The spec is
  the little-endian value of a bit list (`ParamsSpec.v`). Induction over bit lists; the round trip is an iff, the size is proved
  least, the undefined constructor range is exact. Finding: `max` itself does not survive when max-min is a power of two.
* **C04-C05 DoubleParameter.** Exact arithmetic: construction, quantisation error, round trip. Binary64: decoding always
  passes the constraint check (Flocq rounding lemmas in `FloatLemmas.v`); re-encoding a decoded value can change it (computed).
  PropQuantise.v adds the binary64 error bound of SetValue/GetValue, the bound on the drift of re-encoding (one step down at most), and the
  acceptance of arrays' SetValues away from the maximum.
* **C06-C07 DoubleParametersArray.** Slices by induction over the elements; `SetValues` stores before it validates.
* **C08-C09 Composite and size setting.** Induction over the component list; histories of calls for "size set once"; a second
  composite `Initialize` is proved to break the object; index arithmetic of `GetParameter` modulo 2^64.
* **C10 Clones.** Value equality in `PropParams.v`. Independence: `Heap.v` models the classes as heap objects with pointers
  (DoubleParameter -> IntParameter, array -> sample, composite -> components); `HeapSpec.v` is a list of separate values;
  a footprint relation (`HeapProofs.v`) gives a simulation, so every history of calls has the results of the value semantics
  (`C10_value_semantics`), from which independence and equality of clones follow. Outside: Initialize with arguments that belong
  to the object itself, and a second Initialize with an argument that cannot be cloned (both are undefined in the specification).
* **C11-C14 Random.** Functions of the `rand()` stream; ranges for every stream, onto-ness, binary64 counterexample for the
  upper bound; `GetRandomBool` consumes every bit once; the constructor overflows with glibc's RAND_MAX.
* **C15-C16 Cache.** Association list with hit flags; invariant over every history; refinement to "last stored value".
* **C17-C19 Mutators.** Decision lists; the gap structure of FlipBitMutator over the whole gene stream; interpolation of
  LinearMutator in exact arithmetic, binary64 failure in the last generation.
* **C20-C22 Individual.** Crossover, in-step invariant over histories for every parameter class satisfying the interface laws
  (`LibEnv.v` instantiates them with the library's classes), text round trip over character lists.
* **C23-C28, C60 Genetic algorithm.** Whole `Optimize` as a function of the random stream and the objective function:
  invariants over generations; best-ever; elitism; roulette with monotonicity of binary64 rounding; evaluation counter with
  cache and worker pool; initial parameters.
* **C29 Parameter processors, C57 AreEqual, C58 DelaySupplier.** Folds over binary64 values, all doubles.
* **C30-C31 Settings.** Property trees as nested lists, paths as fragment lists; theorems over all trees and command lines.
* **C32-C35 Pools.** Sequential pool with tasks that act on a world; thread pool transition system with any number of workers,
  tasks and callers, `k_sent/k_taken` counting invariants, well-founded measure; throwing tasks; concurrent callers.
* **C36 Queue.** Mutex/condition-variable level transition system with spurious wake-ups; linearisability as a refinement to a
  sequential FIFO, mutual exclusion, no lost wake-up, finite runs.
* **C37-C38 MPI.** Transition system of master and workers with FIFO channels; async call chains as step functions.
* **C39-C41** statistics, factory, registry: maps over histories.
* **C19, C42, C51 in binary64 (PropBinary64.v).** Rounding analysis with Flocq of the mutation probability, of the grid coordinates and of the
  linear scale: error bounds, monotonicity and exact first value for all finite doubles in the stated ranges; and where the exact-arithmetic
  property fails in doubles, a computed counterexample.
* **C42-C47, C59, C61-C62 continuous optimisers.** See Optim.v above. Grid enumeration (mixed radix digits), best sample, visits of
  the annealing, never-worse for Hooke-Jeeves and its run as an explicit process, geometry, termination, bounds and the run as a relation for Nelder-Mead, Gram-Schmidt in Rosenbrock, n-step
  convergence of conjugate gradients on strictly convex quadratics, bracketing and termination of the golden section.
* **C48-C50, C53 transforms.** Finite complex sums (roots of unity), exact arithmetic; FFTW is external: where it is used its
  result is an arbitrary function, or assumed to be the DFT in the hypothesis of `C53_transform`.
* **C51, C52, C54, C55** scales, Akima spline, wavelets, windows: list functions; spline smoothness with Coquelicot derivatives. The spline is also
  proved for binary64: ranges of every intermediate value (PropSplineFloat.v), a weighted rounding analysis of the last piece (PropSplineLast.v).
* **C64 destruction of the pool.** PoolStop.v refines Pool.v: a worker's complete loop with boost's interruption flag, and the
  destructor's two loops, started at any moment. A decreasing measure bounds every run, an invariant on the flags shows that a run cannot
  stop before the destructor returned; `C64_refines` maps runs to runs of Pool.v; a task that swallows the interruption is the counterexample.
* **C65 analytic wavelets.** Analytic.v (Mexican hat, Morlet) and Spline.v (Haar) in exact arithmetic; Gauss.v proves the Gaussian integral
  (differentiation under the integral sign) and its cosine transform, from which means and energies over the whole line follow.
* **C67 pools and optimisers.** GAPool.v: a `session` is a sequence of DoTasks calls of one client on the lock-level pool of LockPool.v (or the sequential
  or MPI pool), each begun after the one before has returned; the genetic algorithm and the processors are written once more with the answers of the
  pool as an input and the batches as an output. Proved: every answer of every session is the vector of values (C67_*_answers, from C66 and C37), every
  session with a worker and no throwing task goes on to the next answer, and with such answers the algorithms are those of GA.v and Misc.v, both ways.
* **C68 Rosenbrock process.** The specification (PropRosenProcess.v: `stage`, `turned`, `visits`) is written on plain lists of reals; `turned` describes
  Gram-Schmidt by its QR property, proved to determine the basis. The run of Optimize on an array is shown to be such a sequence, evaluations included.
* **C69 rounding errors.** The definitions of Dsp.v are run in `FMath` (binary64). RoundError.v: one rounding is off by u|x|+eta (Flocq); a sum of n
  complex products by ((1+u)^(n+2)-1) times the sum of the absolute values, by induction with a no-overflow side condition. PropRounding.v: the argument
  of `exp` in the Fourier sum is off by 32 N u, cis is 1-Lipschitz, cos and sin are off by eps (hypothesis `libm`, met by C69_libm). Inverse, round trip
  and Fourier-based convolution are proved for any transform object that is `accurate N D`; the exact identities come from C49 and C50.
* **C70 transform objects and threads.** FftShared.v: threads run programs of Create/Transform/Destroy; a step is one lock, one copied element, the
  execution of the plan or one element read. An invariant per thread (the part of the buffer already written is the argument's) gives C70_private and a
  decreasing cost gives C70_bounded; mutual exclusion by the usual lock invariant; C70_shared builds the bad schedule, for any inputs and split point.
* **C71 interfaces.** Dispatch.v models what a pointer or reference to an interface may refer to, and each dynamic_cast by a match on it; the typed call is that
  of Optim.v (C41). Effects (outcome, parameters afterwards, evaluations in order) are compared; nested searches by induction over their points.
* **C72 fast wavelet transform in double precision.** PropFwtRounding.v composes C69: sampling points are exact, division by the scale and std::sqrt are off by
  one rounding (Flocq), the wavelet is any function computed within ep on a range and Lipschitz; the samples feed C69_fourier_convolution_error; caches by C53.
  Morlet and Mexican hat: the rounding of t^2/2 is relative, so that exp(-x) times it stays below one rounding (x exp(-x) <= 1); overflow of (t/3)^2 gives the NaN.
* **C74 population files.** GASave.v, PropSave.v. Run invariant: after the last generation either every individual has fitness (stop criterion) or none has
  (Mutate drops it); with C22_population_roundtrip for the run that reads the file.
* **C75 life of the MPI pool.** MpiLife.v adds to the steps of Mpi.v the refusal of a task, the death of a worker, the end of work and the exit; every run projects
  to one of Mpi.v (C75_dispatch), so that C37's invariant applies; a second invariant ties dead and exited ranks to their channels; a measure bounds the steps.
* **C76 foreign exceptions in the thread pool.** PoolForeign.v adds to the steps of Pool.v a worker that leaves with its task and the end of the process; runs project to Pool.v
  with those tasks as throwing ones, whose invariant then gives the theorems; termination by the measure of C33.
* **C77 rounds of the gradient methods.** PropGradientProcess.v states the rounds as two inductive relations over plain lists of reals and shows that a run of the model
  ends with a result exactly when the relation has it (soundness by induction on the fuel, completeness by monotony in the fuel); both relations are functional.
* **C78 const calls from several threads.** ArrShared.v makes each statement that uses the sample parameter one step of a thread; a schedule is a list of thread numbers. Objects that
  differ in the sample's value only give the same answers, hence a thread invariant with the results still to come (private objects) and one with the element last put
  into the sample (shared objects); the wrong results are reached by an explicit schedule built by induction on the elements.
* **C79 the genetic algorithm always finishes.** PropGATotal.v goes through Optimize forwards with the invariant that all individuals are decodable, fitnesses are finite and in
  [0, 2^990] (so no sum of a generation overflows in binary64), the counter has room and the world is lawful; each retry loop accepts its first candidate. The assumptions on the
  parameters class and the mutator are one record, tame; PropGALibrary.v shows the library's classes meet it,
  PropGAAgain.v chains calls on one object (the cache's room is used up call by call). The refutation runs the retry loop on a generator that always gives 0.
* **C80 the bundled genetic example.** PropGAExample.v applies C79 to main() of examples/genetic_algorithm.cpp with its literals as doubles; Coq computes the number of genes (20) of the array and the
  interval of the mutator, the rest is proved from C07, C73 and the rounding bounds. Zeros of a new array are quantised by Initialize: defined up to 2^30 quanta, undefined from 2^31 + 1 quanta.
* **C73 bundled examples.** Examples.v, PropExamples.v. No double squares to a value nearer to 2 than 2^-51 (the two doubles around the square root are
  exhibited and no double lies between them), hence 1/|x*x-2| is finite, at most 2^51, and largest at M_SQRT2. Sums of nonnegative doubles are bounded by multiples
  of a power of two, which are doubles. The last function is refuted as a minimum over the reals at 3*PI/8 + k*PI/2. The tester is a fold over objects with state.
* **C66 pool on its real queues.** LockPool.v composes the loops of Pool.v with two instances of the lock-level queue of Queue.v, each thread being
  a thread of both queues; forward simulation to Pool.v (the commit point is the push_back/pop_front under the lock), backward realisation by
  running every operation uninterrupted, deadlock freedom from the queue invariant, termination by a measure. It justifies the atomic
  queues assumed in C33-C35.
* **C63 call-back.** GAStats.v runs GA.v's functions again with the counters, the statistics and the call-back; `C63_unwatched` shows
  by simulation that nothing else differs. Reports are described by an induction over the generations; the invalid counts are tied to
  the calls of the random number generator and the mutator through a record of those calls kept by the environment.
* **C56 Transfer.** Messages between two ranks as a list of typed items; a receive of the wrong type is undefined.

## 4. Trusted base

* Coq's kernel (8.16.1), including `vm_compute`'s conversion (used for computed examples and binary64 counterexamples).
* The axioms listed by `Print Assumptions`: for each theorem see `ASSUMPTIONS.md` (generated by `tools/assumptions.py`). Only
  axioms of Coq's standard library occur: `sig_forall_dec`, `sig_not_dec` (construction of the reals),
  `functional_extensionality_dep`, `classic`. About 40% of the theorems are closed under the global context. The model declares no
  axioms, no parameters, no module types or functors; sections close over their variables, which appear as arguments or
  hypotheses in the theorem statements.
* Flocq's definition of binary64 arithmetic as the meaning of `double` (SSE2, round to nearest; no x87 excess precision, no
  `-ffast-math`, no fused multiply-add contraction).
* The reading of the C++ source, recorded in the comments. Nothing is extracted and the C++ is not executed.

## 5. Not modelled

* Of `/repo/examples`: the two main functions and the parameters they construct (the functions, the tester and the table of solutions are modelled, C73); unit tests, build scripts; console output and plot files (`OutputPolygon`, warnings on `std::cout`).
* Memory allocation failure, `size_t` wrap in loops that would need 2^64 steps, object lifetime/double delete.
* External code: FFTW (arbitrary function or hypothesis), boost::thread/mutex/condition variable (their documented semantics is
  the step relation), boost::mpi and MPI (point-to-point order per tag), boost property_tree's file formats (JSON/XML/INI
  parsers), `std::rand`, libm (`exp`, `pow`, `sin`, `cos`, `log` are parameters or the real functions; `sqrt` is exact as in IEEE),
  decimal printing and parsing of doubles (a parameter with a round-trip hypothesis where needed).
* What the MPI run time does to the other processes when one dies (C75: they go on); an MPI pool used again after a DoTasks that threw.
* Data races in user supplied objective functions.

## 6. Findings (proved as theorems)

IntParameter(min,max) cannot encode max when max-min is a power of two (C01). DoubleParameter in binary64 drifts when a decoded
value is encoded again (C05). SetValues accepts values out of bounds by less than the precision, and stores before it validates (C07).
DoubleParameter(0.2, -0.1, 0.2, 0.01) does not satisfy its own CheckConstraints, and an array with these bounds rejects the value 0.2 (C04).
A second Initialize of a composite leaves a broken object; GetParameter(SIZE_MAX) reads out of bounds (C08, C09). The Random
constructor overflows with RAND_MAX = 2^31-1 (C14); continuous values can exceed max in binary64 (C12). The cache grows by queries
and can refuse every later insertion for ever (C16). FlipBitMutator(0) is undefined (C18). LinearMutator throws in the last
generation for some arguments in binary64, and is NaN for one generation (C19). An individual may disagree with its chromosome after
Initialize (C21). An empty chromosome does not survive the text round trip, nor does an infinite fitness, which can make a written population file unreadable (C22). SavePopulationToFile after an Optimize that used up its generations always throws (C74). The best individual is lost or unchecked with
user supplied initial parameters (C24, C25, C60); the result of one Optimize on a DoubleParametersArray, given to SetInitialParameters, enters the next population under the
chromosome of another value (C24_array_survives_refuted), while integer, double and composite results keep theirs (C24_decoded_survives). Elites are mutated (C26). An infinite fitness can make the roulette throw (C27).
Colliding cache keys or a changed objective function give stale fitness (C28). Minimising processors pick NaN (C29). Dotted keys
break settings merges (C31). A throwing task hangs the thread pool, concurrent callers get null results (C34, C35).
A task that throws in an MPI worker makes DoTasks wait for ever; one that is no IMpiTask makes it throw, losing all results and leaving receives pending (C75).
A task that throws boost::thread_interrupted silently ends its worker thread and hangs the pool; any other foreign exception ends the process (C76).
The conjugate gradient method can return the greatest point when asked to minimise; steepest descent drops its last move (C77).
The genetic algorithm retries until an individual satisfies the constraints, so an object with chromosomes that decode to invalid values, e.g. IntParameter(0,0,5), can keep it busy for ever (C79).
A new DoubleParametersArray holds zeros, which Individual::Initialize quantises before anything was set: with bounds far from zero, e.g. DoubleParametersArray(2^40, 2^40 + 4, 1, n), the conversion to int is undefined (C80).
CheckConstraints and SetChromosome of a DoubleParametersArray are const but not safe to call from two threads: CheckConstraints can accept bad values, SetChromosome can write any mixture of elements (C78).
CreateBestWorkerPool throws when hardware_concurrency() is 0 (C40). The grid point count wraps modulo 2^64, and the grid 0..0.3 step 0.1
misses 0.3 while the grid -1..0.1 step 0.01 ends above 0.1 (C42). Annealing may
return a worse point than it visited (C44). Hooke-Jeeves' iteration limit does not bound the work (C45). Nelder-Mead returns the worst
vertex, remembers polygons between runs, and asks for points outside of its bounds when the start has no room for an edge (C46). Rosenbrock may return a worse point than the start, and the step clamp is
exceeded in binary64 (C47). LinearScale accepts NaN and misses max in binary64; LogarithmicScale overflows or is all zero (C51). Akima
Value(NaN) reads out of bounds, in double precision the spline misses its last training value by rounding, and large finite values make
it NaN at its own points (C52). Haar(NaN) is 1+i; spline wavelets can throw at the end of their support (C54). Fast wavelet
transforms can throw because of their cache (C53). CWT never ends for step 0, returns one window for negative steps, reads out of
bounds when max_lenght is changed (C55). Transfers lose the IntParameter maximum, bounds, function state, and may change arrays
(C56). AreEqual is not transitive (C57). Conjugate gradient: limits 0 and 1 are no limits, a stationary start throws or never ends,
linear functions give NaN (C61). Steepest descent returns the point before its last step, and never ends on constant functions (C62).
The genetic algorithm's statistics of individuals are those of the population before (zeros in the first report), the best individual
reported is the best so far, and the count of invalid chromosomes leaks from one Optimize call into the next (C63).
A task that catches boost::thread_interrupted hangs the pool's destructor; calls pending at destruction wait for ever (C64). The Mexican
hat is normalised with pi^(1/4) instead of pi^(-1/4): its energy is pi, not 1; the Morlet function's mean is not zero (C65). The Rosenbrock
method sorts its steps without their directions, and in one dimension tries negative steps backwards after each turn (C68).
A FastFourierTransform used by two threads at a time may return the transform of a mixture of both arguments, although Transform is const
(C70); copies of such an object (implicit copy constructor, owned raw pointer) are deleted twice and are not modelled.
Random search and simulated annealing cannot be nested in a random search: their Clone throws (C71). GridSearch lacks the three-argument Optimize and is abstract.
MhatWaveletFunction returns NaN for finite arguments from 2^514 on, where the function is 0 up to rounding (C72).
DifractionObjectiveFunction::Clone in the bundled example returns a SimpleSquareObjectiveFunction: the clone has 8 at (0,0), the original 2 (C73).
The bundled example reports (0,0) as the minimum of x*sin(4x)+1.1*y*sin(2y), which is unbounded below (C73).
