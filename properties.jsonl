{"id": "C01", "title": "IntParameter value/chromosome round trip", "statement": "For an IntParameter over [min,max] whose construction is defined, writing the current value v to a chromosome of the declared size and reading that chromosome back into a parameter with the same bounds yields v exactly when min <= v < min + 2^GetChromosomeSize(); so every v in [min,max] survives, except v = max when max-min is a power of two (for example IntParameter(0,1), whose chromosome is empty), which is the one value the chromosome cannot represent and which then comes back as min.", "quantifier": "every int min, max and value v in range", "why_tests_cant": "the int range is 2^64 pairs of bounds and the failing values are isolated boundaries", "anchors": ["src/optimization/params/int_parameter.cpp: IntParameter::CountChromosomeSize, SetChromosome, SetFromChromosome, GetIntFromChromosome, SetChromosomeFromInt"]}
{"id": "C02", "title": "IntParameter chromosome size is minimal for max-min and defined exactly on a range", "statement": "Constructing IntParameter(min,max) gives a chromosome size k that is the least k with 2^k >= max-min (0 when max-min <= 1), and the construction executes no undefined behaviour exactly when -2^31 <= max-min <= 2^30; for a wider interval signed overflow happens before a size is returned.", "quantifier": "every pair of 32-bit ints min, max", "why_tests_cant": "needs all 2^64 pairs; overflow is silent when executed", "anchors": ["src/optimization/params/int_parameter.cpp: IntParameter::CountChromosomeSize, Initialize"]}
{"id": "C03", "title": "IntParameter decodes every chromosome of the right size injectively, and rejects other sizes unchanged", "statement": "SetFromChromosome of any bit string of the declared size k sets the value to min + (little-endian value of the bits), which lies in [min, min+2^k-1] (distinct strings give distinct values, and re-encoding returns the same bits); CheckConstraints is then true iff that value is <= max. A chromosome of any other length makes SetChromosome/SetFromChromosome throw invalid_argument and leaves the parameter unchanged.", "quantifier": "every parameter, every bit string of every length", "why_tests_cant": "2^k bit strings for every k", "anchors": ["src/optimization/params/int_parameter.cpp: SetFromChromosome, CheckConstraints", "src/optimization/params/const_chromosome_size_paremeters.cpp: CheckForConstChromosomeSize"]}
{"id": "C04", "title": "DoubleParameter quantises within its actual precision", "statement": "With exact real arithmetic, DoubleParameter(v,min,max,p) with min<max, v in [min,max] and p>0 has actual precision (max-min)/2^k with 0 < actual precision <= p where 2^k is the least power of two >= ceil((max-min)/p); GetValue() then satisfies GetValue() <= v < GetValue() + actual precision and GetValue() in [min,max]. Construction throws invalid_argument exactly when max<=min, v is outside [min,max], or ceil((max-min)/p)<1. In binary64, as the code computes, with magnitudes up to 2^1022 and a width of at least 2^-992: the actual precision is the rounded width over 2^k, at most p(1+2^-52) and more than p/2 unless k=0; after SetValue(v) with v in [min,max], which never fails, GetValue() is finite, at least min, at most max plus the slack 2^-53*(4*(max-min)+max(|min|,|max|)), and v lies in [GetValue() - slack, GetValue() + actual precision + slack). Away from max CheckConstraints() then holds; at max it can fail: DoubleParameter(0.2,-0.1,0.2,0.01) does not satisfy its own constraints.", "quantifier": "every real v,min,max,p; every double v,min,max,p within the stated magnitudes", "why_tests_cant": "continuum of inputs; boundary behaviour at multiples of the precision", "anchors": ["src/optimization/params/double_parameter.cpp: DoubleParameter, GetMaxInt, CountBestMaxInt, SetValue, GetValue"]}
{"id": "C05", "title": "DoubleParameter chromosome round trip in exact arithmetic, and its failure in binary64", "statement": "With exact arithmetic, a value decoded from a chromosome is re-encoded (SetValue(GetValue()) then SetChromosome) to the same chromosome, and every chromosome of the declared size decodes to a value satisfying CheckConstraints; max itself is not representable. In IEEE binary64 arithmetic, as the code computes it, the re-encoding law is false: there are valid parameters and chromosomes whose decoded value re-encodes to a different chromosome. The drift is bounded: if the actual precision exceeds three times the slack of C04, the chromosome after decoding and encoding again is the same or the one whose number is one less.", "quantifier": "every parameter and every chromosome; existence for the binary64 failure", "why_tests_cant": "depends on rounding of each decoded value; failures are sporadic", "anchors": ["src/optimization/params/double_parameter.cpp: SetValue, GetValue, SetChromosome, SetFromChromosome", "src/optimization/params/double_parameters_array.cpp: SetChromosome, SetFromChromosome"]}
{"id": "C06", "title": "DoubleParametersArray encodes element by element", "statement": "For an array of n parameters with per-element size k the chromosome size is n*k; SetFromChromosome sets element i to the value decoded from bits [i*k,(i+1)*k) and SetChromosome writes to bits [i*k,(i+1)*k) the encoding of element i and nothing else; with exact arithmetic encode after decode is the identity on chromosomes. In binary64, values v within [min, max - 2^-51*(max-min)) written to the chromosome by SetChromosome and read by SetFromChromosome into any array with the same bounds come back as values x in [min,max] with x - slack <= v < x + actual precision + slack (slack as in C04).", "quantifier": "every n, k, value vector and chromosome", "why_tests_cant": "unbounded sizes; slice offsets", "anchors": ["src/optimization/params/double_parameters_array.cpp: CountTotalChromosomeSize, SetChromosome, SetFromChromosome"]}
{"id": "C07", "title": "DoubleParametersArray::SetValues validation", "statement": "SetValues with a vector of the wrong length throws and leaves the values unchanged. With a vector of the right length the vector is stored first and then checked: with exact arithmetic the call succeeds iff every element lies strictly between min - actual precision and max + actual precision, so elements outside [min,max] by less than one precision step are accepted; when it throws, the rejected values remain stored. In binary64 every vector of values within [min, max - 2^-51*(max-min)) is accepted and stored; a value equal to max can be rejected (bounds -0.1 and 0.2).", "quantifier": "every array and every value vector", "why_tests_cant": "continuum of inputs near the bounds", "anchors": ["src/optimization/params/double_parameters_array.cpp: SetValues, CheckConstraints"]}
{"id": "C08", "title": "Composite parameters concatenate their components", "statement": "For an initialised CompositeDiscreteParameters the chromosome size is the sum of the component sizes, SetChromosome writes the concatenation of the component encodings in order, SetFromChromosome gives component i exactly its own slice, CheckConstraints is the conjunction of the component checks, and encode/decode round-trips iff it does for every component. GetParameter(i) returns the i-th component as it is now (and SetFromChromosome's effect is visible through it), GetNumberOfParameters their number; an index equal to or above the number is refused with an exception (except SIZE_MAX, whose check wraps and reads out of bounds), and Initialize(sample, n) makes n clones of the sample.", "quantifier": "every list of component parameters and every chromosome", "why_tests_cant": "unbounded numbers and sizes of components", "anchors": ["src/optimization/params/composite_discrete_parameters.cpp: Initialize, SetChromosome, SetFromChromosome, CheckConstraints, CountTotalChromosomeSize, GetParameter, GetNumberOfParameters"]}
{"id": "C09", "title": "Chromosome size is set once and never changes", "statement": "Over any history of calls on a parameter object, after the first successful size setting GetChromosomeSize returns that same size for ever; a second attempt throws logic_error and changes nothing; before it is set every size query or size check throws. For a composite, a second Initialize throws although its components were already replaced, so the object may be left with a size that differs from the sum of its components.", "quantifier": "every sequence of operations", "why_tests_cant": "histories of unbounded length", "anchors": ["src/optimization/params/const_chromosome_size_paremeters.cpp", "src/optimization/params/composite_discrete_parameters.cpp: Initialize", "src/optimization/initialization_checker.cpp"]}
{"id": "C10", "title": "Clones are equal and independent", "statement": "Clone of an Int/Double/array/composite parameter object has the same bounds, size, value and therefore the same chromosome as the original, and no later operation on the clone changes anything observable about the original or vice versa.", "quantifier": "every parameter object and every later sequence of operations on either copy", "why_tests_cant": "aliasing must be excluded for all later histories", "anchors": ["src/optimization/params/int_parameter.cpp: Clone", "src/optimization/params/double_parameter.cpp: Clone", "src/optimization/params/double_parameters_array.cpp: Clone", "src/optimization/params/composite_discrete_parameters.cpp: Clone, Initialize"]}
{"id": "C11", "title": "Random::GetUniformlyDistributedDiscreteRandomQuantity stays in range", "statement": "For min<=max with max-min+1 representable as int, every value returned lies in [min,max], and every value of [min,max] is returned for some rand() value when RAND_MAX >= max-min. For max = min-1 the call divides by zero and for max-min+1 > INT_MAX it overflows (undefined behaviour).", "quantifier": "every min,max and every output of rand()", "why_tests_cant": "all rand() outputs and all bounds", "anchors": ["src/common/random.cpp: GetUniformlyDistributedDiscreteRandomQuantity"]}
{"id": "C12", "title": "Random continuous values stay in range", "statement": "For min<=max (exact arithmetic) every GetContinuousRandomQuantity lies in [min,max], both ends being attained at rand()=0 and rand()=RAND_MAX; the random vector generator gives exactly n such values using n consecutive rand() outputs. In binary64 arithmetic, as executed, the upper bound can be exceeded by rounding.", "quantifier": "every min,max,n and rand() stream", "why_tests_cant": "all rand() streams", "anchors": ["src/common/random.cpp: GetContinuousRandomQuantity, GenerateRandomVector"]}
{"id": "C13", "title": "Random::CheckEventOutcome", "statement": "CheckEventOutcome(p) throws exactly when p<0 or p>1; probability 1 always happens; for 0<=p<1 it happens iff rand()<=p*RAND_MAX, hence probability 0 still happens when rand() returns 0; the outcome is monotone in p for a fixed rand() output. A NaN probability does not throw and never happens.", "quantifier": "every p and rand() output", "why_tests_cant": "all probabilities", "anchors": ["src/common/random.cpp: CheckEventOutcome, ValidateProbability"]}
{"id": "C14", "title": "GetRandomBool uses every bit of each random word exactly once", "statement": "When RAND_MAX+1 is a power of two 2^b with b<=30, the i-th call of GetRandomBool since construction returns the negation of bit (i mod b) of the (i / b)-th random word: each random word supplies its b bits exactly once, in order, and no bit is skipped or reused. With RAND_MAX = 2^31-1 the constructor's doubling loop overflows a signed int.", "quantifier": "every rand() stream and every call index", "why_tests_cant": "unbounded call histories", "anchors": ["src/common/random.cpp: Random, GetRandomBool, GetNextBitFromBoolBase"]}
{"id": "C15", "title": "Cache returns the last stored value", "statement": "Over any history of AddValue, AddValues, IsCached, GetCachedValue on one cache: a successful GetCachedValue(k) returns the value most recently stored for k; IsCached(k) is true iff GetCachedValue(k) would succeed; a value that has been read at least once since it was stored is never evicted.", "quantifier": "every operation history, every key and value", "why_tests_cant": "unbounded histories, eviction at arbitrary moments", "anchors": ["include/k52/common/cache.h: Cache"]}
{"id": "C16", "title": "Cache size limit behaviour", "statement": "Adding fails (runtime_error, nothing stored) exactly when the size limit is exceeded and the entries read since they were stored already exceed it; just before an accepted AddValue the map is within the limit, so it exceeds the limit by at most one entry after AddValue (and by at most the batch after AddValues). IsCached on an unknown key adds an empty entry, so queries alone grow the cache beyond any limit; once the used entries alone exceed the limit, every later add throws for ever.", "quantifier": "every operation history and every limit", "why_tests_cant": "unbounded histories", "anchors": ["include/k52/common/cache.h: ClearCacheUpToLimit, IsSizeLimitExceeded, ClearUnusedCacheValues, IsCached"]}
{"id": "C17", "title": "Gene mutators flip exactly the chosen genes", "statement": "Mutating a chromosome keeps its length; gene i of the result differs from gene i of the input iff the mutator decided to mutate gene i; genes not chosen are untouched; the decisions are taken in gene order.", "quantifier": "every chromosome, mutator and random stream", "why_tests_cant": "all chromosomes and random streams", "anchors": ["src/optimization/genetic_algorithm/gen_mutator_base.cpp: Mutate"]}
{"id": "C18", "title": "FlipBitMutator spaces mutations by bounded random gaps", "statement": "Over the whole stream of genes processed by one FlipBitMutator, across chromosome boundaries, the number of unmutated genes before the first and between two consecutive mutated genes is the random gap drawn at that point and lies in [0, floor(1/p)-1]; hence every window of floor(1/p) consecutive genes contains at least one mutation. Construction throws for p with floor(1/p) <= 1 (so for every p>1/2).", "quantifier": "every stream of chromosomes, every probability, every random stream", "why_tests_cant": "unbounded histories across calls", "anchors": ["src/optimization/genetic_algorithm/flip_bit_mutator.cpp"]}
{"id": "C19", "title": "LinearMutator probability interpolates between its end points", "statement": "For max_generation >= 2 and current generation g in [0,max-1] the mutation probability lies between start and end, equals start at g=0 and end at g=max-1, and is monotone in g; with max_generation = 1 the probability is 0/0 (NaN) and no gene is ever mutated. In binary64 arithmetic, as executed, rounding can push the probability outside [0,1] in the last generation, so that mutation throws. In a run of the genetic algorithm every generation first tells the mutator the generation number and the number of generations, and then lets it mutate, so the probability above is the one used in generation g. Rounding moves it by at most 6*2^-53, keeps it monotone and exact at g=0, and mutation cannot throw when the end probability is at least 6*2^-53 away from 0 and 1.", "quantifier": "every start,end,max_generation,g", "why_tests_cant": "continuum of inputs", "anchors": ["src/optimization/genetic_algorithm/linear_mutator.cpp"]}
{"id": "C20", "title": "Crossover exchanges tails", "statement": "Crossover of two individuals with equally long non-empty chromosomes at the drawn point q keeps the lengths, leaves genes before q alone, and exchanges genes from q on: at every position the pair of genes is preserved up to order; applying it again at q restores the parents; both fitness values are dropped; it reports success iff both children satisfy their constraints. Chromosomes of different size throw invalid_argument, size zero divides by zero.", "quantifier": "every pair of chromosomes and crossover point", "why_tests_cant": "2^(2n) chromosome pairs", "anchors": ["src/optimization/genetic_algorithm/individual.cpp: Crossover, BoolCrossover"]}
{"id": "C21", "title": "Individual chromosome and parameters stay in step", "statement": "After any sequence of successful SetRandomChromosome, Crossover, Mutate, copy and read operations, the individual's parameters are exactly those decoded from its chromosome; after SetRandomChromosome and Mutate they satisfy the constraints; a reported fitness always belongs to the current chromosome (it is dropped when the chromosome changes). Directly after Initialize the chromosome is the encoding of the given parameters, which need not decode to them (quantisation), so the two may disagree until the next change.", "quantifier": "every operation history", "why_tests_cant": "unbounded histories", "anchors": ["src/optimization/genetic_algorithm/individual.cpp"]}
{"id": "C22", "title": "Individual text round trip", "statement": "Writing an individual and reading the text back into an individual with the same parameters restores the chromosome exactly when the chromosome is non-empty (fitness is restored up to the decimal printing of doubles); a text whose chromosome has the wrong length or a character other than 0/1 throws logic_error. An individual with an empty chromosome does not survive. A fitness that is printed but cannot be read back (an infinity, printed as inf) comes back as 0 and ends the stream: a population file in which others follow such an individual is rejected by the library that wrote it, one in which it is the last is accepted with fitness 0.", "quantifier": "every chromosome, every printer and reader of doubles, every white space and titles", "why_tests_cant": "unbounded lengths", "anchors": ["src/optimization/genetic_algorithm/individual.cpp: operator<<, operator>>"]}
{"id": "C23", "title": "GeneticAlgorithm construction", "statement": "Create returns null (construction throws) exactly when the population is non-positive or odd, the number of generations is non-positive or the mutator is null. Optimize refuses to minimise.", "quantifier": "every argument tuple", "why_tests_cant": "all ints", "anchors": ["src/optimization/genetic_algorithm/genetic_algorithm.cpp: GeneticAlgorithm, Create"]}
{"id": "C24", "title": "Genetic algorithm returns the best individual ever evaluated", "statement": "For NaN-free fitness, the best individual after k iterations has the greatest fitness among all individuals evaluated in all generations of that run, it is the earliest such one, and the sequence of best fitness values never decreases; when Optimize returns, the parameters hold exactly the values decoded from that individual's chromosome. The exception: when initial parameters were supplied, the returned parameters are decoded from the encoding of the best individual and may have a lower objective value than the best fitness met, unless every initial parameter object satisfies its constraints and is restored by decoding its own encoding. With the library's classes and objective values in [0, 2^990] every one of any number of calls with the same objective function on one object ends and returns the best of everything evaluated in that call.", "quantifier": "every objective function, random stream, population size and number of generations", "why_tests_cant": "all random streams and unboundedly many generations", "anchors": ["src/optimization/genetic_algorithm/genetic_algorithm.cpp: RunIterationsAndSetBestIndivid, UpdateBestIndivid, Optimize"]}
{"id": "C25", "title": "Genetic algorithm population invariants", "statement": "At the start of every generation the population has exactly population_size individuals, all of which satisfy the constraints (except individuals of the initial generation taken from user supplied initial parameters, which are never checked); the number of generations executed is at most max_generations and stops early exactly at the first generation whose best fitness reaches the stop criterion.", "quantifier": "every run", "why_tests_cant": "all random streams, unbounded generations", "anchors": ["src/optimization/genetic_algorithm/genetic_algorithm.cpp: GenerateNextPopulation, Mutate, RunIterationsAndSetBestIndivid"]}
{"id": "C26", "title": "Elitism", "statement": "With elitism e pairs, 2e <= population, the first 2e individuals of the next population (before mutation) are copies of the 2e fittest of the current one in descending fitness order; larger e copies the whole sorted population. The copies are then mutated like all others, so the best individual itself need not survive.", "quantifier": "every population and elitism count", "why_tests_cant": "all populations", "anchors": ["src/optimization/genetic_algorithm/genetic_algorithm.cpp: GenerateNextPopulation"]}
{"id": "C27", "title": "Roulette selection", "statement": "For a population whose fitnesses are non-negative with finite sum, in binary64 arithmetic as executed, selection always finds an individual (never throws), whatever rand() returns; with exact arithmetic individual i is selected iff the draw lies in its half-open share, so individuals of zero fitness are selected only by the draw 0.", "quantifier": "every population and rand() output", "why_tests_cant": "all doubles; rounding of the running sum", "anchors": ["src/optimization/genetic_algorithm/genetic_algorithm.cpp: SelectRandomIndividualIndexForCrossover"]}
{"id": "C28", "title": "Objective function values are attached to the right individuals", "statement": "If no two chromosomes evaluated so far share a cache key, then after ObtainFitness every individual of the population has the fitness the objective function gives to its own parameters, whatever the worker pool and whatever was cached before with the same function; with colliding keys or with a different function in a later run on the same optimiser a wrong fitness is returned.", "quantifier": "every population, history and function", "why_tests_cant": "unbounded histories; hash collisions", "anchors": ["src/optimization/objective_function_counter.cpp: ObtainFitness", "src/optimization/objective_function_counter.h"]}
{"id": "C29", "title": "Parallel optimisation picks the best result", "statement": "When the simple processor maximises it selects the first parameter set with the greatest value; when it minimises it selects the last one with the least value; the selected value is always optimal among all (NaN-free) values. The empty list throws (simple processor).", "quantifier": "every non-empty list of values", "why_tests_cant": "unbounded lists", "anchors": ["src/optimization/simple_parameters_processor.cpp", "src/optimization/optimization_parameters_processor.cpp"]}
{"id": "C30", "title": "Command line settings", "statement": "After ParseCommandLine, get of a name returns the value of the last argument --name=value with that name; arguments without the -- prefix have no effect; settings whose names do not occur among the arguments and are not path-related to one are unchanged; an argument --name without '=' stores the name itself as value.", "quantifier": "every argument list", "why_tests_cant": "unbounded argument lists", "anchors": ["include/k52/common/settings_manager.h", "include/k52/common/settings_manager.inl"]}
{"id": "C31", "title": "Settings merge", "statement": "Merging two property trees whose keys contain no dots and are unique per node: for every path, the merged tree's value is the left tree's value where the left tree has that path, otherwise the right tree's; no path is invented or lost.", "quantifier": "every pair of trees and every path", "why_tests_cant": "unbounded trees", "anchors": ["include/k52/common/settings_manager.h: Merge", "include/k52/common/settings_manager.h"]}
{"id": "C32", "title": "Sequential worker pool", "statement": "DoTasks returns, in order, exactly the results of the given tasks, performs each task once and adds exactly the number of tasks to its counter; when a task throws, the exception escapes, the later tasks are not run and the counter has grown by exactly the number of completed tasks.", "quantifier": "every list of tasks", "why_tests_cant": "unbounded lists", "anchors": ["src/parallel/sequential_worker_pool.cpp"]}
{"id": "C33", "title": "Thread worker pool returns every result in its place", "statement": "For one DoTasks call with n tasks that do not throw, on a pool of w>=1 threads, in every interleaving of submitter and workers: every task is executed exactly once; when DoTasks returns, result i is the result of task i and no task is pending; no reachable state is deadlocked before it returns and every run is finite.", "quantifier": "every number of tasks and threads and every schedule", "why_tests_cant": "exponentially many interleavings", "anchors": ["src/parallel/thread/thread_worker_pool.cpp", "src/parallel/thread/thread_worker_pool_templated.h", "src/parallel/thread/worker.h", "src/parallel/thread/thread_safe_queue.h"]}
{"id": "C34", "title": "Thread worker pool: a throwing task loses the batch", "statement": "If some task of a batch throws a std::exception, no schedule lets DoTasks return: the calling thread waits for ever.", "quantifier": "every schedule of a batch with a throwing task", "why_tests_cant": "non-termination cannot be observed by a test", "anchors": ["src/parallel/thread/worker.h: ProcessTasksQueue", "src/parallel/thread/thread_worker_pool.cpp: DoTasks"]}
{"id": "C35", "title": "Thread worker pool is not safe for concurrent callers", "statement": "If two threads call DoTasks on the same pool concurrently, there are schedules in which one call returns while some of its own results are still null.", "quantifier": "existence of a schedule", "why_tests_cant": "needs a specific interleaving", "anchors": ["src/parallel/thread/thread_worker_pool_templated.h"]}
{"id": "C36", "title": "Thread safe queue is FIFO", "statement": "In every interleaving of pushes, blocking pops and non-blocking pops by any number of threads, values leave the queue in the order they entered, each exactly once; a blocked pop is enabled exactly when the queue is non-empty.", "quantifier": "every history", "why_tests_cant": "all interleavings", "anchors": ["src/parallel/thread/thread_safe_queue.h"]}
{"id": "C37", "title": "MPI worker pool dispatch", "statement": "On a pool with w>=1 worker ranks and n tasks, in every order in which workers finish: each task is sent to exactly one worker, no worker ever holds two unfinished tasks, DoTasks returns after n completions with result i belonging to task i, and the per-worker counters sum to n.", "quantifier": "every n, w and completion order", "why_tests_cant": "all completion orders", "anchors": ["src/parallel/mpi/mpi_worker_pool.cpp"]}
{"id": "C38", "title": "Async call chain", "statement": "The asynchronous calls of a chain are issued one at a time in the order they were added, the next only after the previous has been observed finished; asking for the next call while the current one is unfinished throws; WaitAndPop returns a chain only when all its calls have finished.", "quantifier": "every sequence of completions and polls", "why_tests_cant": "all schedules", "anchors": ["src/parallel/mpi/async_call_chain.cpp", "src/parallel/mpi/mpi_worker_pool.cpp: WaitAndPopNextExpectation"]}
{"id": "C39", "title": "Worker statistics", "statement": "After any sequence of registrations of completed tasks and errors, GetStatistics lists each worker id that occurred exactly once, in increasing id order, with its number of completions and errors.", "quantifier": "every history", "why_tests_cant": "unbounded histories", "anchors": ["src/parallel/statistics_aggregator.cpp", "src/parallel/worker_statistics.cpp"]}
{"id": "C40", "title": "Worker pool factory", "statement": "When CreateBestWorkerPool returns, it returns the first of MPI, thread, sequential that can be created and is valid; it fails exactly when no usable MPI pool can be made and the library was built with threads on a platform reporting 0 hardware threads (invalid_argument escapes although the sequential pool is available); at most one MPI pool is ever returned per process, and a discarded invalid one also counts.", "quantifier": "every availability configuration and call history", "why_tests_cant": "all configurations", "anchors": ["src/parallel/worker_pool_factory.cpp"]}
{"id": "C41", "title": "Identifiable objects registry", "statement": "GetObject(id) returns the object most recently registered under id; an id never registered throws invalid_argument, at any point of any history, including after earlier failed look-ups.", "quantifier": "every history", "why_tests_cant": "unbounded histories", "anchors": ["src/parallel/mpi/identifyable_objects_manager.cpp"]}
{"id": "C42", "title": "Grid search enumerates the grid", "statement": "The points examined are exactly the vectors whose coordinates are lower_bound + j*precision, 0 <= j <= floor((upper-lower)/precision), each exactly once (size^n points); the vector kept is one with the greatest objective value among them, the first in enumeration order. In binary64 the coordinates are the doubles next to those values up to a few units in the last place: never below the lower bound, above the upper bound by rounding only, and reaching to within one step of it.", "quantifier": "every dimension, bounds, precision and function", "why_tests_cant": "unbounded grid", "anchors": ["src/optimization/grid_search.cpp"]}
{"id": "C43", "title": "Random search keeps the best sample", "statement": "The vector returned by random search is one of the vectors it sampled and none of the samples has a strictly better objective value; it samples exactly the configured number of points, all within the bounds.", "quantifier": "every function and random stream", "why_tests_cant": "all streams", "anchors": ["src/optimization/random_search.cpp"]}
{"id": "C44", "title": "Simulated annealing stays within bounds and may lose the best point", "statement": "Every point visited differs from the previous one in at most one coordinate, drawn within the bounds; an improving neighbour is always accepted; but the vector returned is the last one accepted, which can be strictly worse than an earlier one.", "quantifier": "every function and random stream", "why_tests_cant": "all streams", "anchors": ["src/optimization/simulated_annealing.cpp"]}
{"id": "C45", "title": "Hooke-Jeeves never makes the objective worse", "statement": "For NaN-free objective values, the vector returned has an objective value at least as good as the starting vector; each exploratory search changes each coordinate by -step, 0 or +step and never worsens the value. A run is exactly the documented sequence of exploratory and pattern moves with step halving until the step is below the precision.", "quantifier": "every function, start, step, precision, acceleration", "why_tests_cant": "all functions", "anchors": ["src/optimization/hooke_jeeves_method.cpp"]}
{"id": "C46", "title": "Nelder-Mead geometric moves and result", "statement": "Centre of mass, reflection, expansion, contraction satisfy their defining equations and the initial regular simplex has n+1 vertices with all edges equal to the given length; the index selection picks a largest, a second largest and a smallest value; but the vertex returned is the one with the largest value of the function being minimised, i.e. the worst of the final simplex. A run is exactly the sequence of reflections, expansions, contractions and reductions of the method until the stopping criterion. The points asked for stay within the bounds apart from vertices of the initial simplex, which need not.", "quantifier": "every dimension, point set and value vector", "why_tests_cant": "continuum of inputs", "anchors": ["src/optimization/bounded_nelder_mead.cpp"]}
{"id": "C47", "title": "Rosenbrock method keeps an orthonormal basis and bounded steps", "statement": "Starting with non-zero first and maximal steps, with exact arithmetic, for every objective function and starting point: after every number of iterations the direction basis is orthonormal, every step is non-zero and (after the first iteration) not longer than the maximal step; each iteration moves the point by exactly the root of the sum of squared steps, so result and evaluated points stay within a computable box around the start. In every arithmetic the search ends normally on a parameters array and makes at most max_iterations*(n+1) evaluations. The result may be worse than the start, and in binary64 a clamped step may exceed the maximum (both refuted as guarantees).", "quantifier": "every objective function, starting point, dimension and configuration with non-zero steps", "why_tests_cant": "continuum of inputs", "anchors": ["src/optimization/hleborodov_rosenbrock_method.cpp"]}
{"id": "C48", "title": "Circular convolution", "statement": "CircularConvolution of two signals of equal length N returns the N values sum_m a[m] b[(n-m) mod N]; it is commutative, bilinear, has the unit impulse as identity and commutes with circular shifts; different lengths throw.", "quantifier": "every pair of signals", "why_tests_cant": "unbounded lengths, complex values", "anchors": ["src/dsp/transform/circular_convolution.cpp"]}
{"id": "C49", "title": "Discrete Fourier transform inversion", "statement": "With exact complex arithmetic, FourierTransform(x)[k] = sum_n x[n] exp(-2 pi i k n / N) and InverseFourierTransform(FourierTransform(x)) = x and FourierTransform(InverseFourierTransform(x)) = x for every signal of every length; the transform is linear and satisfies Parseval's identity.", "quantifier": "every signal of every length", "why_tests_cant": "unbounded lengths, continuum of values", "anchors": ["src/dsp/transform/fourier_transform.cpp", "src/dsp/transform/inverse_fourier_transform.cpp"]}
{"id": "C50", "title": "Fourier based convolution equals direct convolution", "statement": "With exact arithmetic, FourierBasedCircularConvolution over the discrete Fourier transform returns exactly what CircularConvolution returns, for all pairs of equally long signals, and throws for the same inputs (different lengths).", "quantifier": "every pair of signals", "why_tests_cant": "unbounded lengths, continuum of values", "anchors": ["src/dsp/transform/fourier_based_circular_convolution.cpp", "src/dsp/transform/circular_convolution.cpp"]}
{"id": "C51", "title": "Scales", "statement": "LinearScale(min,max,count) has exactly count values, equally spaced, from min to max; LogarithmicScale(min_exp,max_exp) lists 2^min_exp, ... each value twice the previous; invalid arguments throw. In binary64 the values are non-decreasing, start at min exactly and differ from the exact ones by at most 5*2^-53*max.", "quantifier": "every argument tuple", "why_tests_cant": "unbounded counts", "anchors": ["src/dsp/transform/wavelet/linear_scale.cpp", "src/dsp/transform/wavelet/logarithmic_scale.cpp"]}
{"id": "C52", "title": "Akima spline interpolates and is C1", "statement": "With exact arithmetic and strictly increasing abscissae (at least five), the spline passes through every given point, is continuous with continuous derivative at every inner knot, reproduces affine data exactly, and throws out_of_range exactly outside [first,last]; fewer than five points or different lengths throw. In double precision with moderate data the value at every training point but the last is exactly the training value, at the last one it is within a rounding bound of it, and it is finite everywhere in the range.", "quantifier": "every data set and argument", "why_tests_cant": "continuum of inputs", "anchors": ["src/dsp/akima_spline.cpp"]}
{"id": "C53", "title": "Fast wavelet transform is the sampled correlation", "statement": "With exact arithmetic each row of the transform is the circular correlation of the signal with the stretched, normalised wavelet (half a sample off for odd sizes), one row per scale in order; whatever the history of transforms, an object with a sample cache returns exactly what an object without one does or throws runtime_error (which it can do although the object without cache succeeds); a non-positive scale throws invalid_argument; without FFTW3, or for a signal of another size than the one given at construction, no result is returned.", "quantifier": "every signal, wavelet, scale list and history", "why_tests_cant": "unbounded lengths and histories", "anchors": ["src/dsp/transform/wavelet/fast_wavelet_transform.cpp"]}
{"id": "C54", "title": "Haar and spline based wavelets have bounded support", "statement": "The Haar function takes only the values given by its piecewise definition; the spline based function is zero outside [-4,4], defined everywhere inside, and interpolates its control points.", "quantifier": "every argument", "why_tests_cant": "continuum of inputs", "anchors": ["src/dsp/haar_wavelet_function.cpp", "src/dsp/spline_based_wavelet_function.cpp"]}
{"id": "C55", "title": "CWT windowing", "statement": "With step s>=1 the CWT of a signal evaluates the wavelet transform on exactly the windows starting at 0, s, 2s, ... below the signal length of the signal padded with zeros, and never reads outside the padded data; with s=0 it does not terminate for a non-empty signal; with s<0 it evaluates exactly one window.", "quantifier": "every signal, wavelet length and step", "why_tests_cant": "unbounded lengths", "anchors": ["src/dsp/cwt.cpp", "src/dsp/wavelet.cpp"]}
{"id": "C56", "title": "Transfer of optimisers, parameters and results preserves them", "statement": "In MPI builds: a task received by another process has the parameter values, the optimiser settings and the direction of the task that was sent, uses the receiver's registered copy of the function, and leaves the following messages of the connection untouched; any number of tasks sent in a row arrive in order. A discrete parameter object that holds a representable value arrives unchanged in a receiver of the same shape; function state and bounds are not sent, unregistered classes stop the reception with invalid_argument, and GridSearch, RandomSearch and SimulatedAnnealing can be neither cloned, sent nor received.", "quantifier": "every optimiser, parameter object, task, sequence of tasks, registry content and following messages", "why_tests_cant": "all field values, nestings of composites, and streams of messages", "anchors": ["src/optimization/optimization_task.cpp", "src/optimization/optimization_task_result.cpp", "src/optimization/count_objective_function_task.cpp", "src/optimization/objective_function_task_result.cpp", "src/optimization/params/discrete_parameters.cpp", "src/optimization/*.cpp: Send, Receive, Clone"]}
{"id": "C57", "title": "Approximate equality", "statement": "AreEqual is reflexive on finite values and symmetric; finite values less than 1e-10 apart are equal and values more than 1e-10 apart are not (up to the last digits of 1e-10 in double); IsZero holds exactly for the values closer to 0 than that; on vectors AreEqual requires equal lengths and pointwise near equality; it is not transitive.", "quantifier": "every pair of values or vectors", "why_tests_cant": "continuum of inputs", "anchors": ["src/common/floating_point.cpp"]}
{"id": "C58", "title": "Delay supplier backs off geometrically up to a cap", "statement": "The n-th sleep since the last reset takes min(10^(n-1),1000) milliseconds; resets restart at 1.", "quantifier": "every history", "why_tests_cant": "unbounded histories", "anchors": ["src/parallel/mpi/delay_supplier.cpp"]}
{"id": "C59", "title": "Continuous optimiser sign convention and constraint check", "statement": "An optimiser asked to maximise f behaves exactly as the same optimiser asked to minimise -f; objective evaluation at a point that violates the parameter constraints throws and is never counted; on normal return the parameter object holds exactly the vector the search returned.", "quantifier": "every function, parameters and optimiser", "why_tests_cant": "all functions", "anchors": ["src/optimization/continuous_optimizer.cpp"]}
{"id": "C60", "title": "Initial parameters are accepted only when they mean the same thing", "statement": "SetInitialParameters populations are accepted only if there is one entry per individual and every entry has the type and the meta-parameters (bounds, precision, size) of the parameters being optimised; any two objects accepted as having the same meta-parameters have the same chromosome size and decode every chromosome to the same values (exact arithmetic); composite parameters are always rejected with runtime_error. Any other mismatch (number of objects, class, bounds, number of steps, number of values) is rejected with invalid_argument before anything random happens or the objective function is called, and an accepted list is the first generation, in the given order.", "quantifier": "every list of initial parameters, every pair of parameter objects, every chromosome", "why_tests_cant": "all pairs of parameter objects and all chromosomes", "anchors": ["src/optimization/genetic_algorithm/genetic_algorithm.cpp: Initialize, ValidateInitialParameters", "src/optimization/params/int_parameter.cpp: HasSameMetaParameters", "src/optimization/params/double_parameter.cpp: HasSameMetaParameters", "src/optimization/params/double_parameters_array.cpp: HasSameMetaParameters", "src/optimization/params/composite_discrete_parameters.cpp: HasSameMetaParameters"]}
{"id": "C61", "title": "Conjugate gradient method", "statement": "The method evaluates the objective only at points of the dimension of the start, at most 2n + k(3m + 2n) times for k rounds of line searches of m Newton steps, and the only exception of its own is runtime_error. An iteration limit N >= 2 allows N - 1 rounds; limits 0 and 1 are no limits. In exact arithmetic a strictly convex quadratic function of n variables is minimised in at most n rounds: the gradient at the result is shorter than the precision and the value is within precision^2/(2 mu) of the minimum. From a point with a zero gradient the method never returns a result; with precision >= 1e-5 this is the only case in which it throws. In binary64 a linear function yields NaN and starting at the minimum of x^2 throws.", "quantifier": "every objective function, configuration, start point, dimension and amount of work; every symmetric positive definite quadratic function", "why_tests_cant": "all functions, dimensions and start points", "anchors": ["src/optimization/conjugate_gradient_method.cpp: FindOptimalParameters, FindNextSearchDirection, CalculateGradient, PerformOneDimensionalSearch, CalculateWeightingCoefficient"]}
{"id": "C62", "title": "Steepest descent method", "statement": "The method evaluates the objective only at points of the dimension of the start, at most k(6m + 4n) times for k rounds with loops of m iterations, and throws no exception of its own; a limit N >= 1 allows N rounds. The result is the point before the last step: the start, or a point where the computed gradient is still longer than the precision (so a first step that reaches the minimum exactly returns the start). The golden section over [0, border] always ends with a multiplier in that interval, within half the precision of the minimum if the objective is unimodal there (exact arithmetic, std::abs); the border however is a distance, not a multiplier, so the minimum found by the localisation may be outside; with ::abs(int) the section stops after one step if the border is less than 1. On a constant function, from a point with a zero gradient (exact arithmetic), and on a linear function in binary64 the method never returns.", "quantifier": "every objective function, configuration, start point and dimension", "why_tests_cant": "all functions; non-termination cannot be observed", "anchors": ["src/optimization/steepest_descent_method.cpp: FindOptimalParameters, CalculateGradient, GoldenSectionSearch, FindStepLength, Localization, IsExitCriteriaFulfilled"]}
{"id": "C63", "title": "What the genetic algorithm's call-back is shown", "statement": "When a next-generation call-back is set, Optimize calls it exactly once per generation, with the generation number counted from 0, the average objective value of the population, a copy of the best individual found so far with its value, the cache hits of this generation (never more than the population; hits plus evaluations account for every individual of every generation), the number of invalid chromosomes produced since the report before (random chromosomes drawn in vain, attempts at a pair beyond the pairs wanted, mutations beyond one per individual), and the list of individual statistics ordered by the number of times chosen as a parent. A population saved from the call-back is the population of that moment. Neither the counters nor a call-back that draws no random numbers changes the run: same result, same random numbers. (Refuted: the statistics are those of the current population; the invalid count of a first report belongs to that call of Optimize.)", "quantifier": "every parameter type, objective function, configuration, initial population or file, random stream, mutator, cache state and call-back; every generation of every run", "why_tests_cant": "all runs of a random algorithm, of any length, with any call-back", "anchors": ["src/optimization/genetic_algorithm/genetic_algorithm.cpp: ProcessStatistics, GatherAllIndividualsStatistics, GetPopulationAveradgeFitness, GenerateNextPopulation, Mutate, RunIterationsAndSetBestIndivid", "src/optimization/genetic_algorithm/generation_statistics.cpp", "include/k52/optimization/individual_statistics.h"]}
{"id": "C64", "title": "Destroying a thread pool", "statement": "Destroying a thread worker pool always ends: whatever the workers are doing, with tasks still queued, calls of DoTasks pending in other threads or tasks that throw, all threads together take finitely many steps and the destructor returns, provided no task catches the interruption itself. After a worker was told to stop it takes at most one more task. When the destructor has returned no worker is left, and never again is a task performed, a result written or a completion reported; a call still pending then returns only if all tasks had been performed, otherwise it waits for ever. A pool destroyed after all calls returned performs, writes and loses nothing during destruction. Destruction never makes a task run twice or makes a wrong result appear. (Refuted without the proviso: a task that swallows boost::thread_interrupted makes the destructor wait for ever.)", "quantifier": "every number of workers, every set of concurrent calls and task counts, every behaviour of the tasks, every moment the destructor starts, every interleaving", "why_tests_cant": "all schedules of workers, callers and the destructor", "anchors": ["src/parallel/thread/thread_worker_pool_templated.h: ~ThreadWorkerPoolTemplated, DoTasks", "src/parallel/thread/worker.h: Stop, Join, ProcessTasksQueue", "src/parallel/thread/thread_safe_queue.h: WaitAndPop"]}
{"id": "C65", "title": "Means, energies and symmetries of the analytic wavelets", "statement": "In exact arithmetic: the Mexican hat function is (2/3) pi^(1/4) (1 - (t/3)^2) exp(-(t/3)^2/2), real, even, zero exactly at -3 and 3, largest in modulus at 0, has mean zero and energy pi over the real line (refuted: unit energy; the normalisation multiplies by pi^(1/4) where it should divide). The Morlet function is exp(-t^2/2) (cos 5t + i sin 5t): modulus exp(-t^2/2), value at -t the conjugate of the value at t, energy sqrt(pi), and mean sqrt(2 pi) exp(-25/2) (refuted: mean zero). Both parts of the Haar function have mean zero and energy one.", "quantifier": "every real argument; integrals over the whole real line", "why_tests_cant": "continuum of inputs and improper integrals", "anchors": ["src/dsp/mhat_wavelet_function.cpp", "src/dsp/morlet_wavelet_function.cpp", "src/dsp/haar_wavelet_function.cpp"]}
{"id": "C66", "title": "The thread pool on its real queues", "statement": "With the locking, waiting, waking (also for no reason) and unlocking inside the two task queues interleaved arbitrarily, the thread pool still behaves as if every queue operation took effect at once: performed tasks, written results and returned calls are those of some run with indivisible queues, and every such run can happen. Hence a single DoTasks call that returned has every result in its place, each task executed exactly once and nothing left in the pool; with a worker and no throwing task no schedule deadlocks or loses a wake-up; every run is finite up to spurious wake-ups; and a throwing task makes the call wait for ever and concurrent calls may return early (the findings C34 and C35) on the real queues too.", "quantifier": "every number of workers, every set of concurrent calls and task counts, every task behaviour (result or exception), every interleaving of the individual lock, wait, notify and unlock steps, every number of spurious wake-ups", "why_tests_cant": "all schedules at the granularity of mutex and condition variable operations", "anchors": ["src/parallel/thread/thread_safe_queue.h: Push, WaitAndPop", "src/parallel/thread/thread_worker_pool_templated.h: DoTasks", "src/parallel/thread/worker.h: ProcessTasksQueue", "src/parallel/thread/thread_worker_pool.cpp: DoTasks", "src/parallel/thread/thread_worker_pool_task.cpp: DoTask"]}
{"id": "C67", "title": "The worker pool does not change what an optimiser computes", "statement": "When the genetic algorithm evaluates its generations, or grid or random search evaluates its points, on the thread pool with any number of workers or on the MPI pool with any number of processes, and the run ends, then the result is the one of the sequential pool: the same best individual, the same parameters written, the same populations in every generation, the same random numbers consumed, the same cache and counters. Whenever the sequential run returns, the run on a pool of one worker or more (two processes or more) can not get stuck and returns that same result; a batch with a throwing evaluation is never answered by the thread pool.", "quantifier": "every configuration, initial population and file, counter and cache, every objective function (result or exception), every number of workers and processes, every schedule of the threads including spurious wake-ups, every order of worker completions and of messages", "why_tests_cant": "all schedules, all objective functions and all numbers of generations and workers", "anchors": ["src/optimization/genetic_algorithm/objective_function_counter.cpp: ObtainFitness, CountObjectiveFunctionValues", "src/optimization/genetic_algorithm/genetic_algorithm.cpp: Optimize, RunIterationsAndSetBestIndivid", "src/optimization/simple_parameters_processor.cpp: ProcessParameters", "src/optimization/optimization_parameters_processor.cpp: ProcessParameters", "src/parallel/thread/thread_worker_pool.cpp: DoTasks", "src/parallel/sequential_worker_pool.cpp: DoTasks", "src/parallel/mpi/mpi_worker_pool.cpp: DoTasks"]}
{"id": "C68", "title": "The stages of the Rosenbrock method", "statement": "In exact arithmetic, with a non-zero first step and maximal step, Optimize on an array goes through stages: the steps are taken in descending order (the directions staying as they are), each is tried once from the current point along its own direction, lengthened by half if the value is smaller there and reversed and halved otherwise, cut to the maximal step, and then all of them are made together; the method stops after the first stage in which no coordinate moved by more than the precision, or after the configured number of stages, and returns the last point; between stages the directions are turned by Gram-Schmidt, the first new direction being that of the last move. Points, results and evaluations (their order included) are determined by this description. When it stops early every step is at most precision*sqrt(n). Finding: in one dimension a negative step is tried backwards after each turn, at the very point the last move came from.", "quantifier": "every function, direction of optimisation, starting array of any dimension, configuration with non-zero steps, any number of stages", "why_tests_cant": "continuum of functions and points; unbounded number of stages", "anchors": ["src/optimization/hleborodov_rosenbrock_method.cpp: FindOptimalParameters, IsExitCriteriaFulfilled, MakeStep, CreateNewBasis, CorrectStep"]}
{"id": "C69", "title": "Rounding errors of the transforms and convolutions", "statement": "In double precision, for N finite complex numbers far from overflow (N up to 2^40): the computed circular convolution is off by at most 3/2 (N+2) 2^-53 times the sum of the absolute values of the products it adds (plus an underflow term), and is exact for integers while the sums stay within 2^53; the computed Fourier transform is off by at most (34 (N+1) 2^-53 + 3/2 eps) times the sum of the absolute values of the signal if cos and sin are off by at most eps; with any transform object that is off by at most D times that sum, the inverse transform is off by at most (D + 2^-52) times the mean absolute value, transforming and transforming back is off by at most (3D + 3*2^-53) times the sum, and the convolution through the transform by at most (4D + 9*2^-53) times the product of both sums; so both convolutions agree up to a known error. No infinity or NaN appears.", "quantifier": "every length up to 2^40, all finite signals within the stated magnitude, every libm with the stated accuracy, every transform object with the stated accuracy", "why_tests_cant": "every signal of doubles of every length", "anchors": ["src/dsp/transform/circular_convolution.cpp: CircularConvolution::EvaluateConvolution", "src/dsp/transform/fourier_transform.cpp: FourierTransform::Transform", "src/dsp/transform/inverse_fourier_transform.cpp: InverseFourierTransform::Transform", "src/dsp/transform/fourier_based_circular_convolution.cpp: FourierBasedCircularConvolution::EvaluateConvolution"]}
{"id": "C70", "title": "FastFourierTransform objects and threads", "statement": "Threads create, use and destroy FastFourierTransform objects. If every object is used by one thread only, then in every schedule each call gives what it would give if its thread were alone: a Transform of a sequence of the size of the object returns the transform of exactly that sequence, whatever was transformed before; any other size, and an object of size 0, are refused; every schedule ends, after a number of steps that the programs determine. For any programs, FFTW's planner (construction and destruction) is never entered by two threads at a time and, while some thread has calls left, some thread can go on (a refused construction included). An object used by two threads at a time is not protected although Transform is const: for any sequences x and y of its size and any j there is a schedule in which the call for x returns the transform of the first j elements of y followed by the rest of x.", "quantifier": "all numbers of threads, all programs of the threads (creations, transforms, destructions), all schedules; all results of FFTW that have the size of its input", "why_tests_cant": "A race shows itself in a few schedules of very many; a test sees only those the scheduler happens to take, and cannot show that separate objects never interfere.", "anchors": ["src/dsp/transform/fast_fourier_transform.cpp: FastFourierTransformImpl, fftw_mutex_, Transform", "include/k52/dsp/transform/fast_fourier_transform.h"]}
{"id": "C71", "title": "Optimisers and functions called through their interfaces", "statement": "Optimize called through the common interface with parameters of another kind than the optimiser works on (or with a null pointer) throws logic_error, whatever the function; with parameters of the right kind and a function of another kind it throws bad_cast; in both cases nothing is evaluated and the parameters are unchanged. With matching kinds it does exactly what the typed call does: same outcome, same final parameters, same evaluations. A function called through its interface gives the typed value for parameters of its kind and logic_error for any other. An optimiser nested in a search over several points never fails because of the interface, unless it cannot be cloned (random search, simulated annealing): then every search with at least one point throws logic_error before anything is evaluated.", "quantifier": "all continuous and discrete optimisers (any search procedure), all objects derived from the parameter and function interfaces, all points, minimisation and maximisation", "why_tests_cant": "A test tries some combinations of classes; that a rejected call has no effect, and that an accepted one has exactly the effects of the typed call, concerns every optimiser, function and parameter object, including user defined ones.", "anchors": ["src/optimization/continuous_optimizer.cpp: ContinuousOptimizer::Optimize", "src/optimization/discrete_optimizer.cpp: DiscreteOptimizer::Optimize", "src/optimization/continuous_objective_function.cpp", "src/optimization/discrete_objective_function.cpp", "src/optimization/optimization_task.cpp: OptimizationTask::Perform", "src/optimization/random_search.cpp: RandomSearch::Clone"]}
{"id": "C72", "title": "Rounding error of the fast wavelet transform, the Morlet wavelet and the Mexican hat", "statement": "In double precision, FastWaveletTransform (built with FFTW3) of a finite signal of the size of the object returns, for every scale, finite coefficients that differ from the correlation of the signal with the stretched wavelet by at most an explicit bound: the relative error of the Fourier engine and a few units of rounding, times the total sizes of the signal and of the samples, plus the total size of the signal times the error of one sample (error of the wavelet, plus its Lipschitz constant times the rounding of its argument, divided by the square root of the scale). It holds after any history of calls, with or without a cache (with a cache runtime_error may be thrown instead). The wavelets meet what this needs, uniformly for all arguments up to 2^500: MorletWaveletFunction is within 3 eps + 13 * 2^-53 of exp(-t^2/2 + 5it), where eps bounds the errors of exp, cos and sin; MhatWaveletFunction is within 5 eps + 70 * 2^-53 of the Mexican hat, where eps bounds the relative error of exp. Further out that fails: for finite |t| >= 2^514 the Mexican hat is 0 up to rounding and GetValue returns NaN.", "quantifier": "all sizes up to 2^40, all finite signals and positive scales without overflow, all wavelets with a Lipschitz constant, all engines of a given accuracy, all histories of calls and cache limits; all finite arguments of the two wavelets", "why_tests_cant": "A test compares a few signals with a tolerance chosen by hand; that the error stays below one bound for every signal, size, scale and argument, and where overflow begins, needs a proof about rounding.", "anchors": ["src/dsp/transform/wavelet/fast_wavelet_transform.cpp: Transform, TransformOneScale, CalculateWaveletSamplesForConvolution, GetScaledWaveletValue", "src/dsp/morlet_wavelet_function.cpp: GetValue", "src/dsp/mhat_wavelet_function.cpp: GetValue, real"]}
{"id": "C73", "title": "The bundled comparison of optimisers reports true optima", "statement": "In examples/continuous_optimization, for every point whose two coordinates are doubles (not NaN; finite for sin(x)/x), no test function but the last takes a better value than the one reported as its solution: 1/|x*x-2| never divides by zero, so its value is a finite number between 0 and 2^51 per coordinate, and the maximum is at M_SQRT2; (x*x-2)^2 has its minimum at M_SQRT2, where it is positive; sin(x)/x has its maximum 1 per coordinate at 0 whenever sin returns no more than its argument in size; the sum of squares is least at 0. The last function has a local minimum at the reported point, accepts only two coordinates, and is unbounded below. The clone of a test function computes the same function (false for one). Every cell of the table holds the function's value at the point found; for optimisers whose answer does not depend on earlier runs the table is that of isolated runs from the start points, and an exception of one run ends the test. The objective function of examples/genetic_algorithm is the first one, so its fitness is finite and nonnegative for every chromosome.", "quantifier": "every vector of doubles that are not NaN (up to 2^53 coordinates), every library sin bounded by its argument, every list of optimisers and of test functions", "why_tests_cant": "2^64 doubles per coordinate; optimisers are arbitrary", "anchors": ["examples/continuous_optimization/test_objective_functions.h", "examples/continuous_optimization/test_functions_provider.cpp", "examples/continuous_optimization/test_function.cpp", "examples/continuous_optimization/optimizer_tester.cpp", "examples/genetic_algorithm/genetic_algorithm.cpp: ExactDiscreteObjectiveFunction"]}
{"id": "C74", "title": "Saving the population after a run, and starting from a file", "statement": "SavePopulationToFile after Optimize has returned writes the last generation, with every fitness, if the run ended because the best fitness reached the stop criterion; after a run that went through all its generations every individual has just been mutated and has no fitness, and the call throws logic_error. Before the first Optimize it reads out of bounds; a file that cannot be opened for writing is passed over in silence. A run given a saved file starts with exactly the saved chromosomes, with fitness; a population file that cannot be opened throws runtime_error, after the population has been initialised.", "quantifier": "every objective function, parameters, mutator, random numbers, sort, configuration, and every printer and reader of doubles", "why_tests_cant": "depends on every random history and on where the run ends", "anchors": ["src/optimization/genetic_algorithm/genetic_algorithm.cpp: SavePopulationToFile, OutputPopulation, ReadPopulationFromFile, Optimize, Mutate"]}
{"id": "C75", "title": "The MPI pool when tasks cannot be sent or throw, and when it is destroyed", "statement": "MpiWorkerPool::DoTasks returns only if every task is an IMpiTask and none throws in its worker process; then it behaves as in C37. A task that throws in a worker takes that process away: DoTasks never returns and waits for ever for its result, but (without tasks that are not IMpiTasks) receives the results of all other tasks sent, and sends all of them while one worker is left; different throwing tasks take away different workers. A task that is no IMpiTask makes DoTasks throw logic_error when its turn comes: exactly the tasks before it have been sent, all but min(i, size - 2) of their results received, and all results are lost. Destroying the pool after that, or after a return, tells every worker to stop; if no task throws, every worker process exits with code 0, after performing every task sent to it. Every run is finite.", "quantifier": "every number of processes (at least 2), of tasks and of messages per result, every set of throwing tasks and of tasks that are not IMpiTask, every interleaving of server and workers", "why_tests_cant": "Schedules of several processes are unbounded in number; a test that hangs shows nothing about the others.", "anchors": ["src/parallel/mpi/mpi_worker_pool.cpp: MpiWorkerPool, ~MpiWorkerPool, DoTasks, GetMpiTask, RunWorkerLoop, FinalizeWorkers"]}
{"id": "C76", "title": "The thread pool and tasks that throw something else than a std::exception", "statement": "A task that throws boost::thread_interrupted of its own accord silently ends the worker thread that runs it, and no completion is reported: its DoTasks call never returns (of concurrent calls, not all return), each such task costs the pool one more worker, the task itself has no result and is never run again. As long as fewer tasks do so than there are workers every other task is still performed; with as many, submitted tasks may stay unperformed for ever. A task that throws anything else that is not a std::exception ends the process, and certainly does so when some worker is left to run it. Without such tasks the pool behaves exactly as in C33-C35. Every run is finite.", "quantifier": "every number of workers, of calls and of tasks, every set of such tasks, every interleaving", "why_tests_cant": "A test sees one schedule, and a run that waits for ever or ends the process ends the test with it.", "anchors": ["src/parallel/thread/worker.h: ProcessTasksQueue", "src/parallel/thread/thread_worker_pool_templated.h: DoTasks"]}
{"id": "C77", "title": "The rounds of the gradient methods", "statement": "In exact arithmetic the conjugate gradient method is the Fletcher-Reeves method: each round moves to the first Newton iterate (difference quotients along the direction, from 0) within the precision of the one before, fails with an exception exactly when the squared gradient at the round's start is below 1e-10, stops when the gradient is shorter than the precision or the rounds are used up, and otherwise adds the squared-norm ratio times the old direction to the gradient; it returns or throws exactly as these rounds say, and does not return exactly when they do not end. Steepest descent halves the step until the function does not rise, stretches by the golden ratio until it does, searches the interval by the 0.382 section and moves there; it returns the point BEFORE its last move and never throws. Both are determined by function, configuration and start. The line search looks for any stationary point: minimising can return the greatest point of the function.", "quantifier": "every objective function, configuration and start point, both goals; exact arithmetic", "why_tests_cant": "A test checks some functions and tolerances; which point is returned by which rule for every function needs the whole run described.", "anchors": ["src/optimization/conjugate_gradient_method.cpp: FindOptimalParameters, GetGradientVector", "src/optimization/steepest_descent_method.cpp: FindOptimalParameters"]}
{"id": "C78", "title": "Const calls on DoubleParametersArray objects from several threads", "statement": "CheckConstraints() and SetChromosome() are const but overwrite a value inside the object. Threads that check, encode and assign only objects of their own get from every call exactly what they would get alone, also when those objects are clones of a common object that its own thread is using meanwhile. On an object used by several threads at once: get_values() and the refusal of a range of the wrong size stay right; CheckConstraints() answers false only if some element is out of bounds and is right whenever all elements are within them, but it can answer true if only one of them is; SetChromosome() writes into each place the bits of some element, and every choice of elements can occur. No call waits: each ends after a number of steps of its own thread that depends on the number of elements only.", "quantifier": "every number of threads and objects, every program of such calls, every interleaving; any arithmetic", "why_tests_cant": "The wrong answers need particular interleavings; their absence for private objects must hold for all of them.", "anchors": ["src/optimization/params/double_parameters_array.cpp: CheckConstraints, SetChromosome, Clone, get_values"]}
{"id": "C79", "title": "The genetic algorithm always finishes", "statement": "Optimize() of the genetic algorithm returns normally, and what it returns satisfies the constraints, whenever every chromosome of the parameters object decodes to values that satisfy its constraints, the objective function returns a value in [0, 2^990] for every valid object, the population is even and at least 2, at least one generation is asked for and the stop tolerance leaves room for every individual in the call counter: no loop that looks for a usable individual runs for ever, no counter overflows, selection always finds a parent, and at most as many populations as generations are made. The same holds for any number of calls one after the other on one object, with the same or other objective functions and parameters, with or without valid initial parameters. Every DoubleParameter that can be constructed (in double arithmetic), every IntParameter whose bounds hold all the numbers its bits can write, DoubleParametersArray objects whose values are within the quantisable range, and composites of such objects qualify; FlipBitMutator and a linearly changing mutation probability between usable bounds qualify as mutators. A parameters object with an undecodable chromosome does not: with IntParameter(0, 0, 5), which can be constructed, initialisation can go on for ever.", "quantifier": "every sequence of calls with parameters objects, initial parameters and objective functions as described, population size, number of generations, state of the random number generators and sequence of their results", "why_tests_cant": "Termination and absence of overflow for every sequence of random numbers, population size and number of generations.", "anchors": ["src/optimization/genetic_algorithm/genetic_algorithm.cpp: Optimize, Initialize, Selection, Crossover, Mutation", "src/optimization/genetic_algorithm/individual.cpp: SetRandomChromosome, Mutate, Crossover retry loops", "src/optimization/genetic_algorithm/flip_bit_mutator.cpp", "src/optimization/params/int_parameter.cpp", "src/optimization/params/double_parameter.cpp", "src/optimization/params/double_parameters_array.cpp", "src/optimization/params/composite_discrete_parameters.cpp"]}
{"id": "C80", "title": "The bundled genetic example always finishes; arrays whose values were never set", "statement": "The program examples/genetic_algorithm (300 individuals, 10 generations, 25 elitism pairs, FlipBitMutator(0.000001), a cache of one megabyte, DoubleParametersArray(0.0001, 100, 0.0001, 2), the sum of 1/|x*x - 2|) finishes whatever random numbers it gets: the array, the mutator and the algorithm are constructed, Optimize returns without an exception, at most ten populations are made, the two values it leaves in the array are in [0.0001, 100), and the fitness printed at the end is a finite number in [0, 2^52]; when the hash function of the cache tells the chromosomes apart, it is the greatest fitness of all individuals met. More generally a DoubleParametersArray whose values were never set may be given to the algorithm when its smaller bound is at most 2^30 times its actual precision away from zero; when it is 2^31 + 1 times its precision away or more, as for DoubleParametersArray(2^40, 2^40 + 4, 1, n), every call of Optimize with it converts a number that is not an int to int, which is undefined.", "quantifier": "every sequence of random numbers, state of the Random object, hash function; for the general statements every pair of bounds, precision and number of values, in double arithmetic", "why_tests_cant": "The program seeds its random numbers from the clock: a test sees one sequence out of all.", "anchors": ["examples/genetic_algorithm/genetic_algorithm.cpp: main, ExactDiscreteObjectiveFunction", "src/optimization/params/double_parameters_array.cpp: DoubleParametersArray, SetChromosome", "src/optimization/params/double_parameter.cpp: SetValue", "src/optimization/genetic_algorithm/individual.cpp: Initialize"]}
