{"id": "C01", "title": "Evaluation budget is never exceeded", "statement": "Whatever sequence of Task calls a client makes, the problem's evaluate is invoked at most max_evals times in total, and task.evals always equals the number of those invocations, including invocations that raised.", "quantifier": "every problem (any values, NaN, infinities, exceptions, even call-dependent values), every optimization type, every limit setting and every finite history of eval / next_iter / stopping_condition_iter calls", "why_tests_cant": "Tests try a few histories; the claim is about all interleavings and all problem behaviours, including ones that raise in the middle of an evaluation.", "anchors": ["src/niapy/task.py: Task.eval", "src/niapy/task.py: Task.stopping_condition"]}
{"id": "C02", "title": "A stopped task is inert", "statement": "Once stopping_condition() is true it stays true for ever, and every later eval(x) returns +inf, does not call the problem, and leaves every observable field of the task unchanged.", "quantifier": "every reachable task state in which the stopping condition holds and every later history of calls", "why_tests_cant": "It is a statement about all continuations of all histories.", "anchors": ["src/niapy/task.py: Task.eval", "src/niapy/task.py: Task.stopping_condition", "src/niapy/task.py: Task.next_iter", "src/niapy/task.py: Task.stopping_condition_iter"]}
{"id": "C03", "title": "task.x_f is the best value ever obtained", "statement": "At any time task.x_f (in the user's sign) is the initial infinity or one of the values the problem returned, and no non-NaN value the problem returned so far is better (smaller for minimization, larger for maximization).", "quantifier": "every problem including NaN values, both optimization types, every history of calls", "why_tests_cant": "Requires the invariant to hold after every prefix of every history.", "anchors": ["src/niapy/task.py: Task.eval", "src/niapy/task.py: Task.__init__"]}
{"id": "C04", "title": "The improvement log is exactly the sequence of strict records", "statement": "n_evals is strictly increasing, starts at least at 1 and never exceeds evals; fitness_evals has the same length, is strictly decreasing; entry i is the value obtained by evaluation number n_evals[i]; and an evaluation number is logged if and only if its value strictly beats all earlier non-NaN ones.", "quantifier": "every problem, both optimization types, every history of calls", "why_tests_cant": "Record structure over unbounded histories cannot be enumerated by tests.", "anchors": ["src/niapy/task.py: Task.eval"]}
{"id": "C05", "title": "fitness_iters is a monotone per-iteration best record", "statement": "len(fitness_iters) = iters always; the entries never get worse from one iteration to the next, and the current x_f is at least as good as the last entry.", "quantifier": "every problem, both optimization types, every history of calls", "why_tests_cant": "Monotonicity along all histories.", "anchors": ["src/niapy/task.py: Task.next_iter", "src/niapy/task.py: Task.stopping_condition_iter"]}
{"id": "C06", "title": "convergence_data('evals') is gap-free", "statement": "The x-axis returned for 'evals' is exactly the list of consecutive integers from the first to the last improving evaluation, the y-axis has the same length, and the y value at evaluation e is the value of the last logged improvement at or before e.", "quantifier": "every reachable task state", "why_tests_cant": "The gap filling loop must be right for every pattern of gaps between improvements.", "anchors": ["src/niapy/task.py: Task.convergence_data"]}
{"id": "C07", "title": "convergence_data('iters') matches the iteration counter", "statement": "For 'iters' both returned arrays have length iters, the x-axis is 0..iters-1 and the y-axis is the recorded best at the end of each iteration.", "quantifier": "every reachable task state", "why_tests_cant": "Depends on the length invariant of all histories.", "anchors": ["src/niapy/task.py: Task.convergence_data", "src/niapy/task.py: Task.next_iter"]}
{"id": "C08", "title": "The two convergence curves agree in sign", "statement": "The last value of convergence_data('evals') equals the task's best value x_f in the user's sign (so both convergence curves of one task are drawn in the same sign).", "quantifier": "every reachable task state with at least one improvement, both optimization types", "why_tests_cant": "True for every minimization run a test would try; false in general, which needs a proof for one optimization type and a counterexample for the other.", "anchors": ["src/niapy/task.py: Task.eval", "src/niapy/task.py: Task.convergence_data"]}
{"id": "C09", "title": "Maximization is minimization of the negated problem", "statement": "A maximization task on f and a minimization task on -f (with negated cutoff) go through the same states for the same calls: same counters, same returned values of eval, same stopping decisions, and x_f / fitness_iters differ exactly by sign.", "quantifier": "every problem, every history of calls, every limit and cutoff", "why_tests_cant": "A relational (two-run) property over all histories.", "anchors": ["src/niapy/task.py: Task.eval", "src/niapy/task.py: Task.stopping_condition", "src/niapy/task.py: Task.__init__"]}
{"id": "C10", "title": "Cutoff semantics", "statement": "If only a cutoff is given, the task stops exactly when some obtained value is at least as good as the cutoff; as soon as such a value is obtained no further problem evaluation takes place. With the default cutoff, a task whose limits are infinite and whose best value is finite never stops.", "quantifier": "every problem, both optimization types, every cutoff, every history", "why_tests_cant": "Quantifies over all histories and cutoffs.", "anchors": ["src/niapy/task.py: Task.__init__", "src/niapy/task.py: Task.stopping_condition", "src/niapy/task.py: Task.eval"]}
{"id": "C11", "title": "Task.eval returns the (sign-adjusted) problem value and propagates its exception", "statement": "While the task is running, eval(x) returns problem.evaluate(x) multiplied by +1/-1 and passes the very same x to the problem; if the problem raises, that exception is propagated, evals has been incremented and nothing else changed.", "quantifier": "every state, point and problem outcome", "why_tests_cant": "All states and all problem outcomes, including exceptions.", "anchors": ["src/niapy/task.py: Task.eval"]}
{"id": "C12", "title": "repair.limit is the projection onto the box", "statement": "limit(x, lower, upper) has no component outside the bounds, equals x when x is feasible, is idempotent, and changes each component to the closest admissible value.", "quantifier": "every vector (any length, infinities, NaN components), every bounds with lower <= upper", "why_tests_cant": "All real inputs, all dimensions.", "anchors": ["src/niapy/util/repair.py: limit"]}
{"id": "C13", "title": "repair.limit_inverse wraps to the opposite bound", "statement": "limit_inverse returns a vector inside the bounds, leaves admissible components untouched, and sends a component below lower to upper and above upper to lower.", "quantifier": "every vector and every bounds with lower <= upper", "why_tests_cant": "All inputs; the two-pass implementation could undo itself.", "anchors": ["src/niapy/util/repair.py: limit_inverse"]}
{"id": "C14", "title": "repair.wang is feasible under any monotone rounding", "statement": "wang returns a vector inside the bounds and leaves admissible components untouched, for exact arithmetic, for binary64 as long as doubling a bound does not overflow, and for every monotone rounding of the arithmetic operations.", "quantifier": "every vector, every bounds with lower <= upper, every monotone rounding operator under which the bounds and their doubles are exact", "why_tests_cant": "All inputs and all rounding modes.", "anchors": ["src/niapy/util/repair.py: wang"]}
{"id": "C15", "title": "repair.reflect is feasible", "statement": "reflect returns a vector inside the bounds and leaves admissible components untouched.", "quantifier": "every vector and every bounds with lower < upper; exact arithmetic and IEEE binary64", "why_tests_cant": "Holds in exact arithmetic, rounding can break it by one ulp for rare inputs that tests do not hit.", "anchors": ["src/niapy/util/repair.py: reflect"]}
{"id": "C16", "title": "repair.rand is feasible and touches only violated components", "statement": "rand returns a vector inside the bounds, and components that were inside are unchanged.", "quantifier": "every vector, every bounds with lower <= upper, every sequence of uniform draws", "why_tests_cant": "All inputs and all random draws.", "anchors": ["src/niapy/util/repair.py: rand"]}
{"id": "C17", "title": "is_feasible decides box membership", "statement": "is_feasible(x) is true exactly when every component lies between the bounds; every point returned by the default repair of a NaN-free point is feasible.", "quantifier": "every vector and all bounds", "why_tests_cant": "All inputs.", "anchors": ["src/niapy/task.py: Task.is_feasible", "src/niapy/task.py: Task.repair", "src/niapy/util/repair.py: limit"]}
{"id": "C18", "title": "full_array produces a periodic array of the requested length", "statement": "full_array(a, n) has length n for every scalar and every non-empty list, and its i-th entry is a (scalar) or a[i mod len(a)]; it raises exactly for empty lists when n > 0 and for unsupported types.", "quantifier": "every scalar or list and every n", "why_tests_cant": "All lengths on both sides of the equal/longer/shorter case split.", "anchors": ["src/niapy/util/array.py: full_array"]}
{"id": "C19", "title": "Problem bounds and dimension checks", "statement": "A constructed problem has lower and upper arrays of length dimension, and evaluate(x) raises ValueError exactly when len(x) differs from dimension, before the objective is computed.", "quantifier": "every dimension, scalar or list bounds, every x", "why_tests_cant": "All lengths of bounds and points.", "anchors": ["src/niapy/problems/problem.py: Problem.__init__", "src/niapy/problems/problem.py: Problem.evaluate"]}
{"id": "C20", "title": "Algorithm.get_best returns a best member", "statement": "Without NaN fitness, get_best returns the smaller of the previous best and the population minimum, together with a coordinates/fitness pair that really is the previous best pair or a population pair; on ties the population member wins, the first one in order; it raises only when nothing was accepted and there is no previous best.", "quantifier": "every population size, every fitness array, previous best or none, scalar or array calls", "why_tests_cant": "All populations and ties.", "anchors": ["src/niapy/algorithms/algorithm.py: Algorithm.get_best"]}
{"id": "C21", "title": "get_best ignores NaN individuals", "statement": "get_best returns the best non-NaN member of the population even if some individual's fitness is NaN.", "quantifier": "every fitness array with NaN entries", "why_tests_cant": "numpy's argmin puts NaN first, so the claim fails only on rare inputs; a counterexample is needed.", "anchors": ["src/niapy/algorithms/algorithm.py: Algorithm.get_best"]}
{"id": "C22", "title": "The callback protocol of Algorithm.run", "statement": "In a run that finishes normally the callback events are before_run, then for each iteration before_iteration followed by after_iteration, then after_run, with as many iterations as task.iters grew; when something raises, after_run is not called and the events so far are a prefix of that protocol.", "quantifier": "every algorithm (any init_population/run_iteration), every task, every callback behaviour", "why_tests_cant": "All run lengths and all points at which an exception can occur.", "anchors": ["src/niapy/algorithms/algorithm.py: Algorithm.run", "src/niapy/callbacks.py: CallbackList"]}
{"id": "C23", "title": "Algorithm.run terminates within max_iters iterations", "statement": "With a finite max_iters, run performs at most max_iters iterations whatever the algorithm does (as long as each iteration itself returns), and on return the task's stopping condition holds.", "quantifier": "every algorithm and every task with finite max_iters", "why_tests_cant": "Termination for all algorithms.", "anchors": ["src/niapy/algorithms/algorithm.py: Algorithm.run", "src/niapy/task.py: Task.stopping_condition", "src/niapy/task.py: Task.next_iter"]}
{"id": "C24", "title": "A finite max_evals alone guarantees termination", "statement": "With a finite max_evals and no iteration limit, run terminates for every algorithm of the library.", "quantifier": "every algorithm of the library, every problem, every random draw", "why_tests_cant": "Non-termination happens only on special random draws or problems; a test cannot wait for ever.", "anchors": ["src/niapy/algorithms/algorithm.py: Algorithm.run", "src/niapy/algorithms/basic/ca.py: Camel.next_x", "src/niapy/algorithms/basic/pso.py: ComprehensiveLearningParticleSwarmOptimizer"]}
{"id": "C25", "title": "Exceptions of a run are reported", "statement": "If anything raises in run, then in the main thread of the main process the same exception leaves run; elsewhere run returns (None, None) and bad_run() becomes true; a run without exception started on a fresh algorithm leaves bad_run() false.", "quantifier": "every algorithm, every crash point, both thread situations, every sequence of runs", "why_tests_cant": "All crash points.", "anchors": ["src/niapy/algorithms/algorithm.py: Algorithm.run", "src/niapy/algorithms/algorithm.py: Algorithm.bad_run"]}
{"id": "C26", "title": "bad_run describes the last run", "statement": "bad_run() is true exactly when the most recent run of the algorithm object raised.", "quantifier": "every sequence of runs of one algorithm object", "why_tests_cant": "Needs a two-run history; false because the stored exception is never cleared.", "anchors": ["src/niapy/algorithms/algorithm.py: Algorithm.run", "src/niapy/algorithms/algorithm.py: Algorithm.bad_run"]}
{"id": "C27", "title": "integers(..., skip) never returns a skipped value", "statement": "integers(low, high, skip=s) returns a value in [low, high) that is not in s, for every stream of random integers for which it returns; if every value is skipped it never returns.", "quantifier": "every bound, every skip list, every random stream", "why_tests_cant": "All streams, and divergence cannot be observed by a test.", "anchors": ["src/niapy/algorithms/algorithm.py: Algorithm.integers"]}
{"id": "C28", "title": "Initial populations are well formed", "statement": "default_numpy_init and default_individual_init return exactly population_size members, each of the task's dimension and inside the bounds, fitness entry i is what eval returned for member i, and exactly min(population_size, remaining budget) problem evaluations are spent when no other stop occurs.", "quantifier": "every task, every population size, every random draw", "why_tests_cant": "All sizes, draws and budgets.", "anchors": ["src/niapy/algorithms/algorithm.py: default_numpy_init", "src/niapy/algorithms/algorithm.py: default_individual_init", "src/niapy/algorithms/algorithm.py: Individual.__init__"]}
{"id": "C29", "title": "Individual.evaluate yields a feasible, consistent individual", "statement": "After ind.evaluate(task), ind.x is the repaired point (inside the bounds for a repair function that honours them) and ind.f is what task.eval returned for that very point.", "quantifier": "every individual, task, repair function", "why_tests_cant": "All points and repair functions.", "anchors": ["src/niapy/algorithms/algorithm.py: Individual.evaluate"]}
{"id": "C30", "title": "Individual.copy preserves the individual", "statement": "ind.copy() == ind, i.e. the copy has the same coordinates and the same fitness.", "quantifier": "every individual", "why_tests_cant": "True for unevaluated individuals (fitness inf), which is what simple tests build; false for evaluated ones.", "anchors": ["src/niapy/algorithms/algorithm.py: Individual.copy", "src/niapy/algorithms/algorithm.py: Individual.__eq__"]}
{"id": "C31", "title": "CallbackList delegates in order", "statement": "Every hook of a CallbackList calls the same hook of all contained callbacks exactly once in insertion order, append adds at the end and rejects non-callbacks leaving the list unchanged.", "quantifier": "every list of callbacks and every sequence of appends and hook calls", "why_tests_cant": "All lists and sequences.", "anchors": ["src/niapy/callbacks.py: CallbackList"]}
{"id": "C32", "title": "Runner produces one result per algorithm, problem and repetition", "statement": "If the names of the algorithms are pairwise distinct and likewise the names of the problems, Runner.run returns for each algorithm/problem pair exactly runs results, in execution order, each of one independent task whose problem calls do not exceed max_evals.", "quantifier": "every list of algorithms, problems, every number of runs", "why_tests_cant": "All list lengths; key collisions.", "anchors": ["src/niapy/runner.py: Runner.run", "src/niapy/runner.py: Runner.task_factory"]}
{"id": "C33", "title": "Runner keeps the results of all configured algorithms", "statement": "Runner.run keeps the results of every algorithm in the list, including two differently configured instances of one class.", "quantifier": "every list of algorithm instances", "why_tests_cant": "Only a list with two instances of the same class shows the loss of results.", "anchors": ["src/niapy/runner.py: Runner.run"]}
{"id": "C34", "title": "Every command line choice is accepted by the factories", "statement": "Every algorithm and problem name that the argument parser offers (including the defaults) can be built by get_algorithm / get_problem.", "quantifier": "all names offered by the parser", "why_tests_cant": "It is a cross-table property of two independently maintained name tables.", "anchors": ["src/niapy/util/argparser.py: get_parser", "src/niapy/util/factory.py: get_problem", "src/niapy/util/factory.py: get_algorithm"]}
{"id": "C35", "title": "DE crossover operators mix mutant and parent", "statement": "Every cross_* operator returns a vector of the dimension of the population whose components are each either the parent's component or the mutant formula at that coordinate, with at least one coordinate (a uniformly drawn one) taken from the mutant; the population is not modified and every index used is in range.", "quantifier": "every population of adequate size, every index, f, cr and every random draw", "why_tests_cant": "All populations and all draws.", "anchors": ["src/niapy/algorithms/basic/de.py: cross_rand1", "src/niapy/algorithms/basic/de.py: cross_best1", "src/niapy/algorithms/basic/de.py: cross_rand2", "src/niapy/algorithms/basic/de.py: cross_best2", "src/niapy/algorithms/basic/de.py: cross_curr2rand1", "src/niapy/algorithms/basic/de.py: cross_curr2best1"]}
{"id": "C36", "title": "DE selection is elitist per individual", "statement": "After DifferentialEvolution's selection no individual is worse than before at the same position, each new individual is the old one or the trial, and a trial replaces the old one only when strictly better; population size is unchanged.", "quantifier": "every population, every trial population, every fitness", "why_tests_cant": "All populations.", "anchors": ["src/niapy/algorithms/basic/de.py: DifferentialEvolution.selection", "src/niapy/algorithms/basic/de.py: DifferentialEvolution.run_iteration"]}
{"id": "C37", "title": "DifferentialEvolution: run returns the best evaluated solution", "statement": "For a problem that never yields NaN, every run of DifferentialEvolution that returns gives (x, v) such that v is the best value among all evaluations of the run, x is a point the problem was evaluated at with value v (or v is the infinity of an unevaluated task), every evaluated point lies inside the bounds, and the reported best value never gets worse from one iteration to the next. Population size is constant.", "quantifier": "every problem, both optimization types, every limit, every parameter setting accepted by the model, every random draw and every interpretation of floating point arithmetic", "why_tests_cant": "Stochastic algorithm: tests sample a handful of seeds and cannot cover the moment at which the budget runs out inside an iteration.", "anchors": ["src/niapy/algorithms/basic/de.py: DifferentialEvolution"]}
{"id": "C38", "title": "ParticleSwarmAlgorithm and ParticleSwarmOptimization: run returns the best evaluated solution", "statement": "For a problem that never yields NaN, every run of ParticleSwarmAlgorithm and ParticleSwarmOptimization that returns gives (x, v) such that v is the best value among all evaluations of the run, x is a point the problem was evaluated at with value v (or v is the infinity of an unevaluated task), every evaluated point lies inside the bounds, and the reported best value never gets worse from one iteration to the next. Each particle's personal best is never worse than before and is an evaluated pair.", "quantifier": "every problem, both optimization types, every limit, every parameter setting accepted by the model, every random draw and every interpretation of floating point arithmetic", "why_tests_cant": "Stochastic algorithm: tests sample a handful of seeds and cannot cover the moment at which the budget runs out inside an iteration.", "anchors": ["src/niapy/algorithms/basic/pso.py: ParticleSwarmAlgorithm", "src/niapy/algorithms/basic/pso.py: ParticleSwarmOptimization"]}
{"id": "C39", "title": "BatAlgorithm: run returns the best evaluated solution", "statement": "For a problem that never yields NaN, every run of BatAlgorithm that returns gives (x, v) such that v is the best value among all evaluations of the run, x is a point the problem was evaluated at with value v (or v is the infinity of an unevaluated task), every evaluated point lies inside the bounds, and the reported best value never gets worse from one iteration to the next.", "quantifier": "every problem, both optimization types, every limit, every parameter setting accepted by the model, every random draw and every interpretation of floating point arithmetic", "why_tests_cant": "Stochastic algorithm: tests sample a handful of seeds and cannot cover the moment at which the budget runs out inside an iteration.", "anchors": ["src/niapy/algorithms/basic/ba.py: BatAlgorithm"]}
{"id": "C40", "title": "FireflyAlgorithm: run returns the best evaluated solution", "statement": "For a problem that never yields NaN, every run of FireflyAlgorithm that returns gives (x, v) such that v is the best value among all evaluations of the run, x is a point the problem was evaluated at with value v (or v is the infinity of an unevaluated task), every evaluated point lies inside the bounds, and the reported best value never gets worse from one iteration to the next.", "quantifier": "every problem, both optimization types, every limit, every parameter setting accepted by the model, every random draw and every interpretation of floating point arithmetic", "why_tests_cant": "Stochastic algorithm: tests sample a handful of seeds and cannot cover the moment at which the budget runs out inside an iteration.", "anchors": ["src/niapy/algorithms/basic/fa.py: FireflyAlgorithm"]}
{"id": "C41", "title": "CuckooSearch: run returns the best evaluated solution", "statement": "For a problem that never yields NaN, every run of CuckooSearch that returns gives (x, v) such that v is the best value among all evaluations of the run, x is a point the problem was evaluated at with value v (or v is the infinity of an unevaluated task), every evaluated point lies inside the bounds, and the reported best value never gets worse from one iteration to the next.", "quantifier": "every problem, both optimization types, every limit, every parameter setting accepted by the model, every random draw and every interpretation of floating point arithmetic", "why_tests_cant": "Stochastic algorithm: tests sample a handful of seeds and cannot cover the moment at which the budget runs out inside an iteration.", "anchors": ["src/niapy/algorithms/basic/cs.py: CuckooSearch"]}
{"id": "C42", "title": "FlowerPollinationAlgorithm: run returns the best evaluated solution", "statement": "For a problem that never yields NaN, every run of FlowerPollinationAlgorithm that returns gives (x, v) such that v is the best value among all evaluations of the run, x is a point the problem was evaluated at with value v (or v is the infinity of an unevaluated task), every evaluated point lies inside the bounds, and the reported best value never gets worse from one iteration to the next.", "quantifier": "every problem, both optimization types, every limit, every parameter setting accepted by the model, every random draw and every interpretation of floating point arithmetic", "why_tests_cant": "Stochastic algorithm: tests sample a handful of seeds and cannot cover the moment at which the budget runs out inside an iteration.", "anchors": ["src/niapy/algorithms/basic/fpa.py: FlowerPollinationAlgorithm"]}
{"id": "C43", "title": "GreyWolfOptimizer: run returns the best evaluated solution", "statement": "For a problem that never yields NaN, every run of GreyWolfOptimizer that returns gives (x, v) such that v is the best value among all evaluations of the run, x is a point the problem was evaluated at with value v (or v is the infinity of an unevaluated task), every evaluated point lies inside the bounds, and the reported best value never gets worse from one iteration to the next. The three leaders' fitness stays ordered alpha <= beta <= delta.", "quantifier": "every problem, both optimization types, every limit, every parameter setting accepted by the model, every random draw and every interpretation of floating point arithmetic", "why_tests_cant": "Stochastic algorithm: tests sample a handful of seeds and cannot cover the moment at which the budget runs out inside an iteration.", "anchors": ["src/niapy/algorithms/basic/gwo.py: GreyWolfOptimizer"]}
{"id": "C44", "title": "MothFlameOptimizer: run returns the best evaluated solution", "statement": "For a problem that never yields NaN, every run of MothFlameOptimizer that returns gives (x, v) such that v is the best value among all evaluations of the run, x is a point the problem was evaluated at with value v (or v is the infinity of an unevaluated task), every evaluated point lies inside the bounds, and the reported best value never gets worse from one iteration to the next.", "quantifier": "every problem, both optimization types, every limit, every parameter setting accepted by the model, every random draw and every interpretation of floating point arithmetic", "why_tests_cant": "Stochastic algorithm: tests sample a handful of seeds and cannot cover the moment at which the budget runs out inside an iteration.", "anchors": ["src/niapy/algorithms/basic/mfo.py: MothFlameOptimizer"]}
{"id": "C45", "title": "SineCosineAlgorithm: run returns the best evaluated solution", "statement": "For a problem that never yields NaN, every run of SineCosineAlgorithm that returns gives (x, v) such that v is the best value among all evaluations of the run, x is a point the problem was evaluated at with value v (or v is the infinity of an unevaluated task), every evaluated point lies inside the bounds, and the reported best value never gets worse from one iteration to the next.", "quantifier": "every problem, both optimization types, every limit, every parameter setting accepted by the model, every random draw and every interpretation of floating point arithmetic", "why_tests_cant": "Stochastic algorithm: tests sample a handful of seeds and cannot cover the moment at which the budget runs out inside an iteration.", "anchors": ["src/niapy/algorithms/basic/sca.py: SineCosineAlgorithm"]}
{"id": "C46", "title": "GravitationalSearchAlgorithm: run returns the best evaluated solution", "statement": "For a problem that never yields NaN, every run of GravitationalSearchAlgorithm that returns gives (x, v) such that v is the best value among all evaluations of the run, x is a point the problem was evaluated at with value v (or v is the infinity of an unevaluated task), every evaluated point lies inside the bounds, and the reported best value never gets worse from one iteration to the next.", "quantifier": "every problem, both optimization types, every limit, every parameter setting accepted by the model, every random draw and every interpretation of floating point arithmetic", "why_tests_cant": "Stochastic algorithm: tests sample a handful of seeds and cannot cover the moment at which the budget runs out inside an iteration.", "anchors": ["src/niapy/algorithms/basic/gsa.py: GravitationalSearchAlgorithm"]}
{"id": "C47", "title": "HarmonySearch: run returns the best evaluated solution", "statement": "For a problem that never yields NaN, every run of HarmonySearch that returns gives (x, v) such that v is the best value among all evaluations of the run, x is a point the problem was evaluated at with value v (or v is the infinity of an unevaluated task), every evaluated point lies inside the bounds, and the reported best value never gets worse from one iteration to the next. Harmony memory size is constant.", "quantifier": "every problem, both optimization types, every limit, every parameter setting accepted by the model, every random draw and every interpretation of floating point arithmetic", "why_tests_cant": "Stochastic algorithm: tests sample a handful of seeds and cannot cover the moment at which the budget runs out inside an iteration.", "anchors": ["src/niapy/algorithms/basic/hs.py: HarmonySearch"]}
{"id": "C48", "title": "GeneticAlgorithm: run returns the best evaluated solution", "statement": "For a problem that never yields NaN, every run of GeneticAlgorithm that returns gives (x, v) such that v is the best value among all evaluations of the run, x is a point the problem was evaluated at with value v (or v is the infinity of an unevaluated task), every evaluated point lies inside the bounds, and the reported best value never gets worse from one iteration to the next.", "quantifier": "every problem, both optimization types, every limit, every parameter setting accepted by the model, every random draw and every interpretation of floating point arithmetic", "why_tests_cant": "Stochastic algorithm: tests sample a handful of seeds and cannot cover the moment at which the budget runs out inside an iteration.", "anchors": ["src/niapy/algorithms/basic/ga.py: GeneticAlgorithm"]}
{"id": "C49", "title": "BeesAlgorithm: run returns the best evaluated solution", "statement": "For a problem that never yields NaN, every run of BeesAlgorithm that returns gives (x, v) such that v is the best value among all evaluations of the run, x is a point the problem was evaluated at with value v (or v is the infinity of an unevaluated task), every evaluated point lies inside the bounds, and the reported best value never gets worse from one iteration to the next.", "quantifier": "every problem, both optimization types, every limit, every parameter setting accepted by the model, every random draw and every interpretation of floating point arithmetic", "why_tests_cant": "Stochastic algorithm: tests sample a handful of seeds and cannot cover the moment at which the budget runs out inside an iteration.", "anchors": ["src/niapy/algorithms/basic/bea.py: BeesAlgorithm"]}
{"id": "C50", "title": "ClonalSelectionAlgorithm: run returns the best evaluated solution", "statement": "For a problem that never yields NaN, every run of ClonalSelectionAlgorithm that returns gives (x, v) such that v is the best value among all evaluations of the run, x is a point the problem was evaluated at with value v (or v is the infinity of an unevaluated task), every evaluated point lies inside the bounds, and the reported best value never gets worse from one iteration to the next.", "quantifier": "every problem, both optimization types, every limit, every parameter setting accepted by the model, every random draw and every interpretation of floating point arithmetic", "why_tests_cant": "Stochastic algorithm: tests sample a handful of seeds and cannot cover the moment at which the budget runs out inside an iteration.", "anchors": ["src/niapy/algorithms/basic/clonalg.py: ClonalSelectionAlgorithm"]}
{"id": "C51", "title": "FireworksAlgorithm: run returns the best evaluated solution", "statement": "For a problem that never yields NaN, every run of FireworksAlgorithm that returns gives (x, v) such that v is the best value among all evaluations of the run, x is a point the problem was evaluated at with value v (or v is the infinity of an unevaluated task), every evaluated point lies inside the bounds, and the reported best value never gets worse from one iteration to the next.", "quantifier": "every problem, both optimization types, every limit, every parameter setting accepted by the model, every random draw and every interpretation of floating point arithmetic", "why_tests_cant": "Stochastic algorithm: tests sample a handful of seeds and cannot cover the moment at which the budget runs out inside an iteration.", "anchors": ["src/niapy/algorithms/basic/fwa.py: FireworksAlgorithm"]}
{"id": "C52", "title": "SineCosineAlgorithm explores", "statement": "An iteration of SineCosineAlgorithm can move an individual that lies inside the bounds to a different position.", "quantifier": "every population inside the bounds, every draw, every iteration number (exact arithmetic)", "why_tests_cant": "In floating point the step is zero or an ulp, so a test that only checks values sees a valid population; only a proof shows that the step vanishes identically.", "anchors": ["src/niapy/algorithms/basic/sca.py: SineCosineAlgorithm.run_iteration", "src/niapy/algorithms/basic/sca.py: SineCosineAlgorithm.next_position"]}
{"id": "C53", "title": "RandomSearch returns a consistent pair", "statement": "The coordinates returned by RandomSearch were evaluated and have the returned fitness.", "quantifier": "every problem and every random draw", "why_tests_cant": "Depends on which candidate is kept during initialisation; a test on one seed with enough iterations hides it.", "anchors": ["src/niapy/algorithms/other/rs.py: RandomSearch"]}
{"id": "C54", "title": "SimulatedAnnealing rejects bad moves with positive probability", "statement": "There is a temperature and a worsening move that the acceptance rule rejects for some random draw.", "quantifier": "every temperature > 0, every worsening move, every draw in [0,1)", "why_tests_cant": "The acceptance test is stochastic, tests see only accepted samples.", "anchors": ["src/niapy/algorithms/other/sa.py: SimulatedAnnealing.run_iteration"]}
{"id": "C55", "title": "Documented minima of the separable polynomial benchmarks", "statement": "Sphere, Sphere2, Sphere3, SumSquares, SchumerSteiglitz, ChungReynolds, Step, Step2, Step3, Schwefel 2.21, Schwefel 2.22, Qing, BentCigar and Powell are bounded below by their documented minimum and attain it at the documented point.", "quantifier": "every dimension and every real vector", "why_tests_cant": "All real vectors of all dimensions.", "anchors": ["src/niapy/problems/sphere.py", "src/niapy/problems/sum_squares.py", "src/niapy/problems/schumer_steiglitz.py", "src/niapy/problems/chung_reynolds.py", "src/niapy/problems/step.py", "src/niapy/problems/schwefel.py", "src/niapy/problems/qing.py", "src/niapy/problems/bent_cigar.py", "src/niapy/problems/powell.py"]}
{"id": "C56", "title": "Documented minima of the non-separable and trigonometric benchmarks", "statement": "Rastrigin, Rosenbrock, Griewank, Ackley, Salomon, Ridge, Zakharov, Whitley, Trid, Csendes, Quintic are bounded below by their documented minimum and attain it at the documented point.", "quantifier": "every dimension and every real vector (domain where documented)", "why_tests_cant": "All real vectors of all dimensions.", "anchors": ["src/niapy/problems/rastrigin.py", "src/niapy/problems/rosenbrock.py", "src/niapy/problems/griewank.py", "src/niapy/problems/ackley.py", "src/niapy/problems/salomon.py", "src/niapy/problems/ridge.py", "src/niapy/problems/zakharov.py", "src/niapy/problems/whitley.py", "src/niapy/problems/trid.py", "src/niapy/problems/csendes.py", "src/niapy/problems/quintic.py"]}
{"id": "C57", "title": "Every benchmark has its documented minimum", "statement": "For Discus, DixonPrice, Levy, Alpine1 and ExpandedGriewankPlusRosenbrock too, the documented optimum value is the minimum over the documented domain.", "quantifier": "every real vector in the domain", "why_tests_cant": "The implemented formulas differ from the documented ones; it takes a counterexample inside the domain to settle it.", "anchors": ["src/niapy/problems/discus.py", "src/niapy/problems/dixon_price.py", "src/niapy/problems/levy.py", "src/niapy/problems/alpine.py", "src/niapy/problems/griewank.py"]}
{"id": "C58", "title": "Maximizing f is minimizing -f, for whole runs", "statement": "Running any algorithm on a maximization task for f with a given random stream evaluates the same points in the same order, shows callbacks the same (internal) values and returns the same point as running it on a minimization task for -f, with the negated value.", "quantifier": "every algorithm whose code does not itself read the optimization type, every problem, callback, limit, random stream and repair function", "why_tests_cant": "it relates two whole executions for every problem and random stream", "anchors": ["src/niapy/task.py:Task.eval", "src/niapy/algorithms/algorithm.py:Algorithm.run"]}
{"id": "C59", "title": "Dynamic, multi-strategy and ageing DE variants return the best evaluated solution", "statement": "Runs of MultiStrategyDifferentialEvolution, DynNpDifferentialEvolution, DynNpMultiStrategyDifferentialEvolution and AgingNpDifferentialEvolution on a problem that never yields NaN return the best value of all evaluations of the run and a point with that value, evaluate only inside the bounds, and report a best that never gets worse, although they shrink or replace their populations; the multi-strategy population size is constant and the dynamic one only ever halves.", "quantifier": "every problem, both optimization types, every limit, every parameter setting, random draw and interpretation of floating point arithmetic", "why_tests_cant": "the claim is about every history of shrinking/ageing populations", "anchors": ["src/niapy/algorithms/basic/de.py:DynNpDifferentialEvolution", "src/niapy/algorithms/basic/de.py:AgingNpDifferentialEvolution", "src/niapy/algorithms/basic/de.py:MultiStrategyDifferentialEvolution"]}
{"id": "C60", "title": "Every exported algorithm can be built by name", "statement": "get_algorithm accepts the class name of every algorithm the package exports.", "quantifier": "all exported algorithm classes", "why_tests_cant": "The table and the export lists are separate; nothing ties them together.", "anchors": ["src/niapy/util/factory.py: get_algorithm", "src/niapy/algorithms/basic/__init__.py", "src/niapy/algorithms/modified/__init__.py", "src/niapy/algorithms/other/__init__.py"]}
{"id": "C61", "title": "The mutated and center particle swarm variants report their best evaluated point", "statement": "For MPSO, CPSO, MCPSO and MCUPSO the reported solution of a run is the best evaluated point, has the task's dimension, the reported best never gets worse, nothing else than problem/callback exceptions is raised, and (MPSO, or whenever the computed mean of points inside the bounds is inside the bounds) only points inside the bounds are evaluated. In binary64 the unrepaired swarm center can lie outside the bounds.", "quantifier": "all tasks, problems, arithmetic interpretations, parameters, random draws, numbers of iterations", "why_tests_cant": "rounding of a mean beyond the bounds occurs only for particular bounds and swarms", "anchors": ["src/niapy/algorithms/basic/pso.py:646-651", "src/niapy/algorithms/basic/pso.py:754-763", "src/niapy/algorithms/basic/pso.py:936-940"]}
{"id": "C62", "title": "OVCPSO reports its best evaluated point", "statement": "For OVCPSO the reported solution is the best evaluated point and the population size is constant; points are inside the bounds if l+u-x of a point inside the bounds is. In binary64 the opposite point can leave the bounds, and the initial velocity bounds are swapped.", "quantifier": "all tasks, problems, arithmetic interpretations, parameters, random draws, numbers of iterations", "why_tests_cant": "needs particular bounds; swapped velocity bounds only change the trajectory", "anchors": ["src/niapy/algorithms/basic/pso.py:439-550"]}
{"id": "C63", "title": "CLPSO reports its best evaluated point", "statement": "For CLPSO with at least two particles only feasible points are evaluated, the reported solution is the best evaluated point and the reported best never gets worse; the only exception of its own is an IndexError from an exemplar index rounded up to the population size.", "quantifier": "all tasks, problems, arithmetic interpretations, parameters, random draws, numbers of iterations", "why_tests_cant": "random exemplars and infeasible particles that are silently skipped", "anchors": ["src/niapy/algorithms/basic/pso.py:1037-1162"]}
{"id": "C64", "title": "HybridBatAlgorithm returns the best evaluated point for every DE strategy it accepts", "statement": "With the strategies cross_best1, cross_best2 and cross_curr2best1 a run of HybridBatAlgorithm evaluates only repaired points and returns the best one; with the strategies without a best argument it raises TypeError (hba.py:119 passes the best positionally).", "quantifier": "for all problems without NaN, bounds, budgets, random streams, float arithmetics, parameters, strategies and run lengths", "why_tests_cant": "Tests use only the default strategy", "anchors": ["src/niapy/algorithms/modified/hba.py:14-119", "src/niapy/algorithms/basic/ba.py:167-206"]}
{"id": "C65", "title": "Adaptive, self-adaptive and hybrid self-adaptive bat algorithms return the best evaluated point", "statement": "Every run of AdaptiveBatAlgorithm, SelfAdaptiveBatAlgorithm and HybridSelfAdaptiveBatAlgorithm evaluates only points inside the bounds, returns the best evaluated point, keeps the population size, and no bat's fitness ever gets worse; the per-bat step follows the documented formulas.", "quantifier": "for all problems without NaN, bounds, budgets, random streams, float arithmetics, parameters and run lengths", "why_tests_cant": "Tests run a few thousand evaluations of one problem with one seed", "anchors": ["src/niapy/algorithms/modified/saba.py:15-394", "src/niapy/algorithms/modified/hsaba.py:14-126"]}
{"id": "C66", "title": "ParameterFreeBatAlgorithm returns the best evaluated point", "statement": "Every run of ParameterFreeBatAlgorithm evaluates only points inside the bounds, returns the best evaluated point, keeps the population size, and no bat's fitness ever gets worse; the per-bat step follows the documented formulas.", "quantifier": "for all problems without NaN, bounds, budgets, random streams, float arithmetics and run lengths", "why_tests_cant": "Tests run a few thousand evaluations of one problem with one seed", "anchors": ["src/niapy/algorithms/modified/plba.py:15-144"]}
{"id": "C67", "title": "BareBonesFireworksAlgorithm returns the best evaluated vector", "statement": "Every run of BareBonesFireworksAlgorithm evaluates only points inside the bounds and returns the best evaluated point as a vector; the firework never gets worse; sparks, replacement and amplitude follow the documented formulas.", "quantifier": "for all problems without NaN, bounds, budgets, random streams, float arithmetics and run lengths", "why_tests_cant": "Tests run a few thousand evaluations of one problem with one seed", "anchors": ["src/niapy/algorithms/basic/fwa.py:18-159"]}
{"id": "C68", "title": "EnhancedFireworksAlgorithm returns the best evaluated solution and keeps its fireworks", "statement": "Every run of EnhancedFireworksAlgorithm evaluates only points inside the bounds, returns the best evaluated point with its value, no firework's fitness ever gets worse, and amplitudes, sparks and selection follow the documented formulas.", "quantifier": "for all problems without NaN, bounds, budgets, random streams, float arithmetics and run lengths", "why_tests_cant": "Tests run a few thousand evaluations of one problem with one seed and cannot hit the moment the budget runs out inside an iteration", "anchors": ["src/niapy/algorithms/basic/fwa.py:432-611"]}
{"id": "C69", "title": "DynamicFireworksAlgorithm(Gauss) returns the best evaluated solution", "statement": "Every run of DynamicFireworksAlgorithmGauss and DynamicFireworksAlgorithm evaluates only points inside the bounds; the returned value is the best evaluated value and the returned point was evaluated to it; the core firework's spark count, update and amplitude follow the documented formulas.", "quantifier": "for all problems without NaN, bounds, budgets, random streams, float arithmetics and run lengths", "why_tests_cant": "Tests run a few thousand evaluations of one problem with one seed; the aliasing of best_x with a population row shows only when values change", "anchors": ["src/niapy/algorithms/basic/fwa.py:614-927"]}
{"id": "C70", "title": "Sampling by lower + range * random() stays inside the bounds", "statement": "With binary64 bounds whose difference does not overflow, every component of lower + (upper - lower) * random() lies between the bounds, for every draw in [0, 1 - 2^-53], in either order of the factors.", "quantifier": "every pair of binary64 bounds lower <= upper with finite difference, every dimension, every draw", "why_tests_cant": "Rounding at the upper end fails or holds for individual bit patterns; sampling cannot cover 2^53 draws times all bounds.", "anchors": ["src/niapy/algorithms/other/rs.py: RandomSearch.init_population", "src/niapy/algorithms/other/hc.py: HillClimbAlgorithm", "src/niapy/algorithms/other/sa.py: SimulatedAnnealing.init_population"]}
{"id": "C71", "title": "HillClimbAlgorithm returns the best evaluated pair and its climb ends", "statement": "A run of HillClimbAlgorithm returns the best evaluated pair, evaluates only points inside the bounds (binary64), and with a finite max_evals the inner climbing loop of every iteration ends.", "quantifier": "every problem, every draw, every parameter", "why_tests_cant": "All runs and all lengths of the inner loop.", "anchors": ["src/niapy/algorithms/other/hc.py: HillClimbAlgorithm.run_iteration"]}
{"id": "C72", "title": "NelderMeadMethod returns the best evaluated pair", "statement": "With at least two points NelderMeadMethod returns the best evaluated pair and raises nothing of its own, evaluates only points inside the bounds, and each of its four moves can happen.", "quantifier": "every problem, every draw, every coefficient", "why_tests_cant": "All runs; a branch that can never be reached cannot be seen by tests.", "anchors": ["src/niapy/algorithms/other/nmm.py: NelderMeadMethod.method"]}
{"id": "C73", "title": "Every benchmark computes its documented formula", "statement": "For every benchmark problem, _evaluate computes the formula given in the class documentation (read over the real numbers).", "quantifier": "every benchmark, every dimension it is defined in, every real vector", "why_tests_cant": "Equality of two real functions at all points of all dimensions.", "anchors": ["src/niapy/problems/*.py: _evaluate", "src/niapy/problems/*.py: latex_code"]}
{"id": "C74", "title": "Documented optima of the remaining benchmarks", "statement": "Elliptic, HGBat, Perm, Pinter, SchafferN2, SchafferN4, ExpandedSchaffer, Weierstrass, StyblinskiTang, HappyCat, Katsuura, Stepint, Alpine2 and CosineMixture attain their documented optimum at the documented point and nowhere a better value.", "quantifier": "every dimension and every real vector", "why_tests_cant": "All real vectors of all dimensions.", "anchors": ["src/niapy/problems/elliptic.py", "src/niapy/problems/hgbat.py", "src/niapy/problems/perm.py", "src/niapy/problems/pinter.py", "src/niapy/problems/schaffer.py", "src/niapy/problems/weierstrass.py", "src/niapy/problems/styblinski_tang.py", "src/niapy/problems/happy_cat.py", "src/niapy/problems/katsuura.py", "src/niapy/problems/stepint.py", "src/niapy/problems/alpine.py", "src/niapy/problems/cosine_mixture.py"]}
{"id": "C75", "title": "HarrisHawksOptimization keeps the best of the hawks and moves as documented", "statement": "HarrisHawksOptimization evaluates only points inside the bounds, raises nothing of its own, keeps the population size, never worsens its best value and keeps it at most every fitness value, returns the best evaluated pair, and every hawk moves by one of the exploration, besiege or dive equations.", "quantifier": "every problem without NaN, every repair function, every random stream, every population size and limit", "why_tests_cant": "All runs and all draws; the dives evaluated and then dropped are visible only when the budget ends between two evaluations.", "anchors": ["src/niapy/algorithms/basic/hho.py: HarrisHawksOptimization.run_iteration"]}
{"id": "C76", "title": "ArtificialBeeColonyAlgorithm returns the best evaluated pair and replaces exhausted sources", "statement": "ArtificialBeeColonyAlgorithm returns the best evaluated pair, keeps the population size, changes one component of one food source at a time, replaces a source exactly when its trial counter reaches the limit, leaves the other half of the population alone and ends when the evaluations are used up.", "quantifier": "every problem without NaN, every repair function, every random stream, every colony size and limit", "why_tests_cant": "The stale loop variable and the colonies with at most one source misbehave only for particular counters and sizes; non-termination cannot be observed.", "anchors": ["src/niapy/algorithms/basic/abc.py: ArtificialBeeColonyAlgorithm.run_iteration", "src/niapy/algorithms/basic/abc.py: ArtificialBeeColonyAlgorithm.calculate_probabilities", "src/niapy/algorithms/basic/abc.py: ArtificialBeeColonyAlgorithm.init_population"]}
{"id": "C77", "title": "MonarchButterflyOptimization keeps its elite and returns the best evaluated pair", "statement": "MonarchButterflyOptimization evaluates only points inside the bounds, keeps the population size, never worsens its best value, keeps the elite and returns the best evaluated pair; the migration and the adjusting operator compute their documented equations.", "quantifier": "every problem without NaN, every random stream, every partition, period, keep and adjusting rate", "why_tests_cant": "All runs; the losses need a budget that ends between the two evaluations or keep = population size.", "anchors": ["src/niapy/algorithms/basic/mbo.py: MonarchButterflyOptimization.run_iteration", "src/niapy/algorithms/basic/mbo.py: MonarchButterflyOptimization.migration_operator", "src/niapy/algorithms/basic/mbo.py: MonarchButterflyOptimization.adjusting_operator", "src/niapy/algorithms/basic/mbo.py: MonarchButterflyOptimization.evaluate_and_sort"]}
{"id": "C78", "title": "ForestOptimizationAlgorithm returns the best evaluated pair", "statement": "ForestOptimizationAlgorithm returns the best evaluated pair, never empties the forest, keeps one age per tree and a tree of age zero, and its local seeding, survival and global seeding steps compute what they document.", "quantifier": "every problem without NaN, every random stream, every life time, area limit, number of changes and transfer rate", "why_tests_cant": "All runs, all forests; the forest changes size in every iteration.", "anchors": ["src/niapy/algorithms/basic/foa.py: ForestOptimizationAlgorithm.run_iteration", "src/niapy/algorithms/basic/foa.py: ForestOptimizationAlgorithm.local_seeding", "src/niapy/algorithms/basic/foa.py: ForestOptimizationAlgorithm.global_seeding", "src/niapy/algorithms/basic/foa.py: ForestOptimizationAlgorithm.remove_lifetime_exceeded", "src/niapy/algorithms/basic/foa.py: ForestOptimizationAlgorithm.survival_of_the_fittest"]}
{"id": "C79", "title": "CatSwarmOptimization keeps the best of the cats and its velocities bounded", "statement": "CatSwarmOptimization evaluates only points inside the bounds, keeps the population size and every velocity within max_velocity, never worsens its best value, returns the best evaluated pair and ends when the evaluations are used up; tracing and seeking compute their documented equations and the seeking position is chosen by roulette.", "quantifier": "every problem without NaN, every random stream, every mixture ratio and seeking parameter", "why_tests_cant": "All runs; the loss of the best candidate depends on which cat is overwritten.", "anchors": ["src/niapy/algorithms/basic/cso.py: CatSwarmOptimization.run_iteration", "src/niapy/algorithms/basic/cso.py: CatSwarmOptimization.seeking_mode", "src/niapy/algorithms/basic/cso.py: CatSwarmOptimization.tracing_mode", "src/niapy/algorithms/basic/cso.py: CatSwarmOptimization.random_seek_trace", "src/niapy/algorithms/basic/cso.py: CatSwarmOptimization.weighted_selection"]}
{"id": "C80", "title": "Self-adaptive DE keeps the best pair and its parameters within their limits", "statement": "SelfAdaptiveDifferentialEvolution returns the best evaluated pair, keeps the population size, never worsens a member, keeps every member's weight between f_lower and f_upper and its crossover probability in [0, 1), and a generation adapts, mutates, repairs, evaluates and selects as documented.", "quantifier": "every problem without NaN, every random stream, every population size, strategy and parameter", "why_tests_cant": "All runs and all random streams; the limits must hold for every reachable population.", "anchors": ["src/niapy/algorithms/modified/jde.py: SelfAdaptiveDifferentialEvolution.adaptive_gen", "src/niapy/algorithms/modified/jde.py: SelfAdaptiveDifferentialEvolution.evolve", "src/niapy/algorithms/modified/jde.py: SolutionJDE", "src/niapy/algorithms/basic/de.py: DifferentialEvolution.run_iteration"]}
{"id": "C81", "title": "Multi-strategy self-adaptive DE is multi-strategy DE", "statement": "MultiStrategySelfAdaptiveDifferentialEvolution never changes a parameter of a member: every run equals the run of MultiStrategyDifferentialEvolution with the same settings, whatever the adaptation settings are, and so it returns the best evaluated pair.", "quantifier": "every problem, callback, random stream, number of iterations and setting", "why_tests_cant": "Equality of two programs on all runs cannot be tested exhaustively.", "anchors": ["src/niapy/algorithms/modified/jde.py: MultiStrategySelfAdaptiveDifferentialEvolution", "src/niapy/algorithms/modified/jde.py: MultiStrategySelfAdaptiveDifferentialEvolution.evolve", "src/niapy/algorithms/basic/de.py: MultiStrategyDifferentialEvolution.evolve"]}
{"id": "C82", "title": "(1 + 1) and (mu + 1) evolution strategies keep the best individual", "statement": "EvolutionStrategy1p1 and EvolutionStrategyMp1 return the best evaluated pair, their current individual is always the best one found, it never gets worse, the one-fifth rule changes the standard deviation as documented, and with non-negative factors the standard deviation stays one numpy accepts.", "quantifier": "every problem without NaN, every random stream, every mu, k, c_a, c_r and epsilon", "why_tests_cant": "The standard deviation after many applications of the rule depends on rounding in all runs.", "anchors": ["src/niapy/algorithms/basic/es.py: EvolutionStrategy1p1.run_iteration", "src/niapy/algorithms/basic/es.py: EvolutionStrategy1p1.mutate", "src/niapy/algorithms/basic/es.py: EvolutionStrategy1p1.update_rho", "src/niapy/algorithms/basic/es.py: EvolutionStrategy1p1.init_population", "src/niapy/algorithms/basic/es.py: EvolutionStrategyMp1"]}
{"id": "C83", "title": "(mu + lambda) and (mu, lambda) evolution strategies keep mu individuals and the best pair", "statement": "EvolutionStrategyMpL and EvolutionStrategyML return the best evaluated pair and keep mu individuals; in the first the best mu of parents and children survive and the successes are counted, in the second the best mu of the children replace the parents; every run ends when the evaluations are used up.", "quantifier": "every problem without NaN, every random stream, every mu, lambda, k, c_a and c_r", "why_tests_cant": "All runs; ties, few children and no children are corner cases of the selection.", "anchors": ["src/niapy/algorithms/basic/es.py: EvolutionStrategyMpL.run_iteration", "src/niapy/algorithms/basic/es.py: EvolutionStrategyMpL.update_rho", "src/niapy/algorithms/basic/es.py: EvolutionStrategyMpL.change_count", "src/niapy/algorithms/basic/es.py: EvolutionStrategyMpL.mutate_rand", "src/niapy/algorithms/basic/es.py: EvolutionStrategyML.new_pop", "src/niapy/algorithms/basic/es.py: EvolutionStrategyML.run_iteration"]}
{"id": "C84", "title": "Bacterial foraging returns the best evaluated pair", "statement": "BacterialForagingOptimization returns the best evaluated pair, every cell has the value of its position, every chemotaxis, swim, reproduction and dispersal follows the published rules, the dispersed cells stay in the box in binary64, the evaluations of one iteration are bounded, every run with max_evals ends, and a run depends only on its settings.", "quantifier": "every problem without NaN, every random stream, every setting, every value of the counters left by an earlier run", "why_tests_cant": "All runs; the swim length, the counters and the halving of the population interact.", "anchors": ["src/niapy/algorithms/basic/bfo.py: BacterialForagingOptimization.init_population", "src/niapy/algorithms/basic/bfo.py: BacterialForagingOptimization.interaction", "src/niapy/algorithms/basic/bfo.py: BacterialForagingOptimization.random_direction", "src/niapy/algorithms/basic/bfo.py: BacterialForagingOptimization.run_iteration"]}
{"id": "C85", "title": "Glowworm swarms return the best evaluated pair and their radii stay within the sensing range", "statement": "GlowwormSwarmOptimization and its variants return the best evaluated pair, keep the population size and keep every neighbourhood radius between 0 and the sensing radius; which glowworm is followed depends on the light.", "quantifier": "every problem without NaN, every random stream, every setting and distance", "why_tests_cant": "Equality of the runs with different light settings is a statement about all runs.", "anchors": ["src/niapy/algorithms/basic/gso.py: GlowwormSwarmOptimization.run_iteration", "src/niapy/algorithms/basic/gso.py: GlowwormSwarmOptimization.probabilities", "src/niapy/algorithms/basic/gso.py: GlowwormSwarmOptimization.move_select", "src/niapy/algorithms/basic/gso.py: GlowwormSwarmOptimization.range_update", "src/niapy/algorithms/basic/gso.py: GlowwormSwarmOptimizationV1", "src/niapy/algorithms/basic/gso.py: GlowwormSwarmOptimizationV2", "src/niapy/algorithms/basic/gso.py: GlowwormSwarmOptimizationV3"]}
{"id": "C86", "title": "Monkey king evolution 1 and 2 keep personal bests and the number of kings", "statement": "MonkeyKingEvolutionV1 and V2 return the best evaluated pair; every monkey has the value of its position and a personal best that is not worse and never gets worse; after every iteration exactly int(R * n) monkeys are kings; every run with max_evals ends.", "quantifier": "every problem without NaN, every random stream, every setting", "why_tests_cant": "All runs; kings are drawn at random in every iteration.", "anchors": ["src/niapy/algorithms/basic/mke.py: MkeSolution", "src/niapy/algorithms/basic/mke.py: MonkeyKingEvolutionV1.move_particle", "src/niapy/algorithms/basic/mke.py: MonkeyKingEvolutionV1.move_monkey_king_particle", "src/niapy/algorithms/basic/mke.py: MonkeyKingEvolutionV1.init_population", "src/niapy/algorithms/basic/mke.py: MonkeyKingEvolutionV1.run_iteration", "src/niapy/algorithms/basic/mke.py: MonkeyKingEvolutionV2.move_monkey_king_particle"]}
{"id": "C87", "title": "Monkey king evolution 3 returns the best evaluated pair", "statement": "MonkeyKingEvolutionV3 returns the best evaluated pair and keeps the population size; each iteration tries c * d points around the best one, mixes every monkey with the best point along a random mask with the prescribed number of ones, and replaces the worst monkey by the best of the points around the best one if that is not worse.", "quantifier": "every problem without NaN, every random stream, every setting", "why_tests_cant": "All runs and masks.", "anchors": ["src/niapy/algorithms/basic/mke.py: MonkeyKingEvolutionV3.neg", "src/niapy/algorithms/basic/mke.py: MonkeyKingEvolutionV3.init_population", "src/niapy/algorithms/basic/mke.py: MonkeyKingEvolutionV3.run_iteration"]}
{"id": "C88", "title": "Fish school search returns the best evaluated pair and keeps weights limited", "statement": "FishSchoolSearch returns the best evaluated pair; at the end of every iteration every fish lies in the box with its value and is not better than the best pair; weights stay between min_w and w_scale; steps and school weight develop as specified.", "quantifier": "every problem without NaN, every random stream, every setting", "why_tests_cant": "All runs; weights and steps are rounded real numbers.", "anchors": ["src/niapy/algorithms/basic/fss.py: FishSchoolSearch.init_school", "src/niapy/algorithms/basic/fss.py: FishSchoolSearch.update_steps", "src/niapy/algorithms/basic/fss.py: FishSchoolSearch.feeding", "src/niapy/algorithms/basic/fss.py: FishSchoolSearch.individual_movement", "src/niapy/algorithms/basic/fss.py: FishSchoolSearch.collective_instinctive_movement", "src/niapy/algorithms/basic/fss.py: FishSchoolSearch.collective_volitive_movement", "src/niapy/algorithms/basic/fss.py: FishSchoolSearch.run_iteration"]}
{"id": "C89", "title": "SHADE, L-SHADE and iL-SHADE return the best evaluated pair", "statement": "The three success-history algorithms return the best evaluated pair, evaluate only inside the box, keep between min(n, 4) and n members, and with admissible parameters a run in binary64 raises no exception of its own.", "quantifier": "every problem without NaN, every random stream, every tangent function, every setting", "why_tests_cant": "All runs; the rounding of the sizes of archive, elite and population decides whether an index exists.", "anchors": ["src/niapy/algorithms/modified/shade.py: SuccessHistoryAdaptiveDifferentialEvolution", "src/niapy/algorithms/modified/shade.py: LpsrSuccessHistoryAdaptiveDifferentialEvolution", "src/niapy/algorithms/modified/ilshade.py: ImprovedLpsrSuccessHistoryAdaptiveDifferentialEvolution"]}
{"id": "C90", "title": "current-to-pbest/1 with archive stays inside the box", "statement": "Every trial follows the rule current-to-pbest/1 with binomial crossover, its parents are distinct and come from the population and the used part of the archive, and after parent_medium each component lies in the box in binary64.", "quantifier": "every population, archive, random stream and bounds", "why_tests_cant": "Rounding and overflow of the midpoint for all binary64 numbers.", "anchors": ["src/niapy/algorithms/modified/shade.py: cross_curr2pbest1", "src/niapy/algorithms/modified/shade.py: parent_medium"]}
{"id": "C91", "title": "One iteration of SHADE, L-SHADE and iL-SHADE follows the published rules", "statement": "Sorting, parameters, trials, one-to-one selection with archive, weighted Lehmer means into the memory, reduction of population and archive: every iteration from a reached state is described by one relation.", "quantifier": "every reached state, every random stream, every setting", "why_tests_cant": "All states and executions.", "anchors": ["src/niapy/algorithms/modified/shade.py: SuccessHistoryAdaptiveDifferentialEvolution.gen_ind_params", "src/niapy/algorithms/modified/shade.py: SuccessHistoryAdaptiveDifferentialEvolution.evolve", "src/niapy/algorithms/modified/shade.py: SuccessHistoryAdaptiveDifferentialEvolution.selection", "src/niapy/algorithms/modified/shade.py: SuccessHistoryAdaptiveDifferentialEvolution.post_selection", "src/niapy/algorithms/modified/shade.py: SuccessHistoryAdaptiveDifferentialEvolution.run_iteration", "src/niapy/algorithms/modified/ilshade.py: ImprovedLpsrSuccessHistoryAdaptiveDifferentialEvolution.run_iteration"]}
{"id": "C92", "title": "Linear population size reduction removes the worst and ends at four", "statement": "L-SHADE and iL-SHADE remove exactly the worst members, and when all evaluations are used the population has four members.", "quantifier": "every population up to 2^40, every limit up to 2^53, binary64 rounding of the line", "why_tests_cant": "The rounding of the line at its end for all sizes and limits.", "anchors": ["src/niapy/algorithms/modified/shade.py: LpsrSuccessHistoryAdaptiveDifferentialEvolution.post_selection", "src/niapy/algorithms/modified/ilshade.py: ImprovedLpsrSuccessHistoryAdaptiveDifferentialEvolution.post_selection"]}
{"id": "C93", "title": "Parameters drawn from the success history stay in range", "statement": "In every reached state each weight lies in (0, 1] and each crossover probability in [0, 1]; iL-SHADE draws no weight above 0.7 and no probability below 0.5 in the first quarter; a terminal entry of the memory stays terminal.", "quantifier": "every reached state, every random stream, every tangent function", "why_tests_cant": "All runs; the memory feeds back into the draws.", "anchors": ["src/niapy/algorithms/modified/shade.py: SuccessHistoryAdaptiveDifferentialEvolution.gen_ind_params", "src/niapy/algorithms/modified/shade.py: SuccessHistoryAdaptiveDifferentialEvolution.cauchy", "src/niapy/algorithms/modified/ilshade.py: ImprovedLpsrSuccessHistoryAdaptiveDifferentialEvolution.gen_ind_params"]}
{"id": "C94", "title": "Multiple trajectory search returns the best evaluated pair", "statement": "MultipleTrajectorySearch and MultipleTrajectorySearchV1 return the best evaluated pair, evaluate only inside the box, keep their population size and raise no exception of their own.", "quantifier": "every problem without NaN, every random stream, every arithmetic, every setting with at least one and at most three local searches", "why_tests_cant": "All runs; best_x and current_x are the same array in the searches around the best solution.", "anchors": ["src/niapy/algorithms/other/mts.py: MultipleTrajectorySearch", "src/niapy/algorithms/other/mts.py: MultipleTrajectorySearchV1", "src/niapy/algorithms/other/mts.py: mts_ls1"]}
{"id": "C95", "title": "Each local search of MTS keeps its contract", "statement": "A local search evaluates only inside the box, never returns a worse value or a worse best, its best value is a lower bound of everything it evaluated and belongs to the best solution, improve tells whether the value dropped, the search range is halved or reset as documented, and the returned pair was evaluated.", "quantifier": "every start, range, random stream, arithmetic and all five searches", "why_tests_cant": "All starts and executions of five in-place procedures.", "anchors": ["src/niapy/algorithms/other/mts.py: mts_ls1", "src/niapy/algorithms/other/mts.py: mts_ls1v1", "src/niapy/algorithms/other/mts.py: mts_ls2", "src/niapy/algorithms/other/mts.py: mts_ls3", "src/niapy/algorithms/other/mts.py: mts_ls3v1", "src/niapy/algorithms/other/mts.py: move_x"]}
{"id": "C96", "title": "Members of MTS never get worse and the enabled ones are chosen by grade", "statement": "In every iteration members that are not enabled are left alone, the others get no worse, and afterwards min(num_enabled, n) members are enabled, chosen by their grades, the best ones as documented.", "quantifier": "every reached state", "why_tests_cant": "All states and executions.", "anchors": ["src/niapy/algorithms/other/mts.py: MultipleTrajectorySearch.run_iteration", "src/niapy/algorithms/other/mts.py: MultipleTrajectorySearch.grading_run", "src/niapy/algorithms/other/mts.py: MultipleTrajectorySearch.run_local_search"]}
{"id": "C97", "title": "The population of MTS consists of evaluated pairs", "statement": "In every reached state each member carries the value of its solution.", "quantifier": "every reached state", "why_tests_cant": "All states; the arrays are shared between solution and best solution.", "anchors": ["src/niapy/algorithms/other/mts.py: MultipleTrajectorySearch.run_iteration", "src/niapy/algorithms/other/mts.py: mts_ls1v1", "src/niapy/algorithms/other/mts.py: mts_ls3"]}
{"id": "C98", "title": "Runs of MTS end when the evaluations are limited", "statement": "With a finite max_evals every run ends: each iteration evaluates at least once.", "quantifier": "every problem, every random stream, every setting", "why_tests_cant": "Termination of all runs.", "anchors": ["src/niapy/algorithms/other/mts.py: MultipleTrajectorySearch.run_iteration", "src/niapy/algorithms/other/mts.py: MultipleTrajectorySearchV1"]}
{"id": "C99", "title": "The hybrids of differential evolution and MTS return the best evaluated pair", "statement": "The eight classes of hde.py return the best evaluated pair, evaluate only inside the box, keep their population size (or halve it, never below two, when it is dynamic) and raise no exception of their own.", "quantifier": "every problem without NaN, every random stream, every arithmetic, every strategy and setting with one to three local searches", "why_tests_cant": "All runs; the local searches change the individuals after selection and the best solution is taken again from what they leave.", "anchors": ["src/niapy/algorithms/modified/hde.py: DifferentialEvolutionMTS", "src/niapy/algorithms/modified/hde.py: DifferentialEvolutionMTSv1", "src/niapy/algorithms/modified/hde.py: DynNpDifferentialEvolutionMTS", "src/niapy/algorithms/modified/hde.py: MultiStrategyDifferentialEvolutionMTS", "src/niapy/algorithms/modified/hde.py: DynNpMultiStrategyDifferentialEvolutionMTS"]}
{"id": "C100", "title": "Individuals of the hybrids never get worse and the enabled ones are chosen by grade", "statement": "Without a dynamic size no individual gets worse; one that is not enabled changes only when its child is strictly better; after an iteration num_enabled individuals are enabled according to their grades.", "quantifier": "every reached state", "why_tests_cant": "All states and executions.", "anchors": ["src/niapy/algorithms/modified/hde.py: DifferentialEvolutionMTS.post_selection", "src/niapy/algorithms/modified/hde.py: MtsIndividual"]}
{"id": "C101", "title": "Runs of the hybrids end when the evaluations are limited", "statement": "With a finite max_evals every run of the eight classes ends.", "quantifier": "every problem, every random stream, every setting", "why_tests_cant": "Termination of all runs, including the while loop of mts_ls3v1.", "anchors": ["src/niapy/algorithms/modified/hde.py: DifferentialEvolutionMTS.post_selection", "src/niapy/algorithms/modified/hde.py: DifferentialEvolutionMTSv1", "src/niapy/algorithms/other/mts.py: mts_ls3v1"]}
{"id": "C102", "title": "CamelAlgorithm returns the best evaluated pair", "statement": "A run evaluates only inside the box, keeps its population size, raises no exception of its own and returns the best evaluated pair.", "quantifier": "every problem without NaN, every random stream, every arithmetic, every population size above 0 and every parameter", "why_tests_cant": "All runs; camels may die before the best one is taken, so whether the best survives depends on the sign of the values and the death rate.", "anchors": ["src/niapy/algorithms/basic/ca.py: CamelAlgorithm.run_iteration", "src/niapy/algorithms/basic/ca.py: CamelAlgorithm.life_cycle", "src/niapy/algorithms/basic/ca.py: CamelAlgorithm.init_pop"]}
{"id": "C103", "title": "The life of the camels", "statement": "One iteration moves every camel as the formulas of Camel.next_x, next_supply, next_endurance and next_temperature say, evaluates only feasible positions, refills the improved camels that see the oasis, and replaces or ages the others. Between iterations every camel is settled and no older than the number of iterations; supply and endurance stay between 0 and their initial values.", "quantifier": "every state and every reached state", "why_tests_cant": "All states, random streams and numbers of iterations, with rounding.", "anchors": ["src/niapy/algorithms/basic/ca.py: Camel.next_x", "src/niapy/algorithms/basic/ca.py: Camel.next_supply", "src/niapy/algorithms/basic/ca.py: Camel.next_endurance", "src/niapy/algorithms/basic/ca.py: Camel.next_temperature", "src/niapy/algorithms/basic/ca.py: Camel.refill", "src/niapy/algorithms/basic/ca.py: Camel.next", "src/niapy/algorithms/basic/ca.py: CamelAlgorithm.walk", "src/niapy/algorithms/basic/ca.py: CamelAlgorithm.oasis", "src/niapy/algorithms/basic/ca.py: CamelAlgorithm.life_cycle"]}
{"id": "C104", "title": "Runs of CamelAlgorithm end when the evaluations are limited", "statement": "With a finite max_evals every run of CamelAlgorithm ends, and one iteration makes at most two evaluations per camel.", "quantifier": "every problem, every random stream, every parameter", "why_tests_cant": "Termination of all runs: an iteration that evaluates nothing does not advance the count.", "anchors": ["src/niapy/algorithms/basic/ca.py: CamelAlgorithm.walk", "src/niapy/algorithms/basic/ca.py: Camel.next_x", "src/niapy/algorithms/basic/ca.py: CamelAlgorithm.run_iteration"]}
{"id": "C105", "title": "KrillHerd returns the best evaluated pair", "statement": "A run evaluates only inside the box, keeps its population size, raises no exception of its own and returns the best evaluated pair; between iterations every krill has a position inside the box, a fitness value that is not NaN and two speeds of the dimension of the problem.", "quantifier": "every problem without NaN, every random stream, every arithmetic, every population size above 0 and every parameter", "why_tests_cant": "All runs and all reached states.", "anchors": ["src/niapy/algorithms/basic/kh.py: KrillHerd.run_iteration", "src/niapy/algorithms/basic/kh.py: KrillHerd.init_population", "src/niapy/algorithms/basic/kh.py: KrillHerd.get_food_location"]}
{"id": "C106", "title": "The motion of the krill", "statement": "One iteration evaluates the repaired mean of the herd weighted with the reciprocals of the fitness values, and moves every krill by the induced motion towards its neighbours, the foraging motion towards the food and the best krill and the diffusion, then crosses it with its old position and mutates it with the best krill, with the formulas and rates of the code.", "quantifier": "every state, every draw, every arithmetic", "why_tests_cant": "The relation of all states before and after an iteration, component by component, including which krill are neighbours.", "anchors": ["src/niapy/algorithms/basic/kh.py: KrillHerd.sense_range", "src/niapy/algorithms/basic/kh.py: KrillHerd.get_neighbours", "src/niapy/algorithms/basic/kh.py: KrillHerd.get_x", "src/niapy/algorithms/basic/kh.py: KrillHerd.get_k", "src/niapy/algorithms/basic/kh.py: KrillHerd.induce_neighbors_motion", "src/niapy/algorithms/basic/kh.py: KrillHerd.induce_foraging_motion", "src/niapy/algorithms/basic/kh.py: KrillHerd.induce_physical_diffusion", "src/niapy/algorithms/basic/kh.py: KrillHerd.delta_t", "src/niapy/algorithms/basic/kh.py: KrillHerd.crossover", "src/niapy/algorithms/basic/kh.py: KrillHerd.mutate", "src/niapy/algorithms/basic/kh.py: KrillHerd.get_food_location", "src/niapy/algorithms/basic/kh.py: KrillHerd.mutation_rate", "src/niapy/algorithms/basic/kh.py: KrillHerd.crossover_rate", "src/niapy/algorithms/basic/kh.py: KrillHerd.run_iteration"]}
{"id": "C107", "title": "Runs of KrillHerd end when the evaluations are limited", "statement": "With a finite max_evals every run of KrillHerd ends, and one iteration makes at most population_size + 1 evaluations.", "quantifier": "every problem, every random stream, every parameter, every arithmetic", "why_tests_cant": "Termination of all runs.", "anchors": ["src/niapy/algorithms/basic/kh.py: KrillHerd.run_iteration"]}
{"id": "C108", "title": "KrillHerd evaluates only points made of numbers", "statement": "Every point the herd evaluates consists of numbers within the bounds: no component is NaN.", "quantifier": "every problem without NaN and every random stream, in binary64", "why_tests_cant": "All runs; it depends on whether a fitness value is exactly zero.", "anchors": ["src/niapy/algorithms/basic/kh.py: KrillHerd.get_food_location", "src/niapy/algorithms/basic/kh.py: KrillHerd.induce_foraging_motion"]}
{"id": "C109", "title": "MantisSearchAlgorithm returns the best evaluated pair", "statement": "A run without normalize_space evaluates only inside the box, keeps its population size, raises no exception of its own and returns the best evaluated pair.", "quantifier": "every problem without NaN, every random stream, every arithmetic, every population size above 0, with reflection or with the repair function of the task", "why_tests_cant": "All runs; the initial population is evaluated twice, so it depends on the evaluations left and on the problem being a function.", "anchors": ["src/niapy/algorithms/basic/mshoa.py: MantisSearchAlgorithm.init_population", "src/niapy/algorithms/basic/mshoa.py: MantisSearchAlgorithm.run_iteration"]}
{"id": "C110", "title": "normalize_space does not change what is evaluated and returned", "statement": "With normalize_space every evaluated point lies in the box and the returned pair was evaluated.", "quantifier": "every problem without NaN, every random stream, in binary64", "why_tests_cant": "All runs; it depends on the rounding of the decoded point and on whether the first population is improved.", "anchors": ["src/niapy/algorithms/basic/mshoa.py: MantisSearchAlgorithm.init_population", "src/niapy/algorithms/basic/mshoa.py: MantisSearchAlgorithm._to_real", "src/niapy/algorithms/basic/mshoa.py: MantisSearchAlgorithm._from_real"]}
{"id": "C111", "title": "Reflection at the bounds", "statement": "The reflection throws every component back at the bound it has passed up to ten times and then puts it on the bound; the result is in the box, and a point of the box stays where it is.", "quantifier": "every point of the dimension of the bounds, every arithmetic", "why_tests_cant": "All points and all bounds, with the number of rounds.", "anchors": ["src/niapy/algorithms/basic/mshoa.py: MantisSearchAlgorithm._reflect_repair"]}
{"id": "C112", "title": "Polarization types", "statement": "Every mantis always has one of the types 1, 2 and 3, and the type of an angle between 0 and pi is the one of Eq. (5) of the paper.", "quantifier": "every reached state, in binary64; every angle and every arithmetic in which the multiples of pi/8 grow", "why_tests_cant": "All reached states; the first types are rounded random numbers.", "anchors": ["src/niapy/algorithms/basic/mshoa.py: MantisSearchAlgorithm._polarization_from_angles", "src/niapy/algorithms/basic/mshoa.py: MantisSearchAlgorithm.init_population", "src/niapy/algorithms/basic/mshoa.py: MantisSearchAlgorithm.run_iteration"]}
{"id": "C113", "title": "One iteration of MantisSearchAlgorithm", "statement": "Every mantis forages, attacks or defends according to its type, is reflected or repaired and evaluated, the best is replaced only by a strictly better one, and the new type is that of the eye whose angle is nearer to its reference angle; the initialization evaluates every point twice, and every run with limited evaluations ends.", "quantifier": "every state, every draw, every arithmetic, all settings of use_reflection and normalize_space", "why_tests_cant": "The relation of all states before and after an iteration, component by component.", "anchors": ["src/niapy/algorithms/basic/mshoa.py: MantisSearchAlgorithm.run_iteration", "src/niapy/algorithms/basic/mshoa.py: MantisSearchAlgorithm._polarization_from_angles", "src/niapy/algorithms/basic/mshoa.py: MantisSearchAlgorithm._angle_difference_from_type", "src/niapy/algorithms/basic/mshoa.py: MantisSearchAlgorithm.init_population"]}
{"id": "C114", "title": "AnarchicSocietyOptimization returns the best evaluated pair", "statement": "A run evaluates only inside the box, keeps its population size, raises no exception of its own but ValueError (and the exhausted retries of the random index), and returns the best evaluated pair.", "quantifier": "every problem without NaN, every random stream, every arithmetic, every population size above 0, all three combinations", "why_tests_cant": "All runs.", "anchors": ["src/niapy/algorithms/other/aso.py: AnarchicSocietyOptimization.init_population", "src/niapy/algorithms/other/aso.py: AnarchicSocietyOptimization.run_iteration", "src/niapy/algorithms/other/aso.py: elitism", "src/niapy/algorithms/other/aso.py: sequential", "src/niapy/algorithms/other/aso.py: crossover"]}
{"id": "C115", "title": "Personal bests of AnarchicSocietyOptimization", "statement": "Every personal best is an evaluated pair (or inf) that is no better than the best found and no worse than the member, and its fitness never gets worse.", "quantifier": "every reached state, every arithmetic", "why_tests_cant": "All reached states; all iterations.", "anchors": ["src/niapy/algorithms/other/aso.py: AnarchicSocietyOptimization.init_population", "src/niapy/algorithms/other/aso.py: AnarchicSocietyOptimization._update_personal_best", "src/niapy/algorithms/other/aso.py: AnarchicSocietyOptimization.run_iteration"]}
{"id": "C116", "title": "One iteration of AnarchicSocietyOptimization", "statement": "Every member uses its best neighbour within the normalized radius, a random other member and its three indices; each movement changes a slice or a random part of the components; elitism keeps the first best of the three repaired candidates, sequential chains the movements, crossover mixes the candidates and the member; the personal bests are replaced if strictly worse.", "quantifier": "every state, every draw, every arithmetic, all three combinations", "why_tests_cant": "The relation of all states before and after an iteration, component by component and evaluation by evaluation.", "anchors": ["src/niapy/algorithms/other/aso.py: AnarchicSocietyOptimization.run_iteration", "src/niapy/algorithms/other/aso.py: AnarchicSocietyOptimization._get_best_neighbor", "src/niapy/algorithms/other/aso.py: AnarchicSocietyOptimization._fi", "src/niapy/algorithms/other/aso.py: AnarchicSocietyOptimization._ei", "src/niapy/algorithms/other/aso.py: AnarchicSocietyOptimization._ii", "src/niapy/algorithms/other/aso.py: AnarchicSocietyOptimization._update_personal_best", "src/niapy/algorithms/other/aso.py: elitism", "src/niapy/algorithms/other/aso.py: sequential", "src/niapy/algorithms/other/aso.py: crossover", "src/niapy/algorithms/other/aso.py: _mp_c", "src/niapy/algorithms/other/aso.py: _mp_s", "src/niapy/algorithms/other/aso.py: _mp_p"]}
{"id": "C117", "title": "AnarchicSocietyOptimization raises no exceptions", "statement": "A run with at least two members in a box that is not a point raises no exception of its own.", "quantifier": "every problem without NaN, every random stream, in binary64", "why_tests_cant": "All runs; the neighbourhood must never be empty, which depends on rounding, and every choice of positions must be possible.", "anchors": ["src/niapy/algorithms/other/aso.py: AnarchicSocietyOptimization.run_iteration", "src/niapy/algorithms/other/aso.py: AnarchicSocietyOptimization._get_best_neighbor", "src/niapy/algorithms/other/aso.py: _mp_c", "src/niapy/algorithms/other/aso.py: _mp_s", "src/niapy/algorithms/other/aso.py: _mp_p"]}
{"id": "C118", "title": "CoralReefsOptimization returns the best evaluated pair", "statement": "A run evaluates only inside the box, raises no exception of its own but ValueError, IndexError and ZeroDivisionError (only IndexError if the counts leave corals for every operator and k is not 0), and returns the best evaluated pair.", "quantifier": "every problem without NaN, every random stream, every arithmetic, every population size above 0", "why_tests_cant": "All runs; a reef of any size.", "anchors": ["src/niapy/algorithms/basic/cro.py: CoralReefsOptimization.__init__", "src/niapy/algorithms/basic/cro.py: CoralReefsOptimization.run_iteration", "src/niapy/algorithms/basic/cro.py: CoralReefsOptimization.settling", "src/niapy/algorithms/basic/cro.py: CoralReefsOptimization.asexual_reproduction", "src/niapy/algorithms/basic/cro.py: CoralReefsOptimization.depredation"]}
{"id": "C119", "title": "The end of runs of CoralReefsOptimization", "statement": "At most k iterations are ever finished: exactly after the k-th the population is an array of numbers, on which the next iteration always raises; so a run that returns was stopped by the evaluations, the cutoff or a limit of at most k iterations.", "quantifier": "every k above 0, every run, every arithmetic", "why_tests_cant": "All runs of any length; that no longer run ever returns is a statement about all problems and random streams.", "anchors": ["src/niapy/algorithms/basic/cro.py: CoralReefsOptimization.depredation", "src/niapy/algorithms/basic/cro.py: CoralReefsOptimization.run_iteration"]}
{"id": "C120", "title": "The reef of CoralReefsOptimization grows, and larvae settle in free places", "statement": "Before depredation all corals are evaluated pairs inside the box, an iteration keeps every coral, appended corals are evaluated pairs, and they settle only where no coral is closer than phi.", "quantifier": "every reached state, every arithmetic", "why_tests_cant": "All reached states, reefs of any size.", "anchors": ["src/niapy/algorithms/basic/cro.py: CoralReefsOptimization.settling", "src/niapy/algorithms/basic/cro.py: CoralReefsOptimization.asexual_reproduction", "src/niapy/algorithms/basic/cro.py: CoralReefsOptimization.run_iteration"]}
{"id": "C121", "title": "One iteration of CoralReefsOptimization", "statement": "Random corals are crossed, the others brood, the larvae move for k rounds while they are closer than phi to a coral or a larva and then settle, children of the best corals settle likewise, and depredation follows every k-th time.", "quantifier": "every state, every draw, every arithmetic; that all larvae move in every round in binary64", "why_tests_cant": "The relation of all states before and after an iteration, component by component and evaluation by evaluation.", "anchors": ["src/niapy/algorithms/basic/cro.py: CoralReefsOptimization.run_iteration", "src/niapy/algorithms/basic/cro.py: CoralReefsOptimization.settling", "src/niapy/algorithms/basic/cro.py: CoralReefsOptimization.asexual_reproduction", "src/niapy/algorithms/basic/cro.py: CoralReefsOptimization.depredation", "src/niapy/algorithms/basic/cro.py: default_sexual_crossover", "src/niapy/algorithms/basic/cro.py: default_brooding", "src/niapy/algorithms/basic/cro.py: move_corals"]}
{"id": "C122", "title": "LionOptimizationAlgorithm evaluates inside the box and returns the best evaluated pair", "statement": "A run evaluates only inside the box, raises no exception of its own but IndexError, ValueError, OverflowError and ZeroDivisionError (only OverflowError if every pride gets a female and there is a nomad), and returns the best evaluated pair.", "quantifier": "every problem without NaN, every random stream, every arithmetic, every population size above 0", "why_tests_cant": "All runs; prides of any number and size.", "anchors": ["src/niapy/algorithms/basic/loa.py: LionOptimizationAlgorithm.init_population", "src/niapy/algorithms/basic/loa.py: LionOptimizationAlgorithm.init_population_data", "src/niapy/algorithms/basic/loa.py: LionOptimizationAlgorithm.run_iteration", "src/niapy/algorithms/basic/loa.py: LionOptimizationAlgorithm.hunting", "src/niapy/algorithms/basic/loa.py: LionOptimizationAlgorithm.move_to_safe_place", "src/niapy/algorithms/basic/loa.py: LionOptimizationAlgorithm.roaming", "src/niapy/algorithms/basic/loa.py: LionOptimizationAlgorithm.mating"]}
{"id": "C123", "title": "The lions of LionOptimizationAlgorithm", "statement": "Every lion holds an evaluated pair inside the box that is no worse than its current value, no iteration makes a lion or the global best worse, previous_iter_best_f is the best value at the end of every iteration, and the current position lies inside the box.", "quantifier": "every reached state, every arithmetic; previous_iter_best_f where v <= v + 1, in particular in binary64", "why_tests_cant": "All reached states; that v + 1 >= v for all binary64 values is beyond sampling.", "anchors": ["src/niapy/algorithms/basic/loa.py: LionOptimizationAlgorithm.run_iteration", "src/niapy/algorithms/basic/loa.py: LionOptimizationAlgorithm.data_correction", "src/niapy/algorithms/basic/loa.py: LionOptimizationAlgorithm.create_offspring", "src/niapy/algorithms/basic/loa.py: LionOptimizationAlgorithm.hunting"]}
{"id": "C124", "title": "The prides of LionOptimizationAlgorithm keep their sizes", "statement": "At the end of every iteration the population has its size without duplicates and consists of the prides followed by the nomads, each with the recorded and initial numbers of females and males and with its pride index.", "quantifier": "every reached state, every arithmetic, every parameters that give each pride a female and leave a nomad", "why_tests_cant": "An invariant over all executions, any number of prides and lions.", "anchors": ["src/niapy/algorithms/basic/loa.py: LionOptimizationAlgorithm.init_population_data", "src/niapy/algorithms/basic/loa.py: LionOptimizationAlgorithm.mating", "src/niapy/algorithms/basic/loa.py: LionOptimizationAlgorithm.defense", "src/niapy/algorithms/basic/loa.py: LionOptimizationAlgorithm.migration", "src/niapy/algorithms/basic/loa.py: LionOptimizationAlgorithm.population_equilibrium"]}
{"id": "C125", "title": "LionOptimizationAlgorithm with empty prides raises", "statement": "An iteration with an empty pride always raises; so with more prides than lions to share out the first iteration raises.", "quantifier": "every reached state, every arithmetic, every random stream", "why_tests_cant": "That no run whatever returns is a statement about all problems and random streams.", "anchors": ["src/niapy/algorithms/basic/loa.py: LionOptimizationAlgorithm.init_population_data", "src/niapy/algorithms/basic/loa.py: LionOptimizationAlgorithm.move_to_safe_place", "src/niapy/algorithms/basic/loa.py: LionOptimizationAlgorithm.hunting"]}
{"id": "C126", "title": "One iteration of LionOptimizationAlgorithm", "statement": "Hunting, moving to the safe place, roaming, mating, defense, migration and equilibrium are the specified steps in this order; in defense the worst males of each pride leave it, in equilibrium the worst nomads the population; has_improved says whether the best value of a lion got better.", "quantifier": "every state, every draw, every arithmetic", "why_tests_cant": "The relation of all states before and after an iteration, lion by lion and evaluation by evaluation.", "anchors": ["src/niapy/algorithms/basic/loa.py: LionOptimizationAlgorithm.run_iteration", "src/niapy/algorithms/basic/loa.py: LionOptimizationAlgorithm.hunting", "src/niapy/algorithms/basic/loa.py: LionOptimizationAlgorithm.move_to_safe_place", "src/niapy/algorithms/basic/loa.py: LionOptimizationAlgorithm.roaming", "src/niapy/algorithms/basic/loa.py: LionOptimizationAlgorithm.mating", "src/niapy/algorithms/basic/loa.py: LionOptimizationAlgorithm.defense", "src/niapy/algorithms/basic/loa.py: LionOptimizationAlgorithm.migration", "src/niapy/algorithms/basic/loa.py: LionOptimizationAlgorithm.population_equilibrium", "src/niapy/algorithms/basic/loa.py: LionOptimizationAlgorithm.data_correction"]}
{"id": "C127", "title": "The local searches and one iteration of MultipleTrajectorySearch", "statement": "Every local search that returns is the chain of its specified moves, evaluation by evaluation: positions, value, best, grade, improve flag and search range. An iteration grades each enabled member by its searches, applies the best graded search, keeps the disabled members and finally searches around the best with the bonuses 10 and 1, improve false and a tenth of the range.", "quantifier": "every state, every draw, every arithmetic, every parameters and list of searches", "why_tests_cant": "The relation of all inputs and outputs of each search, with any number of dimensions and loop passes.", "anchors": ["src/niapy/algorithms/other/mts.py: mts_ls1", "src/niapy/algorithms/other/mts.py: mts_ls1v1", "src/niapy/algorithms/other/mts.py: mts_ls2", "src/niapy/algorithms/other/mts.py: mts_ls3", "src/niapy/algorithms/other/mts.py: mts_ls3v1", "src/niapy/algorithms/other/mts.py: MultipleTrajectorySearch.grading_run", "src/niapy/algorithms/other/mts.py: MultipleTrajectorySearch.run_local_search", "src/niapy/algorithms/other/mts.py: MultipleTrajectorySearch.run_iteration"]}
{"id": "C128", "title": "The halving of the population of DynNpDifferentialEvolutionMTS", "statement": "The population is halved exactly when the number of iterations reaches max_evals // (p_max * size) + rp and it has more than 3 members; member i then is the better one of the members i and i + size // 2, the second one if equal, and nothing is evaluated or drawn; otherwise the population stays as it is.", "quantifier": "every population with MTS data, every p_max, rp, limit of evaluations and state", "why_tests_cant": "All populations of any size and all iteration numbers.", "anchors": ["src/niapy/algorithms/modified/hde.py: DynNpDifferentialEvolutionMTS.post_selection", "src/niapy/algorithms/basic/de.py: DynNpDifferentialEvolution.post_selection"]}
{"id": "C129", "title": "The parameters of all algorithm classes after construction", "statement": "For each of the 80 algorithm classes the constructor raises a TypeError exactly if one of the keyword arguments refused by the class is given, and otherwise get_parameters reports exactly the dictionary written down for the class: each key with the keyword argument it takes, its default, or a literal.", "quantifier": "every class, every set of keyword arguments, every type of values", "why_tests_cant": "All subsets of arguments of all classes, through multiple inheritance and super calls.", "anchors": ["src/niapy/algorithms/algorithm.py: Algorithm.__init__, set_parameters, get_parameters", "src/niapy/algorithms/*/*.py: __init__, set_parameters and get_parameters of every algorithm class"]}
{"id": "C130", "title": "set_parameters resets everything that is not given", "statement": "On an object constructed and configured any number of times, set_parameters raises a TypeError exactly if a refused argument is given (always for CoralReefsOptimization and EvolutionStrategyMp1), and otherwise get_parameters reports only the arguments given and defaults. For all classes without other defaults than their constructor the object then equals a freshly constructed one, but for the random generator, callbacks, stored exception and loop counters.", "quantifier": "every class, every history of calls of set_parameters, every set of keyword arguments", "why_tests_cant": "Arbitrary sequences of configurations of all classes.", "anchors": ["src/niapy/algorithms/algorithm.py: Algorithm.__init__, set_parameters, get_parameters", "src/niapy/algorithms/*/*.py: __init__, set_parameters and get_parameters of every algorithm class"]}
{"id": "C131", "title": "set_parameters(**get_parameters()) as a round trip", "statement": "For 18 classes the reported parameters are never accepted by set_parameters. For all others they are, and no attribute changes except for the listed ones (GlowwormSwarmOptimizationV2 and V3, OppositionVelocityClampingParticleSwarmOptimization, HybridSelfAdaptiveBatAlgorithm, AnarchicSocietyOptimization, MultipleTrajectorySearch and SimulatedAnnealing), which go back to their defaults.", "quantifier": "every class, every configured object", "why_tests_cant": "All configurations of all classes.", "anchors": ["src/niapy/algorithms/algorithm.py: Algorithm.__init__, set_parameters, get_parameters", "src/niapy/algorithms/*/*.py: __init__, set_parameters and get_parameters of every algorithm class"]}
{"id": "C132", "title": "Unknown keyword arguments are ignored silently", "statement": "A keyword argument that is neither a parameter of the class nor refused is accepted by the constructor and by set_parameters without an error, and get_parameters reports the same as without it.", "quantifier": "every class, every name and value, every configured object", "why_tests_cant": "All misspelt names of all classes.", "anchors": ["src/niapy/algorithms/algorithm.py: Algorithm.__init__, set_parameters, get_parameters", "src/niapy/algorithms/*/*.py: __init__, set_parameters and get_parameters of every algorithm class"]}
{"id": "C133", "title": "Seeking cats move by a roulette over the gap to the worst candidate", "statement": "In seeking mode CatSwarmOptimization makes the stated number of copies of the cat one after the other, weighs every candidate by its distance to the worst value relative to the spread of the values (1 if all values are equal, the worst value itself if that is infinite), moves the cat to the candidate where the running sum of the weights first reaches the drawn share of the total, and overwrites a random cat by the first candidate of the best value exactly when that value beats the best known one.", "quantifier": "every problem, random stream, setting, arithmetic and population", "why_tests_cant": "The statement fixes the whole result of a step for every random stream and every arithmetic, including infinite and equal values.", "anchors": ["src/niapy/algorithms/basic/cso.py: CatSwarmOptimization.seeking_mode", "src/niapy/algorithms/basic/cso.py: CatSwarmOptimization.weighted_selection"]}
{"id": "C134", "title": "Glowworms update light and range by the documented rules", "statement": "After an iteration of a glowworm swarm the luciferin of every glowworm is (1 - rho) times the old one plus gamma times its value (cut to 0 from below in version 1), and its decision range is the rule of the version applied to the number of other glowworms within range that have no more luciferin, cut to [0, sensing range]; the sensing range does not change.", "quantifier": "every problem, random stream, setting, distance, arithmetic and state, all four versions", "why_tests_cant": "The state after a step is given for all states and all versions.", "anchors": ["src/niapy/algorithms/basic/gso.py: GlowwormSwarmOptimization.run_iteration", "src/niapy/algorithms/basic/gso.py: calculate_luciferin and range_update of the four classes", "src/niapy/algorithms/basic/gso.py: GlowwormSwarmOptimization.get_neighbors"]}
{"id": "C135", "title": "The Euclidean distance in binary64", "statement": "euclidean is symmetric and never negative for all vectors, is not NaN between points with finite coordinates, is 0 from a point to itself and is not 0 between points that are at least 2^-537 apart in one coordinate; in binary64 it is not a metric: different points can be at distance 0, the triangle inequality can fail, and the distance of finite points can be infinite.", "quantifier": "all vectors of binary64 numbers of all lengths", "why_tests_cant": "Rounding, underflow and overflow for all of the 2^64 values per coordinate cannot be enumerated.", "anchors": ["src/niapy/util/distances.py: euclidean"]}
{"id": "C136", "title": "Center and mutated particle swarms follow their update rules", "statement": "Every particle of the center and mutated swarms takes the velocity of its rule, moves, is repaired and evaluated once, becomes its own best exactly when it is strictly better and the global best exactly when it is strictly better than that; the center swarm then evaluates the mean position and keeps it as the best exactly when it is not worse; the mutated swarms then make the stated number of trials around the best point in the direction of the mean velocity scaled to a largest component of 1, each kept exactly when it is not worse.", "quantifier": "every problem, repair, random stream, setting, arithmetic and swarm", "why_tests_cant": "The whole result of a step is given for all swarms and streams.", "anchors": ["src/niapy/algorithms/basic/pso.py: CenterParticleSwarmOptimization.run_iteration", "src/niapy/algorithms/basic/pso.py: MutatedParticleSwarmOptimization.run_iteration", "src/niapy/algorithms/basic/pso.py: MutatedCenterParticleSwarmOptimization.run_iteration", "src/niapy/algorithms/basic/pso.py: MutatedCenterUnifiedParticleSwarmOptimization.update_velocity"]}
{"id": "C137", "title": "Opposition and velocity clamping in OVCPSO", "statement": "With probability p0 an iteration evaluates the mirror image of every particle in the middle of the box and keeps the best of particles and images in order of their values, replaces personal bests that are strictly worse and takes the first one as the best exactly when it is strictly better; otherwise it moves the particles in turn with the weight w_max - (w_max - w_min) / max_iters * (iters + 1) and sets the velocity limits to sigma times the smallest and largest coordinates of the population. The first velocity limits are sigma (upper - lower) as minimum and sigma (lower - upper) as maximum.", "quantifier": "every problem, repair, random stream, setting, arithmetic and swarm", "why_tests_cant": "Both branches of the step are given for all swarms and streams.", "anchors": ["src/niapy/algorithms/basic/pso.py: OppositionVelocityClampingParticleSwarmOptimization.opposite_learning", "src/niapy/algorithms/basic/pso.py: OppositionVelocityClampingParticleSwarmOptimization.init_population", "src/niapy/algorithms/basic/pso.py: OppositionVelocityClampingParticleSwarmOptimization.run_iteration"]}
{"id": "C138", "title": "Comprehensive learning follows its exemplars", "statement": "In CLPSO a particle whose flag has reached m first makes an ordinary move with weight 1 and its flag becomes 0; then every entry of its exemplar is its own best entry if the drawn number exceeds the learning probability and otherwise that of the better of two drawn particles, its velocity is w v + c r (exemplar - x), and the new position, which is not repaired, is evaluated only if it is feasible, becoming its own best and the global best exactly when it is strictly better. The weight is w0 (w0 - w1) (iters + 1) / max_iters, the learning probabilities are 0.05 + 0.45 (exp(10 (i - 1) / (n - 1)) - 1) / (exp(10) - 1), and a swarm of one particle raises ZeroDivisionError.", "quantifier": "every problem, repair, random stream, setting, arithmetic and swarm", "why_tests_cant": "The whole result of a step is given for all swarms and streams.", "anchors": ["src/niapy/algorithms/basic/pso.py: ComprehensiveLearningParticleSwarmOptimizer.init", "src/niapy/algorithms/basic/pso.py: ComprehensiveLearningParticleSwarmOptimizer.generate_personal_best_cl", "src/niapy/algorithms/basic/pso.py: ComprehensiveLearningParticleSwarmOptimizer.update_velocity_cl", "src/niapy/algorithms/basic/pso.py: ComprehensiveLearningParticleSwarmOptimizer.run_iteration"]}
{"id": "C139", "title": "Documented minima of Schwefel, ModifiedSchwefel and Michalewicz", "statement": "In the documented box Schwefel and ModifiedSchwefel (every dimension) and Michalewicz (two dimensions, m = 10) are nowhere below their documented minimum and have it at the documented point, up to the rounding of the documented numbers.", "quantifier": "every dimension and every point of the box", "why_tests_cant": "All real vectors of the box; the functions have many local minima.", "anchors": ["src/niapy/problems/schwefel.py", "src/niapy/problems/michalewicz.py"]}
{"id": "C140", "title": "The genetic algorithm's selection and crossover functions return what their code says", "statement": "tournament_selection returns the best of ts distinct members of the population (for fitnesses that are not NaN). roulette_selection returns the member's point if the draw is below the cumulated share of the fitness sum up to that member, and the given best point otherwise. In the four crossover functions the loop that should pick another parent is never entered, so the partner is the member itself: two-point, multi-point and uniform crossover return the member's point unchanged, and crossover_uros mixes the point with itself.", "quantifier": "for all populations, indices, tournament sizes, rates, arithmetic operations and random draws", "why_tests_cant": "The draws and the population are unbounded; a test of crossover checks only length and bounds of the result, which the unchanged point satisfies.", "anchors": ["src/niapy/algorithms/basic/ga.py"]}
