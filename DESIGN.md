# Formal model of NiaPy in Rocq (Coq 8.16.1)

Source: `/repo` (NiaOrg/NiaPy, `src/niapy`), read as text. Nothing is executed.
All Coq sources are in `rocq/theories`, one `-Q theories Verif` tree, plain `coq_makefile` build.

## Numbers

* `num` (theories/Num.v) stands for a binary64 value in code that only compares, copies and negates
  floats: `NaN | NInf | Fin z | PInf`, where `Fin z` is the number `z * 2^-1074`. Every finite double is such
  a number and IEEE comparison is exactly the order of the `z`, so comparisons, `min`, `max`, `argmin`, `clip`,
  multiplication by `OptimizationType.value` (+1.0/-1.0) are exact. The type has more values than binary64 (all
  integers `z`), so "for all" theorems are about a superset. `-0.0` and `0.0` are identified (no code modelled here
  distinguishes them).
* Other arithmetic in algorithms (`+ - * / exp sqrt ...`) is a record `fops` of *arbitrary* functions on `num`;
  algorithm theorems hold for every interpretation, in particular for IEEE arithmetic with its rounding, overflow
  and NaN.
* Where the arithmetic itself matters (wang, reflect, parameter formulas, benchmark functions) the
  model uses exact rationals/reals (Coq's `Q`, `R`), or an arbitrary monotone rounding, or the standard library's
  `SpecFloat` binary64 operations for concrete counterexamples. Each file says which.

## Effects

An algorithm is a program of the inductive type `prog A` (theories/Prog.v): it can finish, raise, call `task.eval`,
call `task.repair`, draw a random number, or read the task's counters. This is the whole interface between
an algorithm and the outside world, so theorems about "every algorithm" are theorems about every `prog`.

* `exec E p w` runs a program. `E` supplies: the task configuration, the problem (an arbitrary function of the
  whole history of previous problem calls and of the point; it may raise), the repair function, the random streams.
  Nothing about them is assumed unless a theorem lists it as a hypothesis.
* The world `w` holds the task state (`Task` fields that change), the random stream position and a ghost trace of all
  problem invocations with their outcomes. Specifications are stated about that trace.
* Exceptions are values (`Raise e`). Loops of unknown length take fuel; running out is the distinguished exception
  `EFuel`, and statements either exclude it or are about not reaching it.
* `wp` is a weakest precondition over an evaluation log with demonic choice for problem values, random draws, repair
  results and the moment the budget runs out; `wp_sound` relates it to `exec`.
* `Algorithm.run` is `run` (theories/Run.v), including callbacks (which may raise), the stop test, `next_iter`.

## Layout

Model files contain definitions with `file:lines` citations. Proof files contain lemmas. `Properties*.v` files hold the
final theorems and `Print Assumptions`, next to examples showing that the hypotheses are met by concrete cases.

| Files | Contents |
| --- | --- |
| Num, Fops, B64, B64Spec, B64Div | numbers, arbitrary arithmetic, the binary64 instance (`SpecFloat`) and its relation to the reals (Flocq's `IEEE754` lemmas) |
| Task, TaskSpec, TaskProofs(2), PropertiesTask | `task.py`, `OptimizationType`, histories of calls (C01-C11, C17) |
| Prog, Wp | programs, execution, weakest preconditions |
| Run, RunSpec, RunProofs(2), Reach, PropertiesRun | `algorithm.py` run/iteration generator/callback protocol; what "returns the best evaluated solution" means |
| Repair, PropertiesRepair | `util/repair.py` (C12-C16) |
| Infra, PropertiesInfra | `util/array.py`, `problem.py`, `callbacks.py`, `runner.py`, `factory.py`, `argparser.py` (C18-C19, C30-C34, C60) |
| GetBest, Indiv, IndivLib | `get_best`, `Individual` (C20, C21, C29) |
| AlgoLib, AlgTac, StepSpec, StepLib, PopLib, SortLib | invariants and tactics shared by the algorithm proofs |
| AlgDE, DESpec, AlgDEProofs, AlgAging, PropertiesDE(2) | `basic/de.py` |
| AlgPSO, AlgPSOProofs, PropertiesPSO | `basic/pso.py` |
| AlgBat, AlgBatProofs, PropertiesBat | `basic/ba.py`, `modified/{saba,hba,hsaba,plba}.py` |
| AlgSwarm, AlgSwarmProofs, PropertiesSwarm | `basic/{fa,cs,fpa}.py`, `util/random.py` |
| AlgBasic, AlgBasicProofs, PropertiesBasic | `basic/{gwo,mfo,sca,gsa,hs}.py` |
| AlgBasic2, AlgBasic2Proofs, PropertiesBasic2 | `basic/{hho,abc,mbo,foa,cso}.py` |
| AlgBasic3, AlgBasic3Proofs, PropertiesBasic3 | `basic/{bfo,gso,mke,fss}.py` |
| KeepLib, AlgMts, AlgMtsProofs, PropertiesMts, PropertiesMts2 | `other/mts.py`; the sharing of `best_x` and `current_x` is modelled (`l_b = None`), the while loop of `mts_ls3v1` takes fuel |
| AlgHde, AlgHdeProofs, PropertiesHde | `modified/hde.py`; what np.argsort gives for zeros is a parameter |
| AlgCa, AlgCaProofs, PropertiesCa (with CondLib, ThreadLib) | `basic/ca.py`; the temperature is not kept between steps |
| AlgKh, AlgKhProofs, PropertiesKh | `basic/kh.py`; the first speeds are zero vectors instead of the number zero, and the sum over a matrix goes through it row by row |
| Late | runs in which no evaluation of the initialization is refused |
| AlgMshoa, AlgMshoaProofs, PropertiesMshoa | `basic/mshoa.py`; np.pi and np.arccos are parameters; the draws of a type are made for all its mantises at once, as in the code; logging left out |
| AlgAso, AlgAsoProofs, PropertiesAso | `other/aso.py`; alpha, gamma, theta are lists of parameters; `dn` is the default Euclidean distance, `d` is not used by the code; the retries of `integers(n, skip=[i])` are bounded by a fuel parameter |
| AlgCro, AlgCroProofs, PropertiesCro | `basic/cro.py` with the default sexual_crossover and brooding; the flattened reef after depredation is a list of one-component rows with a flag; `np.argsort` is taken as stable; `set_parameters` is in Pycall/ParamTable |
| AlgLoa, AlgLoaProofs, PropertiesLoa | `basic/loa.py`; lions are numbered in the order of their creation and kept in a store, the population is a list of numbers, since Python objects are shared between lists; `pi` is a parameter |
| Guard, B64Mag, AlgShade, AlgShadeProofs, PropertiesShade, PropertiesShade2 | `modified/{shade,ilshade}.py`; `tan` is arbitrary, the recursion of `cauchy` is limited to `sh_depth` calls |
| AlgMod, AlgModProofs, PropertiesMod | `modified/jde.py`, `basic/es.py` |
| Det | runs in which no evaluation is refused (`full_run`) |
| B64Int | `int(n * r)` in binary64 (`idx_ok_64`, `share_ok_64`) |
| AlgEvo, AlgEvoProofs, PropertiesEvo, PropertiesGa | `basic/{ga,bea,clonalg}.py`, the bare bones fireworks algorithm |
| AlgFwa, AlgFwaProofs, PropertiesFwa, PropertiesFwa2 | `basic/fwa.py` |
| AlgOther, AlgOtherProofs, PropertiesOther | `other/{rs,hc,sa,nmm}.py` |
| Progress, Endless, PropertiesProgress(2) | termination under `max_evals`, runs that never end (C24) |
| Bench, BenchLib, PropertiesFormula, PropertiesFormula2, PropertiesMinima, PropertiesSchwefel | `problems/*.py` over the reals (C55-C57, C73, C74, C139) |
| Pycall, PycallProofs, ParamTable, ParamForms, ParamRows, ParamRounds, PropertiesParams | `__init__`, `set_parameters` and `get_parameters` of the 80 classes in `algorithms/**/*.py` (ParamTable, one definition per method) under Python's keyword calls, `super()` and C3 resolution order (Pycall); ParamForms lists the expected dictionaries (C129-C132). Values are opaque: a literal or function is `const` of its source text (1 and 1.0 are identified), any other expression an uninterpreted `op` of its operands that does not raise; calls from outside pass keyword arguments only; `self.callbacks.set_algorithm` and the docstrings are left out |
| PropertiesTight | exact steps of CatSwarmOptimization.seeking_mode and of the state of the glowworm swarms (definitions in AlgBasic2, AlgBasic3) |
| PropertiesDist | `util/distances.py` (definition `euclidean` in Fops) in binary64 |
| PropertiesPSO2 | exact steps of the particle swarm variants (definitions in AlgPSO) |
| PropertiesSca | the weight of `basic/sca.py` in binary64 (definitions in AlgBasic) |
| ExLib, ExLib2 | concrete environments for examples and counterexamples |

In `ExLib` the operations `fx`, `fxx`, `fxd`, `fxz` are exact integer-like interpretations of `fops` in which runs can be computed by
hand; `b64ops` (B64.v) is the binary64 interpretation of `+ - * / sqrt` (the transcendental functions of `b64ops` are constant
stubs, so no theorem is drawn from them). Both only serve as witnesses.

## What is modelled and what is not

Modelled: the files named in the table. Not modelled: plotting and export (`task.plot_convergence`, `Runner`'s export formats),
logging, documentation methods (`info`, `latex_code` as strings), `numpy`'s random generator itself (every stream of draws is allowed)
and the algorithms listed as missing at the end of this section.

Simplifications, also stated where they are made:

* Signed zeros are identified. Callbacks and problems do not mutate the arrays they are given. Repair works in place in the
  source; the model returns the new vector and the caller uses it (the source's callers do too).
* `rng.uniform(lo, hi)` yields a value of `[lo, hi]`; `B64Spec.affine64` justifies this for binary64 unless `hi - lo` overflows. It does
  not raise when `lo > hi`. `rng.random()` yields a value of `[0, 1 - 2^-53]`. `rng.normal` and the others yield any number.
* Fitness values are numpy floats, so a division by zero gives inf or nan and no exception, and `get_best`'s
  `isinstance(float)` test holds.
* `argsort` is a stable sort; `np.sum` is a left fold; `np.mean` of an empty list is left to the arithmetic; `round()` is exact
  (half to even); `int()` of a float is a total function of it except where an exception is modelled.
* `full_array` computes the exact ceiling. `str.lower` acts on ASCII. A `CallbackList` does not contain itself. `Runner` runs in one thread.
* PSO's velocity repair is a pure function that preserves the length.
* The algorithms that keep one point (random search, hill climbing, simulated annealing) hold it as a list of one row.
  Hill climbing is modelled with the default neighbourhood function.
* Fireworks: `population_size >= 1`; `rng.choice` with probabilities may return any index; `astype(int)` as `int()`.
* `while` loops of unknown length take fuel; `EFuel` stands for a loop that is still running.
* Benchmarks are functions on vectors of exact reals whose length is the dimension; Elliptic is defined from dimension 2.

No file of algorithms is left out.

## Trusted base

* Coq's kernel (and `vm_compute` for concrete counterexamples), checked again by `coqchk`.
* No axioms are declared. Theorems about `num`, tasks, programs and algorithms are closed under the global context.
  Theorems about benchmark functions and about exact real arithmetic use the axioms of Coq's `Reals`
  (`ClassicalDedekindReals.sig_forall_dec`, `ClassicalDedekindReals.sig_not_dec`,
  `FunctionalExtensionality.functional_extensionality_dep`, and `Classical_Prop.classic` where Coq's analysis library uses it);
  see the section "Assumptions per theorem" at the end, which is taken from the `Print Assumptions` output.
* The reading of Python/numpy semantics in the model: list/array operations, `np.argmin` (first NaN, else first minimum),
  `np.clip`, integer truncation, exceptions. Aliasing of numpy arrays is modelled by value; where an alias is observable, the
  definition's comment says so.
* Floating point rounding is not modelled in benchmark functions (they are real functions).

## Plan per property
* **C01** Evaluation budget is never exceeded: Task.v `task_eval`, call histories; invariant evals = number of trace entries, entries <= max_evals.
* **C02** A stopped task is inert: Task.v; stop is monotone along every call; eval is the identity on stopped states.
* **C03** task.x_f is the best value ever obtained: Task.v; invariant relating x_f to the trace, spec `is_best` over the list of obtained values.
* **C04** The improvement log is exactly the sequence of strict records: Task.v; spec: strict records of the trace defined independently (position-wise), equality with n_evals/fitness_evals.
* **C05** fitness_iters is a monotone per-iteration best record: Task.v; invariant by induction over histories.
* **C06** convergence_data('evals') is gap-free: Task.v `convergence_evals`; spec: consecutive integers and last improvement at or before e.
* **C07** convergence_data('iters') matches the iteration counter: Task.v; length invariant.
* **C08** The two convergence curves agree in sign: Task.v; proved for minimization, `_refuted` witness for maximization.
* **C09** Maximization is minimization of the negated problem: Task.v; bisimulation of two histories; later lifted to whole runs of every `prog`.
* **C10** Cutoff semantics: Task.v; iff over the trace.
* **C11** Task.eval returns the (sign-adjusted) problem value and propagates its exception: Task.v; direct from eval in running states, stated about the ghost trace.
* **C12** repair.limit is the projection onto the box: Repair.v `limit` on num vectors; spec: box membership, distance minimality per component.
* **C13** repair.limit_inverse wraps to the opposite bound: Repair.v `limit_inverse`.
* **C14** repair.wang is feasible under any monotone rounding: RepairR.v `wang` over R with an arbitrary monotone rounding.
* **C15** repair.reflect is feasible: RepairR.v `reflect` over R (proved) and over SpecFloat binary64 (`_refuted`).
* **C16** repair.rand is feasible and touches only violated components: Repair.v `rand` with arbitrary draws in the bounds.
* **C17** is_feasible decides box membership: Task.v/Repair.v.
* **C18** full_array produces a periodic array of the requested length: Array.v `full_array` with error values.
* **C19** Problem bounds and dimension checks: Problem.v.
* **C20** Algorithm.get_best returns a best member: GetBest.v; spec by membership and lower bound.
* **C21** get_best ignores NaN individuals: GetBest.v `_refuted` witness.
* **C22** The callback protocol of Algorithm.run: Run.v event trace; spec grammar of events.
* **C23** Algorithm.run terminates within max_iters iterations: Run.v; number of iterations bounded, fuel max_iters suffices.
* **C24** A finite max_evals alone guarantees termination: Run.v with the models of the algorithms concerned; `_refuted` by an infinite run (for every fuel).
* **C25** Exceptions of a run are reported: Run.v thread flag and exception slot.
* **C26** bad_run describes the last run: Run.v `_refuted` witness, two runs.
* **C27** integers(..., skip) never returns a skipped value: Prog.v `integers_skip` over arbitrary streams.
* **C28** Initial populations are well formed: Init.v with wp.
* **C29** Individual.evaluate yields a feasible, consistent individual: Individual.v.
* **C30** Individual.copy preserves the individual: Individual.v `_refuted` witness, plus the exact characterisation of when it holds.
* **C31** CallbackList delegates in order: Callbacks.v.
* **C32** Runner produces one result per algorithm, problem and repetition: Runner.v.
* **C33** Runner keeps the results of all configured algorithms: Runner.v `_refuted`.
* **C34** Every command line choice is accepted by the factories: Factory.v with the literal name tables; `_refuted` and the exact list of failing names.
* **C35** DE crossover operators mix mutant and parent: DE.v operators as programs, spec per component.
* **C36** DE selection is elitist per individual: DE.v selection.
* **C37** DifferentialEvolution: run returns the best evaluated solution: model run_iteration as a `prog`, invariant over the evaluation log, generic theorem of Run.v; if some part is false a `_refuted` theorem with a concrete run.
* **C38** ParticleSwarmAlgorithm and ParticleSwarmOptimization: run returns the best evaluated solution: model run_iteration as a `prog`, invariant over the evaluation log, generic theorem of Run.v; if some part is false a `_refuted` theorem with a concrete run.
* **C39** BatAlgorithm: run returns the best evaluated solution: model run_iteration as a `prog`, invariant over the evaluation log, generic theorem of Run.v; if some part is false a `_refuted` theorem with a concrete run.
* **C40** FireflyAlgorithm: run returns the best evaluated solution: model run_iteration as a `prog`, invariant over the evaluation log, generic theorem of Run.v; if some part is false a `_refuted` theorem with a concrete run.
* **C41** CuckooSearch: run returns the best evaluated solution: model run_iteration as a `prog`, invariant over the evaluation log, generic theorem of Run.v; if some part is false a `_refuted` theorem with a concrete run.
* **C42** FlowerPollinationAlgorithm: run returns the best evaluated solution: model run_iteration as a `prog`, invariant over the evaluation log, generic theorem of Run.v; if some part is false a `_refuted` theorem with a concrete run.
* **C43** GreyWolfOptimizer: run returns the best evaluated solution: model run_iteration as a `prog`, invariant over the evaluation log, generic theorem of Run.v; if some part is false a `_refuted` theorem with a concrete run.
* **C44** MothFlameOptimizer: run returns the best evaluated solution: model run_iteration as a `prog`, invariant over the evaluation log, generic theorem of Run.v; if some part is false a `_refuted` theorem with a concrete run.
* **C45** SineCosineAlgorithm: run returns the best evaluated solution: model run_iteration as a `prog`, invariant over the evaluation log, generic theorem of Run.v; if some part is false a `_refuted` theorem with a concrete run.
* **C46** GravitationalSearchAlgorithm: run returns the best evaluated solution: model run_iteration as a `prog`, invariant over the evaluation log, generic theorem of Run.v; if some part is false a `_refuted` theorem with a concrete run.
* **C47** HarmonySearch: run returns the best evaluated solution: model run_iteration as a `prog`, invariant over the evaluation log, generic theorem of Run.v; if some part is false a `_refuted` theorem with a concrete run.
* **C48** GeneticAlgorithm: run returns the best evaluated solution: model run_iteration as a `prog`, invariant over the evaluation log, generic theorem of Run.v; if some part is false a `_refuted` theorem with a concrete run.
* **C49** BeesAlgorithm: run returns the best evaluated solution: model run_iteration as a `prog`, invariant over the evaluation log, generic theorem of Run.v; if some part is false a `_refuted` theorem with a concrete run.
* **C50** ClonalSelectionAlgorithm: run returns the best evaluated solution: model run_iteration as a `prog`, invariant over the evaluation log, generic theorem of Run.v; if some part is false a `_refuted` theorem with a concrete run.
* **C51** FireworksAlgorithm: run returns the best evaluated solution: model run_iteration as a `prog`, invariant over the evaluation log, generic theorem of Run.v; if some part is false a `_refuted` theorem with a concrete run.
* **C52** SineCosineAlgorithm explores: exact arithmetic: the step factor is identically 0; `_refuted`.
* **C53** RandomSearch returns a consistent pair: model of RandomSearch; `_refuted` witness run.
* **C54** SimulatedAnnealing rejects bad moves with positive probability: real arithmetic of the acceptance rule; `_refuted`.
* **C55** Documented minima of the separable polynomial benchmarks: real models (lists of R), lower bound by induction on the vector, attained at the documented point.
* **C56** Documented minima of the non-separable and trigonometric benchmarks: real models (lists of R), lower bound by induction on the vector, attained at the documented point.
* **C57** Every benchmark has its documented minimum: real models; proved where true, `_refuted` point below the documented minimum otherwise.
* **C58** Maximizing f is minimizing -f, for whole runs: RunProofs2: bisimulation of two whole runs of the same program.
* **C59** Dynamic, multi-strategy and ageing DE variants return the best evaluated solution: AlgDE, AlgAging: as C37, with the changing population size.
* **C60** Every exported algorithm can be built by name: Infra: literal tables of exported classes; `_refuted` for the ones the factory cannot build.
* **C61** The mutated and center particle swarm variants report their best evaluated point: AlgPSO: as C38; `_refuted` for center points outside the bounds.
* **C62** OVCPSO reports its best evaluated point: AlgPSO: as C38; `_refuted` for points and velocities outside their bounds.
* **C63** CLPSO reports its best evaluated point: AlgPSO: as C38, plus the endless loop of C24.
* **C64** HybridBatAlgorithm returns the best evaluated point for every DE strategy it accepts: AlgBat with the DE operators of AlgDE.
* **C65** Adaptive, self-adaptive and hybrid self-adaptive bat algorithms return the best evaluated point: AlgBat: as C39.
* **C66** ParameterFreeBatAlgorithm returns the best evaluated point: AlgBat: as C39.
* **C67** BareBonesFireworksAlgorithm returns the best evaluated vector: AlgEvo: as C51.
* **C68** EnhancedFireworksAlgorithm returns the best evaluated solution and keeps its fireworks: AlgFwa: as C51.
* **C69** DynamicFireworksAlgorithm(Gauss) returns the best evaluated solution: AlgFwa: as C51; for functions of the point: nothing is evaluated before the selection, so its first spark, the aliased row, is evaluated again to the known value.
* **C70** Sampling by lower + range * random() stays inside the bounds: B64Spec: binary64 rounding is monotone, so lower + range * u rounds into the box; boundary cases with Flocq.
* **C71** HillClimbAlgorithm returns the best evaluated pair and its climb ends: AlgOther: as C53; termination of the climb in binary64.
* **C72** NelderMeadMethod returns the best evaluated pair: AlgOther: as C53.
* **C73** Every benchmark computes its documented formula: Bench over the reals against the documented sums and products (BenchLib `Sum`, `Prod`, 1-based components); `_refuted` points where they differ.
* **C74** Documented optima of the remaining benchmarks: Bench: as C55.
* **C75** HarrisHawksOptimization keeps the best of the hawks and moves as documented: invariant PopSeen plus best <= all fitness (AlgBasic2Proofs); C75_full uses Det.v (no refused evaluation, deterministic problem); counterexample by vm_compute
* **C76** ArtificialBeeColonyAlgorithm returns the best evaluated pair and replaces exhausted sources: IAcc invariant of IndivLib over the colony; one bee_eq relation for both phases; no_neighbor shows that one source can never have another one as neighbour; C76_one by quiet_endless
* **C77** MonarchButterflyOptimization keeps its elite and returns the best evaluated pair: sorted population invariant MboInv; the second evaluation repeats the first, so Det.v recovers the best pair; operators by fill_rows
* **C78** ForestOptimizationAlgorithm returns the best evaluated pair: all trees evaluated (Evald), the first tree of age zero by the reset of the best tree's age; survival = first area_limit of a sorted permutation
* **C79** CatSwarmOptimization keeps the best of the cats and its velocities bounded: invariant CsoInv (population seen, velocities in range); share_ok_64 for int(n * mr); termination by C24_cso, endless case by quiet_endless
* **C80** Self-adaptive DE keeps the best pair and its parameters within their limits: invariant Deco (members seen, fitness of members, predicate on the parameters); reach_c for the parameters; affine64 for the limits
* **C81** Multi-strategy self-adaptive DE is multi-strategy DE: simulation of the two programs (same_run), relation: equal up to the parameters
* **C82** (1 + 1) and (mu + 1) evolution strategies keep the best individual: Deco with one member; mul64_not_neg by the sign of binary_round_aux; reach_inv for current = best
* **C83** (mu + lambda) and (mu, lambda) evolution strategies keep mu individuals and the best pair: Deco; sort_on_perm/sort_on_sorted; cyc_blocks for lam <= mu; quiet_endless
* **C84** Bacterial foraging returns the best evaluated pair: invariant over the four lists of the cells; relation for swims; doi_inside for dispersal; quiet iterations for the empty population
* **C85** Glowworm swarms return the best evaluated pair and their radii stay within the sensing range: PopInv; own probability is 0 so the roulette never hits; same_run for the equality of runs
* **C86** Monkey king evolution 1 and 2 keep personal bests and the number of kings: invariant with kings counted; looped step relation; crowned as a set of distinct indices
* **C87** Monkey king evolution 3 returns the best evaluated pair: PopInv; masks as permutations of ones and zeros
* **C88** Fish school search returns the best evaluated pair and keeps weights limited: invariant on fish after each phase; induction on reached states for weights and steps
* **C89** SHADE, L-SHADE and iL-SHADE return the best evaluated pair: invariant ShInv on guarded iterations (evaluation counts within the limit); intervals of rounded results (B64Mag)
* **C90** current-to-pbest/1 with archive stays inside the box: relation per component; half64 for the midpoint
* **C91** One iteration of SHADE, L-SHADE and iL-SHADE follows the published rules: induction on sort, selection and memory; tr_sound
* **C92** Linear population size reduction removes the worst and ends at four: dropped as an inductive relation; relative error of the three operations of the line
* **C93** Parameters drawn from the success history stay in range: invariant with a predicate on the drawn parameters
* **C94** Multiple trajectory search returns the best evaluated pair: context that knows that repairs keep components inside the bounds (KeepLib); invariant of the local searches with best_x possibly shared
* **C95** Each local search of MTS keeps its contract: weakest preconditions from an assumed log (wp_base)
* **C96** Members of MTS never get worse and the enabled ones are chosen by grade: permutation and sortedness of argsort; induction on the members
* **C97** The population of MTS consists of evaluated pairs: the invariant of C94 with evaluated pairs; refuted by computed states
* **C98** Runs of MTS end when the evaluations are limited: programs that must evaluate (Progress); quiet iterations
* **C100** Individuals of the hybrids never get worse and the enabled ones are chosen by grade: relation between members through selection, local searches and flags
* **C101** Runs of the hybrids end when the evaluations are limited: programs that must evaluate (Progress); disp stays infinite
* **C99** The hybrids of differential evolution and MTS return the best evaluated pair: invariant: a member has its own value or one above the best; assumed-log argument for the value; computed counterexample
* **C102** CamelAlgorithm returns the best evaluated pair: invariant with a log of values that die worse (CondLib); computed counterexamples
* **C103** The life of the camels: relation along the population (ThreadLib); induction over reached states; intervals in binary64
* **C104** Runs of CamelAlgorithm end when the evaluations are limited: length of the log; programs that never evaluate (Endless) with an infinite endurance
* **C105** KrillHerd returns the best evaluated pair: invariant of the herd (PopLib)
* **C106** The motion of the krill: draw by draw through the iteration; components of vectors
* **C107** Runs of KrillHerd end when the evaluations are limited: an iteration evaluates the food first; length of the log
* **C108** KrillHerd evaluates only points made of numbers: binary64 sums with an infinite or NaN term; computed run
* **C109** MantisSearchAlgorithm returns the best evaluated pair: invariant of the population; with room no evaluation of the initialization is refused (Late), so both evaluations agree; computed runs
* **C110** normalize_space does not change what is evaluated and returned: draw by draw through the initialization; computed runs
* **C111** Reflection at the bounds: induction over the rounds, component by component
* **C112** Polarization types: invariant of the types; rounding of 1 + 2u in binary64 with Flocq; case analysis on the angle
* **C113** One iteration of MantisSearchAlgorithm: draw by draw through the iteration; rows by type
* **C114** AnarchicSocietyOptimization returns the best evaluated pair: invariant of population and personal bests
* **C115** Personal bests of AnarchicSocietyOptimization: invariant of population and personal bests
* **C116** One iteration of AnarchicSocietyOptimization: draw by draw through the iteration, the log threaded through the members
* **C117** AnarchicSocietyOptimization raises no exceptions: a point between the bounds minus itself is 0 in binary64 (Flocq), so it is its own neighbour; exceptions of runs traced to iterations; computed runs
* **C118** CoralReefsOptimization returns the best evaluated pair: invariant of reef, larvae and best
* **C119** The end of runs of CoralReefsOptimization: induction over the iterations; an iteration on an array of numbers cannot return
* **C120** The reef of CoralReefsOptimization grows, and larvae settle in free places: invariant of reef, larvae and best; computed iteration
* **C121** One iteration of CoralReefsOptimization: draw by draw through the iteration; a point between the bounds is at distance 0 from itself in binary64 (Flocq)
* **C122** LionOptimizationAlgorithm evaluates inside the box and returns the best evaluated pair: invariant of store, population and best; computed run
* **C123** The lions of LionOptimizationAlgorithm: invariant of store, population and best; addition of 1 in binary64 (Flocq)
* **C124** The prides of LionOptimizationAlgorithm keep their sizes: layout invariant through mating, defense, migration and equilibrium
* **C125** LionOptimizationAlgorithm with empty prides raises: an empty pride has no best male; the sizes computed by init_population_data
* **C126** One iteration of LionOptimizationAlgorithm: step by step through the iteration
* **C127** The local searches and one iteration of MultipleTrajectorySearch: chains of moves, one per loop of the searches
* **C128** The halving of the population of DynNpDifferentialEvolutionMTS: induction over the range of the comprehension
* **C129** The parameters of all algorithm classes after construction: class by class, computed for arbitrary keyword arguments
* **C130** set_parameters resets everything that is not given: the list of attribute names is an invariant of configured objects; class by class, computed for arbitrary values
* **C131** set_parameters(**get_parameters()) as a round trip: class by class, computed for arbitrary values
* **C132** Unknown keyword arguments are ignored silently: from C129 and C130: the expected dictionaries only look at the names they contain
* **C133** Seeking cats move by a roulette over the gap to the worst candidate: w_copy_tr in a chain of copies; first_true_before for the two searches
* **C134** Glowworms update light and range by the documented rules: execution taken apart at the binds, then entry by entry
* **C135** The Euclidean distance in binary64: sign symmetry of binary_round; Bplus/Bmult/Bsqrt_correct of Flocq; sums of numbers that are not negative dominate their terms
* **C136** Center and mutated particle swarms follow their update rules: execution taken apart at the binds; a loop is a chain of executions; column sums by induction on the rows
* **C137** Opposition and velocity clamping in OVCPSO: sort_by_perm and sort_by_sorted; row-wise minima by induction on the rows
* **C138** Comprehensive learning follows its exemplars: as C136, the exemplar entry by entry
* **C139** Documented minima of Schwefel, ModifiedSchwefel and Michalewicz: Bench: the highest wave of x sin(sqrt x) below 530 is at 13 pi / 2; Taylor polynomials of the cosine and a division by the square of the distance to the maximum; for Michalewicz Bernoulli and a tangent.
* **C140** The genetic algorithm's selection and crossover functions return what their code says: AlgEvo: weakest preconditions of the draws; the tournament through the specification of argmin

## Assumptions per theorem

Output of `Print Assumptions` for the theorems of MANIFEST.json; theorems not listed here are closed under the global context.

* `ClassicalDedekindReals.sig_forall_dec`:
  C73_roll.

* `ClassicalDedekindReals.sig_forall_dec`, `FunctionalExtensionality.functional_extensionality_dep`:
  C14_wang, C14_wang_exact, C15_reflect_exact, C55_sphere, C55_sphere2, C55_sphere3, C55_sum_squares, C55_schumer_steiglitz, C55_chung_reynolds, C55_step, C55_step2, C55_step3, C55_schwefel221, C55_schwefel222, C55_bent_cigar, C55_powell, C56_rosenbrock, C56_ridge, C56_zakharov, C56_quintic, C56_trid, C57_dixon_price_actual, C57_discus_refuted, C73_sphere, C73_sphere2, C73_sphere3, C73_sum_squares, C73_schumer_steiglitz, C73_chung_reynolds, C73_step, C73_step2, C73_step3, C73_schwefel221, C73_schwefel222, C73_qing, C73_bent_cigar, C73_powell, C73_rosenbrock, C73_ridge, C73_zakharov, C73_trid, C73_quintic, C73_styblinski_tang, C73_discus_refuted, C73_dixon_price_refuted, C73_katsuura_refuted, C73_perm_refuted, C73_perm_actual, C73_stepint_refuted, C74_perm, C74_styblinski_tang, C74_katsuura_refuted, C74_stepint_refuted, C73_discus_actual, C73_katsuura_actual, C73_stepint_actual, C73_round, C73_fmod.

* `ClassicalDedekindReals.sig_forall_dec`, `ClassicalDedekindReals.sig_not_dec`, `FunctionalExtensionality.functional_extensionality_dep`:
  C55_qing, C56_rastrigin, C56_griewank, C56_salomon, C56_whitley, C56_csendes, C57_alpine1, C57_griewank_rosenbrock_refuted, C73_rastrigin, C73_griewank, C73_ackley, C73_salomon, C73_whitley, C73_csendes, C73_alpine2, C73_cosine_mixture, C73_hgbat, C73_michalewicz, C73_weierstrass, C73_expanded_schaffer, C73_griewank_rosenbrock_refuted, C74_hgbat, C74_schaffer_n2, C74_expanded_schaffer, C74_weierstrass, C74_alpine2_refuted, C74_cosine_mixture_refuted, C73_schwefel, C73_levy_actual, C73_alpine1_actual, C73_griewank_rosenbrock_actual, C73_modified_schwefel_actual, C73_schaffer.

* `ClassicalDedekindReals.sig_forall_dec`, `ClassicalDedekindReals.sig_not_dec`, `Classical_Prop.classic`, `FunctionalExtensionality.functional_extensionality_dep`:
  C102_best_64, C103_supply_64, C112_types, C117_self64, C117_iteration64, C117_best64, C117_dim1, C121_all64, C123_prev64, C135_symmetric, C135_nonneg, C135_self, C135_any_order, C135_apart, C14_wang_binary64, C24_rs_refuted, C54_sa_real, C54_sa_b64, C56_ackley, C57_dixon_price, C57_levy_refuted, C63_clpso_64, C70_drawn_inside, C71_hc_b64, C73_elliptic, C73_pinter, C73_levy_refuted, C73_alpine1_refuted, C73_happy_cat_refuted, C73_modified_schwefel_refuted, C74_elliptic, C74_pinter, C74_happy_cat_refuted, C74_schaffer_n4_refuted, C76_abc_64, C76_limit_refuted, C78_rate_64, C79_cso_64, C80_params_64, C84_inside_64, C86_mke_64, C89_shade_64, C90_inside_64, C92_final_64, C52_r1_binary64, C73_happy_cat_actual, C73_powers, C139_schwefel, C139_modified_schwefel, C139_modified_schwefel_refuted, C139_michalewicz.

All of these axioms belong to the standard library (Coq.Logic, Coq.Reals). Flocq is used for lemmas about binary64 rounding; it adds none of its own.
