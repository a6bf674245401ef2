{
 "claims": [
  {
   "property": "C01",
   "status": "proved",
   "theorems": [
    "C01_budget",
    "C01_history"
   ],
   "note": "Every finite history of Task calls, every problem (a function of the whole invocation history that may raise)."
  },
  {
   "property": "C02",
   "status": "proved",
   "theorems": [
    "C02_inert"
   ],
   "note": "Holds for every task state, not only reachable ones."
  },
  {
   "property": "C03",
   "status": "proved",
   "theorems": [
    "C03_best",
    "C03_best_unique"
   ],
   "note": "best_of is defined on the list of values the problem returned."
  },
  {
   "property": "C04",
   "status": "proved",
   "theorems": [
    "C04_log"
   ],
   "note": ""
  },
  {
   "property": "C05",
   "status": "proved",
   "theorems": [
    "C05_fitness_iters"
   ],
   "note": ""
  },
  {
   "property": "C06",
   "status": "proved",
   "theorems": [
    "C06_convergence_evals"
   ],
   "note": ""
  },
  {
   "property": "C07",
   "status": "proved",
   "theorems": [
    "C07_convergence_iters",
    "C07_entry"
   ],
   "note": ""
  },
  {
   "property": "C08",
   "status": "partial",
   "theorems": [
    "C08_sign_minimization_partial",
    "C08_sign_refuted",
    "C08_sign_general"
   ],
   "note": "Holds for minimization. Refuted for maximization: fitness_evals stores sign-adjusted values, fitness_iters user values (task.py:128, 150)."
  },
  {
   "property": "C09",
   "status": "proved",
   "theorems": [
    "C09_duality"
   ],
   "note": "Signed zeros are identified in the model."
  },
  {
   "property": "C10",
   "status": "proved",
   "theorems": [
    "C10_cutoff",
    "C10_nothing_after",
    "C10_default_never_stops"
   ],
   "note": "The 'exactly when' part assumes that the initial infinity does not already reach the cutoff (a cutoff of +inf for minimization stops the task at once)."
  },
  {
   "property": "C100",
   "status": "partial",
   "theorems": [
    "C100_step",
    "C100_fitness",
    "C100_grades_refuted"
   ],
   "note": "Proved, with the enabled ones being those at the first positions of np.argsort of zeros; refuted that grades matter (post_selection sorts by the attribute grade, which is never written)."
  },
  {
   "property": "C101",
   "status": "partial",
   "theorems": [
    "C101_terminates",
    "C101_forever",
    "C101_v1_refuted"
   ],
   "note": "Proved without mts_ls3v1, for every arithmetic; refuted for the V1 classes in binary64 when upper - lower overflows: the first iteration never returns."
  },
  {
   "property": "C102",
   "status": "partial",
   "theorems": [
    "C102_sound",
    "C102_sound_ok",
    "C102_best",
    "C102_best_64",
    "C102_negative_refuted",
    "C102_zero_refuted"
   ],
   "note": "Proved: the box, the size and that the returned pair was evaluated, for every arithmetic; that it is the best when a death needs a worse value, in particular in binary64 for a death rate in [0,1] and values that are not negative. Refuted for negative values (also for maximization of positive ones) and for a maximal temperature or initial endurance of zero (ZeroDivisionError)."
  },
  {
   "property": "C103",
   "status": "partial",
   "theorems": [
    "C103_step",
    "C103_reached",
    "C103_supply_64",
    "C103_endurance_refuted"
   ],
   "note": "The iteration, settled camels, ages and (binary64) supply are proved; that the endurance stays below its initial value is refuted."
  },
  {
   "property": "C104",
   "status": "partial",
   "theorems": [
    "C104_evals",
    "C104_endless",
    "C104_endless_refuted"
   ],
   "note": "The bound on the evaluations is proved; termination is refuted in binary64: once the endurance of all camels has overflowed no camel moves and no evaluation is made."
  },
  {
   "property": "C105",
   "status": "proved",
   "theorems": [
    "C105_best",
    "C105_herd"
   ],
   "note": ""
  },
  {
   "property": "C106",
   "status": "proved",
   "theorems": [
    "C106_step"
   ],
   "note": ""
  },
  {
   "property": "C107",
   "status": "proved",
   "theorems": [
    "C107_ends",
    "C107_evals"
   ],
   "note": ""
  },
  {
   "property": "C108",
   "status": "partial",
   "theorems": [
    "C108_zero",
    "C108_stays",
    "C108_nan_refuted"
   ],
   "note": "Refuted: with a fitness value of zero the food location is 0/0 or inf/inf in every component. Proved in binary64: then the problem is called with a point of NaN, the foraging speed of every krill worse than the best becomes NaN, and a foraging speed of NaN stays."
  },
  {
   "property": "C109",
   "status": "partial",
   "theorems": [
    "C109_sound",
    "C109_best",
    "C109_room_refuted",
    "C109_noisy_refuted"
   ],
   "note": "Proved in general: evaluated points in the box, no exceptions, sizes, and the returned pair is consistent (sound_run). The returned pair is the best one for a problem that is a function of the point if there is room for the 2 * population_size evaluations of the initialization and no value reaches the cutoff value. Refuted without the room (the second evaluations are refused and count as inf) and for a problem that depends on the evaluations made before."
  },
  {
   "property": "C11",
   "status": "proved",
   "theorems": [
    "C11_eval",
    "C11_state"
   ],
   "note": ""
  },
  {
   "property": "C110",
   "status": "partial",
   "theorems": [
    "C110_init",
    "C110_pair_refuted",
    "C110_inside_refuted"
   ],
   "note": "Refuted: the initial population is returned in normalized coordinates with the fitness of the points it encodes, so a run that does not improve on it returns a point that was not evaluated with this value; with the bounds -9.8 and 0.9 a decoded point is larger than 0.9. Proved: what the initialization returns and evaluates."
  },
  {
   "property": "C111",
   "status": "proved",
   "theorems": [
    "C111_bounce",
    "C111_inside",
    "C111_fixed"
   ],
   "note": ""
  },
  {
   "property": "C112",
   "status": "proved",
   "theorems": [
    "C112_types",
    "C112_eq5"
   ],
   "note": ""
  },
  {
   "property": "C113",
   "status": "proved",
   "theorems": [
    "C113_step",
    "C113_init",
    "C113_ends"
   ],
   "note": ""
  },
  {
   "property": "C114",
   "status": "proved",
   "theorems": [
    "C114_best"
   ],
   "note": ""
  },
  {
   "property": "C115",
   "status": "proved",
   "theorems": [
    "C115_personal",
    "C115_monotone"
   ],
   "note": ""
  },
  {
   "property": "C116",
   "status": "proved",
   "theorems": [
    "C116_step"
   ],
   "note": ""
  },
  {
   "property": "C117",
   "status": "partial",
   "theorems": [
    "C117_self64",
    "C117_between",
    "C117_iteration64",
    "run_raise",
    "C117_best64",
    "C117_dim1",
    "C117_init",
    "C117_alone",
    "C117_dim1_refuted",
    "C117_box_refuted"
   ],
   "note": "Proved in binary64 for at least two variables and a positive diameter of the box, if the repair returns numbers within the bounds (the exhausted retries of the random index are left open). Refuted for one variable: the internal irregularity of a member at its personal best is 0, so two distinct positions out of one are drawn, and no first iteration returns; refuted for a degenerate box (NaN distances). With one member no iteration returns."
  },
  {
   "property": "C118",
   "status": "proved",
   "theorems": [
    "C118_best",
    "C118_counts"
   ],
   "note": ""
  },
  {
   "property": "C119",
   "status": "proved",
   "theorems": [
    "C119_rounds",
    "C119_raise",
    "run_ret",
    "C119_end",
    "C119_iters_refuted"
   ],
   "note": "C119_iters_refuted: a run with a limit of k+1 iterations raises IndexError, because np.delete without an axis flattens the reef."
  },
  {
   "property": "C12",
   "status": "proved",
   "theorems": [
    "C12_limit",
    "C12_idempotent",
    "C12_repair_ok"
   ],
   "note": "NaN components stay NaN (np.clip); infinities covered"
  },
  {
   "property": "C120",
   "status": "partial",
   "theorems": [
    "C120_reef",
    "C120_grows",
    "C120_occupied_refuted"
   ],
   "note": "A larva settles if SOME coral is at least phi away (proved); that no coral is closer is refuted: np.where(distances >= phi)[0] lists a larva for every coral far away."
  },
  {
   "property": "C121",
   "status": "proved",
   "theorems": [
    "C121_step",
    "C121_move",
    "C121_update",
    "C121_copies",
    "C121_all64",
    "C121_first_refuted"
   ],
   "note": "The larvae are compared with themselves, so in binary64 with phi > 0 all of them move in every round (C121_all64); a first larva that is the only one too close does not move, because ind.any() asks for an index that is not 0 (C121_first_refuted); the first offspring and the second half are copies of their parents (C121_copies)."
  },
  {
   "property": "C122",
   "status": "partial",
   "theorems": [
    "C122_sound",
    "C122_fit",
    "C122_lost_refuted"
   ],
   "note": "Soundness of all runs is proved; that the best evaluated pair is returned is refuted: a male that visits it while roaming and moves on is expelled and removed by its current value before get_best (C122_lost_refuted, with stand-ins for the tangent and other transcendental functions)."
  },
  {
   "property": "C123",
   "status": "partial",
   "theorems": [
    "C123_lions",
    "C123_kept",
    "C123_prev",
    "C123_prev64",
    "C123_outside_refuted"
   ],
   "note": "The current position of a cub is not repaired and can lie outside the box (C123_outside_refuted); the rest is proved."
  },
  {
   "property": "C124",
   "status": "proved",
   "theorems": [
    "C124_prides",
    "C124_double_refuted"
   ],
   "note": "C124_double_refuted: without nomads population[-0:] is the whole population, so it doubles."
  },
  {
   "property": "C125",
   "status": "proved",
   "theorems": [
    "C125_empty",
    "C125_few",
    "C125_females_refuted"
   ],
   "note": "C125_females_refuted: prides without females raise as well."
  },
  {
   "property": "C126",
   "status": "proved",
   "theorems": [
    "C126_step",
    "C126_improved"
   ],
   "note": ""
  },
  {
   "property": "C127",
   "status": "proved",
   "theorems": [
    "C127_search",
    "C127_step"
   ],
   "note": ""
  },
  {
   "property": "C128",
   "status": "proved",
   "theorems": [
    "C128_halved"
   ],
   "note": ""
  },
  {
   "property": "C129",
   "status": "proved",
   "theorems": [
    "C129_classes",
    "C129_construct"
   ],
   "note": ""
  },
  {
   "property": "C13",
   "status": "proved",
   "theorems": [
    "C13_limit_inverse",
    "C13_repair_ok"
   ],
   "note": "NaN components stay NaN"
  },
  {
   "property": "C130",
   "status": "proved",
   "theorems": [
    "C130_classes",
    "C130_set",
    "C130_raises",
    "C130_fresh",
    "C130_defaults_refuted",
    "C130_kept_refuted"
   ],
   "note": ""
  },
  {
   "property": "C131",
   "status": "proved",
   "theorems": [
    "C131_raises",
    "C131_same",
    "C131_identity",
    "C131_identity_refuted"
   ],
   "note": ""
  },
  {
   "property": "C132",
   "status": "proved",
   "theorems": [
    "C132_construct",
    "C132_set"
   ],
   "note": ""
  },
  {
   "property": "C133",
   "status": "proved",
   "theorems": [
    "C133_seek"
   ],
   "note": ""
  },
  {
   "property": "C134",
   "status": "proved",
   "theorems": [
    "C134_state"
   ],
   "note": ""
  },
  {
   "property": "C135",
   "status": "proved",
   "theorems": [
    "C135_symmetric",
    "C135_nonneg",
    "C135_never_negative",
    "C135_self",
    "C135_any_order",
    "C135_apart",
    "C135_identity_refuted",
    "C135_triangle_refuted",
    "C135_finite_refuted"
   ],
   "note": "The model adds the squares from left to right; numpy.sum adds long arrays in blocks. C135_any_order proves symmetry, sign, self distance and separation for every order and bracketing of the additions."
  },
  {
   "property": "C136",
   "status": "proved",
   "theorems": [
    "C136_particle",
    "C136_iteration",
    "C136_velocity",
    "C136_center",
    "C136_mutated"
   ],
   "note": ""
  },
  {
   "property": "C137",
   "status": "proved",
   "theorems": [
    "C137_opposition",
    "C137_iteration",
    "C137_init"
   ],
   "note": ""
  },
  {
   "property": "C138",
   "status": "proved",
   "theorems": [
    "C138_particle",
    "C138_iteration",
    "C138_init"
   ],
   "note": ""
  },
  {
   "property": "C139",
   "status": "partial",
   "theorems": [
    "C139_schwefel",
    "C139_modified_schwefel",
    "C139_modified_schwefel_refuted",
    "C139_michalewicz"
   ],
   "note": "Proved within 0.00012 per dimension for Schwefel and 0.0001 for ModifiedSchwefel, and within 0.0003 for Michalewicz. Refuted: the documented place of the minimum of ModifiedSchwefel is outside of the box and the value there is more than 418 per dimension; the minimum is at 0. The documented minima of Michalewicz in 5 and 10 dimensions are not covered."
  },
  {
   "property": "C14",
   "status": "proved",
   "theorems": [
    "C14_wang",
    "C14_wang_exact",
    "C14_wang_binary64",
    "C14_overflow_refuted"
   ],
   "note": "rounding must also represent the doubled bounds; true of binary64 without overflow; with overflow (bounds above half the largest double) it is refuted"
  },
  {
   "property": "C140",
   "status": "proved",
   "theorems": [
    "C140_tournament",
    "C140_roulette",
    "C140_crossover"
   ],
   "note": "The functions as such; in a run the algorithm overwrites their results (C48). The arithmetic is arbitrary."
  },
  {
   "property": "C15",
   "status": "partial",
   "theorems": [
    "C15_reflect_exact",
    "C15_binary64_refuted"
   ],
   "note": "proved in exact arithmetic; refuted in binary64: the remainder may round up to the width of the box"
  },
  {
   "property": "C16",
   "status": "proved",
   "theorems": [
    "C16_rand"
   ],
   "note": "every stream of draws"
  },
  {
   "property": "C17",
   "status": "proved",
   "theorems": [
    "C17_is_feasible",
    "C17_length",
    "C17_default_repair_feasible"
   ],
   "note": ""
  },
  {
   "property": "C18",
   "status": "proved",
   "theorems": [
    "C18_scalar",
    "C18_seq",
    "C18_raises",
    "C18_objects"
   ],
   "note": "dimension a natural number, exact quotient in ceil (true below 2^53)"
  },
  {
   "property": "C19",
   "status": "proved",
   "theorems": [
    "C19_bounds",
    "C19_evaluate"
   ],
   "note": ""
  },
  {
   "property": "C20",
   "status": "proved",
   "theorems": [
    "C20_get_best",
    "C20_get_best_scalar",
    "C20_never_worse"
   ],
   "note": "NaN-free fitness arrays; ties go to the first population member"
  },
  {
   "property": "C21",
   "status": "partial",
   "theorems": [
    "C21_nan_refuted",
    "C21_nan_initial_refuted"
   ],
   "note": "The property is false of the code: numpy's argmin returns the first NaN, which then loses the comparison with the old best"
  },
  {
   "property": "C22",
   "status": "proved",
   "theorems": [
    "C22_protocol"
   ],
   "note": "every algorithm, callback behaviour and start state"
  },
  {
   "property": "C23",
   "status": "proved",
   "theorems": [
    "C23_iterations",
    "C23_terminates"
   ],
   "note": "termination assumes, as the property does, that each iteration itself returns"
  },
  {
   "property": "C24",
   "status": "partial",
   "theorems": [
    "C24_rs_refuted",
    "C24_gwo",
    "C24_mfo",
    "C24_sca",
    "C24_gsa",
    "C24_hs",
    "C24_hs1",
    "C24_ba",
    "C24_hba",
    "C24_aba",
    "C24_saba",
    "C24_hsaba",
    "C24_plba",
    "C24_cs",
    "C24_fpa",
    "C24_bbfwa",
    "C24_fwa",
    "C24_efwa",
    "C24_dynfwa",
    "C24_sa",
    "C24_nm",
    "C24_clonalg",
    "C24_de",
    "C24_dynnp_de",
    "C24_ms_de",
    "C24_dynnp_ms_de",
    "C24_aging_de",
    "C24_ga",
    "C24_bea",
    "C24_wvcpso",
    "C24_pso",
    "C24_cpso",
    "C24_mpso",
    "C24_mcpso",
    "C24_mcupso",
    "C24_ovcpso",
    "C24_fa",
    "C24_hc",
    "C24_fa_nan_refuted",
    "C24_bea_refuted",
    "C24_clpso_refuted",
    "C24_hho",
    "C24_mbo",
    "C24_foa",
    "C24_cso",
    "C24_jde",
    "C24_msjde",
    "C24_es",
    "C24_es_mpl",
    "C24_es_ml",
    "C24_bfo",
    "C24_gso",
    "C24_mke12",
    "C24_mke3",
    "C24_fss",
    "C24_shade"
   ],
   "note": "Refuted: RandomSearch on a box with lower = upper draws candidates forever, FireflyAlgorithm stops evaluating once all fitness values are NaN, BeesAlgorithm evaluates nothing when no bees are sent and there are no scouts, ComprehensiveLearningPSO stops evaluating when all particles are outside the box and the random numbers keep them there. Proved (max_evals = k implies at most k iterations, never endless) for the other modelled algorithms: GWO MFO SCA GSA HS BA-family CS FPA fireworks SA NM CLONALG DE-family GA PSO-family, FA on NaN-free problems, BEA with some bees, HC with fuel above k; HHO, MBO, FOA, and CSO unless a seeking cat has only itself to look at (then refuted, C79_endless_refuted; ABC with one bee: C76_one_refuted); jDE, MsjDE, the evolution strategies ((mu + lambda) with children; without them refuted, C83_endless_refuted); BFO with at least two cells (C84_single_refuted), GSO, MKE 1-3 (version 2 with c > 0, see C86_endless_refuted), FSS; SHADE, L-SHADE, iL-SHADE; not modelled algorithms are not covered."
  },
  {
   "property": "C25",
   "status": "proved",
   "theorems": [
    "C25_problem_exception",
    "C25_callback_exception",
    "C25_report"
   ],
   "note": ""
  },
  {
   "property": "C26",
   "status": "partial",
   "theorems": [
    "C26_bad_run_history_partial",
    "C26_bad_run_refuted",
    "C26_main_thread_refuted"
   ],
   "note": "The property is false of the code: the attribute is never cleared and not set in the main thread. Proved instead: bad_run() is true iff some run outside the main thread has ever raised"
  },
  {
   "property": "C27",
   "status": "proved",
   "theorems": [
    "C27_skip",
    "C27_reaches_all",
    "C27_all_skipped"
   ],
   "note": "scalar draws"
  },
  {
   "property": "C28",
   "status": "proved",
   "theorems": [
    "C28_numpy_init",
    "C28_individual_init",
    "C28_budget",
    "C28_min_budget"
   ],
   "note": ""
  },
  {
   "property": "C29",
   "status": "proved",
   "theorems": [
    "C29_evaluate",
    "C29_inside"
   ],
   "note": ""
  },
  {
   "property": "C30",
   "status": "partial",
   "theorems": [
    "C30_copy_refuted",
    "C30_copy_partial"
   ],
   "note": "The property is false of the code: copy() always resets the fitness to +inf"
  },
  {
   "property": "C31",
   "status": "proved",
   "theorems": [
    "C31_hook",
    "C31_all_called",
    "C31_history",
    "C31_hook_after"
   ],
   "note": "nested lists included; when a member raises, the later members are not called"
  },
  {
   "property": "C32",
   "status": "proved",
   "theorems": [
    "C32_runner"
   ],
   "note": "writing the export file is not modelled"
  },
  {
   "property": "C33",
   "status": "partial",
   "theorems": [
    "C33_refuted"
   ],
   "note": "refuted: results are filed under the class name, so the second instance overwrites the first"
  },
  {
   "property": "C34",
   "status": "partial",
   "theorems": [
    "C34_cli_refuted",
    "C34_rejected",
    "C34_accepted_partial",
    "C34_get_problem",
    "C34_get_algorithm",
    "C34_keys",
    "C34_optimization_type"
   ],
   "note": "refuted: both defaults and 14 of the 48 problem names raise KeyError; the others give the class of that name"
  },
  {
   "property": "C35",
   "status": "proved",
   "theorems": [
    "C35_crossover"
   ],
   "note": "all six cross_* operators"
  },
  {
   "property": "C36",
   "status": "proved",
   "theorems": [
    "C36_selection"
   ],
   "note": ""
  },
  {
   "property": "C37",
   "status": "proved",
   "theorems": [
    "C37_de"
   ],
   "note": "for every interpretation of float arithmetic and every repair function that honours the bounds"
  },
  {
   "property": "C38",
   "status": "proved",
   "theorems": [
    "C38_wvcpso",
    "C38_pso",
    "C38_velocity",
    "C38_particle",
    "C38_personal_best"
   ],
   "note": "for every interpretation of the floating point operations and every length-preserving velocity repair"
  },
  {
   "property": "C39",
   "status": "proved",
   "theorems": [
    "C39_ba",
    "C39_bat",
    "C39_rates"
   ],
   "note": "BatAlgorithm; step formula, loudness and pulse rate schedule"
  },
  {
   "property": "C40",
   "status": "proved",
   "theorems": [
    "C40_fa",
    "C40_pair",
    "C40_alpha"
   ],
   "note": ""
  },
  {
   "property": "C41",
   "status": "proved",
   "theorems": [
    "C41_cs",
    "C41_matrix",
    "C41_cuckoos",
    "C41_nests",
    "C41_replace",
    "C41_matrix_refuted"
   ],
   "note": "for repair functions that accept a matrix (limit, the default); with the others IndexError (refuted)"
  },
  {
   "property": "C42",
   "status": "proved",
   "theorems": [
    "C42_fpa",
    "C42_step",
    "C42_single_refuted"
   ],
   "note": "at least two flowers; one flower raises ValueError"
  },
  {
   "property": "C43",
   "status": "partial",
   "theorems": [
    "C43_gwo",
    "C43_leaders",
    "C43_step",
    "C43_iter",
    "C43_lead",
    "C43_three_best_refuted",
    "C43_two_refuted"
   ],
   "note": "Best pair, bounds, sizes, order of the leaders and the move formula are proved for population_size >= 3. Refuted: with two wolves a run raises IndexError, and the leaders need not be the three best points evaluated."
  },
  {
   "property": "C44",
   "status": "proved",
   "theorems": [
    "C44_mfo",
    "C44_any",
    "C44_step"
   ],
   "note": "C44_mfo assumes that in every iteration below max_iters the rounded number of flames is at least -n (checked for binary64, n = 30, max_iters = 100); without it the only further exception is IndexError (C44_any)."
  },
  {
   "property": "C45",
   "status": "proved",
   "theorems": [
    "C45_sca",
    "C45_step"
   ],
   "note": ""
  },
  {
   "property": "C46",
   "status": "proved",
   "theorems": [
    "C46_gsa",
    "C46_step"
   ],
   "note": ""
  },
  {
   "property": "C47",
   "status": "partial",
   "theorems": [
    "C47_hs",
    "C47_hs1",
    "C47_step",
    "C47_v1_bw",
    "C47_copy_repair_refuted"
   ],
   "note": "Proved for HarmonySearch and HarmonySearchV1 with repair functions that work in place (all shipped ones). Refuted for a repair function that returns a new array: the stored harmony is the unrepaired one."
  },
  {
   "property": "C48",
   "status": "partial",
   "theorems": [
    "C48_ga",
    "C48_step",
    "C48_tournament_refuted"
   ],
   "note": "Proved for every selection, crossover and mutation function of ga.py, dimension >= 1 and tournament_size between 1 and population_size; C48_step shows that the offspring only depends on the mutation (selection and crossover have no effect). Refuted: a larger tournament raises ValueError."
  },
  {
   "property": "C49",
   "status": "partial",
   "theorems": [
    "C49_bea",
    "C49_site",
    "C49_scout",
    "C49_iter",
    "C49_no_site_refuted",
    "C49_elite_refuted",
    "C49_many_sites_refuted"
   ],
   "note": "Proved for 1 <= m, e <= m <= population_size and dimension >= 1. Refuted otherwise: the best point is lost when m = 0 or e > m, IndexError when m > population_size."
  },
  {
   "property": "C50",
   "status": "partial",
   "theorems": [
    "C50_clonalg",
    "C50_decode",
    "C50_hyper",
    "C50_insertion",
    "C50_decode_refuted",
    "C50_no_clone_refuted"
   ],
   "note": "Proved when decoding stays within the bounds and at least one clone per member is made. Refuted in binary64 with bounds [-1.5, 0.3] and the default 16 bits (a point above the upper bound is evaluated), and with clone_factor * population_size < 1 (ValueError)."
  },
  {
   "property": "C51",
   "status": "partial",
   "theorems": [
    "C51_fwa_partial",
    "C51_fwa_inside_partial",
    "C51_counts",
    "C51_amplitudes",
    "C51_spark",
    "C51_gaussian",
    "C51_explode",
    "C51_select",
    "C51_fwa_refuted"
   ],
   "note": "Refuted as stated (C51_fwa_refuted, binary64): every iteration re-evaluates everything and reports the best of that, so the best point is lost when the budget runs out inside an iteration. Proved: the returned pair was evaluated, sizes, no exceptions but ValueError/OverflowError, every evaluated point has the right dimension and lies inside the bounds when the reflection does (C15); spark counts, amplitudes, sparks and selection exactly."
  },
  {
   "property": "C52",
   "status": "partial",
   "theorems": [
    "C52_sca_still",
    "C52_only_initial",
    "C52_explores_refuted",
    "C52_r1_binary64"
   ],
   "note": "Refuted: r1 = a - k (a/k) is zero in exact arithmetic, so nothing but the initial population is ever evaluated; in binary64 with the default a = 3, |r1| <= 2^-50 in every iteration."
  },
  {
   "property": "C53",
   "status": "partial",
   "theorems": [
    "C53_rs_value",
    "C53_rs_candidates",
    "C53_rs_no_candidates",
    "C53_rs_pair_partial",
    "C53_rs_pair_refuted"
   ],
   "note": "false with an evaluation limit only (the last candidate is paired with the first one's fitness); holds for deterministic problems with an iteration limit once an iteration was done; the returned value is always the best one"
  },
  {
   "property": "C54",
   "status": "partial",
   "theorems": [
    "C54_refuted",
    "C54_sa_accepts",
    "C54_sa_real",
    "C54_sa_sound",
    "C54_sa_best",
    "C54_sa_b64",
    "C54_sa_step"
   ],
   "note": "refuted: at every positive temperature every worsening move is accepted for every draw; the run itself returns the best evaluated pair"
  },
  {
   "property": "C55",
   "status": "proved",
   "theorems": [
    "C55_sphere",
    "C55_sphere2",
    "C55_sphere3",
    "C55_sum_squares",
    "C55_schumer_steiglitz",
    "C55_chung_reynolds",
    "C55_step",
    "C55_step2",
    "C55_step3",
    "C55_schwefel221",
    "C55_schwefel222",
    "C55_qing",
    "C55_bent_cigar",
    "C55_powell"
   ],
   "note": "over the reals; Powell in the dimensions that are multiples of four (in dimension 9 numpy raises), Qing inside its box up to dimension 250000"
  },
  {
   "property": "C56",
   "status": "proved",
   "theorems": [
    "C56_rastrigin",
    "C56_rosenbrock",
    "C56_griewank",
    "C56_ackley",
    "C56_salomon",
    "C56_ridge",
    "C56_zakharov",
    "C56_whitley",
    "C56_csendes",
    "C56_quintic",
    "C56_trid"
   ],
   "note": "over the reals; Ackley for every a, b >= 0 and every c"
  },
  {
   "property": "C57",
   "status": "partial",
   "theorems": [
    "C57_alpine1",
    "C57_dixon_price_actual",
    "C57_dixon_price",
    "C57_discus_refuted",
    "C57_levy_refuted",
    "C57_griewank_rosenbrock_refuted"
   ],
   "note": "refuted for Discus, Levy and ExpandedGriewankPlusRosenbrock (points of the box below the documented minimum); proved for Alpine1 and DixonPrice although they are not the documented functions"
  },
  {
   "property": "C58",
   "status": "proved",
   "theorems": [
    "C58_run_duality"
   ],
   "note": "the algorithm program is fixed; algorithms that read task.optimization_type directly (unevaluated Individuals) are not covered by this statement"
  },
  {
   "property": "C59",
   "status": "proved",
   "theorems": [
    "C59_multi_strategy",
    "C59_dynnp",
    "C59_dynnp_multi_strategy",
    "C59_aging",
    "C59_halve",
    "C59_when_halved",
    "C59_multi_mutations",
    "C59_lifetime",
    "C59_lifetime_cap",
    "C59_aging_step",
    "C59_increment",
    "C59_decrement",
    "C59_aging_refuted"
   ],
   "note": "AgingNpDE may additionally raise ValueError/OverflowError from round() of a non-finite lifetime (aging_exn); C59_aging_refuted shows it does, in binary64, once every fitness is 0"
  },
  {
   "property": "C60",
   "status": "partial",
   "theorems": [
    "C60_refuted",
    "C60_partial"
   ],
   "note": "refuted: exactly three exported classes are missing from the factory"
  },
  {
   "property": "C61",
   "status": "proved",
   "theorems": [
    "C61_mpso",
    "C61_cpso",
    "C61_mcpso",
    "C61_mcupso",
    "C61_center_inside_refuted"
   ],
   "note": "in-bounds evaluation for the center variants holds under mean_inside and is refuted for binary64"
  },
  {
   "property": "C62",
   "status": "proved",
   "theorems": [
    "C62_ovcpso",
    "C62_opposite_inside_refuted",
    "C62_velocity_bounds_refuted"
   ],
   "note": "in-bounds evaluation holds under opposite_inside and is refuted for binary64; the velocity bounds are swapped"
  },
  {
   "property": "C63",
   "status": "proved",
   "theorems": [
    "C63_clpso",
    "C63_clpso_64"
   ],
   "note": "int(random()*n) may round to n in an arbitrary arithmetic, so EIndex is allowed there; C63_clpso_64 excludes it in binary64 for n <= 2^53"
  },
  {
   "property": "C64",
   "status": "proved",
   "theorems": [
    "C64_hba",
    "C64_hba_type",
    "C64_bat",
    "C64_hba_refuted"
   ],
   "note": "holds for the strategies with a best argument; TypeError refutation for the others"
  },
  {
   "property": "C65",
   "status": "proved",
   "theorems": [
    "C65_aba",
    "C65_saba",
    "C65_hsaba",
    "C65_aba_bat",
    "C65_saba_bat",
    "C65_hsaba_bat"
   ],
   "note": ""
  },
  {
   "property": "C66",
   "status": "proved",
   "theorems": [
    "C66_plba",
    "C66_bat"
   ],
   "note": ""
  },
  {
   "property": "C67",
   "status": "partial",
   "theorems": [
    "C67_bbfwa",
    "C67_step",
    "C67_shape_refuted"
   ],
   "note": "Best pair, bounds, monotone firework and step formula proved for num_sparks >= 1. Refuted: the returned x may be a 1 x d matrix instead of a vector."
  },
  {
   "property": "C68",
   "status": "partial",
   "theorems": [
    "C68_efwa_partial",
    "C68_amplitudes",
    "C68_spark",
    "C68_gaussian",
    "C68_replace",
    "C68_select",
    "C68_efwa_refuted"
   ],
   "note": "Best point refuted (C68_efwa_refuted, binary64) as for C51; everything else proved: inside the bounds, returned pair evaluated, fireworks never worse, formulas."
  },
  {
   "property": "C69",
   "status": "partial",
   "theorems": [
    "C69_dynfwa_partial",
    "C69_deterministic",
    "C69_update",
    "C69_core_count",
    "C69_select",
    "C69_pair_refuted"
   ],
   "note": "Proved in full for problems that are functions of the point (C69_deterministic). For all problems the returned value is proved to be the best evaluated one; that the returned point was evaluated to it is refuted for noisy (history dependent) problems because best_x may alias population[0] (C69_pair_refuted)."
  },
  {
   "property": "C70",
   "status": "proved",
   "theorems": [
    "C70_drawn_inside"
   ],
   "note": "binary64 through Flocq (B64Spec.v affine64)"
  },
  {
   "property": "C71",
   "status": "proved",
   "theorems": [
    "C71_hc",
    "C71_hc_b64",
    "C71_hc_ends",
    "C71_hc_endless",
    "C71_hc_step"
   ],
   "note": "default neighborhood function; without a limit on evaluations the climb need not end (C71_hc_endless)"
  },
  {
   "property": "C72",
   "status": "partial",
   "theorems": [
    "C72_nm",
    "C72_nm_size",
    "C72_nm_no_expansion",
    "C72_nm_inside_refuted"
   ],
   "note": "best pair proved; points leave the bounds (refuted) and the expansion move is dead code (C72_nm_no_expansion)"
  },
  {
   "property": "C73",
   "status": "partial",
   "theorems": [
    "C73_sphere",
    "C73_sphere2",
    "C73_sphere3",
    "C73_sum_squares",
    "C73_schumer_steiglitz",
    "C73_chung_reynolds",
    "C73_step",
    "C73_step2",
    "C73_step3",
    "C73_schwefel221",
    "C73_schwefel222",
    "C73_qing",
    "C73_bent_cigar",
    "C73_powell",
    "C73_elliptic",
    "C73_rastrigin",
    "C73_rosenbrock",
    "C73_griewank",
    "C73_ackley",
    "C73_salomon",
    "C73_ridge",
    "C73_zakharov",
    "C73_whitley",
    "C73_trid",
    "C73_csendes",
    "C73_quintic",
    "C73_alpine2",
    "C73_cosine_mixture",
    "C73_hgbat",
    "C73_michalewicz",
    "C73_styblinski_tang",
    "C73_weierstrass",
    "C73_pinter",
    "C73_expanded_schaffer",
    "C73_discus_refuted",
    "C73_dixon_price_refuted",
    "C73_levy_refuted",
    "C73_alpine1_refuted",
    "C73_happy_cat_refuted",
    "C73_katsuura_refuted",
    "C73_perm_refuted",
    "C73_perm_actual",
    "C73_stepint_refuted",
    "C73_griewank_rosenbrock_refuted",
    "C73_modified_schwefel_refuted",
    "C73_schwefel",
    "C73_discus_actual",
    "C73_levy_actual",
    "C73_alpine1_actual",
    "C73_happy_cat_actual",
    "C73_katsuura_actual",
    "C73_stepint_actual",
    "C73_griewank_rosenbrock_actual",
    "C73_modified_schwefel_actual",
    "C73_schaffer",
    "C73_round",
    "C73_fmod",
    "C73_roll",
    "C73_powers"
   ],
   "note": "Refuted for Discus, DixonPrice, Levy, Alpine1, HappyCat, Katsuura, Perm, Stepint, ExpandedGriewankPlusRosenbrock and ModifiedSchwefel, where the _actual theorems (C57_dixon_price_actual for DixonPrice) say what is computed; proved for the others (Schwefel with the constant of the code, which the documentation rounds). C73_round, C73_fmod, C73_roll and C73_powers say what the numpy functions in the models do."
  },
  {
   "property": "C74",
   "status": "partial",
   "theorems": [
    "C74_elliptic",
    "C74_hgbat",
    "C74_perm",
    "C74_pinter",
    "C74_schaffer_n2",
    "C74_expanded_schaffer",
    "C74_weierstrass",
    "C74_styblinski_tang",
    "C74_happy_cat_refuted",
    "C74_katsuura_refuted",
    "C74_schaffer_n4_refuted",
    "C74_stepint_refuted",
    "C74_alpine2_refuted",
    "C74_cosine_mixture_refuted"
   ],
   "note": "Refuted for SchafferN4, HappyCat (two or more dimensions), Katsuura, Stepint, Alpine2 and CosineMixture; proved for the others, for StyblinskiTang up to the rounding of the documented numbers."
  },
  {
   "property": "C75",
   "status": "partial",
   "theorems": [
    "C75_hho",
    "C75_full",
    "C75_move",
    "C75_iter",
    "C75_best_refuted"
   ],
   "note": "Bounds, sizes, monotone best, move equations proved; the returned pair is the best evaluated one when no evaluation is refused and the problem is deterministic (C75_full). Refuted in general: a dive is evaluated, accepted and evaluated again, and the budget may end in between."
  },
  {
   "property": "C76",
   "status": "partial",
   "theorems": [
    "C76_abc",
    "C76_abc_64",
    "C76_employed",
    "C76_onlooker",
    "C76_rest",
    "C76_rest_run",
    "C76_two",
    "C76_one",
    "C76_limit_refuted",
    "C76_one_refuted"
   ],
   "note": "Best pair, sizes, the moves and the untouched half are proved (in binary64 without exceptions). Refuted: the counter of a source other than the last may pass the limit in the onlooker phase (stale loop variable); with population_size 2 or 3 no iteration can finish; with population_size 1 a run limited by max_evals never ends."
  },
  {
   "property": "C77",
   "status": "partial",
   "theorems": [
    "C77_mbo",
    "C77_clean",
    "C77_full",
    "C77_migrate",
    "C77_adjust",
    "C77_elite",
    "C77_best_refuted",
    "C77_keep_refuted",
    "C77_parts_refuted",
    "C77_one_component_refuted"
   ],
   "note": "Bounds, sizes, monotone best, operators and elite proved; best pair proved for runs without refused evaluations, deterministic problems and keep < population_size. Refuted: best pair in general and for keep = population_size; exceptions for a part of one butterfly and for one component."
  },
  {
   "property": "C78",
   "status": "proved",
   "theorems": [
    "C78_foa",
    "C78_rate_64",
    "C78_ages",
    "C78_local",
    "C78_global",
    "C78_survival",
    "C78_iter",
    "C78_parameters_refuted"
   ],
   "note": "Best pair for the admissible parameters (area limit and life time or local seeds positive, changes within the dimension); ValueError only for a transfer rate above 1 (C78_rate_64 excludes it in binary64). C78_parameters_refuted shows that the excluded parameters do raise."
  },
  {
   "property": "C79",
   "status": "partial",
   "theorems": [
    "C79_cso",
    "C79_cso_64",
    "C79_velocities",
    "C79_trace",
    "C79_copy",
    "C79_select",
    "C79_seek",
    "C79_tracing",
    "C79_modes",
    "C79_endless",
    "C79_best_refuted",
    "C79_parameters_refuted",
    "C79_endless_refuted"
   ],
   "note": "Bounds, sizes, velocities, monotone best, tracing, copies, roulette and seeking proved; no own exception for a mixture ratio in [0,1] in binary64. Refuted: the best candidate may be overwritten, so the result need not be the best evaluated pair; with one candidate per cat a run limited by max_evals never ends (C24_cso gives termination otherwise)."
  },
  {
   "property": "C80",
   "status": "partial",
   "theorems": [
    "C80_jde",
    "C80_params",
    "C80_params_64",
    "C80_evolve",
    "C80_select",
    "C80_weight_refuted"
   ],
   "note": "Best pair, sizes, no member worse, adaptation, mutation, evaluation and selection proved; every weight is 2 or lies between the limits in binary64. Refuted: the first population has weight 2, outside [f_lower, f_upper], and members keep it until they are adapted. The repair functions that use a random generator get a bound method and raise, which is not modelled."
  },
  {
   "property": "C81",
   "status": "proved",
   "theorems": [
    "C81_msjde_is_msde",
    "C81_msjde",
    "C81_default"
   ],
   "note": "Equality of runs for all environments, callbacks and fuel; hence C59_multi_strategy carries over."
  },
  {
   "property": "C82",
   "status": "partial",
   "theorems": [
    "C82_es",
    "C82_es_64",
    "C82_current",
    "C82_step",
    "mul64_not_neg",
    "C82_parameters_refuted"
   ],
   "note": "Best pair, monotonicity, one-fifth rule and step proved; in binary64 non-negative factors never make numpy raise. Refuted for k = 0 (ZeroDivisionError), mu = 0 and negative c_r (ValueError). EvolutionStrategyMp1.set_parameters passes mu twice and raises TypeError whenever called, so the class is modelled as constructed by its parent's run."
  },
  {
   "property": "C83",
   "status": "partial",
   "theorems": [
    "C83_mpl",
    "C83_mpl_64",
    "C83_mpl_step",
    "C83_mpl_endless",
    "C83_ml",
    "C83_ml_rho",
    "C83_ml_step",
    "C24_es_mpl",
    "C24_es_ml",
    "C83_no_children_refuted",
    "C83_endless_refuted"
   ],
   "note": "Best pair, sizes, survivor selection, success count proved; (mu, lambda) never changes a standard deviation from 1. Refuted: lam = 0 raises ZeroDivisionError in (mu, lambda) and never ends in (mu + lambda) under max_evals alone; with lam <= mu the population consists of all children over and over in birth order (C83_ml_step). np.argsort is modelled as a stable sort."
  },
  {
   "property": "C84",
   "status": "partial",
   "theorems": [
    "C84_bfo",
    "C84_inside_64",
    "C84_cells",
    "C84_step",
    "C84_cost",
    "C84_empty",
    "C24_bfo",
    "C84_single_refuted",
    "C84_counters_refuted",
    "C84_odd_refuted"
   ],
   "note": "Best pair, values of the cells, step, cost and termination for at least two cells proved. Refuted: population_size = 1 empties the population and a run limited by max_evals only never ends; the counters k and j of the object survive a run, so a second run differs; an odd population loses a cell at the first reproduction."
  },
  {
   "property": "C85",
   "status": "partial",
   "theorems": [
    "C85_gso",
    "C85_step",
    "C85_same_run",
    "C24_gso"
   ],
   "note": "Best pair, sizes and radii proved. The last part of the statement is false and its negation proved for all runs: C85_same_run shows that the light, the radii and the variant never influence the run (move_select always accumulates the probability of the glowworm itself, which is 0, so the glowworm to follow is drawn uniformly)."
  },
  {
   "property": "C86",
   "status": "partial",
   "theorems": [
    "C86_mke_any",
    "C86_mke",
    "C86_mke_64",
    "C86_state",
    "C86_step",
    "C86_personal",
    "C24_mke12",
    "C86_parameters_refuted",
    "C86_endless_refuted"
   ],
   "note": "Best pair, personal bests, number of kings, step and termination proved (version 2 with c > 0). Refuted: R > 1, c * d = 0 in version 1 and a single monkey in version 2 raise ValueError; version 2 with c = 0 and R = 1 evaluates nothing and never ends under max_evals alone."
  },
  {
   "property": "C87",
   "status": "partial",
   "theorems": [
    "C87_mke3_any",
    "C87_mke3",
    "C87_step",
    "C24_mke3",
    "C87_no_points_refuted"
   ],
   "note": "Proved for c > 0; c = 0 raises ValueError (refuted)."
  },
  {
   "property": "C88",
   "status": "proved",
   "theorems": [
    "C88_fss",
    "C88_fish",
    "C88_step",
    "C88_steps",
    "C88_weights",
    "C24_fss"
   ],
   "note": "Weights: w_scale / 2 before the first feeding, then limited (or NaN when the arithmetic gives NaN). C88_steps also records that the school weight used in the comparison is never updated and that update_steps drops the factor range of the initial steps."
  },
  {
   "property": "C89",
   "status": "partial",
   "theorems": [
    "C89_shade",
    "C89_shade_64",
    "C24_shade",
    "C89_small_refuted",
    "C89_pbest_refuted",
    "C89_infinite_refuted"
   ],
   "note": "Best pair, box and sizes proved for every arithmetic; in binary64 with at least three members, 0 <= pbest <= 1 and a bounded archive rate only RecursionError remains. Refuted: an infinite improvement puts NaN into the memory and cauchy recurses until RecursionError; two members raise ValueError; pbest_factor 2 raises IndexError."
  },
  {
   "property": "C90",
   "status": "partial",
   "theorems": [
    "C90_trial",
    "C90_inside_64",
    "C90_overflow_refuted"
   ],
   "note": "Proved for bounds up to 2^1022 (a component may be NaN when the formula gives NaN); refuted for bounds whose sum overflows."
  },
  {
   "property": "C91",
   "status": "proved",
   "theorems": [
    "C91_step"
   ],
   "note": ""
  },
  {
   "property": "C92",
   "status": "proved",
   "theorems": [
    "C92_worst",
    "C92_final_64"
   ],
   "note": "Binary64; the evaluation count seen by the last reduction equals max_evals."
  },
  {
   "property": "C93",
   "status": "partial",
   "theorems": [
    "C93_drawn_64",
    "C93_params_64",
    "C93_early_64",
    "C93_terminal",
    "C93_terminal_refuted"
   ],
   "note": "Ranges proved (a probability may be NaN when the memory is). Terminal entries stay terminal in SHADE and L-SHADE; refuted for iL-SHADE, which averages the terminal value with the old entry."
  },
  {
   "property": "C94",
   "status": "partial",
   "theorems": [
    "C94_mts",
    "C94_v1",
    "C94_keeps_limit",
    "C94_keeps_limit_inverse",
    "C94_keeps_rand",
    "C94_repair_refuted",
    "C94_searches_refuted"
   ],
   "note": "Proved for every arithmetic; with searches around the best solution the repair must leave components within the bounds alone (limit, limit_inverse and rand do). Refuted: a repair that moves them makes the run return a pair never evaluated; four searches raise IndexError; no search raises ValueError."
  },
  {
   "property": "C95",
   "status": "partial",
   "theorems": [
    "C95_search",
    "C95_pair",
    "C95_range",
    "C97_default_refuted",
    "C97_v1_refuted"
   ],
   "note": "All proved except that the returned pair was evaluated: proved for mts_ls1, mts_ls2 and mts_ls3v1, refuted for mts_ls1v1 and mts_ls3 (through C97). improve of mts_ls3 is not described."
  },
  {
   "property": "C96",
   "status": "partial",
   "theorems": [
    "C96_step",
    "C96_best_refuted"
   ],
   "note": "Proved with the lowest grades enabled; refuted that the best graded ones are."
  },
  {
   "property": "C97",
   "status": "partial",
   "theorems": [
    "C97_pairs",
    "C97_default_refuted",
    "C97_v1_refuted"
   ],
   "note": "Proved when only mts_ls1, mts_ls2 and mts_ls3v1 are used; refuted for the default searches of both classes."
  },
  {
   "property": "C98",
   "status": "partial",
   "theorems": [
    "C98_terminates",
    "C98_endless",
    "C98_endless_refuted"
   ],
   "note": "Proved for num_enabled >= 1, a test or search per member and searches other than mts_ls3v1; refuted for V1 with num_enabled = 0."
  },
  {
   "property": "C99",
   "status": "partial",
   "theorems": [
    "C99_value",
    "C99_best",
    "C99_default_refuted"
   ],
   "note": "The value, the box, the sizes and the exceptions are proved for all classes. That the returned point has the value is proved for the V1 classes (no mts_ls3) with a repair that leaves components within the bounds alone, and refuted for the default searches."
  }
 ]
}
