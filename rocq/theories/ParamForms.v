(** The expected parameters of the algorithm classes: what the constructors and set_parameters accept and what get_parameters
    reports, written down class by class for the properties C129-C132. *)
From Coq Require Import String List Bool Arith.
From Verif Require Import Task Pycall ParamTable PycallProofs.
Import ListNotations.
Local Open Scope string_scope.

(** ** The expected parameters *)
(** a reported value: the keyword argument [k], by default the literal [d]; a literal; a function of others *)
Inductive form : Type := Arg (k d : string) | Lit (s : string) | Fun (f : string) (l : list form).
(** a class, the keyword arguments it refuses and the dictionary of get_parameters *)
Definition row := (string * list string * list (string * form))%type.
Definition par (k d : string) : string * form := (k, Arg k d).
(** for objects just constructed *)
Definition constructors : list row := [
  ("Algorithm", [], [
    par "population_size" "50"; par "initialization_function" "default_numpy_init"; par "individual_type" "None"]);
  ("ArtificialBeeColonyAlgorithm", ["initialization_function"; "individual_type"], [
    par "population_size" "10"; ("initialization_function", Lit "default_individual_init"); ("individual_type", Lit "SolutionABC"); par "limit" "100"]);
  ("BatAlgorithm", [], [
    par "population_size" "40"; par "initialization_function" "default_numpy_init"; par "individual_type" "None"; par "loudness" "1";
    par "pulse_rate" "1"; par "alpha" "0.97"; par "gamma" "0.1"; par "min_frequency" "0"; par "max_frequency" "2"]);
  ("BeesAlgorithm", [], [
    par "population_size" "40"; par "initialization_function" "default_numpy_init"; par "individual_type" "None"; par "m" "5"; par "e" "4";
    par "ngh" "1"; par "nep" "4"; par "nsp" "2"]);
  ("BacterialForagingOptimization", [], [
    par "population_size" "50"; par "initialization_function" "default_numpy_init"; par "individual_type" "None"; par "n_chemotactic" "100";
    par "n_swim" "4"; par "n_reproduction" "4"; par "n_elimination" "2"; par "prob_elimination" "0.25"; par "step_size" "0.1"; par "swarming" "True";
    par "d_attract" "0.1"; par "w_attract" "0.2"; par "h_repel" "0.1"; par "w_repel" "10"]);
  ("CamelAlgorithm", [], [
    par "population_size" "50"; par "initialization_function" "self.init_pop"; par "individual_type" "Camel"; par "burden_factor" "0.25";
    par "death_rate" "0.5"; par "visibility" "0.5"; par "supply_init" "10"; par "endurance_init" "10"; par "min_temperature" "-10";
    par "max_temperature" "10"]);
  ("ClonalSelectionAlgorithm", [], [
    par "population_size" "10"; par "initialization_function" "default_numpy_init"; par "individual_type" "None"; par "clone_factor" "0.1";
    par "mutation_factor" "10"; par "num_rand" "1"; par "bits_per_param" "16"]);
  ("CoralReefsOptimization", [], [
    par "population_size" "25"; par "initialization_function" "default_numpy_init"; par "individual_type" "None"; par "phi" "0.4"; par "k" "25";
    ("cr", Arg "crossover_rate" "0.5"); ("mr", Arg "mutation_rate" "0.36"); par "asexual_reproduction_prob" "0.5"; par "depredation_prob" "0.3";
    par "broadcast_prob" "0.5"; par "sexual_crossover" "default_sexual_crossover"; par "brooding" "default_brooding"]);
  ("CuckooSearch", [], [
    par "population_size" "25"; par "initialization_function" "default_numpy_init"; par "individual_type" "None"; par "pa" "0.25"]);
  ("CatSwarmOptimization", [], [
    par "population_size" "30"; par "initialization_function" "default_numpy_init"; par "individual_type" "None"; par "mixture_ratio" "0.1";
    par "c1" "2.05"; par "smp" "3"; par "spc" "True"; par "cdc" "0.85"; par "srd" "0.2"; par "max_velocity" "1.9"]);
  ("DifferentialEvolution", [], [
    par "population_size" "50"; par "initialization_function" "default_individual_init"; par "individual_type" "Individual";
    par "differential_weight" "1"; par "crossover_probability" "0.8"; par "strategy" "cross_rand1"]);
  ("DynNpDifferentialEvolution", [], [
    par "population_size" "10"; par "initialization_function" "default_individual_init"; par "individual_type" "Individual";
    par "differential_weight" "1"; par "crossover_probability" "0.8"; par "strategy" "cross_rand1"; par "p_max" "50"; par "rp" "3"]);
  ("AgingNpDifferentialEvolution", ["individual_type"], [
    par "population_size" "50"; par "initialization_function" "default_individual_init"; ("individual_type", Lit "AgingIndividual");
    par "differential_weight" "1"; par "crossover_probability" "0.8"; par "strategy" "cross_rand1"; par "min_lifetime" "0"; par "max_lifetime" "12";
    par "delta_np" "0.3"; par "omega" "0.3"; par "age" "proportional"]);
  ("MultiStrategyDifferentialEvolution", ["strategy"], [
    par "population_size" "40"; par "initialization_function" "default_individual_init"; par "individual_type" "Individual";
    par "differential_weight" "1"; par "crossover_probability" "0.8"; ("strategy", Lit "multi_mutations");
    par "strategies" "(cross_rand1, cross_best1, cross_curr2best1, cross_rand2)"]);
  ("DynNpMultiStrategyDifferentialEvolution", ["strategy"], [
    par "population_size" "40"; par "initialization_function" "default_individual_init"; par "individual_type" "Individual";
    par "differential_weight" "1"; par "crossover_probability" "0.8"; ("strategy", Lit "multi_mutations"); par "p_max" "50"; par "rp" "3";
    par "strategies" "(cross_rand1, cross_best1, cross_curr2best1, cross_rand2)"]);
  ("EvolutionStrategy1p1", [], [
    par "initialization_function" "default_numpy_init"; par "individual_type" "IndividualES"; par "mu" "1"; par "k" "10"; par "c_a" "1.1";
    par "c_r" "0.5"; par "epsilon" "1e-20"]);
  ("EvolutionStrategyMp1", [], [
    par "initialization_function" "default_numpy_init"; par "individual_type" "IndividualES"; par "mu" "40"; par "k" "10"; par "c_a" "1.1";
    par "c_r" "0.5"; par "epsilon" "1e-20"]);
  ("EvolutionStrategyMpL", ["initialization_function"], [
    ("initialization_function", Lit "default_individual_init"); par "individual_type" "IndividualES"; par "mu" "1"; par "k" "10"; par "c_a" "1.1";
    par "c_r" "0.5"; par "epsilon" "1e-20"; par "lam" "45"]);
  ("EvolutionStrategyML", ["initialization_function"], [
    ("initialization_function", Lit "default_individual_init"); par "individual_type" "IndividualES"; par "mu" "1"; par "k" "10"; par "c_a" "1.1";
    par "c_r" "0.5"; par "epsilon" "1e-20"; par "lam" "45"]);
  ("FireflyAlgorithm", [], [
    par "population_size" "20"; par "initialization_function" "default_numpy_init"; par "individual_type" "None"; par "alpha" "1"; par "beta0" "1";
    par "gamma" "0.01"; par "theta" "0.97"]);
  ("ForestOptimizationAlgorithm", [], [
    par "population_size" "10"; par "initialization_function" "default_numpy_init"; par "individual_type" "None"; par "lifetime" "3";
    par "area_limit" "10"; par "local_seeding_changes" "1"; par "global_seeding_changes" "1"; par "transfer_rate" "0.3"]);
  ("FlowerPollinationAlgorithm", [], [
    par "population_size" "20"; par "initialization_function" "default_numpy_init"; par "individual_type" "None"; par "p" "0.8"]);
  ("FishSchoolSearch", [], [
    par "population_size" "30"; par "initialization_function" "default_numpy_init"; par "individual_type" "None"; par "step_individual_init" "0.1";
    par "step_individual_final" "0.0001"; par "step_volitive_init" "0.01"; par "step_volitive_final" "0.001"; par "min_w" "1"; par "w_scale" "500"]);
  ("BareBonesFireworksAlgorithm", [], [
    par "initialization_function" "default_numpy_init"; par "individual_type" "None"; par "num_sparks" "10"; par "amplification_coefficient" "1.5";
    par "reduction_coefficient" "0.5"]);
  ("FireworksAlgorithm", [], [
    par "population_size" "5"; par "initialization_function" "default_numpy_init"; par "individual_type" "None"; par "num_sparks" "50"; par "a" "0.04";
    par "b" "0.8"; par "max_amplitude" "40"; par "num_gaussian" "5"]);
  ("EnhancedFireworksAlgorithm", [], [
    par "population_size" "5"; par "initialization_function" "default_numpy_init"; par "individual_type" "None"; par "num_sparks" "50"; par "a" "0.04";
    par "b" "0.8"; par "max_amplitude" "40"; par "num_gaussian" "5"; par "amplitude_init" "0.2"; par "amplitude_final" "0.01"]);
  ("DynamicFireworksAlgorithmGauss", [], [
    par "population_size" "5"; par "initialization_function" "default_numpy_init"; par "individual_type" "None"; par "num_sparks" "50"; par "a" "0.04";
    par "b" "0.8"; par "max_amplitude" "40"; par "num_gaussian" "5"; par "amplitude_init" "0.2"; par "amplitude_final" "0.01";
    par "amplification_coeff" "1.2"; par "reduction_coeff" "0.9"]);
  ("DynamicFireworksAlgorithm", [], [
    par "population_size" "5"; par "initialization_function" "default_numpy_init"; par "individual_type" "None"; par "num_sparks" "50"; par "a" "0.04";
    par "b" "0.8"; par "max_amplitude" "40"; par "num_gaussian" "5"; par "amplitude_init" "0.2"; par "amplitude_final" "0.01";
    par "amplification_coeff" "1.2"; par "reduction_coeff" "0.9"]);
  ("GeneticAlgorithm", [], [
    par "population_size" "25"; par "initialization_function" "default_individual_init"; par "individual_type" "Individual"; par "tournament_size" "5";
    par "mutation_rate" "0.25"; par "crossover_rate" "0.25"; par "selection" "tournament_selection"; par "crossover" "uniform_crossover";
    par "mutation" "uniform_mutation"]);
  ("GravitationalSearchAlgorithm", [], [
    par "population_size" "40"; par "initialization_function" "default_numpy_init"; par "individual_type" "None"; par "g0" "2.467";
    par "epsilon" "1e-17"]);
  ("GlowwormSwarmOptimization", [], [
    par "population_size" "25"; par "initialization_function" "default_numpy_init"; par "individual_type" "None"; par "l0" "5"; par "nt" "5";
    par "rho" "0.4"; par "gamma" "0.6"; par "beta" "0.08"; par "s" "0.03"; par "distance" "euclidean"]);
  ("GlowwormSwarmOptimizationV1", [], [
    par "population_size" "25"; par "initialization_function" "default_numpy_init"; par "individual_type" "None"; par "l0" "5"; par "nt" "5";
    par "rho" "0.4"; par "gamma" "0.6"; par "beta" "0.08"; par "s" "0.03"; par "distance" "euclidean"]);
  ("GlowwormSwarmOptimizationV2", [], [
    par "population_size" "25"; par "initialization_function" "default_numpy_init"; par "individual_type" "None"; par "l0" "5"; par "nt" "5";
    par "rho" "0.4"; par "gamma" "0.6"; par "beta" "0.08"; par "s" "0.03"; par "distance" "euclidean"]);
  ("GlowwormSwarmOptimizationV3", [], [
    par "population_size" "25"; par "initialization_function" "default_numpy_init"; par "individual_type" "None"; par "l0" "5"; par "nt" "5";
    par "rho" "0.4"; par "gamma" "0.6"; par "beta" "0.08"; par "s" "0.03"; par "distance" "euclidean"]);
  ("GreyWolfOptimizer", [], [
    par "population_size" "50"; par "initialization_function" "default_numpy_init"; par "individual_type" "None"]);
  ("HarrisHawksOptimization", [], [
    par "population_size" "40"; par "initialization_function" "default_numpy_init"; par "individual_type" "None"; par "levy" "0.01"]);
  ("HarmonySearch", [], [
    par "population_size" "30"; par "initialization_function" "default_numpy_init"; par "individual_type" "None"; par "r_accept" "0.7";
    par "r_pa" "0.35"; par "b_range" "1.42"]);
  ("HarmonySearchV1", [], [
    par "population_size" "30"; par "initialization_function" "default_numpy_init"; par "individual_type" "None"; par "r_accept" "0.7";
    par "r_pa" "0.35"; par "b_range" "1.42"; par "bw_min" "1"; par "bw_max" "2"]);
  ("KrillHerd", [], [
    par "population_size" "50"; par "initialization_function" "default_numpy_init"; par "individual_type" "None"; par "n_max" "0.01";
    par "foraging_speed" "0.02"; par "diffusion_speed" "0.002"; par "c_t" "0.93"; par "w_neighbor" "0.42"; par "w_foraging" "0.38"; par "d_s" "2.63";
    par "max_neighbors" "5"; par "crossover_rate" "0.2"; par "mutation_rate" "0.05"]);
  ("LionOptimizationAlgorithm", [], [
    par "population_size" "50"; par "initialization_function" "default_individual_init"; par "individual_type" "Lion"; par "nomad_ratio" "0.2";
    par "num_of_prides" "5"; par "female_ratio" "0.8"; par "roaming_factor" "0.2"; par "mating_factor" "0.3"; par "mutation_factor" "0.2";
    par "immigration_factor" "0.4"]);
  ("MonarchButterflyOptimization", [], [
    par "population_size" "20"; par "initialization_function" "default_numpy_init"; par "individual_type" "None"; par "partition" "5 / 12";
    par "period" "1.2"; ("keep", Lit "2"); ("bar", Arg "partition" "5 / 12");
    ("np1", Fun "int(np.ceil(_ * _))" [Arg "partition" "5 / 12"; Arg "population_size" "20"]);
    ("np2", Fun "_ - _" [Arg "population_size" "20"; Fun "int(np.ceil(_ * _))" [Arg "partition" "5 / 12"; Arg "population_size" "20"]])]);
  ("MothFlameOptimizer", [], [
    par "population_size" "50"; par "initialization_function" "default_numpy_init"; par "individual_type" "None"]);
  ("MonkeyKingEvolutionV1", [], [
    par "population_size" "40"; par "initialization_function" "default_individual_init"; par "individual_type" "MkeSolution";
    par "fluctuation_coeff" "0.7"; par "population_rate" "0.3"; par "c" "3"; par "fc" "0.5"]);
  ("MonkeyKingEvolutionV2", [], [
    par "population_size" "40"; par "initialization_function" "default_individual_init"; par "individual_type" "MkeSolution";
    par "fluctuation_coeff" "0.7"; par "population_rate" "0.3"; par "c" "3"; par "fc" "0.5"]);
  ("MonkeyKingEvolutionV3", [], [
    par "population_size" "40"; par "initialization_function" "default_numpy_init"; par "individual_type" "None"; par "fluctuation_coeff" "0.7";
    par "population_rate" "0.3"; par "c" "3"; par "fc" "0.5"]);
  ("MantisSearchAlgorithm", [], [
    par "population_size" "50"; par "initialization_function" "default_numpy_init"; par "individual_type" "None"; par "k_value" "0.3";
    par "use_reflection" "True"; par "normalize_space" "False"; par "debug_pti" "False"]);
  ("ParticleSwarmAlgorithm", [], [
    par "population_size" "25"; par "initialization_function" "default_numpy_init"; par "individual_type" "None"; par "c1" "2"; par "c2" "2";
    par "w" "0.7"; par "min_velocity" "-1.5"; par "max_velocity" "1.5"; par "repair" "reflect"]);
  ("ParticleSwarmOptimization", [], [
    par "population_size" "25"; par "initialization_function" "default_numpy_init"; par "individual_type" "None"; par "c1" "2"; par "c2" "2";
    par "repair" "reflect"]);
  ("OppositionVelocityClampingParticleSwarmOptimization", [], [
    par "population_size" "25"; par "initialization_function" "default_numpy_init"; par "individual_type" "None"; par "c1" "1.49612";
    par "c2" "1.49612"; ("w", Arg "w_max" "0.9"); par "repair" "reflect"; par "p0" "0.3"; par "w_min" "0.4"; par "w_max" "0.9"; par "sigma" "0.1"]);
  ("CenterParticleSwarmOptimization", [], [
    par "population_size" "25"; par "initialization_function" "default_numpy_init"; par "individual_type" "None"; par "c1" "2"; par "c2" "2";
    par "w" "0.7"; par "repair" "reflect"]);
  ("MutatedParticleSwarmOptimization", [], [
    par "population_size" "25"; par "initialization_function" "default_numpy_init"; par "individual_type" "None"; par "c1" "2"; par "c2" "2";
    par "w" "0.7"; par "repair" "reflect"; par "num_mutations" "10"]);
  ("MutatedCenterParticleSwarmOptimization", [], [
    par "population_size" "25"; par "initialization_function" "default_numpy_init"; par "individual_type" "None"; par "c1" "2"; par "c2" "2";
    par "w" "0.7"; par "repair" "reflect"; par "num_mutations" "10"]);
  ("MutatedCenterUnifiedParticleSwarmOptimization", [], [
    par "population_size" "25"; par "initialization_function" "default_numpy_init"; par "individual_type" "None"; par "c1" "2"; par "c2" "2";
    par "w" "0.7"; par "repair" "reflect"; par "num_mutations" "10"]);
  ("ComprehensiveLearningParticleSwarmOptimizer", [], [
    par "population_size" "25"; par "initialization_function" "default_numpy_init"; par "individual_type" "None"; par "c1" "2"; par "c2" "2";
    par "w" "0.7"; par "min_velocity" "-1.5"; par "max_velocity" "1.5"; par "repair" "reflect"; par "m" "10"; par "w0" "0.9"; par "w1" "0.4";
    par "c" "1.49445"]);
  ("SineCosineAlgorithm", [], [
    par "population_size" "25"; par "initialization_function" "default_numpy_init"; par "individual_type" "None"; par "a" "3"; par "r_min" "0";
    par "r_max" "2"]);
  ("HybridBatAlgorithm", [], [
    par "population_size" "40"; par "initialization_function" "default_numpy_init"; par "individual_type" "None"; par "loudness" "1";
    par "pulse_rate" "1"; par "alpha" "0.97"; par "gamma" "0.1"; par "min_frequency" "0"; par "max_frequency" "2"; par "differential_weight" "0.5";
    par "crossover_probability" "0.9"; par "strategy" "cross_best1"]);
  ("DifferentialEvolutionMTS", [], [
    par "population_size" "40"; par "initialization_function" "default_individual_init"; par "individual_type" "MtsIndividual";
    par "differential_weight" "1"; par "crossover_probability" "0.8"; par "strategy" "cross_rand1"; ("M", Arg "population_size" "40");
    par "num_tests" "5"; par "num_searches" "5"; par "num_searches_best" "5"; par "bonus1" "10"; par "bonus2" "1"; par "num_enabled" "17";
    par "local_searches" "(mts_ls1, mts_ls2, mts_ls3)"]);
  ("DifferentialEvolutionMTSv1", ["local_searches"], [
    par "population_size" "40"; par "initialization_function" "default_individual_init"; par "individual_type" "MtsIndividual";
    par "differential_weight" "1"; par "crossover_probability" "0.8"; par "strategy" "cross_rand1"; ("M", Arg "population_size" "40");
    par "num_tests" "5"; par "num_searches" "5"; par "num_searches_best" "5"; par "bonus1" "10"; par "bonus2" "1"; par "num_enabled" "17";
    ("local_searches", Lit "(mts_ls1v1, mts_ls2, mts_ls3v1)")]);
  ("DynNpDifferentialEvolutionMTS", [], [
    par "population_size" "40"; par "initialization_function" "default_individual_init"; par "individual_type" "MtsIndividual";
    par "differential_weight" "1"; par "crossover_probability" "0.8"; par "strategy" "cross_rand1"; par "p_max" "50"; par "rp" "3";
    ("M", Arg "population_size" "40"); par "num_tests" "5"; par "num_searches" "5"; par "num_searches_best" "5"; par "bonus1" "10"; par "bonus2" "1";
    par "num_enabled" "17"; par "local_searches" "(mts_ls1, mts_ls2, mts_ls3)"]);
  ("DynNpDifferentialEvolutionMTSv1", ["local_searches"], [
    par "population_size" "40"; par "initialization_function" "default_individual_init"; par "individual_type" "MtsIndividual";
    par "differential_weight" "1"; par "crossover_probability" "0.8"; par "strategy" "cross_rand1"; par "p_max" "50"; par "rp" "3";
    ("M", Arg "population_size" "40"); par "num_tests" "5"; par "num_searches" "5"; par "num_searches_best" "5"; par "bonus1" "10"; par "bonus2" "1";
    par "num_enabled" "17"; ("local_searches", Lit "(mts_ls1v1, mts_ls2, mts_ls3v1)")]);
  ("MultiStrategyDifferentialEvolutionMTS", ["strategy"], [
    par "population_size" "40"; par "initialization_function" "default_individual_init"; par "individual_type" "MtsIndividual";
    par "differential_weight" "1"; par "crossover_probability" "0.8"; ("strategy", Lit "multi_mutations"); ("M", Arg "population_size" "40");
    par "num_tests" "5"; par "num_searches" "5"; par "num_searches_best" "5"; par "bonus1" "10"; par "bonus2" "1"; par "num_enabled" "17";
    par "local_searches" "(mts_ls1, mts_ls2, mts_ls3)"; par "strategies" "(cross_rand1, cross_best1, cross_curr2best1, cross_rand2)"]);
  ("MultiStrategyDifferentialEvolutionMTSv1", ["local_searches"; "strategy"], [
    par "population_size" "40"; par "initialization_function" "default_individual_init"; par "individual_type" "MtsIndividual";
    par "differential_weight" "1"; par "crossover_probability" "0.8"; ("strategy", Lit "multi_mutations"); ("M", Arg "population_size" "40");
    par "num_tests" "5"; par "num_searches" "5"; par "num_searches_best" "5"; par "bonus1" "10"; par "bonus2" "1"; par "num_enabled" "17";
    ("local_searches", Lit "(mts_ls1v1, mts_ls2, mts_ls3v1)"); par "strategies" "(cross_rand1, cross_best1, cross_curr2best1, cross_rand2)"]);
  ("DynNpMultiStrategyDifferentialEvolutionMTS", ["strategy"], [
    par "population_size" "40"; par "initialization_function" "default_individual_init"; par "individual_type" "MtsIndividual";
    par "differential_weight" "1"; par "crossover_probability" "0.8"; ("strategy", Lit "multi_mutations"); par "p_max" "50"; par "rp" "3";
    ("M", Arg "population_size" "40"); par "num_tests" "5"; par "num_searches" "5"; par "num_searches_best" "5"; par "bonus1" "10"; par "bonus2" "1";
    par "num_enabled" "17"; par "local_searches" "(mts_ls1, mts_ls2, mts_ls3)";
    par "strategies" "(cross_rand1, cross_best1, cross_curr2best1, cross_rand2)"]);
  ("DynNpMultiStrategyDifferentialEvolutionMTSv1", ["local_searches"; "strategy"], [
    par "population_size" "40"; par "initialization_function" "default_individual_init"; par "individual_type" "MtsIndividual";
    par "differential_weight" "1"; par "crossover_probability" "0.8"; ("strategy", Lit "multi_mutations"); par "p_max" "50"; par "rp" "3";
    ("M", Arg "population_size" "40"); par "num_tests" "5"; par "num_searches" "5"; par "num_searches_best" "5"; par "bonus1" "10"; par "bonus2" "1";
    par "num_enabled" "17"; ("local_searches", Lit "(mts_ls1v1, mts_ls2, mts_ls3v1)");
    par "strategies" "(cross_rand1, cross_best1, cross_curr2best1, cross_rand2)"]);
  ("HybridSelfAdaptiveBatAlgorithm", [], [
    par "population_size" "100"; par "initialization_function" "default_numpy_init"; par "individual_type" "None"; par "starting_loudness" "0.5";
    par "epsilon" "0.001"; par "alpha" "1"; par "pulse_rate" "0.5"; par "min_frequency" "0"; par "max_frequency" "2"; par "min_loudness" "0.9";
    par "max_loudness" "1"; par "min_pulse_rate" "0.001"; par "max_pulse_rate" "0.1"; par "tao_1" "0.1"; par "tao_2" "0.1";
    par "differential_weight" "0.9"; par "crossover_probability" "0.85"]);
  ("ImprovedLpsrSuccessHistoryAdaptiveDifferentialEvolution", [], [
    par "population_size" "360"; par "initialization_function" "default_individual_init"; par "individual_type" "SolutionILSHADE";
    par "differential_weight" "1"; par "crossover_probability" "0.8"; par "strategy" "cross_rand1"; par "extern_arc_rate" "2.6";
    par "pbest_start" "0.2"; par "pbest_end" "0.1"; par "hist_mem_size" "6"]);
  ("SelfAdaptiveDifferentialEvolution", [], [
    par "population_size" "50"; par "initialization_function" "default_individual_init"; par "individual_type" "SolutionJDE";
    par "differential_weight" "1"; par "crossover_probability" "0.8"; par "strategy" "cross_rand1"; par "f_lower" "0"; par "f_upper" "1";
    par "tao1" "0.4"; par "tao2" "0.2"]);
  ("MultiStrategySelfAdaptiveDifferentialEvolution", [], [
    par "population_size" "50"; par "initialization_function" "default_individual_init"; par "individual_type" "SolutionJDE";
    par "differential_weight" "1"; par "crossover_probability" "0.8"; par "strategy" "multi_mutations"; par "f_lower" "0"; par "f_upper" "1";
    par "tao1" "0.4"; par "tao2" "0.2"; par "strategies" "(cross_curr2rand1, cross_curr2best1, cross_rand1, cross_best1, cross_best2)"]);
  ("ParameterFreeBatAlgorithm", ["population_size"], [
    ("population_size", Lit "80"); par "initialization_function" "default_numpy_init"; par "individual_type" "None"]);
  ("AdaptiveBatAlgorithm", [], [
    par "population_size" "100"; par "initialization_function" "default_numpy_init"; par "individual_type" "None"; par "starting_loudness" "0.5";
    par "epsilon" "0.001"; par "alpha" "1"; par "pulse_rate" "0.5"; par "min_frequency" "0"; par "max_frequency" "2"]);
  ("SelfAdaptiveBatAlgorithm", [], [
    par "population_size" "100"; par "initialization_function" "default_numpy_init"; par "individual_type" "None"; par "starting_loudness" "0.5";
    par "epsilon" "0.001"; par "alpha" "1"; par "pulse_rate" "0.5"; par "min_frequency" "0"; par "max_frequency" "2"; par "min_loudness" "0.9";
    par "max_loudness" "1"; par "min_pulse_rate" "0.001"; par "max_pulse_rate" "0.1"; par "tao_1" "0.1"; par "tao_2" "0.1"]);
  ("SuccessHistoryAdaptiveDifferentialEvolution", [], [
    par "population_size" "540"; par "initialization_function" "default_individual_init"; par "individual_type" "SolutionSHADE";
    par "differential_weight" "1"; par "crossover_probability" "0.8"; par "strategy" "cross_rand1"; par "extern_arc_rate" "2.6";
    par "pbest_factor" "0.11"; par "hist_mem_size" "6"]);
  ("LpsrSuccessHistoryAdaptiveDifferentialEvolution", [], [
    par "population_size" "540"; par "initialization_function" "default_individual_init"; par "individual_type" "SolutionSHADE";
    par "differential_weight" "1"; par "crossover_probability" "0.8"; par "strategy" "cross_rand1"; par "extern_arc_rate" "2.6";
    par "pbest_factor" "0.11"; par "hist_mem_size" "6"]);
  ("AnarchicSocietyOptimization", [], [
    par "population_size" "43"; par "initialization_function" "default_numpy_init"; par "individual_type" "None"; par "alpha" "(1, 0.83)";
    par "gamma" "(1.17, 0.56)"; par "theta" "(0.932, 0.832)"; par "nl" "1"; par "f" "1.2"; par "cr" "0.25"; par "combination" "elitism"]);
  ("HillClimbAlgorithm", [], [
    par "initialization_function" "default_numpy_init"; par "individual_type" "None"; par "delta" "0.5"; par "neighborhood_function" "neighborhood"]);
  ("MultipleTrajectorySearch", [], [
    par "initialization_function" "default_numpy_init"; par "individual_type" "None"; ("M", Arg "population_size" "40"); par "num_tests" "5";
    par "num_searches" "5"; par "num_searches_best" "5"; par "bonus1" "10"; par "bonus2" "1"; par "num_enabled" "17";
    par "local_searches" "(mts_ls1, mts_ls2, mts_ls3)"]);
  ("MultipleTrajectorySearchV1", [], [
    par "initialization_function" "default_numpy_init"; par "individual_type" "None"; ("M", Arg "population_size" "40"); par "num_tests" "5";
    par "num_searches" "5"; ("num_searches_best", Lit "0"); par "bonus1" "10"; par "bonus2" "1"; par "num_enabled" "17";
    ("local_searches", Lit "(mts_ls1v1, mts_ls2)")]);
  ("NelderMeadMethod", [], [
    par "population_size" "None"; par "initialization_function" "self.init_pop"; par "individual_type" "None"; par "alpha" "0.1"; par "gamma" "0.3";
    par "rho" "-0.2"; par "sigma" "-0.2"]);
  ("RandomSearch", [], [
    par "initialization_function" "default_numpy_init"; par "individual_type" "None"]);
  ("SimulatedAnnealing", [], [
    par "initialization_function" "default_numpy_init"; par "individual_type" "None"; par "delta" "0.5"; par "delta_temperature" "0.8";
    par "starting_temperature" "2000"; par "epsilon" "1e-23"])].
(** after set_parameters, where this differs from the constructor *)
Definition other_setters : list row := [
  ("BatAlgorithm", [], [
    par "population_size" "20"; par "initialization_function" "default_numpy_init"; par "individual_type" "None"; par "loudness" "1";
    par "pulse_rate" "1"; par "alpha" "0.97"; par "gamma" "0.1"; par "min_frequency" "0"; par "max_frequency" "2"]);
  ("CamelAlgorithm", ["individual_type"], [
    par "population_size" "50"; par "initialization_function" "self.init_pop"; ("individual_type", Lit "Camel"); par "burden_factor" "0.25";
    par "death_rate" "0.5"; par "visibility" "0.5"; par "supply_init" "10"; par "endurance_init" "10"; par "min_temperature" "-10";
    par "max_temperature" "10"]);
  ("CuckooSearch", [], [
    par "population_size" "50"; par "initialization_function" "default_numpy_init"; par "individual_type" "None"; par "pa" "0.2"]);
  ("DynNpDifferentialEvolution", [], [
    par "population_size" "50"; par "initialization_function" "default_individual_init"; par "individual_type" "Individual";
    par "differential_weight" "1"; par "crossover_probability" "0.8"; par "strategy" "cross_rand1"; par "p_max" "50"; par "rp" "3"]);
  ("MultiStrategyDifferentialEvolution", ["strategy"], [
    par "population_size" "50"; par "initialization_function" "default_individual_init"; par "individual_type" "Individual";
    par "differential_weight" "1"; par "crossover_probability" "0.8"; ("strategy", Lit "multi_mutations");
    par "strategies" "(cross_rand1, cross_best1, cross_curr2best1, cross_rand2)"]);
  ("DynNpMultiStrategyDifferentialEvolution", ["strategy"], [
    par "population_size" "50"; par "initialization_function" "default_individual_init"; par "individual_type" "Individual";
    par "differential_weight" "1"; par "crossover_probability" "0.8"; ("strategy", Lit "multi_mutations"); par "p_max" "50"; par "rp" "3";
    par "strategies" "(cross_rand1, cross_best1, cross_curr2best1, cross_rand2)"]);
  ("FlowerPollinationAlgorithm", [], [
    par "population_size" "25"; par "initialization_function" "default_numpy_init"; par "individual_type" "None"; par "p" "0.8"]);
  ("FishSchoolSearch", [], [
    par "population_size" "30"; par "initialization_function" "default_numpy_init"; par "individual_type" "None"; par "step_individual_init" "0.1";
    par "step_individual_final" "0.0001"; par "step_volitive_init" "0.01"; par "step_volitive_final" "0.001"; par "min_w" "1"; par "w_scale" "5000"]);
  ("LionOptimizationAlgorithm", ["individual_type"], [
    par "population_size" "50"; par "initialization_function" "default_individual_init"; ("individual_type", Lit "Lion"); par "nomad_ratio" "0.2";
    par "num_of_prides" "5"; par "female_ratio" "0.8"; par "roaming_factor" "0.2"; par "mating_factor" "0.3"; par "mutation_factor" "0.2";
    par "immigration_factor" "0.4"]);
  ("HybridBatAlgorithm", [], [
    par "population_size" "20"; par "initialization_function" "default_numpy_init"; par "individual_type" "None"; par "loudness" "1";
    par "pulse_rate" "1"; par "alpha" "0.97"; par "gamma" "0.1"; par "min_frequency" "0"; par "max_frequency" "2"; par "differential_weight" "0.5";
    par "crossover_probability" "0.9"; par "strategy" "cross_best1"]);
  ("DifferentialEvolutionMTS", [], [
    par "population_size" "50"; par "initialization_function" "default_individual_init"; par "individual_type" "MtsIndividual";
    par "differential_weight" "1"; par "crossover_probability" "0.8"; par "strategy" "cross_rand1"; ("M", Arg "population_size" "50");
    par "num_tests" "5"; par "num_searches" "5"; par "num_searches_best" "5"; par "bonus1" "10"; par "bonus2" "1"; par "num_enabled" "17";
    par "local_searches" "(mts_ls1, mts_ls2, mts_ls3)"]);
  ("DifferentialEvolutionMTSv1", ["local_searches"], [
    par "population_size" "50"; par "initialization_function" "default_individual_init"; par "individual_type" "MtsIndividual";
    par "differential_weight" "1"; par "crossover_probability" "0.8"; par "strategy" "cross_rand1"; ("M", Arg "population_size" "50");
    par "num_tests" "5"; par "num_searches" "5"; par "num_searches_best" "5"; par "bonus1" "10"; par "bonus2" "1"; par "num_enabled" "17";
    ("local_searches", Lit "(mts_ls1v1, mts_ls2, mts_ls3v1)")]);
  ("DynNpDifferentialEvolutionMTS", [], [
    par "population_size" "50"; par "initialization_function" "default_individual_init"; par "individual_type" "MtsIndividual";
    par "differential_weight" "1"; par "crossover_probability" "0.8"; par "strategy" "cross_rand1"; par "p_max" "10"; par "rp" "3";
    ("M", Arg "population_size" "50"); par "num_tests" "5"; par "num_searches" "5"; par "num_searches_best" "5"; par "bonus1" "10"; par "bonus2" "1";
    par "num_enabled" "17"; par "local_searches" "(mts_ls1, mts_ls2, mts_ls3)"]);
  ("DynNpDifferentialEvolutionMTSv1", ["local_searches"], [
    par "population_size" "50"; par "initialization_function" "default_individual_init"; par "individual_type" "MtsIndividual";
    par "differential_weight" "1"; par "crossover_probability" "0.8"; par "strategy" "cross_rand1"; par "p_max" "10"; par "rp" "3";
    ("M", Arg "population_size" "50"); par "num_tests" "5"; par "num_searches" "5"; par "num_searches_best" "5"; par "bonus1" "10"; par "bonus2" "1";
    par "num_enabled" "17"; ("local_searches", Lit "(mts_ls1v1, mts_ls2, mts_ls3v1)")]);
  ("MultiStrategyDifferentialEvolutionMTS", ["strategy"], [
    par "population_size" "50"; par "initialization_function" "default_individual_init"; par "individual_type" "MtsIndividual";
    par "differential_weight" "1"; par "crossover_probability" "0.8"; ("strategy", Lit "multi_mutations"); ("M", Arg "population_size" "50");
    par "num_tests" "5"; par "num_searches" "5"; par "num_searches_best" "5"; par "bonus1" "10"; par "bonus2" "1"; par "num_enabled" "17";
    par "local_searches" "(mts_ls1, mts_ls2, mts_ls3)"; par "strategies" "(cross_rand1, cross_best1, cross_curr2best1, cross_rand2)"]);
  ("MultiStrategyDifferentialEvolutionMTSv1", ["local_searches"; "strategy"], [
    par "population_size" "50"; par "initialization_function" "default_individual_init"; par "individual_type" "MtsIndividual";
    par "differential_weight" "1"; par "crossover_probability" "0.8"; ("strategy", Lit "multi_mutations"); ("M", Arg "population_size" "50");
    par "num_tests" "5"; par "num_searches" "5"; par "num_searches_best" "5"; par "bonus1" "10"; par "bonus2" "1"; par "num_enabled" "17";
    ("local_searches", Lit "(mts_ls1v1, mts_ls2, mts_ls3v1)"); par "strategies" "(cross_rand1, cross_best1, cross_curr2best1, cross_rand2)"]);
  ("DynNpMultiStrategyDifferentialEvolutionMTS", ["strategy"], [
    par "population_size" "50"; par "initialization_function" "default_individual_init"; par "individual_type" "MtsIndividual";
    par "differential_weight" "1"; par "crossover_probability" "0.8"; ("strategy", Lit "multi_mutations"); par "p_max" "50"; par "rp" "3";
    ("M", Arg "population_size" "50"); par "num_tests" "5"; par "num_searches" "5"; par "num_searches_best" "5"; par "bonus1" "10"; par "bonus2" "1";
    par "num_enabled" "17"; par "local_searches" "(mts_ls1, mts_ls2, mts_ls3)";
    par "strategies" "(cross_rand1, cross_best1, cross_curr2best1, cross_rand2)"]);
  ("DynNpMultiStrategyDifferentialEvolutionMTSv1", ["local_searches"; "strategy"], [
    par "population_size" "50"; par "initialization_function" "default_individual_init"; par "individual_type" "MtsIndividual";
    par "differential_weight" "1"; par "crossover_probability" "0.8"; ("strategy", Lit "multi_mutations"); par "p_max" "50"; par "rp" "3";
    ("M", Arg "population_size" "50"); par "num_tests" "5"; par "num_searches" "5"; par "num_searches_best" "5"; par "bonus1" "10"; par "bonus2" "1";
    par "num_enabled" "17"; ("local_searches", Lit "(mts_ls1v1, mts_ls2, mts_ls3v1)");
    par "strategies" "(cross_rand1, cross_best1, cross_curr2best1, cross_rand2)"]);
  ("MultipleTrajectorySearchV1", ["local_searches"], [
    par "initialization_function" "default_numpy_init"; par "individual_type" "None"; ("M", Lit "40"); ("num_tests", Lit "5");
    ("num_searches", Lit "5"); ("num_searches_best", Lit "0"); ("bonus1", Lit "10"); ("bonus2", Lit "1"); ("num_enabled", Lit "17");
    ("local_searches", Lit "(mts_ls1v1, mts_ls2)")])].
(** classes whose set_parameters always raises *)
Definition broken : list string := ["CoralReefsOptimization"; "EvolutionStrategyMp1"].
Definition class (r : row) : string := fst (fst r).
Definition setters : list row :=
  app (filter (fun r => negb (mem (class r) (app broken (map class other_setters)))) constructors) other_setters.
(** classes for which set_parameters( **get_parameters()) raises *)
Definition no_round_trip : list string :=
  ["ArtificialBeeColonyAlgorithm"; "CamelAlgorithm"; "CoralReefsOptimization"; "AgingNpDifferentialEvolution";
   "MultiStrategyDifferentialEvolution"; "DynNpMultiStrategyDifferentialEvolution"; "EvolutionStrategyMp1"; "EvolutionStrategyMpL";
   "EvolutionStrategyML"; "LionOptimizationAlgorithm"; "DifferentialEvolutionMTSv1"; "DynNpDifferentialEvolutionMTSv1";
   "MultiStrategyDifferentialEvolutionMTS"; "MultiStrategyDifferentialEvolutionMTSv1"; "DynNpMultiStrategyDifferentialEvolutionMTS";
   "DynNpMultiStrategyDifferentialEvolutionMTSv1"; "ParameterFreeBatAlgorithm"; "MultipleTrajectorySearchV1"].
(** attributes that are set to a literal by it although they had another value *)
Definition forgotten (c : string) : list (string * string) :=
  if String.eqb c "GlowwormSwarmOptimizationV2" then [("alpha", "0.2")]
  else if String.eqb c "GlowwormSwarmOptimizationV3" then [("beta1", "0.2")]
  else if String.eqb c "OppositionVelocityClampingParticleSwarmOptimization" then [("min_velocity", "-1.5"); ("max_velocity", "1.5")]
  else if String.eqb c "HybridSelfAdaptiveBatAlgorithm" then [("strategy", "cross_best1")]
  else if String.eqb c "AnarchicSocietyOptimization" then [("d", "euclidean"); ("dn", "euclidean")]
  else if String.eqb c "MultipleTrajectorySearch" then [("population_size", "40")]
  else if String.eqb c "SimulatedAnnealing" then [("cooling_method", "cool_delta")]
  else [].

Section Values.
Variable V : Type.
Variable const : string -> V.
Variable op : string -> list V -> V.
Definition given (kw : kwargs V) (ks : list string) : bool := existsb (fun k => match kw k with Some _ => true | None => false end) ks.
Fixpoint den (kw : kwargs V) (f : form) : V :=
  match f with Arg k d => match kw k with Some v => v | None => const d end | Lit s => const s | Fun f l => op f (map (den kw) l) end.
Definition reported (kw : kwargs V) (fs : list (string * form)) : dict V := map (fun kf => (fst kf, den kw (snd kf))) fs.
(** keyword arguments without some names *)
Definition without (ks : list string) (kw : kwargs V) : kwargs V := fun k => if mem k ks then None else kw k.
Lemma without_same : forall ks kw, given kw ks = false -> same V kw (without ks kw).
Proof.
  intros ks kw H k. unfold without. destruct (mem k ks) eqn:M; auto. unfold mem in M. apply existsb_exists in M. destruct M as (k' & I & E). apply String.eqb_eq in E. subst k'.
  destruct (kw k) eqn:Q; auto. assert (G : given kw ks = true) by (apply existsb_exists; exists k; rewrite Q; auto). congruence.
Qed.
Definition andthen {A B} (r : outcome A) (f : A -> outcome B) : outcome B := match r with Ret a => f a | Raise e => Raise e end.
End Values.
Ltac rows tac := repeat (apply Forall_cons; [tac|]); apply Forall_nil.
(** the keyword arguments decide between Raise and going on *)
Ltac decide_given := repeat match goal with |- context [match ?x with Some _ => true | None => _ end] => destruct x end.

(** * C129: constructors and get_parameters *)
(** ** The keyword arguments at a few names, as a list *)
Section Overs.
Variable V : Type.
Definition is_some (v : option V) : bool := match v with Some _ => true | None => false end.
Fixpoint overs (ks : list string) (vs : list (option V)) (kw : kwargs V) : kwargs V :=
  match ks, vs with
  | k :: ks', v :: vs' => fun x => if String.eqb x k then v else overs ks' vs' kw x
  | _, _ => kw
  end.
Lemma overs_same : forall ks kw, same V kw (overs ks (map kw ks) kw).
Proof.
  intros ks kw x. induction ks as [|k ks IH]; simpl; auto. destruct (String.eqb x k) eqn:E; auto. apply String.eqb_eq in E. subst. auto.
Qed.
Lemma given_map : forall ks (kw : kwargs V), given V kw ks = existsb is_some (map kw ks).
Proof. intros ks kw. induction ks as [|k ks IH]; simpl; auto. unfold given in *. simpl. rewrite IH. auto. Qed.
End Overs.
(** the attributes of an object of class [c], in the order in which the constructor makes them *)
Definition attributes (c : string) : list string :=
  match construct string (fun s => s) (fun f _ => f) table c (fun _ => None) with Ret o => map fst o | Raise _ => [] end.

(** objects made by the constructor and any number of calls of set_parameters *)
Inductive configured (V : Type) (const : string -> V) (op : string -> list V -> V) (c : string) : dict V -> Prop :=
| made : forall kw o, construct V const op table c kw = Ret o -> configured V const op c o
| again : forall kw o o', configured V const op c o -> set_parameters V const op table c kw o = Ret o' -> configured V const op c o'.
(** attributes that set_parameters leaves as they are *)
Definition kept (c : string) : list string :=
  app ["callbacks"; "rng"; "exception"] (if String.eqb c "BacterialForagingOptimization" then ["i"; "j"; "k"] else []).
Definition plain (c : string) : bool := negb (mem c (app broken (map class other_setters))).
Definition keep (V : Type) (ks : list string) (o n : dict V) : dict V :=
  map (fun x => (fst (snd x), if mem (fst (snd x)) ks then snd (fst x) else snd (snd x))) (combine o n).
Ltac values vs L := repeat (destruct vs as [|? vs]; [try discriminate L|]; try discriminate L); clear L.
(** what set_parameters( **get_parameters()) does to an object: some attributes go back to the default of the constructor *)
Definition forget (V : Type) (const : string -> V) (c : string) (o : dict V) : dict V :=
  map (fun kv => (fst kv, match get string (forgotten c) (fst kv) with Some d => const d | None => snd kv end)) o.
Definition round_trip (V : Type) (const : string -> V) (op : string -> list V -> V) (c : string) (o : dict V) : outcome (dict V) :=
  andthen (get_parameters V table c o) (fun g => set_parameters V const op table c (get V g) o).
Definition round (r : row) : bool := negb (mem (class r) no_round_trip).
