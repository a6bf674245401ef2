(** The classes of src/niapy/algorithms: their parents and the methods __init__, set_parameters and get_parameters.
    Read off the sources one by one; see Pycall.v for the meaning. Literals that compare equal (1 and 1.0) are written in the same way.
    The call self.callbacks.set_algorithm(self) of Algorithm.__init__ is left out. *)
From Coq Require Import String List.
From Verif Require Import Pycall.
Import ListNotations.
Local Open Scope string_scope.

(** src/niapy/algorithms/algorithm.py:86-108 *)
Definition Algorithm_init : meth :=
  Meth [("population_size", "50"); ("initialization_function", "default_numpy_init"); ("individual_type", "None"); ("callbacks", "None"); ("seed", "None")] true
    [SAttr "population_size" (ELocal "population_size");
     SAttr "initialization_function" (ELocal "initialization_function");
     SAttr "individual_type" (ELocal "individual_type");
     SAttr "callbacks" (EOp "_ if isinstance(_, CallbackList) else CallbackList(_)" [ELocal "callbacks"; ELocal "callbacks"; ELocal "callbacks"]);
     SAttr "rng" (EOp "default_rng(_)" [ELocal "seed"]);
     SAttr "exception" (EConst "None")].
(** src/niapy/algorithms/algorithm.py:120-137 *)
Definition Algorithm_set : meth :=
  Meth [("population_size", "50"); ("initialization_function", "default_numpy_init"); ("individual_type", "None")] true
    [SAttr "population_size" (ELocal "population_size");
     SAttr "initialization_function" (ELocal "initialization_function");
     SAttr "individual_type" (ELocal "individual_type")].
(** src/niapy/algorithms/algorithm.py:139-152 *)
Definition Algorithm_get : list gstmt :=
  [GUpdate [("population_size", GAttr "population_size"); ("initialization_function", GAttr "initialization_function"); ("individual_type", GAttr "individual_type")]].
(** src/niapy/algorithms/algorithm.py:62 *)
Definition Algorithm_class : pyclass := PyClass "Algorithm" [] (Some Algorithm_init) (Some Algorithm_set) (Some Algorithm_get).
(** src/niapy/algorithms/basic/abc.py:75-89 *)
Definition ArtificialBeeColonyAlgorithm_init : meth :=
  Meth [("population_size", "10"); ("limit", "100")] true
    [SCall (SuperOf "ArtificialBeeColonyAlgorithm") "__init__" [ELocal "population_size"] true [("initialization_function", EConst "default_individual_init"); ("individual_type", EConst "SolutionABC")] true;
     SAttr "limit" (ELocal "limit");
     SAttr "food_number" (EOp "_ // 2" [ESelf "population_size"])].
(** src/niapy/algorithms/basic/abc.py:91-105 *)
Definition ArtificialBeeColonyAlgorithm_set : meth :=
  Meth [("population_size", "10"); ("limit", "100")] false
    [SCall (SuperOf "ArtificialBeeColonyAlgorithm") "set_parameters" [] false [("population_size", ELocal "population_size"); ("initialization_function", EConst "default_individual_init"); ("individual_type", EConst "SolutionABC")] true;
     SAttr "food_number" (EOp "_ // 2" [ESelf "population_size"]);
     SAttr "limit" (ELocal "limit")].
(** src/niapy/algorithms/basic/abc.py:107-113 *)
Definition ArtificialBeeColonyAlgorithm_get : list gstmt :=
  [GCall (SuperOf "ArtificialBeeColonyAlgorithm");
   GUpdate [("limit", GAttr "limit")]].
(** src/niapy/algorithms/basic/abc.py:33 *)
Definition ArtificialBeeColonyAlgorithm_class : pyclass := PyClass "ArtificialBeeColonyAlgorithm" ["Algorithm"] (Some ArtificialBeeColonyAlgorithm_init) (Some ArtificialBeeColonyAlgorithm_set) (Some ArtificialBeeColonyAlgorithm_get).
(** src/niapy/algorithms/basic/ba.py:62-85 *)
Definition BatAlgorithm_init : meth :=
  Meth [("population_size", "40"); ("loudness", "1"); ("pulse_rate", "1"); ("alpha", "0.97"); ("gamma", "0.1"); ("min_frequency", "0"); ("max_frequency", "2")] true
    [SCall (SuperOf "BatAlgorithm") "__init__" [ELocal "population_size"] true [] true;
     SAttr "loudness" (ELocal "loudness");
     SAttr "pulse_rate" (ELocal "pulse_rate");
     SAttr "alpha" (ELocal "alpha");
     SAttr "gamma" (ELocal "gamma");
     SAttr "min_frequency" (ELocal "min_frequency");
     SAttr "max_frequency" (ELocal "max_frequency")].
(** src/niapy/algorithms/basic/ba.py:87-110 *)
Definition BatAlgorithm_set : meth :=
  Meth [("population_size", "20"); ("loudness", "1"); ("pulse_rate", "1"); ("alpha", "0.97"); ("gamma", "0.1"); ("min_frequency", "0"); ("max_frequency", "2")] false
    [SCall (SuperOf "BatAlgorithm") "set_parameters" [] false [("population_size", ELocal "population_size")] true;
     SAttr "loudness" (ELocal "loudness");
     SAttr "pulse_rate" (ELocal "pulse_rate");
     SAttr "alpha" (ELocal "alpha");
     SAttr "gamma" (ELocal "gamma");
     SAttr "min_frequency" (ELocal "min_frequency");
     SAttr "max_frequency" (ELocal "max_frequency")].
(** src/niapy/algorithms/basic/ba.py:112-128 *)
Definition BatAlgorithm_get : list gstmt :=
  [GCall (SuperOf "BatAlgorithm");
   GUpdate [("loudness", GAttr "loudness"); ("pulse_rate", GAttr "pulse_rate"); ("alpha", GAttr "alpha"); ("gamma", GAttr "gamma"); ("min_frequency", GAttr "min_frequency"); ("max_frequency", GAttr "max_frequency")]].
(** src/niapy/algorithms/basic/ba.py:15 *)
Definition BatAlgorithm_class : pyclass := PyClass "BatAlgorithm" ["Algorithm"] (Some BatAlgorithm_init) (Some BatAlgorithm_set) (Some BatAlgorithm_get).
(** src/niapy/algorithms/basic/bea.py:61-81 *)
Definition BeesAlgorithm_init : meth :=
  Meth [("population_size", "40"); ("m", "5"); ("e", "4"); ("ngh", "1"); ("nep", "4"); ("nsp", "2")] true
    [SCall (SuperOf "BeesAlgorithm") "__init__" [ELocal "population_size"] true [] true;
     SAttr "m" (ELocal "m");
     SAttr "e" (ELocal "e");
     SAttr "ngh" (ELocal "ngh");
     SAttr "nep" (ELocal "nep");
     SAttr "nsp" (ELocal "nsp")].
(** src/niapy/algorithms/basic/bea.py:83-103 *)
Definition BeesAlgorithm_set : meth :=
  Meth [("population_size", "40"); ("m", "5"); ("e", "4"); ("ngh", "1"); ("nep", "4"); ("nsp", "2")] false
    [SCall (SuperOf "BeesAlgorithm") "set_parameters" [] false [("population_size", ELocal "population_size")] true;
     SAttr "m" (ELocal "m");
     SAttr "e" (ELocal "e");
     SAttr "ngh" (ELocal "ngh");
     SAttr "nep" (ELocal "nep");
     SAttr "nsp" (ELocal "nsp")].
(** src/niapy/algorithms/basic/bea.py:105-120 *)
Definition BeesAlgorithm_get : list gstmt :=
  [GCall (SuperOf "BeesAlgorithm");
   GUpdate [("m", GAttr "m"); ("e", GAttr "e"); ("ngh", GAttr "ngh"); ("nep", GAttr "nep"); ("nsp", GAttr "nsp")]].
(** src/niapy/algorithms/basic/bea.py:15 *)
Definition BeesAlgorithm_class : pyclass := PyClass "BeesAlgorithm" ["Algorithm"] (Some BeesAlgorithm_init) (Some BeesAlgorithm_set) (Some BeesAlgorithm_get).
(** src/niapy/algorithms/basic/bfo.py:68-106 *)
Definition BacterialForagingOptimization_init : meth :=
  Meth [("population_size", "50"); ("n_chemotactic", "100"); ("n_swim", "4"); ("n_reproduction", "4"); ("n_elimination", "2"); ("prob_elimination", "0.25"); ("step_size", "0.1"); ("swarming", "True"); ("d_attract", "0.1"); ("w_attract", "0.2"); ("h_repel", "0.1"); ("w_repel", "10")] true
    [SCall (SuperOf "BacterialForagingOptimization") "__init__" [ELocal "population_size"] true [] true;
     SAttr "n_chemotactic" (ELocal "n_chemotactic");
     SAttr "n_swim" (ELocal "n_swim");
     SAttr "n_reproduction" (ELocal "n_reproduction");
     SAttr "n_elimination" (ELocal "n_elimination");
     SAttr "prob_elimination" (ELocal "prob_elimination");
     SAttr "step_size" (ELocal "step_size");
     SAttr "swarming" (ELocal "swarming");
     SAttr "d_attract" (ELocal "d_attract");
     SAttr "w_attract" (ELocal "w_attract");
     SAttr "h_repel" (ELocal "h_repel");
     SAttr "w_repel" (ELocal "w_repel");
     SAttr "i" (EConst "0");
     SAttr "j" (EConst "0");
     SAttr "k" (EConst "0")].
(** src/niapy/algorithms/basic/bfo.py:108-139 *)
Definition BacterialForagingOptimization_set : meth :=
  Meth [("population_size", "50"); ("n_chemotactic", "100"); ("n_swim", "4"); ("n_reproduction", "4"); ("n_elimination", "2"); ("prob_elimination", "0.25"); ("step_size", "0.1"); ("swarming", "True"); ("d_attract", "0.1"); ("w_attract", "0.2"); ("h_repel", "0.1"); ("w_repel", "10")] false
    [SCall (SuperOf "BacterialForagingOptimization") "set_parameters" [] false [("population_size", ELocal "population_size")] true;
     SAttr "n_chemotactic" (ELocal "n_chemotactic");
     SAttr "n_swim" (ELocal "n_swim");
     SAttr "n_reproduction" (ELocal "n_reproduction");
     SAttr "n_elimination" (ELocal "n_elimination");
     SAttr "prob_elimination" (ELocal "prob_elimination");
     SAttr "step_size" (ELocal "step_size");
     SAttr "swarming" (ELocal "swarming");
     SAttr "d_attract" (ELocal "d_attract");
     SAttr "w_attract" (ELocal "w_attract");
     SAttr "h_repel" (ELocal "h_repel");
     SAttr "w_repel" (ELocal "w_repel")].
(** src/niapy/algorithms/basic/bfo.py:141-162 *)
Definition BacterialForagingOptimization_get : list gstmt :=
  [GCall (SuperOf "BacterialForagingOptimization");
   GUpdate [("n_chemotactic", GAttr "n_chemotactic"); ("n_swim", GAttr "n_swim"); ("n_reproduction", GAttr "n_reproduction"); ("n_elimination", GAttr "n_elimination"); ("prob_elimination", GAttr "prob_elimination"); ("step_size", GAttr "step_size"); ("swarming", GAttr "swarming"); ("d_attract", GAttr "d_attract"); ("w_attract", GAttr "w_attract"); ("h_repel", GAttr "h_repel"); ("w_repel", GAttr "w_repel")]].
(** src/niapy/algorithms/basic/bfo.py:16 *)
Definition BacterialForagingOptimization_class : pyclass := PyClass "BacterialForagingOptimization" ["Algorithm"] (Some BacterialForagingOptimization_init) (Some BacterialForagingOptimization_set) (Some BacterialForagingOptimization_get).
(** src/niapy/algorithms/basic/ca.py:192-219 *)
Definition CamelAlgorithm_init : meth :=
  Meth [("population_size", "50"); ("burden_factor", "0.25"); ("death_rate", "0.5"); ("visibility", "0.5"); ("supply_init", "10"); ("endurance_init", "10"); ("min_temperature", "-10"); ("max_temperature", "10")] true
    [SCall (SuperOf "CamelAlgorithm") "__init__" [ELocal "population_size"] true [("individual_type", EPop "individual_type" (EConst "Camel")); ("initialization_function", EPop "initialization_function" (EConst "self.init_pop"))] true;
     SAttr "burden_factor" (ELocal "burden_factor");
     SAttr "death_rate" (ELocal "death_rate");
     SAttr "visibility" (ELocal "visibility");
     SAttr "supply_init" (ELocal "supply_init");
     SAttr "endurance_init" (ELocal "endurance_init");
     SAttr "min_temperature" (ELocal "min_temperature");
     SAttr "max_temperature" (ELocal "max_temperature")].
(** src/niapy/algorithms/basic/ca.py:221-247 *)
Definition CamelAlgorithm_set : meth :=
  Meth [("population_size", "50"); ("burden_factor", "0.25"); ("death_rate", "0.5"); ("visibility", "0.5"); ("supply_init", "10"); ("endurance_init", "10"); ("min_temperature", "-10"); ("max_temperature", "10")] false
    [SCall (SuperOf "CamelAlgorithm") "set_parameters" [] false [("population_size", ELocal "population_size"); ("individual_type", EConst "Camel"); ("initialization_function", EPop "initialization_function" (EConst "self.init_pop"))] true;
     SAttr "burden_factor" (ELocal "burden_factor");
     SAttr "death_rate" (ELocal "death_rate");
     SAttr "visibility" (ELocal "visibility");
     SAttr "supply_init" (ELocal "supply_init");
     SAttr "endurance_init" (ELocal "endurance_init");
     SAttr "min_temperature" (ELocal "min_temperature");
     SAttr "max_temperature" (ELocal "max_temperature")].
(** src/niapy/algorithms/basic/ca.py:249-266 *)
Definition CamelAlgorithm_get : list gstmt :=
  [GCall (SuperOf "CamelAlgorithm");
   GUpdate [("burden_factor", GAttr "burden_factor"); ("death_rate", GAttr "death_rate"); ("visibility", GAttr "visibility"); ("supply_init", GAttr "supply_init"); ("endurance_init", GAttr "endurance_init"); ("min_temperature", GAttr "min_temperature"); ("max_temperature", GAttr "max_temperature")]].
(** src/niapy/algorithms/basic/ca.py:138 *)
Definition CamelAlgorithm_class : pyclass := PyClass "CamelAlgorithm" ["Algorithm"] (Some CamelAlgorithm_init) (Some CamelAlgorithm_set) (Some CamelAlgorithm_get).
(** src/niapy/algorithms/basic/clonalg.py:60-80 *)
Definition ClonalSelectionAlgorithm_init : meth :=
  Meth [("population_size", "10"); ("clone_factor", "0.1"); ("mutation_factor", "10"); ("num_rand", "1"); ("bits_per_param", "16")] true
    [SCall (SuperOf "ClonalSelectionAlgorithm") "__init__" [ELocal "population_size"] true [] true;
     SAttr "clone_factor" (ELocal "clone_factor");
     SAttr "num_clones" (EOp "int(_ * _)" [ESelf "population_size"; ESelf "clone_factor"]);
     SAttr "mutation_factor" (ELocal "mutation_factor");
     SAttr "num_rand" (ELocal "num_rand");
     SAttr "bits_per_param" (ELocal "bits_per_param")].
(** src/niapy/algorithms/basic/clonalg.py:82-102 *)
Definition ClonalSelectionAlgorithm_set : meth :=
  Meth [("population_size", "10"); ("clone_factor", "0.1"); ("mutation_factor", "10"); ("num_rand", "1"); ("bits_per_param", "16")] false
    [SCall (SuperOf "ClonalSelectionAlgorithm") "set_parameters" [] false [("population_size", ELocal "population_size")] true;
     SAttr "clone_factor" (ELocal "clone_factor");
     SAttr "num_clones" (EOp "int(_ * _)" [ESelf "population_size"; ESelf "clone_factor"]);
     SAttr "mutation_factor" (ELocal "mutation_factor");
     SAttr "num_rand" (ELocal "num_rand");
     SAttr "bits_per_param" (ELocal "bits_per_param")].
(** src/niapy/algorithms/basic/clonalg.py:104-118 *)
Definition ClonalSelectionAlgorithm_get : list gstmt :=
  [GCall (SuperOf "ClonalSelectionAlgorithm");
   GUpdate [("clone_factor", GAttr "clone_factor"); ("mutation_factor", GAttr "mutation_factor"); ("num_rand", GAttr "num_rand"); ("bits_per_param", GAttr "bits_per_param")]].
(** src/niapy/algorithms/basic/clonalg.py:14 *)
Definition ClonalSelectionAlgorithm_class : pyclass := PyClass "ClonalSelectionAlgorithm" ["Algorithm"] (Some ClonalSelectionAlgorithm_init) (Some ClonalSelectionAlgorithm_set) (Some ClonalSelectionAlgorithm_get).
(** src/niapy/algorithms/basic/cro.py:140-175 *)
Definition CoralReefsOptimization_init : meth :=
  Meth [("population_size", "25"); ("phi", "0.4"); ("asexual_reproduction_prob", "0.5"); ("broadcast_prob", "0.5"); ("depredation_prob", "0.3"); ("k", "25"); ("crossover_rate", "0.5"); ("mutation_rate", "0.36"); ("sexual_crossover", "default_sexual_crossover"); ("brooding", "default_brooding")] true
    [SCall (SuperOf "CoralReefsOptimization") "__init__" [ELocal "population_size"] true [] true;
     SAttr "phi" (ELocal "phi");
     SAttr "k" (ELocal "k");
     SAttr "crossover_rate" (ELocal "crossover_rate");
     SAttr "mutation_rate" (ELocal "mutation_rate");
     SAttr "asexual_reproduction_prob" (ELocal "asexual_reproduction_prob");
     SAttr "broadcast_prob" (ELocal "broadcast_prob");
     SAttr "depredation_prob" (ELocal "depredation_prob");
     SAttr "num_asexual_reproduction" (EOp "int(_ * _)" [ESelf "population_size"; ELocal "asexual_reproduction_prob"]);
     SAttr "num_broadcast" (EOp "int(_ * _)" [ESelf "population_size"; ELocal "broadcast_prob"]);
     SAttr "num_depredation" (EOp "int(_ * _)" [ESelf "population_size"; ELocal "depredation_prob"]);
     SAttr "sexual_crossover" (ELocal "sexual_crossover");
     SAttr "brooding" (ELocal "brooding")].
(** src/niapy/algorithms/basic/cro.py:177-212 *)
Definition CoralReefsOptimization_set : meth :=
  Meth [("population_size", "25"); ("phi", "0.4"); ("asexual_reproduction_prob", "0.5"); ("broadcast_prob", "0.5"); ("depredation_prob", "0.3"); ("k", "25"); ("crossover_rate", "0.5"); ("mutation_rate", "0.36"); ("sexual_crossover", "default_sexual_crossover"); ("brooding", "default_brooding")] false
    [SCall (SuperOf "CoralReefsOptimization") "set_parameters" [EConst "self"] false [("population_size", ELocal "population_size")] true;
     SAttr "phi" (ELocal "phi");
     SAttr "k" (ELocal "k");
     SAttr "crossover_rate" (ELocal "crossover_rate");
     SAttr "mutation_rate" (ELocal "mutation_rate");
     SAttr "asexual_reproduction_prob" (ELocal "asexual_reproduction_prob");
     SAttr "broadcast_prob" (ELocal "broadcast_prob");
     SAttr "depredation_prob" (ELocal "depredation_prob");
     SAttr "num_asexual_reproduction" (EOp "int(_ * _)" [ESelf "population_size"; ELocal "asexual_reproduction_prob"]);
     SAttr "num_broadcast" (EOp "int(_ * _)" [ESelf "population_size"; ELocal "broadcast_prob"]);
     SAttr "num_depredation" (EOp "int(_ * _)" [ESelf "population_size"; ELocal "depredation_prob"]);
     SAttr "sexual_crossover" (ELocal "sexual_crossover");
     SAttr "brooding" (ELocal "brooding")].
(** src/niapy/algorithms/basic/cro.py:214-233 *)
Definition CoralReefsOptimization_get : list gstmt :=
  [GCall (SuperOf "CoralReefsOptimization");
   GUpdate [("phi", GAttr "phi"); ("k", GAttr "k"); ("cr", GAttr "crossover_rate"); ("mr", GAttr "mutation_rate"); ("asexual_reproduction_prob", GAttr "asexual_reproduction_prob"); ("depredation_prob", GAttr "depredation_prob"); ("broadcast_prob", GAttr "broadcast_prob"); ("sexual_crossover", GAttr "sexual_crossover"); ("brooding", GAttr "brooding")]].
(** src/niapy/algorithms/basic/cro.py:81 *)
Definition CoralReefsOptimization_class : pyclass := PyClass "CoralReefsOptimization" ["Algorithm"] (Some CoralReefsOptimization_init) (Some CoralReefsOptimization_set) (Some CoralReefsOptimization_get).
(** src/niapy/algorithms/basic/cs.py:60-72 *)
Definition CuckooSearch_init : meth :=
  Meth [("population_size", "25"); ("pa", "0.25")] true
    [SCall (SuperOf "CuckooSearch") "__init__" [ELocal "population_size"] true [] true;
     SAttr "pa" (ELocal "pa")].
(** src/niapy/algorithms/basic/cs.py:74-86 *)
Definition CuckooSearch_set : meth :=
  Meth [("population_size", "50"); ("pa", "0.2")] false
    [SCall (SuperOf "CuckooSearch") "set_parameters" [] false [("population_size", ELocal "population_size")] true;
     SAttr "pa" (ELocal "pa")].
(** src/niapy/algorithms/basic/cs.py:88-94 *)
Definition CuckooSearch_get : list gstmt :=
  [GCall (SuperOf "CuckooSearch");
   GUpdate [("pa", GAttr "pa")]].
(** src/niapy/algorithms/basic/cs.py:16 *)
Definition CuckooSearch_class : pyclass := PyClass "CuckooSearch" ["Algorithm"] (Some CuckooSearch_init) (Some CuckooSearch_set) (Some CuckooSearch_get).
(** src/niapy/algorithms/basic/cso.py:49-74 *)
Definition CatSwarmOptimization_init : meth :=
  Meth [("population_size", "30"); ("mixture_ratio", "0.1"); ("c1", "2.05"); ("smp", "3"); ("spc", "True"); ("cdc", "0.85"); ("srd", "0.2"); ("max_velocity", "1.9")] true
    [SCall (SuperOf "CatSwarmOptimization") "__init__" [ELocal "population_size"] true [] true;
     SAttr "mixture_ratio" (ELocal "mixture_ratio");
     SAttr "c1" (ELocal "c1");
     SAttr "smp" (ELocal "smp");
     SAttr "spc" (ELocal "spc");
     SAttr "cdc" (ELocal "cdc");
     SAttr "srd" (ELocal "srd");
     SAttr "max_velocity" (ELocal "max_velocity")].
(** src/niapy/algorithms/basic/cso.py:76-101 *)
Definition CatSwarmOptimization_set : meth :=
  Meth [("population_size", "30"); ("mixture_ratio", "0.1"); ("c1", "2.05"); ("smp", "3"); ("spc", "True"); ("cdc", "0.85"); ("srd", "0.2"); ("max_velocity", "1.9")] false
    [SCall (SuperOf "CatSwarmOptimization") "set_parameters" [ELocal "population_size"] false [] true;
     SAttr "mixture_ratio" (ELocal "mixture_ratio");
     SAttr "c1" (ELocal "c1");
     SAttr "smp" (ELocal "smp");
     SAttr "spc" (ELocal "spc");
     SAttr "cdc" (ELocal "cdc");
     SAttr "srd" (ELocal "srd");
     SAttr "max_velocity" (ELocal "max_velocity")].
(** src/niapy/algorithms/basic/cso.py:103-120 *)
Definition CatSwarmOptimization_get : list gstmt :=
  [GCall (SuperOf "CatSwarmOptimization");
   GUpdate [("mixture_ratio", GAttr "mixture_ratio"); ("c1", GAttr "c1"); ("smp", GAttr "smp"); ("spc", GAttr "spc"); ("cdc", GAttr "cdc"); ("srd", GAttr "srd"); ("max_velocity", GAttr "max_velocity")]].
(** src/niapy/algorithms/basic/cso.py:16 *)
Definition CatSwarmOptimization_class : pyclass := PyClass "CatSwarmOptimization" ["Algorithm"] (Some CatSwarmOptimization_init) (Some CatSwarmOptimization_set) (Some CatSwarmOptimization_get).
(** src/niapy/algorithms/basic/de.py:275-295 *)
Definition DifferentialEvolution_init : meth :=
  Meth [("population_size", "50"); ("differential_weight", "1"); ("crossover_probability", "0.8"); ("strategy", "cross_rand1")] true
    [SCall (SuperOf "DifferentialEvolution") "__init__" [ELocal "population_size"] true [("initialization_function", EPop "initialization_function" (EConst "default_individual_init")); ("individual_type", EPop "individual_type" (EConst "Individual"))] true;
     SAttr "differential_weight" (ELocal "differential_weight");
     SAttr "crossover_probability" (ELocal "crossover_probability");
     SAttr "strategy" (ELocal "strategy")].
(** src/niapy/algorithms/basic/de.py:297-317 *)
Definition DifferentialEvolution_set : meth :=
  Meth [("population_size", "50"); ("differential_weight", "1"); ("crossover_probability", "0.8"); ("strategy", "cross_rand1")] false
    [SCall (SuperOf "DifferentialEvolution") "set_parameters" [] false [("population_size", ELocal "population_size"); ("initialization_function", EPop "initialization_function" (EConst "default_individual_init")); ("individual_type", EPop "individual_type" (EConst "Individual"))] true;
     SAttr "differential_weight" (ELocal "differential_weight");
     SAttr "crossover_probability" (ELocal "crossover_probability");
     SAttr "strategy" (ELocal "strategy")].
(** src/niapy/algorithms/basic/de.py:319-335 *)
Definition DifferentialEvolution_get : list gstmt :=
  [GCall (TClass "Algorithm");
   GUpdate [("differential_weight", GAttr "differential_weight"); ("crossover_probability", GAttr "crossover_probability"); ("strategy", GAttr "strategy")]].
(** src/niapy/algorithms/basic/de.py:231 *)
Definition DifferentialEvolution_class : pyclass := PyClass "DifferentialEvolution" ["Algorithm"] (Some DifferentialEvolution_init) (Some DifferentialEvolution_set) (Some DifferentialEvolution_get).
(** src/niapy/algorithms/basic/de.py:465-478 *)
Definition DynNpDifferentialEvolution_init : meth :=
  Meth [("population_size", "10"); ("p_max", "50"); ("rp", "3")] true
    [SCall (SuperOf "DynNpDifferentialEvolution") "__init__" [ELocal "population_size"] true [] true;
     SAttr "p_max" (ELocal "p_max");
     SAttr "rp" (ELocal "rp")].
(** src/niapy/algorithms/basic/de.py:480-493 *)
Definition DynNpDifferentialEvolution_set : meth :=
  Meth [("p_max", "50"); ("rp", "3")] false
    [SCall (SuperOf "DynNpDifferentialEvolution") "set_parameters" [] false [] true;
     SAttr "p_max" (ELocal "p_max");
     SAttr "rp" (ELocal "rp")].
(** src/niapy/algorithms/basic/de.py:495-507 *)
Definition DynNpDifferentialEvolution_get : list gstmt :=
  [GCall (SuperOf "DynNpDifferentialEvolution");
   GUpdate [("p_max", GAttr "p_max"); ("rp", GAttr "rp")]].
(** src/niapy/algorithms/basic/de.py:425 *)
Definition DynNpDifferentialEvolution_class : pyclass := PyClass "DynNpDifferentialEvolution" ["DifferentialEvolution"] (Some DynNpDifferentialEvolution_init) (Some DynNpDifferentialEvolution_set) (Some DynNpDifferentialEvolution_get).
(** src/niapy/algorithms/basic/de.py:657-677 *)
Definition AgingNpDifferentialEvolution_init : meth :=
  Meth [("min_lifetime", "0"); ("max_lifetime", "12"); ("delta_np", "0.3"); ("omega", "0.3"); ("age", "proportional")] true
    [SCall (SuperOf "AgingNpDifferentialEvolution") "__init__" [] true [("individual_type", EConst "AgingIndividual")] true;
     SAttr "min_lifetime" (ELocal "min_lifetime");
     SAttr "max_lifetime" (ELocal "max_lifetime");
     SAttr "age" (ELocal "age");
     SAttr "delta_np" (ELocal "delta_np");
     SAttr "omega" (ELocal "omega");
     SAttr "mu" (EOp "abs(_ - _) / 2" [ESelf "max_lifetime"; ESelf "min_lifetime"])].
(** src/niapy/algorithms/basic/de.py:679-699 *)
Definition AgingNpDifferentialEvolution_set : meth :=
  Meth [("min_lifetime", "0"); ("max_lifetime", "12"); ("delta_np", "0.3"); ("omega", "0.3"); ("age", "proportional")] false
    [SCall (SuperOf "AgingNpDifferentialEvolution") "set_parameters" [] false [("individual_type", EConst "AgingIndividual")] true;
     SAttr "min_lifetime" (ELocal "min_lifetime");
     SAttr "max_lifetime" (ELocal "max_lifetime");
     SAttr "age" (ELocal "age");
     SAttr "delta_np" (ELocal "delta_np");
     SAttr "omega" (ELocal "omega");
     SAttr "mu" (EOp "abs(_ - _) / 2" [ESelf "max_lifetime"; ESelf "min_lifetime"])].
(** src/niapy/algorithms/basic/de.py:701-710 *)
Definition AgingNpDifferentialEvolution_get : list gstmt :=
  [GCall (SuperOf "AgingNpDifferentialEvolution");
   GUpdate [("min_lifetime", GAttr "min_lifetime"); ("max_lifetime", GAttr "max_lifetime"); ("delta_np", GAttr "delta_np"); ("omega", GAttr "omega"); ("age", GAttr "age")]].
(** src/niapy/algorithms/basic/de.py:613 *)
Definition AgingNpDifferentialEvolution_class : pyclass := PyClass "AgingNpDifferentialEvolution" ["DifferentialEvolution"] (Some AgingNpDifferentialEvolution_init) (Some AgingNpDifferentialEvolution_set) (Some AgingNpDifferentialEvolution_get).
(** src/niapy/algorithms/basic/de.py:901-913 *)
Definition MultiStrategyDifferentialEvolution_init : meth :=
  Meth [("population_size", "40"); ("strategies", "(cross_rand1, cross_best1, cross_curr2best1, cross_rand2)")] true
    [SCall (SuperOf "MultiStrategyDifferentialEvolution") "__init__" [ELocal "population_size"] true [("strategy", EConst "multi_mutations")] true;
     SAttr "strategies" (ELocal "strategies")].
(** src/niapy/algorithms/basic/de.py:915-927 *)
Definition MultiStrategyDifferentialEvolution_set : meth :=
  Meth [("strategies", "(cross_rand1, cross_best1, cross_curr2best1, cross_rand2)")] false
    [SCall (SuperOf "MultiStrategyDifferentialEvolution") "set_parameters" [] false [("strategy", EConst "multi_mutations")] true;
     SAttr "strategies" (ELocal "strategies")].
(** src/niapy/algorithms/basic/de.py:929-941 *)
Definition MultiStrategyDifferentialEvolution_get : list gstmt :=
  [GCall (SuperOf "MultiStrategyDifferentialEvolution");
   GUpdate [("strategies", GAttr "strategies")]].
(** src/niapy/algorithms/basic/de.py:862 *)
Definition MultiStrategyDifferentialEvolution_class : pyclass := PyClass "MultiStrategyDifferentialEvolution" ["DifferentialEvolution"] (Some MultiStrategyDifferentialEvolution_init) (Some MultiStrategyDifferentialEvolution_set) (Some MultiStrategyDifferentialEvolution_get).
(** src/niapy/algorithms/basic/de.py:999-1008 *)
Definition DynNpMultiStrategyDifferentialEvolution_set : meth :=
  Meth [] false
    [SCall (TClass "DynNpDifferentialEvolution") "set_parameters" [] false [] true;
     SCall (TClass "MultiStrategyDifferentialEvolution") "set_parameters" [] false [] true].
(** src/niapy/algorithms/basic/de.py:1010-1019 *)
Definition DynNpMultiStrategyDifferentialEvolution_get : list gstmt :=
  [GCall (TClass "DynNpDifferentialEvolution");
   GCall (TClass "MultiStrategyDifferentialEvolution")].
(** src/niapy/algorithms/basic/de.py:960 *)
Definition DynNpMultiStrategyDifferentialEvolution_class : pyclass := PyClass "DynNpMultiStrategyDifferentialEvolution" ["MultiStrategyDifferentialEvolution"; "DynNpDifferentialEvolution"] None (Some DynNpMultiStrategyDifferentialEvolution_set) (Some DynNpMultiStrategyDifferentialEvolution_get).
(** src/niapy/algorithms/basic/es.py:87-107 *)
Definition EvolutionStrategy1p1_init : meth :=
  Meth [("mu", "1"); ("k", "10"); ("c_a", "1.1"); ("c_r", "0.5"); ("epsilon", "1e-20")] true
    [SPop "population_size";
     SCall (SuperOf "EvolutionStrategy1p1") "__init__" [] true [("population_size", ELocal "mu"); ("individual_type", EPop "individual_type" (EConst "IndividualES"))] true;
     SAttr "mu" (ELocal "mu");
     SAttr "k" (ELocal "k");
     SAttr "c_a" (ELocal "c_a");
     SAttr "c_r" (ELocal "c_r");
     SAttr "epsilon" (ELocal "epsilon")].
(** src/niapy/algorithms/basic/es.py:109-129 *)
Definition EvolutionStrategy1p1_set : meth :=
  Meth [("mu", "1"); ("k", "10"); ("c_a", "1.1"); ("c_r", "0.5"); ("epsilon", "1e-20")] false
    [SPop "population_size";
     SCall (SuperOf "EvolutionStrategy1p1") "set_parameters" [] false [("population_size", ELocal "mu"); ("individual_type", EPop "individual_type" (EConst "IndividualES"))] true;
     SAttr "mu" (ELocal "mu");
     SAttr "k" (ELocal "k");
     SAttr "c_a" (ELocal "c_a");
     SAttr "c_r" (ELocal "c_r");
     SAttr "epsilon" (ELocal "epsilon")].
(** src/niapy/algorithms/basic/es.py:131-147 *)
Definition EvolutionStrategy1p1_get : list gstmt :=
  [GCall (SuperOf "EvolutionStrategy1p1");
   GPop "population_size";
   GUpdate [("mu", GAttr "mu"); ("k", GAttr "k"); ("c_a", GAttr "c_a"); ("c_r", GAttr "c_r"); ("epsilon", GAttr "epsilon")]].
(** src/niapy/algorithms/basic/es.py:39 *)
Definition EvolutionStrategy1p1_class : pyclass := PyClass "EvolutionStrategy1p1" ["Algorithm"] (Some EvolutionStrategy1p1_init) (Some EvolutionStrategy1p1_set) (Some EvolutionStrategy1p1_get).
(** src/niapy/algorithms/basic/es.py:275-277 *)
Definition EvolutionStrategyMp1_init : meth :=
  Meth [("mu", "40")] true
    [SCall (SuperOf "EvolutionStrategyMp1") "__init__" [] true [("mu", ELocal "mu")] true].
(** src/niapy/algorithms/basic/es.py:279-287 *)
Definition EvolutionStrategyMp1_set : meth :=
  Meth [] false
    [SLocal "mu" (EPop "mu" (EConst "40"));
     SCall (SuperOf "EvolutionStrategyMp1") "set_parameters" [EConst "self"] false [("mu", ELocal "mu")] true].
(** src/niapy/algorithms/basic/es.py:233 *)
Definition EvolutionStrategyMp1_class : pyclass := PyClass "EvolutionStrategyMp1" ["EvolutionStrategy1p1"] (Some EvolutionStrategyMp1_init) (Some EvolutionStrategyMp1_set) None.
(** src/niapy/algorithms/basic/es.py:333-341 *)
Definition EvolutionStrategyMpL_init : meth :=
  Meth [("lam", "45")] true
    [SCall (SuperOf "EvolutionStrategyMpL") "__init__" [] true [("initialization_function", EConst "default_individual_init")] true;
     SAttr "lam" (ELocal "lam")].
(** src/niapy/algorithms/basic/es.py:343-354 *)
Definition EvolutionStrategyMpL_set : meth :=
  Meth [("lam", "45")] false
    [SCall (SuperOf "EvolutionStrategyMpL") "set_parameters" [] false [("initialization_function", EConst "default_individual_init")] true;
     SAttr "lam" (ELocal "lam")].
(** src/niapy/algorithms/basic/es.py:356-365 *)
Definition EvolutionStrategyMpL_get : list gstmt :=
  [GCall (SuperOf "EvolutionStrategyMpL");
   GUpdate [("lam", GAttr "lam")]].
(** src/niapy/algorithms/basic/es.py:290 *)
Definition EvolutionStrategyMpL_class : pyclass := PyClass "EvolutionStrategyMpL" ["EvolutionStrategy1p1"] (Some EvolutionStrategyMpL_init) (Some EvolutionStrategyMpL_set) (Some EvolutionStrategyMpL_get).
(** src/niapy/algorithms/basic/es.py:471 *)
Definition EvolutionStrategyML_class : pyclass := PyClass "EvolutionStrategyML" ["EvolutionStrategyMpL"] None None None.
(** src/niapy/algorithms/basic/fa.py:62-80 *)
Definition FireflyAlgorithm_init : meth :=
  Meth [("population_size", "20"); ("alpha", "1"); ("beta0", "1"); ("gamma", "0.01"); ("theta", "0.97")] true
    [SCall (SuperOf "FireflyAlgorithm") "__init__" [ELocal "population_size"] true [] true;
     SAttr "alpha" (ELocal "alpha");
     SAttr "beta0" (ELocal "beta0");
     SAttr "gamma" (ELocal "gamma");
     SAttr "theta" (ELocal "theta")].
(** src/niapy/algorithms/basic/fa.py:82-100 *)
Definition FireflyAlgorithm_set : meth :=
  Meth [("population_size", "20"); ("alpha", "1"); ("beta0", "1"); ("gamma", "0.01"); ("theta", "0.97")] false
    [SCall (SuperOf "FireflyAlgorithm") "set_parameters" [] false [("population_size", ELocal "population_size")] true;
     SAttr "alpha" (ELocal "alpha");
     SAttr "beta0" (ELocal "beta0");
     SAttr "gamma" (ELocal "gamma");
     SAttr "theta" (ELocal "theta")].
(** src/niapy/algorithms/basic/fa.py:102-116 *)
Definition FireflyAlgorithm_get : list gstmt :=
  [GCall (SuperOf "FireflyAlgorithm");
   GUpdate [("alpha", GAttr "alpha"); ("beta0", GAttr "beta0"); ("gamma", GAttr "gamma"); ("theta", GAttr "theta")]].
(** src/niapy/algorithms/basic/fa.py:16 *)
Definition FireflyAlgorithm_class : pyclass := PyClass "FireflyAlgorithm" ["Algorithm"] (Some FireflyAlgorithm_init) (Some FireflyAlgorithm_set) (Some FireflyAlgorithm_get).
(** src/niapy/algorithms/basic/foa.py:64-86 *)
Definition ForestOptimizationAlgorithm_init : meth :=
  Meth [("population_size", "10"); ("lifetime", "3"); ("area_limit", "10"); ("local_seeding_changes", "1"); ("global_seeding_changes", "1"); ("transfer_rate", "0.3")] true
    [SCall (SuperOf "ForestOptimizationAlgorithm") "__init__" [ELocal "population_size"] true [] true;
     SAttr "lifetime" (ELocal "lifetime");
     SAttr "area_limit" (ELocal "area_limit");
     SAttr "local_seeding_changes" (ELocal "local_seeding_changes");
     SAttr "global_seeding_changes" (ELocal "global_seeding_changes");
     SAttr "transfer_rate" (ELocal "transfer_rate");
     SAttr "dx" (EConst "None")].
(** src/niapy/algorithms/basic/foa.py:88-110 *)
Definition ForestOptimizationAlgorithm_set : meth :=
  Meth [("population_size", "10"); ("lifetime", "3"); ("area_limit", "10"); ("local_seeding_changes", "1"); ("global_seeding_changes", "1"); ("transfer_rate", "0.3")] false
    [SCall (SuperOf "ForestOptimizationAlgorithm") "set_parameters" [] false [("population_size", ELocal "population_size")] true;
     SAttr "lifetime" (ELocal "lifetime");
     SAttr "area_limit" (ELocal "area_limit");
     SAttr "local_seeding_changes" (ELocal "local_seeding_changes");
     SAttr "global_seeding_changes" (ELocal "global_seeding_changes");
     SAttr "transfer_rate" (ELocal "transfer_rate");
     SAttr "dx" (EConst "None")].
(** src/niapy/algorithms/basic/foa.py:112-127 *)
Definition ForestOptimizationAlgorithm_get : list gstmt :=
  [GCall (TClass "Algorithm");
   GUpdate [("lifetime", GAttr "lifetime"); ("area_limit", GAttr "area_limit"); ("local_seeding_changes", GAttr "local_seeding_changes"); ("global_seeding_changes", GAttr "global_seeding_changes"); ("transfer_rate", GAttr "transfer_rate")]].
(** src/niapy/algorithms/basic/foa.py:15 *)
Definition ForestOptimizationAlgorithm_class : pyclass := PyClass "ForestOptimizationAlgorithm" ["Algorithm"] (Some ForestOptimizationAlgorithm_init) (Some ForestOptimizationAlgorithm_set) (Some ForestOptimizationAlgorithm_get).
(** src/niapy/algorithms/basic/fpa.py:59-71 *)
Definition FlowerPollinationAlgorithm_init : meth :=
  Meth [("population_size", "20"); ("p", "0.8")] true
    [SCall (SuperOf "FlowerPollinationAlgorithm") "__init__" [ELocal "population_size"] true [] true;
     SAttr "p" (ELocal "p")].
(** src/niapy/algorithms/basic/fpa.py:73-85 *)
Definition FlowerPollinationAlgorithm_set : meth :=
  Meth [("population_size", "25"); ("p", "0.8")] false
    [SCall (SuperOf "FlowerPollinationAlgorithm") "set_parameters" [] false [("population_size", ELocal "population_size")] true;
     SAttr "p" (ELocal "p")].
(** src/niapy/algorithms/basic/fpa.py:87-96 *)
Definition FlowerPollinationAlgorithm_get : list gstmt :=
  [GCall (SuperOf "FlowerPollinationAlgorithm");
   GUpdate [("p", GAttr "p")]].
(** src/niapy/algorithms/basic/fpa.py:14 *)
Definition FlowerPollinationAlgorithm_class : pyclass := PyClass "FlowerPollinationAlgorithm" ["Algorithm"] (Some FlowerPollinationAlgorithm_init) (Some FlowerPollinationAlgorithm_set) (Some FlowerPollinationAlgorithm_get).
(** src/niapy/algorithms/basic/fss.py:92-115 *)
Definition FishSchoolSearch_init : meth :=
  Meth [("population_size", "30"); ("step_individual_init", "0.1"); ("step_individual_final", "0.0001"); ("step_volitive_init", "0.01"); ("step_volitive_final", "0.001"); ("min_w", "1"); ("w_scale", "500")] true
    [SCall (SuperOf "FishSchoolSearch") "__init__" [ELocal "population_size"] true [] true;
     SAttr "step_individual_init" (ELocal "step_individual_init");
     SAttr "step_individual_final" (ELocal "step_individual_final");
     SAttr "step_volitive_init" (ELocal "step_volitive_init");
     SAttr "step_volitive_final" (ELocal "step_volitive_final");
     SAttr "min_w" (ELocal "min_w");
     SAttr "w_scale" (ELocal "w_scale")].
(** src/niapy/algorithms/basic/fss.py:117-140 *)
Definition FishSchoolSearch_set : meth :=
  Meth [("population_size", "30"); ("step_individual_init", "0.1"); ("step_individual_final", "0.0001"); ("step_volitive_init", "0.01"); ("step_volitive_final", "0.001"); ("min_w", "1"); ("w_scale", "5000")] false
    [SCall (SuperOf "FishSchoolSearch") "set_parameters" [] false [("population_size", ELocal "population_size")] true;
     SAttr "step_individual_init" (ELocal "step_individual_init");
     SAttr "step_individual_final" (ELocal "step_individual_final");
     SAttr "step_volitive_init" (ELocal "step_volitive_init");
     SAttr "step_volitive_final" (ELocal "step_volitive_final");
     SAttr "min_w" (ELocal "min_w");
     SAttr "w_scale" (ELocal "w_scale")].
(** src/niapy/algorithms/basic/fss.py:142-161 *)
Definition FishSchoolSearch_get : list gstmt :=
  [GCall (SuperOf "FishSchoolSearch");
   GUpdate [("step_individual_init", GAttr "step_individual_init"); ("step_individual_final", GAttr "step_individual_final"); ("step_volitive_init", GAttr "step_volitive_init"); ("step_volitive_final", GAttr "step_volitive_final"); ("min_w", GAttr "min_w"); ("w_scale", GAttr "w_scale")]].
(** src/niapy/algorithms/basic/fss.py:39 *)
Definition FishSchoolSearch_class : pyclass := PyClass "FishSchoolSearch" ["Algorithm"] (Some FishSchoolSearch_init) (Some FishSchoolSearch_set) (Some FishSchoolSearch_get).
(** src/niapy/algorithms/basic/fwa.py:62-75 *)
Definition BareBonesFireworksAlgorithm_init : meth :=
  Meth [("num_sparks", "10"); ("amplification_coefficient", "1.5"); ("reduction_coefficient", "0.5")] true
    [SPop "population_size";
     SCall (SuperOf "BareBonesFireworksAlgorithm") "__init__" [EConst "1"] true [] true;
     SAttr "num_sparks" (ELocal "num_sparks");
     SAttr "amplification_coefficient" (ELocal "amplification_coefficient");
     SAttr "reduction_coefficient" (ELocal "reduction_coefficient")].
(** src/niapy/algorithms/basic/fwa.py:77-90 *)
Definition BareBonesFireworksAlgorithm_set : meth :=
  Meth [("num_sparks", "10"); ("amplification_coefficient", "1.5"); ("reduction_coefficient", "0.5")] false
    [SPop "population_size";
     SCall (SuperOf "BareBonesFireworksAlgorithm") "set_parameters" [] false [("population_size", EConst "1")] true;
     SAttr "num_sparks" (ELocal "num_sparks");
     SAttr "amplification_coefficient" (ELocal "amplification_coefficient");
     SAttr "reduction_coefficient" (ELocal "reduction_coefficient")].
(** src/niapy/algorithms/basic/fwa.py:92-106 *)
Definition BareBonesFireworksAlgorithm_get : list gstmt :=
  [GCall (SuperOf "BareBonesFireworksAlgorithm");
   GPop "population_size";
   GUpdate [("num_sparks", GAttr "num_sparks"); ("amplification_coefficient", GAttr "amplification_coefficient"); ("reduction_coefficient", GAttr "reduction_coefficient")]].
(** src/niapy/algorithms/basic/fwa.py:18 *)
Definition BareBonesFireworksAlgorithm_class : pyclass := PyClass "BareBonesFireworksAlgorithm" ["Algorithm"] (Some BareBonesFireworksAlgorithm_init) (Some BareBonesFireworksAlgorithm_set) (Some BareBonesFireworksAlgorithm_get).
(** src/niapy/algorithms/basic/fwa.py:203-221 *)
Definition FireworksAlgorithm_init : meth :=
  Meth [("population_size", "5"); ("num_sparks", "50"); ("a", "0.04"); ("b", "0.8"); ("max_amplitude", "40"); ("num_gaussian", "5")] true
    [SCall (SuperOf "FireworksAlgorithm") "__init__" [ELocal "population_size"] true [] true;
     SAttr "num_sparks" (ELocal "num_sparks");
     SAttr "a" (ELocal "a");
     SAttr "b" (ELocal "b");
     SAttr "max_amplitude" (ELocal "max_amplitude");
     SAttr "num_gaussian" (ELocal "num_gaussian");
     SAttr "epsilon" (EConst "np.finfo(float).eps")].
(** src/niapy/algorithms/basic/fwa.py:223-242 *)
Definition FireworksAlgorithm_set : meth :=
  Meth [("population_size", "5"); ("num_sparks", "50"); ("a", "0.04"); ("b", "0.8"); ("max_amplitude", "40"); ("num_gaussian", "5")] false
    [SCall (SuperOf "FireworksAlgorithm") "set_parameters" [] false [("population_size", ELocal "population_size")] true;
     SAttr "num_sparks" (ELocal "num_sparks");
     SAttr "a" (ELocal "a");
     SAttr "b" (ELocal "b");
     SAttr "max_amplitude" (ELocal "max_amplitude");
     SAttr "num_gaussian" (ELocal "num_gaussian");
     SAttr "epsilon" (EConst "np.finfo(float).eps")].
(** src/niapy/algorithms/basic/fwa.py:244-259 *)
Definition FireworksAlgorithm_get : list gstmt :=
  [GCall (SuperOf "FireworksAlgorithm");
   GUpdate [("num_sparks", GAttr "num_sparks"); ("a", GAttr "a"); ("b", GAttr "b"); ("max_amplitude", GAttr "max_amplitude"); ("num_gaussian", GAttr "num_gaussian")]].
(** src/niapy/algorithms/basic/fwa.py:162 *)
Definition FireworksAlgorithm_class : pyclass := PyClass "FireworksAlgorithm" ["Algorithm"] (Some FireworksAlgorithm_init) (Some FireworksAlgorithm_set) (Some FireworksAlgorithm_get).
(** src/niapy/algorithms/basic/fwa.py:475-488 *)
Definition EnhancedFireworksAlgorithm_init : meth :=
  Meth [("amplitude_init", "0.2"); ("amplitude_final", "0.01")] true
    [SCall (SuperOf "EnhancedFireworksAlgorithm") "__init__" [] true [] true;
     SAttr "amplitude_init" (ELocal "amplitude_init");
     SAttr "amplitude_final" (ELocal "amplitude_final")].
(** src/niapy/algorithms/basic/fwa.py:490-503 *)
Definition EnhancedFireworksAlgorithm_set : meth :=
  Meth [("amplitude_init", "0.2"); ("amplitude_final", "0.01")] false
    [SCall (SuperOf "EnhancedFireworksAlgorithm") "set_parameters" [] false [] true;
     SAttr "amplitude_init" (ELocal "amplitude_init");
     SAttr "amplitude_final" (ELocal "amplitude_final")].
(** src/niapy/algorithms/basic/fwa.py:505-517 *)
Definition EnhancedFireworksAlgorithm_get : list gstmt :=
  [GCall (SuperOf "EnhancedFireworksAlgorithm");
   GUpdate [("amplitude_init", GAttr "amplitude_init"); ("amplitude_final", GAttr "amplitude_final")]].
(** src/niapy/algorithms/basic/fwa.py:432 *)
Definition EnhancedFireworksAlgorithm_class : pyclass := PyClass "EnhancedFireworksAlgorithm" ["FireworksAlgorithm"] (Some EnhancedFireworksAlgorithm_init) (Some EnhancedFireworksAlgorithm_set) (Some EnhancedFireworksAlgorithm_get).
(** src/niapy/algorithms/basic/fwa.py:658-671 *)
Definition DynamicFireworksAlgorithmGauss_init : meth :=
  Meth [("amplification_coeff", "1.2"); ("reduction_coeff", "0.9")] true
    [SCall (SuperOf "DynamicFireworksAlgorithmGauss") "__init__" [] true [] true;
     SAttr "amplification_coeff" (ELocal "amplification_coeff");
     SAttr "reduction_coeff" (ELocal "reduction_coeff")].
(** src/niapy/algorithms/basic/fwa.py:673-686 *)
Definition DynamicFireworksAlgorithmGauss_set : meth :=
  Meth [("amplification_coeff", "1.2"); ("reduction_coeff", "0.9")] false
    [SCall (SuperOf "DynamicFireworksAlgorithmGauss") "set_parameters" [] false [] true;
     SAttr "amplification_coeff" (ELocal "amplification_coeff");
     SAttr "reduction_coeff" (ELocal "reduction_coeff")].
(** src/niapy/algorithms/basic/fwa.py:688-700 *)
Definition DynamicFireworksAlgorithmGauss_get : list gstmt :=
  [GCall (SuperOf "DynamicFireworksAlgorithmGauss");
   GUpdate [("amplification_coeff", GAttr "amplification_coeff"); ("reduction_coeff", GAttr "reduction_coeff")]].
(** src/niapy/algorithms/basic/fwa.py:614 *)
Definition DynamicFireworksAlgorithmGauss_class : pyclass := PyClass "DynamicFireworksAlgorithmGauss" ["EnhancedFireworksAlgorithm"] (Some DynamicFireworksAlgorithmGauss_init) (Some DynamicFireworksAlgorithmGauss_set) (Some DynamicFireworksAlgorithmGauss_get).
(** src/niapy/algorithms/basic/fwa.py:829 *)
Definition DynamicFireworksAlgorithm_class : pyclass := PyClass "DynamicFireworksAlgorithm" ["DynamicFireworksAlgorithmGauss"] None None None.
(** src/niapy/algorithms/basic/ga.py:244-282 *)
Definition GeneticAlgorithm_init : meth :=
  Meth [("population_size", "25"); ("tournament_size", "5"); ("mutation_rate", "0.25"); ("crossover_rate", "0.25"); ("selection", "tournament_selection"); ("crossover", "uniform_crossover"); ("mutation", "uniform_mutation")] true
    [SCall (SuperOf "GeneticAlgorithm") "__init__" [ELocal "population_size"] true [("individual_type", EPop "individual_type" (EConst "Individual")); ("initialization_function", EPop "initialization_function" (EConst "default_individual_init"))] true;
     SAttr "tournament_size" (ELocal "tournament_size");
     SAttr "mutation_rate" (ELocal "mutation_rate");
     SAttr "crossover_rate" (ELocal "crossover_rate");
     SAttr "selection" (ELocal "selection");
     SAttr "crossover" (ELocal "crossover");
     SAttr "mutation" (ELocal "mutation")].
(** src/niapy/algorithms/basic/ga.py:284-322 *)
Definition GeneticAlgorithm_set : meth :=
  Meth [("population_size", "25"); ("tournament_size", "5"); ("mutation_rate", "0.25"); ("crossover_rate", "0.25"); ("selection", "tournament_selection"); ("crossover", "uniform_crossover"); ("mutation", "uniform_mutation")] false
    [SCall (SuperOf "GeneticAlgorithm") "set_parameters" [] false [("population_size", ELocal "population_size"); ("individual_type", EPop "individual_type" (EConst "Individual")); ("initialization_function", EPop "initialization_function" (EConst "default_individual_init"))] true;
     SAttr "tournament_size" (ELocal "tournament_size");
     SAttr "mutation_rate" (ELocal "mutation_rate");
     SAttr "crossover_rate" (ELocal "crossover_rate");
     SAttr "selection" (ELocal "selection");
     SAttr "crossover" (ELocal "crossover");
     SAttr "mutation" (ELocal "mutation")].
(** src/niapy/algorithms/basic/ga.py:324-340 *)
Definition GeneticAlgorithm_get : list gstmt :=
  [GCall (SuperOf "GeneticAlgorithm");
   GUpdate [("tournament_size", GAttr "tournament_size"); ("mutation_rate", GAttr "mutation_rate"); ("crossover_rate", GAttr "crossover_rate"); ("selection", GAttr "selection"); ("crossover", GAttr "crossover"); ("mutation", GAttr "mutation")]].
(** src/niapy/algorithms/basic/ga.py:197 *)
Definition GeneticAlgorithm_class : pyclass := PyClass "GeneticAlgorithm" ["Algorithm"] (Some GeneticAlgorithm_init) (Some GeneticAlgorithm_set) (Some GeneticAlgorithm_get).
(** src/niapy/algorithms/basic/gsa.py:57-71 *)
Definition GravitationalSearchAlgorithm_init : meth :=
  Meth [("population_size", "40"); ("g0", "2.467"); ("epsilon", "1e-17")] true
    [SCall (SuperOf "GravitationalSearchAlgorithm") "__init__" [ELocal "population_size"] true [] true;
     SAttr "g0" (ELocal "g0");
     SAttr "epsilon" (ELocal "epsilon")].
(** src/niapy/algorithms/basic/gsa.py:73-87 *)
Definition GravitationalSearchAlgorithm_set : meth :=
  Meth [("population_size", "40"); ("g0", "2.467"); ("epsilon", "1e-17")] false
    [SCall (SuperOf "GravitationalSearchAlgorithm") "set_parameters" [] false [("population_size", ELocal "population_size")] true;
     SAttr "g0" (ELocal "g0");
     SAttr "epsilon" (ELocal "epsilon")].
(** src/niapy/algorithms/basic/gsa.py:89-104 *)
Definition GravitationalSearchAlgorithm_get : list gstmt :=
  [GCall (SuperOf "GravitationalSearchAlgorithm");
   GUpdate [("g0", GAttr "g0"); ("epsilon", GAttr "epsilon")]].
(** src/niapy/algorithms/basic/gsa.py:16 *)
Definition GravitationalSearchAlgorithm_class : pyclass := PyClass "GravitationalSearchAlgorithm" ["Algorithm"] (Some GravitationalSearchAlgorithm_init) (Some GravitationalSearchAlgorithm_set) (Some GravitationalSearchAlgorithm_get).
(** src/niapy/algorithms/basic/gso.py:65-87 *)
Definition GlowwormSwarmOptimization_init : meth :=
  Meth [("population_size", "25"); ("l0", "5"); ("nt", "5"); ("rho", "0.4"); ("gamma", "0.6"); ("beta", "0.08"); ("s", "0.03"); ("distance", "euclidean")] true
    [SCall (SuperOf "GlowwormSwarmOptimization") "__init__" [ELocal "population_size"] true [] true;
     SAttr "l0" (ELocal "l0");
     SAttr "nt" (ELocal "nt");
     SAttr "rho" (ELocal "rho");
     SAttr "gamma" (ELocal "gamma");
     SAttr "beta" (ELocal "beta");
     SAttr "s" (ELocal "s");
     SAttr "distance" (ELocal "distance")].
(** src/niapy/algorithms/basic/gso.py:89-111 *)
Definition GlowwormSwarmOptimization_set : meth :=
  Meth [("population_size", "25"); ("l0", "5"); ("nt", "5"); ("rho", "0.4"); ("gamma", "0.6"); ("beta", "0.08"); ("s", "0.03"); ("distance", "euclidean")] false
    [SCall (SuperOf "GlowwormSwarmOptimization") "set_parameters" [] false [("population_size", ELocal "population_size")] true;
     SAttr "l0" (ELocal "l0");
     SAttr "nt" (ELocal "nt");
     SAttr "rho" (ELocal "rho");
     SAttr "gamma" (ELocal "gamma");
     SAttr "beta" (ELocal "beta");
     SAttr "s" (ELocal "s");
     SAttr "distance" (ELocal "distance")].
(** src/niapy/algorithms/basic/gso.py:113-130 *)
Definition GlowwormSwarmOptimization_get : list gstmt :=
  [GCall (SuperOf "GlowwormSwarmOptimization");
   GUpdate [("l0", GAttr "l0"); ("nt", GAttr "nt"); ("rho", GAttr "rho"); ("gamma", GAttr "gamma"); ("beta", GAttr "beta"); ("s", GAttr "s"); ("distance", GAttr "distance")]].
(** src/niapy/algorithms/basic/gso.py:17 *)
Definition GlowwormSwarmOptimization_class : pyclass := PyClass "GlowwormSwarmOptimization" ["Algorithm"] (Some GlowwormSwarmOptimization_init) (Some GlowwormSwarmOptimization_set) (Some GlowwormSwarmOptimization_get).
(** src/niapy/algorithms/basic/gso.py:260 *)
Definition GlowwormSwarmOptimizationV1_class : pyclass := PyClass "GlowwormSwarmOptimizationV1" ["GlowwormSwarmOptimization"] None None None.
(** src/niapy/algorithms/basic/gso.py:352-360 *)
Definition GlowwormSwarmOptimizationV2_init : meth :=
  Meth [("alpha", "0.2")] true
    [SCall (SuperOf "GlowwormSwarmOptimizationV2") "__init__" [] true [] true;
     SAttr "alpha" (ELocal "alpha")].
(** src/niapy/algorithms/basic/gso.py:362-373 *)
Definition GlowwormSwarmOptimizationV2_set : meth :=
  Meth [("alpha", "0.2")] false
    [SCall (SuperOf "GlowwormSwarmOptimizationV2") "set_parameters" [] false [] true;
     SAttr "alpha" (ELocal "alpha")].
(** src/niapy/algorithms/basic/gso.py:310 *)
Definition GlowwormSwarmOptimizationV2_class : pyclass := PyClass "GlowwormSwarmOptimizationV2" ["GlowwormSwarmOptimization"] (Some GlowwormSwarmOptimizationV2_init) (Some GlowwormSwarmOptimizationV2_set) None.
(** src/niapy/algorithms/basic/gso.py:422-430 *)
Definition GlowwormSwarmOptimizationV3_init : meth :=
  Meth [("beta1", "0.2")] true
    [SCall (SuperOf "GlowwormSwarmOptimizationV3") "__init__" [] true [] true;
     SAttr "beta1" (ELocal "beta1")].
(** src/niapy/algorithms/basic/gso.py:432-443 *)
Definition GlowwormSwarmOptimizationV3_set : meth :=
  Meth [("beta1", "0.2")] false
    [SCall (SuperOf "GlowwormSwarmOptimizationV3") "set_parameters" [] false [] true;
     SAttr "beta1" (ELocal "beta1")].
(** src/niapy/algorithms/basic/gso.py:380 *)
Definition GlowwormSwarmOptimizationV3_class : pyclass := PyClass "GlowwormSwarmOptimizationV3" ["GlowwormSwarmOptimization"] (Some GlowwormSwarmOptimizationV3_init) (Some GlowwormSwarmOptimizationV3_set) None.
(** src/niapy/algorithms/basic/gwo.py:10 *)
Definition GreyWolfOptimizer_class : pyclass := PyClass "GreyWolfOptimizer" ["Algorithm"] None None None.
(** src/niapy/algorithms/basic/hho.py:45-54 *)
Definition HarrisHawksOptimization_init : meth :=
  Meth [("population_size", "40"); ("levy", "0.01")] true
    [SCall (SuperOf "HarrisHawksOptimization") "__init__" [ELocal "population_size"] true [] true;
     SAttr "levy" (ELocal "levy")].
(** src/niapy/algorithms/basic/hho.py:69-81 *)
Definition HarrisHawksOptimization_set : meth :=
  Meth [("population_size", "40"); ("levy", "0.01")] false
    [SCall (SuperOf "HarrisHawksOptimization") "set_parameters" [] false [("population_size", ELocal "population_size")] true;
     SAttr "levy" (ELocal "levy")].
(** src/niapy/algorithms/basic/hho.py:83-94 *)
Definition HarrisHawksOptimization_get : list gstmt :=
  [GCall (SuperOf "HarrisHawksOptimization");
   GUpdate [("levy", GAttr "levy")]].
(** src/niapy/algorithms/basic/hho.py:16 *)
Definition HarrisHawksOptimization_class : pyclass := PyClass "HarrisHawksOptimization" ["Algorithm"] (Some HarrisHawksOptimization_init) (Some HarrisHawksOptimization_set) (Some HarrisHawksOptimization_get).
(** src/niapy/algorithms/basic/hs.py:59-72 *)
Definition HarmonySearch_init : meth :=
  Meth [("population_size", "30"); ("r_accept", "0.7"); ("r_pa", "0.35"); ("b_range", "1.42")] true
    [SCall (SuperOf "HarmonySearch") "__init__" [ELocal "population_size"] true [] true;
     SAttr "r_accept" (ELocal "r_accept");
     SAttr "r_pa" (ELocal "r_pa");
     SAttr "b_range" (ELocal "b_range")].
(** src/niapy/algorithms/basic/hs.py:74-90 *)
Definition HarmonySearch_set : meth :=
  Meth [("population_size", "30"); ("r_accept", "0.7"); ("r_pa", "0.35"); ("b_range", "1.42")] false
    [SCall (SuperOf "HarmonySearch") "set_parameters" [] false [("population_size", ELocal "population_size")] true;
     SAttr "r_accept" (ELocal "r_accept");
     SAttr "r_pa" (ELocal "r_pa");
     SAttr "b_range" (ELocal "b_range")].
(** src/niapy/algorithms/basic/hs.py:92-100 *)
Definition HarmonySearch_get : list gstmt :=
  [GCall (SuperOf "HarmonySearch");
   GUpdate [("r_accept", GAttr "r_accept"); ("r_pa", GAttr "r_pa"); ("b_range", GAttr "b_range")]].
(** src/niapy/algorithms/basic/hs.py:15 *)
Definition HarmonySearch_class : pyclass := PyClass "HarmonySearch" ["Algorithm"] (Some HarmonySearch_init) (Some HarmonySearch_set) (Some HarmonySearch_get).
(** src/niapy/algorithms/basic/hs.py:217-227 *)
Definition HarmonySearchV1_init : meth :=
  Meth [("bw_min", "1"); ("bw_max", "2")] true
    [SCall (SuperOf "HarmonySearchV1") "__init__" [] true [] true;
     SAttr "bw_min" (ELocal "bw_min");
     SAttr "bw_max" (ELocal "bw_max")].
(** src/niapy/algorithms/basic/hs.py:229-241 *)
Definition HarmonySearchV1_set : meth :=
  Meth [("bw_min", "1"); ("bw_max", "2")] false
    [SCall (SuperOf "HarmonySearchV1") "set_parameters" [] false [] true;
     SAttr "bw_min" (ELocal "bw_min");
     SAttr "bw_max" (ELocal "bw_max")].
(** src/niapy/algorithms/basic/hs.py:243-250 *)
Definition HarmonySearchV1_get : list gstmt :=
  [GCall (SuperOf "HarmonySearchV1");
   GUpdate [("bw_min", GAttr "bw_min"); ("bw_max", GAttr "bw_max")]].
(** src/niapy/algorithms/basic/hs.py:174 *)
Definition HarmonySearchV1_class : pyclass := PyClass "HarmonySearchV1" ["HarmonySearch"] (Some HarmonySearchV1_init) (Some HarmonySearchV1_set) (Some HarmonySearchV1_get).
(** src/niapy/algorithms/basic/kh.py:71-104 *)
Definition KrillHerd_init : meth :=
  Meth [("population_size", "50"); ("n_max", "0.01"); ("foraging_speed", "0.02"); ("diffusion_speed", "0.002"); ("c_t", "0.93"); ("w_neighbor", "0.42"); ("w_foraging", "0.38"); ("d_s", "2.63"); ("max_neighbors", "5"); ("crossover_rate", "0.2"); ("mutation_rate", "0.05")] true
    [SCall (SuperOf "KrillHerd") "__init__" [ELocal "population_size"] true [] true;
     SAttr "n_max" (ELocal "n_max");
     SAttr "foraging_speed" (ELocal "foraging_speed");
     SAttr "diffusion_speed" (ELocal "diffusion_speed");
     SAttr "c_t" (ELocal "c_t");
     SAttr "w_neighbor" (ELocal "w_neighbor");
     SAttr "w_foraging" (ELocal "w_foraging");
     SAttr "d_s" (ELocal "d_s");
     SAttr "max_neighbors" (ELocal "max_neighbors");
     SAttr "cr" (ELocal "crossover_rate");
     SAttr "mr" (ELocal "mutation_rate");
     SAttr "epsilon" (EConst "np.finfo(float).eps")].
(** src/niapy/algorithms/basic/kh.py:106-139 *)
Definition KrillHerd_set : meth :=
  Meth [("population_size", "50"); ("n_max", "0.01"); ("foraging_speed", "0.02"); ("diffusion_speed", "0.002"); ("c_t", "0.93"); ("w_neighbor", "0.42"); ("w_foraging", "0.38"); ("d_s", "2.63"); ("max_neighbors", "5"); ("crossover_rate", "0.2"); ("mutation_rate", "0.05")] false
    [SCall (SuperOf "KrillHerd") "set_parameters" [] false [("population_size", ELocal "population_size")] true;
     SAttr "n_max" (ELocal "n_max");
     SAttr "foraging_speed" (ELocal "foraging_speed");
     SAttr "diffusion_speed" (ELocal "diffusion_speed");
     SAttr "c_t" (ELocal "c_t");
     SAttr "w_neighbor" (ELocal "w_neighbor");
     SAttr "w_foraging" (ELocal "w_foraging");
     SAttr "d_s" (ELocal "d_s");
     SAttr "max_neighbors" (ELocal "max_neighbors");
     SAttr "cr" (ELocal "crossover_rate");
     SAttr "mr" (ELocal "mutation_rate");
     SAttr "epsilon" (EConst "np.finfo(float).eps")].
(** src/niapy/algorithms/basic/kh.py:141-161 *)
Definition KrillHerd_get : list gstmt :=
  [GCall (TClass "Algorithm");
   GUpdate [("n_max", GAttr "n_max"); ("foraging_speed", GAttr "foraging_speed"); ("diffusion_speed", GAttr "diffusion_speed"); ("c_t", GAttr "c_t"); ("w_neighbor", GAttr "w_neighbor"); ("w_foraging", GAttr "w_foraging"); ("d_s", GAttr "d_s"); ("max_neighbors", GAttr "max_neighbors"); ("crossover_rate", GAttr "cr"); ("mutation_rate", GAttr "mr")]].
(** src/niapy/algorithms/basic/kh.py:16 *)
Definition KrillHerd_class : pyclass := PyClass "KrillHerd" ["Algorithm"] (Some KrillHerd_init) (Some KrillHerd_set) (Some KrillHerd_get).
(** src/niapy/algorithms/basic/loa.py:139-185 *)
Definition LionOptimizationAlgorithm_init : meth :=
  Meth [("population_size", "50"); ("nomad_ratio", "0.2"); ("num_of_prides", "5"); ("female_ratio", "0.8"); ("roaming_factor", "0.2"); ("mating_factor", "0.3"); ("mutation_factor", "0.2"); ("immigration_factor", "0.4")] true
    [SCall (SuperOf "LionOptimizationAlgorithm") "__init__" [ELocal "population_size"] true [("individual_type", EPop "individual_type" (EConst "Lion")); ("initialization_function", EPop "initialization_function" (EConst "default_individual_init"))] true;
     SAttr "nomad_ratio" (ELocal "nomad_ratio");
     SAttr "num_of_prides" (ELocal "num_of_prides");
     SAttr "female_ratio" (ELocal "female_ratio");
     SAttr "roaming_factor" (ELocal "roaming_factor");
     SAttr "mating_factor" (ELocal "mating_factor");
     SAttr "mutation_factor" (ELocal "mutation_factor");
     SAttr "immigration_factor" (ELocal "immigration_factor")].
(** src/niapy/algorithms/basic/loa.py:187-232 *)
Definition LionOptimizationAlgorithm_set : meth :=
  Meth [("population_size", "50"); ("nomad_ratio", "0.2"); ("num_of_prides", "5"); ("female_ratio", "0.8"); ("roaming_factor", "0.2"); ("mating_factor", "0.3"); ("mutation_factor", "0.2"); ("immigration_factor", "0.4")] true
    [SCall (SuperOf "LionOptimizationAlgorithm") "set_parameters" [ELocal "population_size"] true [("individual_type", EConst "Lion"); ("initialization_function", EPop "initialization_function" (EConst "default_individual_init"))] true;
     SAttr "nomad_ratio" (ELocal "nomad_ratio");
     SAttr "num_of_prides" (ELocal "num_of_prides");
     SAttr "female_ratio" (ELocal "female_ratio");
     SAttr "roaming_factor" (ELocal "roaming_factor");
     SAttr "mating_factor" (ELocal "mating_factor");
     SAttr "mutation_factor" (ELocal "mutation_factor");
     SAttr "immigration_factor" (ELocal "immigration_factor")].
(** src/niapy/algorithms/basic/loa.py:234-253 *)
Definition LionOptimizationAlgorithm_get : list gstmt :=
  [GCall (SuperOf "LionOptimizationAlgorithm");
   GUpdate [("nomad_ratio", GAttr "nomad_ratio"); ("num_of_prides", GAttr "num_of_prides"); ("female_ratio", GAttr "female_ratio"); ("roaming_factor", GAttr "roaming_factor"); ("mating_factor", GAttr "mating_factor"); ("mutation_factor", GAttr "mutation_factor"); ("immigration_factor", GAttr "immigration_factor")]].
(** src/niapy/algorithms/basic/loa.py:80 *)
Definition LionOptimizationAlgorithm_class : pyclass := PyClass "LionOptimizationAlgorithm" ["Algorithm"] (Some LionOptimizationAlgorithm_init) (Some LionOptimizationAlgorithm_set) (Some LionOptimizationAlgorithm_get).
(** src/niapy/algorithms/basic/mbo.py:61-79 *)
Definition MonarchButterflyOptimization_init : meth :=
  Meth [("population_size", "20"); ("partition", "5 / 12"); ("period", "1.2")] true
    [SCall (SuperOf "MonarchButterflyOptimization") "__init__" [ELocal "population_size"] true [] true;
     SAttr "partition" (ELocal "partition");
     SAttr "period" (ELocal "period");
     SAttr "keep" (EConst "2");
     SAttr "bar" (ELocal "partition");
     SAttr "np1" (EOp "int(np.ceil(_ * _))" [ELocal "partition"; ELocal "population_size"]);
     SAttr "np2" (EOp "_ - _" [ELocal "population_size"; ESelf "np1"])].
(** src/niapy/algorithms/basic/mbo.py:81-99 *)
Definition MonarchButterflyOptimization_set : meth :=
  Meth [("population_size", "20"); ("partition", "5 / 12"); ("period", "1.2")] false
    [SCall (SuperOf "MonarchButterflyOptimization") "set_parameters" [] false [("population_size", ELocal "population_size")] true;
     SAttr "partition" (ELocal "partition");
     SAttr "period" (ELocal "period");
     SAttr "keep" (EConst "2");
     SAttr "bar" (ELocal "partition");
     SAttr "np1" (EOp "int(np.ceil(_ * _))" [ELocal "partition"; ELocal "population_size"]);
     SAttr "np2" (EOp "_ - _" [ELocal "population_size"; ESelf "np1"])].
(** src/niapy/algorithms/basic/mbo.py:101-117 *)
Definition MonarchButterflyOptimization_get : list gstmt :=
  [GCall (TClass "Algorithm");
   GUpdate [("partition", GAttr "partition"); ("period", GAttr "period"); ("keep", GAttr "keep"); ("bar", GAttr "bar"); ("np1", GAttr "np1"); ("np2", GAttr "np2")]].
(** src/niapy/algorithms/basic/mbo.py:15 *)
Definition MonarchButterflyOptimization_class : pyclass := PyClass "MonarchButterflyOptimization" ["Algorithm"] (Some MonarchButterflyOptimization_init) (Some MonarchButterflyOptimization_set) (Some MonarchButterflyOptimization_get).
(** src/niapy/algorithms/basic/mfo.py:15 *)
Definition MothFlameOptimizer_class : pyclass := PyClass "MothFlameOptimizer" ["Algorithm"] None None None.
(** src/niapy/algorithms/basic/mke.py:106-127 *)
Definition MonkeyKingEvolutionV1_init : meth :=
  Meth [("population_size", "40"); ("fluctuation_coeff", "0.7"); ("population_rate", "0.3"); ("c", "3"); ("fc", "0.5")] true
    [SCall (SuperOf "MonkeyKingEvolutionV1") "__init__" [ELocal "population_size"] true [("individual_type", EPop "individual_type" (EConst "MkeSolution")); ("initialization_function", EPop "initialization_function" (EConst "default_individual_init"))] true;
     SAttr "fluctuation_coeff" (ELocal "fluctuation_coeff");
     SAttr "population_rate" (ELocal "population_rate");
     SAttr "c" (ELocal "c");
     SAttr "fc" (ELocal "fc")].
(** src/niapy/algorithms/basic/mke.py:129-150 *)
Definition MonkeyKingEvolutionV1_set : meth :=
  Meth [("population_size", "40"); ("fluctuation_coeff", "0.7"); ("population_rate", "0.3"); ("c", "3"); ("fc", "0.5")] false
    [SCall (SuperOf "MonkeyKingEvolutionV1") "set_parameters" [] false [("population_size", ELocal "population_size"); ("individual_type", EPop "individual_type" (EConst "MkeSolution")); ("initialization_function", EPop "initialization_function" (EConst "default_individual_init"))] true;
     SAttr "fluctuation_coeff" (ELocal "fluctuation_coeff");
     SAttr "population_rate" (ELocal "population_rate");
     SAttr "c" (ELocal "c");
     SAttr "fc" (ELocal "fc")].
(** src/niapy/algorithms/basic/mke.py:152-169 *)
Definition MonkeyKingEvolutionV1_get : list gstmt :=
  [GCall (TClass "Algorithm");
   GUpdate [("fluctuation_coeff", GAttr "fluctuation_coeff"); ("population_rate", GAttr "population_rate"); ("c", GAttr "c"); ("fc", GAttr "fc")]].
(** src/niapy/algorithms/basic/mke.py:58 *)
Definition MonkeyKingEvolutionV1_class : pyclass := PyClass "MonkeyKingEvolutionV1" ["Algorithm"] (Some MonkeyKingEvolutionV1_init) (Some MonkeyKingEvolutionV1_set) (Some MonkeyKingEvolutionV1_get).
(** src/niapy/algorithms/basic/mke.py:299 *)
Definition MonkeyKingEvolutionV2_class : pyclass := PyClass "MonkeyKingEvolutionV2" ["MonkeyKingEvolutionV1"] None None None.
(** src/niapy/algorithms/basic/mke.py:444-448 *)
Definition MonkeyKingEvolutionV3_init : meth :=
  Meth [] true
    [SCall (SuperOf "MonkeyKingEvolutionV3") "__init__" [] true [("individual_type", EPop "individual_type" (EConst "None")); ("initialization_function", EPop "initialization_function" (EConst "default_numpy_init"))] true].
(** src/niapy/algorithms/basic/mke.py:450-459 *)
Definition MonkeyKingEvolutionV3_set : meth :=
  Meth [] false
    [SCall (SuperOf "MonkeyKingEvolutionV3") "set_parameters" [] false [("individual_type", EPop "individual_type" (EConst "None")); ("initialization_function", EPop "initialization_function" (EConst "default_numpy_init"))] true].
(** src/niapy/algorithms/basic/mke.py:400 *)
Definition MonkeyKingEvolutionV3_class : pyclass := PyClass "MonkeyKingEvolutionV3" ["MonkeyKingEvolutionV1"] (Some MonkeyKingEvolutionV3_init) (Some MonkeyKingEvolutionV3_set) None.
(** src/niapy/algorithms/basic/mshoa.py:65-84 *)
Definition MantisSearchAlgorithm_init : meth :=
  Meth [("population_size", "50"); ("k_value", "0.3"); ("use_reflection", "True"); ("normalize_space", "False"); ("debug_pti", "False")] true
    [SCall (SuperOf "MantisSearchAlgorithm") "__init__" [ELocal "population_size"] true [] true;
     SAttr "k_value" (ELocal "k_value");
     SAttr "use_reflection" (ELocal "use_reflection");
     SAttr "normalize_space" (ELocal "normalize_space");
     SAttr "debug_pti" (ELocal "debug_pti")].
(** src/niapy/algorithms/basic/mshoa.py:86-105 *)
Definition MantisSearchAlgorithm_set : meth :=
  Meth [("population_size", "50"); ("k_value", "0.3"); ("use_reflection", "True"); ("normalize_space", "False"); ("debug_pti", "False")] true
    [SCall (SuperOf "MantisSearchAlgorithm") "set_parameters" [] true [("population_size", ELocal "population_size")] true;
     SAttr "k_value" (ELocal "k_value");
     SAttr "use_reflection" (ELocal "use_reflection");
     SAttr "normalize_space" (ELocal "normalize_space");
     SAttr "debug_pti" (ELocal "debug_pti")].
(** src/niapy/algorithms/basic/mshoa.py:107-124 *)
Definition MantisSearchAlgorithm_get : list gstmt :=
  [GCall (SuperOf "MantisSearchAlgorithm");
   GUpdate [("k_value", GAttr "k_value"); ("use_reflection", GAttr "use_reflection"); ("normalize_space", GAttr "normalize_space"); ("debug_pti", GAttr "debug_pti")]].
(** src/niapy/algorithms/basic/mshoa.py:18 *)
Definition MantisSearchAlgorithm_class : pyclass := PyClass "MantisSearchAlgorithm" ["Algorithm"] (Some MantisSearchAlgorithm_init) (Some MantisSearchAlgorithm_set) (Some MantisSearchAlgorithm_get).
(** src/niapy/algorithms/basic/pso.py:70-93 *)
Definition ParticleSwarmAlgorithm_init : meth :=
  Meth [("population_size", "25"); ("c1", "2"); ("c2", "2"); ("w", "0.7"); ("min_velocity", "-1.5"); ("max_velocity", "1.5"); ("repair", "reflect")] true
    [SCall (SuperOf "ParticleSwarmAlgorithm") "__init__" [ELocal "population_size"] true [] true;
     SAttr "c1" (ELocal "c1");
     SAttr "c2" (ELocal "c2");
     SAttr "w" (ELocal "w");
     SAttr "min_velocity" (ELocal "min_velocity");
     SAttr "max_velocity" (ELocal "max_velocity");
     SAttr "repair" (ELocal "repair")].
(** src/niapy/algorithms/basic/pso.py:95-118 *)
Definition ParticleSwarmAlgorithm_set : meth :=
  Meth [("population_size", "25"); ("c1", "2"); ("c2", "2"); ("w", "0.7"); ("min_velocity", "-1.5"); ("max_velocity", "1.5"); ("repair", "reflect")] false
    [SCall (SuperOf "ParticleSwarmAlgorithm") "set_parameters" [] false [("population_size", ELocal "population_size")] true;
     SAttr "c1" (ELocal "c1");
     SAttr "c2" (ELocal "c2");
     SAttr "w" (ELocal "w");
     SAttr "min_velocity" (ELocal "min_velocity");
     SAttr "max_velocity" (ELocal "max_velocity");
     SAttr "repair" (ELocal "repair")].
(** src/niapy/algorithms/basic/pso.py:120-139 *)
Definition ParticleSwarmAlgorithm_get : list gstmt :=
  [GCall (SuperOf "ParticleSwarmAlgorithm");
   GUpdate [("c1", GAttr "c1"); ("c2", GAttr "c2"); ("w", GAttr "w"); ("min_velocity", GAttr "min_velocity"); ("max_velocity", GAttr "max_velocity"); ("repair", GAttr "repair")]].
(** src/niapy/algorithms/basic/pso.py:23 *)
Definition ParticleSwarmAlgorithm_class : pyclass := PyClass "ParticleSwarmAlgorithm" ["Algorithm"] (Some ParticleSwarmAlgorithm_init) (Some ParticleSwarmAlgorithm_set) (Some ParticleSwarmAlgorithm_get).
(** src/niapy/algorithms/basic/pso.py:302-307 *)
Definition ParticleSwarmOptimization_init : meth :=
  Meth [] true
    [SCall (SuperOf "ParticleSwarmOptimization") "__init__" [] true [] true;
     SAttr "w" (EConst "1");
     SAttr "min_velocity" (EConst "-np.inf");
     SAttr "max_velocity" (EConst "np.inf")].
(** src/niapy/algorithms/basic/pso.py:309-317 *)
Definition ParticleSwarmOptimization_set : meth :=
  Meth [] false
    [SPop "w";
     SPop "min_velocity";
     SPop "max_velocity";
     SCall (SuperOf "ParticleSwarmOptimization") "set_parameters" [] false [("w", EConst "1"); ("min_velocity", EConst "-np.inf"); ("max_velocity", EConst "np.inf")] true].
(** src/niapy/algorithms/basic/pso.py:319-330 *)
Definition ParticleSwarmOptimization_get : list gstmt :=
  [GCall (SuperOf "ParticleSwarmOptimization");
   GPop "w";
   GPop "min_velocity";
   GPop "max_velocity"].
(** src/niapy/algorithms/basic/pso.py:261 *)
Definition ParticleSwarmOptimization_class : pyclass := PyClass "ParticleSwarmOptimization" ["ParticleSwarmAlgorithm"] (Some ParticleSwarmOptimization_init) (Some ParticleSwarmOptimization_set) (Some ParticleSwarmOptimization_get).
(** src/niapy/algorithms/basic/pso.py:377-397 *)
Definition OppositionVelocityClampingParticleSwarmOptimization_init : meth :=
  Meth [("p0", "0.3"); ("w_min", "0.4"); ("w_max", "0.9"); ("sigma", "0.1"); ("c1", "1.49612"); ("c2", "1.49612")] true
    [SPop "w";
     SCall (SuperOf "OppositionVelocityClampingParticleSwarmOptimization") "__init__" [] true [("w", ELocal "w_max"); ("c1", ELocal "c1"); ("c2", ELocal "c2")] true;
     SAttr "p0" (ELocal "p0");
     SAttr "w_min" (ELocal "w_min");
     SAttr "w_max" (ELocal "w_max");
     SAttr "sigma" (ELocal "sigma")].
(** src/niapy/algorithms/basic/pso.py:399-419 *)
Definition OppositionVelocityClampingParticleSwarmOptimization_set : meth :=
  Meth [("p0", "0.3"); ("w_min", "0.4"); ("w_max", "0.9"); ("sigma", "0.1"); ("c1", "1.49612"); ("c2", "1.49612")] false
    [SPop "w";
     SCall (SuperOf "OppositionVelocityClampingParticleSwarmOptimization") "set_parameters" [] false [("w", ELocal "w_max"); ("c1", ELocal "c1"); ("c2", ELocal "c2")] true;
     SAttr "p0" (ELocal "p0");
     SAttr "w_min" (ELocal "w_min");
     SAttr "w_max" (ELocal "w_max");
     SAttr "sigma" (ELocal "sigma")].
(** src/niapy/algorithms/basic/pso.py:421-436 *)
Definition OppositionVelocityClampingParticleSwarmOptimization_get : list gstmt :=
  [GCall (TClass "ParticleSwarmAlgorithm");
   GPop "min_velocity";
   GPop "max_velocity";
   GUpdate [("p0", GAttr "p0"); ("w_min", GAttr "w_min"); ("w_max", GAttr "w_max"); ("sigma", GAttr "sigma")]].
(** src/niapy/algorithms/basic/pso.py:333 *)
Definition OppositionVelocityClampingParticleSwarmOptimization_class : pyclass := PyClass "OppositionVelocityClampingParticleSwarmOptimization" ["ParticleSwarmAlgorithm"] (Some OppositionVelocityClampingParticleSwarmOptimization_init) (Some OppositionVelocityClampingParticleSwarmOptimization_set) (Some OppositionVelocityClampingParticleSwarmOptimization_get).
(** src/niapy/algorithms/basic/pso.py:591-594 *)
Definition CenterParticleSwarmOptimization_init : meth :=
  Meth [] true
    [SPop "min_velocity";
     SPop "max_velocity";
     SCall (SuperOf "CenterParticleSwarmOptimization") "__init__" [] true [("min_velocity", EConst "-np.inf"); ("max_velocity", EConst "np.inf")] true].
(** src/niapy/algorithms/basic/pso.py:596-607 *)
Definition CenterParticleSwarmOptimization_set : meth :=
  Meth [] false
    [SPop "min_velocity";
     SPop "max_velocity";
     SCall (SuperOf "CenterParticleSwarmOptimization") "set_parameters" [] false [("min_velocity", EConst "-np.inf"); ("max_velocity", EConst "np.inf")] true].
(** src/niapy/algorithms/basic/pso.py:609-621 *)
Definition CenterParticleSwarmOptimization_get : list gstmt :=
  [GCall (SuperOf "CenterParticleSwarmOptimization");
   GPop "min_velocity";
   GPop "max_velocity"].
(** src/niapy/algorithms/basic/pso.py:553 *)
Definition CenterParticleSwarmOptimization_class : pyclass := PyClass "CenterParticleSwarmOptimization" ["ParticleSwarmAlgorithm"] (Some CenterParticleSwarmOptimization_init) (Some CenterParticleSwarmOptimization_set) (Some CenterParticleSwarmOptimization_get).
(** src/niapy/algorithms/basic/pso.py:695-699 *)
Definition MutatedParticleSwarmOptimization_init : meth :=
  Meth [("num_mutations", "10")] true
    [SPop "min_velocity";
     SPop "max_velocity";
     SCall (SuperOf "MutatedParticleSwarmOptimization") "__init__" [] true [("min_velocity", EConst "-np.inf"); ("max_velocity", EConst "np.inf")] true;
     SAttr "num_mutations" (ELocal "num_mutations")].
(** src/niapy/algorithms/basic/pso.py:701-714 *)
Definition MutatedParticleSwarmOptimization_set : meth :=
  Meth [("num_mutations", "10")] false
    [SPop "min_velocity";
     SPop "max_velocity";
     SCall (TClass "ParticleSwarmAlgorithm") "set_parameters" [] false [("min_velocity", EConst "-np.inf"); ("max_velocity", EConst "np.inf")] true;
     SAttr "num_mutations" (ELocal "num_mutations")].
(** src/niapy/algorithms/basic/pso.py:716-729 *)
Definition MutatedParticleSwarmOptimization_get : list gstmt :=
  [GCall (TClass "ParticleSwarmAlgorithm");
   GPop "min_velocity";
   GPop "max_velocity";
   GUpdate [("num_mutations", GAttr "num_mutations")]].
(** src/niapy/algorithms/basic/pso.py:654 *)
Definition MutatedParticleSwarmOptimization_class : pyclass := PyClass "MutatedParticleSwarmOptimization" ["ParticleSwarmAlgorithm"] (Some MutatedParticleSwarmOptimization_init) (Some MutatedParticleSwarmOptimization_set) (Some MutatedParticleSwarmOptimization_get).
(** src/niapy/algorithms/basic/pso.py:807-811 *)
Definition MutatedCenterParticleSwarmOptimization_init : meth :=
  Meth [("num_mutations", "10")] true
    [SPop "min_velocity";
     SPop "max_velocity";
     SCall (SuperOf "MutatedCenterParticleSwarmOptimization") "__init__" [] true [("min_velocity", EConst "-np.inf"); ("max_velocity", EConst "np.inf")] true;
     SAttr "num_mutations" (ELocal "num_mutations")].
(** src/niapy/algorithms/basic/pso.py:813-826 *)
Definition MutatedCenterParticleSwarmOptimization_set : meth :=
  Meth [("num_mutations", "10")] false
    [SPop "min_velocity";
     SPop "max_velocity";
     SCall (TClass "ParticleSwarmAlgorithm") "set_parameters" [] false [("min_velocity", EConst "-np.inf"); ("max_velocity", EConst "np.inf")] true;
     SAttr "num_mutations" (ELocal "num_mutations")].
(** src/niapy/algorithms/basic/pso.py:828-840 *)
Definition MutatedCenterParticleSwarmOptimization_get : list gstmt :=
  [GCall (TClass "CenterParticleSwarmOptimization");
   GUpdate [("num_mutations", GAttr "num_mutations")]].
(** src/niapy/algorithms/basic/pso.py:766 *)
Definition MutatedCenterParticleSwarmOptimization_class : pyclass := PyClass "MutatedCenterParticleSwarmOptimization" ["CenterParticleSwarmOptimization"] (Some MutatedCenterParticleSwarmOptimization_init) (Some MutatedCenterParticleSwarmOptimization_set) (Some MutatedCenterParticleSwarmOptimization_get).
(** src/niapy/algorithms/basic/pso.py:877 *)
Definition MutatedCenterUnifiedParticleSwarmOptimization_class : pyclass := PyClass "MutatedCenterUnifiedParticleSwarmOptimization" ["MutatedCenterParticleSwarmOptimization"] None None None.
(** src/niapy/algorithms/basic/pso.py:990-996 *)
Definition ComprehensiveLearningParticleSwarmOptimizer_init : meth :=
  Meth [("m", "10"); ("w0", "0.9"); ("w1", "0.4"); ("c", "1.49445")] true
    [SCall (SuperOf "ComprehensiveLearningParticleSwarmOptimizer") "__init__" [] true [] true;
     SAttr "m" (ELocal "m");
     SAttr "w0" (ELocal "w0");
     SAttr "w1" (ELocal "w1");
     SAttr "c" (ELocal "c")].
(** src/niapy/algorithms/basic/pso.py:998-1016 *)
Definition ComprehensiveLearningParticleSwarmOptimizer_set : meth :=
  Meth [("m", "10"); ("w0", "0.9"); ("w1", "0.4"); ("c", "1.49445")] false
    [SCall (TClass "ParticleSwarmAlgorithm") "set_parameters" [] false [] true;
     SAttr "m" (ELocal "m");
     SAttr "w0" (ELocal "w0");
     SAttr "w1" (ELocal "w1");
     SAttr "c" (ELocal "c")].
(** src/niapy/algorithms/basic/pso.py:1018-1035 *)
Definition ComprehensiveLearningParticleSwarmOptimizer_get : list gstmt :=
  [GCall (TClass "ParticleSwarmAlgorithm");
   GUpdate [("m", GAttr "m"); ("w0", GAttr "w0"); ("w1", GAttr "w1"); ("c", GAttr "c")]].
(** src/niapy/algorithms/basic/pso.py:943 *)
Definition ComprehensiveLearningParticleSwarmOptimizer_class : pyclass := PyClass "ComprehensiveLearningParticleSwarmOptimizer" ["ParticleSwarmAlgorithm"] (Some ComprehensiveLearningParticleSwarmOptimizer_init) (Some ComprehensiveLearningParticleSwarmOptimizer_set) (Some ComprehensiveLearningParticleSwarmOptimizer_get).
(** src/niapy/algorithms/basic/sca.py:62-78 *)
Definition SineCosineAlgorithm_init : meth :=
  Meth [("population_size", "25"); ("a", "3"); ("r_min", "0"); ("r_max", "2")] true
    [SCall (SuperOf "SineCosineAlgorithm") "__init__" [ELocal "population_size"] true [] true;
     SAttr "a" (ELocal "a");
     SAttr "r_min" (ELocal "r_min");
     SAttr "r_max" (ELocal "r_max")].
(** src/niapy/algorithms/basic/sca.py:80-96 *)
Definition SineCosineAlgorithm_set : meth :=
  Meth [("population_size", "25"); ("a", "3"); ("r_min", "0"); ("r_max", "2")] false
    [SCall (SuperOf "SineCosineAlgorithm") "set_parameters" [] false [("population_size", ELocal "population_size")] true;
     SAttr "a" (ELocal "a");
     SAttr "r_min" (ELocal "r_min");
     SAttr "r_max" (ELocal "r_max")].
(** src/niapy/algorithms/basic/sca.py:98-114 *)
Definition SineCosineAlgorithm_get : list gstmt :=
  [GCall (SuperOf "SineCosineAlgorithm");
   GUpdate [("a", GAttr "a"); ("r_min", GAttr "r_min"); ("r_max", GAttr "r_max")]].
(** src/niapy/algorithms/basic/sca.py:15 *)
Definition SineCosineAlgorithm_class : pyclass := PyClass "SineCosineAlgorithm" ["Algorithm"] (Some SineCosineAlgorithm_init) (Some SineCosineAlgorithm_set) (Some SineCosineAlgorithm_get).
(** src/niapy/algorithms/modified/hba.py:57-72 *)
Definition HybridBatAlgorithm_init : meth :=
  Meth [("differential_weight", "0.5"); ("crossover_probability", "0.9"); ("strategy", "cross_best1")] true
    [SCall (SuperOf "HybridBatAlgorithm") "__init__" [] true [] true;
     SAttr "differential_weight" (ELocal "differential_weight");
     SAttr "crossover_probability" (ELocal "crossover_probability");
     SAttr "strategy" (ELocal "strategy")].
(** src/niapy/algorithms/modified/hba.py:74-89 *)
Definition HybridBatAlgorithm_set : meth :=
  Meth [("differential_weight", "0.5"); ("crossover_probability", "0.9"); ("strategy", "cross_best1")] false
    [SCall (SuperOf "HybridBatAlgorithm") "set_parameters" [] false [] true;
     SAttr "differential_weight" (ELocal "differential_weight");
     SAttr "crossover_probability" (ELocal "crossover_probability");
     SAttr "strategy" (ELocal "strategy")].
(** src/niapy/algorithms/modified/hba.py:91-104 *)
Definition HybridBatAlgorithm_get : list gstmt :=
  [GCall (SuperOf "HybridBatAlgorithm");
   GUpdate [("differential_weight", GAttr "differential_weight"); ("crossover_probability", GAttr "crossover_probability"); ("strategy", GAttr "strategy")]].
(** src/niapy/algorithms/modified/hba.py:14 *)
Definition HybridBatAlgorithm_class : pyclass := PyClass "HybridBatAlgorithm" ["BatAlgorithm"] (Some HybridBatAlgorithm_init) (Some HybridBatAlgorithm_set) (Some HybridBatAlgorithm_get).
(** src/niapy/algorithms/modified/hde.py:94-96 *)
Definition DifferentialEvolutionMTS_init : meth :=
  Meth [("population_size", "40")] true
    [SCall (SuperOf "DifferentialEvolutionMTS") "__init__" [ELocal "population_size"] true [("individual_type", EPop "individual_type" (EConst "MtsIndividual"))] true].
(** src/niapy/algorithms/modified/hde.py:98-107 *)
Definition DifferentialEvolutionMTS_set : meth :=
  Meth [] false
    [SCall (TClass "MultipleTrajectorySearch") "set_parameters" [] false [] true;
     SCall (TClass "DifferentialEvolution") "set_parameters" [] false [("individual_type", EPop "individual_type" (EConst "MtsIndividual"))] true].
(** src/niapy/algorithms/modified/hde.py:109-113 *)
Definition DifferentialEvolutionMTS_get : list gstmt :=
  [GCall (TClass "DifferentialEvolution");
   GCall (TClass "MultipleTrajectorySearch")].
(** src/niapy/algorithms/modified/hde.py:55 *)
Definition DifferentialEvolutionMTS_class : pyclass := PyClass "DifferentialEvolutionMTS" ["DifferentialEvolution"; "MultipleTrajectorySearch"] (Some DifferentialEvolutionMTS_init) (Some DifferentialEvolutionMTS_set) (Some DifferentialEvolutionMTS_get).
(** src/niapy/algorithms/modified/hde.py:177-179 *)
Definition DifferentialEvolutionMTSv1_init : meth :=
  Meth [] true
    [SCall (SuperOf "DifferentialEvolutionMTSv1") "__init__" [] true [("local_searches", EConst "(mts_ls1v1, mts_ls2, mts_ls3v1)")] true].
(** src/niapy/algorithms/modified/hde.py:181-188 *)
Definition DifferentialEvolutionMTSv1_set : meth :=
  Meth [] false
    [SCall (SuperOf "DifferentialEvolutionMTSv1") "set_parameters" [] false [("local_searches", EConst "(mts_ls1v1, mts_ls2, mts_ls3v1)")] true].
(** src/niapy/algorithms/modified/hde.py:139 *)
Definition DifferentialEvolutionMTSv1_class : pyclass := PyClass "DifferentialEvolutionMTSv1" ["DifferentialEvolutionMTS"] (Some DifferentialEvolutionMTSv1_init) (Some DifferentialEvolutionMTSv1_set) None.
(** src/niapy/algorithms/modified/hde.py:230-232 *)
Definition DynNpDifferentialEvolutionMTS_init : meth :=
  Meth [] true
    [SCall (SuperOf "DynNpDifferentialEvolutionMTS") "__init__" [] true [] true].
(** src/niapy/algorithms/modified/hde.py:234-247 *)
Definition DynNpDifferentialEvolutionMTS_set : meth :=
  Meth [("p_max", "10"); ("rp", "3")] false
    [SCall (TClass "DynNpDifferentialEvolution") "set_parameters" [] false [("p_max", ELocal "p_max"); ("rp", ELocal "rp")] true;
     SCall (TClass "DifferentialEvolutionMTS") "set_parameters" [] false [] true].
(** src/niapy/algorithms/modified/hde.py:249-258 *)
Definition DynNpDifferentialEvolutionMTS_get : list gstmt :=
  [GCall (TClass "DynNpDifferentialEvolution");
   GCall (TClass "DifferentialEvolutionMTS")].
(** src/niapy/algorithms/modified/hde.py:191 *)
Definition DynNpDifferentialEvolutionMTS_class : pyclass := PyClass "DynNpDifferentialEvolutionMTS" ["DifferentialEvolutionMTS"; "DynNpDifferentialEvolution"] (Some DynNpDifferentialEvolutionMTS_init) (Some DynNpDifferentialEvolutionMTS_set) (Some DynNpDifferentialEvolutionMTS_get).
(** src/niapy/algorithms/modified/hde.py:304-306 *)
Definition DynNpDifferentialEvolutionMTSv1_init : meth :=
  Meth [] true
    [SCall (SuperOf "DynNpDifferentialEvolutionMTSv1") "__init__" [] true [("local_searches", EConst "(mts_ls1v1, mts_ls2, mts_ls3v1)")] true].
(** src/niapy/algorithms/modified/hde.py:308-315 *)
Definition DynNpDifferentialEvolutionMTSv1_set : meth :=
  Meth [] false
    [SCall (TClass "DynNpDifferentialEvolutionMTS") "set_parameters" [] false [("local_searches", EConst "(mts_ls1v1, mts_ls2, mts_ls3v1)")] true].
(** src/niapy/algorithms/modified/hde.py:266 *)
Definition DynNpDifferentialEvolutionMTSv1_class : pyclass := PyClass "DynNpDifferentialEvolutionMTSv1" ["DynNpDifferentialEvolutionMTS"] (Some DynNpDifferentialEvolutionMTSv1_init) (Some DynNpDifferentialEvolutionMTSv1_set) None.
(** src/niapy/algorithms/modified/hde.py:357-359 *)
Definition MultiStrategyDifferentialEvolutionMTS_init : meth :=
  Meth [] true
    [SCall (SuperOf "MultiStrategyDifferentialEvolutionMTS") "__init__" [] true [("individual_type", EPop "individual_type" (EConst "MtsIndividual"))] true].
(** src/niapy/algorithms/modified/hde.py:361-370 *)
Definition MultiStrategyDifferentialEvolutionMTS_set : meth :=
  Meth [] false
    [SCall (TClass "DifferentialEvolutionMTS") "set_parameters" [] false [] true;
     SCall (TClass "MultiStrategyDifferentialEvolution") "set_parameters" [] false [("individual_type", EPop "individual_type" (EConst "MtsIndividual"))] true].
(** src/niapy/algorithms/modified/hde.py:372-381 *)
Definition MultiStrategyDifferentialEvolutionMTS_get : list gstmt :=
  [GCall (TClass "DifferentialEvolutionMTS");
   GCall (TClass "MultiStrategyDifferentialEvolution")].
(** src/niapy/algorithms/modified/hde.py:318 *)
Definition MultiStrategyDifferentialEvolutionMTS_class : pyclass := PyClass "MultiStrategyDifferentialEvolutionMTS" ["DifferentialEvolutionMTS"; "MultiStrategyDifferentialEvolution"] (Some MultiStrategyDifferentialEvolutionMTS_init) (Some MultiStrategyDifferentialEvolutionMTS_set) (Some MultiStrategyDifferentialEvolutionMTS_get).
(** src/niapy/algorithms/modified/hde.py:436-438 *)
Definition MultiStrategyDifferentialEvolutionMTSv1_init : meth :=
  Meth [] true
    [SCall (SuperOf "MultiStrategyDifferentialEvolutionMTSv1") "__init__" [] true [("local_searches", EConst "(mts_ls1v1, mts_ls2, mts_ls3v1)")] true].
(** src/niapy/algorithms/modified/hde.py:440-447 *)
Definition MultiStrategyDifferentialEvolutionMTSv1_set : meth :=
  Meth [] false
    [SCall (TClass "MultiStrategyDifferentialEvolutionMTS") "set_parameters" [] false [("local_searches", EConst "(mts_ls1v1, mts_ls2, mts_ls3v1)")] true].
(** src/niapy/algorithms/modified/hde.py:398 *)
Definition MultiStrategyDifferentialEvolutionMTSv1_class : pyclass := PyClass "MultiStrategyDifferentialEvolutionMTSv1" ["MultiStrategyDifferentialEvolutionMTS"] (Some MultiStrategyDifferentialEvolutionMTSv1_init) (Some MultiStrategyDifferentialEvolutionMTSv1_set) None.
(** src/niapy/algorithms/modified/hde.py:489-491 *)
Definition DynNpMultiStrategyDifferentialEvolutionMTS_init : meth :=
  Meth [] true
    [SCall (SuperOf "DynNpMultiStrategyDifferentialEvolutionMTS") "__init__" [] true [] true].
(** src/niapy/algorithms/modified/hde.py:493-502 *)
Definition DynNpMultiStrategyDifferentialEvolutionMTS_set : meth :=
  Meth [] false
    [SCall (TClass "DynNpDifferentialEvolutionMTS") "set_parameters" [] false [] true;
     SCall (TClass "MultiStrategyDifferentialEvolutionMTS") "set_parameters" [] false [] true].
(** src/niapy/algorithms/modified/hde.py:504-513 *)
Definition DynNpMultiStrategyDifferentialEvolutionMTS_get : list gstmt :=
  [GCall (TClass "DynNpDifferentialEvolutionMTS");
   GCall (TClass "MultiStrategyDifferentialEvolutionMTS")].
(** src/niapy/algorithms/modified/hde.py:450 *)
Definition DynNpMultiStrategyDifferentialEvolutionMTS_class : pyclass := PyClass "DynNpMultiStrategyDifferentialEvolutionMTS" ["MultiStrategyDifferentialEvolutionMTS"; "DynNpDifferentialEvolutionMTS"] (Some DynNpMultiStrategyDifferentialEvolutionMTS_init) (Some DynNpMultiStrategyDifferentialEvolutionMTS_set) (Some DynNpMultiStrategyDifferentialEvolutionMTS_get).
(** src/niapy/algorithms/modified/hde.py:554-556 *)
Definition DynNpMultiStrategyDifferentialEvolutionMTSv1_init : meth :=
  Meth [] true
    [SCall (SuperOf "DynNpMultiStrategyDifferentialEvolutionMTSv1") "__init__" [] true [("local_searches", EConst "(mts_ls1v1, mts_ls2, mts_ls3v1)")] true].
(** src/niapy/algorithms/modified/hde.py:558-565 *)
Definition DynNpMultiStrategyDifferentialEvolutionMTSv1_set : meth :=
  Meth [] false
    [SCall (TClass "DynNpMultiStrategyDifferentialEvolutionMTS") "set_parameters" [] false [("local_searches", EConst "(mts_ls1v1, mts_ls2, mts_ls3v1)")] true].
(** src/niapy/algorithms/modified/hde.py:516 *)
Definition DynNpMultiStrategyDifferentialEvolutionMTSv1_class : pyclass := PyClass "DynNpMultiStrategyDifferentialEvolutionMTSv1" ["DynNpMultiStrategyDifferentialEvolutionMTS"] (Some DynNpMultiStrategyDifferentialEvolutionMTSv1_init) (Some DynNpMultiStrategyDifferentialEvolutionMTSv1_set) None.
(** src/niapy/algorithms/modified/hsaba.py:61-76 *)
Definition HybridSelfAdaptiveBatAlgorithm_init : meth :=
  Meth [("differential_weight", "0.9"); ("crossover_probability", "0.85"); ("strategy", "cross_best1")] true
    [SCall (SuperOf "HybridSelfAdaptiveBatAlgorithm") "__init__" [] true [] true;
     SAttr "differential_weight" (ELocal "differential_weight");
     SAttr "crossover_probability" (ELocal "crossover_probability");
     SAttr "strategy" (ELocal "strategy")].
(** src/niapy/algorithms/modified/hsaba.py:78-93 *)
Definition HybridSelfAdaptiveBatAlgorithm_set : meth :=
  Meth [("differential_weight", "0.9"); ("crossover_probability", "0.85"); ("strategy", "cross_best1")] false
    [SCall (SuperOf "HybridSelfAdaptiveBatAlgorithm") "set_parameters" [] false [] true;
     SAttr "differential_weight" (ELocal "differential_weight");
     SAttr "crossover_probability" (ELocal "crossover_probability");
     SAttr "strategy" (ELocal "strategy")].
(** src/niapy/algorithms/modified/hsaba.py:95-110 *)
Definition HybridSelfAdaptiveBatAlgorithm_get : list gstmt :=
  [GCall (SuperOf "HybridSelfAdaptiveBatAlgorithm");
   GUpdate [("differential_weight", GAttr "differential_weight"); ("crossover_probability", GAttr "crossover_probability")]].
(** src/niapy/algorithms/modified/hsaba.py:14 *)
Definition HybridSelfAdaptiveBatAlgorithm_class : pyclass := PyClass "HybridSelfAdaptiveBatAlgorithm" ["SelfAdaptiveBatAlgorithm"] (Some HybridSelfAdaptiveBatAlgorithm_init) (Some HybridSelfAdaptiveBatAlgorithm_set) (Some HybridSelfAdaptiveBatAlgorithm_get).
(** src/niapy/algorithms/modified/ilshade.py:91-109 *)
Definition ImprovedLpsrSuccessHistoryAdaptiveDifferentialEvolution_init : meth :=
  Meth [("population_size", "360"); ("extern_arc_rate", "2.6"); ("pbest_start", "0.2"); ("pbest_end", "0.1"); ("hist_mem_size", "6")] true
    [SCall (SuperOf "SuccessHistoryAdaptiveDifferentialEvolution") "__init__" [ELocal "population_size"] true [("individual_type", EPop "individual_type" (EConst "SolutionILSHADE"))] true;
     SAttr "extern_arc_rate" (ELocal "extern_arc_rate");
     SAttr "pbest_start" (ELocal "pbest_start");
     SAttr "pbest_end" (ELocal "pbest_end");
     SAttr "hist_mem_size" (ELocal "hist_mem_size")].
(** src/niapy/algorithms/modified/ilshade.py:111-130 *)
Definition ImprovedLpsrSuccessHistoryAdaptiveDifferentialEvolution_set : meth :=
  Meth [("population_size", "360"); ("extern_arc_rate", "2.6"); ("pbest_start", "0.2"); ("pbest_end", "0.1"); ("hist_mem_size", "6")] false
    [SCall (SuperOf "SuccessHistoryAdaptiveDifferentialEvolution") "set_parameters" [] false [("population_size", ELocal "population_size"); ("individual_type", EPop "individual_type" (EConst "SolutionILSHADE"))] true;
     SAttr "extern_arc_rate" (ELocal "extern_arc_rate");
     SAttr "pbest_start" (ELocal "pbest_start");
     SAttr "pbest_end" (ELocal "pbest_end");
     SAttr "hist_mem_size" (ELocal "hist_mem_size")].
(** src/niapy/algorithms/modified/ilshade.py:132-146 *)
Definition ImprovedLpsrSuccessHistoryAdaptiveDifferentialEvolution_get : list gstmt :=
  [GCall (SuperOf "SuccessHistoryAdaptiveDifferentialEvolution");
   GUpdate [("extern_arc_rate", GAttr "extern_arc_rate"); ("pbest_start", GAttr "pbest_start"); ("pbest_end", GAttr "pbest_end"); ("hist_mem_size", GAttr "hist_mem_size")]].
(** src/niapy/algorithms/modified/ilshade.py:47 *)
Definition ImprovedLpsrSuccessHistoryAdaptiveDifferentialEvolution_class : pyclass := PyClass "ImprovedLpsrSuccessHistoryAdaptiveDifferentialEvolution" ["SuccessHistoryAdaptiveDifferentialEvolution"] (Some ImprovedLpsrSuccessHistoryAdaptiveDifferentialEvolution_init) (Some ImprovedLpsrSuccessHistoryAdaptiveDifferentialEvolution_set) (Some ImprovedLpsrSuccessHistoryAdaptiveDifferentialEvolution_get).
(** src/niapy/algorithms/modified/jde.py:93-110 *)
Definition SelfAdaptiveDifferentialEvolution_init : meth :=
  Meth [("f_lower", "0"); ("f_upper", "1"); ("tao1", "0.4"); ("tao2", "0.2")] true
    [SCall (SuperOf "SelfAdaptiveDifferentialEvolution") "__init__" [] true [("individual_type", EPop "individual_type" (EConst "SolutionJDE"))] true;
     SAttr "f_lower" (ELocal "f_lower");
     SAttr "f_upper" (ELocal "f_upper");
     SAttr "tao1" (ELocal "tao1");
     SAttr "tao2" (ELocal "tao2")].
(** src/niapy/algorithms/modified/jde.py:112-129 *)
Definition SelfAdaptiveDifferentialEvolution_set : meth :=
  Meth [("f_lower", "0"); ("f_upper", "1"); ("tao1", "0.4"); ("tao2", "0.2")] false
    [SCall (SuperOf "SelfAdaptiveDifferentialEvolution") "set_parameters" [] false [("individual_type", EPop "individual_type" (EConst "SolutionJDE"))] true;
     SAttr "f_lower" (ELocal "f_lower");
     SAttr "f_upper" (ELocal "f_upper");
     SAttr "tao1" (ELocal "tao1");
     SAttr "tao2" (ELocal "tao2")].
(** src/niapy/algorithms/modified/jde.py:131-145 *)
Definition SelfAdaptiveDifferentialEvolution_get : list gstmt :=
  [GCall (TClass "DifferentialEvolution");
   GUpdate [("f_lower", GAttr "f_lower"); ("f_upper", GAttr "f_upper"); ("tao1", GAttr "tao1"); ("tao2", GAttr "tao2")]].
(** src/niapy/algorithms/modified/jde.py:48 *)
Definition SelfAdaptiveDifferentialEvolution_class : pyclass := PyClass "SelfAdaptiveDifferentialEvolution" ["DifferentialEvolution"] (Some SelfAdaptiveDifferentialEvolution_init) (Some SelfAdaptiveDifferentialEvolution_set) (Some SelfAdaptiveDifferentialEvolution_get).
(** src/niapy/algorithms/modified/jde.py:206-218 *)
Definition MultiStrategySelfAdaptiveDifferentialEvolution_init : meth :=
  Meth [("strategies", "(cross_curr2rand1, cross_curr2best1, cross_rand1, cross_best1, cross_best2)")] true
    [SCall (SuperOf "MultiStrategySelfAdaptiveDifferentialEvolution") "__init__" [] true [("strategy", EPop "strategy" (EConst "multi_mutations"))] true;
     SAttr "strategies" (ELocal "strategies")].
(** src/niapy/algorithms/modified/jde.py:220-232 *)
Definition MultiStrategySelfAdaptiveDifferentialEvolution_set : meth :=
  Meth [("strategies", "(cross_curr2rand1, cross_curr2best1, cross_rand1, cross_best1, cross_best2)")] false
    [SCall (SuperOf "MultiStrategySelfAdaptiveDifferentialEvolution") "set_parameters" [] false [("strategy", EPop "strategy" (EConst "multi_mutations"))] true;
     SAttr "strategies" (ELocal "strategies")].
(** src/niapy/algorithms/modified/jde.py:234-243 *)
Definition MultiStrategySelfAdaptiveDifferentialEvolution_get : list gstmt :=
  [GCall (SuperOf "MultiStrategySelfAdaptiveDifferentialEvolution");
   GUpdate [("strategies", GAttr "strategies")]].
(** src/niapy/algorithms/modified/jde.py:181 *)
Definition MultiStrategySelfAdaptiveDifferentialEvolution_class : pyclass := PyClass "MultiStrategySelfAdaptiveDifferentialEvolution" ["SelfAdaptiveDifferentialEvolution"] (Some MultiStrategySelfAdaptiveDifferentialEvolution_init) (Some MultiStrategySelfAdaptiveDifferentialEvolution_set) (Some MultiStrategySelfAdaptiveDifferentialEvolution_get).
(** src/niapy/algorithms/modified/plba.py:57-61 *)
Definition ParameterFreeBatAlgorithm_init : meth :=
  Meth [] true
    [SCall (SuperOf "ParameterFreeBatAlgorithm") "__init__" [EConst "80"] true [] true;
     SAttr "loudness" (EConst "0.9");
     SAttr "pulse_rate" (EConst "0.1")].
(** src/niapy/algorithms/modified/plba.py:63-72 *)
Definition ParameterFreeBatAlgorithm_set : meth :=
  Meth [] false
    [SCall (SuperOf "ParameterFreeBatAlgorithm") "set_parameters" [] false [("population_size", EConst "80")] true;
     SAttr "loudness" (EConst "0.9");
     SAttr "pulse_rate" (EConst "0.1")].
(** src/niapy/algorithms/modified/plba.py:15 *)
Definition ParameterFreeBatAlgorithm_class : pyclass := PyClass "ParameterFreeBatAlgorithm" ["Algorithm"] (Some ParameterFreeBatAlgorithm_init) (Some ParameterFreeBatAlgorithm_set) None.
(** src/niapy/algorithms/modified/saba.py:58-81 *)
Definition AdaptiveBatAlgorithm_init : meth :=
  Meth [("population_size", "100"); ("starting_loudness", "0.5"); ("epsilon", "0.001"); ("alpha", "1"); ("pulse_rate", "0.5"); ("min_frequency", "0"); ("max_frequency", "2")] true
    [SCall (SuperOf "AdaptiveBatAlgorithm") "__init__" [ELocal "population_size"] true [] true;
     SAttr "starting_loudness" (ELocal "starting_loudness");
     SAttr "epsilon" (ELocal "epsilon");
     SAttr "alpha" (ELocal "alpha");
     SAttr "pulse_rate" (ELocal "pulse_rate");
     SAttr "min_frequency" (ELocal "min_frequency");
     SAttr "max_frequency" (ELocal "max_frequency")].
(** src/niapy/algorithms/modified/saba.py:83-106 *)
Definition AdaptiveBatAlgorithm_set : meth :=
  Meth [("population_size", "100"); ("starting_loudness", "0.5"); ("epsilon", "0.001"); ("alpha", "1"); ("pulse_rate", "0.5"); ("min_frequency", "0"); ("max_frequency", "2")] false
    [SCall (SuperOf "AdaptiveBatAlgorithm") "set_parameters" [] false [("population_size", ELocal "population_size")] true;
     SAttr "starting_loudness" (ELocal "starting_loudness");
     SAttr "epsilon" (ELocal "epsilon");
     SAttr "alpha" (ELocal "alpha");
     SAttr "pulse_rate" (ELocal "pulse_rate");
     SAttr "min_frequency" (ELocal "min_frequency");
     SAttr "max_frequency" (ELocal "max_frequency")].
(** src/niapy/algorithms/modified/saba.py:108-127 *)
Definition AdaptiveBatAlgorithm_get : list gstmt :=
  [GCall (SuperOf "AdaptiveBatAlgorithm");
   GUpdate [("starting_loudness", GAttr "starting_loudness"); ("epsilon", GAttr "epsilon"); ("alpha", GAttr "alpha"); ("pulse_rate", GAttr "pulse_rate"); ("min_frequency", GAttr "min_frequency"); ("max_frequency", GAttr "max_frequency")]].
(** src/niapy/algorithms/modified/saba.py:15 *)
Definition AdaptiveBatAlgorithm_class : pyclass := PyClass "AdaptiveBatAlgorithm" ["Algorithm"] (Some AdaptiveBatAlgorithm_init) (Some AdaptiveBatAlgorithm_set) (Some AdaptiveBatAlgorithm_get).
(** src/niapy/algorithms/modified/saba.py:265-287 *)
Definition SelfAdaptiveBatAlgorithm_init : meth :=
  Meth [("min_loudness", "0.9"); ("max_loudness", "1"); ("min_pulse_rate", "0.001"); ("max_pulse_rate", "0.1"); ("tao_1", "0.1"); ("tao_2", "0.1")] true
    [SCall (SuperOf "SelfAdaptiveBatAlgorithm") "__init__" [] true [] true;
     SAttr "min_loudness" (ELocal "min_loudness");
     SAttr "max_loudness" (ELocal "max_loudness");
     SAttr "min_pulse_rate" (ELocal "min_pulse_rate");
     SAttr "max_pulse_rate" (ELocal "max_pulse_rate");
     SAttr "tao_1" (ELocal "tao_1");
     SAttr "tao_2" (ELocal "tao_2")].
(** src/niapy/algorithms/modified/saba.py:289-310 *)
Definition SelfAdaptiveBatAlgorithm_set : meth :=
  Meth [("min_loudness", "0.9"); ("max_loudness", "1"); ("min_pulse_rate", "0.001"); ("max_pulse_rate", "0.1"); ("tao_1", "0.1"); ("tao_2", "0.1")] false
    [SCall (SuperOf "SelfAdaptiveBatAlgorithm") "set_parameters" [] false [] true;
     SAttr "min_loudness" (ELocal "min_loudness");
     SAttr "max_loudness" (ELocal "max_loudness");
     SAttr "min_pulse_rate" (ELocal "min_pulse_rate");
     SAttr "max_pulse_rate" (ELocal "max_pulse_rate");
     SAttr "tao_1" (ELocal "tao_1");
     SAttr "tao_2" (ELocal "tao_2")].
(** src/niapy/algorithms/modified/saba.py:312-331 *)
Definition SelfAdaptiveBatAlgorithm_get : list gstmt :=
  [GCall (TClass "AdaptiveBatAlgorithm");
   GUpdate [("min_loudness", GAttr "min_loudness"); ("max_loudness", GAttr "max_loudness"); ("min_pulse_rate", GAttr "min_pulse_rate"); ("max_pulse_rate", GAttr "max_pulse_rate"); ("tao_1", GAttr "tao_1"); ("tao_2", GAttr "tao_2")]].
(** src/niapy/algorithms/modified/saba.py:218 *)
Definition SelfAdaptiveBatAlgorithm_class : pyclass := PyClass "SelfAdaptiveBatAlgorithm" ["AdaptiveBatAlgorithm"] (Some SelfAdaptiveBatAlgorithm_init) (Some SelfAdaptiveBatAlgorithm_set) (Some SelfAdaptiveBatAlgorithm_get).
(** src/niapy/algorithms/modified/shade.py:169-185 *)
Definition SuccessHistoryAdaptiveDifferentialEvolution_init : meth :=
  Meth [("population_size", "540"); ("extern_arc_rate", "2.6"); ("pbest_factor", "0.11"); ("hist_mem_size", "6")] true
    [SCall (SuperOf "SuccessHistoryAdaptiveDifferentialEvolution") "__init__" [ELocal "population_size"] true [("individual_type", EPop "individual_type" (EConst "SolutionSHADE"))] true;
     SAttr "extern_arc_rate" (ELocal "extern_arc_rate");
     SAttr "pbest_factor" (ELocal "pbest_factor");
     SAttr "hist_mem_size" (ELocal "hist_mem_size")].
(** src/niapy/algorithms/modified/shade.py:187-204 *)
Definition SuccessHistoryAdaptiveDifferentialEvolution_set : meth :=
  Meth [("population_size", "540"); ("extern_arc_rate", "2.6"); ("pbest_factor", "0.11"); ("hist_mem_size", "6")] false
    [SCall (SuperOf "SuccessHistoryAdaptiveDifferentialEvolution") "set_parameters" [] false [("population_size", ELocal "population_size"); ("individual_type", EPop "individual_type" (EConst "SolutionSHADE"))] true;
     SAttr "extern_arc_rate" (ELocal "extern_arc_rate");
     SAttr "pbest_factor" (ELocal "pbest_factor");
     SAttr "hist_mem_size" (ELocal "hist_mem_size")].
(** src/niapy/algorithms/modified/shade.py:206-219 *)
Definition SuccessHistoryAdaptiveDifferentialEvolution_get : list gstmt :=
  [GCall (TClass "DifferentialEvolution");
   GUpdate [("extern_arc_rate", GAttr "extern_arc_rate"); ("pbest_factor", GAttr "pbest_factor"); ("hist_mem_size", GAttr "hist_mem_size")]].
(** src/niapy/algorithms/modified/shade.py:125 *)
Definition SuccessHistoryAdaptiveDifferentialEvolution_class : pyclass := PyClass "SuccessHistoryAdaptiveDifferentialEvolution" ["DifferentialEvolution"] (Some SuccessHistoryAdaptiveDifferentialEvolution_init) (Some SuccessHistoryAdaptiveDifferentialEvolution_set) (Some SuccessHistoryAdaptiveDifferentialEvolution_get).
(** src/niapy/algorithms/modified/shade.py:463 *)
Definition LpsrSuccessHistoryAdaptiveDifferentialEvolution_class : pyclass := PyClass "LpsrSuccessHistoryAdaptiveDifferentialEvolution" ["SuccessHistoryAdaptiveDifferentialEvolution"] None None None.
(** src/niapy/algorithms/other/aso.py:275-282 *)
Definition AnarchicSocietyOptimization_init : meth :=
  Meth [("population_size", "43"); ("alpha", "(1, 0.83)"); ("gamma", "(1.17, 0.56)"); ("theta", "(0.932, 0.832)"); ("d", "euclidean"); ("dn", "euclidean"); ("nl", "1"); ("f", "1.2"); ("cr", "0.25"); ("combination", "elitism")] true
    [SCall (SuperOf "AnarchicSocietyOptimization") "__init__" [] true [("population_size", ELocal "population_size")] true;
     SCall TSelf "set_parameters" [] false [("population_size", ELocal "population_size"); ("alpha", ELocal "alpha"); ("gamma", ELocal "gamma"); ("theta", ELocal "theta"); ("d", ELocal "d"); ("dn", ELocal "dn"); ("nl", ELocal "nl"); ("f", ELocal "f"); ("cr", ELocal "cr"); ("combination", ELocal "combination")] true].
(** src/niapy/algorithms/other/aso.py:324-357 *)
Definition AnarchicSocietyOptimization_set : meth :=
  Meth [("population_size", "43"); ("alpha", "(1, 0.83)"); ("gamma", "(1.17, 0.56)"); ("theta", "(0.932, 0.832)"); ("d", "euclidean"); ("dn", "euclidean"); ("nl", "1"); ("f", "1.2"); ("cr", "0.25"); ("combination", "elitism")] true
    [SCall (SuperOf "AnarchicSocietyOptimization") "set_parameters" [] true [("population_size", ELocal "population_size")] true;
     SAttr "alpha" (ELocal "alpha");
     SAttr "gamma" (ELocal "gamma");
     SAttr "theta" (ELocal "theta");
     SAttr "d" (ELocal "d");
     SAttr "dn" (ELocal "dn");
     SAttr "nl" (ELocal "nl");
     SAttr "f" (ELocal "f");
     SAttr "cr" (ELocal "cr");
     SAttr "combination" (ELocal "combination")].
(** src/niapy/algorithms/other/aso.py:359-378 *)
Definition AnarchicSocietyOptimization_get : list gstmt :=
  [GCall (SuperOf "AnarchicSocietyOptimization");
   GUpdate [("alpha", GAttr "alpha"); ("gamma", GAttr "gamma"); ("theta", GAttr "theta"); ("nl", GAttr "nl"); ("f", GAttr "f"); ("cr", GAttr "cr"); ("combination", GAttr "combination")]].
(** src/niapy/algorithms/other/aso.py:224 *)
Definition AnarchicSocietyOptimization_class : pyclass := PyClass "AnarchicSocietyOptimization" ["Algorithm"] (Some AnarchicSocietyOptimization_init) (Some AnarchicSocietyOptimization_set) (Some AnarchicSocietyOptimization_get).
(** src/niapy/algorithms/other/hc.py:77-88 *)
Definition HillClimbAlgorithm_init : meth :=
  Meth [("delta", "0.5"); ("neighborhood_function", "neighborhood")] true
    [SPop "population_size";
     SCall (SuperOf "HillClimbAlgorithm") "__init__" [EConst "1"] true [] true;
     SAttr "delta" (ELocal "delta");
     SAttr "neighborhood_function" (ELocal "neighborhood_function")].
(** src/niapy/algorithms/other/hc.py:90-101 *)
Definition HillClimbAlgorithm_set : meth :=
  Meth [("delta", "0.5"); ("neighborhood_function", "neighborhood")] false
    [SPop "population_size";
     SCall (SuperOf "HillClimbAlgorithm") "set_parameters" [] false [("population_size", EConst "1")] true;
     SAttr "delta" (ELocal "delta");
     SAttr "neighborhood_function" (ELocal "neighborhood_function")].
(** src/niapy/algorithms/other/hc.py:103-110 *)
Definition HillClimbAlgorithm_get : list gstmt :=
  [GCall (SuperOf "HillClimbAlgorithm");
   GPop "population_size";
   GUpdate [("delta", GAttr "delta"); ("neighborhood_function", GAttr "neighborhood_function")]].
(** src/niapy/algorithms/other/hc.py:34 *)
Definition HillClimbAlgorithm_class : pyclass := PyClass "HillClimbAlgorithm" ["Algorithm"] (Some HillClimbAlgorithm_init) (Some HillClimbAlgorithm_set) (Some HillClimbAlgorithm_get).
(** src/niapy/algorithms/other/mts.py:366-391 *)
Definition MultipleTrajectorySearch_init : meth :=
  Meth [("population_size", "40"); ("num_tests", "5"); ("num_searches", "5"); ("num_searches_best", "5"); ("num_enabled", "17"); ("bonus1", "10"); ("bonus2", "1"); ("local_searches", "(mts_ls1, mts_ls2, mts_ls3)")] true
    [SCall (SuperOf "MultipleTrajectorySearch") "__init__" [ELocal "population_size"] true [] true;
     SAttr "num_tests" (ELocal "num_tests");
     SAttr "num_searches" (ELocal "num_searches");
     SAttr "num_searches_best" (ELocal "num_searches_best");
     SAttr "num_enabled" (ELocal "num_enabled");
     SAttr "bonus1" (ELocal "bonus1");
     SAttr "bonus2" (ELocal "bonus2");
     SAttr "local_searches" (ELocal "local_searches")].
(** src/niapy/algorithms/other/mts.py:393-418 *)
Definition MultipleTrajectorySearch_set : meth :=
  Meth [("population_size", "40"); ("num_tests", "5"); ("num_searches", "5"); ("num_searches_best", "5"); ("num_enabled", "17"); ("bonus1", "10"); ("bonus2", "1"); ("local_searches", "(mts_ls1, mts_ls2, mts_ls3)")] false
    [SCall (SuperOf "MultipleTrajectorySearch") "set_parameters" [] false [("population_size", EPop "population_size" (ELocal "population_size"))] true;
     SAttr "num_tests" (ELocal "num_tests");
     SAttr "num_searches" (ELocal "num_searches");
     SAttr "num_searches_best" (ELocal "num_searches_best");
     SAttr "num_enabled" (ELocal "num_enabled");
     SAttr "bonus1" (ELocal "bonus1");
     SAttr "bonus2" (ELocal "bonus2");
     SAttr "local_searches" (ELocal "local_searches")].
(** src/niapy/algorithms/other/mts.py:420-438 *)
Definition MultipleTrajectorySearch_get : list gstmt :=
  [GCall (TClass "Algorithm");
   GUpdate [("M", GPopD "population_size" "population_size"); ("num_tests", GAttr "num_tests"); ("num_searches", GAttr "num_searches"); ("num_searches_best", GAttr "num_searches_best"); ("bonus1", GAttr "bonus1"); ("bonus2", GAttr "bonus2"); ("num_enabled", GAttr "num_enabled"); ("local_searches", GAttr "local_searches")]].
(** src/niapy/algorithms/other/mts.py:315 *)
Definition MultipleTrajectorySearch_class : pyclass := PyClass "MultipleTrajectorySearch" ["Algorithm"] (Some MultipleTrajectorySearch_init) (Some MultipleTrajectorySearch_set) (Some MultipleTrajectorySearch_get).
(** src/niapy/algorithms/other/mts.py:618-637 *)
Definition MultipleTrajectorySearchV1_init : meth :=
  Meth [("population_size", "40"); ("num_tests", "5"); ("num_searches", "5"); ("num_enabled", "17"); ("bonus1", "10"); ("bonus2", "1")] true
    [SPop "num_searches_best";
     SPop "local_searches";
     SCall (SuperOf "MultipleTrajectorySearchV1") "__init__" [ELocal "population_size"; ELocal "num_tests"; ELocal "num_searches"; EConst "0"; ELocal "num_enabled"; ELocal "bonus1"; ELocal "bonus2"] true [("local_searches", EConst "(mts_ls1v1, mts_ls2)")] true].
(** src/niapy/algorithms/other/mts.py:639-656 *)
Definition MultipleTrajectorySearchV1_set : meth :=
  Meth [("population_size", "40"); ("num_tests", "5"); ("num_searches", "5"); ("num_enabled", "17"); ("bonus1", "10"); ("bonus2", "1")] false
    [SPop "num_searches_best";
     SCall (SuperOf "MultipleTrajectorySearchV1") "set_parameters" [] false [("num_searches_best", EConst "0"); ("local_searches", EConst "(mts_ls1v1, mts_ls2)")] true].
(** src/niapy/algorithms/other/mts.py:574 *)
Definition MultipleTrajectorySearchV1_class : pyclass := PyClass "MultipleTrajectorySearchV1" ["MultipleTrajectorySearch"] (Some MultipleTrajectorySearchV1_init) (Some MultipleTrajectorySearchV1_set) None.
(** src/niapy/algorithms/other/nmm.py:60-78 *)
Definition NelderMeadMethod_init : meth :=
  Meth [("population_size", "None"); ("alpha", "0.1"); ("gamma", "0.3"); ("rho", "-0.2"); ("sigma", "-0.2")] true
    [SCall (SuperOf "NelderMeadMethod") "__init__" [ELocal "population_size"] true [("initialization_function", EPop "initialization_function" (EConst "self.init_pop"))] true;
     SAttr "alpha" (ELocal "alpha");
     SAttr "gamma" (ELocal "gamma");
     SAttr "rho" (ELocal "rho");
     SAttr "sigma" (ELocal "sigma")].
(** src/niapy/algorithms/other/nmm.py:80-98 *)
Definition NelderMeadMethod_set : meth :=
  Meth [("population_size", "None"); ("alpha", "0.1"); ("gamma", "0.3"); ("rho", "-0.2"); ("sigma", "-0.2")] false
    [SCall (SuperOf "NelderMeadMethod") "set_parameters" [] false [("population_size", ELocal "population_size"); ("initialization_function", EPop "initialization_function" (EConst "self.init_pop"))] true;
     SAttr "alpha" (ELocal "alpha");
     SAttr "gamma" (ELocal "gamma");
     SAttr "rho" (ELocal "rho");
     SAttr "sigma" (ELocal "sigma")].
(** src/niapy/algorithms/other/nmm.py:100-108 *)
Definition NelderMeadMethod_get : list gstmt :=
  [GCall (SuperOf "NelderMeadMethod");
   GUpdate [("alpha", GAttr "alpha"); ("gamma", GAttr "gamma"); ("rho", GAttr "rho"); ("sigma", GAttr "sigma")]].
(** src/niapy/algorithms/other/nmm.py:15 *)
Definition NelderMeadMethod_class : pyclass := PyClass "NelderMeadMethod" ["Algorithm"] (Some NelderMeadMethod_init) (Some NelderMeadMethod_set) (Some NelderMeadMethod_get).
(** src/niapy/algorithms/other/rs.py:55-59 *)
Definition RandomSearch_init : meth :=
  Meth [] true
    [SPop "population_size";
     SCall (SuperOf "RandomSearch") "__init__" [EConst "1"] true [] true;
     SAttr "candidates" (EConst "None")].
(** src/niapy/algorithms/other/rs.py:61-70 *)
Definition RandomSearch_set : meth :=
  Meth [] false
    [SPop "population_size";
     SCall (SuperOf "RandomSearch") "set_parameters" [] false [("population_size", EConst "1")] true;
     SAttr "candidates" (EConst "None")].
(** src/niapy/algorithms/other/rs.py:72-83 *)
Definition RandomSearch_get : list gstmt :=
  [GCall (SuperOf "RandomSearch");
   GPop "population_size"].
(** src/niapy/algorithms/other/rs.py:15 *)
Definition RandomSearch_class : pyclass := PyClass "RandomSearch" ["Algorithm"] (Some RandomSearch_init) (Some RandomSearch_set) (Some RandomSearch_get).
(** src/niapy/algorithms/other/sa.py:92-113 *)
Definition SimulatedAnnealing_init : meth :=
  Meth [("delta", "0.5"); ("starting_temperature", "2000"); ("delta_temperature", "0.8"); ("cooling_method", "cool_delta"); ("epsilon", "1e-23")] true
    [SPop "population_size";
     SCall (SuperOf "SimulatedAnnealing") "__init__" [EConst "1"] true [] true;
     SAttr "delta" (ELocal "delta");
     SAttr "starting_temperature" (ELocal "starting_temperature");
     SAttr "delta_temperature" (ELocal "delta_temperature");
     SAttr "cooling_method" (ELocal "cooling_method");
     SAttr "epsilon" (ELocal "epsilon")].
(** src/niapy/algorithms/other/sa.py:115-136 *)
Definition SimulatedAnnealing_set : meth :=
  Meth [("delta", "0.5"); ("starting_temperature", "2000"); ("delta_temperature", "0.8"); ("cooling_method", "cool_delta"); ("epsilon", "1e-23")] false
    [SPop "population_size";
     SCall (SuperOf "SimulatedAnnealing") "set_parameters" [] false [("population_size", EConst "1")] true;
     SAttr "delta" (ELocal "delta");
     SAttr "starting_temperature" (ELocal "starting_temperature");
     SAttr "delta_temperature" (ELocal "delta_temperature");
     SAttr "cooling_method" (ELocal "cooling_method");
     SAttr "epsilon" (ELocal "epsilon")].
(** src/niapy/algorithms/other/sa.py:138-156 *)
Definition SimulatedAnnealing_get : list gstmt :=
  [GCall (SuperOf "SimulatedAnnealing");
   GPop "population_size";
   GUpdate [("delta", GAttr "delta"); ("delta_temperature", GAttr "delta_temperature"); ("starting_temperature", GAttr "starting_temperature"); ("epsilon", GAttr "epsilon")]].
(** src/niapy/algorithms/other/sa.py:45 *)
Definition SimulatedAnnealing_class : pyclass := PyClass "SimulatedAnnealing" ["Algorithm"] (Some SimulatedAnnealing_init) (Some SimulatedAnnealing_set) (Some SimulatedAnnealing_get).

(** all classes *)
Definition table : list pyclass :=
  [Algorithm_class; ArtificialBeeColonyAlgorithm_class; BatAlgorithm_class; BeesAlgorithm_class; BacterialForagingOptimization_class; CamelAlgorithm_class; ClonalSelectionAlgorithm_class; CoralReefsOptimization_class; CuckooSearch_class; CatSwarmOptimization_class; DifferentialEvolution_class; DynNpDifferentialEvolution_class; AgingNpDifferentialEvolution_class; MultiStrategyDifferentialEvolution_class; DynNpMultiStrategyDifferentialEvolution_class; EvolutionStrategy1p1_class; EvolutionStrategyMp1_class; EvolutionStrategyMpL_class; EvolutionStrategyML_class; FireflyAlgorithm_class; ForestOptimizationAlgorithm_class; FlowerPollinationAlgorithm_class; FishSchoolSearch_class; BareBonesFireworksAlgorithm_class; FireworksAlgorithm_class; EnhancedFireworksAlgorithm_class; DynamicFireworksAlgorithmGauss_class; DynamicFireworksAlgorithm_class; GeneticAlgorithm_class; GravitationalSearchAlgorithm_class; GlowwormSwarmOptimization_class; GlowwormSwarmOptimizationV1_class; GlowwormSwarmOptimizationV2_class; GlowwormSwarmOptimizationV3_class; GreyWolfOptimizer_class; HarrisHawksOptimization_class; HarmonySearch_class; HarmonySearchV1_class; KrillHerd_class; LionOptimizationAlgorithm_class; MonarchButterflyOptimization_class; MothFlameOptimizer_class; MonkeyKingEvolutionV1_class; MonkeyKingEvolutionV2_class; MonkeyKingEvolutionV3_class; MantisSearchAlgorithm_class; ParticleSwarmAlgorithm_class; ParticleSwarmOptimization_class; OppositionVelocityClampingParticleSwarmOptimization_class; CenterParticleSwarmOptimization_class; MutatedParticleSwarmOptimization_class; MutatedCenterParticleSwarmOptimization_class; MutatedCenterUnifiedParticleSwarmOptimization_class; ComprehensiveLearningParticleSwarmOptimizer_class; SineCosineAlgorithm_class; HybridBatAlgorithm_class; DifferentialEvolutionMTS_class; DifferentialEvolutionMTSv1_class; DynNpDifferentialEvolutionMTS_class; DynNpDifferentialEvolutionMTSv1_class; MultiStrategyDifferentialEvolutionMTS_class; MultiStrategyDifferentialEvolutionMTSv1_class; DynNpMultiStrategyDifferentialEvolutionMTS_class; DynNpMultiStrategyDifferentialEvolutionMTSv1_class; HybridSelfAdaptiveBatAlgorithm_class; ImprovedLpsrSuccessHistoryAdaptiveDifferentialEvolution_class; SelfAdaptiveDifferentialEvolution_class; MultiStrategySelfAdaptiveDifferentialEvolution_class; ParameterFreeBatAlgorithm_class; AdaptiveBatAlgorithm_class; SelfAdaptiveBatAlgorithm_class; SuccessHistoryAdaptiveDifferentialEvolution_class; LpsrSuccessHistoryAdaptiveDifferentialEvolution_class; AnarchicSocietyOptimization_class; HillClimbAlgorithm_class; MultipleTrajectorySearch_class; MultipleTrajectorySearchV1_class; NelderMeadMethod_class; RandomSearch_class; SimulatedAnnealing_class].
