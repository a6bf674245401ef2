(** Models of the infrastructure around tasks and algorithms:
    util/array.py, problems/problem.py, callbacks.py, runner.py, util/factory.py, util/argparser.py
    (all under /repo/src/niapy). *)
From Coq Require Import ZArith Lia Bool String Ascii List.
From Verif Require Import Num Task Prog Run Repair.
Import ListNotations.
Local Open Scope list_scope.

(** * util/array.py *)

(** The arguments full_array distinguishes: an int or float, an ndarray/list/tuple, anything else. *)
Inductive pyval : Type := PScalar (a : num) | PSeq (l : list num) | POther.

(** np.tile(a, k) *)
Fixpoint tile {A} (l : list A) (k : nat) : list A := match k with O => [] | S k' => l ++ tile l k' end.
(** int(np.ceil(d / n)) for n > 0.  Simplification: exact quotient (true below 2^53). *)
Definition ceil_div (d n : nat) : nat := (d + n - 1) / n.

(** array.py:6-28.  Simplification: dimension is a natural number. *)
Definition full_array (a : pyval) (dim : nat) : outcome (list num) :=
  match a with
  | PScalar v => Ret (repeat v dim)                                            (* 17-18 *)
  | PSeq l =>
      if length l =? dim then Ret l                                            (* 20-21 *)
      else if dim <? length l then Ret (firstn dim l)                          (* 22-23 *)
      else match l with
           | [] => Raise EZeroDiv                                              (* dimension / len(a) *)
           | _ => Ret (firstn dim (tile l (ceil_div dim (length l))))          (* 25 *)
           end
  | POther => Raise EType                                                      (* 27 *)
  end.

(** array.py:31-44: copies the objects in order *)
Definition objects_to_array {A} (dflt : A) (objs : list A) : list A :=
  fold_left (fun a ie => upd a (fst ie) (snd ie)) (combine (seq 0 (length objs)) objs) (repeat dflt (length objs)).

(** * problems/problem.py *)

Record problem_obj : Type := ProblemObj { p_dim : nat; p_lower : list num; p_upper : list num }.
(** problem.py:26-37 *)
Definition problem_init (dim : nat) (lower upper : pyval) : outcome problem_obj :=
  match full_array lower dim with
  | Raise e => Raise e
  | Ret lo => match full_array upper dim with Raise e => Raise e | Ret hi => Ret (ProblemObj dim lo hi) end
  end.
(** problem.py:44-57; [obj] is the subclass's _evaluate.  The second component says whether it was
    called.  Here x is a one-dimensional array. *)
Definition problem_evaluate (p : problem_obj) (obj : vec -> outcome num) (x : vec) : outcome num * bool :=
  if negb (length x =? p_dim p) then (Raise EValue, false) else (obj x, true).
(** the problem as the task sees it (task.py:145) *)
Definition problem_of (p : problem_obj) (obj : vec -> outcome num) : problem := fun _ x => fst (problem_evaluate p obj x).

(** * callbacks.py *)

(** A callback object: an ordinary one, or a CallbackList (55-130), which is itself a Callback.
    Simplification: a CallbackList does not contain itself. *)
Inductive cbobj : Type := CbLeaf (id : nat) | CbList (cs : list cbobj).

(** The hooks (the run hooks are [event]s; set_algorithm is HSet). *)
Inductive hook : Type := HSet (alg : nat) | HEvent (e : event).

(** [react id log h]: the exception the ordinary callback id raises, if any; log: calls so far, oldest first *)
Definition reaction := nat -> list (nat * hook) -> hook -> option exn.
(** callbacks.py:68-77, 79-91, 93-105, 107-110, 112-115: delegate to every member in order; an
    exception leaves the loop *)
Fixpoint call_hook (react : reaction) (h : hook) (c : cbobj) (log : list (nat * hook))
  : option exn * list (nat * hook) :=
  match c with
  | CbLeaf id => (react id log h, log ++ [(id, h)])
  | CbList cs =>
      (fix go (cs : list cbobj) (log : list (nat * hook)) : option exn * list (nat * hook) :=
        match cs with
        | [] => (None, log)
        | c :: cs' =>
            match call_hook react h c log with
            | (Some e, log') => (Some e, log')
            | (None, log') => go cs' log'
            end
        end) cs log
  end.

(** operations of a client on one CallbackList *)
Inductive cl_op : Type :=
| OpHook (h : hook)
| OpAppend (c : option cbobj).     (* None: an object that is not a Callback *)
(** callbacks.py:117-130 and the hooks; the state is the list of members *)
Definition cl_step (react : reaction) (st : list cbobj * list (nat * hook)) (o : cl_op)
  : option exn * (list cbobj * list (nat * hook)) :=
  let (cs, log) := st in
  match o with
  | OpHook h => let (r, log') := call_hook react h (CbList cs) log in (r, (cs, log'))
  | OpAppend (Some c) => (None, (cs ++ [c], log))
  | OpAppend None => (Some EValue, (cs, log))
  end.
(** the client may catch the exceptions and go on *)
Fixpoint cl_steps (react : reaction) (st : list cbobj * list (nat * hook)) (os : list cl_op)
  : list (option exn) * (list cbobj * list (nat * hook)) :=
  match os with
  | [] => ([], st)
  | o :: os' =>
      let (r, st1) := cl_step react st o in
      let (rs, st2) := cl_steps react st1 os' in (r :: rs, st2)
  end.
(** callbacks.py:58-66 *)
Definition cl_init (callbacks : option (list cbobj)) : list cbobj :=
  match callbacks with Some cs => cs | None => [] end.

(** algorithm.py:105-106 and 309-317: the callback a run sees when its hooks go to this CallbackList.
    [h0]: calls made before the run.  The run's events are given newest first. *)
Definition cl_calls (react : reaction) (cs : list cbobj) (h0 : list (nat * hook)) (ev : list event) : list (nat * hook) :=
  fold_right (fun e log => snd (call_hook react (HEvent e) (CbList cs) log)) h0 ev.
Definition cl_callback (react : reaction) (cs : list cbobj) (h0 : list (nat * hook)) : callback :=
  fun ev => match ev with
            | [] => None
            | e :: before => fst (call_hook react (HEvent e) (CbList cs) (cl_calls react cs h0 before))
            end.

(** * runner.py *)

(** python dictionaries in insertion order; d[k] = v *)
Fixpoint dset {A} (k : string) (v : A) (d : list (string * A)) : list (string * A) :=
  match d with
  | [] => [(k, v)]
  | (k', v') :: d' => if String.eqb k k' then (k, v) :: d' else (k', v') :: dset k v d'
  end.
Fixpoint dget {A} (k : string) (d : list (string * A)) : option A :=
  match d with
  | [] => None
  | (k', v) :: d' => if String.eqb k k' then Some v else dget k d'
  end.

(** An entry of [algorithms]: the name under which results are filed (108-111: the string itself or the
    class name), the algorithm, its callbacks. *)
Record alg_entry : Type := AlgEntry { ae_name : string; ae_algo : cfg -> algo; ae_cb : callback }.
(** An entry of [problems] (119-122) with the dimension and bounds of the problem and its behaviour
    (which may depend on the number of the run: problem objects are reused). *)
Record prob_entry : Type := ProbEntry {
  pe_name : string; pe_dim : nat; pe_lower : vec; pe_upper : vec; pe_eval : nat -> problem }.
(** Everything random: streams per run, and the position of the generator when the run starts. *)
Record rng_world : Type := RngWorld { rw_flt : nat -> nat -> num; rw_int : nat -> nat -> nat; rw_pos : nat -> nat }.

(** runner.py:56-66 with the defaults of task.py:58-60 *)
Definition runner_cfg (max_evals : Z) (p : prob_entry) : cfg :=
  Cfg Minimization (pe_dim p) (pe_lower p) (pe_upper p) (LFin max_evals) LInf NInf.
Definition runner_env (max_evals : Z) (g : rng_world) (i : nat) (p : prob_entry) : env :=
  Env (runner_cfg max_evals p) (pe_eval p i) (fun _ x => limit x (pe_lower p) (pe_upper p)) (rw_flt g i) (rw_int g i).

(** one executed run: names, outcome, final world (the model's record, not in the code) *)
Record run_rec : Type := RunRec { rr_alg : string; rr_prob : string; rr_out : outcome (vec * num); rr_world : world }.

Section Runner.
Variables (max_evals : Z) (g : rng_world) (fuel : nat).

(** runner.py:133-134: a fresh task, one run.  (The run happens in the main thread.) *)
Definition runner_one (a : alg_entry) (p : prob_entry) (tr : list run_rec) : outcome (vec * num) * list run_rec :=
  let i := length tr in
  let E := runner_env max_evals g i p in
  match run_body E (ae_algo a (e_cfg E)) (ae_cb a) fuel (World (task_init (e_cfg E)) [] (rw_pos g i)) with
  | (r, w', _) => (r, tr ++ [RunRec (ae_name a) (pe_name p) r w'])
  end.
(** 128-134; the list of results so far is kept when a run raises *)
Fixpoint runner_runs (k : nat) (a : alg_entry) (p : prob_entry) (acc : list (vec * num)) (tr : list run_rec)
  : option exn * list (vec * num) * list run_rec :=
  match k with
  | O => (None, acc, tr)
  | S k' =>
      match runner_one a p tr with
      | (Raise e, tr') => (Some e, acc, tr')
      | (Ret r, tr') => runner_runs k' a p (acc ++ [r]) tr'
      end
  end.
(** 118-134: the dictionary of one algorithm *)
Fixpoint runner_probs (runs : nat) (a : alg_entry) (ps : list prob_entry) (d : list (string * list (vec * num)))
  (tr : list run_rec) : option exn * list (string * list (vec * num)) * list run_rec :=
  match ps with
  | [] => (None, d, tr)
  | p :: ps' =>
      match runner_runs runs a p [] tr with
      | (Some e, rs, tr') => (Some e, dset (pe_name p) rs d, tr')
      | (None, rs, tr') => runner_probs runs a ps' (dset (pe_name p) rs d) tr'
      end
  end.
(** 107-136 *)
Fixpoint runner_algs (runs : nat) (als : list alg_entry) (ps : list prob_entry)
  (res : list (string * list (string * list (vec * num)))) (tr : list run_rec)
  : option exn * list (string * list (string * list (vec * num))) * list run_rec :=
  match als with
  | [] => (None, res, tr)
  | a :: als' =>
      match runner_probs runs a ps [] tr with
      | (Some e, d, tr') => (Some e, dset (ae_name a) d res, tr')
      | (None, d, tr') => runner_algs runs als' ps (dset (ae_name a) d res) tr'
      end
  end.
(** 93-145; [export_ok]: the export argument is "dataframe", "json" or "excel" (writing the file is
    not modelled); [res0]: self.results before the call.  Result, self.results afterwards, runs made. *)
Definition runner_run (runs : nat) (als : list alg_entry) (ps : list prob_entry) (export_ok : bool)
  (res0 : list (string * list (string * list (vec * num))))
  : outcome (list (string * list (string * list (vec * num)))) *
    list (string * list (string * list (vec * num))) * list run_rec :=
  match runner_algs runs als ps res0 [] with
  | (Some e, res, tr) => (Raise e, res, tr)
  | (None, res, tr) => (if export_ok then Ret res else Raise EType, res, tr)
  end.
End Runner.

(** * util/factory.py and util/argparser.py *)
Local Open Scope string_scope.

Definition lower_ascii (c : ascii) : ascii :=
  let n := nat_of_ascii c in if (65 <=? n)%nat && (n <=? 90)%nat then ascii_of_nat (n + 32) else c.
(** str.lower().  Simplification: ASCII letters only. *)
Fixpoint lower (s : string) : string :=
  match s with EmptyString => EmptyString | String c s' => String (lower_ascii c) (lower s') end.

(** factory.py:43-92: key and class *)
Definition problem_table : list (string * string) := [
  ("ackley", "Ackley"); ("alpine1", "Alpine1"); ("alpine2", "Alpine2"); ("bent_cigar", "BentCigar"); 
  ("chung_reynolds", "ChungReynolds"); ("cosine_mixture", "CosineMixture"); ("csendes", "Csendes"); 
  ("discus", "Discus"); ("dixon_price", "DixonPrice"); ("elliptic", "Elliptic"); 
  ("conditioned_elliptic", "Elliptic"); 
  ("expanded_griewank_plus_rosenbrock", "ExpandedGriewankPlusRosenbrock"); 
  ("expanded_schaffer", "ExpandedSchaffer"); ("griewank", "Griewank"); ("happy_cat", "HappyCat"); 
  ("hgbat", "HGBat"); ("katsuura", "Katsuura"); ("levy", "Levy"); ("michalewicz", "Michalewicz"); 
  ("modified_schwefel", "ModifiedSchwefel"); ("perm", "Perm"); ("pinter", "Pinter"); ("powell", "Powell"); 
  ("qing", "Qing"); ("quintic", "Quintic"); ("rastrigin", "Rastrigin"); ("ridge", "Ridge"); 
  ("rosenbrock", "Rosenbrock"); ("salomon", "Salomon"); ("schaffer2", "SchafferN2"); 
  ("schaffer4", "SchafferN4"); ("schumer_steiglitz", "SchumerSteiglitz"); ("schwefel", "Schwefel"); 
  ("schwefel221", "Schwefel221"); ("schwefel222", "Schwefel222"); ("sphere", "Sphere"); 
  ("sphere2", "Sphere2"); ("sphere3", "Sphere3"); ("step", "Step"); ("step2", "Step2"); ("step3", "Step3"); 
  ("stepint", "Stepint"); ("styblinski_tang", "StyblinskiTang"); ("sum_squares", "SumSquares"); 
  ("trid", "Trid"); ("weierstrass", "Weierstrass"); ("whitley", "Whitley"); ("zakharov", "Zakharov")].
(** factory.py:101-179: the keys; every key is the name of the class it maps to *)
Definition algorithm_table : list string := [
  "BatAlgorithm"; "FireflyAlgorithm"; "DifferentialEvolution"; "AgingNpDifferentialEvolution"; 
  "DynNpDifferentialEvolution"; "MultiStrategyDifferentialEvolution"; 
  "DynNpMultiStrategyDifferentialEvolution"; "FlowerPollinationAlgorithm"; "GreyWolfOptimizer"; 
  "GeneticAlgorithm"; "ArtificialBeeColonyAlgorithm"; "ParticleSwarmAlgorithm"; "ParticleSwarmOptimization"; 
  "CenterParticleSwarmOptimization"; "MutatedParticleSwarmOptimization"; 
  "MutatedCenterParticleSwarmOptimization"; "ComprehensiveLearningParticleSwarmOptimizer"; 
  "MutatedCenterUnifiedParticleSwarmOptimization"; "OppositionVelocityClampingParticleSwarmOptimization"; 
  "BareBonesFireworksAlgorithm"; "CamelAlgorithm"; "MonkeyKingEvolutionV1"; "MonkeyKingEvolutionV2"; 
  "MonkeyKingEvolutionV3"; "EvolutionStrategy1p1"; "EvolutionStrategyMp1"; "EvolutionStrategyMpL"; 
  "EvolutionStrategyML"; "SineCosineAlgorithm"; "GlowwormSwarmOptimization"; "GlowwormSwarmOptimizationV1"; 
  "GlowwormSwarmOptimizationV2"; "GlowwormSwarmOptimizationV3"; "HarmonySearch"; "HarmonySearchV1"; 
  "KrillHerd"; "FireworksAlgorithm"; "EnhancedFireworksAlgorithm"; "DynamicFireworksAlgorithm"; 
  "DynamicFireworksAlgorithmGauss"; "GravitationalSearchAlgorithm"; "MothFlameOptimizer"; "FishSchoolSearch"; 
  "CuckooSearch"; "CoralReefsOptimization"; "ForestOptimizationAlgorithm"; "MonarchButterflyOptimization"; 
  "BacterialForagingOptimization"; "BeesAlgorithm"; "CatSwarmOptimization"; "HarrisHawksOptimization"; 
  "ClonalSelectionAlgorithm"; "LionOptimizationAlgorithm"; "HybridBatAlgorithm"; "AdaptiveBatAlgorithm"; 
  "SelfAdaptiveBatAlgorithm"; "HybridSelfAdaptiveBatAlgorithm"; "ParameterFreeBatAlgorithm"; 
  "DifferentialEvolutionMTS"; "DifferentialEvolutionMTSv1"; "DynNpDifferentialEvolutionMTS"; 
  "DynNpDifferentialEvolutionMTSv1"; "MultiStrategyDifferentialEvolutionMTS"; 
  "MultiStrategyDifferentialEvolutionMTSv1"; "DynNpMultiStrategyDifferentialEvolutionMTS"; 
  "DynNpMultiStrategyDifferentialEvolutionMTSv1"; "SelfAdaptiveDifferentialEvolution"; 
  "MultiStrategySelfAdaptiveDifferentialEvolution"; "SuccessHistoryAdaptiveDifferentialEvolution"; 
  "LpsrSuccessHistoryAdaptiveDifferentialEvolution"; "NelderMeadMethod"; "HillClimbAlgorithm"; 
  "SimulatedAnnealing"; "MultipleTrajectorySearch"; "MultipleTrajectorySearchV1"; 
  "AnarchicSocietyOptimization"; "RandomSearch"].
(** problems/__init__.py:41-90 [__all__] *)
Definition problem_names : list string := [
  "Problem"; "Rastrigin"; "Rosenbrock"; "Griewank"; "ExpandedGriewankPlusRosenbrock"; "Sphere"; "Ackley"; 
  "Schwefel"; "Schwefel221"; "Schwefel222"; "ModifiedSchwefel"; "Whitley"; "Alpine1"; "Alpine2"; "HappyCat"; 
  "Ridge"; "ChungReynolds"; "Csendes"; "Pinter"; "Qing"; "Quintic"; "Salomon"; "SchumerSteiglitz"; "Step"; 
  "Step2"; "Step3"; "Stepint"; "SumSquares"; "StyblinskiTang"; "BentCigar"; "Weierstrass"; "HGBat"; 
  "Katsuura"; "Elliptic"; "Discus"; "Michalewicz"; "Levy"; "Sphere2"; "Sphere3"; "Trid"; "Perm"; "Zakharov"; 
  "DixonPrice"; "Powell"; "CosineMixture"; "ExpandedSchaffer"; "SchafferN2"; "SchafferN4"].
(** [__all__] of algorithms/basic, algorithms/modified, algorithms/other,
    without the functions multi_mutations and mts_ls1 .. mts_ls3v1 *)
Definition exported_algorithms : list string := [
  "BatAlgorithm"; "FireflyAlgorithm"; "DifferentialEvolution"; "AgingNpDifferentialEvolution"; 
  "DynNpDifferentialEvolution"; "MultiStrategyDifferentialEvolution"; 
  "DynNpMultiStrategyDifferentialEvolution"; "FlowerPollinationAlgorithm"; 
  "GreyWolfOptimizer"; "CatSwarmOptimization"; "GeneticAlgorithm"; "ArtificialBeeColonyAlgorithm"; 
  "ParticleSwarmAlgorithm"; "BareBonesFireworksAlgorithm"; "CamelAlgorithm"; "MonkeyKingEvolutionV1"; 
  "MonkeyKingEvolutionV2"; "MonkeyKingEvolutionV3"; "EvolutionStrategy1p1"; "EvolutionStrategyMp1"; 
  "EvolutionStrategyMpL"; "EvolutionStrategyML"; "SineCosineAlgorithm"; "GlowwormSwarmOptimization"; 
  "GlowwormSwarmOptimizationV1"; "GlowwormSwarmOptimizationV2"; "GlowwormSwarmOptimizationV3"; 
  "HarmonySearch"; "HarmonySearchV1"; "KrillHerd"; "LionOptimizationAlgorithm"; "FireworksAlgorithm"; 
  "EnhancedFireworksAlgorithm"; "DynamicFireworksAlgorithm"; "DynamicFireworksAlgorithmGauss"; 
  "GravitationalSearchAlgorithm"; "MothFlameOptimizer"; "MantisSearchAlgorithm"; "MShOA"; "FishSchoolSearch"; 
  "CuckooSearch"; "CoralReefsOptimization"; "ForestOptimizationAlgorithm"; "MonarchButterflyOptimization"; 
  "BeesAlgorithm"; "ParticleSwarmOptimization"; "MutatedParticleSwarmOptimization"; 
  "MutatedCenterUnifiedParticleSwarmOptimization"; "MutatedCenterParticleSwarmOptimization"; 
  "OppositionVelocityClampingParticleSwarmOptimization"; "ComprehensiveLearningParticleSwarmOptimizer"; 
  "CenterParticleSwarmOptimization"; "HarrisHawksOptimization"; "BacterialForagingOptimization"; 
  "ClonalSelectionAlgorithm"; "HybridBatAlgorithm"; "DifferentialEvolutionMTS"; "DifferentialEvolutionMTSv1"; 
  "DynNpDifferentialEvolutionMTS"; "DynNpDifferentialEvolutionMTSv1"; 
  "MultiStrategyDifferentialEvolutionMTS"; "MultiStrategyDifferentialEvolutionMTSv1"; 
  "DynNpMultiStrategyDifferentialEvolutionMTS"; "DynNpMultiStrategyDifferentialEvolutionMTSv1"; 
  "SelfAdaptiveDifferentialEvolution"; "MultiStrategySelfAdaptiveDifferentialEvolution"; 
  "AdaptiveBatAlgorithm"; "SelfAdaptiveBatAlgorithm"; "HybridSelfAdaptiveBatAlgorithm"; 
  "ParameterFreeBatAlgorithm"; "SuccessHistoryAdaptiveDifferentialEvolution"; 
  "LpsrSuccessHistoryAdaptiveDifferentialEvolution"; 
  "ImprovedLpsrSuccessHistoryAdaptiveDifferentialEvolution"; "NelderMeadMethod"; "HillClimbAlgorithm"; 
  "SimulatedAnnealing"; "MultipleTrajectorySearch"; "MultipleTrajectorySearchV1"; 
  "AnarchicSocietyOptimization"; "RandomSearch"].

Definition mem (s : string) (l : list string) : bool := existsb (String.eqb s) l.
(** factory.py:6-20 (the class that gets instantiated) *)
Definition get_problem (name : string) : outcome string :=
  match dget (lower name) problem_table with Some c => Ret c | None => Raise EKey end.
(** factory.py:23-37 *)
Definition get_algorithm (name : string) : outcome string :=
  if mem name algorithm_table then Ret name else Raise EKey.

(** argparser.py:82-83 *)
Definition cli_algorithm_default : string := "jDE".
Definition cli_problem_default : string := "Problem".       (* problem_names[0] *)
(** argparser.py:26-38 *)
Definition optimization_type (x : string) : opt := if String.eqb x "max" then Maximization else Minimization.
