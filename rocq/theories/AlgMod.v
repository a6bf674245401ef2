(** Model of /repo/src/niapy/algorithms/modified/jde.py and /repo/src/niapy/algorithms/basic/es.py. *)
From Coq Require Import ZArith Lia Bool List.
From Verif Require Import Num Task Prog GetBest Run AlgoLib Fops Indiv AlgDE AlgPSO AlgBasic2.
Import ListNotations.

(** ** SelfAdaptiveDifferentialEvolution (jde.py:48-178) *)

(** a SolutionJDE (jde.py:20-45): an individual with its own differential weight and crossover probability *)
Notation jind := (vec * num * (num * num))%type (only parsing).
Definition j_xs (pop : list jind) : list vec := map fst (map fst pop).
Definition j_fits (pop : list jind) : list num := map snd (map fst pop).
Record jde_par : Type := JDEPar {
  jd_n : nat;                       (* population_size *)
  jd_s : strategy;
  jd_lo : num; jd_up : num;         (* f_lower, f_upper *)
  jd_tao1 : num; jd_tao2 : num
}.
(** jde.py:32, the parameters of an individual that is given none *)
Definition jde_default (F : fops) : num * num := (flit F 2 1, flit F 1 2).
(** jde.py:147-159 [adaptive_gen]: the condition is drawn before the value; the new object shares the coordinates of the
    old one, and because it gets no task its fitness is inf (algorithm.py:363) *)
Definition adaptive_gen (F : fops) (p : jde_par) (e : jind) : prog jind :=
  let* r1 := random in
  let* f := (if fltb r1 (jd_tao1 p)
             then let* u := random in Done (fadd F (jd_lo p) (fmul F u (fsub F (jd_up p) (jd_lo p))))
             else Done (fst (snd e))) in
  let* r2 := random in
  let* cr := (if fltb r2 (jd_tao2 p) then random else Done (snd (snd e))) in
  Done (fst (fst e), PInf, (f, cr)).
(** jde.py:174-175: the mutants replace the coordinates one after another, so that later ones are made from earlier ones *)
Definition jde_mutate (F : fops) (s : strategy) (new : list jind) (xb : vec) : prog (list jind) :=
  for_range (length new) (fun cur i =>
    let* e := nthP cur i in
    let* x := cross F s (j_xs cur) i (fst (snd e)) (snd (snd e)) xb in
    setP cur i (x, snd (fst e), snd e)) new.
(** jde.py:176-177: [e.evaluate(task, rng=self.random)].  The repair function gets a bound method as random generator;
    a repair function that uses its generator (util/repair.py:90-111 [rand]) raises, which the model does not show. *)
Definition jde_evaluate (new : list jind) : prog (list jind) :=
  mapM (fun e => let* a := ind_evaluate (fst (fst e)) in Done (a, snd e)) new.
(** jde.py:161-178 *)
Definition jde_evolve (F : fops) (p : jde_par) (pop : list jind) (xb : vec) : prog (list jind) :=
  let* new := mapM (adaptive_gen F p) pop in
  let* new1 := jde_mutate F (jd_s p) new xb in
  jde_evaluate new1.
(** de.py:370 for individuals with parameters: the chosen object keeps its own *)
Fixpoint j_select (pop new : list jind) : prog (list jind) :=
  match new with
  | [] => Done []
  | e :: new' =>
      match pop with
      | [] => Fail EIndex
      | o :: pop' => let* r := j_select pop' new' in Done ((if fltb (snd (fst e)) (snd (fst o)) then e else o) :: r)
      end
  end.
(** de.py:392-422 *)
Definition jde_iteration (evolve : list jind -> vec -> prog (list jind)) (pop : list jind) (fit : list num) (xb : vec) (fxb : num) (_ : unit)
  : prog (list jind * list num * vec * num * unit) :=
  let* new := evolve pop xb in
  let* arr := j_select pop new in
  let* (xb1, fxb1) := lift (get_best (j_xs arr) (j_fits arr) (Some xb) fxb) in
  let* (xb2, fxb2) := lift (get_best (j_xs arr) (j_fits arr) (Some xb1) fxb1) in
  Done (arr, j_fits arr, xb2, fxb2, tt).
(** algorithm.py:43-59 with individual_type = SolutionJDE *)
Definition jde_init (F : fops) (C : cfg) (n : nat) : prog (list jind * list num * unit) :=
  let* (pop, fit) := default_individual_init C n in
  Done (map (fun i => (i, jde_default F)) pop, fit, tt).
Definition jde (F : fops) (C : cfg) (p : jde_par) : algo :=
  Algo (list jind) unit j_xs (jde_init F C (jd_n p)) (jde_iteration (jde_evolve F p)).

(** ** MultiStrategySelfAdaptiveDifferentialEvolution (jde.py:181-259): the parameters of the algorithm, not those of the
    individuals, go to the strategies; every candidate is a new SolutionJDE with the default parameters *)
Definition msjde_evolve (F : fops) (p : de_par) (ss : list strategy) (pop : list jind) (xb : vec) : prog (list jind) :=
  mapM (fun i =>
          let* a := multi_mutations F p ss (map fst pop) xb i in
          Done (a, jde_default F))
       (seq 0 (length pop)).
Definition msjde (F : fops) (C : cfg) (p : de_par) (ss : list strategy) : algo :=
  Algo (list jind) unit j_xs (jde_init F C (de_n p)) (jde_iteration (msjde_evolve F p ss)).

(** ** EvolutionStrategy1p1 and EvolutionStrategyMp1 (es.py:39-287) *)
Record es_par : Type := ESPar {
  es_mu : nat; es_k : nat;
  es_ca : num; es_cr : num; es_eps : num;
  es_lam : nat                      (* (mu + lambda) and (mu, lambda) only *)
}.
(** an IndividualES (es.py:17-36): an individual and its standard deviation *)
Notation eind := (vec * num * num)%type (only parsing).
Definition es_xs (pop : list eind) : list vec := map fst (map fst pop).
Definition es_fits (pop : list eind) : list num := map snd (map fst pop).
(** es.py:149-160: x + normal(0, rho, len(x)); numpy refuses a negative scale and scales standard normal numbers otherwise *)
Definition es_mutate (F : fops) (x : vec) (rho : num) : prog vec :=
  if fltb rho f0 then Fail EValue
  else let* g := rnd_f_vec (length x) in Done (vadd F x (vscale F rho g)).
(** es.py:173 *)
Definition es_phi (F : fops) (p : es_par) (ki : nat) : num := fdiv F (fnat F ki) (fnat F (es_k p)).
(** es.py:162-179 *)
Definition es_rho (F : fops) (p : es_par) (rho : num) (ki : nat) : num :=
  let phi := es_phi F p ki in
  if fltb phi (flit F 1 5) then (if fltb (es_eps p) rho then fmul F (es_cr p) rho else flit F 1 1)
  else if fltb (flit F 1 5) phi then (if fltb (es_eps p) rho then fmul F (es_ca p) rho else flit F 1 1)
  else rho.
(** es.py:221 and 459: (task.iters + 1) % self.k == 0 *)
Definition es_due (p : es_par) (iters : nat) : outcome bool :=
  match es_k p with O => Raise EZeroDiv | S _ => Ret (S iters mod es_k p =? 0) end.
(** es.py:198-230; the population is the one individual *)
Definition es_iter (F : fops) (p : es_par) (pop : list eind) (fit : list num) (xb : vec) (fxb : num) (ki : nat)
  : prog (list eind * list num * vec * num * nat) :=
  let* v := view in
  let* c := nthP pop 0 in
  let '(x, f, rho0) := c in
  let* due := lift (es_due p (v_iters v)) in
  let rho := if due then es_rho F p rho0 ki else rho0 in
  let ki0 := if due then 0 else ki in
  let* cn := repeatM (es_mu p) (let* y := es_mutate F x rho in repair y) in
  let* cf := mapM eval cn in
  match argmin cf with
  | None => Fail EValue
  | Some ib =>
      let* y := nthP cn ib in
      let* g := nthP cf ib in
      if fltb g f then
        let* (xb', fxb') := (if fltb g fxb then lift (get_best1 y g (Some xb) fxb) else Done (xb, fxb)) in
        Done ([(y, g, rho)], [g], xb', fxb', S ki0)
      else Done ([(x, f, rho)], [f], xb, fxb, ki0)
  end.
(** es.py:181-196 *)
Definition es_init (F : fops) (C : cfg) : prog (list eind * list num * nat) :=
  let* c := rand_ind C in Done ([(c, flit F 1 1)], [snd c], 0).
Definition es (F : fops) (C : cfg) (p : es_par) : algo :=
  Algo (list eind) nat es_xs (es_init F C) (es_iter F p).

(** ** EvolutionStrategyMpL (es.py:290-468) *)
(** es.py:367-382: every standard deviation is scaled, without the test against epsilon *)
Definition mpl_rho (F : fops) (p : es_par) (pop : list eind) (ki : nat) : list eind :=
  let phi := es_phi F p ki in
  if fltb phi (flit F 1 5) then map (fun e => (fst e, fmul F (es_cr p) (snd e))) pop
  else if fltb (flit F 1 5) phi then map (fun e => (fst e, fmul F (es_ca p) (snd e))) pop
  else pop.
(** es.py:401-413 and 461-462: a random member is mutated and repaired, and the constructor repairs and evaluates again;
    the new individual gets the standard deviation 1 (es.py:25) *)
Definition es_child (F : fops) (p : es_par) (pop : list eind) : prog eind :=
  let* i := integers (es_mu p) in
  let* e := nthP pop i in
  let* y := es_mutate F (fst (fst e)) (snd e) in
  let* z := repair y in
  let* a := new_ind z in
  Done (a, flit F 1 1).
(** es.py:384-399: [e not in c.tolist()] holds neither for a member itself nor for a child equal to one.  The flag tells the
    members (true) from the children (false). *)
Definition change_count (pop : list eind) (cn : list (eind * bool)) : nat :=
  length (filter (fun e => negb (snd e || existsb (fun o => ind_eq (fst (fst e)) (fst o)) pop)) cn).
(** es.py:436-468.  [np.argsort] is taken as a stable sort, as it is for arrays of at most sixteen numbers. *)
Definition mpl_iter (F : fops) (p : es_par) (pop0 : list eind) (fit : list num) (xb : vec) (fxb : num) (ki : nat)
  : prog (list eind * list num * vec * num * nat) :=
  let* v := view in
  let* due := lift (es_due p (v_iters v)) in
  let pop := if due then mpl_rho F p pop0 ki else pop0 in
  let ki0 := if due then 0 else ki in
  let* ch := repeatM (es_lam p) (es_child F p pop) in
  let cn := firstn (es_mu p) (sort_on (fun e : eind * bool => snd (fst (fst e))) (map (fun e => (e, false)) ch ++ map (fun e => (e, true)) pop)) in
  let new := map fst cn in
  let* (xb', fxb') := lift (get_best (es_xs new) (es_fits new) (Some xb) fxb) in
  Done (new, es_fits new, xb', fxb', ki0 + change_count pop cn).
(** es.py:415-434 *)
Definition mpl_init (F : fops) (C : cfg) (p : es_par) : prog (list eind * list num * nat) :=
  let* (pop, fit) := default_individual_init C (es_mu p) in
  Done (map (fun i => (i, flit F 1 1)) pop, fit, 0).
Definition es_mpl (F : fops) (C : cfg) (p : es_par) : algo :=
  Algo (list eind) nat es_xs (mpl_init F C p) (mpl_iter F p).

(** ** EvolutionStrategyML (es.py:471-575) *)
(** es.py:513-529; the quotient float(mu) / lam is taken as exact, as it is for mu below 2^52 *)
Definition ml_new_pop (p : es_par) (ch : list eind) : prog (list eind) :=
  if es_mu p <? es_lam p then Done (firstn (es_mu p) (sort_on (fun e : eind => snd (fst e)) ch))
  else if es_lam p =? 0 then Fail EZeroDiv
  else Done (concat (map (fun i => let left := es_mu p - i * es_lam p in
                                   firstn (if es_lam p <=? left then es_lam p else left) ch)
                         (seq 0 ((es_mu p + es_lam p - 1) / es_lam p)))).
(** es.py:550-575 *)
Definition ml_iter (F : fops) (p : es_par) (pop : list eind) (fit : list num) (xb : vec) (fxb : num) (ki : nat)
  : prog (list eind * list num * vec * num * nat) :=
  let* ch := repeatM (es_lam p) (es_child F p pop) in
  let* new := ml_new_pop p ch in
  let* (xb', fxb') := lift (get_best (es_xs new) (es_fits new) (Some xb) fxb) in
  Done (new, es_fits new, xb', fxb', ki).
Definition es_ml (F : fops) (C : cfg) (p : es_par) : algo :=
  Algo (list eind) nat es_xs (mpl_init F C p) (ml_iter F p).
