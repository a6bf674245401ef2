(** Model of /repo/src/niapy/algorithms/basic/de.py. *)
From Coq Require Import ZArith Lia Bool List.
From Verif Require Import Num Task Prog GetBest Run Fops Indiv.
Import ListNotations.

(** ** The crossover operators (de.py:20-228) *)

Inductive strategy : Type := Rand1 | Best1 | Rand2 | Best2 | Curr2Rand1 | Curr2Best1.

(** number of population members each operator draws (de.py:49, 85, 120, 155, 189, 224) *)
Definition n_draws (s : strategy) : nat :=
  match s with Rand1 => 3 | Best1 => 2 | Rand2 => 5 | Best2 => 4 | Curr2Rand1 => 4 | Curr2Best1 => 3 end.

(** the indices 0..n-1 without ic *)
Definition others (n ic : nat) : list nat := filter (fun i => negb (i =? ic)) (seq 0 n).

(** [rng.choice(len(pop), k, replace=not len(pop) >= k, p=p)] with p excluding ic iff len(pop) > k
    (e.g. de.py:48-49). *)
Definition draw_indices (n ic k : nat) : prog (list nat) :=
  if k <? n then choice_from (others n ic) k
  else if k =? n then choice n k
  else mapM (fun _ => integers n) (seq 0 k).

(** the mutant component from the parent's component c, the best's b and those of the drawn rows *)
Definition formula (F : fops) (s : strategy) (f c b : num) (a : list num) : option num :=
  match s, a with
  | Rand1, [a0; a1; a2] => Some (fadd F a0 (fmul F f (fsub F a1 a2)))
  | Best1, [a0; a1] => Some (fadd F b (fmul F f (fsub F a0 a1)))
  | Rand2, [a0; a1; a2; a3; a4] =>
      Some (fadd F (fadd F a0 (fmul F f (fsub F a1 a2))) (fmul F f (fsub F a3 a4)))
  | Best2, [a0; a1; a2; a3] =>
      Some (fadd F (fadd F b (fmul F f (fsub F a0 a1))) (fmul F f (fsub F a2 a3)))
  | Curr2Rand1, [a0; a1; a2; a3] =>
      Some (fadd F (fadd F c (fmul F f (fsub F a0 a1))) (fmul F f (fsub F a2 a3)))
  | Curr2Best1, [a0; a1; a2] =>
      Some (fadd F (fadd F c (fmul F f (fsub F b a0))) (fmul F f (fsub F a1 a2)))
  | _, _ => None
  end.

(** component i of the mutant *)
Definition mutant (F : fops) (s : strategy) (f : num) (parent xb : vec) (rows : list vec) (i : nat) : prog num :=
  let* c := nthP parent i in
  let* b := (match s with Best1 | Best2 | Curr2Best1 => nthP xb i | _ => Done c end) in
  let* a := mapM (fun row => nthP row i) rows in
  match formula F s f c b a with Some v => Done v | None => Fail EIndex end.

(** de.py:20-228: all six operators.  [pop] are the coordinates of the population.
    The rows pop[r[k]] are looked up before the component loop (the code looks them up in each
    component it mutates). *)
Definition cross (F : fops) (s : strategy) (pop : list vec) (ic : nat) (f cr : num) (xb : vec) : prog vec :=
  let* parent := nthP pop ic in
  let* j := integers (length parent) in
  let* r := draw_indices (length pop) ic (n_draws s) in
  let* rows := mapM (fun k => nthP pop k) r in
  mapM (fun i =>
          let* u := random in
          if fltb u cr || (i =? j) then mutant F s f parent xb rows i else nthP parent i)
       (seq 0 (length parent)).

(** ** DifferentialEvolution (de.py:231-422) *)

Record de_par : Type := DEPar {
  de_n : nat;              (* population_size *)
  de_f : num;              (* differential_weight *)
  de_cr : num;             (* crossover_probability *)
  de_s : strategy
}.

(** de.py:337-351 *)
Definition de_evolve (F : fops) (p : de_par) (pop : list ind) (xb : vec) : prog (list ind) :=
  mapM (fun i =>
          let* x := cross F (de_s p) (map fst pop) i (de_f p) (de_cr p) xb in
          new_ind x)
       (seq 0 (length pop)).

(** de.py:370: [e if e.f < population[i].f else population[i]] *)
Definition de_choose (e p : ind) : ind := if fltb (snd e) (snd p) then e else p.
Fixpoint de_select (pop new : list ind) : prog (list ind) :=
  match new with
  | [] => Done []
  | e :: new' =>
      match pop with
      | [] => Fail EIndex
      | p :: pop' => let* r := de_select pop' new' in Done (de_choose e p :: r)
      end
  end.
(** de.py:353-372 *)
Definition de_selection (pop new : list ind) (xb : vec) (fxb : num) : prog (list ind * vec * num) :=
  let* arr := de_select pop new in
  let* (xb', fxb') := lift (get_best_i arr (map snd arr) (Some xb) fxb) in
  Done (arr, xb', fxb').

(** de.py:392-422 with a given [evolve] and [post_selection] *)
Definition de_iteration
  (evolve : list ind -> vec -> prog (list ind))
  (selection : list ind -> list ind -> vec -> num -> prog (list ind * vec * num))
  (post : list ind -> prog (list ind))
  (pop : list ind) (fit : list num) (xb : vec) (fxb : num) (_ : unit)
  : prog (list ind * list num * vec * num * unit) :=
  let* new := evolve pop xb in
  let* (arr, xb1, fxb1) := selection pop new xb fxb in
  let* pop' := post arr in
  let* (xb2, fxb2) := lift (get_best_i pop' (map snd pop') (Some xb1) fxb1) in
  Done (pop', map snd pop', xb2, fxb2, tt).

Definition ind_init (C : cfg) (n : nat) : prog (list ind * list num * unit) :=
  let* (pop, fit) := default_individual_init C n in Done (pop, fit, tt).

Definition de_like (C : cfg) (n : nat) evolve selection post : algo :=
  Algo (list ind) unit (map fst) (ind_init C n) (de_iteration evolve selection post).

Definition de (F : fops) (C : cfg) (p : de_par) : algo :=
  de_like C (de_n p) (de_evolve F p) de_selection (fun pop => Done pop).

(** ** DynNpDifferentialEvolution (de.py:425-532) *)

(** de.py:531, the comprehension over i in range(new_np) *)
Definition halve (pop : list ind) : prog (list ind) :=
  let m := length pop / 2 in
  mapM (fun i =>
          let* a := nthP pop i in
          let* b := nthP pop (i + m) in
          Done (if fltb (snd a) (snd b) then a else b))
       (seq 0 m).
(** de.py:509-532.  gr = task.max_evals // (p_max * len(pop)) + rp: for max_evals = inf the value is
    nan (inf // n), which never equals iters + 1.  p_max * len(pop) = 0 raises ZeroDivisionError
    for integers (and gives nan for inf). *)
Definition dynnp_post (C : cfg) (p_max rp : Z) (pop : list ind) : prog (list ind) :=
  let* v := view in
  match c_max_evals C with
  | LInf => Done pop
  | LFin m =>
      let d := (p_max * Z.of_nat (length pop))%Z in
      if Z.eqb d 0 then Fail EZeroDiv
      else
        let gr := (m / d + rp)%Z in
        if Z.eqb (Z.of_nat (v_iters v) + 1) gr && (3 <? length pop) then halve pop else Done pop
  end.
Definition dynnp_de (F : fops) (C : cfg) (p : de_par) (p_max rp : Z) : algo :=
  de_like C (de_n p) (de_evolve F p) de_selection (dynnp_post C p_max rp).

(** ** MultiStrategyDifferentialEvolution (de.py:839-957) *)

(** de.py:839-859 [multi_mutations] *)
Definition multi_mutations (F : fops) (p : de_par) (ss : list strategy) (pop : list ind) (xb : vec) (i : nat) : prog ind :=
  let* cand := mapM (fun s => let* x := cross F s (map fst pop) i (de_f p) (de_cr p) xb in new_ind x) ss in
  match argmin (map snd cand) with
  | None => Fail EValue
  | Some k => nthP cand k
  end.
(** de.py:943-957 *)
Definition ms_evolve (F : fops) (p : de_par) (ss : list strategy) (pop : list ind) (xb : vec) : prog (list ind) :=
  mapM (multi_mutations F p ss pop xb) (seq 0 (length pop)).
Definition ms_de (F : fops) (C : cfg) (p : de_par) (ss : list strategy) : algo :=
  de_like C (de_n p) (ms_evolve F p ss) de_selection (fun pop => Done pop).
(** DynNpMultiStrategyDifferentialEvolution (de.py:960-1054) *)
Definition dynnp_ms_de (F : fops) (C : cfg) (p : de_par) (ss : list strategy) (p_max rp : Z) : algo :=
  de_like C (de_n p) (ms_evolve F p ss) de_selection (dynnp_post C p_max rp).

(** ** AgingNpDifferentialEvolution (de.py:535-836) *)

(** an AgingIndividual (de.py:591-610): coordinates, fitness, age *)
Notation aind := (vec * num * nat)%type (only parsing).

(** de.py:535-588, the three lifetime functions *)
Inductive age_fun : Type := Proportional | Linear | Bilinear.
Record aging_par : Type := AgingPar {
  ag_de : de_par;
  ag_min : num; ag_max : num;          (* min_lifetime, max_lifetime *)
  ag_mu : num;                         (* abs(max - min) / 2 *)
  ag_delta : num;                      (* delta_np *)
  ag_omega : num;
  ag_fun : age_fun
}.
Definition lifetime (F : fops) (p : aging_par) (x_f avg x_gw x_gb : num) : num :=
  match ag_fun p with
  | Proportional =>
      let r := match avg with
               | PInf | NInf => ag_max p
               | _ => fadd F (ag_min p) (fdiv F (fmul F (ag_mu p) avg) x_f)
               end in
      fminb r (ag_max p)
  | Linear =>
      fadd F (ag_min p) (fdiv F (fmul F (fmul F (flit F 2 1) (ag_mu p)) (fsub F x_f x_gw)) (fsub F x_gb x_gw))
  | Bilinear =>
      if fltb avg x_f
      then fadd F (ag_min p) (fdiv F (fmul F (ag_mu p) (fsub F x_f x_gw)) (fsub F x_gb x_gw))
      else fadd F (fmul F (flit F 1 2) (fadd F (ag_min p) (ag_max p)))
                  (fdiv F (fmul F (ag_mu p) (fsub F x_f avg)) (fsub F x_gb avg))
  end.
(** Python round(x): ValueError on nan, OverflowError on infinities *)
Definition py_round (x : num) : outcome Z :=
  match x with NaN => Raise EValue | PInf | NInf => Raise EOverflow | Fin _ => Ret (fround x) end.
Definition is_fin (x : num) : bool := match x with Fin _ => true | _ => false end.

(** de.py:736-759 [aging]; the mean of an empty array (all fitness infinite) is whatever F makes of 0/0 *)
Definition aging (F : fops) (C : cfg) (p : aging_par) (pop : list aind) : prog (list aind) :=
  let fpop := map (fun i => snd (fst i)) pop in
  match argmin fpop, argmax fpop with
  | Some ib, Some iw =>
      let* x_b := nthP fpop ib in
      let* x_w := nthP fpop iw in
      let avg := vmean F (filter is_fin fpop) in
      let* kept := foldM (fun acc i =>
          let age := S (snd i) in
          let* life := lift (py_round (lifetime F p (snd (fst i)) avg x_w x_b)) in
          Done (if Z.leb (Z.of_nat age) life then acc ++ [(fst i, age)] else acc)) pop [] in
      match kept with
      | [] => let* new := repeatM (de_n (ag_de p)) (rand_ind C) in Done (map (fun i => (i, 0)) new)
      | _ => Done kept
      end
  | _, _ => Fail EValue
  end.
(** de.py:712-734, 761-772, 785: int(round(max(1, population_size * int(delta_np * abs(trig(iters + 1)))))) *)
Definition delta_pop (F : fops) (p : aging_par) (trig : num -> num) (t : nat) : nat :=
  Z.to_nat (Z.max 1 (Z.of_nat (de_n (ag_de p)) * fint F (fmul F (ag_delta p) (fabs F (trig (fnat F t)))))).
Definition increment_population (F : fops) (C : cfg) (p : aging_par) : prog (list aind) :=
  let* v := view in
  let* new := repeatM (delta_pop F p (fsin F) (S (v_iters v))) (rand_ind C) in
  Done (map (fun i => (i, 0)) new).
(** de.py:774-795 *)
Definition decrement_population (F : fops) (p : aging_par) (pop : list aind) : prog (list aind) :=
  let* v := view in
  let d := delta_pop F p (fcos F) (S (v_iters v)) in
  if length pop <=? d then Done pop
  else
    let* ni := choice (length pop) d in
    foldM (fun acc ie =>
             if existsb (Nat.eqb (fst ie)) ni
             then let* u := random in
                  Done (if fleb (ag_omega p) u then acc ++ [snd ie] else acc)
             else Done (acc ++ [snd ie]))
          (combine (seq 0 (length pop)) pop) [].

(** de.py:370 for aging individuals: the chosen object keeps its own age *)
Definition ag_choose (e p : aind) : aind := if fltb (snd (fst e)) (snd (fst p)) then e else p.
Fixpoint ag_select (pop new : list aind) : prog (list aind) :=
  match new with
  | [] => Done []
  | e :: new' =>
      match pop with
      | [] => Fail EIndex
      | p :: pop' => let* r := ag_select pop' new' in Done (ag_choose e p :: r)
      end
  end.
Definition ag_fits (pop : list aind) : list num := map snd (map fst pop).
Definition ag_xs (pop : list aind) : list vec := map fst (map fst pop).

(** de.py:797-836 and 392-422 *)
Definition aging_iteration (F : fops) (C : cfg) (p : aging_par)
  (pop : list aind) (fit : list num) (xb : vec) (fxb : num) (_ : unit)
  : prog (list aind * list num * vec * num * unit) :=
  let* new0 := de_evolve F (ag_de p) (map fst pop) xb in
  let new := map (fun i => (i, 0)) new0 in
  let* arr := ag_select pop new in
  let* (xb1, fxb1) := lift (get_best (ag_xs arr) (ag_fits arr) (Some xb) fxb) in
  let* extra := increment_population F C p in
  let arr2 := arr ++ extra in
  let* (xb2, fxb2) := lift (get_best (ag_xs arr2) (ag_fits arr2) (Some xb1) fxb1) in
  let* aged := aging F C p arr2 in
  let* pop' := (if de_n (ag_de p) <? length aged then decrement_population F p aged else Done aged) in
  let* (xb3, fxb3) := lift (get_best (ag_xs pop') (ag_fits pop') (Some xb2) fxb2) in
  Done (pop', ag_fits pop', xb3, fxb3, tt).
Definition aging_de (F : fops) (C : cfg) (p : aging_par) : algo :=
  Algo (list aind) unit ag_xs
    (let* (pop, fit) := default_individual_init C (de_n (ag_de p)) in Done (map (fun i => (i, 0)) pop, fit, tt))
    (aging_iteration F C p).
