(** Model of /repo/src/niapy/algorithms/basic/cro.py (CoralReefsOptimization). *)
From Coq Require Import ZArith Lia Bool List.
From Verif Require Import Num Task Prog Repair GetBest Run AlgoLib Fops AlgBasic AlgBasic2 AlgMts.
Import ListNotations.

(** cro.py:140-176, with the default sexual_crossover and brooding.  Simplification: the three probabilities are finite, so that the
    int() of lines 171-173 do not raise when the object is made. *)
Record cro_par : Type := CroPar {
  cr_n : nat;          (* population_size *)
  cr_phi : num;
  cr_asexual : num;    (* asexual_reproduction_prob *)
  cr_broadcast : num;  (* broadcast_prob *)
  cr_depredation : num;(* depredation_prob *)
  cr_k : Z;
  cr_cr : num;         (* crossover_rate *)
  cr_mr : num          (* mutation_rate *)
}.
(** cro.py:171-173: int(population_size * probability) *)
Definition cr_count (F : fops) (n : nat) (q : num) : Z := fint F (fmul F (fnat F n) q).

(** cro.py:30-32.  Row i is written before the following rows are made, as in the code. *)
Definition cr_cross (C : cfg) (p : num) (pop : list vec) : prog (list vec * list num) :=
  let* pop' := for_range (length pop / 2) (fun rows i =>
    let* x := nthP rows i in
    let* y := nthP rows (i * 2) in
    let* z := mapM (fun k => let* r := random in if fltb r p then nthP x k else nthP y k) (seq 0 (c_dim C)) in
    setP rows i z) pop in
  let* fs := eval_all pop' in
  Done (pop', fs).
(** cro.py:50-54; every row is made from itself *)
Definition cr_brood_row (F : fops) (C : cfg) (p : num) (x : vec) : prog vec :=
  let* z := mapM (fun k =>
    let* r := random in
    if fltb r p then nthP x k
    else let* u := random in
         Done (fadd F (nth k (c_lower C) NaN) (fmul F (fsub F (nth k (c_upper C) NaN) (nth k (c_lower C) NaN)) u))) (seq 0 (c_dim C)) in
  repair z.
Definition cr_brood (F : fops) (C : cfg) (p : num) (pop : list vec) : prog (list vec * list num) :=
  let* pop' := mapM (cr_brood_row F C p) pop in
  let* fs := eval_all pop' in
  Done (pop', fs).
(** cro.py:73-78 *)
Definition cr_move_row (F : fops) (C : cfg) (p f : num) (x : vec) : prog vec :=
  let* z := mapM (fun k =>
    let* r := random in
    let* a := nthP x k in
    if fltb r p then Done a else let* u := random in Done (fadd F a (fmul F f u))) (seq 0 (c_dim C)) in
  repair z.
Definition cr_move (F : fops) (C : cfg) (p f : num) (pop : list vec) : prog (list vec * list num) :=
  let* pop' := mapM (cr_move_row F C p f) pop in
  let* fs := eval_all pop' in
  Done (pop', fs).

(** xs[is] = ys *)
Fixpoint put {A} (is : list nat) (ys : list A) (xs : list A) : list A :=
  match is, ys with i :: is', y :: ys' => put is' ys' (upd xs i y) | _, _ => xs end.
(** np.unique(np.where(dist < phi)[0]) for the distances from the rows of [news] to those of [arr] (300-301) *)
Definition cr_close (F : fops) (phi : num) (arr news : list vec) : list nat :=
  filter (fun i => existsb (fun y => fltb (euclidean F y (nth i news [])) phi) arr) (seq 0 (length news)).
(** and np.unique(np.where(distances >= phi)[0]) (314-315) *)
Definition cr_far (F : fops) (phi : num) (arr news : list vec) : list nat :=
  filter (fun i => existsb (fun y => fleb phi (euclidean F y (nth i news []))) arr) (seq 0 (length news)).

(** new_reef, new_reef_fitness, best_x, best_fitness *)
Definition larvae : Type := (list vec * list num * vec * num)%type.
(** cro.py:299-309 [update].  [ind.any()] asks for an index that is not 0. *)
Definition cr_update (F : fops) (C : cfg) (p : cro_par) (arr : list vec) (s : larvae) : prog larvae :=
  let '(news, nf, xb, fxb) := s in
  let ind := cr_close F (cr_phi p) arr news in
  if existsb (fun i => negb (i =? 0)) ind then
    let* (rows, fs) := cr_move F C (cr_mr p) (cr_mr p) (map (fun i => nth i news []) ind) in
    let* (xb', fxb') := lift (get_best rows fs (Some xb) fxb) in
    Done (put ind rows news, put ind fs nf, xb', fxb')
  else Done s.
(** cro.py:311-313 *)
Definition cr_round (F : fops) (C : cfg) (p : cro_par) (reef : list vec) (s : larvae) (_ : nat) : prog larvae :=
  let* s1 := cr_update F C p reef s in
  cr_update F C p (fst (fst (fst s1))) s1.
(** cro.py:278-316 [settling] *)
Definition cr_settle (F : fops) (C : cfg) (p : cro_par) (reef : list vec) (fit : list num) (s : larvae) : prog larvae :=
  let* (news, nf, xb, fxb) := for_range (Z.to_nat (cr_k p)) (cr_round F C p reef) s in
  let ind := cr_far F (cr_phi p) reef news in
  Done (reef ++ map (fun i => nth i news []) ind, fit ++ map (fun i => nth i nf NaN) ind, xb, fxb).
(** cro.py:235-260 [asexual_reproduction]; [np.argsort] as in AlgMts.v *)
Definition cr_asex (F : fops) (C : cfg) (p : cro_par) (s : larvae) : prog larvae :=
  let '(reef, fit, xb, fxb) := s in
  let idx := take_z (cr_count F (cr_n p) (cr_asexual p)) (argsort fit) in
  let* (news, nf) := cr_brood F C (cr_mr p) (map (fun i => nth i reef []) idx) in
  let* (xb', fxb') := lift (get_best news nf (Some xb) fxb) in
  cr_settle F C p reef fit (news, nf, xb', fxb').
(** np.delete of the positions [is] *)
Definition drop_all {A} (is : list nat) (xs : list A) : list A :=
  map snd (filter (fun ia => negb (existsb (Nat.eqb (fst ia)) is)) (combine (seq 0 (length xs)) xs)).
(** cro.py:275-276 [depredation]: without an axis np.delete works on the flattened array, so that the reef becomes an array of numbers.
    Here its entries are vectors of one component. *)
Definition cr_depredate (F : fops) (p : cro_par) (pop : list vec) (fit : list num) : list vec * list num :=
  let idx := take_z (cr_count F (cr_n p) (cr_depredation p)) (rev (argsort fit)) in
  (map (fun a => [a]) (drop_all idx (concat pop)), drop_all idx fit).

(** cro.py:342-364, the part before depredation *)
Definition cr_body (F : fops) (C : cfg) (p : cro_par) (bi : list nat) (pop : list vec) (fit : list num) (xb : vec) (fxb : num) : prog larvae :=
  let* (b1, f1) := cr_cross C (cr_cr p) (map (fun i => nth i pop []) bi) in
  let* (xb1, fxb1) := lift (get_best b1 f1 (Some xb) fxb) in
  let* (b2, f2) := cr_brood F C (cr_mr p) (drop_all bi pop) in
  let* (xb2, fxb2) := lift (get_best b2 f2 (Some xb1) fxb1) in
  let* s := cr_settle F C p pop fit (b1 ++ b2, f1 ++ f2, xb2, fxb2) in
  cr_asex F C p s.
(** cro.py:318-367.  [flat] tells that the population is an array of numbers: then pop[i, d] (31) raises IndexError, or apply_along_axis (32)
    raises AxisError, which is an IndexError. *)
Definition cr_iter (F : fops) (C : cfg) (p : cro_par) (pop : list vec) (fit : list num) (xb : vec) (fxb : num) (flat : bool)
  : prog (list vec * list num * vec * num * bool) :=
  let nb := cr_count F (cr_n p) (cr_broadcast p) in
  let* bi := if (nb <? 0)%Z then Fail EValue else choice (length pop) (Z.to_nat nb) in
  if flat then Fail EIndex else
  let* (pop', fit', xb', fxb') := cr_body F C p bi pop fit xb fxb in
  let* v := view in
  if Z.eqb (cr_k p) 0 then Fail EZeroDiv
  else if Z.eqb ((Z.of_nat (v_iters v) + 1) mod cr_k p) 0 then
    let (pop2, fit2) := cr_depredate F p pop' fit' in Done (pop2, fit2, xb', fxb', true)
  else Done (pop', fit', xb', fxb', false).
(** algorithm.py:246-261 *)
Definition cr_init (C : cfg) (p : cro_par) : prog (list vec * list num * bool) :=
  let* (pop, fit) := default_numpy_init C (cr_n p) in Done (pop, fit, false).
Definition cro (F : fops) (C : cfg) (p : cro_par) : algo :=
  Algo (list vec) bool (fun pop => pop) (cr_init C p) (cr_iter F C p).
