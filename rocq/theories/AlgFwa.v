(** Model of /repo/src/niapy/algorithms/basic/fwa.py: FireworksAlgorithm, EnhancedFireworksAlgorithm,
    DynamicFireworksAlgorithmGauss and DynamicFireworksAlgorithm (BareBonesFireworksAlgorithm: AlgEvo.v). *)
From Coq Require Import ZArith Lia Bool List.
From Verif Require Import Num Task Prog GetBest Run AlgoLib Fops Indiv AlgDE AlgPSO AlgSwarm AlgBasic Repair.
Import ListNotations.

(** fwa.py:203-221: population_size, num_sparks, a, b, max_amplitude, num_gaussian, epsilon *)
Record fw_par : Type := FWPar { fw_n : nat; fw_num : nat; fw_a : num; fw_b : num; fw_max : num; fw_gauss : nat; fw_eps : num }.

(** np.amax, np.amin (nan if there is one); ValueError on an empty array *)
Definition amax (xs : list num) : prog num := match argmax xs with Some i => nthP xs i | None => Fail EValue end.
Definition amin (xs : list num) : prog num := match argmin xs with Some i => nthP xs i | None => Fail EValue end.

(** fwa.py:275-277 for one number s: np.round, np.select and astype(int).  What astype(int) makes of a nan or an infinity is negative
    (the least integer), here -1. *)
Definition fw_count (F : fops) (p : fw_par) (ra rb : Z) (s : num) : Z :=
  let m := fnat F (fw_num p) in
  if fltb s (fmul F (fw_a p) m) then ra
  else if fltb (fmul F (fw_b p) m) s && (fltb (fw_a p) (fw_b p) && fltb (fw_b p) (flit F 1 1)) then rb
  else match s with Fin _ => fround s | _ => (-1)%Z end.
(** fwa.py:261-277; round() of the limits raises for nan and infinities *)
Definition fw_counts (F : fops) (p : fw_par) (fit : list num) : prog (list Z) :=
  let* worst := amax fit in
  let m := fnat F (fw_num p) in
  let total := fadd F (vsum F (map (fun f => fsub F worst f) fit)) (fw_eps p) in
  let* ra := lift (py_round (fmul F (fw_a p) m)) in
  let* rb := lift (py_round (fmul F (fw_b p) m)) in
  Done (map (fun f => fw_count F p ra rb (fdiv F (fmul F m (fadd F (fsub F worst f) (fw_eps p))) total)) fit).
(** fwa.py:279-293 *)
Definition fw_amplitudes (F : fops) (p : fw_par) (fit : list num) : prog (list num) :=
  let* best := amin fit in
  let total := fadd F (vsum F (map (fun f => fsub F f best) fit)) (fw_eps p) in
  Done (map (fun f => fdiv F (fmul F (fw_max p) (fadd F (fsub F f best) (fw_eps p))) total) fit).

(** rng.choice(task.dimension, rng.integers(task.dimension), replace=False) *)
Definition fw_dims (C : cfg) : prog (list nat) :=
  let* k := integers (c_dim C) in choice (c_dim C) k.
(** fwa.py:327-338 and repair.py:81-97 [reflect] *)
Definition reflect_c (F : fops) (a l u : num) : num :=
  let b := if fltb u a then fadd F l (fmod F a (fsub F u l)) else a in
  if fltb b l then fadd F l (fmod F b (fsub F u l)) else b.
Definition reflect (F : fops) (C : cfg) (x : vec) : vec := map3 (reflect_c F) x (c_lower C) (c_upper C).
(** x[z] = f(x[z]) for the indices z *)
Definition on_dims (f : nat -> num -> num) (z : list nat) (x : vec) : vec :=
  map2 (fun j c => if existsb (Nat.eqb j) z then f j c else c) (seq 0 (length x)) x.
(** fwa.py:295-309 *)
Definition fw_spark (F : fops) (C : cfg) (x : vec) (amp : num) : prog vec :=
  let* z := fw_dims C in
  let* u := uniform (flit F (-1) 1) (flit F 1 1) in
  Done (reflect F C (on_dims (fun _ c => fadd F c (fmul F amp u)) z x)).
(** fwa.py:311-325 *)
Definition fw_gspark (F : fops) (C : cfg) (x : vec) : prog vec :=
  let* z := fw_dims C in
  let* g := rnd_f in
  Done (reflect F C (on_dims (fun _ c => fmul F c g) z x)).

(** fwa.py:407-416: the population and, for every firework, its sparks *)
Definition fw_explode (spark : vec -> num -> prog vec) (n : nat) (pop : list vec) (counts : list Z) (amps : list num) : prog (list vec) :=
  for_range n (fun all i =>
    let* s := nthP counts i in
    let* a := nthP amps i in
    let* x := nthP pop i in
    if (s <? 0)%Z then Fail EValue
    else let* sp := repeatM (Z.to_nat s) (spark x a) in Done (all ++ sp)) pop.
(** fwa.py:418-424 *)
Definition fw_gaussians (gspark : vec -> prog vec) (g : nat) (all : list vec) : prog (list vec) :=
  let* idx := choice (length all) g in
  let* rows := mapM (nthP all) idx in
  let* gs := mapM gspark rows in
  Done (all ++ gs).

(** rng.choice(n, k, replace=False, p): ValueError when p has a nan or a negative entry, does not sum to one, or has fewer than k
    entries that are not zero; otherwise k different indices of entries that are not zero *)
Definition choice_p (F : fops) (tol : num) (p : list num) (k : nat) : prog (list nat) :=
  let nz := filter (fun i => negb (feqb (nth i p NaN) f0)) (seq 0 (length p)) in
  if existsb is_nan p || existsb (fun a => fltb a f0) p || negb (fleb (fabs F (fsub F (vsum F p) (flit F 1 1))) tol) || (length nz <? k)
  then Fail EValue else choice_from nz k.
(** fwa.py:365-366 *)
Definition fw_probabilities (F : fops) (rows : list vec) : list num :=
  let dist := map (fun x => vsum F (map (fun y => euclidean F y x) rows)) rows in
  map (fun d => fdiv F d (vsum F dist)) dist.
(** fwa.py:340-374; [tol] is numpy's tolerance for the sum of probabilities *)
Definition fw_selection (F : fops) (tol : num) (n : nat) (sparks : list vec) : prog (list vec * list num * vec * num) :=
  let* sf := eval_all sparks in
  match argmin sf with
  | None => Fail EValue
  | Some b =>
      let* bx := nthP sparks b in
      let* bf := nthP sf b in
      let rest := remove_at sparks b in
      let frest := remove_at sf b in
      let* sel := choice_p F tol (fw_probabilities F rest) (n - 1) in
      let* xs := mapM (nthP rest) sel in
      let* fs := mapM (nthP frest) sel in
      Done (bx :: xs, bf :: fs, bx, bf)
  end.
(** fwa.py:376-429.  Simplification: population_size >= 1 (with 0 no firework exists and get_best already raises). *)
Definition fwa_iter (F : fops) (C : cfg) (tol : num) (p : fw_par) (pop : list vec) (fit : list num) (xb : vec) (fxb : num) (u : unit)
  : prog (list vec * list num * vec * num * unit) :=
  let* counts := fw_counts F p fit in
  let* amps := fw_amplitudes F p fit in
  let* all := fw_explode (fw_spark F C) (fw_n p) pop counts amps in
  let* all := fw_gaussians (fw_gspark F C) (fw_gauss p) all in
  let* (pop', fit', xb', fxb') := fw_selection F tol (fw_n p) all in
  Done (pop', fit', xb', fxb', u).
Definition fwa (F : fops) (C : cfg) (tol : num) (p : fw_par) : algo :=
  Algo (list vec) unit (fun pop => pop) (plain_init C (fw_n p)) (fwa_iter F C tol p).

(** ** EnhancedFireworksAlgorithm (fwa.py:432-611) *)
Record ef_par : Type := EFPar { ef_fw : fw_par; ef_init : num; ef_final : num }.
(** fwa.py:531 *)
Definition ef_amin (F : fops) (C : cfg) (p : ef_par) (evals : nat) : num :=
  let e := fnat F evals in
  let m := flim F (c_max_evals C) in
  fsub F (ef_init p) (fdiv F (fmul F (fsqrt F (fmul F e (fsub F (fmul F (flit F 2 1) m) e))) (fsub F (ef_init p) (ef_final p))) m).
(** fwa.py:519-533 *)
Definition ef_amplitudes (F : fops) (C : cfg) (p : ef_par) (fit : list num) : prog (list num) :=
  let* amps := fw_amplitudes F (ef_fw p) fit in
  let* v := view in
  let am := ef_amin F C p (v_evals v) in
  Done (map (fun a => if fltb a am then am else a) amps).
(** x[z] + amp[z] * uniform(-1, 1, len(z)): the draws are assigned in the order of z *)
Definition ef_move (F : fops) (amp : vec) (z : list nat) (x : vec) : prog vec :=
  let* us := mapM (fun _ => uniform (flit F (-1) 1) (flit F 1 1)) z in
  Done (fold_left (fun y ju => upd y (fst ju) (fadd F (nth (fst ju) x NaN) (fmul F (nth (fst ju) amp NaN) (snd ju)))) (combine z us) x).
(** fwa.py:548-565 and 535-546 (repair.rand); [amp] is a vector, constant for a scalar amplitude *)
Definition ef_spark_v (F : fops) (C : cfg) (x amp : vec) : prog vec :=
  let* z := fw_dims C in
  let* y := ef_move F amp z x in
  rand_repair y (c_lower C) (c_upper C).
Definition ef_spark (F : fops) (C : cfg) (x : vec) (amp : num) : prog vec := ef_spark_v F C x (repeat amp (c_dim C)).
(** fwa.py:567-582 *)
Definition ef_gspark (F : fops) (C : cfg) (best x : vec) : prog vec :=
  let* z := fw_dims C in
  let* e := rnd_f in
  rand_repair (on_dims (fun j c => fadd F c (fmul F (fsub F (nth j best NaN) c) e)) z x) (c_lower C) (c_upper C).
(** fwa.py:607-610 for firework i *)
Definition ef_replace (sparks : list vec) (sf : list num) (s : list vec * list num) (i : nat) : prog (list vec * list num) :=
  let* r := integers (length sparks) in
  let* fr := nthP sf r in
  let* fi := nthP (snd s) i in
  if fltb fr fi then
    let* x := nthP sparks r in
    let* pop := setP (fst s) i x in
    let* fit := setP (snd s) i fr in
    Done (pop, fit)
  else Done s.
(** fwa.py:584-611 *)
Definition ef_selection (n : nat) (pop : list vec) (fit : list num) (sparks : list vec) : prog (list vec * list num * vec * num) :=
  let* sf := eval_all sparks in
  match argmin sf with
  | None => Fail EValue
  | Some b =>
      let* bx := nthP sparks b in
      let* bf := nthP sf b in
      let* f_0 := nthP fit 0 in
      let* s := (if fltb bf f_0 then let* pop := setP pop 0 bx in let* fit := setP fit 0 bf in Done (pop, fit) else Done (pop, fit)) in
      let* (pop', fit') := foldM (ef_replace sparks sf) (seq 1 (n - 1)) s in
      Done (pop', fit', bx, bf)
  end.
Definition efwa_iter (F : fops) (C : cfg) (p : ef_par) (pop : list vec) (fit : list num) (xb : vec) (fxb : num) (u : unit)
  : prog (list vec * list num * vec * num * unit) :=
  let* counts := fw_counts F (ef_fw p) fit in
  let* amps := ef_amplitudes F C p fit in
  let* all := fw_explode (ef_spark F C) (fw_n (ef_fw p)) pop counts amps in
  let* all := fw_gaussians (ef_gspark F C xb) (fw_gauss (ef_fw p)) all in
  let* (pop', fit', xb', fxb') := ef_selection (fw_n (ef_fw p)) pop fit all in
  Done (pop', fit', xb', fxb', u).
Definition efwa (F : fops) (C : cfg) (p : ef_par) : algo :=
  Algo (list vec) unit (fun pop => pop) (plain_init C (fw_n (ef_fw p))) (efwa_iter F C p).

(** ** DynamicFireworksAlgorithmGauss and DynamicFireworksAlgorithm (fwa.py:614-927) *)
Record dy_par : Type := DYPar { dy_fw : fw_par; dy_amp : num; dy_red : num }.
(** amplitude_cf, and whether [best_x] is the row population[0] itself (line 726 assigns a view of it) rather than an array of its own *)
Record dy_state : Type := DYState { dy_cf : vec; dy_alias : bool }.
(** fwa.py:735-751; task.range = upper - lower *)
Definition dy_init (F : fops) (C : cfg) (n : nat) : prog (list vec * list num * dy_state) :=
  let* (pop, fit) := default_numpy_init C n in
  Done (pop, fit, DYState (vsub F (c_upper C) (c_lower C)) false).
(** fwa.py:790-798 *)
Definition dy_cf_num (F : fops) (p : fw_par) (fit : list num) (fxb : num) : prog Z :=
  let* worst := amax fit in
  let* md := amax (map (fun f => fsub F f fxb) fit) in
  let m := fnat F (fw_num p) in
  let c := fdiv F (fmul F m (fadd F (fsub F worst fxb) (fw_eps p))) (fadd F md (fw_eps p)) in
  if fltb c (fmul F (fw_a p) m) then lift (py_round (fmul F (fw_a p) m))
  else if fltb (fmul F (fw_b p) m) c && (fltb (fw_a p) (fw_b p) && fltb (fw_b p) (flit F 1 1)) then lift (py_round (fmul F (fw_b p) m))
  else lift (py_round c).
(** fwa.py:757-760 for firework i: [f] is its current fitness *)
Definition dy_replace := ef_replace.
(** fwa.py:753-762 *)
Definition dy_selection (pop : list vec) (fit : list num) (sparks : list vec) : prog (list vec * list num) :=
  let* sf := eval_all sparks in
  match argmin sf with
  | None => Fail EValue
  | Some b =>
      let* (pop1, fit1) := foldM (dy_replace sparks sf) (seq 0 (length fit)) (pop, fit) in
      let* bx := nthP sparks b in
      let* bf := nthP sf b in
      let* pop' := setP pop1 0 bx in
      let* fit' := setP fit1 0 bf in
      Done (pop', fit')
  end.
(** fwa.py:702-729.  [xb] is the best point as it is when the method is called. *)
Definition dy_update (F : fops) (p : dy_par) (sparks : list vec) (xcb : vec) (fcb : num) (xb : vec) (fxb : num) (t : dy_state)
  : prog (vec * num * dy_state) :=
  let* sf := eval_all sparks in
  match argmin sf with
  | None => Fail EValue
  | Some b =>
      let* sx := nthP sparks b in
      let* sb := nthP sf b in
      let '(x1, f1, al) := if fleb sb fxb then (sx, sb, false) else (xb, fxb, dy_alias t) in
      if fleb fcb f1 then Done (xcb, fcb, DYState (vscaler F (dy_cf t) (dy_amp p)) true)
      else Done (x1, f1, DYState (vscaler F (dy_cf t) (dy_red p)) al)
  end.
(** fwa.py:764-826 and (without Gaussian sparks, [gauss] = false) 873-927 *)
Definition dy_iter (F : fops) (C : cfg) (p : dy_par) (gauss : bool) (pop : list vec) (fit : list num) (xb : vec) (fxb : num) (t : dy_state)
  : prog (list vec * list num * vec * num * dy_state) :=
  let* counts := fw_counts F (dy_fw p) fit in
  let* amps := fw_amplitudes F (dy_fw p) fit in
  let* cn := dy_cf_num F (dy_fw p) fit fxb in
  let* all := fw_explode (ef_spark F C) (fw_n (dy_fw p)) pop counts amps in
  let* all := (if gauss then fw_gaussians (ef_gspark F C xb) (fw_gauss (dy_fw p)) all else Done all) in
  let* cf := (if (cn <? 0)%Z then Fail EValue else repeatM (Z.to_nat cn) (ef_spark_v F C xb (dy_cf t))) in
  let* (pop', fit') := dy_selection pop fit all in
  let* xcb := nthP pop' 0 in
  let* fcb := nthP fit' 0 in
  let* (xb', fxb', t') := dy_update F p cf xcb fcb (if dy_alias t then xcb else xb) fxb t in
  Done (pop', fit', xb', fxb', t').
Definition dynfwa (F : fops) (C : cfg) (p : dy_par) (gauss : bool) : algo :=
  Algo (list vec) dy_state (fun pop => pop) (dy_init F C (fw_n (dy_fw p))) (dy_iter F C p gauss).
