(** Model of /repo/src/niapy/algorithms/basic/{gwo,mfo,sca,gsa,hs}.py. *)
From Coq Require Import ZArith Lia Bool List.
From Verif Require Import Num Task Prog GetBest Run AlgoLib Fops Indiv AlgPSO AlgSwarm.
Import ListNotations.

(** task.max_evals and task.max_iters as floats (infinite when not given) *)
Definition flim (F : fops) (m : lim) : num := match m with LInf => PInf | LFin k => fz F k end.

(** ** GreyWolfOptimizer (gwo.py:10-143) *)
Record wolves : Type := Wolves { gw_a : vec; gw_fa : num; gw_b : vec; gw_fb : num; gw_d : vec; gw_fd : num }.
(** gwo.py:52-90; argsort as in AlgPSO.v (stable) *)
Definition gwo_init (C : cfg) (n : nat) : prog (list vec * list num * wolves) :=
  let* (pop, fit) := default_numpy_init C n in
  let s := sort_by (combine pop fit) in
  let* a := nthP s 0 in
  let* b := nthP s 1 in
  let* d := nthP s 2 in
  Done (pop, fit, Wolves (fst a) (snd a) (fst b) (snd b) (fst d) (snd d)).
(** gwo.py:125-126 for one leader *)
Definition gwo_towards (F : fops) (C : cfg) (a : num) (leader w : vec) : prog vec :=
  let* r := random_vec (c_dim C) in
  let* s := random_vec (c_dim C) in
  let a1 := map (fun x => fsub F (fmul F (fmul F (flit F 2 1) a) x) a) r in
  let c1 := vscale F (flit F 2 1) s in
  Done (vsub F leader (vmul F a1 (map (fabs F) (vsub F (vmul F c1 leader) w)))).
(** gwo.py:124-132 *)
Definition gwo_step (F : fops) (C : cfg) (a : num) (t : wolves) (s : list vec * list num) (i : nat) : prog (list vec * list num) :=
  let* w := nthP (fst s) i in
  let* x1 := gwo_towards F C a (gw_a t) w in
  let* x2 := gwo_towards F C a (gw_b t) w in
  let* x3 := gwo_towards F C a (gw_d t) w in
  let* y := repair (map (fun c => fdiv F c (flit F 3 1)) (vadd F (vadd F x1 x2) x3)) in
  let* pop := setP (fst s) i y in
  let* f := eval y in
  let* fit := setP (snd s) i f in
  Done (pop, fit).
(** gwo.py:133-139 *)
Definition gwo_lead (t : wolves) (x : vec) (f : num) : wolves :=
  if fltb f (gw_fa t) then Wolves x f (gw_b t) (gw_fb t) (gw_d t) (gw_fd t)
  else if fltb (gw_fa t) f && fltb f (gw_fb t) then Wolves (gw_a t) (gw_fa t) x f (gw_d t) (gw_fd t)
  else if fltb (gw_fb t) f && fltb f (gw_fd t) then Wolves (gw_a t) (gw_fa t) (gw_b t) (gw_fb t) x f
  else t.
Fixpoint gwo_leads (t : wolves) (pop : list vec) (fit : list num) : wolves :=
  match pop, fit with x :: pop', f :: fit' => gwo_leads (gwo_lead t x f) pop' fit' | _, _ => t end.
(** gwo.py:123; task.evals counts the evaluations so far *)
Definition gwo_a (F : fops) (C : cfg) (evals : nat) : num :=
  fsub F (flit F 2 1) (fmul F (fnat F evals) (fdiv F (flit F 2 1) (flim F (c_max_evals C)))).
(** gwo.py:92-143 *)
Definition gwo_iter (F : fops) (C : cfg) (n : nat) (pop : list vec) (fit : list num) (xb : vec) (fxb : num) (t : wolves)
  : prog (list vec * list num * vec * num * wolves) :=
  let* v := view in
  let* (pop', fit') := for_range n (gwo_step F C (gwo_a F C (v_evals v)) t) (pop, fit) in
  let t' := gwo_leads t pop' fit' in
  let* (xb', fxb') := lift (get_best1 (gw_a t') (gw_fa t') (Some xb) fxb) in
  Done (pop', fit', xb', fxb', t').
Definition gwo (F : fops) (C : cfg) (n : nat) : algo :=
  Algo (list vec) wolves (fun pop => pop) (gwo_init C n) (gwo_iter F C n).

(** ** MothFlameOptimizer (mfo.py:15-98) *)
(** mfo.py:85; the argument of round() is finite whenever max_iters is positive *)
Definition mfo_flame (F : fops) (C : cfg) (n iters : nat) : Z :=
  fround (fsub F (fnat F n) (fmul F (fnat F (S iters)) (fdiv F (fnat F (n - 1)) (flim F (c_max_iters C))))).
Definition mfo_a (F : fops) (C : cfg) (iters : nat) : num :=
  fadd F (flit F (-1) 1) (fmul F (fnat F (S iters)) (fdiv F (flit F (-1) 1) (flim F (c_max_iters C)))).
(** sorted_population[flame_no]: a negative index counts from the end *)
Definition nthZ {A} (xs : list A) (k : Z) : prog A :=
  if (k <? 0)%Z then (if (Z.of_nat (length xs) + k <? 0)%Z then Fail EIndex else nthP xs (Z.to_nat (Z.of_nat (length xs) + k)))
  else nthP xs (Z.to_nat k).
(** mfo.py:89-94 for one component: x the moth's, s the sorted population's row i, fl the flame's *)
Definition mfo_comp (F : fops) (pi : num) (a x s fl : num) : prog num :=
  let* r := random in
  let t := fadd F (fmul F (fsub F a (flit F 1 1)) r) (flit F 1 1) in
  Done (fadd F (fmul F (fmul F (fabs F (fsub F s x)) (fexp F (fmul F (flit F 1 1) t))) (fcos F (fmul F (fmul F (flit F 2 1) pi) t))) fl).
(** mfo.py:88-94 for moth i; [pi] is np.pi *)
Definition mfo_row (F : fops) (C : cfg) (pi : num) (sorted : list vec) (flame : Z) (a : num) (i : nat) (x : vec) : prog vec :=
  let* s := nthP sorted i in
  let* fl := (if (Z.of_nat i <=? flame)%Z then Done s else nthZ sorted flame) in
  mapM (fun k => mfo_comp F pi a (nth k x NaN) (nth k s NaN) (nth k fl NaN)) (seq 0 (c_dim C)).
(** mfo.py:88-94, all moths.  When the dimension is 0 the flame is looked up here and not in the source. *)
Definition mfo_moths (F : fops) (C : cfg) (pi : num) (n iters : nat) (pop : list vec) (fit : list num) : prog (list vec) :=
  let sorted := map fst (sort_by (combine pop fit)) in
  mapM (fun i => let* x := nthP pop i in mfo_row F C pi sorted (mfo_flame F C n iters) (mfo_a F C iters) i x) (seq 0 n).
(** mfo.py:56-98 *)
Definition mfo_body (F : fops) (C : cfg) (pi : num) (n : nat) (v : tview) (pop : list vec) (fit : list num) (xb : vec) (fxb : num) (u : unit)
  : prog (list vec * list num * vec * num * unit) :=
  let* moved := mfo_moths F C pi n (v_iters v) pop fit in
  let* pop' := repair_all moved in
  let* fit' := eval_all pop' in
  let* (xb', fxb') := lift (get_best pop' fit' (Some xb) fxb) in
  Done (pop', fit', xb', fxb', u).
Definition mfo_iter (F : fops) (C : cfg) (pi : num) (n : nat) (pop : list vec) (fit : list num) (xb : vec) (fxb : num) (u : unit)
  : prog (list vec * list num * vec * num * unit) := let* v := view in mfo_body F C pi n v pop fit xb fxb u.
Definition mfo (F : fops) (C : cfg) (pi : num) (n : nat) : algo :=
  Algo (list vec) unit (fun pop => pop) (plain_init C n) (mfo_iter F C pi n).

(** ** SineCosineAlgorithm (sca.py:15-161) *)
Record sca_par : Type := SCAPar { sc_n : nat; sc_a : num; sc_rmin : num; sc_rmax : num }.
(** sca.py:132, before repair *)
Definition sca_pos (F : fops) (x best : vec) (r1 r2 r3 r4 : num) : vec :=
  vadd F x (vmul F (repeat (fmul F r1 (if fltb r4 (flit F 1 2) then fsin F r2 else fcos F r2)) (length x))
             (map (fabs F) (vsub F (vscale F r3 best) x))).
(** sca.py:154 *)
Definition sca_r1 (F : fops) (p : sca_par) (iters : nat) : num :=
  fsub F (sc_a p) (fmul F (fnat F (S iters)) (fdiv F (sc_a p) (fnat F (S iters)))).
(** sca.py:134-161; [pi] is np.pi *)
Definition sca_iter (F : fops) (C : cfg) (pi : num) (p : sca_par) (pop : list vec) (fit : list num) (xb : vec) (fxb : num) (u : unit)
  : prog (list vec * list num * vec * num * unit) :=
  let* v := view in
  let r1 := sca_r1 F p (v_iters v) in
  let* r2 := uniform f0 (fmul F (flit F 2 1) pi) in
  let* r3 := uniform (sc_rmin p) (sc_rmax p) in
  let* r4 := random in
  let* pop' := repair_all (map (fun x => sca_pos F x xb r1 r2 r3 r4) pop) in
  let* fit' := eval_all pop' in
  let* (xb', fxb') := lift (get_best pop' fit' (Some xb) fxb) in
  Done (pop', fit', xb', fxb', u).
Definition sca (F : fops) (C : cfg) (pi : num) (p : sca_par) : algo :=
  Algo (list vec) unit (fun pop => pop) (plain_init C (sc_n p)) (sca_iter F C pi p).

(** ** GravitationalSearchAlgorithm (gsa.py:16-173) *)
Record gsa_par : Type := GSAPar { gs_n : nat; gs_g0 : num; gs_eps : num }.
(** gsa.py:162-164 *)
Definition gsa_mass (F : fops) (fit : list num) : prog (list num) :=
  match argmin fit, argmax fit with
  | Some ib, Some iw =>
      let* fb := nthP fit ib in
      let* fw := nthP fit iw in
      let m := map (fun f => fdiv F (fsub F f fw) (fsub F fb fw)) fit in
      Done (map (fun a => fdiv F a (vsum F m)) m)
  | _, _ => Fail EValue
  end.
(** gsa.py:165-166: forces[i][j] *)
Definition gsa_force (F : fops) (p : gsa_par) (iters : nat) (mi mj : num) (xi xj : vec) : vec :=
  let g := fdiv F (gs_g0 p) (fnat F (S iters)) in
  vscale F (fmul F g (fdiv F (fmul F mi mj) (fadd F (euclidean F xi xj) (gs_eps p)))) (vsub F xj xi).
(** gsa.py:167-168, row i: the sum over j of r[j] * forces[i][j] (the same random matrix for every i),
    divided by m[i] + epsilon *)
Definition gsa_acc (F : fops) (C : cfg) (p : gsa_par) (iters : nat) (m : list num) (pop : list vec) (r : list vec) (mi : num) (xi : vec) : vec :=
  let total := fold_left (vadd F) (map3 (fun rj mj xj => vmul F rj (gsa_force F p iters mi mj xi xj)) r m pop) (repeat (flit F 0 1) (c_dim C)) in
  map (fun a => fdiv F a (fadd F mi (gs_eps p))) total.
(** gsa.py:139-173 *)
Definition gsa_iter (F : fops) (C : cfg) (p : gsa_par) (pop : list vec) (fit : list num) (xb : vec) (fxb : num) (vs : list vec)
  : prog (list vec * list num * vec * num * list vec) :=
  let* m := gsa_mass F fit in
  let* v := view in
  let* r := random_mat (gs_n p) (c_dim C) in
  let acc := map2 (gsa_acc F C p (v_iters v) m pop r) m pop in
  let* s := random_mat (gs_n p) (c_dim C) in
  let vs' := map2 (vadd F) (map2 (vmul F) s vs) acc in
  let* pop' := repair_all (map2 (vadd F) pop vs') in
  let* fit' := eval_all pop' in
  let* (xb', fxb') := lift (get_best pop' fit' (Some xb) fxb) in
  Done (pop', fit', xb', fxb', vs').
(** gsa.py:118-137 *)
Definition gsa_init (C : cfg) (n : nat) : prog (list vec * list num * list vec) :=
  let* (pop, fit) := default_numpy_init C n in Done (pop, fit, repeat (repeat f0 (c_dim C)) n).
Definition gsa (F : fops) (C : cfg) (p : gsa_par) : algo :=
  Algo (list vec) (list vec) (fun pop => pop) (gsa_init C (gs_n p)) (gsa_iter F C p).

(** ** HarmonySearch (hs.py:15-171) and HarmonySearchV1 (hs.py:174-262) *)
Record hs_par : Type := HSPar { hs_n : nat; hs_accept : num; hs_pa : num }.
(** hs.py:102-112 *)
Definition hs_bw (F : fops) (brange : num) : prog num :=
  let* r := uniform (flit F (-1) 1) (flit F 1 1) in Done (fmul F r brange).
(** hs.py:252-262 *)
Definition hs1_bw (F : fops) (C : cfg) (bmin bmax : num) : prog num :=
  let* v := view in
  Done (fmul F bmin (fexp F (fdiv F (fmul F (fln F (fdiv F bmin bmax)) (fnat F (S (v_iters v)))) (flim F (c_max_iters C))))).
(** hs.py:139-142 for component i *)
Definition hs_comp (F : fops) (C : cfg) (p : hs_par) (bw : prog num) (pop : list vec) (i : nat) : prog num :=
  let* r := random in
  let* j := integers (hs_n p) in
  if fltb (hs_accept p) r then let* x := nthP pop j in nthP x i
  else if fltb (hs_pa p) r then let* x := nthP pop j in let* a := nthP x i in let* b := bw in Done (fadd F a b)
  else let* lo := nthP (c_lower C) i in let* hi := nthP (c_upper C) i in uniform lo hi.
(** hs.py:145-171.  Line 166 evaluates the result of task.repair but lines 169 and 170 store [harmony]:
    the same array when the repair function works in place ([ip]; all of util/repair.py do), the
    unrepaired one otherwise. *)
Definition hs_iter (F : fops) (C : cfg) (ip : bool) (p : hs_par) (bw : prog num)
  (pop : list vec) (fit : list num) (xb : vec) (fxb : num) (u : unit) : prog (list vec * list num * vec * num * unit) :=
  let* h := mapM (hs_comp F C p bw pop) (seq 0 (c_dim C)) in
  let* y := repair h in
  let* f := eval y in
  let h' := if ip then y else h in
  match argmax fit with
  | None => Fail EValue
  | Some iw =>
      let* fw := nthP fit iw in
      let* pop' := (if fleb f fw then setP pop iw h' else Done pop) in
      let* fit' := (if fleb f fw then setP fit iw f else Done fit) in
      let* (xb', fxb') := lift (get_best1 h' f (Some xb) fxb) in
      Done (pop', fit', xb', fxb', u)
  end.
Definition hs_with (F : fops) (C : cfg) (ip : bool) (p : hs_par) (bw : prog num) : algo :=
  Algo (list vec) unit (fun pop => pop) (plain_init C (hs_n p)) (hs_iter F C ip p bw).
Definition hs (F : fops) (C : cfg) (ip : bool) (p : hs_par) (brange : num) : algo := hs_with F C ip p (hs_bw F brange).
Definition hs1 (F : fops) (C : cfg) (ip : bool) (p : hs_par) (bmin bmax : num) : algo := hs_with F C ip p (hs1_bw F C bmin bmax).
