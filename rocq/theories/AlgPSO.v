(** Model of /repo/src/niapy/algorithms/basic/pso.py. *)
From Coq Require Import ZArith Lia Bool List.
From Verif Require Import Num Task Prog GetBest Run AlgoLib Fops.
Import ListNotations.

(** ** Parameters (pso.py:70-93)
    [ps_w], [ps_vmin], [ps_vmax] are the arrays full_array(_, task.dimension) of pso.py:156-158.
    [ps_rep] is self.repair, a function of niapy/util/repair.py called without rng (pso.py:208);
    the functions that do not draw random numbers are covered. *)
Record pso_par : Type := PSOPar {
  ps_n : nat; ps_c1 : num; ps_c2 : num;
  ps_w : vec; ps_vmin : vec; ps_vmax : vec;
  ps_rep : vec -> vec -> vec -> vec
}.

(** util/repair.py:81-97 [reflect], the default velocity repair *)
Definition vreflect1 (F : fops) (x lo hi : num) : num :=
  let y := if fltb hi x then fadd F lo (fmod F x (fsub F hi lo)) else x in
  if fltb y lo then fadd F lo (fmod F y (fsub F hi lo)) else y.
Definition reflect_v (F : fops) (x lo hi : vec) : vec := map3 (vreflect1 F) x lo hi.

(** the swarm during run_iteration *)
Record swarm : Type := Swarm {
  sw_pop : list vec; sw_fit : list num; sw_xb : vec; sw_fxb : num;
  sw_pb : list vec; sw_pbf : list num; sw_v : list vec
}.

(** pso.py:208-210 *)
Definition update_velocity (F : fops) (C : cfg) (p : pso_par) (v x pb gb w lo hi : vec) : prog vec :=
  let* r1 := random_vec (c_dim C) in
  let* r2 := random_vec (c_dim C) in
  Done (ps_rep p
    (vadd F (vadd F (vmul F w v) (vmul F (vscale F (ps_c1 p) r1) (vsub F pb x)))
            (vmul F (vscale F (ps_c2 p) r2) (vsub F gb x))) lo hi).
(** pso.py:936-940 (MCUPSO) *)
Definition update_velocity_mcu (F : fops) (C : cfg) (p : pso_par) (v x pb gb w lo hi : vec) : prog vec :=
  let* r3 := random_vec (c_dim C) in
  let* r1 := random_vec (c_dim C) in
  let* r2 := random_vec (c_dim C) in
  Done (ps_rep p
    (vadd F (vadd F (vmul F w v) (vmul F (vmul F (vscale F (ps_c1 p) r1) (vsub F pb x)) r3))
            (vmul F (vmul F (vscale F (ps_c2 p) r2) (vsub F gb x)) (map (fsub F (flit F 1 1)) r3))) lo hi).

Definition velocity := vec -> vec -> vec -> vec -> vec -> vec -> vec -> prog vec.

(** one particle, pso.py:250-256.  [nested]: the test against the global best is made only when the
    personal best improved (pso.py:543-546, 1146-1149). *)
Definition pso_particle (F : fops) (uv : velocity) (nested : bool) (w lo hi : vec) (s : swarm) (i : nat) : prog swarm :=
  let* vi := nthP (sw_v s) i in
  let* xi := nthP (sw_pop s) i in
  let* pbi := nthP (sw_pb s) i in
  let* v' := uv vi xi pbi (sw_xb s) w lo hi in
  let* vs := setP (sw_v s) i v' in
  let* x' := repair (vadd F xi v') in
  let* pop := setP (sw_pop s) i x' in
  let* f := eval x' in
  let* fit := setP (sw_fit s) i f in
  let* pf := nthP (sw_pbf s) i in
  let better := fltb f pf in
  let* pb := (if better then setP (sw_pb s) i x' else Done (sw_pb s)) in
  let* pbf := (if better then setP (sw_pbf s) i f else Done (sw_pbf s)) in
  let take := fltb f (sw_fxb s) && (better || negb nested) in
  Done (Swarm pop fit (if take then x' else sw_xb s) (if take then f else sw_fxb s) pb pbf vs).

(** pso.py:249-256 *)
Definition pso_moves (F : fops) (uv : velocity) (nested : bool) (w lo hi : vec) (s : swarm) : prog swarm :=
  for_range (length (sw_pop s)) (pso_particle F uv nested w lo hi) s.

(** the params dictionary of pso.py:155-160, 187 *)
Record pso_state : Type := PState {
  pt_pb : list vec; pt_pbf : list num; pt_w : vec; pt_min : vec; pt_max : vec; pt_v : list vec
}.

(** pso.py:162-188 *)
Definition pso_init (C : cfg) (p : pso_par) : prog (list vec * list num * pso_state) :=
  let* (pop, fit) := default_numpy_init C (ps_n p) in
  Done (pop, fit, PState pop fit (ps_w p) (ps_vmin p) (ps_vmax p) (repeat (repeat f0 (c_dim C)) (ps_n p))).

(** pso.py:212-258 *)
Definition pso_iter (F : fops) (uv : velocity) (pop : list vec) (fit : list num) (xb : vec) (fxb : num) (t : pso_state)
  : prog (list vec * list num * vec * num * pso_state) :=
  let* s := pso_moves F uv false (pt_w t) (pt_min t) (pt_max t) (Swarm pop fit xb fxb (pt_pb t) (pt_pbf t) (pt_v t)) in
  Done (sw_pop s, sw_fit s, sw_xb s, sw_fxb s,
        PState (sw_pb s) (sw_pbf s) (pt_w t) (pt_min t) (pt_max t) (sw_v s)).

(** WVCPSO (pso.py:23-258); PSO (pso.py:261-330) is the case w = 1, velocities unbounded *)
Definition wvcpso (F : fops) (C : cfg) (p : pso_par) : algo :=
  Algo (list vec) pso_state (fun pop => pop) (pso_init C p) (pso_iter F (update_velocity F C p)).
Definition pso_of (F : fops) (C : cfg) (n : nat) (c1 c2 : num) (rep : vec -> vec -> vec -> vec) : pso_par :=
  PSOPar n c1 c2 (repeat f1 (c_dim C)) (repeat NInf (c_dim C)) (repeat PInf (c_dim C)) rep.
Definition pso (F : fops) (C : cfg) (n : nat) (c1 c2 : num) (rep : vec -> vec -> vec -> vec) : algo :=
  wvcpso F C (pso_of F C n c1 c2 rep).

(** ** CenterParticleSwarmOptimization (pso.py:553-651) *)

(** np.sum over the rows (axis 0) of d columns *)
Definition sum_rows (F : fops) (d : nat) (rows : list vec) : vec :=
  match rows with
  | [] => repeat f0 d
  | x :: rest => fold_left (vadd F) rest x
  end.
(** pso.py:647 *)
Definition centroid (F : fops) (d : nat) (rows : list vec) : vec :=
  map (fun a => fdiv F a (fnat F (length rows))) (sum_rows F d rows).
(** pso.py:646-651 *)
Definition cpso_iter (F : fops) (C : cfg) (uv : velocity) (pop : list vec) (fit : list num) (xb : vec) (fxb : num) (t : pso_state)
  : prog (list vec * list num * vec * num * pso_state) :=
  let* (pop1, fit1, xb1, fxb1, t1) := pso_iter F uv pop fit xb fxb t in
  let c := centroid F (c_dim C) pop1 in
  let* fc := eval c in
  Done (if fleb fc fxb1 then (pop1, fit1, c, fc, t1) else (pop1, fit1, xb1, fxb1, t1)).
Definition cpso (F : fops) (C : cfg) (p : pso_par) : algo :=
  Algo (list vec) pso_state (fun pop => pop) (pso_init C p) (cpso_iter F C (update_velocity F C p)).

(** ** The mutated variants (pso.py:654-940) *)

(** np.max of a vector: nan if any component is nan; ValueError on an empty one *)
Definition vmax (x : vec) : outcome num :=
  match x with
  | [] => Raise EValue
  | a :: r => Ret (fold_left (fun m b => match m, b with NaN, _ => NaN | _, NaN => NaN | _, _ => fmaxb m b end) r a)
  end.
(** pso.py:755-757 *)
Definition mean_direction (F : fops) (d : nat) (v : list vec) : prog vec :=
  let va := centroid F d v in
  let* m := lift (vmax (map (fabs F) va)) in
  Done (map (fun a => fdiv F a m) va).
(** pso.py:758-762 *)
Definition mutations (F : fops) (C : cfg) (k : nat) (va : vec) (xb : vec) (fxb : num) : prog (vec * num) :=
  for_range k (fun b _ =>
    let* u := uniform_vec (c_lower C) (c_upper C) in
    let* g := repair (vadd F (fst b) (vmul F va u)) in
    let* fg := eval g in
    Done (if fleb fg (snd b) then (g, fg) else b)) (xb, fxb).
(** pso.py:754-763, 865-874 *)
Definition mutated_iter (F : fops) (C : cfg) (k : nat)
  (base : list vec -> list num -> vec -> num -> pso_state -> prog (list vec * list num * vec * num * pso_state))
  (pop : list vec) (fit : list num) (xb : vec) (fxb : num) (t : pso_state)
  : prog (list vec * list num * vec * num * pso_state) :=
  let* (pop1, fit1, xb1, fxb1, t1) := base pop fit xb fxb t in
  let* va := mean_direction F (c_dim C) (pt_v t1) in
  let* (xb2, fxb2) := mutations F C k va xb1 fxb1 in
  Done (pop1, fit1, xb2, fxb2, t1).
(** MPSO *)
Definition mpso (F : fops) (C : cfg) (p : pso_par) (k : nat) : algo :=
  Algo (list vec) pso_state (fun pop => pop) (pso_init C p) (mutated_iter F C k (pso_iter F (update_velocity F C p))).
(** MCPSO *)
Definition mcpso (F : fops) (C : cfg) (p : pso_par) (k : nat) : algo :=
  Algo (list vec) pso_state (fun pop => pop) (pso_init C p) (mutated_iter F C k (cpso_iter F C (update_velocity F C p))).
(** MCUPSO *)
Definition mcupso (F : fops) (C : cfg) (p : pso_par) (k : nat) : algo :=
  Algo (list vec) pso_state (fun pop => pop) (pso_init C p) (mutated_iter F C k (cpso_iter F C (update_velocity_mcu F C p))).

(** ** OppositionVelocityClampingParticleSwarmOptimization (pso.py:333-550) *)

(** np.argsort: a stable sort by fitness of (row, fitness) pairs; NaN sorts last *)
Definition key_le (a b : num) : bool :=
  match a, b with _, NaN => true | NaN, _ => false | _, _ => fleb a b end.
Fixpoint insert_by (x : vec * num) (xs : list (vec * num)) : list (vec * num) :=
  match xs with
  | [] => [x]
  | y :: r => if key_le (snd x) (snd y) then x :: xs else y :: insert_by x r
  end.
Definition sort_by (xs : list (vec * num)) : list (vec * num) := fold_right insert_by [] xs.

(** pso.py:439-463: the pairs kept (sorted); the best one is the first *)
Definition opposite_learning (F : fops) (C : cfg) (pop : list vec) (fit : list num) : prog (list (vec * num)) :=
  let s := map (fun e => vsub F (vadd F (c_lower C) (c_upper C)) e) pop in
  let* sf := mapM eval s in
  Done (firstn (length pop) (sort_by (combine (pop ++ s) (fit ++ sf)))).

(** pso.py:489-490: personal bests replaced where the new fitness is lower *)
Fixpoint improve (pb : list vec) (pbf : list num) (new : list (vec * num)) : list (vec * num) :=
  match pb, pbf, new with
  | x :: pb', f :: pbf', (y, g) :: new' => (if fltb g f then (y, g) else (x, f)) :: improve pb' pbf' new'
  | _, _, _ => []
  end.

Record ov_par : Type := OVPar {
  ov_pso : pso_par; ov_p0 : num; ov_wmin : num; ov_wmax : num; ov_sigma : num
}.
(** pso.py:465-494; the velocity bounds of line 491 are sigma * (upper - lower) and sigma * (lower - upper) *)
Definition ovcpso_init (F : fops) (C : cfg) (p : ov_par) : prog (list vec * list num * pso_state) :=
  let* (pop, fit, t) := pso_init C (ov_pso p) in
  let* new := opposite_learning F C pop fit in
  let pb := improve (pt_pb t) (pt_pbf t) new in
  Done (map fst new, map snd new,
        PState (map fst pb) (map snd pb) (pt_w t)
          (vscale F (ov_sigma p) (vsub F (c_upper C) (c_lower C)))
          (vscale F (ov_sigma p) (vsub F (c_lower C) (c_upper C))) (pt_v t)).

(** np.min/np.max over the rows *)
Definition npmin2 (a b : num) : num := match a, b with NaN, _ => NaN | _, NaN => NaN | _, _ => fminb a b end.
Definition npmax2 (a b : num) : num := match a, b with NaN, _ => NaN | _, NaN => NaN | _, _ => fmaxb a b end.
Definition rows_fold (f : num -> num -> num) (rows : list vec) : outcome vec :=
  match rows with [] => Raise EValue | x :: r => Ret (fold_left (map2 f) r x) end.

(** pso.py:538: w_max - ((w_max - w_min) / max_iters) * (iters + 1) *)
Definition ov_w (F : fops) (C : cfg) (p : ov_par) (iters : nat) : num :=
  let mi := match c_max_iters C with LInf => PInf | LFin m => fz F m end in
  fsub F (ov_wmax p) (fmul F (fdiv F (fsub F (ov_wmax p) (ov_wmin p)) mi) (fnat F (S iters))).

(** pso.py:496-550 *)
Definition ovcpso_iter (F : fops) (C : cfg) (p : ov_par) (pop : list vec) (fit : list num) (xb : vec) (fxb : num) (t : pso_state)
  : prog (list vec * list num * vec * num * pso_state) :=
  let* r := random in
  if fltb r (ov_p0 p) then
    let* new := opposite_learning F C pop fit in
    let pb := improve (pt_pb t) (pt_pbf t) new in
    let t' := PState (map fst pb) (map snd pb) (pt_w t) (pt_min t) (pt_max t) (pt_v t) in
    match new with
    | [] => Fail EIndex
    | (nb, fnb) :: _ =>
        if fltb fnb fxb then Done (map fst new, map snd new, nb, fnb, t')
        else Done (map fst new, map snd new, xb, fxb, t')
    end
  else
    let* v := view in
    let w := repeat (ov_w F C p (v_iters v)) (c_dim C) in
    let* s := pso_moves F (update_velocity F C (ov_pso p)) true w (pt_min t) (pt_max t)
                (Swarm pop fit xb fxb (pt_pb t) (pt_pbf t) (pt_v t)) in
    let* mn := lift (rows_fold npmin2 (sw_pop s)) in
    let* mx := lift (rows_fold npmax2 (sw_pop s)) in
    Done (sw_pop s, sw_fit s, sw_xb s, sw_fxb s,
          PState (sw_pb s) (sw_pbf s) (pt_w t) (vscale F (ov_sigma p) mn) (vscale F (ov_sigma p) mx) (sw_v s)).
Definition ovcpso (F : fops) (C : cfg) (p : ov_par) : algo :=
  Algo (list vec) pso_state (fun pop => pop) (ovcpso_init F C p) (ovcpso_iter F C p).

(** ** ComprehensiveLearningParticleSwarmOptimizer (pso.py:943-1162) *)
Record cl_par : Type := CLPar { cl_pso : pso_par; cl_m : nat; cl_w0 : num; cl_w1 : num; cl_c : num }.
(** flag counters and learning probabilities (pso.py:1053-1056) *)
Record cl_state : Type := CLState { ct_pso : pso_state; ct_flag : list nat; ct_pc : vec }.

(** pso.py:1055: for population_size = 1 the Python integers 10*(i-1)/0 raise ZeroDivisionError *)
Definition cl_pc (F : fops) (n i : nat) : num :=
  fadd F (flit F 5 100)
    (fdiv F (fmul F (flit F 45 100)
              (fsub F (fexp F (fdiv F (fz F (10 * (Z.of_nat i - 1))) (fz F (Z.of_nat n - 1)))) (flit F 1 1)))
            (fsub F (fexp F (flit F 10 1)) (flit F 1 1))).
(** pso.py:1037-1056 with 162-188; the entry 'w' is missing from init, the fields pt_w are unused *)
Definition clpso_init (F : fops) (C : cfg) (p : cl_par) : prog (list vec * list num * cl_state) :=
  let* (pop, fit, t) := pso_init C (cl_pso p) in
  let n := ps_n (cl_pso p) in
  if n =? 1 then Fail EZeroDiv
  else Done (pop, fit, CLState t (repeat 0 n) (map (cl_pc F n) (seq 0 n))).

(** pso.py:1071-1081; int(random() * len) *)
Definition rand_index (F : fops) (n : nat) : prog nat :=
  let* r := random in Done (Z.to_nat (fint F (fmul F r (fnat F n)))).
Definition cl_exemplar (F : fops) (i : nat) (pc : num) (pb : list vec) (pbf : list num) : prog vec :=
  let* pbi := nthP pb i in
  mapM (fun j =>
    let* r := random in
    if fltb pc r then nthP pbi j
    else
      let* r1 := rand_index F (length pb) in
      let* r2 := rand_index F (length pb) in
      let* f1 := nthP pbf r1 in
      let* f2 := nthP pbf r2 in
      let* row := nthP pb (if fltb f1 f2 then r1 else r2) in
      nthP row j) (seq 0 (length pbi)).
(** pso.py:1099 *)
Definition update_velocity_cl (F : fops) (C : cfg) (p : cl_par) (v x pb : vec) (w : num) (lo hi : vec) : prog vec :=
  let* r := random_vec (c_dim C) in
  Done (ps_rep (cl_pso p) (vadd F (vscale F w v) (vmul F (vscale F (cl_c p) r) (vsub F pb x))) lo hi).
(** task.is_feasible (Task.v); None: numpy's broadcasting error *)
Definition feasible (C : cfg) (x : vec) : prog bool :=
  match is_feasible C x with Some b => Done b | None => Fail EValue end.

(** pso.py:1142-1159, one particle; the swarm and the flags.  The flags are only ever set to 0. *)
Definition clpso_particle (F : fops) (C : cfg) (p : cl_par) (w : num) (pc : vec) (lo hi : vec)
  (sf : swarm * list nat) (i : nat) : prog (swarm * list nat) :=
  let (s, flag) := sf in
  let* fl := nthP flag i in
  let* (s1, flag1) :=
    (if cl_m p <=? fl then
       let* s1 := pso_particle F (update_velocity F C (cl_pso p)) true (repeat f1 (c_dim C)) lo hi s i in
       let* flag1 := setP flag i 0 in
       Done (s1, flag1)
     else Done (s, flag)) in
  let* pci := nthP pc i in
  let* ex := cl_exemplar F i pci (sw_pb s1) (sw_pbf s1) in
  let* vi := nthP (sw_v s1) i in
  let* xi := nthP (sw_pop s1) i in
  let* v' := update_velocity_cl F C p vi xi ex w lo hi in
  let* vs := setP (sw_v s1) i v' in
  let x' := vadd F xi v' in
  let* pop := setP (sw_pop s1) i x' in
  let* ok := feasible C x' in
  if ok : bool then
    let* f := eval x' in
    let* fit := setP (sw_fit s1) i f in
    let* pf := nthP (sw_pbf s1) i in
    if fltb f pf then
      let* pb := setP (sw_pb s1) i x' in
      let* pbf := setP (sw_pbf s1) i f in
      let take := fltb f (sw_fxb s1) in
      Done (Swarm pop fit (if take then x' else sw_xb s1) (if take then f else sw_fxb s1) pb pbf vs, flag1)
    else Done (Swarm pop fit (sw_xb s1) (sw_fxb s1) (sw_pb s1) (sw_pbf s1) vs, flag1)
  else Done (Swarm pop (sw_fit s1) (sw_xb s1) (sw_fxb s1) (sw_pb s1) (sw_pbf s1) vs, flag1).

(** pso.py:1140: w0 * (w0 - w1) * (iters + 1) / max_iters *)
Definition cl_w (F : fops) (C : cfg) (p : cl_par) (iters : nat) : num :=
  let mi := match c_max_iters C with LInf => PInf | LFin m => fz F m end in
  fdiv F (fmul F (fmul F (cl_w0 p) (fsub F (cl_w0 p) (cl_w1 p))) (fnat F (S iters))) mi.
(** pso.py:1101-1162 *)
Definition clpso_iter (F : fops) (C : cfg) (p : cl_par) (pop : list vec) (fit : list num) (xb : vec) (fxb : num) (t : cl_state)
  : prog (list vec * list num * vec * num * cl_state) :=
  let* v := view in
  let ps := ct_pso t in
  let* (s, flag) :=
    for_range (length pop) (clpso_particle F C p (cl_w F C p (v_iters v)) (ct_pc t) (pt_min ps) (pt_max ps))
      (Swarm pop fit xb fxb (pt_pb ps) (pt_pbf ps) (pt_v ps), ct_flag t) in
  Done (sw_pop s, sw_fit s, sw_xb s, sw_fxb s,
        CLState (PState (sw_pb s) (sw_pbf s) (pt_w ps) (pt_min ps) (pt_max ps) (sw_v s)) flag (ct_pc t)).
Definition clpso (F : fops) (C : cfg) (p : cl_par) : algo :=
  Algo (list vec) cl_state (fun pop => pop) (clpso_init F C p) (clpso_iter F C p).
