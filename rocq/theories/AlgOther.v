(** Model of /repo/src/niapy/algorithms/other/{rs,hc,sa,nmm}.py.
    RandomSearch, HillClimbAlgorithm and SimulatedAnnealing keep one point and its fitness (a float): here a list of one
    row and a list of one value, on which [get_best] (algorithm.py:223-244) does what [get_best1] does. *)
From Coq Require Import ZArith Lia Bool List.
From Verif Require Import Num Task Prog GetBest Run AlgoLib Fops Indiv AlgPSO AlgSwarm AlgBasic.
Import ListNotations.

(** task.range (task.py:92) *)
Definition t_range (F : fops) (C : cfg) : vec := vsub F (c_upper C) (c_lower C).
(** task.lower + task.range * self.random(task.dimension) *)
Definition sample (F : fops) (C : cfg) : prog vec :=
  let* u := random_vec (c_dim C) in Done (vadd F (c_lower C) (vmul F (t_range F C) u)).

(** ** RandomSearch (rs.py:15-139) *)
(** rs.py:97-102; [None]: no limit *)
Definition rs_total (C : cfg) : nat :=
  match c_max_iters C with
  | LFin k => Z.to_nat k
  | LInf => match c_max_evals C with LFin k => Z.to_nat k | LInf => 0 end
  end.
(** rs.py:106-110; [fuel] bounds the number of rejected draws *)
Fixpoint rs_draw (F : fops) (C : cfg) (fuel : nat) (cands : list vec) : prog vec :=
  match fuel with
  | O => Fail EFuel
  | S k => let* x := sample F C in
      if existsb (fun a => array_equal a x) cands then rs_draw F C k cands else Done x
  end.
(** rs.py:103-110 *)
Definition rs_candidates (F : fops) (C : cfg) (fuel : nat) : prog (list vec) :=
  for_range (rs_total C) (fun cands _ => let* x := rs_draw F C fuel cands in Done (cands ++ [x])) [].
(** rs.py:85-113: the fitness is that of the first candidate, the point is the last one drawn; the attribute self.candidates is
    the parameter here *)
Definition rs_init (F : fops) (C : cfg) (fuel : nat) : prog (list vec * list num * list vec) :=
  let* cands := rs_candidates F C fuel in
  let* c0 := nthP cands 0 in
  let* f := eval c0 in
  Done ([last cands []], [f], cands).
(** rs.py:115-139 *)
Definition rs_index (C : cfg) (v : tview) : nat := match c_max_iters C with LFin _ => v_iters v | LInf => v_evals v end.
Definition rs_body (C : cfg) (v : tview) (pop : list vec) (fit : list num) (xb : vec) (fxb : num) (cands : list vec)
  : prog (list vec * list num * vec * num * list vec) :=
  let* x := nthP cands (rs_index C v) in
  let* f := eval x in
  let* (xb', fxb') := lift (get_best1 x f (Some xb) fxb) in
  Done ([x], [f], xb', fxb', cands).
Definition rs_iter (C : cfg) (pop : list vec) (fit : list num) (xb : vec) (fxb : num) (cands : list vec)
  : prog (list vec * list num * vec * num * list vec) := let* v := view in rs_body C v pop fit xb fxb cands.
Definition rs (F : fops) (C : cfg) (fuel : nat) : algo :=
  Algo (list vec) (list vec) (fun pop => pop) (rs_init F C fuel) (rs_iter C).

(** ** HillClimbAlgorithm (hc.py:13-155) with the default neighborhood function *)
(** hc.py:13-31; the normal draws are arbitrary numbers *)
Definition hc_neighbor (F : fops) (C : cfg) (x : vec) : prog (vec * num) :=
  let* z := rnd_f_vec (c_dim C) in
  let* y := repair (vadd F x z) in
  let* f := eval y in
  Done (y, f).
(** hc.py:148-153; [fuel] bounds the number of improvements in one iteration *)
Fixpoint hc_climb (F : fops) (C : cfg) (fuel : nat) (x xn : vec) (fn : num) : prog (vec * num) :=
  match fuel with
  | O => Fail EFuel
  | S k => let* (y, f) := hc_neighbor F C x in
      if fltb f fn then hc_climb F C k x y f else Done (xn, fn)
  end.
(** hc.py:112-126 *)
Definition hc_init (F : fops) (C : cfg) : prog (list vec * list num * unit) :=
  let* u := random_vec (c_dim C) in
  let x := vadd F (c_lower C) (vmul F u (t_range F C)) in
  let* f := eval x in
  Done ([x], [f], tt).
(** hc.py:128-155 *)
Definition hc_iter (F : fops) (C : cfg) (fuel : nat) (pop : list vec) (fit : list num) (xb : vec) (fxb : num) (t : unit)
  : prog (list vec * list num * vec * num * unit) :=
  let* x := nthP pop 0 in
  let* xn := sample F C in
  let* fn := eval xn in
  let* (y, f) := hc_climb F C fuel x xn fn in
  let* (xb', fxb') := lift (get_best1 y f (Some xb) fxb) in
  Done ([y], [f], xb', fxb', t).
Definition hc (F : fops) (C : cfg) (fuel : nat) : algo :=
  Algo (list vec) unit (fun pop => pop) (hc_init F C) (hc_iter F C fuel).

(** ** SimulatedAnnealing (sa.py:15-204) *)
Inductive cooling : Type := CoolDelta | CoolLinear.
Record sa_par : Type := SAPar { sa_delta : num; sa_t0 : num; sa_dt : num; sa_cool : cooling }.
(** sa.py:15-26 and 29-42 *)
Definition cool (F : fops) (C : cfg) (p : sa_par) (t : num) : num :=
  match sa_cool p with
  | CoolDelta => fsub F t (sa_dt p)
  | CoolLinear => fsub F t (fdiv F (sa_t0 p) (flim F (c_max_evals C)))
  end.
(** sa.py:158-173 *)
Definition sa_init (F : fops) (C : cfg) (p : sa_par) : prog (list vec * list num * num) :=
  let* x := sample F C in
  let* f := eval x in
  Done ([x], [f], sa_t0 p).
(** sa.py:198-199 *)
Definition sa_accept (F : fops) (t fx fc r : num) : bool :=
  let d := fsub F fc fx in
  fltb d f0 || fltb r (fexp F (fdiv F d t)).
(** sa.py:175-204 *)
Definition sa_iter (F : fops) (C : cfg) (p : sa_par) (pop : list vec) (fit : list num) (xb : vec) (fxb : num) (t : num)
  : prog (list vec * list num * vec * num * num) :=
  let* x := nthP pop 0 in
  let* fx := nthP fit 0 in
  let* u := random_vec (c_dim C) in
  let* c := repair (vadd F (map (fun a => fsub F a (fdiv F (sa_delta p) (flit F 2 1))) x) (vscaler F u (sa_delta p))) in
  let* fc := eval c in
  let* r := random in
  let '(y, f) := if sa_accept F t fx fc r then (c, fc) else (x, fx) in
  let* (xb', fxb') := lift (get_best1 y f (Some xb) fxb) in
  Done ([y], [f], xb', fxb', cool F C p t).
Definition sa (F : fops) (C : cfg) (p : sa_par) : algo :=
  Algo (list vec) num (fun pop => pop) (sa_init F C p) (sa_iter F C p).

(** ** NelderMeadMethod (nmm.py:15-190) *)
Record nm_par : Type := NMPar { nm_n : option nat; nm_alpha : num; nm_gamma : num; nm_rho : num; nm_sigma : num }.
(** nmm.py:123 *)
Definition nm_size (C : cfg) (p : nm_par) : nat :=
  match nm_n p with None => c_dim C | Some n => if n <? c_dim C then c_dim C else n end.
(** nmm.py:110-126 *)
Definition nm_init (C : cfg) (p : nm_par) : prog (list vec * list num * unit) := plain_init C (nm_size C p).
(** x0 + c * (x0 - x), nmm.py:143, 149, 156 *)
Definition nm_point (F : fops) (c : num) (x0 x : vec) : vec := vadd F x0 (vscale F c (vsub F x0 x)).
(** nmm.py:142 *)
Definition nm_center (F : fops) (C : cfg) (pop : list vec) : vec :=
  map (fun a => fdiv F a (fsub F (fnat F (length pop)) (flit F 1 1)))
    (fold_left (vadd F) (firstn (length pop - 1) pop) (repeat (flit F 0 1) (c_dim C))).
(** nmm.py:161 *)
Definition nm_shrink (F : fops) (s : num) (p0 x : vec) : vec := vadd F p0 (vscale F s (vsub F x p0)).
(** nmm.py:128-164 *)
Definition nm_method (F : fops) (C : cfg) (p : nm_par) (pop : list vec) (fit : list num) : prog (list vec * list num) :=
  let k := length pop - 1 in
  let x0 := nm_center F C pop in
  let* xl := nthP pop k in
  let xr := nm_point F (nm_alpha p) x0 xl in
  let* rs := eval xr in
  let* f0' := nthP fit 0 in
  let* b := (if fleb rs f0' then let* g := nthZ fit (-2) in Done (fltb rs g) else Done false) in
  if b then Done (upd pop k xr, upd fit k rs)
  else if fltb rs f0' then
    let xe := nm_point F (nm_gamma p) x0 xl in
    let* re := eval xe in
    if fltb re rs then Done (upd pop k xe, upd fit k re) else Done (upd pop k xr, upd fit k rs)
  else
    let xc := nm_point F (nm_rho p) x0 xl in
    let* rc := eval xc in
    let* fl := nthP fit k in
    if fltb rc fl then Done (upd pop k xc, upd fit k rc)
    else
      let* p0 := nthP pop 0 in
      let new := map (nm_shrink F (nm_sigma p) p0) (tl pop) in
      let* nf := eval_all new in
      Done (p0 :: new, f0' :: nf).
(** nmm.py:166-190; argsort as in AlgPSO.v (stable) *)
Definition nm_iter (F : fops) (C : cfg) (p : nm_par) (pop : list vec) (fit : list num) (xb : vec) (fxb : num) (t : unit)
  : prog (list vec * list num * vec * num * unit) :=
  let s := sort_by (combine pop fit) in
  let* (pop', fit') := nm_method F C p (map fst s) (map snd s) in
  let* (xb', fxb') := lift (get_best pop' fit' (Some xb) fxb) in
  Done (pop', fit', xb', fxb', t).
Definition nm (F : fops) (C : cfg) (p : nm_par) : algo :=
  Algo (list vec) unit (fun pop => pop) (nm_init C p) (nm_iter F C p).
