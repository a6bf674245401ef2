(** Model of /repo/src/niapy/algorithms/basic/ca.py (CamelAlgorithm). *)
From Coq Require Import ZArith Lia Bool List.
From Verif Require Import Num Task Prog GetBest Run AlgoLib Fops Indiv AlgPSO AlgBasic.
Import ListNotations.

(** ca.py:192-266, the parameters *)
Record ca_par : Type := CAPar {
  ca_n : nat;                            (* population_size *)
  ca_burden : num; ca_death : num; ca_vis : num;
  ca_s : num; ca_e : num;                (* supply_init, endurance_init *)
  ca_tmin : num; ca_tmax : num
}.
(** a Camel (ca.py:17-62): the coordinates and the fitness with their previous values, endurance and supply with theirs,
    and the age.  The attribute temperature is only used in the step that sets it. *)
Record camel : Type := Camel {
  cm_x : vec; cm_f : num; cm_xp : vec; cm_fp : num;
  cm_e : num; cm_ep : num; cm_s : num; cm_sp : num; cm_age : nat
}.
(** ca.py:43-62: what the constructor makes of an evaluated individual *)
Definition camel_of (p : ca_par) (i : ind) : camel :=
  Camel (fst i) (snd i) (fst i) (snd i) (ca_e p) (ca_e p) (ca_s p) (ca_s p) 0.
(** [Camel(endurance_init, supply_init, rng=rng, task=task)]: e is True by default (algorithm.py:353), so the camel is
    repaired and evaluated *)
Definition new_camel (C : cfg) (p : ca_par) : prog camel :=
  let* i := rand_ind C in Done (camel_of p i).
(** division of Python floats *)
Definition py_div (F : fops) (a b : num) : prog num := if feqb b f0 then Fail EZeroDiv else Done (fdiv F a b).
(** ca.py:75-83 [next_supply] *)
Definition next_supply (F : fops) (C : cfg) (p : ca_par) (c : camel) : num :=
  fmul F (cm_sp c) (fsub F (flit F 1 1) (fdiv F (fmul F (ca_burden p) (fnat F (cm_age c))) (flim F (c_max_iters C)))).
(** ca.py:85-93 [next_endurance]; h is temperature / max_temperature *)
Definition next_endurance (F : fops) (C : cfg) (c : camel) (h : num) : num :=
  fmul F (fmul F (cm_ep c) (fsub F (flit F 1 1) h)) (fsub F (flit F 1 1) (fdiv F (fnat F (cm_age c)) (flim F (c_max_iters C)))).
(** ca.py:108-111, the new position; qe and qs are endurance / endurance_init and supply / supply_init *)
Definition next_pos (F : fops) (x cb : vec) (delta qe qs : num) : vec :=
  vadd F x (vscale F (fmul F (fmul F delta (fsub F (flit F 1 1) qe)) (fexp F (fsub F (flit F 1 1) qs))) (vsub F cb x)).
(** ca.py:288-304 [walk] with 64-115.  max_iters is positive in an iteration, so that only the three other divisions can
    have a zero divisor. *)
Definition ca_walk (F : fops) (C : cfg) (p : ca_par) (cb : vec) (c : camel) : prog camel :=
  let* t := uniform (ca_tmin p) (ca_tmax p) in
  let s := next_supply F C p c in
  let* h := py_div F t (ca_tmax p) in
  let e := next_endurance F C c h in
  let* delta := uniform (flit F (-1) 1) (flit F 1 1) in
  let* qe := py_div F e (ca_e p) in
  let* qs := py_div F s (ca_s p) in
  let x := next_pos F (cm_xp c) cb delta qe qs in
  let* ok := feasible C x in
  if ok : bool then
    let* f := eval x in Done (Camel x f (cm_xp c) (cm_fp c) e (cm_ep c) s (cm_sp c) (cm_age c))
  else Done (Camel (cm_xp c) (cm_f c) (cm_xp c) (cm_fp c) e (cm_ep c) s (cm_sp c) (cm_age c)).
(** ca.py:306-318 [oasis] with 126-135 [refill] *)
Definition ca_oasis (F : fops) (p : ca_par) (c : camel) : prog camel :=
  let* r := random in
  Done (if fltb (fsub F (flit F 1 1) (ca_vis p)) r && fltb (cm_f c) (cm_fp c)
        then Camel (cm_x c) (cm_f c) (cm_xp c) (cm_fp c) (ca_e p) (cm_ep c) (ca_s p) (cm_sp c) (cm_age c) else c).
(** ca.py:117-124 [next] *)
Definition ca_next (c : camel) : camel :=
  Camel (cm_x c) (cm_f c) (cm_x c) (cm_f c) (cm_e c) (cm_e c) (cm_s c) (cm_s c) (S (cm_age c)).
(** ca.py:320-334 [life_cycle] *)
Definition ca_life (F : fops) (C : cfg) (p : ca_par) (c : camel) : prog camel :=
  if fltb (cm_fp c) (fmul F (ca_death p) (cm_f c)) then new_camel C p else Done (ca_next c).
(** ca.py:336-361 *)
Definition ca_iter (F : fops) (C : cfg) (p : ca_par) (pop : list camel) (fit : list num) (xb : vec) (fxb : num) (_ : unit)
  : prog (list camel * list num * vec * num * unit) :=
  let* c1 := mapM (ca_walk F C p xb) pop in
  let* c2 := mapM (ca_oasis F p) c1 in
  let* c3 := mapM (ca_life F C p) c2 in
  let* (xb', fxb') := lift (get_best (map cm_x c3) (map cm_f c3) (Some xb) fxb) in
  Done (c3, map cm_f c3, xb', fxb', tt).
(** ca.py:268-286 [init_pop] *)
Definition ca_init (C : cfg) (p : ca_par) : prog (list camel * list num * unit) :=
  let* pop := repeatM (ca_n p) (new_camel C p) in Done (pop, map cm_f pop, tt).
Definition ca (F : fops) (C : cfg) (p : ca_par) : algo :=
  Algo (list camel) unit (map cm_x) (ca_init C p) (ca_iter F C p).
