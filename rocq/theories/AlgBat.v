(** Model of the bat algorithms: /repo/src/niapy/algorithms/basic/ba.py and
    /repo/src/niapy/algorithms/modified/{saba,hba,hsaba,plba}.py. *)
From Coq Require Import ZArith Lia Bool List.
From Verif Require Import Num Task Prog GetBest Run AlgoLib Fops AlgDE.
Import ListNotations.

(** the local variables of run_iteration; [b_t] holds what differs between the algorithms
    (loudness, pulse rates) *)
Record bats (T : Type) : Type := Bats {
  b_pop : list vec; b_fit : list num; b_xb : vec; b_fxb : num; b_v : list vec; b_t : T
}.
Arguments Bats {T} _ _ _ _ _ _. Arguments b_pop {T} _. Arguments b_fit {T} _. Arguments b_xb {T} _.
Arguments b_fxb {T} _. Arguments b_v {T} _. Arguments b_t {T} _.

(** One bat.  ba.py:195-205, saba.py:204-214, saba.py:382-393, plba.py:133-143 are instances:
    [adapt] is saba.py:382; [freq] the frequency; [local t i u] the test that chooses local search for
    the draw u; [accept t i u] the second half of the acceptance test (the draw is made only when the
    first half holds); [upd] what a new best does to [b_t] (saba.py:214). *)
Definition bat_step {T} (F : fops) (adapt : T -> nat -> prog T) (freq : prog num)
  (local : T -> nat -> num -> prog bool) (ls : list vec -> vec -> T -> nat -> prog vec)
  (accept : T -> nat -> num -> prog bool) (upd : T -> nat -> prog T) (s : bats T) (i : nat) : prog (bats T) :=
  let* t := adapt (b_t s) i in
  let* fr := freq in
  let* xi := nthP (b_pop s) i in
  let* vi := nthP (b_v s) i in
  let v' := vadd F vi (vscaler F (vsub F xi (b_xb s)) fr) in
  let* vs := setP (b_v s) i v' in
  let* u := random in
  let* loc := local t i u in
  let* y := (if loc : bool then ls (b_pop s) (b_xb s) t i else repair (vadd F xi v')) in
  let* f := eval y in
  let* fi := nthP (b_fit s) i in
  let* acc := (if fleb f fi then let* u' := random in accept t i u' else Done false) in
  let* pop := (if acc : bool then setP (b_pop s) i y else Done (b_pop s)) in
  let* fit := (if acc : bool then setP (b_fit s) i f else Done (b_fit s)) in
  if fleb f (b_fxb s)
  then let* t' := upd t i in Done (Bats pop fit y f vs t')
  else Done (Bats pop fit (b_xb s) (b_fxb s) vs t).

(** the initial population with zero velocities (ba.py:148-151, saba.py:147-151, plba.py:91-94) *)
Definition bat_init {T} (C : cfg) (n : nat) (t : T) : prog (list vec * list num * (list vec * T)) :=
  let* (pop, fit) := default_numpy_init C n in
  Done (pop, fit, (repeat (repeat f0 (c_dim C)) n, t)).

(** the loop over the bats *)
Definition bat_iter {T} (n : nat) (step : bats T -> nat -> prog (bats T))
  (pop : list vec) (fit : list num) (xb : vec) (fxb : num) (par : list vec * T)
  : prog (list vec * list num * vec * num * (list vec * T)) :=
  let* s := for_range n step (Bats pop fit xb fxb (fst par) (snd par)) in
  Done (b_pop s, b_fit s, b_xb s, b_fxb s, (b_v s, b_t s)).

(** ** BatAlgorithm (ba.py:16-206) *)
Record ba_par : Type := BAPar {
  ba_n : nat; ba_loud : num; ba_pulse : num; ba_alpha : num; ba_gamma : num; ba_fmin : num; ba_fmax : num
}.
(** ba.py:195 and saba.py:204, 383 *)
Definition frequency (F : fops) (fmin fmax : num) : prog num :=
  let* r := random in Done (fadd F fmin (fmul F (fsub F fmax fmin) r)).
(** ba.py:153-165; task.repair is called without rng *)
Definition ba_local (F : fops) (C : cfg) (pop : list vec) (best : vec) (loud : num) (i : nat) : prog vec :=
  let* z := rnd_f_vec (c_dim C) in
  repair (vadd F best (vscaler F (vscale F (flit F 1 10) z) loud)).
(** ba.py:192 *)
Definition ba_rate (F : fops) (p : ba_par) (iters : nat) : num :=
  fmul F (ba_pulse p) (fsub F (flit F 1 1) (fexp F (fmul F (fneg (ba_gamma p)) (fnat F iters)))).
(** ba.py:167-206; [ls] is self.local_search *)
Definition ba_iter (F : fops) (p : ba_par) (ls : list vec -> vec -> num -> nat -> prog vec)
  (pop : list vec) (fit : list num) (xb : vec) (fxb : num) (par : list vec * num)
  : prog (list vec * list num * vec * num * (list vec * num)) :=
  let* v := view in
  let loud := fmul F (snd par) (ba_alpha p) in
  let rate := ba_rate F p (v_iters v) in
  bat_iter (ba_n p)
    (bat_step F (fun t _ => Done t) (frequency F (ba_fmin p) (ba_fmax p)) (fun _ _ u => Done (fltb u rate))
       ls (fun t _ u => Done (fltb t u)) (fun t _ => Done t))
    pop fit xb fxb (fst par, loud).
Definition ba_with (F : fops) (C : cfg) (p : ba_par) (ls : list vec -> vec -> num -> nat -> prog vec) : algo :=
  Algo (list vec) (list vec * num) (fun pop => pop) (bat_init C (ba_n p) (ba_loud p)) (ba_iter F p ls).
Definition ba (F : fops) (C : cfg) (p : ba_par) : algo := ba_with F C p (ba_local F C).

(** ** HybridBatAlgorithm (hba.py:14-119): local search by a DE strategy.
    hba.py:119 passes the best as the sixth positional argument: the strategies that have no
    parameter x_b raise TypeError (de.py:20, 91, 162). *)
Definition uses_best_b (s : strategy) : bool := match s with Best1 | Best2 | Curr2Best1 => true | _ => false end.
Definition hba_local (F : fops) (s : strategy) (w cr : num) (pop : list vec) (best : vec) (loud : num) (i : nat) : prog vec :=
  if uses_best_b s then let* x := cross F s pop i w cr best in repair x else Fail EType.
Definition hba (F : fops) (C : cfg) (p : ba_par) (s : strategy) (w cr : num) : algo :=
  ba_with F C p (hba_local F s w cr).

(** ** AdaptiveBatAlgorithm (saba.py:15-215) *)
Record aba_par : Type := ABAPar {
  aba_n : nat; aba_loud : num; aba_eps : num; aba_alpha : num; aba_pulse : num; aba_fmin : num; aba_fmax : num
}.
(** saba.py:153-165 *)
Definition aba_local (F : fops) (C : cfg) (eps : num) (best : vec) (loud : num) : prog vec :=
  let* z := rnd_f_vec (c_dim C) in
  repair (vadd F best (vscale F (fmul F eps loud) z)).
(** saba.py:167-178 *)
Definition aba_update (F : fops) (p : aba_par) (loud : num) : num :=
  let l' := fmul F loud (aba_alpha p) in
  if fltb (flit F 1 10000000000000) l' then l' else aba_loud p.
(** saba.py:180-215 *)
Definition aba_iter (F : fops) (C : cfg) (p : aba_par) :=
  bat_iter (aba_n p)
    (bat_step F (fun t _ => Done t) (frequency F (aba_fmin p) (aba_fmax p)) (fun _ _ u => Done (fltb (aba_pulse p) u))
       (fun _ best t i => let* a := nthP t i in aba_local F C (aba_eps p) best a)
       (fun t i u => let* a := nthP t i in Done (fltb u a))
       (fun t i => let* a := nthP t i in setP t i (aba_update F p a))).
Definition aba (F : fops) (C : cfg) (p : aba_par) : algo :=
  Algo (list vec) (list vec * list num) (fun pop => pop) (bat_init C (aba_n p) (repeat (aba_loud p) (aba_n p))) (aba_iter F C p).

(** ** SelfAdaptiveBatAlgorithm (saba.py:218-394) *)
Record saba_par : Type := SABAPar {
  sb_aba : aba_par; sb_lmin : num; sb_lmax : num; sb_rmin : num; sb_rmax : num; sb_tao1 : num; sb_tao2 : num
}.
(** one half of saba.py:352-354: the condition is evaluated before the value *)
Definition self_adapt1 (F : fops) (tao lo hi old : num) : prog num :=
  let* c := random in
  if fltb c tao then let* r := random in Done (fadd F lo (fmul F r (fsub F hi lo))) else Done old.
(** saba.py:339-354, 382; the pair is (loudness, pulse_rates) *)
Definition self_adapt (F : fops) (p : saba_par) (t : list num * list num) (i : nat) : prog (list num * list num) :=
  let* a := nthP (fst t) i in
  let* r := nthP (snd t) i in
  let* a' := self_adapt1 F (sb_tao1 p) (sb_lmin p) (sb_lmax p) a in
  let* r' := self_adapt1 F (sb_tao2 p) (sb_rmin p) (sb_rmax p) r in
  let* la := setP (fst t) i a' in
  let* lr := setP (snd t) i r' in
  Done (la, lr).
(** saba.py:356-394 *)
Definition saba_iter (F : fops) (p : saba_par) (ls : list vec -> vec -> num -> nat -> prog vec) :=
  let q := sb_aba p in
  bat_iter (aba_n q)
    (bat_step F (self_adapt F p) (frequency F (aba_fmin q) (aba_fmax q))
       (fun t i u => let* r := nthP (snd t) i in Done (fltb r u))
       (fun pop best t i => let* a := nthP (fst t) i in ls pop best a i)
       (fun t i u => let* a := nthP (fst t) i in Done (fltb u (fdiv F (fsub F (sb_lmin p) a) (aba_loud q))))
       (fun t _ => Done t)).
Definition saba_with (F : fops) (C : cfg) (p : saba_par) (ls : list vec -> vec -> num -> nat -> prog vec) : algo :=
  let q := sb_aba p in
  Algo (list vec) (list vec * (list num * list num)) (fun pop => pop)
    (bat_init C (aba_n q) (repeat (aba_loud q) (aba_n q), repeat (aba_pulse q) (aba_n q))) (saba_iter F p ls).
Definition saba (F : fops) (C : cfg) (p : saba_par) : algo :=
  saba_with F C p (fun _ best a _ => aba_local F C (aba_eps (sb_aba p)) best a).
(** ** HybridSelfAdaptiveBatAlgorithm (hsaba.py:14-126) *)
Definition hsaba (F : fops) (C : cfg) (p : saba_par) (s : strategy) (w cr : num) : algo :=
  saba_with F C p (fun pop best _ i => let* x := cross F s pop i w cr best in repair x).

(** ** ParameterFreeBatAlgorithm (plba.py:15-144): 80 bats, loudness 0.9, pulse rate 0.1.
    [n] stands for the 80 of plba.py:59; task.repair is called without rng in local_search. *)
(** plba.py:133 *)
Definition plba_freq (F : fops) (C : cfg) (n : nat) : prog num :=
  let* u := nthP (c_upper C) 0 in
  let* l := nthP (c_lower C) 0 in
  let* z := rnd_f in
  Done (fmul F (fdiv F (fsub F u l) (fnat F n)) z).
(** plba.py:96-107 *)
Definition plba_local (F : fops) (C : cfg) (best : vec) : prog vec :=
  let* z := rnd_f_vec (c_dim C) in repair (vadd F best (vscale F (flit F 1 1000) z)).
(** plba.py:109-144 *)
Definition plba_iter (F : fops) (C : cfg) (n : nat) :=
  bat_iter (T := unit) n
    (bat_step F (fun t _ => Done t) (plba_freq F C n) (fun _ _ u => Done (fltb (flit F 1 10) u))
       (fun _ best _ _ => plba_local F C best) (fun _ _ u => Done (fltb u (flit F 9 10))) (fun t _ => Done t)).
Definition plba (F : fops) (C : cfg) (n : nat) : algo :=
  Algo (list vec) (list vec * unit) (fun pop => pop) (bat_init C n tt) (plba_iter F C n).
