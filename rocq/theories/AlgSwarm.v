(** Model of /repo/src/niapy/algorithms/basic/{fa,cs,fpa}.py and /repo/src/niapy/util/random.py. *)
From Coq Require Import ZArith Lia Bool List.
From Verif Require Import Num Task Prog GetBest Run AlgoLib Fops Indiv.
Import ListNotations.

(** n rows of d draws *)
Definition random_mat (n d : nat) : prog (list vec) := repeatM n (random_vec d).
Definition rnd_f_mat (n d : nat) : prog (list vec) := repeatM n (rnd_f_vec d).

(** util/random.py:24 on one pair of draws, with the default alpha = 0.01 and beta = 1.5 *)
Definition levy1 (F : fops) (u v : num) : num :=
  fdiv F (fmul F (flit F 1 100) u) (fpow F (fabs F v) (fdiv F (flit F 1 1) (flit F 3 2))).
(** util/random.py:8-25 for a vector and for a matrix: first all u = normal(0, sigma), then all
    v = normal(0, 1) *)
Definition levy_vec (F : fops) (d : nat) : prog vec :=
  let* u := rnd_f_vec d in let* v := rnd_f_vec d in Done (map2 (levy1 F) u v).
Definition levy_mat (F : fops) (n d : nat) : prog (list vec) :=
  let* u := rnd_f_mat n d in let* v := rnd_f_mat n d in Done (map2 (map2 (levy1 F)) u v).

(** ** FireflyAlgorithm (fa.py:16-175) *)
Record fa_par : Type := FAPar { fa_n : nat; fa_alpha : num; fa_beta0 : num; fa_gamma : num; fa_theta : num }.
(** fa.py:167-170: firefly xi moves towards xj *)
Definition fa_move (F : fops) (C : cfg) (p : fa_par) (alpha : num) (xi xj : vec) : prog vec :=
  let r := euclidean F xi xj in
  let beta := fmul F (fa_beta0 p) (fexp F (fmul F (fneg (fa_gamma p)) (fpow F r (flit F 2 1)))) in
  let* u := random_vec (c_dim C) in
  let steps := vmul F (vscale F alpha (map (fun a => fsub F a (flit F 1 2)) u)) (vsub F (c_upper C) (c_lower C)) in
  Done (vadd F xi (vadd F (vscale F beta (vsub F xj xi)) steps)).
(** fa.py:166-173 *)
Definition fa_pair (F : fops) (C : cfg) (p : fa_par) (alpha : num) (i : nat) (s : list vec * list num * vec * num) (j : nat)
  : prog (list vec * list num * vec * num) :=
  let '(pop, fit, xb, fxb) := s in
  let* fi := nthP fit i in
  let* fj := nthP fit j in
  if fleb fj fi then
    let* xi := nthP pop i in
    let* xj := nthP pop j in
    let* y := fa_move F C p alpha xi xj in
    let* x' := repair y in
    let* pop' := setP pop i x' in
    let* f := eval x' in
    let* fit' := setP fit i f in
    let* (xb', fxb') := lift (get_best pop' fit' (Some xb) fxb) in
    Done (pop', fit', xb', fxb')
  else Done s.
(** fa.py:138-175 *)
Definition fa_iter (F : fops) (C : cfg) (p : fa_par) (pop : list vec) (fit : list num) (xb : vec) (fxb : num) (alpha : num)
  : prog (list vec * list num * vec * num * num) :=
  let alpha' := fmul F alpha (fa_theta p) in
  let* (pop', fit', xb', fxb') :=
    for_range (fa_n p) (fun s i => for_range (fa_n p) (fa_pair F C p alpha' i) s) (pop, fit, xb, fxb) in
  Done (pop', fit', xb', fxb', alpha').
(** fa.py:118-136 *)
Definition fa_init (C : cfg) (p : fa_par) : prog (list vec * list num * num) :=
  let* (pop, fit) := default_numpy_init C (fa_n p) in Done (pop, fit, fa_alpha p).
Definition fa (F : fops) (C : cfg) (p : fa_par) : algo :=
  Algo (list vec) num (fun pop => pop) (fa_init C p) (fa_iter F C p).

(** ** CuckooSearch (cs.py:17-144) *)

(** cs.py:99 and 106 call task.repair on the whole matrix.  util/repair.py [limit] clips a matrix row by
    row; the other functions index the one-dimensional bounds with the two index arrays that np.where
    gives for a matrix (e.g. repair.py:34-35), which raises IndexError.  [mat] says whether the
    repair function accepts a matrix. *)
Definition repair_matrix (mat : bool) (rows : list vec) : prog (list vec) :=
  if mat then mapM repair rows else Fail EIndex.
(** cs.py:96-99 *)
Definition get_cuckoos (F : fops) (C : cfg) (pop : list vec) (xb : vec) : prog (list vec) :=
  let n := length pop in
  let* lv := levy_mat F n (c_dim C) in
  let* z := rnd_f_mat n (c_dim C) in
  let step := map2 (vmul F) lv (map (fun x => vsub F x xb) pop) in
  Done (map2 (vadd F) pop (map2 (vmul F) step z)).
(** cs.py:101-106 *)
Definition empty_nests (F : fops) (C : cfg) (pa : num) (n : nat) (pop : list vec) : prog (list vec) :=
  let* u := random_mat (length pop) (c_dim C) in
  let abandoned := map (map (fun r => if fltb pa r then f1 else f0)) u in
  let* i := permutation n in
  let* j := permutation n in
  let* r := random in
  let* xi := mapM (fun k => nthP pop k) i in
  let* xj := mapM (fun k => nthP pop k) j in
  let step := map (vscale F r) (map2 (vsub F) xi xj) in
  Done (map2 (vadd F) pop (map2 (vmul F) step abandoned)).
(** cs.py:131-133: [population[replace] = new_nests[replace]] *)
Fixpoint replace_better (pop : list vec) (fit : list num) (new : list vec) (nfit : list num) : list vec * list num :=
  match pop, fit, new, nfit with
  | x :: pop', f :: fit', y :: new', g :: nfit' =>
      let (ps, fs) := replace_better pop' fit' new' nfit' in
      if fltb g f then (y :: ps, g :: fs) else (x :: ps, f :: fs)
  | _, _, _, _ => ([], [])
  end.
(** cs.py:128-134 and 136-142: repair, evaluate, replace, update the best *)
Definition cs_phase (mat : bool) (new : list vec) (pop : list vec) (fit : list num) (xb : vec) (fxb : num)
  : prog (list vec * list num * vec * num) :=
  let* new' := repair_matrix mat new in
  let* nfit := eval_all new' in
  let (pop', fit') := replace_better pop fit new' nfit in
  let* (xb', fxb') := lift (get_best pop' fit' (Some xb) fxb) in
  Done (pop', fit', xb', fxb').
(** cs.py:108-144 *)
Definition cs_iter (F : fops) (C : cfg) (mat : bool) (n : nat) (pa : num)
  (pop : list vec) (fit : list num) (xb : vec) (fxb : num) (_ : unit) : prog (list vec * list num * vec * num * unit) :=
  let* new1 := get_cuckoos F C pop xb in
  let* (pop1, fit1, xb1, fxb1) := cs_phase mat new1 pop fit xb fxb in
  let* new2 := empty_nests F C pa n pop1 in
  let* (pop2, fit2, xb2, fxb2) := cs_phase mat new2 pop1 fit1 xb1 fxb1 in
  Done (pop2, fit2, xb2, fxb2, tt).
Definition plain_init (C : cfg) (n : nat) : prog (list vec * list num * unit) :=
  let* (pop, fit) := default_numpy_init C n in Done (pop, fit, tt).
Definition cs (F : fops) (C : cfg) (mat : bool) (n : nat) (pa : num) : algo :=
  Algo (list vec) unit (fun pop => pop) (plain_init C n) (cs_iter F C mat n pa).

(** ** FlowerPollinationAlgorithm (fpa.py:16-140) *)
Record flowers : Type := Flowers { fl_pop : list vec; fl_fit : list num; fl_xb : vec; fl_fxb : num; fl_sol : list vec }.
(** fpa.py:127-133: the new value of solutions[i] before repair *)
Definition fpa_move (F : fops) (C : cfg) (n : nat) (pr : num) (pop sol : list vec) (xb : vec) (i : nat) : prog vec :=
  let* u := random in
  if fltb pr u then
    let* st := levy_vec F (c_dim C) in
    let* xi := nthP pop i in
    Done (vadd F xi (vmul F st (vsub F xi xb)))
  else
    let* jk := choice n 2 in
    let* j := nthP jk 0 in
    let* k := nthP jk 1 in
    let* si := nthP sol i in
    let* r := random in
    let* xj := nthP pop j in
    let* xk := nthP pop k in
    Done (vadd F si (vscale F r (vsub F xj xk))).
(** fpa.py:127-139 *)
Definition fpa_step (F : fops) (C : cfg) (n : nat) (pr : num) (s : flowers) (i : nat) : prog flowers :=
  let* y := fpa_move F C n pr (fl_pop s) (fl_sol s) (fl_xb s) i in
  let* x' := repair y in
  let* sol := setP (fl_sol s) i x' in
  let* f := eval x' in
  let* fi := nthP (fl_fit s) i in
  let better := fleb f fi in
  let* pop := (if better then setP (fl_pop s) i x' else Done (fl_pop s)) in
  let* fit := (if better then setP (fl_fit s) i f else Done (fl_fit s)) in
  let take := fleb f (fl_fxb s) in
  Done (Flowers pop fit (if take then x' else fl_xb s) (if take then f else fl_fxb s) sol).
(** fpa.py:104-140 *)
Definition fpa_iter (F : fops) (C : cfg) (n : nat) (pr : num)
  (pop : list vec) (fit : list num) (xb : vec) (fxb : num) (sol : list vec)
  : prog (list vec * list num * vec * num * list vec) :=
  let* s := for_range n (fpa_step F C n pr) (Flowers pop fit xb fxb sol) in
  Done (fl_pop s, fl_fit s, fl_xb s, fl_fxb s, fl_sol s).
(** fpa.py:98-102 *)
Definition fpa_init (C : cfg) (n : nat) : prog (list vec * list num * list vec) :=
  let* (pop, fit) := default_numpy_init C n in Done (pop, fit, pop).
Definition fpa (F : fops) (C : cfg) (n : nat) (pr : num) : algo :=
  Algo (list vec) (list vec) (fun pop => pop) (fpa_init C n) (fpa_iter F C n pr).
