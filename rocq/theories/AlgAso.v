(** Model of /repo/src/niapy/algorithms/other/aso.py (AnarchicSocietyOptimization). *)
From Coq Require Import ZArith Lia Bool List.
From Verif Require Import Num Task Prog Repair GetBest Run AlgoLib Fops AlgBasic AlgKh.
Import ListNotations.

(** aso.py:120-221, the three functions offered for [combination] *)
Inductive aso_comb : Type := Elitism | Sequential | Crossover.
(** aso.py:275-282, 324-357.  alpha, gamma and theta are the arrays full_array(_, population_size) of 395-399; dn is the default
    euclidean; d is never used.  as_fuel bounds the recursion of Algorithm.integers. *)
Record aso_par : Type := AsoPar {
  as_n : nat;
  as_fuel : nat;
  as_alpha : vec;
  as_gamma : vec;
  as_theta : vec;
  as_nl : num;
  as_f : num;
  as_cr : num;
  as_comb : aso_comb
}.

(** a selection of components: [b[0]:b[1]] for two sorted distinct positions (53, 80, 86, 112) or the components with a random
    number below cr (56, 83, 89, 115) *)
Definition as_slice (d : nat) : prog (list bool) :=
  let* bs := choice d 2 in
  let a := Nat.min (nth 0 bs 0) (nth 1 bs 0) in
  let b := Nat.max (nth 0 bs 0) (nth 1 bs 0) in
  Done (map (fun k => (a <=? k) && (k <? b)) (seq 0 d)).
Definition as_mask (d : nat) (cr : num) : prog (list bool) :=
  let* rs := random_vec d in
  Done (map (fun r => fltb r cr) rs).
(** xn[sel] = y[sel] *)
Fixpoint as_copy (sel : list bool) (x y : vec) : vec :=
  match sel, x, y with
  | s :: sel', a :: x', b :: y' => (if s then b else a) :: as_copy sel' x' y'
  | _, _, _ => x
  end.
(** xn[sel] = xn[sel] + f * z, with one z for every selected component *)
Fixpoint as_add (F : fops) (f : num) (sel : list bool) (zs x : vec) : vec :=
  match sel, x with
  | true :: sel', a :: x' => match zs with
                             | z :: zs' => fadd F a (fmul F f z) :: as_add F f sel' zs' x'
                             | [] => x
                             end
  | false :: sel', a :: x' => a :: as_add F f sel' zs x'
  | _, _ => x
  end.
Definition as_count (sel : list bool) : nat := length (filter (fun s => s) sel).

(** aso.py:36-58 *)
Definition as_mp_c (F : fops) (x : vec) (f cr mp : num) : prog vec :=
  let* sel := if fltb mp (flit F 1 2) then as_slice (length x) else as_mask (length x) cr in
  let* zs := rnd_f_vec (as_count sel) in
  Done (as_add F f sel zs x).
(** aso.py:61-91 *)
Definition as_mp_s (F : fops) (x xr xb : vec) (cr mp : num) : prog vec :=
  let d := length x in
  if fltb mp (flit F 1 4) then let* sel := as_slice d in Done (as_copy sel x xb)
  else if fltb mp (flit F 1 2) then let* sel := as_mask d cr in Done (as_copy sel x xb)
  else if fltb mp (flit F 3 4) then let* sel := as_slice d in Done (as_copy sel x xr)
  else let* sel := as_mask d cr in Done (as_copy sel x xr).
(** aso.py:94-117 *)
Definition as_mp_p (F : fops) (x xpb : vec) (cr mp : num) : prog vec :=
  let* sel := if fltb mp (flit F 1 2) then as_slice (length x) else as_mask (length x) cr in
  Done (as_copy sel x xpb).

(** the three repaired candidates of elitism (144-148) and crossover (212-216) *)
Definition as_cands (F : fops) (x xpb xb xr : vec) (mpc mps mpp f cr : num) : prog (list vec) :=
  let* a := as_mp_c F x f cr mpc in
  let* a' := repair a in
  let* b := as_mp_s F x xr xb cr mps in
  let* b' := repair b in
  let* c := as_mp_p F x xpb cr mpp in
  let* c' := repair c in
  Done [a'; b'; c'].
(** aso.py:120-151, 154-185 and 188-221 *)
Definition as_combine (F : fops) (cb : aso_comb) (x xpb xb xr : vec) (mpc mps mpp f cr : num) : prog (vec * num) :=
  match cb with
  | Elitism =>
      let* cs := as_cands F x xpb xb xr mpc mps mpp f cr in
      let* fs := eval_all cs in
      let* b := argP (argmin fs) in
      let* y := nthP cs b in
      let* v := nthP fs b in
      Done (y, v)
  | Sequential =>
      let* a := as_mp_c F x f cr mpc in
      let* b := as_mp_p F a xpb cr mpp in
      let* c := as_mp_s F b xr xb cr mps in
      let* y := repair c in
      let* v := eval y in
      Done (y, v)
  | Crossover =>
      let* cs := as_cands F x xpb xb xr mpc mps mpp f cr in
      let* y := mapM (fun i => let* r := random in
                               if fltb r cr then let* k := integers 3 in Done (nth i (nth k cs []) NaN) else Done (nth i x NaN)) (seq 0 (length x)) in
      let* v := eval y in
      Done (y, v)
  end.

(** aso.py:401-419, 421-437, 439-456 *)
Definition as_fi (F : fops) (x_f xpb_f xb_f alpha : num) : num :=
  fsub F (fsub F (flit F 1 1) (fdiv F (fmul F alpha xb_f) x_f)) (fdiv F (fmul F (fsub F (flit F 1 1) alpha) xpb_f) x_f).
Definition as_ei (F : fops) (x_f y_f g : num) : num := fsub F (flit F 1 1) (fexp F (fmul F (fneg g) (fabs F (fsub F x_f y_f)))).

(** aso.py:458-481; the radius is computed once in 534 *)
Definition as_rs (F : fops) (C : cfg) : num := euclidean F (c_upper C) (c_lower C).
Definition as_near (F : fops) (nl rs : num) (pop : list vec) (i : nat) : list nat :=
  filter (fun j => fleb (fdiv F (euclidean F (nth i pop []) (nth j pop [])) rs) nl) (seq 0 (length pop)).
Definition as_neighbor (F : fops) (nl rs : num) (pop : list vec) (fit : list num) (i : nat) : prog nat :=
  let ids := as_near F nl rs pop i in
  let* b := argP (argmin (map (fun j => nth j fit NaN) ids)) in
  nthP ids b.

(** aso.py:483-503: personal_best[improved], personal_best_fitness[improved] *)
Definition as_pb (old new : list (vec * num)) : list (vec * num) := map2 (fun o n => if fltb (snd n) (snd o) then n else o) old new.

(** aso.py:545-629 *)
Definition aso_iter (F : fops) (C : cfg) (p : aso_par) (pop : list vec) (fit : list num) (xb : vec) (fxb : num) (pb : list vec * list num) :
  prog (list vec * list num * vec * num * (list vec * list num)) :=
  let n := length pop in
  let '(pbx, pbf) := pb in
  let* nbs := mapM (as_neighbor F (as_nl p) (as_rs F C) pop fit) (seq 0 n) in
  let mpc i := as_fi F (nth i fit NaN) (nth i pbf NaN) fxb (nth i (as_alpha p) NaN) in
  let mps i := as_ei F (nth i fit NaN) (nth (nth i nbs 0) fit NaN) (nth i (as_gamma p) NaN) in
  let mpp i := as_ei F (nth i fit NaN) (nth i pbf NaN) (nth i (as_theta p) NaN) in
  let* new := mapM (fun i =>
    let* r := integers_skip (as_fuel p) 0 n [i] in
    as_combine F (as_comb p) (nth i pop []) (nth i pbx []) xb (nth r pop []) (mpc i) (mps i) (mpp i) (as_f p) (as_cr p)) (seq 0 n) in
  let pb' := as_pb (combine pbx pbf) new in
  let* (xb', fxb') := lift (get_best (map fst new) (map snd new) (Some xb) fxb) in
  Done (map fst new, map snd new, xb', fxb', (map fst pb', map snd pb')).
(** aso.py:505-543 *)
Definition aso_init (C : cfg) (p : aso_par) : prog (list vec * list num * (list vec * list num)) :=
  let* (pop, fit) := default_numpy_init C (as_n p) in
  Done (pop, fit, (pop, fit)).
Definition aso (F : fops) (C : cfg) (p : aso_par) : algo :=
  Algo (list vec) (list vec * list num) (fun pop => pop) (aso_init C p) (aso_iter F C p).
