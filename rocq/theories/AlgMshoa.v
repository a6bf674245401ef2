(** Model of /repo/src/niapy/algorithms/basic/mshoa.py (MantisSearchAlgorithm). *)
From Coq Require Import ZArith Lia Bool List.
From Verif Require Import Num Task Prog Repair GetBest Run AlgoLib Fops AlgBasic AlgKh.
Import ListNotations.

(** mshoa.py:65-105.  debug_pti only writes to the log and is left out. *)
Record ms_par : Type := MSPar {
  ms_n : nat;          (* population_size *)
  ms_k : num;          (* k_value *)
  ms_refl : bool;      (* use_reflection *)
  ms_norm : bool       (* normalize_space *)
}.

(** mshoa.py:126-166 [_reflect_repair] on one row.  One component in one round of the loop (151-159): both masks are taken
    from the value before the round. *)
Definition refl1 (F : fops) (a l u : num) : num :=
  let b := if fltb a l then fadd F l (fsub F l a) else a in
  if fltb u a then fsub F u (fsub F b u) else b.
(** 151-155: some component is out of the bounds *)
Fixpoint refl_out (x lo hi : vec) : bool :=
  match x, lo, hi with
  | a :: x', l :: lo', u :: hi' => fltb a l || fltb u a || refl_out x' lo' hi'
  | _, _, _ => false
  end.
Fixpoint refl_rounds (F : fops) (k : nat) (lo hi x : vec) : vec :=
  match k with
  | O => x
  | S k' => if refl_out x lo hi then refl_rounds F k' lo hi (zip3 (refl1 F) x lo hi) else x
  end.
Definition reflect_repair (F : fops) (lo hi x : vec) : vec := limit (refl_rounds F 10 lo hi x) lo hi.

(** mshoa.py:168-180 and 182-194 *)
Definition to_real (F : fops) (C : cfg) (z : vec) : vec :=
  zip3 (fun a l u => fadd F l (fmul F (fmul F (fadd F a (flit F 1 1)) (flit F 1 2)) (fsub F u l))) z (c_lower C) (c_upper C).
Definition from_real (F : fops) (C : cfg) (x : vec) : vec :=
  zip3 (fun a l u => fsub F (fdiv F (fmul F (flit F 2 1) (fsub F a l)) (fsub F u l)) (flit F 1 1)) x (c_lower C) (c_upper C).

(** mshoa.py:196-229, for one angle.  pi is np.pi; a NaN angle keeps the default type 2. *)
Definition polar_type (F : fops) (pi a : num) : Z :=
  let p8 := fdiv F pi (flit F 8 1) in
  let m k := fmul F (flit F k 1) p8 in
  let r1 := if fleb (m 3%Z) a && fleb a (m 5%Z) then 1%Z else 2%Z in
  let r2 := if (fleb (flit F 0 1) a && fleb a p8) || (fleb (m 7%Z) a && fleb a pi) then 2%Z else r1 in
  if (fltb p8 a && fltb a (m 3%Z)) || (fltb (m 5%Z) a && fltb a (m 7%Z)) then 3%Z else r2.
(** mshoa.py:231-271, for one angle *)
Definition ang_diff (F : fops) (pi a : num) (t : Z) : num :=
  if Z.eqb t 1 then fabs F (fsub F a (fdiv F pi (flit F 2 1)))
  else if Z.eqb t 2 then np_min (fabs F (fsub F a (flit F 0 1))) (fabs F (fsub F a pi))
  else if Z.eqb t 3 then np_min (fabs F (fsub F a (fdiv F pi (flit F 4 1)))) (fabs F (fsub F a (fdiv F (fmul F (flit F 3 1) pi) (flit F 4 1))))
  else flit F 0 1.

(** mshoa.py:453-470: the left polarization angle of one row; acos is np.arccos *)
Definition ms_lpa (F : fops) (pi : num) (acos : num -> num) (old new : vec) : num :=
  let den := fmul F (fsqrt F (vsum F (vmul F old old))) (fsqrt F (vsum F (vmul F new new))) in
  if feqb den (flit F 0 1) then flit F 0 1
  else limit1 (acos (limit1 (fdiv F (vsum F (vmul F old new)) den) (flit F (-1) 1) (flit F 1 1))) (flit F 0 1) pi.
(** 475-484: the type of the eye with the smaller difference *)
Definition ms_eye (F : fops) (pi lpa rpa : num) : Z :=
  let lt := polar_type F pi lpa in
  let rt := polar_type F pi rpa in
  if fltb (ang_diff F pi lpa lt) (ang_diff F pi rpa rt) then lt else rt.

(** pop_new[mask] = rows (385, 397, 412) *)
Fixpoint place (is : list nat) (rows : list vec) (pop : list vec) : list vec :=
  match is, rows with
  | i :: is', r :: rows' => place is' rows' (upd pop i r)
  | _, _ => pop
  end.
(** np.where(pti == t)[0]; pti always has population_size entries (theorem C112) *)
Definition ms_rows (n : nat) (pti : list Z) (t : Z) : list nat := filter (fun i => Z.eqb (nth i pti 0%Z) t) (seq 0 n).
(** mshoa.py:354-412: the draws are made type by type *)
Definition ms_move (F : fops) (pi : num) (p : ms_par) (pop : list vec) (xb : vec) (pti : list Z) : prog (list vec) :=
  let n := ms_n p in
  let fo := ms_rows n pti 1 in
  let ta := ms_rows n pti 2 in
  let de := ms_rows n pti 3 in
  let* D := uniform_vec (repeat (flit F (-1) 1) (length fo)) (repeat (flit F 1 1) (length fo)) in
  let* rs := mapM (fun i => let* r := integers n in Done (if (1 <? n) && (r =? i) then (r + 1) mod n else r)) fo in
  let* th := uniform_vec (repeat pi (length ta)) (repeat (fmul F (flit F 2 1) pi) (length ta)) in
  let* us := random_vec (length de) in
  let forage i dr :=
    let xi := nth i pop [] in
    vadd F (vsub F xb (vsub F xi xb)) (vscale F (fst dr) (vsub F (nth (snd dr) pop []) xi)) in
  let defend u := vadd F xb (vscale F (fmul F (if fltb u (flit F 1 2) then flit F 1 1 else flit F (-1) 1) (ms_k p)) xb) in
  Done (place de (map defend us)
         (place ta (map (fun t => vscaler F xb (fcos F t)) th)
           (place fo (map2 forage fo (combine D rs)) pop))).

(** mshoa.py:306-502 *)
Definition ms_iter (F : fops) (C : cfg) (pi : num) (acos : num -> num) (p : ms_par) (pop : list vec) (fit : list num) (xb : vec) (fxb : num)
  (pti : list Z) : prog (list vec * list num * vec * num * list Z) :=
  let old := if ms_norm p then map (from_real F C) pop else pop in
  let xw := if ms_norm p then from_real F C xb else xb in
  let lo := if ms_norm p then repeat (flit F (-1) 1) (c_dim C) else c_lower C in
  let hi := if ms_norm p then repeat (flit F 1 1) (c_dim C) else c_upper C in
  let* moved := ms_move F pi p old xw pti in
  let* new := if ms_refl p then Done (map (reflect_repair F lo hi) moved) else repair_all moved in
  let real := if ms_norm p then map (to_real F C) new else new in
  let* fit' := eval_all real in
  let* b := argP (argmin fit') in
  let* fb := nthP fit' b in
  let* xb1 := nthP real b in
  let '(xb', fxb') := if fltb fb fxb then (xb1, fb) else (xb, fxb) in
  let* us := random_vec (ms_n p) in
  let pti' := map2 (ms_eye F pi) (map2 (ms_lpa F pi acos) old new) (map (fun u => fmul F u pi) us) in
  Done (real, fit', xb', fxb', pti').
(** mshoa.py:273-304: the population is evaluated once by Algorithm.init_population (290) and once more (297, 299); with
    normalize_space the population returned is the normalized one (294, 304) *)
Definition ms_init (F : fops) (C : cfg) (p : ms_par) : prog (list vec * list num * list Z) :=
  let* (pop0, _) := default_numpy_init C (ms_n p) in
  let pop := if ms_norm p then map (from_real F C) pop0 else pop0 in
  let* fit := eval_all (if ms_norm p then map (to_real F C) pop else pop) in
  let* us := random_vec (ms_n p) in
  Done (pop, fit, map (fun u => fround (fadd F (flit F 1 1) (fmul F (flit F 2 1) u))) us).
Definition mshoa (F : fops) (C : cfg) (pi : num) (acos : num -> num) (p : ms_par) : algo :=
  Algo (list vec) (list Z) (fun pop => pop) (ms_init F C p) (ms_iter F C pi acos p).
