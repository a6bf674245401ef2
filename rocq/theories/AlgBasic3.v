(** Model of /repo/src/niapy/algorithms/basic/{bfo,gso,mke,fss}.py. *)
From Coq Require Import ZArith Lia Bool List.
From Verif Require Import Num Task Prog GetBest Run AlgoLib Fops Indiv Repair AlgPSO AlgSwarm AlgBasic AlgBasic2.
Import ListNotations.

(** np.linalg.norm of a vector *)
Definition vnorm (F : fops) (x : vec) : num := fsqrt F (vsum F (map (fun a => fmul F a a) x)).
(** strictly better points replace the best one (bfo.py:256-258 and 294-296) *)
Definition if_better (x : vec) (f : num) (b : vec * num) : vec * num := if fltb f (snd b) then (x, f) else b.

(** ** BacterialForagingOptimization (bfo.py:16-298) *)
Record bfo_par : Type := BFOPar {
  bf_n : nat; bf_chem : nat; bf_swim : nat; bf_repr : nat;   (* population_size, n_chemotactic, n_swim, n_reproduction *)
  bf_prob : num; bf_step : num; bf_swarming : bool;          (* prob_elimination, step_size, swarming *)
  bf_datt : num; bf_watt : num; bf_hrep : num; bf_wrep : num
}.
(** cost, health and the two counters k and j, which are attributes of the object and keep their values from one run to the
    next; the third counter is only ever incremented *)
Record bfo_st : Type := BFOSt { bs_cost : list num; bs_health : list num; bs_k : nat; bs_j : nat }.
(** bfo.py:189-205 *)
Definition bfo_interaction (F : fops) (p : bfo_par) (cell : vec) (pop : list vec) : num :=
  if bf_swarming p then
    let ds := map (fun y => euclidean F cell y) pop in
    fadd F (vsum F (map (fun d => fmul F (fneg (bf_datt p)) (fexp F (fmul F (fneg (bf_watt p)) d))) ds))
           (vsum F (map (fun d => fmul F (bf_hrep p) (fexp F (fmul F (fneg (bf_wrep p)) d))) ds))
  else flit F 0 1.
(** bfo.py:207-218 *)
Definition bfo_direction (F : fops) (d : nat) : prog vec :=
  let* delta := uniform_vec (repeat (flit F (-1) 1) d) (repeat (flit F 1 1) d) in
  Done (map (fun a => fdiv F a (vnorm F delta)) delta).
Record bfo_cur : Type := BFOCur { bc_pop : list vec; bc_fit : list num; bc_cost : list num; bc_health : list num; bc_best : vec * num }.
(** bfo.py:251-265, the swimming of cell i; [left] is n_swim - m *)
Fixpoint bfo_swim (F : fops) (p : bfo_par) (i : nat) (dir : vec) (jlast : num) (left : nat) (s : bfo_cur) : prog bfo_cur :=
  let* x := nthP (bc_pop s) i in
  let* y := repair (vadd F x (vscale F (bf_step p) dir)) in
  let* pop := setP (bc_pop s) i y in
  let* f := eval y in
  let* fit := setP (bc_fit s) i f in
  let c := fadd F f (bfo_interaction F p y pop) in
  let* cost := setP (bc_cost s) i c in
  let* h := nthP (bc_health s) i in
  let* health := setP (bc_health s) i (fadd F h c) in
  let s' := BFOCur pop fit cost health (if_better y f (bc_best s)) in
  match left with
  | O => Done s'
  | S left' => if fleb jlast c then Done s' else bfo_swim F p i dir jlast left' s'
  end.
(** bfo.py:246-265 *)
Definition bfo_cell (F : fops) (C : cfg) (p : bfo_par) (s : bfo_cur) (i : nat) : prog bfo_cur :=
  let* f := nthP (bc_fit s) i in
  let* x := nthP (bc_pop s) i in
  let jlast := fadd F f (bfo_interaction F p x (bc_pop s)) in
  let* cost := setP (bc_cost s) i jlast in
  let* dir := bfo_direction F (c_dim C) in
  bfo_swim F p i dir jlast (bf_swim p) (BFOCur (bc_pop s) (bc_fit s) cost (bc_health s) (bc_best s)).
(** bfo.py:273-283: the healthiest population_size // 2 cells (smallest health first), twice *)
Definition bfo_row : Type := (vec * num * num * num)%type.
Fixpoint zip4 (a : list vec) (b c d : list num) : list bfo_row :=
  match a, b, c, d with x :: a', y :: b', z :: c', t :: d' => (x, y, z, t) :: zip4 a' b' c' d' | _, _, _, _ => [] end.
Definition twice {A} (l : list A) : list A := l ++ l.
Definition bfo_reproduce (F : fops) (p : bfo_par) (s : bfo_cur) : bfo_cur :=
  let rows := firstn (bf_n p / 2) (sort_on (fun r : bfo_row => snd r) (zip4 (bc_pop s) (bc_fit s) (bc_cost s) (bc_health s))) in
  BFOCur (twice (map (fun r => fst (fst (fst r))) rows)) (twice (map (fun r => snd (fst (fst r))) rows)) (twice (map (fun r => snd (fst r)) rows))
    (repeat (flit F 0 1) (length (twice rows))) (bc_best s).
(** bfo.py:290-296; the new position is not repaired *)
Definition bfo_disperse (F : fops) (C : cfg) (p : bfo_par) (s : bfo_cur) (i : nat) : prog bfo_cur :=
  let* u := random in
  if fltb u (bf_prob p) then
    let* r := random_vec (c_dim C) in
    let x := vadd F (c_lower C) (vmul F r (vsub F (c_upper C) (c_lower C))) in
    let* pop := setP (bc_pop s) i x in
    let* f := eval x in
    let* fit := setP (bc_fit s) i f in
    Done (BFOCur pop fit (bc_cost s) (bc_health s) (if_better x f (bc_best s)))
  else Done s.
(** bfo.py:220-298 *)
Definition bfo_iter (F : fops) (C : cfg) (p : bfo_par) (pop : list vec) (fit : list num) (xb : vec) (fxb : num) (st : bfo_st)
  : prog (list vec * list num * vec * num * bfo_st) :=
  let* s1 := for_range (length pop) (bfo_cell F C p) (BFOCur pop fit (bs_cost st) (bs_health st) (xb, fxb)) in
  let repr := bf_chem p <=? S (bs_k st) in
  let k := if repr then 0 else S (bs_k st) in
  let j := if repr then S (bs_j st) else bs_j st in
  let s2 := if repr then bfo_reproduce F p s1 else s1 in
  let elim := bf_repr p <=? j in
  let* s3 := (if elim then for_range (length (bc_pop s2)) (bfo_disperse F C p) s2 else Done s2) in
  Done (bc_pop s3, bc_fit s3, fst (bc_best s3), snd (bc_best s3), BFOSt (bc_cost s3) (bc_health s3) k (if elim then 0 else j)).
(** bfo.py:164-187; k0 and j0 are what an earlier run left in the object (0 for a new one) *)
Definition bfo_init (F : fops) (C : cfg) (p : bfo_par) (k0 j0 : nat) : prog (list vec * list num * bfo_st) :=
  let* (pop, fit) := default_numpy_init C (bf_n p) in
  Done (pop, fit, BFOSt (repeat (flit F 0 1) (bf_n p)) (repeat (flit F 0 1) (bf_n p)) k0 j0).
Definition bfo (F : fops) (C : cfg) (p : bfo_par) (k0 j0 : nat) : algo :=
  Algo (list vec) bfo_st (fun pop => pop) (bfo_init F C p k0 j0) (bfo_iter F C p).

(** ** GlowwormSwarmOptimization and its three variants (gso.py:17-447) *)
Inductive gso_kind : Type := GSO0 | GSO1 | GSO2 (alpha : num) | GSO3 (beta1 : num).
Record gso_par : Type := GSOPar {
  gw_n : nat; gw_l0 : num; gw_nt : num; gw_rho : num; gw_gamma : num; gw_beta : num; gw_s : num;
  gw_dist : vec -> vec -> num; gw_kind : gso_kind
}.
Record gso_st : Type := GSOSt { gl_luc : list num; gl_ranges : list num; gl_sensing : num }.
(** np.fmax(0.0, r): a NaN counts as missing *)
Definition fmax0 (F : fops) (r : num) : num := match r with NaN => flit F 0 1 | _ => fmaxb (flit F 0 1) r end.
(** gso.py:185-186 and 301-303 *)
Definition gso_luciferin (F : fops) (p : gso_par) (l f : num) : num :=
  let r := fadd F (fmul F (fsub F (flit F 1 1) (gw_rho p)) l) (fmul F (gw_gamma p) f) in
  match gw_kind p with GSO1 => fmax0 F r | _ => r end.
(** gso.py:132-148 *)
Definition gso_neighbors (p : gso_par) (i : nat) (r : num) (pop : list vec) (luc : list num) : list bool :=
  map2 (fun j y => negb (i =? j) && fleb (gw_dist p (nth i pop []) y) r && fleb (nth j luc NaN) (nth i luc NaN)) (seq 0 (length pop)) pop.
(** gso.py:150-165 *)
Definition gso_probabilities (F : fops) (i : nat) (nb : list bool) (luc : list num) : list num :=
  let li := nth i luc NaN in
  let d := fadd F (vsum F (map (fun a => fsub F (snd a) li) (filter fst (combine nb luc)))) (Fin (2 ^ (1074 - 52))) in
  map2 (fun (b : bool) l => if b then fdiv F (fsub F l li) d else flit F 0 1) nb luc.
(** gso.py:167-183: the same probability pb[i] is added in every round *)
Fixpoint gso_roulette (F : fops) (pi r bu : num) (js : list nat) : option nat :=
  match js with
  | [] => None
  | j :: rest => let bu' := fadd F bu pi in if fltb bu r && fltb r bu' then Some j else gso_roulette F pi r bu' rest
  end.
Definition gso_select (F : fops) (p : gso_par) (pb : list num) (i : nat) : prog nat :=
  let* r := random in
  let* pi := nthP pb i in
  match gso_roulette F pi r (flit F 0 1) (seq 0 (gw_n p)) with
  | Some j => Done j
  | None => integers (gw_n p)
  end.
(** number of neighbours *)
Definition n_true (nb : list bool) : nat := length (filter (fun b => b) nb).
(** gso.py:188-190, 305-307, 375-377 and 445-447; the last is (range_ + beta * sum) if sum < nt else (-beta1 * sum) *)
Definition gso_range (F : fops) (pi : num) (p : gso_par) (range sensing : num) (nb : list bool) : num :=
  let m := fnat F (n_true nb) in
  match gw_kind p with
  | GSO0 => fadd F range (fmul F (gw_beta p) (fsub F (gw_nt p) m))
  | GSO1 => fdiv F sensing (fadd F (flit F 1 1) (fmul F (gw_beta p) (fdiv F m (fmul F pi (fpow F sensing (flit F 2 1))))))
  | GSO2 alpha => fadd F alpha (fdiv F (fsub F sensing alpha) (fadd F (flit F 1 1) (fmul F (gw_beta p) m)))
  | GSO3 beta1 => if fltb m (gw_nt p) then fadd F range (fmul F (gw_beta p) m) else fmul F (fneg beta1) m
  end.
(** gso.py:247-250 for one glowworm; the small number is 1e-31 *)
Definition gso_move (F : fops) (p : gso_par) (pop : list vec) (i j : nat) : prog vec :=
  let* x := nthP pop i in
  let* y := nthP pop j in
  repair (vadd F x (vscale F (gw_s p) (map (fun a => fdiv F a (fadd F (gw_dist p y x) (flit F 1 (10 ^ 31)))) (vsub F y x)))).
(** gso.py:215-257 *)
Definition gso_iter (F : fops) (pi : num) (p : gso_par) (pop : list vec) (fit : list num) (xb : vec) (fxb : num) (st : gso_st)
  : prog (list vec * list num * vec * num * gso_st) :=
  let n := gw_n p in
  let luc := map2 (gso_luciferin F p) (gl_luc st) fit in
  let nbs := map (fun i => gso_neighbors p i (nth i (gl_ranges st) NaN) pop luc) (seq 0 n) in
  let pbs := map (fun i => gso_probabilities F i (nth i nbs []) luc) (seq 0 n) in
  let* js := mapM (fun i => let* pb := nthP pbs i in gso_select F p pb i) (seq 0 n) in
  let* pop' := mapM (fun ij => gso_move F p pop (fst ij) (snd ij)) (combine (seq 0 n) js) in
  let ranges := map (fun i => fmaxb (flit F 0 1) (fminb (gl_sensing st) (gso_range F pi p (nth i (gl_ranges st) NaN) (gl_sensing st) (nth i nbs [])))) (seq 0 n) in
  let* fit' := eval_all pop' in
  let* (xb', fxb') := lift (get_best pop' fit' (Some xb) fxb) in
  Done (pop', fit', xb', fxb', GSOSt luc ranges (gl_sensing st)).
(** gso.py:192-212 *)
Definition gso_init (F : fops) (C : cfg) (p : gso_par) : prog (list vec * list num * gso_st) :=
  let* (pop, fit) := default_numpy_init C (gw_n p) in
  let sr := euclidean F (repeat (flit F 0 1) (c_dim C)) (vsub F (c_upper C) (c_lower C)) in
  Done (pop, fit, GSOSt (repeat (gw_l0 p) (gw_n p)) (repeat sr (gw_n p)) sr).
Definition gso (F : fops) (C : cfg) (pi : num) (p : gso_par) : algo :=
  Algo (list vec) gso_st (fun pop => pop) (gso_init F C p) (gso_iter F pi p).

(** ** MonkeyKingEvolution, versions 1 to 3 (mke.py:58-536) *)
Record mke_par : Type := MKEPar { mk_n : nat; mk_fluct : num; mk_rate : num; mk_c : nat; mk_fc : num }.
(** an MkeSolution (mke.py:16-55): an individual, its best position and value, and the flag *)
Record monkey : Type := Monkey { mo_i : vec * num; mo_pb : vec * num; mo_king : bool }.
Definition mo_xs (pop : list monkey) : list vec := map (fun m => fst (mo_i m)) pop.
Definition mo_fits (pop : list monkey) : list num := map (fun m => snd (mo_i m)) pop.
(** mke.py:52-55 *)
Definition mke_personal (m : monkey) : monkey :=
  if fltb (snd (mo_i m)) (snd (mo_pb m)) then Monkey (mo_i m) (mo_i m) (mo_king m) else m.
(** mke.py:171-189 and 209-219 *)
Definition mke_particle (F : fops) (C : cfg) (p : mke_par) (m : monkey) (xb : vec) : prog monkey :=
  let* r := random_vec (c_dim C) in
  let* a := ind_evaluate (vadd F (fst (mo_pb m)) (vmul F (vscale F (mk_fluct p) r) (vsub F xb (fst (mo_i m))))) in
  Done (Monkey a (mo_pb m) (mo_king m)).
(** mke.py:191-207 and 221-233: c * dimension points, the best of which becomes the position *)
Definition mke_king1 (F : fops) (C : cfg) (p : mke_par) (m : monkey) : prog monkey :=
  let x := fst (mo_i m) in
  let* rs := repeatM (mk_c p * c_dim C) (random_vec (c_dim C)) in
  let* a := repair_all (map (fun r => vadd F x (vmul F (vscale F (mk_fc p) r) x)) rs) in
  let* f := eval_all a in
  match argmin f with
  | None => Fail EValue
  | Some ib => let* y := nthP a ib in let* g := nthP f ib in Done (Monkey (y, g) (mo_pb m) false)
  end.
(** mke.py:343-377 *)
Definition mke_king2 (F : fops) (p : mke_par) (pop : list monkey) (m : monkey) : prog monkey :=
  let* b := for_range (mk_c p * mk_n p) (fun b _ =>
    let* r := choice (mk_n p) 2 in
    let* r0 := nthP r 0 in let* r1 := nthP r 1 in
    let* m0 := nthP pop r0 in let* m1 := nthP pop r1 in
    let* a := repair (vsub F (fst (mo_i m)) (vscale F (mk_fc p) (vsub F (fst (mo_i m0)) (fst (mo_i m1))))) in
    let* f := eval a in
    Done (if fltb f (snd b) then (a, f) else b)) (mo_i m) in
  Done (Monkey b (mo_pb m) false).
(** mke.py:235-253 and 379-397; [v2] selects the version *)
Definition mke_step (F : fops) (C : cfg) (p : mke_par) (v2 : bool) (xb : vec) (pop : list monkey) (i : nat) : prog (list monkey) :=
  let* m := nthP pop i in
  let* m' := (if mo_king m then (if v2 then mke_king2 F p pop m else mke_king1 F C p m) else mke_particle F C p m xb) in
  setP pop i (mke_personal m').
(** mke.py:269-270 and 292-293: int(rate * len(pop)) members become kings *)
Definition mke_crown (F : fops) (p : mke_par) (pop : list monkey) : prog (list monkey) :=
  let k := fint F (fmul F (mk_rate p) (fnat F (length pop))) in
  if (k <? 0)%Z then Fail EValue
  else
    let* idx := choice (mk_n p) (Z.to_nat k) in
    foldM (fun pop i => let* m := nthP pop i in setP pop i (Monkey (mo_i m) (mo_pb m) true)) idx pop.
(** mke.py:273-296 *)
Definition mke_iter (F : fops) (C : cfg) (p : mke_par) (v2 : bool) (pop : list monkey) (fit : list num) (xb : vec) (fxb : num) (_ : unit)
  : prog (list monkey * list num * vec * num * unit) :=
  let* pop1 := for_range (length pop) (mke_step F C p v2 xb) pop in
  let* pop2 := mke_crown F p pop1 in
  let* (xb', fxb') := lift (get_best (mo_xs pop2) (mo_fits pop2) (Some xb) fxb) in
  Done (pop2, mo_fits pop2, xb', fxb', tt).
(** mke.py:255-271 *)
Definition mke_init (F : fops) (C : cfg) (p : mke_par) : prog (list monkey * list num * unit) :=
  let* (pop, fit) := default_individual_init C (mk_n p) in
  let* pop' := mke_crown F p (map (fun a => Monkey a a false) pop) in
  Done (pop', fit, tt).
Definition mke12 (F : fops) (C : cfg) (p : mke_par) (v2 : bool) : algo :=
  Algo (list monkey) unit mo_xs (mke_init F C p) (mke_iter F C p v2).

(** rng.shuffle of a row *)
Definition shuffle (row : vec) : prog vec :=
  let* pi := permutation (length row) in mapM (fun k => nthP row k) pi.
(** mke.py:525-527: row i of the blocks of lower triangular matrices has ones up to column i mod D *)
Definition mke_mask (F : fops) (d i : nat) : vec := map (fun j => if j <=? i mod d then flit F 1 1 else flit F 0 1) (seq 0 d).
(** mke.py:461-472 *)
Definition mke_neg (F : fops) (x : num) : num := if feqb x (flit F 1 1) then flit F 0 1 else flit F 1 1.
(** mke.py:497-536; [population[rng.choice(n, c)]] draws with replacement *)
Definition mke3_iter (F : fops) (C : cfg) (p : mke_par) (pop : list vec) (fit : list num) (xb : vec) (fxb : num) (_ : unit)
  : prog (list vec * list num * vec * num * unit) :=
  let d := c_dim C in
  let* i1 := repeatM (mk_c p * d) (integers (length pop)) in
  let* rows1 := mapM (fun i => nthP pop i) i1 in
  let* i2 := repeatM (mk_c p * d) (integers (length pop)) in
  let* rows2 := mapM (fun i => nthP pop i) i2 in
  let* gb := repair_all (map2 (fun a b => vsub F (vadd F xb (vscale F (mk_fc p) a)) b) rows1 rows2) in
  let* gf := eval_all gb in
  let* (xb1, fxb1) := lift (get_best gb gf (Some xb) fxb) in
  let* ms := mapM (fun i => shuffle (mke_mask F d i)) (seq 0 (mk_n p)) in
  let* pop1 := repair_all (map2 (fun m x => vadd F (vmul F m x) (vmul F (map (mke_neg F) m) xb1)) ms pop) in
  let* fit1 := eval_all pop1 in
  let* (xb2, fxb2) := lift (get_best pop1 fit1 (Some xb1) fxb1) in
  match argmax fit1, argmin gf with
  | Some iw, Some ib =>
      let* fw := nthP fit1 iw in
      let* g := nthP gf ib in
      let* y := nthP gb ib in
      if fleb g fw then
        let* pop2 := setP pop1 iw y in
        let* fit2 := setP fit1 iw g in
        Done (pop2, fit2, xb2, fxb2, tt)
      else Done (pop1, fit1, xb2, fxb2, tt)
  | _, _ => Fail EValue
  end.
Definition mke3 (F : fops) (C : cfg) (p : mke_par) : algo :=
  Algo (list vec) unit (fun pop => pop) (plain_init C (mk_n p)) (mke3_iter F C p).

(** ** FishSchoolSearch (fss.py:39-345) *)
Record fss_par : Type := FSSPar {
  fs_n : nat; fs_ii : num; fs_if : num; fs_vi : num; fs_vf : num; fs_minw : num; fs_wscale : num
}.
(** fss.py:8-36: an individual, its weight, the last displacement and the last improvement *)
Record fish : Type := Fish { fi_i : vec * num; fi_w : num; fi_dpos : vec; fi_dcost : num }.
Definition fi_xs (s : list fish) : list vec := map (fun a => fst (fi_i a)) s.
Definition fi_fits (s : list fish) : list num := map (fun a => snd (fi_i a)) s.
(** individual step, volitive step and school weight *)
Record fss_st : Type := FSSSt { st_ind : vec; st_vol : vec; st_weight : num }.
(** fss.py:223-234 for one fish *)
Definition fss_individual (F : fops) (C : cfg) (step : vec) (s : list fish * (vec * num)) (i : nat) : prog (list fish * (vec * num)) :=
  let d := c_dim C in
  let* a := nthP (fst s) i in
  let* u := uniform_vec (repeat (flit F (-1) 1) d) (repeat (flit F 1 1) d) in
  let* y := repair (vadd F (fst (fi_i a)) (vmul F step u)) in
  let* f := eval y in
  if fltb f (snd (fi_i a)) then
    let* b := lift (get_best1 y f (Some (fst (snd s))) (snd (snd s))) in
    let* sch := setP (fst s) i (Fish (y, f) (fi_w a) (vsub F y (fst (fi_i a))) (fabs F (fsub F f (snd (fi_i a))))) in
    Done (sch, b)
  else
    let* sch := setP (fst s) i (Fish (fi_i a) (fi_w a) (repeat (flit F 0 1) d) (flit F 0 1)) in
    Done (sch, snd s).
(** Python's max over a non-empty sequence *)
Definition py_max (l : list num) : option num :=
  match l with [] => None | a :: r => Some (fold_left fmaxb r a) end.
(** fss.py:189-204 *)
Definition fss_feed (F : fops) (p : fss_par) (s : list fish) : prog (list fish) :=
  match py_max (map fi_dcost s) with
  | None => Fail EValue
  | Some m =>
      Done (map (fun a =>
        let w := if feqb m (flit F 0 1) then fi_w a else fadd F (fi_w a) (fdiv F (fi_dcost a) m) in
        Fish (fi_i a) (limit1 w (fs_minw p) (fs_wscale p)) (fi_dpos a) (fi_dcost a)) s)
  end.
(** sum of vectors and of numbers *)
Definition vsums (F : fops) (d : nat) (l : list vec) : vec := fold_left (vadd F) l (repeat (flit F 0 1) d).
(** fss.py:237-254 *)
Definition fss_drift (F : fops) (d : nat) (s : list fish) : vec :=
  let e := vsums F d (map (fun a => vscale F (fi_dcost a) (fi_dpos a)) s) in
  let density := vsum F (map fi_dcost s) in
  if feqb density (flit F 0 1) then e else map (fun a => fdiv F a density) e.
Definition fss_instinctive (F : fops) (d : nat) (s : list fish) : prog (list fish) :=
  let e := fss_drift F d s in
  mapM (fun a => let* y := repair (vadd F (fst (fi_i a)) e) in Done (Fish (y, snd (fi_i a)) (fi_w a) (fi_dpos a) (fi_dcost a))) s.
(** fss.py:274-278: the total weight and the barycentre *)
Definition fss_weight (F : fops) (s : list fish) : num := vsum F (map fi_w s).
Definition fss_center (F : fops) (d : nat) (s : list fish) : vec :=
  map (fun a => fdiv F a (fss_weight F s)) (vsums F d (map (fun a => vscaler F (fst (fi_i a)) (fi_w a)) s)).
(** fss.py:279-285 for one fish *)
Definition fss_volitive (F : fops) (C : cfg) (step center : vec) (heavier : bool) (s : list fish * (vec * num)) (i : nat) : prog (list fish * (vec * num)) :=
  let d := c_dim C in
  let* a := nthP (fst s) i in
  let* u := uniform_vec (repeat (flit F 0 1) d) (repeat (flit F 1 1) d) in
  let x := fst (fi_i a) in
  let m := vmul F (vmul F (vsub F x center) step) u in
  let* n := ind_evaluate (if heavier then vsub F x m else vadd F x m) in
  let* sch := setP (fst s) i (Fish n (fi_w a) (fi_dpos a) (fi_dcost a)) in
  let* b := lift (get_best1 (fst n) (snd n) (Some (fst (snd s))) (snd (snd s))) in
  Done (sch, b).
(** fss.py:171-187 *)
Definition fss_steps (F : fops) (C : cfg) (init final : num) (iters : nat) : vec :=
  repeat (fsub F init (fdiv F (fmul F (fnat F (S iters)) (fsub F init final)) (flim F (c_max_iters C)))) (c_dim C).
(** fss.py:309-345; the school weight in the parameters is never changed *)
Definition fss_iter (F : fops) (C : cfg) (p : fss_par) (pop : list fish) (fit : list num) (xb : vec) (fxb : num) (st : fss_st)
  : prog (list fish * list num * vec * num * fss_st) :=
  let d := c_dim C in
  let* (s1, b1) := for_range (length pop) (fss_individual F C (st_ind st)) (pop, (xb, fxb)) in
  let* s2 := fss_feed F p s1 in
  let* s3 := fss_instinctive F d s2 in
  let heavier := fltb (st_weight st) (fss_weight F s3) in
  let* (s4, b4) := for_range (length s3) (fss_volitive F C (st_vol st) (fss_center F d s3) heavier) (s3, b1) in
  let* v := view in
  Done (s4, fi_fits s4, fst b4, snd b4,
        FSSSt (fss_steps F C (fs_ii p) (fs_if p) (v_iters v)) (fss_steps F C (fs_vi p) (fs_vf p) (v_iters v)) (st_weight st)).
(** fss.py:163-169 and 288-307 *)
Definition fss_init (F : fops) (C : cfg) (p : fss_par) : prog (list fish * list num * fss_st) :=
  let range := vsub F (c_upper C) (c_lower C) in
  let* (pop, fit) := default_individual_init C (fs_n p) in
  Done (map (fun a => Fish a (fdiv F (fs_wscale p) (flit F 2 1)) [] NaN) pop, fit,
        FSSSt (vscale F (fs_ii p) range) (vscale F (fs_vi p) range) (fdiv F (fmul F (fnat F (fs_n p)) (fs_wscale p)) (flit F 2 1))).
Definition fss (F : fops) (C : cfg) (p : fss_par) : algo :=
  Algo (list fish) fss_st fi_xs (fss_init F C p) (fss_iter F C p).
