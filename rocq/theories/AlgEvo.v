(** Model of /repo/src/niapy/algorithms/basic/{ga,bea,clonalg}.py and BareBonesFireworksAlgorithm of fwa.py. *)
From Coq Require Import ZArith Lia Bool List.
From Verif Require Import Num Task Prog GetBest Run AlgoLib Fops Indiv AlgPSO AlgSwarm AlgBasic.
Import ListNotations.

(** ** GeneticAlgorithm (ga.py) *)
Inductive ga_sel : Type := STournament (ts : nat) | SRoulette.
Inductive ga_cross : Type := XTwoPoint | XMultiPoint (k : nat) | XUniform (cr : num) | XUros (cr : num).
Inductive ga_mut : Type := MUniform (mr : num) | MUros (mr : num) | MCreep (mr : num).

(** ga.py:17-51.  The selected point is not used: lines 365-366 overwrite it. *)
Definition ga_select (F : fops) (s : ga_sel) (pop : list ind) (ic : nat) (xb : vec) : prog vec :=
  match s with
  | STournament ts =>
      let* is := choice (length pop) ts in
      let* comps := mapM (nthP pop) is in
      match argmin (map snd comps) with
      | None => Fail EValue
      | Some k => let* c := nthP comps k in Done (fst c)
      end
  | SRoulette =>
      let f := vsum F (map snd pop) in
      let qi := vsum F (map (fun c => fdiv F (snd c) f) (firstn (S ic) pop)) in
      let* x := nthP pop ic in
      let* r := random in
      Done (if fltb r qi then fst x else xb)
  end.

(** ga.py:54-137.  io = ic and the loop [while io != ic] is never entered, so pop[io] is pop[ic] and the
    slices copy a vector onto itself; the draws remain. *)
Definition ga_crossover (F : fops) (x : ga_cross) (pop : list ind) (ic : nat) : prog vec :=
  let* a := nthP pop ic in
  let d := length (fst a) in
  match x with
  | XTwoPoint => let* _ := repeatM 2 (integers d) in Done (fst a)
  | XMultiPoint k => let* _ := repeatM (2 * k) (integers d) in Done (fst a)
  | XUniform cr =>
      let* j := integers d in
      mapM (fun i => let* r := random in if fltb r cr || (i =? j) then nthP (fst a) i else nthP (fst a) i) (seq 0 d)
  | XUros cr =>
      let* rs := random_vec d in
      let alpha := map (fun r => fadd F cr (fmul F (fadd F (flit F 1 1) (fmul F (flit F 2 1) cr)) r)) rs in
      Done (vadd F (vmul F alpha (fst a)) (vmul F (map (fun b => fsub F (flit F 1 1) b) alpha) (fst a)))
  end.

(** ga.py:154-157 (= 192-194) for component i *)
Definition ga_mut_comp (C : cfg) (mr : num) (x : vec) (j i : nat) : prog num :=
  let* r := random in
  if fltb r mr || (i =? j)
  then let* lo := nthP (c_lower C) i in let* hi := nthP (c_upper C) i in uniform lo hi
  else nthP x i.
(** np.fmin and np.fmax: the other argument if one is NaN *)
Definition np_fmax (a b : num) : num := if is_nan a then b else if is_nan b then a else if fltb a b then b else a.
Definition np_fmin (a b : num) : num := if is_nan a then b else if is_nan b then a else if fltb b a then b else a.
(** ga.py:140-194.  rng.normal(pop[ic], mr * range) of [MUros] is an arbitrary vector of the same length (a negative
    mr, for which numpy raises, is left out). *)
Definition ga_mutate (F : fops) (C : cfg) (m : ga_mut) (pop : list ind) (ic : nat) : prog vec :=
  match m with
  | MUniform mr =>
      let* j := integers (c_dim C) in
      let* a := nthP pop ic in
      mapM (ga_mut_comp C mr (fst a) j) (seq 0 (c_dim C))
  | MUros mr =>
      let* a := nthP pop ic in
      let* y := rnd_f_vec (length (fst a)) in
      Done (map2 np_fmin (map2 np_fmax y (c_lower C)) (c_upper C))
  | MCreep mr =>
      let* k := integers (length pop) in
      let* j := integers (c_dim C) in
      let* a := nthP pop k in
      mapM (ga_mut_comp C mr (fst a) j) (seq 0 (c_dim C))
  end.

Record ga_par : Type := GAPar { ga_n : nat; ga_s : ga_sel; ga_x : ga_cross; ga_m : ga_mut }.
(** ga.py:363-370 *)
Definition ga_step (F : fops) (C : cfg) (p : ga_par) (pop : list ind) (s : list ind * vec * num) (i : nat) : prog (list ind * vec * num) :=
  let '(new, xb, fxb) := s in
  let* _ := ga_select F (ga_s p) pop i xb in
  let* _ := ga_crossover F (ga_x p) pop i in
  let* y := ga_mutate F C (ga_m p) pop i in
  let* c := ind_evaluate y in
  if fltb (snd c) fxb then let* (xb', fxb') := lift (get_best1 (fst c) (snd c) (Some xb) fxb) in Done (new ++ [c], xb', fxb')
  else Done (new ++ [c], xb, fxb).
(** ga.py:342-371 *)
Definition ga_iter (F : fops) (C : cfg) (p : ga_par) (pop : list ind) (fit : list num) (xb : vec) (fxb : num) (u : unit)
  : prog (list ind * list num * vec * num * unit) :=
  let* (new, xb', fxb') := for_range (ga_n p) (ga_step F C p pop) ([], xb, fxb) in
  Done (new, map snd new, xb', fxb', u).
Definition ga_init (C : cfg) (n : nat) : prog (list ind * list num * unit) :=
  let* (pop, fit) := default_individual_init C n in Done (pop, fit, tt).
Definition ga (F : fops) (C : cfg) (p : ga_par) : algo :=
  Algo (list ind) unit (map fst) (ga_init C (ga_n p)) (ga_iter F C p).

(** ** BeesAlgorithm (bea.py) *)
Record bea_par : Type := BEAPar { be_n : nat; be_m : nat; be_e : nat; be_ngh : num; be_nep : nat; be_nsp : nat }.
(** bea.py:122-141 *)
Definition bee_dance (F : fops) (C : cfg) (ngh : num) (x : vec) : prog (vec * num) :=
  let* k := integers (c_dim C) in
  let* a := nthP x k in
  let* r := uniform (fneg ngh) ngh in
  let* y := repair (upd x k (fadd F a r)) in
  let* f := eval y in
  Done (y, f).
(** bea.py:190-199 (= 201-210): [k] dances around row i *)
Definition bea_site (F : fops) (C : cfg) (ngh : num) (k : nat) (s : list vec * list num) (i : nat) : prog (list vec * list num) :=
  let* (bp, bc) := for_range k (fun b _ =>
      let* x := nthP (fst s) i in
      let* (y, f) := bee_dance F C ngh x in
      Done (if fltb f (snd b) then (Some y, f) else b)) (None, PInf) in
  let* fi := nthP (snd s) i in
  if fltb bc fi then
    match bp with
    | Some y => let* pop := setP (fst s) i y in let* fit := setP (snd s) i bc in Done (pop, fit)
    | None => Fail EType
    end
  else Done s.
(** bea.py:211-213 for row i *)
Definition bea_scout (C : cfg) (s : list vec * list num) (i : nat) : prog (list vec * list num) :=
  let* x := uniform_vec (c_lower C) (c_upper C) in
  let* pop := setP (fst s) i x in
  let* f := eval x in
  let* fit := setP (snd s) i f in
  Done (pop, fit).
(** bea.py:166-218; argsort as in AlgPSO.v (stable) *)
Definition bea_iter (F : fops) (C : cfg) (p : bea_par) (pop : list vec) (fit : list num) (xb : vec) (fxb : num) (ngh : num)
  : prog (list vec * list num * vec * num * num) :=
  let* s1 := foldM (bea_site F C ngh (be_nep p)) (seq 0 (be_e p)) (pop, fit) in
  let* s2 := foldM (bea_site F C ngh (be_nsp p)) (seq (be_e p) (be_m p - be_e p)) s1 in
  let* s3 := foldM (bea_scout C) (seq (be_m p) (be_n p - be_m p)) s2 in
  let so := sort_by (combine (fst s3) (snd s3)) in
  let* b := nthP so 0 in
  Done (map fst so, map snd so, fst b, snd b, fmul F ngh (flit F 95 100)).
(** bea.py:143-164 *)
Definition bea_init (C : cfg) (p : bea_par) : prog (list vec * list num * num) :=
  let* (pop, fit) := default_numpy_init C (be_n p) in
  let so := sort_by (combine pop fit) in
  Done (map fst so, map snd so, be_ngh p).
Definition bea (F : fops) (C : cfg) (p : bea_par) : algo :=
  Algo (list vec) num (fun pop => pop) (bea_init C p) (bea_iter F C p).

(** ** ClonalSelectionAlgorithm (clonalg.py) *)
(** one member: a bit string per component *)
Definition bits : Type := list (list bool).
Record cl_par : Type := CLPar { cl_n : nat; cl_factor : num; cl_mut : num; cl_rand : nat; cl_bits : nat }.
(** np.sum(bits * 2 ** [b-1, ..., 0]): the integer value, most significant bit first *)
Definition bin_val (bs : list bool) : Z := fold_left (fun z (b : bool) => (2 * z + (if b then 1 else 0))%Z) bs 0%Z.
(** clonalg.py:120-123 for one member *)
Definition cl_decode (F : fops) (C : cfg) (b : nat) (m : bits) : vec :=
  map3 (fun lo hi bs => fadd F lo (fdiv F (fmul F (fsub F hi lo) (fz F (bin_val bs))) (fz F (2 ^ Z.of_nat b - 1))))
       (c_lower C) (c_upper C) m.
(** a member of the population: bit string, point, fitness; the three arrays are sorted together *)
Definition clm : Type := (bits * vec * num)%type.
Definition cl_fit (a : clm) : num := snd a.
Definition cl_pt (a : clm) : vec := snd (fst a).
Definition cl_bs (a : clm) : bits := fst (fst a).
Fixpoint cl_insert (x : clm) (xs : list clm) : list clm :=
  match xs with [] => [x] | y :: r => if key_le (cl_fit x) (cl_fit y) then x :: xs else y :: cl_insert x r end.
Definition cl_sort (xs : list clm) : list clm := fold_right cl_insert [] xs.
(** clonalg.py:125-128 *)
Definition cl_evaluate (F : fops) (C : cfg) (b : nat) (ms : list bits) : prog (list clm) :=
  match ms with
  | [] => Fail EValue
  | _ => mapM (fun m => let x := cl_decode F C b m in let* f := eval x in Done (m, x, f)) ms
  end.
(** clonalg.py:130-133: flips the bits whose draw is above the rate *)
Definition cl_mutate (rate : num) (m : bits) : prog bits :=
  mapM (mapM (fun a => let* r := random in Done (if fltb rate r then negb a else a))) m.
(** random(shape) > 0.5 *)
Definition cl_random (F : fops) (n d b : nat) : prog (list bits) :=
  repeatM n (repeatM d (repeatM b (let* r := random in Done (fltb (flit F 1 2) r)))).
(** clonalg.py:77, 99 *)
Definition cl_clones (F : fops) (p : cl_par) : nat := Z.to_nat (fint F (fmul F (fnat F (cl_n p)) (cl_factor p))).
(** clonalg.py:135-151.  Clone number i is a copy of member i // num_clones. *)
Definition cl_hyper (F : fops) (C : cfg) (p : cl_par) (s : list clm) : prog (list clm) :=
  let* ms := mapM (fun a => cl_mutate (fexp F (fmul F (fneg (cl_mut p)) (cl_fit a))) (cl_bs a))
                  (flat_map (fun a => repeat a (cl_clones F p)) s) in
  let* new := cl_evaluate F C (cl_bits p) ms in
  Done (firstn (cl_n p) (cl_sort (s ++ new))).
(** clonalg.py:153-168 *)
Definition cl_insertion (F : fops) (C : cfg) (p : cl_par) (s : list clm) : prog (list clm) :=
  if cl_rand p =? 0 then Done s
  else
    let* ms := cl_random F (cl_rand p) (c_dim C) (cl_bits p) in
    let* new := cl_evaluate F C (cl_bits p) ms in
    Done (firstn (cl_n p) (cl_sort (s ++ new))).
(** clonalg.py:170-189; the bit strings are carried with the points, so no other state is needed *)
Definition cl_init (F : fops) (C : cfg) (p : cl_par) : prog (list clm * list num * unit) :=
  let* ms := cl_random F (cl_n p) (c_dim C) (cl_bits p) in
  let* s := cl_evaluate F C (cl_bits p) ms in
  Done (s, map cl_fit s, tt).
(** clonalg.py:191-221 *)
Definition cl_iter (F : fops) (C : cfg) (p : cl_par) (s : list clm) (fit : list num) (xb : vec) (fxb : num) (u : unit)
  : prog (list clm * list num * vec * num * unit) :=
  let* s1 := cl_hyper F C p s in
  let* (x1, f1) := lift (get_best (map cl_pt s1) (map cl_fit s1) (Some xb) fxb) in
  let* s2 := cl_insertion F C p s1 in
  let* (x2, f2) := lift (get_best (map cl_pt s2) (map cl_fit s2) (Some x1) f1) in
  Done (s2, map cl_fit s2, x2, f2, u).
Definition clonalg (F : fops) (C : cfg) (p : cl_par) : algo :=
  Algo (list clm) unit (map cl_pt) (cl_init F C p) (cl_iter F C p).

(** ** BareBonesFireworksAlgorithm (fwa.py:18-159) *)
Record bb_par : Type := BBPar { bb_num : nat; bb_ca : num; bb_cr : num }.
(** the state: [bb_flat] tells whether [population] is a vector (a spark, line 151) or still the 1 x d
    matrix of the initialisation *)
Record bb_state : Type := BBState { bb_amp : vec; bb_flat : bool }.
(** fwa.py:108-124; population_size is 1 *)
Definition bb_init (F : fops) (C : cfg) : prog (list vec * list num * bb_state) :=
  let* (pop, fit) := default_numpy_init C 1 in
  Done (pop, fit, BBState (vsub F (c_upper C) (c_lower C)) false).
(** fwa.py:126-159; the only row of [population] is the firework *)
Definition bb_iter (F : fops) (C : cfg) (p : bb_par) (pop : list vec) (fit : list num) (xb : vec) (fxb : num) (t : bb_state)
  : prog (list vec * list num * vec * num * bb_state) :=
  let* x := nthP pop 0 in
  let* fx := nthP fit 0 in
  let* sparks := repeatM (bb_num p) (uniform_vec (vsub F x (bb_amp t)) (vadd F x (bb_amp t))) in
  let* sparks := repair_all sparks in
  let* sf := eval_all sparks in
  match argmin sf with
  | None => Fail EValue
  | Some bi =>
      let* sb := nthP sparks bi in
      let* fb := nthP sf bi in
      if fltb fb fx then Done ([sb], [fb], sb, fb, BBState (vscale F (bb_ca p) (bb_amp t)) true)
      else Done (pop, fit, x, fx, BBState (vscale F (bb_cr p) (bb_amp t)) (bb_flat t))
  end.
Definition bbfwa (F : fops) (C : cfg) (p : bb_par) : algo :=
  Algo (list vec) bb_state (fun pop => pop) (bb_init F C) (bb_iter F C p).
