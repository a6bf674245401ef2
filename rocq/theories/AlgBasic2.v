(** Model of /repo/src/niapy/algorithms/basic/{hho,abc,mbo,foa,cso}.py. *)
From Coq Require Import ZArith Lia Bool List.
From Verif Require Import Num Task Prog GetBest Run AlgoLib Fops Indiv Repair AlgPSO AlgSwarm AlgBasic.
Import ListNotations.

(** hho.py:170-175, foa.py:267-270 and cso.py:277-279: argmin of the fitness, taken only when strictly better *)
Definition take_best (pop : list vec) (fit : list num) (xb : vec) (fxb : num) : prog (vec * num) :=
  match argmin fit with
  | None => Fail EValue
  | Some i =>
      let* x := nthP pop i in
      let* f := nthP fit i in
      Done (if fltb f fxb then (x, f) else (xb, fxb))
  end.

(** ** HarrisHawksOptimization (hho.py:16-176) *)
Record hho_par : Type := HHOPar { hh_n : nat; hh_levy : num }.
(** util/random.py:8-25 with the given alpha and beta = 1.5: first all u = normal(0, sigma), then all v = normal(0, 1) *)
Definition levy_a (F : fops) (alpha u v : num) : num :=
  fdiv F (fmul F alpha u) (fpow F (fabs F v) (fdiv F (flit F 1 1) (flit F 3 2))).
Definition levy_vec_a (F : fops) (alpha : num) (d : nat) : prog vec :=
  let* u := rnd_f_vec d in let* v := rnd_f_vec d in Done (map2 (levy_a F alpha) u v).
(** hho.py:116 *)
Definition hho_factor (F : fops) (C : cfg) (iters : nat) : num :=
  fmul F (flit F 2 1) (fsub F (flit F 1 1) (fdiv F (fnat F (S iters)) (flim F (c_max_iters C)))).
(** np.mean of the whole population (hho.py:117), one number *)
Definition mean_all (F : fops) (rows : list vec) : num := vmean F (concat rows).
(** hho.py:147-154 and 157-164, [target] being the argument of the first repair *)
Definition hho_dive (F : fops) (C : cfg) (p : hho_par) (x : vec) (f : num) (target : vec) : prog vec :=
  let* c1 := repair target in
  let* r := random_vec (c_dim C) in
  let* s := levy_vec_a F (hh_levy p) (c_dim C) in
  let* c2 := repair (vadd F c1 (vmul F r s)) in
  let* f1 := eval c1 in
  if fltb f1 f then Done c1
  else
    let* f2 := eval c2 in
    Done (if fltb f2 f then c2 else x).
(** hho.py:120-164: the position of hawk i before the final repair *)
Definition hho_move (F : fops) (C : cfg) (p : hho_par) (fac mean : num) (xb : vec) (pop : list vec) (fit : list num) (i : nat) : prog vec :=
  let half := flit F 1 2 in
  let one := flit F 1 1 in
  let* jump := uniform (flit F 0 1) (flit F 2 1) in
  let* u := uniform (flit F (-1) 1) one in
  let e := fmul F fac u in
  let ea := fabs F e in
  let* r := random in
  let* x := nthP pop i in
  if fleb one e && fleb half r then
    let* h := integers (hh_n p) in
    let* y := nthP pop h in
    let* a := random in
    let* b := random in
    Done (vsub F y (vscale F a (map (fabs F) (vsub F y (vscale F (fmul F (flit F 2 1) b) x)))))
  else if fleb one ea && fltb r half then
    let* a := random in
    let* z := uniform_vec (c_lower C) (c_upper C) in
    Done (vsub F (map (fun c => fsub F c mean) xb) (vscale F a z))
  else if fleb half ea && fleb half r then
    Done (vsub F (vsub F xb x) (vscale F e (map (fabs F) (vsub F (vscale F jump xb) x))))
  else if fltb ea half && fleb half r then
    Done (vsub F xb (vscale F e (map (fabs F) (vsub F xb x))))
  else if fleb half ea && fltb r half then
    let* f := nthP fit i in
    hho_dive F C p x f (vsub F xb (vscale F e (map (fabs F) (vsub F (vscale F jump xb) x))))
  else if fltb ea half && fltb r half then
    let* f := nthP fit i in
    hho_dive F C p x f (vsub F xb (vscale F e (map (fun c => fabs F (fsub F c mean)) (vscale F jump xb))))
  else Done x.
(** hho.py:119-168 *)
Definition hho_step (F : fops) (C : cfg) (p : hho_par) (fac mean : num) (xb : vec) (s : list vec * list num) (i : nat) : prog (list vec * list num) :=
  let* x := hho_move F C p fac mean xb (fst s) (snd s) i in
  let* y := repair x in
  let* pop := setP (fst s) i y in
  let* f := eval y in
  let* fit := setP (snd s) i f in
  Done (pop, fit).
(** hho.py:96-176 *)
Definition hho_iter (F : fops) (C : cfg) (p : hho_par) (pop : list vec) (fit : list num) (xb : vec) (fxb : num) (u : unit)
  : prog (list vec * list num * vec * num * unit) :=
  let* v := view in
  let* (pop', fit') := for_range (hh_n p) (hho_step F C p (hho_factor F C (v_iters v)) (mean_all F pop) xb) (pop, fit) in
  let* (xb', fxb') := take_best pop' fit' xb fxb in
  Done (pop', fit', xb', fxb', u).
Definition hho (F : fops) (C : cfg) (p : hho_par) : algo :=
  Algo (list vec) unit (fun pop => pop) (plain_init C (hh_n p)) (hho_iter F C p).

(** ** ArtificialBeeColonyAlgorithm (abc.py:33-218) *)
Record abc_par : Type := ABCPar { ab_n : nat; ab_limit : Z }.
(** abc.py:89 *)
Definition ab_food (p : abc_par) : nat := ab_n p / 2.
Record colony : Type := Colony { co_pop : list ind; co_tr : list Z; co_xb : vec; co_fxb : num }.
(** abc.py:115-126.  Division by zero gives what [fdiv] gives (Python floats would raise ZeroDivisionError). *)
Definition abc_probs (F : fops) (p : abc_par) (pop : list ind) : list num :=
  let q := map (fun a => fdiv F (flit F 1 1) (fadd F (snd a) (flit F 1 100))) (firstn (ab_food p) pop) in
  map (fun a => fdiv F a (vsum F q)) q.
(** int(food_number * random()) (abc.py:175) *)
Definition food_index (F : fops) (n : nat) : prog nat :=
  let* r := random in Done (Z.to_nat (fint F (fmul F (fnat F n) r))).
(** abc.py:197-199; the fuel bounds the number of draws *)
Fixpoint abc_neighbor (F : fops) (n s : nat) (fuel : nat) : prog nat :=
  match fuel with
  | O => Fail EFuel
  | S fu => let* k := food_index F n in if k =? s then abc_neighbor F n s fu else Done k
  end.
(** abc.py:176-178 and 200-202: component k of food source x against x_n *)
Definition abc_candidate (F : fops) (x xn : vec) (k : nat) : prog ind :=
  let* a := nthP x k in
  let* b := nthP xn k in
  let* u := uniform (flit F (-1) 1) (flit F 1 1) in
  let* y := setP x k (fadd F a (fmul F u (fsub F a b))) in
  ind_evaluate y.
(** abc.py:188-190 *)
Definition abc_scout (C : cfg) (s : colony) (i : nat) : prog colony :=
  let* a := rand_ind C in
  let* pop := setP (co_pop s) i a in
  let* tr := setP (co_tr s) i 0%Z in
  Done (if fltb (snd a) (co_fxb s) then Colony pop tr (fst a) (snd a) else Colony pop tr (co_xb s) (co_fxb s)).
(** abc.py:179-190 (k = i) and 203-214 (k = the last food source, whose counter line 211 looks at) *)
Definition abc_select (C : cfg) (p : abc_par) (s : colony) (i k : nat) (a : ind) : prog colony :=
  let* o := nthP (co_pop s) i in
  if fltb (snd a) (snd o) then
    let* pop := setP (co_pop s) i a in
    let* tr := setP (co_tr s) i 0%Z in
    Done (if fltb (snd a) (co_fxb s) then Colony pop tr (fst a) (snd a) else Colony pop tr (co_xb s) (co_fxb s))
  else
    let* t := nthP (co_tr s) i in
    let* tr := setP (co_tr s) i (t + 1)%Z in
    let* tk := nthP tr k in
    let s' := Colony (co_pop s) tr (co_xb s) (co_fxb s) in
    if (ab_limit p <=? tk)%Z then abc_scout C s' k else Done s'.
(** abc.py:173-190 *)
Definition abc_employed (F : fops) (C : cfg) (p : abc_par) (s : colony) (i : nat) : prog colony :=
  let* o := nthP (co_pop s) i in
  let* k := rand_index F (c_dim C) in
  let* n := food_index F (ab_food p) in
  let* nb := nthP (co_pop s) n in
  let* a := abc_candidate F (fst o) (fst nb) k in
  abc_select C p s i i a.
(** abc.py:195-214 *)
Definition abc_onlooker (F : fops) (C : cfg) (p : abc_par) (fuel : nat) (s : colony) (i : nat) : prog colony :=
  let* o := nthP (co_pop s) i in
  let* k := rand_index F (c_dim C) in
  let* n := abc_neighbor F (ab_food p) i fuel in
  let* nb := nthP (co_pop s) n in
  let* a := abc_candidate F (fst o) (fst nb) k in
  abc_select C p s i (ab_food p - 1) a.
(** abc.py:192-217; the fuel bounds the number of turns of the loop *)
Fixpoint abc_onlookers (F : fops) (C : cfg) (p : abc_par) (nfuel : nat) (probs : list num) (fuel t i : nat) (s : colony) : prog colony :=
  if ab_food p <=? t then Done s else
  match fuel with
  | O => Fail EFuel
  | S fu =>
      let* r := random in
      let* q := nthP probs i in
      let j := if S i =? ab_food p then 0 else S i in
      if fltb r q then
        let* s' := abc_onlooker F C p nfuel s i in
        abc_onlookers F C p nfuel probs fu (S t) j s'
      else abc_onlookers F C p nfuel probs fu t j s
  end.
(** abc.py:149-218 *)
Definition abc_iter (F : fops) (C : cfg) (p : abc_par) (fuel : nat) (pop : list ind) (fit : list num) (xb : vec) (fxb : num) (tr : list Z)
  : prog (list ind * list num * vec * num * list Z) :=
  let* s := for_range (ab_food p) (abc_employed F C p) (Colony pop tr xb fxb) in
  let* s' := abc_onlookers F C p fuel (abc_probs F p (co_pop s)) fuel 0 0 s in
  Done (co_pop s', map snd (co_pop s'), co_xb s', co_fxb s', co_tr s').
(** abc.py:128-147 *)
Definition abc_init (C : cfg) (p : abc_par) : prog (list ind * list num * list Z) :=
  let* (pop, fit) := default_individual_init C (ab_n p) in
  Done (pop, fit, repeat 0%Z (ab_food p)).
Definition abc (F : fops) (C : cfg) (p : abc_par) (fuel : nat) : algo :=
  Algo (list ind) (list Z) (fun pop => map fst pop) (abc_init C p) (abc_iter F C p fuel).

(** ** MonarchButterflyOptimization (mbo.py:15-270); [mb_keep] is 2 in the source, [mb_bar] is the partition (75-77);
    [mb_inplace]: does the repair function change its argument?  In the first iteration the entry current_best is
    a view of the first row of the population (233), see [mbo_iter]. *)
Record mbo_par : Type := MBOPar { mb_n : nat; mb_partition : num; mb_period : num; mb_keep : nat; mb_bar : num; mb_inplace : bool }.
(** mbo.py:78-79; for a negative partition the model uses 0 where Python slices from the end *)
Definition mb_np1 (F : fops) (p : mbo_par) : nat :=
  Z.to_nat (fint F (fneg (ffloor F (fneg (fmul F (mb_partition p) (fnat F (mb_n p))))))).
Definition mb_np2 (F : fops) (p : mbo_par) : nat := mb_n p - mb_np1 F p.
(** b[k, i] = c *)
Definition set2 (b : list vec) (k i : nat) (c : num) : prog (list vec) :=
  let* row := nthP b k in
  let* row' := setP row i c in
  setP b k row'.
Definition nth2 (b : list vec) (k i : nat) : prog num := let* row := nthP b k in nthP row i.
(** mbo.py:150-156 *)
Definition mbo_migrate1 (F : fops) (p : mbo_par) (pop1 pop2 : list vec) (k : nat) (b : list vec) (i : nat) : prog (list vec) :=
  let* r := random in
  let* c := (if fleb (fmul F r (mb_period p)) (mb_partition p)
             then let* j := integers (mb_np1 F p - 1) in nth2 pop1 j i
             else let* j := integers (mb_np2 F p - 1) in nth2 pop2 j i) in
  set2 b k i c.
(** mbo.py:133-157 *)
Definition mbo_migrate (F : fops) (C : cfg) (p : mbo_par) (pop : list vec) : prog (list vec) :=
  let pop1 := firstn (mb_np1 F p) pop in
  let pop2 := skipn (mb_np1 F p) pop in
  for_range (mb_np1 F p) (fun b k => for_range (c_dim C) (mbo_migrate1 F p pop1 pop2 k) b) pop.
(** mbo.py:119-131; [pi] is np.pi *)
Definition mbo_levy (F : fops) (pi : num) (d : nat) : prog vec :=
  mapM (fun _ => let* u := mapM (fun _ => uniform (flit F 0 1) (flit F 1 1)) (seq 0 10) in
                 Done (vsum F (map (fun a => ftan F (fmul F pi a)) u))) (seq 0 d).
(** mbo.py:181-187 *)
Definition mbo_adjust1 (F : fops) (p : mbo_par) (scale : num) (pop2 : list vec) (best delta : vec) (k : nat) (b : list vec) (i : nat) : prog (list vec) :=
  let* u := uniform (flit F 0 1) (flit F 1 1) in
  if fleb (mb_partition p) u then
    let* c := nthP best i in set2 b k i c
  else
    let* j := integers (mb_np2 F p - 1) in
    let* c := nth2 pop2 j 1 in
    let* u' := uniform (flit F 0 1) (flit F 1 1) in
    let* e := nthP delta i in
    set2 b k i (if fltb (mb_bar p) u' then fadd F c (fmul F scale (fsub F e (flit F 1 2))) else c).
(** mbo.py:159-188, the draw of 178 is not used *)
Definition mbo_adjust (F : fops) (C : cfg) (pi : num) (p : mbo_par) (t : nat) (best : vec) (pop : list vec) : prog (list vec) :=
  let pop2 := skipn (mb_np1 F p) pop in
  let scale := fdiv F (flit F 1 1) (fz F (Z.of_nat (S t) * Z.of_nat (S t))) in
  for_range (mb_np2 F p) (fun b k =>
    let* st := rnd_f in
    let* delta := mbo_levy F pi (c_dim C) in
    for_range (c_dim C) (mbo_adjust1 F p scale pop2 best delta (mb_np1 F p + k)) b) pop.
(** mbo.py:190-210 *)
Definition mbo_evaluate (pop : list vec) : prog (list vec * list num) :=
  let* fit := eval_all pop in
  let s := sort_by (combine pop fit) in
  Done (map fst s, map snd s).
(** mbo.py:235-270; [cb] is None in the first iteration *)
Definition mbo_iter (F : fops) (C : cfg) (pi : num) (p : mbo_par) (pop : list vec) (fit : list num) (xb : vec) (fxb : num) (cb : option vec)
  : prog (list vec * list num * vec * num * option vec) :=
  let elite := firstn (mb_keep p) pop in
  let* v := view in
  let* m := mbo_migrate F C p pop in
  let* pop1 := repair_all m in
  let* best := (match cb with Some b => Done b | None => nthP (if mb_inplace p then pop1 else m) 0 end) in
  let* a := mbo_adjust F C pi p (v_iters v) best pop1 in
  let* pop2 := repair_all a in
  let* (pop3, fit3) := mbo_evaluate pop2 in
  let pop4 := firstn (length pop3 - mb_keep p) pop3 ++ elite in
  let* cb' := nthP pop4 0 in
  let* (pop5, fit5) := mbo_evaluate pop4 in
  let* (xb', fxb') := lift (get_best pop5 fit5 (Some xb) fxb) in
  Done (pop5, fit5, xb', fxb', Some cb').
(** mbo.py:212-233 *)
Definition mbo_init (C : cfg) (n : nat) : prog (list vec * list num * option vec) :=
  let* (pop, fit) := default_numpy_init C n in
  let s := sort_by (combine pop fit) in
  Done (map fst s, map snd s, None).
Definition mbo (F : fops) (C : cfg) (pi : num) (p : mbo_par) : algo :=
  Algo (list vec) (option vec) (fun pop => pop) (mbo_init C (mb_n p)) (mbo_iter F C pi p).

(** ** ForestOptimizationAlgorithm (foa.py:15-271) *)
Record foa_par : Type := FOAPar { fo_n : nat; fo_life : nat; fo_area : nat; fo_lsc : nat; fo_gsc : nat; fo_rate : num }.
Record tree : Type := Tree { tr_x : vec; tr_age : nat }.
(** foa.py:229 *)
Definition fo_dx (F : fops) (C : cfg) : vec := map (fun u => fdiv F (fabs F u) (flit F 5 1)) (c_upper C).
(** foa.py:142-144 *)
Definition foa_lseed (F : fops) (C : cfg) (p : foa_par) (x : vec) : prog vec :=
  let* idx := choice (c_dim C) (fo_lsc p) in
  let* y := foldM (fun y j =>
    let* d := nthP (fo_dx F C) j in
    let* u := uniform (fneg d) d in
    let* a := nthP y j in
    setP y j (fadd F a u)) idx x in
  repair y.
(** foa.py:129-145 *)
Definition foa_local (F : fops) (C : cfg) (p : foa_par) (xs : list vec) : prog (list vec) :=
  mapM (foa_lseed F C p) (concat (map (fun x => repeat x (fo_lsc p)) xs)).
(** foa.py:161-162 *)
Definition foa_gseed (C : cfg) (p : foa_par) (x : vec) : prog vec :=
  let* idx := choice (c_dim C) (fo_gsc p) in
  foldM (fun y j =>
    let* lo := nthP (c_lower C) j in
    let* hi := nthP (c_upper C) j in
    let* u := uniform lo hi in
    setP y j u) idx x.
(** foa.py:147-163 *)
Definition foa_global (C : cfg) (p : foa_par) (cand : list vec) (k : nat) : prog (list vec) :=
  let* idx := choice (length cand) k in
  mapM (fun i => let* x := nthP cand i in foa_gseed C p x) idx.
(** argsort of evaluated trees (foa.py:203), stable *)
Fixpoint ins_on {A} (key : A -> num) (x : A) (xs : list A) : list A :=
  match xs with [] => [x] | y :: r => if key_le (key x) (key y) then x :: xs else y :: ins_on key x r end.
Definition sort_on {A} (key : A -> num) (xs : list A) : list A := fold_right (ins_on key) [] xs.
(** foa.py:185-208: kept trees with their fitness, and what is moved to the candidates *)
Definition foa_survival (p : foa_par) (ts : list tree) : prog (list (tree * num) * list vec) :=
  let* fs := eval_all (map tr_x ts) in
  let s := sort_on snd (combine ts fs) in
  Done (firstn (fo_area p) s, map (fun a => tr_x (fst a)) (skipn (fo_area p) s)).
(** foa.py:260-266 *)
Definition foa_transfer (F : fops) (C : cfg) (p : foa_par) (cand : list vec) : prog (list (tree * num)) :=
  let k := fint F (fmul F (fo_rate p) (fnat F (length cand))) in
  if (0 <? k)%Z then
    let* gs := foa_global C p cand (Z.to_nat k) in
    let* fs := eval_all gs in
    Done (combine (map (fun x => Tree x 0) gs) fs)
  else Done [].
(** age[ib] = 0 (foa.py:268) *)
Definition foa_rejuvenate (ages : list nat) (fit : list num) : list nat :=
  match argmin fit with Some i => upd ages i 0 | None => ages end.
(** foa.py:232-271; ages as in params['age'] *)
Definition foa_iter (F : fops) (C : cfg) (p : foa_par) (pop : list vec) (fit : list num) (xb : vec) (fxb : num) (ages : list nat)
  : prog (list vec * list num * vec * num * list nat) :=
  let ts := map2 Tree pop ages in
  let* seeds := foa_local F C p (map tr_x (filter (fun t => tr_age t =? 0) ts)) in
  let old := map (fun t => Tree (tr_x t) (S (tr_age t))) ts in
  let dead := map tr_x (filter (fun t => fo_life p <? tr_age t) old) in
  let live := filter (fun t => negb (fo_life p <? tr_age t)) old in
  let* (kept, excess) := foa_survival p (live ++ map (fun x => Tree x 0) seeds) in
  let* new := foa_transfer F C p (dead ++ excess) in
  let all := kept ++ new in
  let pop' := map (fun a => tr_x (fst a)) all in
  let fit' := map snd all in
  let* (xb', fxb') := take_best pop' fit' xb fxb in
  Done (pop', fit', xb', fxb', foa_rejuvenate (map (fun a => tr_age (fst a)) all) fit').
(** foa.py:210-230 *)
Definition foa_init (C : cfg) (p : foa_par) : prog (list vec * list num * list nat) :=
  let* (pop, fit) := default_numpy_init C (fo_n p) in
  Done (pop, fit, repeat 0 (fo_n p)).
Definition foa (F : fops) (C : cfg) (p : foa_par) : algo :=
  Algo (list vec) (list nat) (fun pop => pop) (foa_init C p) (foa_iter F C p).

(** ** CatSwarmOptimization (cso.py:16-280) *)
Record cso_par : Type := CSOPar { ct_n : nat; ct_mr : num; ct_c1 : num; ct_smp : nat; ct_spc : bool; ct_cdc : num; ct_srd : num; ct_vmax : num }.
(** cso.py:142-152: the cats in tracing mode; numpy rejects a negative number of draws *)
Definition cso_tracing (F : fops) (p : cso_par) : prog (list nat) :=
  let k := fint F (fmul F (fnat F (ct_n p)) (ct_mr p)) in
  if (k <? 0)%Z then Fail EValue else choice (ct_n p) (Z.to_nat k).
(** xs[:k] *)
Definition take_z {A} (k : Z) (xs : list A) : list A :=
  if (k <? 0)%Z then firstn (length xs - Z.to_nat (- k)) xs else firstn (Z.to_nat k) xs.
(** cso.py:189-198 *)
Definition cso_copy (F : fops) (C : cfg) (p : cso_par) (x : vec) : prog (vec * num) :=
  let* idx := permutation (c_dim C) in
  let sel := take_z (fint F (fmul F (fnat F (c_dim C)) (ct_cdc p))) idx in
  let* up := integers 2 in
  let y := map2 (fun k a => if existsb (Nat.eqb k) sel
                            then (if up =? 1 then fadd F a (fmul F a (ct_srd p)) else fsub F a (fmul F a (ct_srd p)))
                            else a) (seq 0 (length x)) x in
  let* z := repair y in
  let* f := eval z in
  Done (z, f).
(** cso.py:203-211 *)
Definition cso_weights (F : fops) (fs : list num) (worst best : num) : list num :=
  match fs with
  | [] => []
  | f0' :: _ =>
      if existsb (fun a => negb (feqb a f0')) fs then
        match worst with
        | PInf | NInf => map (fun _ => worst) fs
        | _ => map (fun a => fdiv F (fabs F (fsub F a worst)) (fsub F worst best)) fs
        end
      else map (fun _ => flit F 1 1) fs
  end.
(** np.cumsum *)
Fixpoint cumsum_from (F : fops) (s : num) (xs : list num) : list num :=
  match xs with [] => [] | a :: r => fadd F s a :: cumsum_from F (fadd F s a) r end.
Definition cumsum (F : fops) (xs : list num) : list num :=
  match xs with [] => [] | a :: r => a :: cumsum_from F a r end.
(** np.argmax of booleans: the first True, otherwise 0 *)
Fixpoint first_true (bs : list bool) : option nat :=
  match bs with [] => None | true :: _ => Some 0 | false :: r => option_map S (first_true r) end.
(** cso.py:154-165 *)
Definition cso_select (F : fops) (ws : list num) : prog nat :=
  let cs := cumsum F ws in
  let* r := random in
  match cs with
  | [] => Fail EIndex
  | _ => Done (match first_true (map (fun c => fleb (fmul F r (last cs NaN)) c) cs) with Some i => i | None => 0 end)
  end.
(** cso.py:167-217 *)
Definition cso_seek (F : fops) (C : cfg) (p : cso_par) (x : vec) (f : num) (pop : list vec) (fit : list num) (fxb : num)
  : prog (vec * num * list vec * list num) :=
  let* cs := repeatM (if ct_spc p then ct_smp p - 1 else ct_smp p) (cso_copy F C p x) in
  let cs := if ct_spc p then cs ++ [(x, f)] else cs in
  let fs := map snd cs in
  match argmax fs, argmin fs with
  | Some iw, Some ib =>
      let* worst := nthP fs iw in
      let* best := nthP fs ib in
      let ws := cso_weights F fs worst best in
      let* (pop', fit') :=
        (if fltb best fxb then
           let* k := integers (ct_n p) in
           match first_true (map (fun a => feqb a best) fs) with
           | None => Fail EIndex
           | Some j =>
               let* y := nthP (map fst cs) j in
               let* pop' := setP pop k y in
               let* fit' := setP fit k best in
               Done (pop', fit')
           end
         else Done (pop, fit)) in
      let* s := cso_select F ws in
      let* z := nthP cs s in
      Done (fst z, snd z, pop', fit')
  | _, _ => Fail EValue
  end.
(** np.clip with scalar bounds (cso.py:234) *)
Definition clip_c (lo hi a : num) : num := np_min (np_max a lo) hi.
(** cso.py:219-237 *)
Definition cso_trace (F : fops) (C : cfg) (p : cso_par) (x v xb : vec) : prog (vec * num * vec) :=
  let* r := random_vec (length v) in
  let v' := map (clip_c (fneg (ct_vmax p)) (ct_vmax p)) (vadd F v (vmul F (vscaler F r (ct_c1 p)) (vsub F xb x))) in
  let* y := repair (vadd F x v') in
  let* f := eval y in
  Done (y, f, v').
Record cats : Type := Cats { ca_pop : list vec; ca_fit : list num; ca_v : list vec }.
(** cso.py:265-276 *)
Definition cso_step (F : fops) (C : cfg) (p : cso_par) (tracing : list nat) (xb : vec) (fxb : num) (s : cats) (k : nat) : prog cats :=
  let* x := nthP (ca_pop s) k in
  let* f := nthP (ca_fit s) k in
  if existsb (Nat.eqb k) tracing then
    let* v := nthP (ca_v s) k in
    let* (y, g, v') := cso_trace F C p x v xb in
    let* pop := setP (ca_pop s) k y in
    let* fit := setP (ca_fit s) k g in
    let* vs := setP (ca_v s) k v' in
    Done (Cats pop fit vs)
  else
    let* (y, g, pop, fit) := cso_seek F C p x f (ca_pop s) (ca_fit s) fxb in
    let* pop' := setP pop k y in
    let* fit' := setP fit k g in
    Done (Cats pop' fit' (ca_v s)).
(** cso.py:239-280 *)
Definition cso_iter (F : fops) (C : cfg) (p : cso_par) (pop : list vec) (fit : list num) (xb : vec) (fxb : num) (vs : list vec)
  : prog (list vec * list num * vec * num * list vec) :=
  let* tracing := cso_tracing F p in
  let* s := for_range (length pop) (cso_step F C p tracing xb fxb) (Cats pop fit vs) in
  let* (xb', fxb') := take_best (ca_pop s) (ca_fit s) xb fxb in
  Done (ca_pop s, ca_fit s, xb', fxb', ca_v s).
(** cso.py:122-140 *)
Definition cso_init (C : cfg) (p : cso_par) : prog (list vec * list num * list vec) :=
  let* (pop, fit) := default_numpy_init C (ct_n p) in
  let* vs := repeatM (ct_n p) (mapM (fun _ => uniform (fneg (ct_vmax p)) (ct_vmax p)) (seq 0 (c_dim C))) in
  Done (pop, fit, vs).
Definition cso (F : fops) (C : cfg) (p : cso_par) : algo :=
  Algo (list vec) (list vec) (fun pop => pop) (cso_init C p) (cso_iter F C p).
