(** Model of /repo/src/niapy/algorithms/other/mts.py. *)
From Coq Require Import ZArith Lia Bool List.
From Verif Require Import Num Task Prog GetBest Run AlgoLib Fops Repair Indiv AlgPSO AlgBasic AlgBasic2.
Import ListNotations.

(** What a local search returns (mts.py:79, 135, 207, 266, 312): the solution and its value, the best solution and its value,
    improve, grade and the search range.  Arrays are changed in place, and mts.py:568 passes the best solution as the current
    solution too: [l_b = None] says that best_x is the same array as current_x.  Every repair function of util/repair.py changes its argument
    in place and returns it, so repairing does not separate the two. *)
Record lsr : Type := LSR {
  l_x : vec; l_f : num; l_b : option vec; l_bf : num; l_imp : bool; l_g : num; l_sr : vec
}.
Definition l_best (r : lsr) : vec := match l_b r with Some b => b | None => l_x r end.

(** task.range *)
Definition trange (F : fops) (C : cfg) : vec := vsub F (c_upper C) (c_lower C).
(** mts.py:44-47 (and 109-112, 185-188) *)
Definition shrink1 (F : fops) (s r : num) : num :=
  let h := fdiv F s (flit F 2 1) in if fltb h (flit F 1 1000000000000000) then fmul F r (flit F 2 5) else h.
Definition shrink (F : fops) (C : cfg) (imp : bool) (sr : vec) : vec :=
  if imp then sr else map2 (shrink1 F) sr (trange F C).

(** mts.py:51-78, one pass of the loop; the state is (current_x, current_fitness, best_x, best_fitness, improve, grade) *)
Definition lst : Type := (vec * num * option vec * num * bool * num)%type.
Definition ls1_step (F : fops) (b1 b2 : num) (sr : vec) (s : lst) (i : nat) : prog lst :=
  let '(x, f, b, bf, imp, g) := s in
  let* old := nthP x i in
  let* si := nthP sr i in
  let* x1 := repair (upd x i (fsub F old si)) in
  let* v := eval x1 in
  let '(b', bf', g') := if fltb v bf then (Some x1, v, fadd F g b1) else (b, bf, g) in
  if feqb v f then let* y := setP x1 i old in Done (y, f, b', bf', imp, g')
  else if fltb f v then
    let* y := setP x1 i (fadd F old (fmul F (flit F 1 2) si)) in
    let* x2 := repair y in
    let* w := eval x2 in
    let '(b'', bf'', g'') := if fltb w bf' then (Some x2, w, fadd F g' b1) else (b', bf', g') in
    if fleb f w then let* z := setP x2 i old in Done (z, f, b'', bf'', imp, g'')
    else Done (x2, w, b'', bf'', true, fadd F g'' b2)
  else Done (x1, v, b', bf', true, fadd F g' b2).
(** mts.py:17-79 [mts_ls1] *)
Definition mts_ls1 (F : fops) (C : cfg) (b1 b2 : num) (x : vec) (f : num) (b : option vec) (bf : num) (imp : bool) (sr : vec) : prog lsr :=
  let sr' := shrink F C imp sr in
  let* s := for_range (length x) (ls1_step F b1 b2 sr') (x, f, b, bf, false, f0) in
  let '(x', f', b', bf', imp', g) := s in Done (LSR x' f' b' bf' imp' g sr').

(** mts.py:115-134, one pass of the loop *)
Definition ls1v1_step (F : fops) (b1 b2 : num) (sr d : vec) (s : lst) (i : nat) : prog lst :=
  let '(x, f, b, bf, imp, g) := s in
  let* old := nthP x i in
  let* si := nthP sr i in
  let* di := nthP d i in
  let* x1 := repair (upd x i (fsub F old (fmul F si di))) in
  let* v := eval x1 in
  if fltb v bf then Done (x1, f, Some x1, v, imp, fadd F g b1)
  else if feqb v f then let* y := setP x1 i old in Done (y, f, b, bf, imp, g)
  else if fltb f v then
    let* y := setP x1 i (fadd F old (fmul F (flit F 1 2) si)) in
    let* x2 := repair y in
    let* w := eval x2 in
    if fltb w bf then Done (x2, f, Some x2, w, imp, fadd F g b1)
    else if fleb f w then let* z := setP x2 i old in Done (z, f, b, bf, imp, g)
    else Done (x2, w, b, bf, true, fadd F g b2)
  else Done (x1, v, b, bf, true, fadd F g b2).
(** mts.py:82-135 [mts_ls1v1] *)
Definition mts_ls1v1 (F : fops) (C : cfg) (b1 b2 : num) (x : vec) (f : num) (b : option vec) (bf : num) (imp : bool) (sr : vec) : prog lsr :=
  let sr' := shrink F C imp sr in
  let* d := uniform_vec (repeat (fneg f1) (c_dim C)) (repeat f1 (c_dim C)) in
  let* s := for_range (length x) (ls1v1_step F b1 b2 sr' d) (x, f, b, bf, false, f0) in
  let '(x', f', b', bf', imp', g) := s in Done (LSR x' f' b' bf' imp' g sr').

(** mts.py:138-152 [move_x] over all components: op(x, search_range * d) where r is 0 *)
Definition move_x (F : fops) (op : num -> num -> num) (r : list nat) (x d sr : vec) : vec :=
  map2 (fun rx ds => if fst rx =? 0 then op (snd rx) (fmul F (snd ds) (fst ds)) else snd rx) (combine r x) (combine d sr).
(** mts.py:191-206, one pass of the loop *)
Definition ls2_step (F : fops) (b1 b2 : num) (sr : vec) (s : lst) (i : nat) : prog lst :=
  let '(x, f, b, bf, imp, g) := s in
  let* u := random_vec (length x) in
  let d := map (fun a => fadd F (fneg f1) (fmul F a (flit F 2 1))) u in
  let* r := repeatM (length x) (integers 4) in
  let* x1 := repair (move_x F (fsub F) r x d sr) in
  let* v := eval x1 in
  if fltb v bf then Done (x, f, Some x1, v, imp, fadd F g b1)
  else if feqb v f then Done s
  else if fltb f v then
    let* x2 := repair (move_x F (fadd F) r x d sr) in
    let* w := eval x2 in
    if fltb w bf then Done (x, f, Some x2, w, imp, fadd F g b1)
    else if fltb w f then Done (x2, w, b, bf, true, fadd F g b2)
    else Done s
  else Done (x1, v, b, bf, true, fadd F g b2).
(** mts.py:155-207 [mts_ls2]; here best_x is an array of its own *)
Definition mts_ls2 (F : fops) (C : cfg) (b1 b2 : num) (x : vec) (f : num) (b : option vec) (bf : num) (imp : bool) (sr : vec) : prog lsr :=
  let sr' := shrink F C imp sr in
  let* s := for_range (length x) (ls2_step F b1 b2 sr') (x, f, b, bf, false, f0) in
  let '(x', f', b', bf', imp', g) := s in Done (LSR x' f' b' bf' imp' g sr').

(** mts.py:248-249: current_fitness - fit, or 0 when fit is infinite *)
Definition ls3_d (F : fops) (f v : num) : num := match v with PInf | NInf => f0 | _ => fsub F f v end.
(** mts.py:242-247: a new best *)
Definition ls3_best (F : fops) (b1 : num) (y : vec) (v : num) (t : option vec * num * bool * num) : option vec * num * bool * num :=
  let '(b, bf, imp, g) := t in if fltb v bf then (Some y, v, true, fadd F g b1) else t.
(** mts.py:250-255 *)
Definition ls3_gain (F : fops) (b2 d : num) (t : bool * num) : bool * num := if fltb f0 d then (true, fadd F (snd t) b2) else t.
(** mts.py:238-265, one pass of the loop.  The state is that of the other searches with x_new and with current_x as an option: None
    after mts.py:265, when it is the same array as x_new. *)
Definition lst3 : Type := (vec * option vec * num * option vec * num * bool * num)%type.
Definition ls3_step (F : fops) (b1 b2 : num) (s : lst3) (i : nat) : prog lst3 :=
  let '(xn, c, f, b, bf, imp, g) := s in
  let* a := nthP xn i in
  let* x1 := repair (upd xn i (fadd F a (flit F 1 10))) in
  let* x2 := repair (upd xn i (fsub F a (flit F 1 10))) in
  let* x3 := repair (upd xn i (fadd F a (flit F 1 5))) in
  let* v1 := eval x1 in
  let* v2 := eval x2 in
  let* v3 := eval x3 in
  let '(b', bf', imp', g') := ls3_best F b1 x3 v3 (ls3_best F b1 x2 v2 (ls3_best F b1 x1 v1 (b, bf, imp, g))) in
  let d1 := ls3_d F f v1 in
  let d2 := ls3_d F f v2 in
  let d3 := ls3_d F f v3 in
  let '(imp'', g'') := ls3_gain F b2 d3 (ls3_gain F b2 d2 (ls3_gain F b2 d1 (imp', g'))) in
  let* ra := random in
  let* rb := random in
  let* rc := random in
  let wa := fadd F (flit F 2 5) (fmul F ra (flit F 1 10)) in
  let wb := fadd F (flit F 1 10) (fmul F rb (flit F 1 5)) in
  let step := fadd F (fadd F (fmul F wa (fsub F d1 d2)) (fmul F wb (fsub F d3 (fmul F (flit F 2 1) d1)))) rc in
  let* y := repair (upd xn i (fadd F a step)) in
  let* v := eval y in
  if fltb v f then
    if fltb v bf' then Done (y, None, v, Some y, v, true, fadd F g'' b1)
    else Done (y, None, v, b', bf', true, fadd F g'' b2)
  else Done (y, c, f, b', bf', imp'', g'').
(** mts.py:210-266 [mts_ls3]; improve is not reset at the start *)
Definition mts_ls3 (F : fops) (C : cfg) (b1 b2 : num) (x : vec) (f : num) (b : option vec) (bf : num) (imp : bool) (sr : vec) : prog lsr :=
  let* s := for_range (length x) (ls3_step F b1 b2) (x, Some x, f, b, bf, imp, f0) in
  let '(xn, c, f', b', bf', imp', g) := s in
  Done (LSR (match c with Some y => y | None => xn end) f' b' bf' imp' g sr).

(** np.argmin over the positions with value below [t]: the first smallest one *)
Fixpoint least (best : option (vec * num)) (rows : list (vec * num)) : option (vec * num) :=
  match rows with
  | [] => best
  | r :: rest => least (match best with None => Some r | Some b => if fltb (snd r) (snd b) then Some r else Some b end) rest
  end.
Definition below (t : num) (rows : list (vec * num)) : list (vec * num) := filter (fun r => fltb (snd r) t) rows.
(** mts.py:299: rng.permutation(current_x) + disp * rng.uniform(-1, 1, len(current_x)) *)
Definition ls3v1_row (F : fops) (x disp : vec) : prog vec :=
  let* pi := permutation (length x) in
  let* u := uniform_vec (repeat (fneg f1) (length x)) (repeat f1 (length x)) in
  Done (map2 (fadd F) (map (fun i => nth i x f0) pi) (map2 (fmul F) disp u)).
(** mts.py:310-311; np.fmin and np.fmax take the other number when one is NaN *)
Definition np_fmin (a b : num) : num := match a, b with NaN, _ => b | _, NaN => a | _, _ => if fltb b a then b else a end.
Definition np_fmax (a b : num) : num := match a, b with NaN, _ => b | _, NaN => a | _, _ => if fltb a b then b else a end.
Definition ls3v1_disp (F : fops) (C : cfg) (x disp : vec) : vec :=
  let two := map (fun d => fmul F (flit F 2 1) d) disp in
  let su := map2 np_fmin (c_upper C) (map2 (fadd F) x two) in
  let sl := map2 np_fmax (c_lower C) (map2 (fsub F) x two) in
  map (fun d => fdiv F d (flit F 10 1)) (map2 (fsub F) su sl).
(** mts.py:298-309, with phi = 3.  The grade of a pass is computed by Python from integers; here every operation is one of the
    arithmetic. *)
Definition ls3v1_pass (F : fops) (b1 b2 : num) (s : lst) (disp : vec) : prog lst :=
  let '(x, f, b, bf, imp, g) := s in
  let* ys := repeatM 3 (ls3v1_row F x disp) in
  let* zs := repair_all ys in
  let* vs := eval_all zs in
  let rows := combine zs vs in
  let nb := length (below f rows) in
  let nbb := length (below bf rows) in
  let g' := fadd F g (fadd F (fmul F (fnat F nbb) b1) (fmul F (fz F (Z.of_nat nb - Z.of_nat nbb)) b2)) in
  Done (match least None (below bf rows) with
        | Some (y, v) => (y, v, Some y, v, true, g')
        | None => match least None (below f rows) with
                  | Some (y, v) => (y, v, b, bf, true, g')
                  | None => (x, f, b, bf, imp, g')
                  end
        end).
Fixpoint ls3v1_loop (F : fops) (C : cfg) (b1 b2 : num) (fuel : nat) (s : lst) (disp : vec) : prog lst :=
  if existsb (fun d => fltb (flit F 1 1000) d) disp then
    match fuel with
    | O => Fail EFuel
    | S n => let* s' := ls3v1_pass F b1 b2 s disp in
             ls3v1_loop F C b1 b2 n s' (ls3v1_disp F C (fst (fst (fst (fst (fst s'))))) disp)
    end
  else Done s.
(** mts.py:269-312 [mts_ls3v1]; the while loop is given [fuel] passes *)
Definition mts_ls3v1 (F : fops) (C : cfg) (fuel : nat) (b1 b2 : num) (x : vec) (f : num) (b : option vec) (bf : num) (imp : bool) (sr : vec) : prog lsr :=
  let* s := ls3v1_loop F C b1 b2 fuel (x, f, b, bf, imp, f0) (map (fun r => fdiv F r (flit F 10 1)) (trange F C)) in
  let '(x', f', b', bf', imp', g) := s in Done (LSR x' f' b' bf' imp' g sr).

(** the local searches that mts.py and hde.py pass around *)
Inductive lsearch : Type := LS1 | LS1v1 | LS2 | LS3 | LS3v1.
Definition run_ls (F : fops) (C : cfg) (fuel : nat) (k : lsearch) (b1 b2 : num) (x : vec) (f : num) (b : option vec) (bf : num) (imp : bool) (sr : vec) : prog lsr :=
  match k with
  | LS1 => mts_ls1 F C b1 b2 x f b bf imp sr
  | LS1v1 => mts_ls1v1 F C b1 b2 x f b bf imp sr
  | LS2 => mts_ls2 F C b1 b2 x f b bf imp sr
  | LS3 => mts_ls3 F C b1 b2 x f b bf imp sr
  | LS3v1 => mts_ls3v1 F C fuel b1 b2 x f b bf imp sr
  end.

(** mts.py:384-391 and 634-637: the parameters; [mt_fuel] bounds the while loop of mts_ls3v1 *)
Record mts_par : Type := MTSPar {
  mt_n : nat; mt_tests : nat; mt_searches : nat; mt_best : nat; mt_enabled : nat;
  mt_b1 : num; mt_b2 : num; mt_ls : list lsearch; mt_fuel : nat
}.
(** what is kept for each member between iterations (mts.py:519-528) *)
Record mext : Type := MExt { m_en : bool; m_im : bool; m_sr : vec; m_gr : num }.

(** what a sequence of local searches works on: solution, value, best solution, best value, improve, search range *)
Record trj : Type := Trj { t_x : vec; t_f : num; t_b : vec; t_bf : num; t_im : bool; t_sr : vec }.
Definition one_ls (F : fops) (C : cfg) (fuel : nat) (k : lsearch) (b1 b2 : num) (t : trj) : prog (trj * num) :=
  let* r := run_ls F C fuel k b1 b2 (t_x t) (t_f t) (Some (t_b t)) (t_bf t) (t_im t) (t_sr t) in
  Done (Trj (l_x r) (l_f r) (l_best r) (l_bf r) (l_imp r) (l_sr r), l_g r).

(** mts.py:440-469 [grading_run].  All the entries of new_x are one and the same list, so that every search continues from where
    the one before it stopped.  The bonuses passed by name are not those the searches read: they take their defaults 10 and 1.  The
    grades have three entries and are not used; the index returned is that of the last search.  improve[i] is not written back,
    but the search range is changed in place. *)
Definition grading_run (F : fops) (C : cfg) (p : mts_par) (t : trj) : prog trj :=
  match mt_ls p with
  | [] => Fail EValue
  | _ => foldM (fun t ik => for_range (mt_tests p) (fun t _ =>
           let* r := one_ls F C (mt_fuel p) (snd ik) (flit F 10 1) (flit F 1 1) t in
           if fst ik <? 3 then Done (fst r) else Fail EIndex) t)
         (combine (seq 0 (length (mt_ls p))) (mt_ls p)) t
  end.
(** mts.py:471-499 [run_local_search] *)
Definition run_local_search (F : fops) (C : cfg) (p : mts_par) (k : lsearch) (t : trj) (g : num) : prog (trj * num) :=
  for_range (mt_searches p) (fun s _ =>
    let* r := one_ls F C (mt_fuel p) k (mt_b1 p) (mt_b2 p) (fst s) in Done (fst r, fadd F (snd s) (snd r))) (t, g).
(** mts.py:563-565: an enabled member; the search that is run is the last one of the list *)
Definition mts_member (F : fops) (C : cfg) (p : mts_par) (x : vec) (f : num) (e : mext) (xb : vec) (fxb : num) : prog (trj * num) :=
  let* t := grading_run F C p (Trj x f xb fxb (m_im e) (m_sr e)) in
  run_local_search F C p (last (mt_ls p) LS1) (Trj (t_x t) (t_f t) (t_b t) (t_bf t) (m_im e) (t_sr t)) f0.
(** mts.py:560-565: the members in turn *)
Fixpoint mts_members (F : fops) (C : cfg) (p : mts_par) (rows : list (vec * num * mext)) (xb : vec) (fxb : num) : prog (list (vec * num * mext) * vec * num) :=
  match rows with
  | [] => Done ([], xb, fxb)
  | (x, f, e) :: rest =>
      if m_en e then
        let* r := mts_member F C p x f e xb fxb in
        let t := fst r in
        let* q := mts_members F C p rest (t_b t) (t_bf t) in
        Done ((t_x t, t_f t, MExt false (t_im t) (t_sr t) (snd r)) :: fst (fst q), snd (fst q), snd q)
      else
        let* q := mts_members F C p rest xb fxb in
        Done ((x, f, e) :: fst (fst q), snd (fst q), snd q)
  end.
(** mts.py:567-569: the searches around the best solution, which is passed as current_x and as best_x *)
Definition mts_polish (F : fops) (C : cfg) (p : mts_par) (xb : vec) (fxb : num) : prog (vec * num) :=
  for_range (mt_best p) (fun s _ =>
    let* r := mts_ls1 F C (flit F 10 1) (flit F 1 1) (fst s) (snd s) None (snd s) false (map (fun d => fdiv F d (flit F 10 1)) (trange F C)) in
    Done (l_best r, l_bf r)) (xb, fxb).
(** mts.py:570: the first num_enabled positions of np.argsort(grades), which is taken as a stable sort, as it is for arrays of at
    most sixteen numbers *)
Definition argsort (gs : list num) : list nat := map fst (sort_on snd (combine (seq 0 (length gs)) gs)).
Definition set_enabled (e : mext) : mext := MExt true (m_im e) (m_sr e) (m_gr e).
Definition enable_lowest (k : nat) (es : list mext) : list mext :=
  let idx := firstn k (argsort (map m_gr es)) in
  map (fun ie => if existsb (Nat.eqb (fst ie)) idx then set_enabled (snd ie) else snd ie) (combine (seq 0 (length es)) es).

(** mts.py:501-529 [init_population] *)
Definition mts_init (F : fops) (C : cfg) (p : mts_par) : prog (list vec * list num * list mext) :=
  let* a := default_numpy_init C (mt_n p) in
  Done (fst a, snd a, repeat (MExt true true (map (fun d => fdiv F d (flit F 2 1)) (trange F C)) f0) (mt_n p)).
(** mts.py:531-571 [run_iteration] *)
Definition mts_iter (F : fops) (C : cfg) (p : mts_par) (pop : list vec) (fit : list num) (xb : vec) (fxb : num) (par : list mext)
  : prog (list vec * list num * vec * num * list mext) :=
  let* a := mts_members F C p (combine (combine pop fit) par) xb fxb in
  let rows := fst (fst a) in
  let* b := mts_polish F C p (snd (fst a)) (snd a) in
  Done (map (fun r => fst (fst r)) rows, map (fun r => snd (fst r)) rows, fst b, snd b, enable_lowest (mt_enabled p) (map snd rows)).
(** MultipleTrajectorySearch (mts.py:315-571) and MultipleTrajectorySearchV1 (mts.py:574-656), which differ in their parameters *)
Definition mts (F : fops) (C : cfg) (p : mts_par) : algo := Algo (list vec) (list mext) (fun pop => pop) (mts_init F C p) (mts_iter F C p).
(** mts.py:634-637: no searches around the best solution, and the searches mts_ls1v1 and mts_ls2 *)
Definition mts_v1 (n tests searches enabled : nat) (b1 b2 : num) : mts_par := MTSPar n tests searches 0 enabled b1 b2 [LS1v1; LS2] 0.
