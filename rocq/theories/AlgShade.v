(** Model of /repo/src/niapy/algorithms/modified/shade.py and /repo/src/niapy/algorithms/modified/ilshade.py. *)
From Coq Require Import ZArith Lia Bool List.
From Verif Require Import Num Task Prog GetBest Run AlgoLib Fops Repair Indiv AlgDE AlgPSO AlgBasic AlgBasic2 AlgMod.
Import ListNotations.

Inductive sh_kind : Type := SHADE | LSHADE | ILSHADE.
Record sh_par : Type := SHPar {
  sh_kd : sh_kind;
  sh_n : nat;                       (* population_size *)
  sh_rate : num;                    (* extern_arc_rate *)
  sh_pb : num;                      (* pbest_factor; pbest_start of iL-SHADE *)
  sh_end : num;                     (* pbest_end of iL-SHADE *)
  sh_h : nat;                       (* hist_mem_size *)
  sh_depth : nat                    (* how many nested calls of [cauchy] the interpreter allows *)
}.
(** the additional arguments of an iteration (shade.py:388-389, ilshade.py:304-306) *)
Record sh_st : Type := SHSt {
  st_cr : list num; st_f : list num; st_k : nat;        (* h_mem_cr, h_mem_f, k *)
  st_arc : list vec; st_cnt : nat;                      (* archive, arc_ind_cnt *)
  st_pb : num                                           (* pbest_factor; only iL-SHADE changes it *)
}.

(** shade.py:221-233 [cauchy]: the function calls itself until the number is positive; Python stops the recursion with a
    RecursionError *)
Fixpoint cauchy (F : fops) (pi : num) (depth : nat) (loc gamma : num) : prog num :=
  match depth with
  | O => Fail ERecursion
  | S n =>
      let* r := random in
      let c := fadd F loc (fmul F gamma (ftan F (fmul F pi (fsub F r (flit F 1 2))))) in
      if fltb f0 c then Done c else cauchy F pi n loc gamma
  end.
(** self.normal(loc, scale): numpy scales a standard normal number *)
Definition normal1 (F : fops) (loc scale : num) : prog num := let* g := rnd_f in Done (fadd F loc (fmul F scale g)).
(** np.clip(x, 0, 1) *)
Definition clip01 (x : num) : num := limit1 x f0 f1.

(** shade.py:235-256 [gen_ind_params]: the parameters (differential_weight, crossover_probability) of a new individual *)
Definition sh_params (F : fops) (pi : num) (p : sh_par) (st : sh_st) : prog (num * num) :=
  let* mi := integers (sh_h p) in
  let* m_cr := nthP (st_cr st) mi in
  let* m_f := nthP (st_f st) mi in
  let* cr := (if feqb m_cr (fneg f1) then Done f0 else normal1 F m_cr (flit F 1 10)) in
  let* f := cauchy F pi (sh_depth p) m_f (flit F 1 10) in
  Done (clip01 f, clip01 cr).
(** ilshade.py:148-187: the last entry of the memory is taken as (0.9, 0.9), and early in the run the probability is kept
    from being small and the weight from being large.  [early n d] is nfe < (n / d) * max_nfe. *)
Definition il_early (F : fops) (C : cfg) (nfe : nat) (n d : Z) : bool := fltb (fnat F nfe) (fmul F (flit F n d) (flim F (c_max_evals C))).
Definition il_cr (F : fops) (C : cfg) (nfe : nat) (cr : num) : num :=
  if il_early F C nfe 1 4 && fltb cr (flit F 1 2) then flit F 1 2
  else if il_early F C nfe 1 2 && fltb cr (flit F 1 4) then flit F 1 4
  else cr.
Definition il_f (F : fops) (C : cfg) (nfe : nat) (f : num) : num :=
  if il_early F C nfe 1 4 && fltb (flit F 7 10) f then flit F 7 10
  else if il_early F C nfe 1 2 && fltb (flit F 8 10) f then flit F 8 10
  else if il_early F C nfe 3 4 && fltb (flit F 9 10) f then flit F 9 10
  else f.
Definition il_params (F : fops) (pi : num) (C : cfg) (p : sh_par) (nfe : nat) (st : sh_st) : prog (num * num) :=
  let* mi := integers (sh_h p) in
  let* m := (if mi =? sh_h p - 1 then Done (flit F 9 10, flit F 9 10)
             else let* a := nthP (st_cr st) mi in let* b := nthP (st_f st) mi in Done (a, b)) in
  let* cr := (if fleb f0 (fst m) then normal1 F (fst m) (flit F 1 10) else Done f0) in
  let* f := cauchy F pi (sh_depth p) (snd m) (flit F 1 10) in
  Done (il_f F C nfe (clip01 f), il_cr F C nfe (clip01 cr)).
Definition gen_params (F : fops) (pi : num) (C : cfg) (p : sh_par) (nfe : nat) (st : sh_st) : prog (num * num) :=
  match sh_kd p with ILSHADE => il_params F pi C p nfe st | _ => sh_params F pi p st end.

(** shade.py:23-40 [parent_medium] for one component: x of the trial, q of the parent *)
Definition medium (F : fops) (x q l u : num) : num :=
  let y := if fltb x l then fdiv F (fadd F l q) (flit F 2 1) else x in
  if fltb u y then fdiv F (fadd F u q) (flit F 2 1) else y.
Definition parent_medium (F : fops) (C : cfg) (x q : vec) : vec :=
  map2 (fun a b => medium F (fst a) (snd a) (fst b) (snd b)) (combine x q) (combine (c_lower C) (c_upper C)).

(** rng.choice(n, p=p) with equal probabilities for the listed indices and none for the others: ValueError when there are none,
    because the probabilities do not sum to 1 *)
Definition pick (ks : list nat) : prog nat := let* i := integers (length ks) in nthP ks i.
(** the indices 0..n-1 without a and b *)
Definition others2 (n a b : nat) : list nat := filter (fun i => negb (i =? a) && negb (i =? b)) (seq 0 n).
(** shade.py:43-95 [cross_curr2pbest1]; [xs] are the coordinates of the sorted population.  The rows are looked up in every
    component that is mutated, as in the code: an index that does not exist raises there. *)
Definition cross_pbest (F : fops) (C : cfg) (xs : list vec) (ic : nat) (f cr : num) (p_num : Z) (arc : list vec) (cnt : nat) : prog vec :=
  let* xp := integers (Z.to_nat p_num) in
  let* r1 := pick (others (length xs) ic) in
  let* r2 := pick (others2 (length xs + cnt) ic r1) in
  let* j := integers (c_dim C) in
  let* parent := nthP xs ic in
  let* v := mapM (fun i =>
      let* u := random in
      if fltb u cr || (i =? j) then
        let* c := nthP parent i in
        let* best := nthP xs xp in
        let* b := nthP best i in
        let* row1 := nthP xs r1 in
        let* a1 := nthP row1 i in
        let* row2 := (if length xs <=? r2 then nthP arc (r2 - length xs) else nthP xs r2) in
        let* a2 := nthP row2 i in
        Done (fadd F (fadd F c (fmul F f (fsub F b c))) (fmul F f (fsub F a1 a2)))
      else nthP parent i)
    (seq 0 (c_dim C)) in
  Done (parent_medium F C v parent).

(** shade.py:258-284 [evolve] (ilshade.py:189-218): first the parameters of all the new individuals, then their coordinates, then
    their values.  [np.int_(np.around(...))] of iL-SHADE raises in the model, as round() does, for what is no number. *)
Definition sh_evolve_at (F : fops) (pi : num) (C : cfg) (p : sh_par) (pop : list jind) (st : sh_st) (nfe : nat) : prog (list jind) :=
  let* ws := mapM (fun _ => gen_params F pi C p nfe st) pop in
  let* k := lift (py_round (fmul F (fnat F (length pop)) (match sh_kd p with ILSHADE => st_pb st | _ => sh_pb p end))) in
  let p_num := Z.max 2 k in
  let* xs := mapM (fun iw => cross_pbest F C (j_xs pop) (fst iw) (fst (snd iw)) (snd (snd iw)) p_num (st_arc st) (st_cnt st))
                  (combine (seq 0 (length pop)) ws) in
  mapM (fun xw => let* a := ind_evaluate (fst xw) in Done (a, snd xw)) (combine xs ws).
Definition sh_evolve (F : fops) (pi : num) (C : cfg) (p : sh_par) (pop : list jind) (st : sh_st) : prog (list jind) :=
  let* v := view in sh_evolve_at F pi C p pop st (v_evals v).

(** shade.py:286-333 [selection]; a success is (|f_old - f_new|, (differential_weight, crossover_probability)).
    The archive is an array of rows, of which the first [cnt] hold parents. *)
Definition sh_archive (asz : Z) (x : vec) (arc : list vec) (cnt : nat) : prog (list vec * nat) :=
  if (1 <? asz)%Z then
    if (Z.of_nat cnt <? asz)%Z then let* arc' := setP arc cnt x in Done (arc', S cnt)
    else let* r := integers (Z.to_nat asz) in let* arc' := setP arc r x in Done (arc', cnt)
  else Done (arc, cnt).
Fixpoint sh_select (F : fops) (asz : Z) (pop new : list jind) (arc : list vec) (cnt : nat)
  : prog (list jind * (list vec * nat) * list (num * (num * num))) :=
  match new with
  | [] => Done ([], (arc, cnt), [])
  | e :: new' =>
      match pop with
      | [] => Fail EIndex
      | o :: pop' =>
          if feqb (snd (fst e)) (snd (fst o)) then
            let* r := sh_select F asz pop' new' arc cnt in Done (e :: fst (fst r), snd (fst r), snd r)
          else if fltb (snd (fst e)) (snd (fst o)) then
            let* a := sh_archive asz (fst (fst o)) arc cnt in
            let* r := sh_select F asz pop' new' (fst a) (snd a) in
            Done (e :: fst (fst r), snd (fst r), (fabs F (fsub F (snd (fst o)) (snd (fst e))), snd e) :: snd r)
          else
            let* r := sh_select F asz pop' new' arc cnt in Done (o :: fst (fst r), snd (fst r), snd r)
      end
  end.

(** shade.py:429-453 (ilshade.py:349-379): the weighted Lehmer means go into the memory at position k *)
Definition sh_sums (F : fops) (ss : list (num * (num * num))) : (num * num) * (num * num) :=
  let total := vsum F (map fst ss) in
  fold_left (fun acc s =>
      let w := fdiv F (fst s) total in
      let f := fst (snd s) in let cr := snd (snd s) in
      ((fadd F (fst (fst acc)) (fmul F (fmul F w f) f), fadd F (snd (fst acc)) (fmul F w f)),
       (fadd F (fst (snd acc)) (fmul F (fmul F w cr) cr), fadd F (snd (snd acc)) (fmul F w cr))))
    ss ((f0, f0), (f0, f0)).
Definition sh_memory (F : fops) (p : sh_par) (ss : list (num * (num * num))) (st : sh_st) : prog sh_st :=
  match ss with
  | [] => Done st
  | _ =>
      let s := sh_sums F ss in
      let mf := fdiv F (fst (fst s)) (snd (fst s)) in
      let* old_f := nthP (st_f st) (st_k st) in
      let* old_cr := nthP (st_cr st) (st_k st) in
      let mcr := if feqb (snd (snd s)) f0 || feqb old_cr (fneg f1) then fneg f1 else fdiv F (fst (snd s)) (snd (snd s)) in
      let half a b := fdiv F (fadd F a b) (flit F 2 1) in
      let* hf := setP (st_f st) (st_k st) (match sh_kd p with ILSHADE => half mf old_f | _ => mf end) in
      let* hcr := setP (st_cr st) (st_k st) (match sh_kd p with ILSHADE => half mcr old_cr | _ => mcr end) in
      Done (SHSt hcr hf (if sh_h p <=? S (st_k st) then 0 else S (st_k st)) (st_arc st) (st_cnt st) (st_pb st))
  end.

(** shade.py:525-530 (ilshade.py:255-260): the index of the worst individual, the first of several, and its removal *)
Definition worst_of (fs : list num) : nat :=
  match fs with
  | [] => 0
  | f :: _ => fst (fold_left (fun w jf => if fltb (snd w) (snd jf) then jf else w) (combine (seq 0 (length fs)) fs) (0, f))
  end.
Fixpoint drop_worst (k : nat) (pop : list jind) : list jind :=
  match k with O => pop | S k' => drop_worst k' (remove_at pop (worst_of (j_fits pop))) end.
(** shade.py:513-517 (ilshade.py:243-247) *)
Definition next_size (F : fops) (C : cfg) (n nfe : nat) : outcome Z :=
  py_round (fadd F (fmul F (fdiv F (fsub F (flit F 4 1) (fnat F n)) (flim F (c_max_evals C))) (fnat F nfe)) (fnat F n)).
(** shade.py:491-536 and ilshade.py:220-269 [post_selection]; SHADE itself changes nothing (335-355).  int() of what is no number
    raises in the model for iL-SHADE too. *)
Definition py_int (F : fops) (x : num) : outcome Z :=
  match x with NaN => Raise EValue | PInf | NInf => Raise EOverflow | Fin _ => Ret (fint F x) end.
Definition sh_post (F : fops) (C : cfg) (p : sh_par) (pop : list jind) (st : sh_st) : prog (list jind * sh_st) :=
  match sh_kd p with
  | SHADE => Done (pop, st)
  | _ =>
      let* v := view in
      let* z := lift (next_size F C (sh_n p) (v_evals v)) in
      let next := Z.to_nat (Z.max 4 z) in
      if next <? length pop then
        let* a := lift (py_int F (fmul F (fnat F next) (sh_rate p))) in
        let cnt := if (a <? Z.of_nat (st_cnt st))%Z then Z.to_nat a else st_cnt st in
        let pb := match sh_kd p with
                  | ILSHADE => fadd F (fmul F (fdiv F (fsub F (sh_end p) (sh_pb p)) (flim F (c_max_evals C))) (fnat F (v_evals v))) (sh_pb p)
                  | _ => st_pb st end in
        Done (drop_worst (length pop - next) pop, SHSt (st_cr st) (st_f st) (st_k st) (st_arc st) cnt pb)
      else Done (pop, st)
  end.

(** shade.py:391-463 and ilshade.py:308-389.  [np.argsort] is taken as a stable sort, as it is for arrays of at most sixteen
    numbers; np.sum as a sum from left to right. *)
Definition sh_iter (F : fops) (pi : num) (C : cfg) (p : sh_par) (pop0 : list jind) (fit : list num) (xb : vec) (fxb : num) (st : sh_st)
  : prog (list jind * list num * vec * num * sh_st) :=
  let pop := map fst (sort_on (fun e : jind * num => snd e) (combine pop0 fit)) in
  let* new := sh_evolve F pi C p pop st in
  let* asz := lift (py_round (fmul F (fnat F (length pop)) (sh_rate p))) in
  let* (arr, a, ss) := sh_select F asz pop new (st_arc st) (st_cnt st) in
  let* (xb1, fxb1) := lift (get_best (j_xs arr) (j_fits arr) (Some xb) fxb) in
  let* st1 := sh_memory F p ss (SHSt (st_cr st) (st_f st) (st_k st) (fst a) (snd a) (st_pb st)) in
  let* (pop', st2) := sh_post F C p arr st1 in
  let* (xb2, fxb2) := lift (get_best (j_xs pop') (j_fits pop') (Some xb1) fxb1) in
  Done (pop', j_fits pop', xb2, fxb2, st2).
(** shade.py:109, 357-389 and ilshade.py:31, 271-306; np.zeros refuses a negative size *)
Definition sh_init (F : fops) (C : cfg) (p : sh_par) : prog (list jind * list num * sh_st) :=
  let* (pop, fit) := default_individual_init C (sh_n p) in
  let cr := match sh_kd p with ILSHADE => flit F 4 5 | _ => flit F 1 2 end in
  let* asz := lift (py_round (fmul F (fnat F (sh_n p)) (sh_rate p))) in
  if (asz <? 0)%Z then Fail EValue
  else Done (map (fun i => (i, (flit F 1 2, cr))) pop, fit,
             SHSt (repeat cr (sh_h p)) (repeat (flit F 1 2) (sh_h p)) 0 (repeat (repeat f0 (c_dim C)) (Z.to_nat asz)) 0 (sh_pb p)).
Definition shade (F : fops) (pi : num) (C : cfg) (p : sh_par) : algo :=
  Algo (list jind) sh_st j_xs (sh_init F C p) (sh_iter F pi C p).
