(** Model of /repo/src/niapy/algorithms/modified/hde.py. *)
From Coq Require Import ZArith Lia Bool List.
From Verif Require Import Num Task Prog GetBest Run AlgoLib Fops Repair Indiv AlgDE AlgPSO AlgBasic AlgBasic2 AlgMts.
Import ListNotations.

(** a MtsIndividual (hde.py:21-52): coordinates, value, and enable, improved, search_range and grades as in mts.py.  The attribute
    grades of hde.py:124 and 126 is [m_gr]; the attribute grade that hde.py:127 sorts by is another one, which is 0 and never
    written, so it is not in the model. *)
Notation hind := (vec * num * mext)%type (only parsing).
Definition h_xs (pop : list hind) : list vec := map fst (map fst pop).
Definition h_fits (pop : list hind) : list num := map snd (map fst pop).
(** hde.py:33-52, the attributes of an individual made from a task only *)
Definition h_new (F : fops) (C : cfg) : mext := MExt true false (map (fun d => fdiv F d (flit F 4 1)) (trange F C)) f0.
(** The parameters: those of differential evolution, the strategies of multi_mutations when there is more than one (de.py:901),
    p_max and rp when the population size is dynamic, those of the local searches, and what np.argsort gives for an array of n
    zeros: some order of the positions, which depends on n and the version of numpy only. *)
Record hde_par : Type := HDEPar {
  hd_de : de_par; hd_ms : option (list strategy); hd_dyn : option (Z * Z); hd_mts : mts_par; hd_ord : nat -> list nat
}.
(** algorithm.py:43-59 with individual_type = MtsIndividual (mts.py:501-529: the other arrays that are made there are not used) *)
Definition hde_init (F : fops) (C : cfg) (p : hde_par) : prog (list hind * list num * unit) :=
  let* (pop, fit) := default_individual_init C (de_n (hd_de p)) in Done (map (fun i => (i, h_new F C)) pop, fit, tt).
(** de.py:337-351 and 943-957 *)
Definition hde_evolve (F : fops) (C : cfg) (p : hde_par) (pop : list hind) (xb : vec) : prog (list hind) :=
  let* new := (match hd_ms p with None => de_evolve F (hd_de p) (map fst pop) xb | Some ss => ms_evolve F (hd_de p) ss (map fst pop) xb end) in
  Done (map (fun i => (i, h_new F C)) new).
(** de.py:370 *)
Definition h_choose (e o : hind) : hind := if fltb (snd (fst e)) (snd (fst o)) then e else o.
Fixpoint h_select (pop new : list hind) : prog (list hind) :=
  match new with
  | [] => Done []
  | e :: new' =>
      match pop with
      | [] => Fail EIndex
      | o :: pop' => let* r := h_select pop' new' in Done (h_choose e o :: r)
      end
  end.
(** de.py:531, the comprehension over i in range(new_np) *)
Definition h_halve (pop : list hind) : prog (list hind) :=
  let m := length pop / 2 in
  mapM (fun i =>
          let* a := nthP pop i in
          let* b := nthP pop (i + m) in
          Done (if fltb (snd (fst a)) (snd (fst b)) then a else b))
       (seq 0 m).
(** de.py:509-532, see [dynnp_post] in AlgDE.v *)
Definition h_dynnp (C : cfg) (p_max rp : Z) (pop : list hind) : prog (list hind) :=
  let* v := view in
  match c_max_evals C with
  | LInf => Done pop
  | LFin m =>
      let d := (p_max * Z.of_nat (length pop))%Z in
      if Z.eqb d 0 then Fail EZeroDiv
      else
        let gr := (m / d + rp)%Z in
        if Z.eqb (Z.of_nat (v_iters v) + 1) gr && (3 <? length pop) then h_halve pop else Done pop
  end.
(** hde.py:127-128: the first num_enabled positions of the order *)
Definition h_enable (idx : list nat) (pop : list hind) : list hind :=
  map (fun ie => if existsb (Nat.eqb (fst ie)) idx then (fst (snd ie), set_enabled (snd (snd ie))) else snd ie) (combine (seq 0 (length pop)) pop).
(** hde.py:108-129 [post_selection].  An enabled individual is treated as mts.py:560-565 treats an enabled member: x, f, enable, improved, search_range
    and grades are written back.  The local searches make copies of best_x, so the best solution and the individuals
    never share an array. *)
Definition hde_post (F : fops) (C : cfg) (p : hde_par) (pop : list hind) (xb : vec) (fxb : num) : prog (list hind * vec * num) :=
  let* a := mts_members F C (hd_mts p) pop xb fxb in
  let rows := fst (fst a) in
  Done (h_enable (firstn (mt_enabled (hd_mts p)) (hd_ord p (length rows))) rows, snd (fst a), snd a).
(** de.py:392-422, with the post_selection of hde.py:108-129 or, for a dynamic population size, hde.py:258-261 *)
Definition hde_iter (F : fops) (C : cfg) (p : hde_par) (pop : list hind) (fit : list num) (xb : vec) (fxb : num) (_ : unit)
  : prog (list hind * list num * vec * num * unit) :=
  let* new := hde_evolve F C p pop xb in
  let* arr := h_select pop new in
  let* (xb1, fxb1) := lift (get_best (h_xs arr) (h_fits arr) (Some xb) fxb) in
  let* arr' := (match hd_dyn p with None => Done arr | Some (p_max, rp) => h_dynnp C p_max rp arr end) in
  let* (pop', xb2, fxb2) := hde_post F C p arr' xb1 fxb1 in
  let* (xb3, fxb3) := lift (get_best (h_xs pop') (h_fits pop') (Some xb2) fxb2) in
  Done (pop', h_fits pop', xb3, fxb3, tt).
Definition hde (F : fops) (C : cfg) (p : hde_par) : algo := Algo (list hind) unit h_xs (hde_init F C p) (hde_iter F C p).
