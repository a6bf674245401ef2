(** Model of /repo/src/niapy/algorithms/basic/loa.py (LionOptimizationAlgorithm).
    Lions are objects that the code changes in place and copies with copy.copy, so that the model has a store: a lion is a position in
    a list of records, a population a list of such positions.  Nothing is ever removed from the store.
    Simplifications: copy.copy leaves the arrays x and current_x shared by the copy and the original, here arrays are values (the lines
    that write into an array, 351-353 and 361-364 and 536, would change both lions if both were still in the population); the attribute
    has_pride is only written and left out; the values of the problem are numpy numbers, whose division does not raise; np.argsort and
    the Python sorts put NaN last. *)
From Coq Require Import ZArith Lia Bool List.
From Verif Require Import Num Task Prog Repair GetBest Run AlgoLib Fops Indiv AlgPSO AlgDE AlgBasic AlgBasic2 AlgBasic3 AlgMts.
Import ListNotations.

(** loa.py:16-77 *)
Record lion : Type := Lion {
  l_x : vec; l_f : num;
  l_male : bool;      (* gender == "m" *)
  l_pride : Z;
  l_group : nat;      (* hunting_group *)
  l_cx : vec;         (* current_x *)
  l_cf : num;         (* current_f *)
  l_prev : num;       (* previous_iter_best_f *)
  l_imp : bool        (* has_improved *)
}.
Definition lion0 : lion := Lion [] NaN false 0 0 [] NaN NaN false.
(** the lion at a position of the store *)
Definition at_ (h : list lion) (i : nat) : lion := nth i h lion0.
(** loa.py:46-77 for an evaluated individual *)
Definition new_lion (a : vec * num) : lion := Lion (fst a) (snd a) true (-1) 0 (fst a) (snd a) (snd a) true.

(** loa.py:139-185 *)
Record loa_par : Type := LoaPar {
  lo_n : nat;            (* population_size *)
  lo_nomad : num;        (* nomad_ratio *)
  lo_prides : nat;       (* num_of_prides *)
  lo_female : num;       (* female_ratio *)
  lo_roam : num;         (* roaming_factor *)
  lo_matef : num;        (* mating_factor *)
  lo_mut : num;          (* mutation_factor *)
  lo_imm : num           (* immigration_factor *)
}.

(** One row for every pride and a last one for the nomads: pride_size[i], gender_distribution[i] (females, males) and excess[i] (females,
    males).  The three arrays of the code have the same length. *)
Record lrow : Type := LRow { lr_n : Z; lr_f : Z; lr_m : Z; lr_ef : Z; lr_em : Z }.
Definition row0 : lrow := LRow 0 0 0 0 0.
(** rows[-1] *)
Definition last_row (rows : list lrow) : lrow := last rows row0.
(** the rows of the prides, i in range(len(pride_size) - 1) *)
Definition pride_rows (rows : list lrow) : list lrow := removelast rows.

(** ** Python's lists *)
(** the position meant by an index in a list of n elements *)
Definition py_ix (n : nat) (i : Z) : prog nat :=
  let j := if (i <? 0)%Z then (i + Z.of_nat n)%Z else i in
  if ((0 <=? j) && (j <? Z.of_nat n))%Z then Done (Z.to_nat j) else Fail EIndex.
(** and the one meant by the end of a slice *)
Definition clip_ix (n : nat) (i : Z) : nat := Z.to_nat (if (i <? 0)%Z then i + Z.of_nat n else Z.min i (Z.of_nat n)).
(** xs[a:b] *)
Definition slice {A} (a b : Z) (xs : list A) : list A :=
  firstn (clip_ix (length xs) b - clip_ix (length xs) a) (skipn (clip_ix (length xs) a) xs).
(** xs[a:] *)
Definition from_z {A} (a : Z) (xs : list A) : list A := skipn (clip_ix (length xs) a) xs.
(** rows[i] changed in place *)
Definition at_row (rows : list lrow) (i : Z) (f : lrow -> lrow) : prog (list lrow) :=
  let* k := py_ix (length rows) i in
  Done (upd rows k (f (nth k rows row0))).
(** sorted by a key, and with reverse=True: both are stable *)
Definition sort_desc {A} (key : A -> num) (xs : list A) : list A := rev (sort_on key (rev xs)).
(** rng.shuffle of a list *)
Definition shuffled {A} (xs : list A) : prog (list A) :=
  let* pi := permutation (length xs) in mapM (fun k => nthP xs k) pi.
(** Python's min with a key: the first of the least ones *)
Definition least {A} (key : A -> num) (x : A) (xs : list A) : A := fold_left (fun b y => if fltb (key y) (key b) then y else b) xs x.
(** np.min *)
Definition np_amin (xs : list num) : num := match xs with [] => NaN | x :: r => fold_left np_min r x end.
(** Generator.uniform(low, high) with computed bounds: OverflowError unless the range is finite *)
Definition draw (F : fops) (lo hi : num) : prog num := if is_fin (fsub F hi lo) then uniform lo hi else Fail EOverflow.
(** x @ y *)
Definition vdot (F : fops) (x y : vec) : num := vsum F (vmul F x y).
(** consecutive slices of the given sizes *)
Fixpoint cut {A} (index : Z) (sizes : list Z) (xs : list A) : list (list A) :=
  match sizes with [] => [] | s :: r => slice index (index + s) xs :: cut (index + s) r xs end.
(** the prides of a population: population[index:index + pride_size[i]] *)
Definition prides (rows : list lrow) (pop : list nat) : list (list nat) := cut 0 (map lr_n (pride_rows rows)) pop.
Definition males (h : list lion) (ids : list nat) : list nat := filter (fun i => l_male (at_ h i)) ids.
Definition females (h : list lion) (ids : list nat) : list nat := filter (fun i => negb (l_male (at_ h i))) ids.

Section Loa.
Variables (F : fops) (C : cfg) (p : loa_par) (pi : num).

(** ** hunting (loa.py:328-415) *)
Definition set_group (a : lion) (g : nat) : lion := Lion (l_x a) (l_f a) (l_male a) (l_pride a) g (l_cx a) (l_cf a) (l_prev a) (l_imp a).
(** 333-340, one lion of the pride: store, sum of the positions of the hunters, values of the groups, hunters *)
Definition lo_group (s : list lion * vec * list num * list nat) (i : nat) : prog (list lion * vec * list num * list nat) :=
  let '(h, prey, gf, hs) := s in
  let* (h', gf') := if l_male (at_ h i) then Done (h, gf) else
    let* g := integers 4 in Done (upd h i (set_group (at_ h i) g), upd gf g (fadd F (nth g gf NaN) (l_cf (at_ h i)))) in
  if l_group (at_ h' i) =? 0 then Done (h', prey, gf', hs) else Done (h', vadd F prey (l_cx (at_ h' i)), gf', hs ++ [i]).
(** 328-345 *)
Definition lo_hunt0 (h : list lion) (pride : list nat) : prog (list lion * vec * list num * list nat) :=
  let* (h', prey, gf, hs) := foldM lo_group pride (h, repeat f0 (c_dim C), repeat f0 4, []) in
  let mean := match hs with [] => prey | _ => map (fun a => fdiv F a (fnat F (length hs))) prey end in
  let* q := repair mean in
  Done (h', q, gf, hs).
(** a lion that moved *)
Definition set_cur (a : lion) (x : vec) (f : num) : lion := Lion (l_x a) (l_f a) (l_male a) (l_pride a) (l_group a) x f (l_prev a) (l_imp a).
(** repair, then evaluate (355-356, 365-366, 480-481, 537-538) *)
Definition lo_moved (a : lion) (z : vec) : prog lion := let* y := repair z in let* f := eval y in Done (set_cur a y f).
(** 347-356 *)
Definition lo_oppose (prey : vec) (a : lion) : prog lion :=
  let* z := mapM (fun k =>
    let* q := nthP prey k in
    let* c := nthP (l_cx a) k in
    let o := fsub F (fmul F (flit F 2 1) q) c in
    if fltb o q then draw F o q else if fltb q o then draw F q o else Done c) (seq 0 (c_dim C)) in
  lo_moved a z.
(** 358-366 *)
Definition lo_center (prey : vec) (a : lion) : prog lion :=
  let* z := mapM (fun k =>
    let* q := nthP prey k in
    let* c := nthP (l_cx a) k in
    if fltb c q then draw F c q else if fltb q c then draw F q c else Done c) (seq 0 (c_dim C)) in
  lo_moved a z.
(** x and f follow current_x and current_f where these are better (377-379, 483-485, 540-542, 557-559) *)
Definition lo_keep (a : lion) : lion :=
  if fltb (l_cf a) (l_f a) then Lion (l_cx a) (l_cf a) (l_male a) (l_pride a) (l_group a) (l_cx a) (l_cf a) (l_prev a) (l_imp a) else a.
(** 368-385 for one hunter: the store and the prey *)
Definition lo_hunter (right left center : nat) (s : list lion * vec) (i : nat) : prog (list lion * vec) :=
  let (h, prey) := s in
  let a := at_ h i in
  let* b := if (l_group a =? left) || (l_group a =? right) then lo_oppose prey a
            else if l_group a =? center then lo_center prey a else Done a in
  let h' := upd h i (lo_keep b) in
  if fltb (l_cf b) (l_f b) then
    let imp := fsub F (flit F 1 1) (fdiv F (l_cf b) (l_prev b)) in
    let* r := random in
    let* q := repair (vadd F prey (vscale F (fmul F r imp) (vsub F prey (l_cx b)))) in
    Done (h', q)
  else Done (h', prey).
(** 402-411 *)
Definition lo_hunt_pride (h : list lion) (pride : list nat) : prog (list lion) :=
  let* (h', prey, gf, hs) := lo_hunt0 h pride in
  let o := map S (argsort (tl gf)) in
  let* (h2, _) := foldM (lo_hunter (nth 0 o 0) (nth 1 o 0) (nth 2 o 0)) hs (h', prey) in
  Done h2.
Definition lo_hunting (rows : list lrow) (pop : list nat) (h : list lion) : prog (list lion) := foldM lo_hunt_pride (prides rows pop) h.

(** ** move_to_safe_place (loa.py:417-492) *)
(** 431 and 508: np.linalg.norm of a number *)
Definition lo_range : prog num :=
  let* u := nthP (c_upper C) 0 in
  let* l := nthP (c_lower C) 0 in
  Done (vnorm F [fsub F u l]).
(** 437-454 *)
Definition lo_winner (h : list lion) (pride : list nat) : prog nat :=
  match pride with
  | [] => Fail EIndex
  | [i] => Done i
  | _ =>
      let k := length (filter (fun i => l_imp (at_ h i)) pride) in
      let* is := choice (length pride) (Nat.max 2 ((k + 1) / 2)) in
      match map (fun j => nth j pride 0) is with
      | [] => Fail EValue
      | i :: r => Done (least (fun j => l_f (at_ h j)) i r)
      end
  end.
(** 461-485 for one lion *)
Definition lo_safe1 (sr : num) (wx : vec) (a : lion) : prog lion :=
  let r1 := vsub F wx (l_x a) in
  let nr := vnorm F r1 in
  let* r2 := if feqb nr f0 then let* k := integers (length r1) in Done (upd (repeat f0 (length r1)) k f1)
             else let* z := rnd_f_vec (length r1) in
                  Done (vsub F z (vscale F (fdiv F (vdot F r1 z) (vdot F r1 r1)) r1)) in
  let d := fdiv F nr sr in
  let* rnd := random in
  let* ru := uniform (flit F (-1) 1) (flit F 1 1) in
  let* an := uniform (fdiv F (fneg pi) (flit F 6 1)) (fdiv F pi (flit F 6 1)) in
  let* b := lo_moved a (vadd F (vadd F (l_cx a) (vscale F (fmul F (fmul F (flit F 2 1) d) rnd) r1))
                               (vscale F (fmul F (fmul F ru (ftan F an)) d) r2)) in
  Done (lo_keep b).
(** 456-485 *)
Definition lo_safe_pride (sr : num) (h : list lion) (pride : list nat) : prog (list lion) :=
  let* w := lo_winner h pride in
  let wx := l_x (at_ h w) in
  foldM (fun h i => if l_male (at_ h i) || negb (l_group (at_ h i) =? 0) then Done h
                    else let* b := lo_safe1 sr wx (at_ h i) in Done (upd h i b)) pride h.
Definition lo_safe (rows : list lrow) (pop : list nat) (h : list lion) : prog (list lion) :=
  let* sr := lo_range in foldM (lo_safe_pride sr) (prides rows pop) h.

(** ** roaming (loa.py:494-560) *)
(** 531-542 *)
Definition lo_roam1 (sr : num) (a : lion) (sx : vec) : prog lion :=
  let d := fdiv F (vnorm F (vsub F sx (l_x a))) sr in
  let* x := draw F f0 (fmul F (flit F 2 1) d) in
  let* an := uniform (fdiv F (fneg pi) (flit F 6 1)) (fdiv F pi (flit F 6 1)) in
  let* b := lo_moved a (vshift F (l_cx a) (fmul F (fmul F x d) (ftan F an))) in
  Done (lo_keep b).
(** 517-542 for one male *)
Definition lo_roam_male (sr : num) (size : Z) (pride : list nat) (h : list lion) (i : nat) : prog (list lion) :=
  if negb (l_male (at_ h i)) then Done h else
  let* k := lift (py_round (fmul F (fz F size) (lo_roam p))) in
  if (k <=? 0)%Z then Done h else
  let* is := choice (length pride) (Z.to_nat k) in
  let sel := map (fun j => l_x (at_ h (nth j pride 0))) is in
  let* b := foldM (lo_roam1 sr) sel (at_ h i) in
  Done (upd h i b).
(** 549-559 for one nomad *)
Definition lo_roam_nomad (nomads : list nat) (h : list lion) (i : nat) : prog (list lion) :=
  let a := at_ h i in
  let best := np_amin (map (fun j => l_cf (at_ h j)) nomads) in
  let q := fadd F (flit F 1 10) (np_min (flit F 1 2) (fdiv F (fsub F (l_cf a) best) best)) in
  let* r := random in
  let* b := if fleb r q then
              let* y := uniform_vec (c_lower C) (c_upper C) in let* f := eval y in Done (set_cur a y f)
            else Done a in
  Done (upd h i (lo_keep b)).
Definition lo_roaming (rows : list lrow) (pop : list nat) (h : list lion) : prog (list lion) :=
  let* sr := lo_range in
  let* h1 := foldM (fun h (rp : lrow * list nat) => foldM (lo_roam_male sr (lr_n (fst rp)) (snd rp)) (snd rp) h)
                   (combine (pride_rows rows) (prides rows pop)) h in
  let nomads := from_z (Z.of_nat (length pop) - lr_n (last_row rows)) pop in
  foldM (lo_roam_nomad nomads) nomads h1.

(** ** mating (loa.py:562-688) *)
(** 591-608: a cub; all attributes of the copied female are overwritten *)
Definition lo_cub (pr : Z) (xg : vec * bool) : prog lion :=
  let* (y, f) := ind_evaluate (fst xg) in
  Done (Lion y f (snd xg) pr 0 (fst xg) f (fadd F f (flit F 1 1)) true).
(** 562-612 *)
Definition lo_offspring (h : list lion) (fem : nat) (ms : list nat) (pr : Z) (has : bool) : prog (list lion) :=
  match ms with
  | [] => Done []
  | _ =>
      let* n := if negb has || (length ms =? 1) then Done 1 else let* r := integers (length ms - 1) in Done (1 + r) in
      let* is := choice (length ms) n in
      let* beta := rnd_f in
      let mean := centroid F (c_dim C) (map (fun j => l_x (at_ h (nth j ms 0))) is) in
      let fx' := l_x (at_ h fem) in
      let c := fsub F (flit F 1 1) beta in
      let o1 := vadd F (vscale F beta fx') (vscale F c mean) in
      let o2 := vadd F (vscale F c fx') (vscale F beta mean) in
      let* zs := mapM (fun k =>
        let* r1 := random in
        let* a := if fltb r1 (lo_mut p) then uniform (nth k (c_lower C) NaN) (nth k (c_upper C) NaN) else nthP o1 k in
        let* r2 := random in
        let* b := if fltb r2 (lo_mut p) then uniform (nth k (c_lower C) NaN) (nth k (c_upper C) NaN) else nthP o2 k in
        Done (a, b)) (seq 0 (c_dim C)) in
      let* g := random in
      let m := fltb g (flit F 1 2) in
      mapM (lo_cub pr) [(map fst zs, m); (map snd zs, negb m)]
  end.
(** 650-654 and 671-675: the females mate one after the other; the store and the cubs *)
Definition lo_mate1 (ms : list nat) (pr : Z) (has : bool) (s : list lion * list nat) (fem : nat) : prog (list lion * list nat) :=
  let (h, cubs) := s in
  let* r := random in
  if fltb r (lo_matef p) then
    let* new := lo_offspring h fem ms pr has in
    Done (h ++ new, cubs ++ seq (length h) (length new))
  else Done s.
Definition lo_mate (h : list lion) (ids : list nat) (pr : Z) (has : bool) : prog (list lion * list nat) :=
  foldM (lo_mate1 (males h ids) pr has) (females h ids) (h, []).
(** 656-662 and 677-683; the excess of the row was 0 *)
Definition add_cubs (h : list lion) (cubs : list nat) (r : lrow) : lrow :=
  let nf := Z.of_nat (length (females h cubs)) in
  let nm := Z.of_nat (length (males h cubs)) in
  LRow (lr_n r + nf + nm) (lr_f r + nf) (lr_m r + nm) nf nm.
(** 636-665: one pride; [num_males] of the code is the number of females *)
Definition lo_mate_pride (s : list lion * list nat * list lrow) (rp : nat * (lrow * list nat)) : prog (list lion * list nat * list lrow) :=
  let '(h, new, rows) := s in
  let '(k, (r, pride)) := rp in
  if (lr_f r =? 0)%Z then Done (h, new, rows ++ [LRow (lr_n r) (lr_f r) (lr_m r) 0 0])
  else
    let* (h', cubs) := lo_mate h pride (Z.of_nat k) true in
    Done (h', new ++ pride ++ cubs, rows ++ [add_cubs h' cubs r]).
(** 614-688: the store, the population, the rows *)
Definition lo_mating (rows : list lrow) (pop : list nat) (h : list lion) : prog (list lion * list nat * list lrow) :=
  let pr := pride_rows rows in
  let* (h1, new, rows1) := foldM lo_mate_pride (combine (seq 0 (length pr)) (combine pr (prides rows pop))) (h, [], []) in
  let nr := last_row rows in
  let nomads := from_z (- lr_n nr) pop in
  let* (h2, cubs) := lo_mate h1 nomads (-1) false in
  Done (h2, new ++ nomads ++ cubs, rows1 ++ [add_cubs h2 cubs nr]).

(** ** defense (loa.py:690-773) *)
Definition set_pride (a : lion) (k : Z) : lion := Lion (l_x a) (l_f a) (l_male a) k (l_group a) (l_cx a) (l_cf a) (l_prev a) (l_imp a).
(** size, males and excess males of a row *)
Definition row_m (k : Z) (r : lrow) : lrow := LRow (lr_n r + k) (lr_f r) (lr_m r + k) (lr_ef r) (lr_em r + k).
(** 713-727 for one pride: those who stay and those who leave *)
Definition lo_expel (h : list lion) (rp : lrow * list nat) : list nat * list nat :=
  let ms := sort_desc (fun i => l_cf (at_ h i)) (males h (snd rp)) in
  (females h (snd rp) ++ from_z (lr_em (fst rp)) ms, take_z (lr_em (fst rp)) ms).
(** 735-747 *)
Definition lo_leave (s : list lion * list lrow * list nat) (i : nat) : prog (list lion * list lrow * list nat) :=
  let '(h, rows, moved) := s in
  let* rows1 := at_row rows (l_pride (at_ h i)) (row_m (-1)) in
  let* rows2 := at_row rows1 (-1) (row_m 1) in
  Done (upd h i (set_pride (at_ h i) (-1)), rows2, moved ++ [i]).
(** 762-769: the lions of a pride from position [pos] on, until a male is beaten *)
Fixpoint lo_scan (h : list lion) (moved : list nat) (f : num) (pos : Z) (n : nat) : prog unit :=
  match n with
  | O => Done tt
  | S n' =>
      let* k := py_ix (length moved) pos in
      let a := at_ h (nth k moved 0) in
      if l_male a && fltb f (l_cf a) then Done tt else lo_scan h moved f (pos + 1) n'
  end.
(** 752-771 for one nomad: nothing changes *)
Definition lo_attack (h : list lion) (rows : list lrow) (moved : list nat) (i : nat) : prog unit :=
  let* ms := random_vec (length (pride_rows rows)) in
  let* _ := foldM (fun index (rm : lrow * num) =>
    let size := lr_n (fst rm) in
    let* _ := if fltb (snd rm) (flit F 1 2) then lo_scan h moved (l_cf (at_ h i)) index (Z.to_nat size) else Done tt in
    Done (index + size)%Z) (combine (pride_rows rows) ms) 0%Z in
  Done tt.
Definition lo_defense (rows : list lrow) (pop : list nat) (h : list lion) : prog (list lion * list nat * list lrow) :=
  let sp := map (lo_expel h) (combine (pride_rows rows) (prides rows pop)) in
  let moved := concat (map fst sp) ++ from_z (- lr_n (last_row rows)) pop in
  let* (h', rows', moved') := foldM lo_leave (concat (map snd sp)) (h, rows, moved) in
  let* _ := mapM (lo_attack h' rows' moved') (from_z (- lr_n (last_row rows')) moved') in
  Done (h', moved', rows').

(** ** migration (loa.py:775-974) *)
(** size, females and excess females of a row *)
Definition row_f (k : Z) (r : lrow) : lrow := LRow (lr_n r + k) (lr_f r + k) (lr_m r) (lr_ef r + k) (lr_em r).
(** 802-804 *)
Definition lo_mask (nf k : Z) : prog (list bool) :=
  if (nf <? 0)%Z then Fail EValue
  else let ones := length (take_z k (repeat true (Z.to_nat nf))) in
       shuffled (repeat true ones ++ repeat false (Z.to_nat nf - ones)).
(** 784-812 for one pride: those who stay and those who leave *)
Definition lo_emigrate (h : list lion) (rp : lrow * list nat) : prog (list nat * list nat) :=
  let (r, pride) := rp in
  let* k := lift (py_round (fmul F (fz F (lr_f r - lr_ef r)) (lo_imm p))) in
  let* mask := lo_mask (lr_f r) (lr_ef r + k) in
  let fs := females h pride in
  let* ms := mapM (fun j => nthP mask j) (seq 0 (length fs)) in
  Done (males h pride ++ map fst (filter (fun q => negb (snd q)) (combine fs ms)), map fst (filter snd (combine fs ms))).
(** 833-848 for one female: a copy of her becomes a nomad *)
Definition lo_emigrant (s : list lion * list lrow * list nat) (i : nat) : prog (list lion * list lrow * list nat) :=
  let '(h, rows, moved) := s in
  let* rows1 := at_row rows (l_pride (at_ h i)) (row_f (-1)) in
  let* rows2 := at_row rows1 (-1) (row_f 1) in
  Done (h ++ [set_pride (at_ h i) (-1)], rows2, moved ++ [length h]).
(** 908-922 for one nomad female: a copy of her joins pride k *)
Definition lo_immigrant (k : nat) (s : list lion * list lrow * list nat) (i : nat) : prog (list lion * list lrow * list nat) :=
  let '(h, rows, final) := s in
  let* rows1 := at_row rows (l_pride (at_ h i)) (row_f (-1)) in
  let* rows2 := at_row rows1 (Z.of_nat k) (row_f 1) in
  Done (h ++ [set_pride (at_ h i) (Z.of_nat k)], rows2, final ++ [length h]).
(** 897-925 for one pride: store, rows, population, the two indices *)
Definition lo_assemble1 (moved movers : list nat) (s : list lion * list lrow * list nat * Z * Z) (k : nat)
  : prog (list lion * list lrow * list nat * Z * Z) :=
  let '(h, rows, final, ip, jf) := s in
  let size := lr_n (nth k rows row0) in
  let spots := Z.abs (lr_ef (nth k rows row0)) in
  let* (h', rows', final') := foldM (lo_immigrant k) (slice jf (jf + spots) movers) (h, rows, final ++ slice ip (ip + size) moved) in
  Done (h', rows', final', ip + size, jf + spots)%Z.
(** 930-974 *)
Definition lo_migration (rows : list lrow) (pop : list nat) (h : list lion) : prog (list lion * list nat * list lrow) :=
  let* sl := mapM (lo_emigrate h) (combine (pride_rows rows) (prides rows pop)) in
  let start := (Z.of_nat (length pop) - lr_n (last_row rows))%Z in
  let* (h1, rows1, moved) := foldM lo_emigrant (concat (map snd sl)) (h, rows, concat (map fst sl) ++ from_z start pop) in
  let spots := fold_right Z.add 0%Z (map (fun r => Z.abs (lr_ef r)) (pride_rows rows1)) in
  let tail := from_z (Z.of_nat (length pop) - lr_n (last_row rows1)) moved in
  let fs := sort_on (fun i => l_cf (at_ h1 i)) (females h1 tail) in
  let* movers := shuffled (take_z spots fs) in
  let* (h2, rows2, final, _, _) := foldM (lo_assemble1 moved movers) (seq 0 (length (pride_rows rows1))) (h1, rows1, [], 0%Z, 0%Z) in
  Done (h2, final ++ from_z spots fs ++ males h1 tail, rows2).

(** ** population_equilibrium and data_correction (loa.py:977-1034) *)
Definition lo_equilibrium (rows : list lrow) (pop : list nat) (h : list lion) : list nat * list lrow :=
  let r := last_row rows in
  let nomads := from_z (- lr_n r) pop in
  let ms := sort_desc (fun i => l_cf (at_ h i)) (males h nomads) in
  let fs := sort_desc (fun i => l_cf (at_ h i)) (females h nomads) in
  (take_z (Z.of_nat (length pop) - lr_n r) pop ++ from_z (lr_em r) ms ++ from_z (lr_ef r) fs,
   pride_rows rows ++ [LRow (lr_n r - (lr_ef r + lr_em r)) (lr_f r - lr_ef r) (lr_m r - lr_em r) (lr_ef r) (lr_em r)]).
Definition lo_correct1 (h : list lion) (i : nat) : list lion :=
  let a := at_ h i in
  upd h i (if fltb (l_f a) (l_prev a) then Lion (l_x a) (l_f a) (l_male a) (l_pride a) (l_group a) (l_cx a) (l_cf a) (l_f a) true
           else Lion (l_x a) (l_f a) (l_male a) (l_pride a) (l_group a) (l_cx a) (l_cf a) (l_prev a) false).
Definition lo_correct (pop : list nat) (h : list lion) : list lion := fold_left lo_correct1 pop h.

(** ** run_iteration and init_population (loa.py:1036-1061, 255-326) *)
Definition lo_iter (hp : list lion * list nat) (fit : list num) (xb : vec) (fxb : num) (rows : list lrow)
  : prog ((list lion * list nat) * list num * vec * num * list lrow) :=
  let (h, pop) := hp in
  let* h1 := lo_hunting rows pop h in
  let* h2 := lo_safe rows pop h1 in
  let* h3 := lo_roaming rows pop h2 in
  let* (h4, pop4, rows4) := lo_mating rows pop h3 in
  let* (h5, pop5, rows5) := lo_defense rows4 pop4 h4 in
  let* (h6, pop6, rows6) := lo_migration rows5 pop5 h5 in
  let (pop7, rows7) := lo_equilibrium rows6 pop6 h6 in
  let h7 := lo_correct pop7 h6 in
  let fit' := map (fun i => l_f (at_ h7 i)) pop7 in
  let* (xb', fxb') := lift (get_best (map (fun i => l_x (at_ h7 i)) pop7) fit' (Some xb) fxb) in
  Done ((h7, pop7), fit', xb', fxb', rows7).

(** 291-299 *)
Definition lo_sizes : prog (list Z) :=
  let* ns := lift (py_round (fmul F (lo_nomad p) (fnat F (lo_n p)))) in
  let k := Z.of_nat (lo_prides p) in
  if (k =? 0)%Z then Fail EZeroDiv
  else let q := (Z.of_nat (lo_n p) - ns)%Z in
       Done (map (fun i => if (Z.of_nat i <? q mod k)%Z then (q / k + 1)%Z else (q / k)%Z) (seq 0 (lo_prides p)) ++ [ns]).
(** 302-323 for one slice: the first [nf] lions become females *)
Definition lo_assign (pr : option Z) (nf : Z) (h : list lion) (ids : list nat) : list lion :=
  fold_left (fun h ji =>
    let a := at_ h (snd ji) in
    upd h (snd ji) (Lion (l_x a) (l_f a) (negb (Z.of_nat (fst ji) <? nf)%Z) (match pr with Some k => k | None => l_pride a end)
                         (l_group a) (l_cx a) (l_cf a) (l_prev a) (l_imp a))) (combine (seq 0 (length ids)) ids) h.
Definition lo_settle1 (s : list lion * list lrow) (ks : nat * (Z * list nat)) : prog (list lion * list lrow) :=
  let (h, rows) := s in
  let '(k, (size, ids)) := ks in
  let* nf := lift (py_round (if k <? lo_prides p then fmul F (lo_female p) (fz F size)
                             else fmul F (fsub F (flit F 1 1) (lo_female p)) (fz F size))) in
  let h' := lo_assign (if k <? lo_prides p then Some (Z.of_nat k) else None) nf h ids in
  Done (h', rows ++ [LRow size (Z.of_nat (length (females h' ids))) (Z.of_nat (length (males h' ids))) 0 0]).
(** 255-326 *)
Definition lo_init : prog ((list lion * list nat) * list num * list lrow) :=
  let* (pop, fit) := default_individual_init C (lo_n p) in
  let h := map new_lion pop in
  let ids := seq 0 (length pop) in
  let* sizes := lo_sizes in
  let* (h', rows) := foldM lo_settle1 (combine (seq 0 (length sizes)) (combine sizes (cut 0 sizes ids))) (h, []) in
  Done ((h', ids), fit, rows).
End Loa.

Definition loa (F : fops) (C : cfg) (p : loa_par) (pi : num) : algo :=
  Algo (list lion * list nat) (list lrow) (fun hp => map (fun i => l_x (at_ (fst hp) i)) (snd hp)) (lo_init F C p) (lo_iter F C p pi).
