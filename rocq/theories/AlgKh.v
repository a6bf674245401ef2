(** Model of /repo/src/niapy/algorithms/basic/kh.py (KrillHerd). *)
From Coq Require Import ZArith Lia Bool List.
From Verif Require Import Num Task Prog GetBest Run AlgoLib Fops Indiv AlgBasic.
Import ListNotations.

(** kh.py:60-139, the parameters; kh_wn and kh_wf are the arrays of init_weights (kh.py:163-175), kh_tiny is 1e-31 (line 394).
    The parameter d_s is never used. *)
Record kh_par : Type := KHPar {
  kh_n : nat;                                  (* population_size *)
  kh_nmax : num; kh_vf : num; kh_dmax : num;   (* n_max, foraging_speed, diffusion_speed *)
  kh_ct : num; kh_wn : vec; kh_wf : vec;
  kh_nn : num;                                 (* max_neighbors *)
  kh_cr : num; kh_mr : num; kh_tiny : num
}.
(** kh.py:139: np.finfo(float).eps *)
Definition kh_eps (F : fops) : num := flit F 1 (2 ^ 52).

(** The herd always has population_size rows (theorem C105), so range(self.population_size) runs over its rows; a row is
    taken with nth. *)
Definition krow (pop : list vec) (i : nat) : vec := nth i pop [].
Definition kfit (fit : list num) (i : nat) : num := nth i fit NaN.

(** kh.py:177-188 [sense_range] *)
Definition sense_range (F : fops) (p : kh_par) (pop : list vec) (i : nat) : num :=
  fdiv F (vsum F (map (fun j => euclidean F (krow pop i) (krow pop j)) (seq 0 (kh_n p)))) (fmul F (kh_nn p) (fnat F (kh_n p))).
(** kh.py:190-208 [get_neighbours] *)
Definition kh_near (F : fops) (p : kh_par) (pop : list vec) (i : nat) : list nat :=
  filter (fun j => negb (j =? i) && fltb (euclidean F (krow pop i) (krow pop j)) (sense_range F p pop i)) (seq 0 (kh_n p)).
Definition kh_neighbours (F : fops) (p : kh_par) (pop : list vec) (i : nat) : prog (list nat) :=
  match kh_near F p pop i with
  | [] => let* j := integers (kh_n p) in Done [j]
  | js => Done js
  end.
(** kh.py:210-221 [get_x] *)
Definition kh_x (F : fops) (x y : vec) : vec :=
  map (fun a => fdiv F a (fadd F (euclidean F y x) (kh_eps F))) (vshift F (vsub F y x) (kh_eps F)).
(** kh.py:223-236 [get_k] *)
Definition kh_k (F : fops) (x y b w : num) : num := fdiv F (fadd F (fsub F x y) (kh_eps F)) (fadd F (fsub F w b) (kh_eps F)).
(** (task.iters + 1) / task.max_iters *)
Definition kh_time (F : fops) (C : cfg) (it : nat) : num := fdiv F (fnat F (S it)) (flim F (c_max_iters C)).
(** kh.py:238-260 [induce_neighbors_motion].  The sum over the matrix goes through it neighbour by neighbour. *)
Definition kh_alpha (F : fops) (pop : list vec) (fit : list num) (fb fw : num) (i : nat) (js : list nat) : num :=
  vsum F (concat (map (fun j => vscale F (kh_k F (kfit fit i) (kfit fit j) fb fw) (kh_x F (krow pop i) (krow pop j))) js)).
Definition kh_induced (F : fops) (C : cfg) (p : kh_par) (it : nat) (pop : list vec) (fit : list num) (fb fw : num) (ind : list vec) (i : nat) : prog vec :=
  let* js := kh_neighbours F p pop i in
  let* r := random in
  let at_ := fmul F (flit F 2 1) (fadd F (flit F 1 1) (fdiv F (fmul F r (fnat F (S it))) (flim F (c_max_iters C)))) in
  Done (map (fadd F (fmul F (kh_nmax p) (fadd F (kh_alpha F pop fit fb fw i js) at_))) (vmul F (kh_wn p) (krow ind i))).
(** kh.py:262-285 [induce_foraging_motion]; b is the best index *)
Definition kh_foraging (F : fops) (C : cfg) (p : kh_par) (it : nat) (pop : list vec) (fit : list num) (b w : nat) (food : vec) (ff : num)
  (frg : list vec) (i : nat) : vec :=
  let fi := kfit fit i in
  let fb := kfit fit b in
  let fw := kfit fit w in
  let bf := if fltb fb fi
            then vscale F (fmul F (fmul F (flit F 2 1) (fsub F (flit F 1 1) (kh_time F C it))) (kh_k F fi ff fb fw)) (kh_x F (krow pop i) food)
            else repeat (flit F 0 1) (c_dim C) in
  let bb := vscale F (kh_k F fi fb fb fw) (kh_x F (krow pop i) (krow pop b)) in
  vadd F (vscale F (kh_vf p) (vadd F bf bb)) (vmul F (kh_wf p) (krow frg i)).
(** kh.py:287-297 [induce_physical_diffusion] *)
Definition kh_diffusion (F : fops) (C : cfg) (p : kh_par) (it : nat) (_ : nat) : prog vec :=
  let* u := uniform_vec (repeat (flit F (-1) 1) (c_dim C)) (repeat (flit F 1 1) (c_dim C)) in
  Done (vscale F (fmul F (kh_dmax p) (fsub F (flit F 1 1) (kh_time F C it))) u).
(** kh.py:299-309 [delta_t] *)
Definition kh_delta (F : fops) (C : cfg) (p : kh_par) : num := fmul F (kh_ct p) (vsum F (vsub F (c_upper C) (c_lower C))).
(** kh.py:311-323 [crossover] *)
Definition kh_crossover (cr : num) (x xo : vec) : prog vec :=
  mapM (fun a => let* r := random in Done (if fltb r cr then snd a else fst a)) (combine x xo).
(** kh.py:325-337 [mutate] *)
Definition kh_mutate (F : fops) (mr : num) (x xb : vec) : prog vec :=
  mapM (fun a => let* r := random in if fltb r mr then Done (fst a) else let* u := random in Done (fadd F (snd a) u)) (combine x xb).
(** kh.py:339-356 [get_food_location], before the repair *)
Definition kh_food (F : fops) (C : cfg) (pop : list vec) (fit : list num) : vec :=
  map (fun j => fdiv F (vsum F (map2 (fdiv F) (map (fun x => nth j x NaN) pop) fit)) (vsum F (map (fdiv F (flit F 1 1)) fit))) (seq 0 (c_dim C)).
(** kh.py:358-371 [mutation_rate] and 373-386 [crossover_rate] *)
Definition kh_mrate (F : fops) (p : kh_par) (x y b w : num) : num := fdiv F (kh_mr p) (fadd F (kh_k F x y b w) (kh_tiny p)).
Definition kh_crate (F : fops) (p : kh_par) (x y b w : num) : num := fmul F (kh_cr p) (kh_k F x y b w).

(** w_neighbor and w_foraging never change; the speeds are vectors (the first ones are numbers zero, which broadcast) *)
Record kh_state : Type := KHState { kh_ind : list vec; kh_frg : list vec }.
(** np.argmin and np.argmax raise ValueError on an empty array *)
Definition argP (o : option nat) : prog nat := match o with Some i => Done i | None => Fail EValue end.
(** kh.py:412-457 *)
Definition kh_iter (F : fops) (C : cfg) (p : kh_par) (pop : list vec) (fit : list num) (xb : vec) (fxb : num) (st : kh_state)
  : prog (list vec * list num * vec * num * kh_state) :=
  let* v := view in
  let it := v_iters v in
  let* b := argP (argmin fit) in
  let* w := argP (argmax fit) in
  let fb := kfit fit b in
  let fw := kfit fit w in
  let* food := repair (kh_food F C pop fit) in
  let* ff := eval food in
  let '(xb1, fxb1) := if fltb ff fxb then (food, ff) else (xb, fxb) in
  let* ind := mapM (kh_induced F C p it pop fit fb fw (kh_ind st)) (seq 0 (kh_n p)) in
  let frg := map (kh_foraging F C p it pop fit b w food ff (kh_frg st)) (seq 0 (kh_n p)) in
  let* dif := mapM (kh_diffusion F C p it) (seq 0 (kh_n p)) in
  let new1 := map (fun i => vadd F (krow pop i) (vscale F (kh_delta F C p) (vadd F (vadd F (krow ind i) (krow frg i)) (krow dif i)))) (seq 0 (kh_n p)) in
  let* new2 := mapM (fun i => kh_crossover (kh_crate F p (kfit fit i) fb fb fw) (krow new1 i) (krow pop i)) (seq 0 (kh_n p)) in
  let* new3 := mapM (fun i => kh_mutate F (kh_mrate F p (kfit fit i) fb fb fw) (krow new2 i) (krow pop b)) (seq 0 (kh_n p)) in
  let* pop' := repair_all new3 in
  let* fit' := eval_all pop' in
  let* (xb', fxb') := lift (get_best pop' fit' (Some xb1) fxb1) in
  Done (pop', fit', xb', fxb', KHState ind frg).
(** kh.py:388-410 [init_population] *)
Definition kh_init (F : fops) (C : cfg) (p : kh_par) : prog (list vec * list num * kh_state) :=
  let* (pop, fit) := default_numpy_init C (kh_n p) in
  let z := repeat (repeat (flit F 0 1) (c_dim C)) (kh_n p) in
  Done (pop, fit, KHState z z).
Definition kh (F : fops) (C : cfg) (p : kh_par) : algo :=
  Algo (list vec) kh_state (fun pop => pop) (kh_init F C p) (kh_iter F C p).
