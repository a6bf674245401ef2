(** Individuals (/repo/src/niapy/algorithms/algorithm.py:335-468). *)
From Coq Require Import ZArith Lia Bool List.
From Verif Require Import Num Task Prog GetBest.
Import ListNotations.

(** An Individual: coordinates x and fitness f (internal sign once evaluated).
    Subclasses with extra attributes are modelled with their own records. *)
Notation ind := (vec * num)%type (only parsing).

(** algorithm.py:385-400 [evaluate]: repair, then evaluate the repaired point. *)
Definition ind_evaluate (x : vec) : prog ind :=
  let* y := repair x in
  let* f := eval y in
  Done (y, f).

(** algorithm.py:353-369 [Individual(x=x, task=task, e=True, rng=rng)] *)
Definition new_ind (x : vec) : prog ind := ind_evaluate x.
(** [Individual(task=task, e=True, rng=rng)]: 371-383 a uniform point, then evaluate *)
Definition rand_ind (C : cfg) : prog ind :=
  let* x := uniform_vec (c_lower C) (c_upper C) in ind_evaluate x.
(** [Individual(task=task, e=False, rng=rng)] and [Individual(x=x, task=task, e=False)]:
    the fitness is optimization_type.value * inf (line 363). *)
Definition unevaluated (C : cfg) (x : vec) : ind := (x, sgn (c_opt C) PInf).

(** algorithm.py:402-411 [copy]: Individual(x=self.x.copy(), e=False, f=self.f).
    The keyword f is swallowed by **kwargs and task is None, so the new f is inf (line 363). *)
Definition ind_copy (i : ind) : ind := (fst i, PInf).

(** numpy.array_equal on float vectors *)
Fixpoint array_equal (x y : vec) : bool :=
  match x, y with
  | [], [] => true
  | a :: x', b :: y' => feqb a b && array_equal x' y'
  | _, _ => false
  end.
(** algorithm.py:413-428 [__eq__] between two individuals *)
Definition ind_eq (a b : ind) : bool := array_equal (fst a) (fst b) && feqb (snd a) (snd b).

Fixpoint repeatM {A} (n : nat) (p : prog A) : prog (list A) :=
  match n with
  | O => Done []
  | S m => let* a := p in let* l := repeatM m p in Done (a :: l)
  end.

(** algorithm.py:43-59 [default_individual_init] *)
Definition default_individual_init (C : cfg) (n : nat) : prog (list ind * list num) :=
  let* pop := repeatM n (rand_ind C) in
  Done (pop, map snd pop).

(** Algorithm.get_best on a population of individuals *)
Definition get_best_i (pop : list ind) (fit : list num) (bx : option vec) (bf : num) : outcome (vec * num) :=
  get_best (map fst pop) fit bx bf.
