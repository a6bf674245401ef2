(** Specification of the DE operators, independent of AlgDE's programs. *)
From Coq Require Import ZArith List.
From Verif Require Import Num Task Fops AlgDE.
Import ListNotations.

(** the documented mutant formulas; c, b: components of the current and the best individual *)
Definition mutant_value (F : fops) (s : strategy) (f c b : num) (a : list num) (v : num) : Prop :=
  match s with
  | Rand1 => exists p q r, a = [p; q; r] /\ v = fadd F p (fmul F f (fsub F q r))
  | Best1 => exists p q, a = [p; q] /\ v = fadd F b (fmul F f (fsub F p q))
  | Rand2 => exists p q r t u, a = [p; q; r; t; u] /\
      v = fadd F (fadd F p (fmul F f (fsub F q r))) (fmul F f (fsub F t u))
  | Best2 => exists p q r t, a = [p; q; r; t] /\
      v = fadd F (fadd F b (fmul F f (fsub F p q))) (fmul F f (fsub F r t))
  | Curr2Rand1 => exists p q r t, a = [p; q; r; t] /\
      v = fadd F (fadd F c (fmul F f (fsub F p q))) (fmul F f (fsub F r t))
  | Curr2Best1 => exists p q r, a = [p; q; r] /\
      v = fadd F (fadd F c (fmul F f (fsub F b p))) (fmul F f (fsub F q r))
  end.

Definition uses_best (s : strategy) : Prop :=
  match s with Best1 | Best2 | Curr2Best1 => True | _ => False end.

(** v is the mutant's component i built from the members r of the population *)
Definition mutant_comp (F : fops) (s : strategy) (f : num) (pop : list vec) (parent xb : vec) (r : list nat) (i : nat) (v : num) : Prop :=
  exists c b a, nth_error parent i = Some c /\ (uses_best s -> nth_error xb i = Some b) /\
    Forall2 (fun k ak => exists row, nth_error pop k = Some row /\ nth_error row i = Some ak) r a /\
    mutant_value F s f c b a v.

(** x is a crossover of individual ic: with a parent pop[ic], members r (distinct and different from
    the parent when the population is large enough), a position j and one draw from [0, 1] per
    component, component i is the mutant's if i = j or the draw is below cr, and the parent's
    otherwise *)
Definition crossed (F : fops) (s : strategy) (f cr : num) (pop : list vec) (ic : nat) (xb x : vec) : Prop :=
  exists parent r j us,
    nth_error pop ic = Some parent /\ length x = length parent /\ j < length parent /\
    length r = n_draws s /\ (forall k, In k r -> k < length pop) /\
    (n_draws s < length pop -> NoDup r /\ ~ In ic r) /\
    length us = length parent /\ Forall (fun u => fleb f0 u = true /\ fleb u rtop = true) us /\
    (forall i u v, nth_error us i = Some u -> nth_error x i = Some v ->
       ((i = j \/ fltb u cr = true) -> mutant_comp F s f pop parent xb r i v) /\
       (i <> j -> fltb u cr = false -> nth_error parent i = Some v)).
