(** Model of /repo/src/niapy/task.py (class [Task]) and of the part of
    /repo/src/niapy/problems/problem.py that [Task] calls. *)
From Coq Require Import ZArith Bool List.
From Verif Require Import Num.
Import ListNotations.

(** A numpy vector of coordinates. *)
Notation vec := (list num).

(** Exceptions as values.  [EProblem n]: an exception (number n) raised by the
    user's problem; [ECallback n]: raised by a user callback; [EFuel] marks a
    loop of the model that ran out of fuel (never raised by the code). *)
Inductive exn : Type :=
| EProblem (n : nat) | ECallback (n : nat)
| EIndex | EValue | EType | EKey | EAttr | EZeroDiv | EOverflow | ERecursion
| EFuel.

Inductive outcome (A : Type) : Type := Ret (a : A) | Raise (e : exn).
Arguments Ret {A} _. Arguments Raise {A} _.

(** task.py:20-30 [OptimizationType]. *)
Inductive opt : Type := Minimization | Maximization.

(** Multiplication by [optimization_type.value] (1.0 or -1.0). *)
Definition sgn (o : opt) (v : num) : num :=
  match o with Minimization => v | Maximization => fneg v end.

(** max_evals / max_iters: an int or [np.inf] (task.py:59-60, 70-71).
    Simplification: fractional or NaN limits are not modelled (documented type: int). *)
Inductive lim : Type := LInf | LFin (z : Z).

(** [n >= limit] for a counter [n]. *)
Definition lim_reached (n : nat) (l : lim) : bool :=
  match l with LInf => false | LFin z => Z.leb z (Z.of_nat n) end.

(** The fields of a Task that never change after construction
    (task.py:87-101: optimization_type, dimension, lower, upper, cutoff_value, max_evals, max_iters). *)
Record cfg : Type := Cfg {
  c_opt : opt;
  c_dim : nat;
  c_lower : vec;
  c_upper : vec;
  c_max_evals : lim;
  c_max_iters : lim;
  c_cutoff : num
}.

(** task.py:97: [cutoff_value = -np.inf * optimization_type.value if cutoff_value is None else cutoff_value]. *)
Definition default_cutoff (o : opt) (c : option num) : num :=
  match c with None => sgn o NInf | Some v => v end.

(** The fields of a Task that change (task.py:94-104).
    n_evals, fitness_evals, fitness_iters are kept in Python list order. *)
Record tstate : Type := TS {
  t_evals : nat;
  t_iters : nat;
  t_xf : num;
  t_n_evals : list nat;
  t_fitness_evals : list num;
  t_fitness_iters : list num
}.

(** task.py:94-104, the state right after construction. *)
Definition task_init (C : cfg) : tstate :=
  TS 0 0 (sgn (c_opt C) PInf) [] [] [].

(** task.py:167-174 [stopping_condition]. *)
Definition stopping_condition (C : cfg) (t : tstate) : bool :=
  lim_reached (t_evals t) (c_max_evals C)
  || lim_reached (t_iters t) (c_max_iters C)
  || fleb (sgn (c_opt C) (t_xf t)) (sgn (c_opt C) (c_cutoff C)).

(** task.py:126-129 [next_iter]. *)
Definition next_iter (t : tstate) : tstate :=
  TS (t_evals t) (S (t_iters t)) (t_xf t) (t_n_evals t) (t_fitness_evals t)
     (t_fitness_iters t ++ [t_xf t]).

(** The user's problem: what [problem.evaluate(x)] does may depend on all earlier
    invocations (a stateful or noisy problem) and may raise.  The history lists
    earlier invocations, newest first. *)
Definition history := list (vec * outcome num).
Definition problem := history -> vec -> outcome num.

(** task.py:131-153 [eval].  Second component: the new state; third: the invocation
    of the problem made by this call, if any.  Logging (151-152) is not modelled. *)
Definition task_eval (C : cfg) (P : problem) (h : history) (t : tstate) (x : vec)
  : outcome num * tstate * history :=
  if stopping_condition C t then (Ret PInf, t, h)
  else
    let evals := S (t_evals t) in
    match P h x with
    | Raise e =>
        (Raise e,
         TS evals (t_iters t) (t_xf t) (t_n_evals t) (t_fitness_evals t) (t_fitness_iters t),
         (x, Raise e) :: h)
    | Ret v =>
        let x_f := sgn (c_opt C) v in
        let t' :=
          if fltb x_f (sgn (c_opt C) (t_xf t))
          then TS evals (t_iters t) (sgn (c_opt C) x_f) (t_n_evals t ++ [evals])
                  (t_fitness_evals t ++ [x_f]) (t_fitness_iters t)
          else TS evals (t_iters t) (t_xf t) (t_n_evals t) (t_fitness_evals t) (t_fitness_iters t)
        in (Ret x_f, t', (x, Ret v) :: h)
    end.

(** task.py:176-185 [stopping_condition_iter]. *)
Definition stopping_condition_iter (C : cfg) (t : tstate) : bool * tstate :=
  (stopping_condition C t, next_iter t).

(** task.py:187-200, the 'iters' branch of [convergence_data]. *)
Definition convergence_iters (t : tstate) : list nat * list num :=
  (seq 0 (t_iters t), t_fitness_iters t).

(** task.py:201-214, the 'evals' branch of [convergence_data].
    [conv_evals ns fs] is the loop from the current index on, [ns] and [fs] being the
    remaining parts of n_evals and fitness_evals.  An index error (fitness_evals shorter than
    n_evals) is the value [None]. *)
Fixpoint conv_evals (ns : list nat) (fs : list num) : option (list nat * list num) :=
  match ns with
  | [] => Some ([], [])
  | v :: ns' =>
      match fs with
      | [] => None
      | f :: fs' =>
          match ns' with
          | [] => Some ([v], [f])                     (* 206-207: last one, break *)
          | v' :: _ =>
              let diff := v' - v in                   (* 208 *)
              match conv_evals ns' fs' with
              | None => None
              | Some (r1, r2) =>                      (* 209-213 *)
                  Some (v :: seq (S v) (diff - 1) ++ r1, f :: repeat f (diff - 1) ++ r2)
              end
          end
      end
  end.
Definition convergence_evals (t : tstate) := conv_evals (t_n_evals t) (t_fitness_evals t).

(** task.py:155-165 [is_feasible]: [np.all((x >= lower) & (x <= upper))]
    for x of the same length as the bounds (other lengths: numpy broadcasting error, [None]). *)
Fixpoint is_feasible_l (x lo hi : vec) : option bool :=
  match x, lo, hi with
  | [], [], [] => Some true
  | a :: x', l :: lo', u :: hi' =>
      match is_feasible_l x' lo' hi' with
      | Some b => Some (fleb l a && fleb a u && b)
      | None => None
      end
  | _, _, _ => None
  end.
Definition is_feasible (C : cfg) (x : vec) : option bool :=
  is_feasible_l x (c_lower C) (c_upper C).

(** * Client histories: any sequence of method calls on one task.
    The client may catch exceptions and go on. *)
Inductive call : Type :=
| CEval (x : vec)        (* task.eval(x) *)
| CNextIter              (* task.next_iter() *)
| CStopIter              (* task.stopping_condition_iter() *)
| CStop.                 (* task.stopping_condition() *)

Record tworld : Type := TW { tw_ts : tstate; tw_h : history }.

Inductive answer : Type := AFloat (o : outcome num) | ABool (b : bool) | ANone.

Definition do_call (C : cfg) (P : problem) (w : tworld) (c : call) : answer * tworld :=
  match c with
  | CEval x =>
      match task_eval C P (tw_h w) (tw_ts w) x with (o, t, h) => (AFloat o, TW t h) end
  | CNextIter => (ANone, TW (next_iter (tw_ts w)) (tw_h w))
  | CStopIter =>
      match stopping_condition_iter C (tw_ts w) with (b, t) => (ABool b, TW t (tw_h w)) end
  | CStop => (ABool (stopping_condition C (tw_ts w)), w)
  end.

Fixpoint do_calls (C : cfg) (P : problem) (w : tworld) (cs : list call) : list answer * tworld :=
  match cs with
  | [] => ([], w)
  | c :: cs' =>
      let (a, w') := do_call C P w c in
      let (l, w'') := do_calls C P w' cs' in (a :: l, w'')
  end.

Definition tw_init (C : cfg) : tworld := TW (task_init C) [].
