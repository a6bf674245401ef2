(** Specification vocabulary: what one iteration may do to the reported population. *)
From Coq Require Import ZArith Bool List.
From Verif Require Import Num Task TaskSpec Prog Run RunSpec.
Import ListNotations.

(** every iteration of every run relates the fitness array, best point and best value a callback sees
    before it (before_iteration) to those it sees after it (after_iteration); the list of events has
    the newest first *)
Definition steps_ok (R : snap -> snap -> Prop) (E : env) (A : algo) : Prop :=
  forall cb n pos r w' ev, run_body E A cb n (World (task_init (e_cfg E)) [] pos) = (r, w', ev) ->
  forall pre post s s', ev = pre ++ after_ev s' :: before_ev s :: post -> R s s'.

(** no member's fitness gets worse (internal sign: lower is better) *)
Definition no_worse_fit (s s' : snap) : Prop :=
  Forall2 (fun new old => fleb new old = true) (fst (fst s')) (fst (fst s)).

(** component j of a computed point, as a predicate on all components *)
Definition comps (d : nat) (x : vec) (P : nat -> num -> Prop) : Prop :=
  length x = d /\ forall j, j < d -> P j (nth j x NaN).
(** a value of random(): 0 <= r <= 1 - 2^-53 *)
Definition in_unit (r : num) : Prop := fleb f0 r = true /\ fleb r rtop = true.

(** [task.eval] at x gave f: the evaluation was recorded, or the task had stopped and f is infinity *)
Definition evaluated (x : vec) (f : num) (l l' : list (vec * num)) : Prop :=
  (f = PInf /\ l' = l) \/ l' = (x, f) :: l.
(** only entry i changes *)
Definition row_set {A} (xs ys : list A) (i : nat) (y : A) : Prop :=
  length ys = length xs /\ nth_error ys i = Some y /\ forall j, j <> i -> nth_error ys j = nth_error xs j.
(** x is the repair of y *)
Definition repaired (E : env) (y x : vec) : Prop := exists q, x = e_rep E q y.
(** [task.eval] on each row in turn *)
Inductive evaluated_all : list vec -> list num -> list (vec * num) -> list (vec * num) -> Prop :=
| ea_nil : forall l, evaluated_all [] [] l l
| ea_cons : forall x f xs fs l l1 l2, evaluated x f l l1 -> evaluated_all xs fs l1 l2 -> evaluated_all (x :: xs) (f :: fs) l l2.
