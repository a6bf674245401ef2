(** Algorithms as programs.  The constructors of [prog] are the only ways an
    algorithm of /repo/src/niapy/algorithms touches the world: [task.eval]
    (task.py:131-153), [task.repair] (task.py:106-124), the random generator
    (algorithm.py:154-221 and the numpy generator self.rng), and reading the counters
    [task.evals], [task.iters] or calling [task.stopping_condition()]. *)
From Coq Require Import ZArith Lia Bool List.
From Verif Require Import Num Task.
Import ListNotations.

(** What an algorithm can read from the task while running
    (static fields are in [cfg]). *)
Record tview : Type := TView { v_evals : nat; v_iters : nat; v_stop : bool }.

Inductive prog (A : Type) : Type :=
| Done (a : A)
| Fail (e : exn)                                (* raise *)
| Eval (x : vec) (k : num -> prog A)            (* task.eval(x) *)
| Repair (x : vec) (k : vec -> prog A)          (* task.repair(x, rng) *)
| RndU (lo hi : num) (k : num -> prog A)        (* a uniform draw from [lo, hi] *)
| RndF (k : num -> prog A)                      (* any other real-valued draw *)
| RndN (n : nat) (k : nat -> prog A)            (* an integer draw from 0..n, n included *)
| View (k : tview -> prog A).
Arguments Done {A} _. Arguments Fail {A} _. Arguments Eval {A} _ _. Arguments Repair {A} _ _.
Arguments RndU {A} _ _ _. Arguments RndF {A} _. Arguments RndN {A} _ _. Arguments View {A} _.

Fixpoint bind {A B} (p : prog A) (f : A -> prog B) : prog B :=
  match p with
  | Done a => f a
  | Fail e => Fail e
  | Eval x k => Eval x (fun v => bind (k v) f)
  | Repair x k => Repair x (fun y => bind (k y) f)
  | RndU lo hi k => RndU lo hi (fun r => bind (k r) f)
  | RndF k => RndF (fun r => bind (k r) f)
  | RndN n k => RndN n (fun r => bind (k r) f)
  | View k => View (fun v => bind (k v) f)
  end.

Notation "'let*' x ':=' p 'in' q" := (bind p (fun x => q))
  (at level 200, x pattern, p at level 100, q at level 200, right associativity).

(** ** Execution *)

(** Everything outside the algorithm. *)
Record env : Type := Env {
  e_cfg : cfg;
  e_prob : problem;
  e_rep : nat -> vec -> vec;    (* repair_function(x, lower, upper, rng); the nat is the state of the rng *)
  e_flt : nat -> num;           (* real-valued draws *)
  e_int : nat -> nat            (* integer draws *)
}.

Record world : Type := World { w_ts : tstate; w_h : history; w_pos : nat }.

Definition world_init (C : cfg) : world := World (task_init C) [] 0.

(** A draw from [lo, hi]: the stream's value when it lies there, otherwise lo.
    (Every value of [lo, hi] is obtained for some stream.) *)
Definition draw_u (lo hi r : num) : num := if fleb lo r && fleb r hi then r else lo.

Fixpoint exec {A} (E : env) (p : prog A) (w : world) : outcome A * world :=
  match p with
  | Done a => (Ret a, w)
  | Fail e => (Raise e, w)
  | Eval x k =>
      match task_eval (e_cfg E) (e_prob E) (w_h w) (w_ts w) x with
      | (Ret v, t, h) => exec E (k v) (World t h (w_pos w))
      | (Raise e, t, h) => (Raise e, World t h (w_pos w))
      end
  | Repair x k => exec E (k (e_rep E (w_pos w) x)) (World (w_ts w) (w_h w) (S (w_pos w)))
  | RndU lo hi k =>
      exec E (k (draw_u lo hi (e_flt E (w_pos w)))) (World (w_ts w) (w_h w) (S (w_pos w)))
  | RndF k => exec E (k (e_flt E (w_pos w))) (World (w_ts w) (w_h w) (S (w_pos w)))
  | RndN n k => exec E (k (e_int E (w_pos w) mod (S n))) (World (w_ts w) (w_h w) (S (w_pos w)))
  | View k =>
      exec E (k (TView (t_evals (w_ts w)) (t_iters (w_ts w)) (stopping_condition (e_cfg E) (w_ts w)))) w
  end.

(** ** Derived operations *)

Definition eval (x : vec) : prog num := (Eval x Done).
Definition repair (x : vec) : prog vec := Repair x Done.
Definition view : prog tview := View Done.

(** algorithm.py:154-164 [random()]: a draw from [0, 1 - 2^-53]. *)
Definition random : prog num := RndU f0 rtop Done.
(** any other real draw: normal, standard_normal, cauchy, exponential, uniform with computed bounds *)
Definition rnd_f : prog num := RndF Done.
(** algorithm.py:166-178 [uniform(lo, hi)]. *)
Definition uniform (lo hi : num) : prog num := RndU lo hi Done.
(** numpy Generator.integers(n): ValueError for n = 0. *)
Definition integers (n : nat) : prog nat := match n with O => Fail EValue | S m => RndN m Done end.

Fixpoint mapM {A B} (f : A -> prog B) (l : list A) : prog (list B) :=
  match l with
  | [] => Done []
  | a :: l' => let* b := f a in let* bs := mapM f l' in Done (b :: bs)
  end.

Fixpoint foldM {A S} (f : S -> A -> prog S) (l : list A) (s : S) : prog S :=
  match l with
  | [] => Done s
  | a :: l' => let* s' := f s a in foldM f l' s'
  end.

(** [for i in range(n)] *)
Definition for_range {S} (n : nat) (f : S -> nat -> prog S) (s : S) : prog S := foldM f (seq 0 n) s.

(** uniform(lower, upper) over vectors (size = dimension) *)
Fixpoint uniform_vec (lo hi : vec) : prog vec :=
  match lo, hi with
  | l :: lo', h :: hi' => let* r := uniform l h in let* rs := uniform_vec lo' hi' in Done (r :: rs)
  | _, _ => Done []
  end.

(** n draws *)
Fixpoint random_vec (n : nat) : prog vec :=
  match n with O => Done [] | S m => let* r := random in let* rs := random_vec m in Done (r :: rs) end.
Fixpoint rnd_f_vec (n : nat) : prog vec :=
  match n with O => Done [] | S m => let* r := rnd_f in let* rs := rnd_f_vec m in Done (r :: rs) end.

(** l[i] with IndexError *)
Definition nthP {A} (l : list A) (i : nat) : prog A :=
  match nth_error l i with Some a => Done a | None => Fail EIndex end.

Fixpoint upd {A} (l : list A) (i : nat) (a : A) : list A :=
  match l, i with
  | [], _ => []
  | _ :: l', O => a :: l'
  | b :: l', S j => b :: upd l' j a
  end.

(** l[i] = a with IndexError *)
Definition setP {A} (l : list A) (i : nat) (a : A) : prog (list A) :=
  if i <? length l then Done (upd l i a) else Fail EIndex.

(** remove the element at position i *)
Fixpoint remove_at {A} (l : list A) (i : nat) : list A :=
  match l, i with
  | [], _ => []
  | _ :: l', O => l'
  | b :: l', S j => b :: remove_at l' j
  end.

(** k draws without replacement from the list l: numpy Generator.choice(l, k, replace=False);
    ValueError when k > len(l). *)
Fixpoint choice_from {A} (l : list A) (k : nat) : prog (list A) :=
  match k with
  | O => Done []
  | S k' =>
      match l with
      | [] => Fail EValue
      | _ =>
          let* i := integers (length l) in
          let* a := nthP l i in
          let* r := choice_from (remove_at l i) k' in
          Done (a :: r)
      end
  end.
Definition choice (n k : nat) : prog (list nat) := choice_from (seq 0 n) k.
(** numpy Generator.permutation(n) *)
Definition permutation (n : nat) : prog (list nat) := choice n n.

(** algorithm.py:206-221 [integers(low, high, skip)] for scalar draws: draw again while the value is
    in skip.  [fuel] bounds the number of draws. *)
Fixpoint integers_skip (fuel : nat) (low high : nat) (skip : list nat) : prog nat :=
  match fuel with
  | O => Fail EFuel
  | S n =>
      let* r := integers (high - low) in
      if existsb (Nat.eqb (low + r)) skip then integers_skip n low high skip else Done (low + r)
  end.

(** np.apply_along_axis(task.eval, 1, pop): ValueError when there are no rows. *)
Definition eval_all (pop : list vec) : prog (list num) :=
  match pop with [] => Fail EValue | _ => mapM eval pop end.
(** np.apply_along_axis(task.repair, 1, pop, rng) *)
Definition repair_all (pop : list vec) : prog (list vec) :=
  match pop with [] => Fail EValue | _ => mapM repair pop end.

(** a pure computation that may raise *)
Definition lift {A} (o : outcome A) : prog A :=
  match o with Ret a => Done a | Raise e => Fail e end.
