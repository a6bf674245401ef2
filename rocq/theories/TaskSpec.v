(** Specification vocabulary for tasks.  Independent of the update functions of
    Task.v: everything here talks about the list of problem invocations. *)
From Coq Require Import ZArith Bool List.
From Verif Require Import Num Task.
Import ListNotations.

(** [better o a b]: value [a] is strictly better than [b] for the user. *)
Definition better (o : opt) (a b : num) : bool :=
  match o with Minimization => fltb a b | Maximization => fltb b a end.

(** "no value yet" *)
Definition worst (o : opt) : num :=
  match o with Minimization => PInf | Maximization => NInf end.

(** values the problem returned (invocations that raised have none) *)
Definition returned (h : history) : list num :=
  flat_map (fun p => match snd p with Ret v => [v] | Raise _ => [] end) h.

(** [b] is the best of [vals] (NaN values never count). *)
Definition best_of (o : opt) (vals : list num) (b : num) : Prop :=
  b <> NaN /\ (b = worst o \/ In b vals) /\ forall v, In v vals -> better o v b = false.

(** the [i]-th invocation of the problem, counted from 1 *)
Definition invocation (h : history) (i : nat) : option (vec * outcome num) :=
  match i with O => None | S k => nth_error (rev h) k end.

(** invocation [i] strictly beats the initial infinity and every earlier non-NaN value *)
Definition is_record (o : opt) (h : history) (i : nat) : Prop :=
  exists x v, invocation h i = Some (x, Ret v) /\ better o v (worst o) = true /\
    forall j y u, j < i -> invocation h j = Some (y, Ret u) -> u <> NaN -> better o v u = true.

(** the problem may be called [n] more times *)
Definition within (n : nat) (l : lim) : Prop :=
  match l with LInf => True | LFin z => (Z.of_nat n <= Z.max 0 z)%Z end.

(** [y] is the value logged by the last improvement at or before evaluation [e] *)
Definition last_improvement (ns : list nat) (fs : list num) (e : nat) (y : num) : Prop :=
  exists i n, nth_error ns i = Some n /\ nth_error fs i = Some y /\ n <= e /\
    forall i' n', nth_error ns i' = Some n' -> n' <= e -> i' <= i.

(** reached value: at least as good as the cutoff *)
Definition reaches (o : opt) (v cutoff : num) : bool :=
  match o with Minimization => fleb v cutoff | Maximization => fleb cutoff v end.

(** the problem with negated values *)
Definition neg_outcome (r : outcome num) : outcome num :=
  match r with Ret v => Ret (fneg v) | Raise e => Raise e end.
Definition neg_history (h : history) : history := map (fun p => (fst p, neg_outcome (snd p))) h.
Definition neg_problem (P : problem) : problem := fun h x => neg_outcome (P (neg_history h) x).

(** the minimization task that corresponds to a maximization task *)
Definition dual_cfg (C : cfg) : cfg :=
  Cfg (match c_opt C with Minimization => Maximization | Maximization => Minimization end)
      (c_dim C) (c_lower C) (c_upper C) (c_max_evals C) (c_max_iters C) (fneg (c_cutoff C)).
