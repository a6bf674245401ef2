(** Specification vocabulary for runs (independent of the run loop). *)
From Coq Require Import ZArith Bool List Sorted.
From Verif Require Import Num Task TaskSpec Prog Run.
Import ListNotations.

(** a component that is not strictly outside [l, u] (NaN components cannot be placed) *)
Definition in_range (l u a : num) : Prop := a = NaN \/ (fleb l a = true /\ fleb a u = true).

(** a point of the task's dimension with no component strictly outside the bounds *)
Definition inside (C : cfg) (x : vec) : Prop :=
  Forall2 (fun b a => in_range (fst b) (snd b) a) (combine (c_lower C) (c_upper C)) x.

(** a well-formed task: bounds of the right length with lower <= upper *)
Definition cfg_ok (C : cfg) : Prop :=
  length (c_lower C) = c_dim C /\ length (c_upper C) = c_dim C /\
  Forall2 (fun l u => fleb l u = true) (c_lower C) (c_upper C).

(** the repair function returns a point inside the bounds *)
Definition repair_ok (E : env) : Prop :=
  forall p x, length x = c_dim (e_cfg E) -> inside (e_cfg E) (e_rep E p x).

(** the problem never yields NaN *)
Definition no_nan (P : problem) : Prop := forall h x v, P h x = Ret v -> v <> NaN.

(** the best values reported to the callbacks, newest first (internal sign) *)
Definition reported (ev : list event) : list num :=
  flat_map (fun e => match e with BeforeIter _ _ f => [f] | AfterIter _ _ f => [f] | _ => [] end) ev.

(** What a user expects of a run on a fresh task: every problem call is made inside the bounds;
    the returned value is the best value the problem returned (the task's x_f) and the returned
    point was evaluated to it, unless nothing was evaluated; a run raises only what the problem or a
    callback raised ([EFuel]: the model's iteration bound was hit, i.e. the run had not finished);
    the reported best never gets worse.  [X] lists exceptions the algorithm itself may raise; [P] is
    what is promised of the evaluated points (inside the bounds, in [best_run_x] below). *)
Definition best_run_p (P : vec -> Prop) (X : exn -> Prop) (E : env) (A : algo) : Prop :=
  forall cb n pos r w' ev,
    run_body E A cb n (World (task_init (e_cfg E)) [] pos) = (r, w', ev) ->
    (forall p, In p (w_h w') -> P (fst p)) /\
    StronglySorted (fun newer older => fleb newer older = true) (reported ev) /\
    match r with
    | Ret (x, v) =>
        length x = c_dim (e_cfg E) /\
        v = t_xf (w_ts w') /\ best_of (c_opt (e_cfg E)) (returned (w_h w')) v /\
        (v = worst (c_opt (e_cfg E)) \/ In (x, Ret v) (w_h w'))
    | Raise e =>
        X e \/ e = EFuel \/ (exists x, hd_error (w_h w') = Some (x, Raise e)) \/ (cb ev = Some e)
    end.

Definition best_run_x (X : exn -> Prop) (E : env) (A : algo) : Prop := best_run_p (inside (e_cfg E)) X E A.

(** Weaker: every problem call is inside the bounds, the returned pair is an evaluated one, but
    nothing is said about it being the best. *)
Definition sound_run_p (P : vec -> Prop) (X : exn -> Prop) (E : env) (A : algo) : Prop :=
  forall cb n pos r w' ev,
    run_body E A cb n (World (task_init (e_cfg E)) [] pos) = (r, w', ev) ->
    (forall p, In p (w_h w') -> P (fst p)) /\
    match r with
    | Ret (x, v) =>
        length x = c_dim (e_cfg E) /\ (v = worst (c_opt (e_cfg E)) \/ In (x, Ret v) (w_h w'))
    | Raise e =>
        X e \/ e = EFuel \/ (exists x, hd_error (w_h w') = Some (x, Raise e)) \/ (cb ev = Some e)
    end.

Definition sound_run_x (X : exn -> Prop) (E : env) (A : algo) : Prop := sound_run_p (inside (e_cfg E)) X E A.

(** without exceptions of its own *)
Definition best_run : env -> algo -> Prop := best_run_x (fun _ => False).
Definition sound_run : env -> algo -> Prop := sound_run_x (fun _ => False).

(** what a callback sees: fitness array, best coordinates, best value (internal sign) *)
Notation snap := (list num * vec * num)%type (only parsing).
Definition before_ev (s : snap) : event := match s with (fit, xb, fxb) => BeforeIter fit xb fxb end.
Definition after_ev (s : snap) : event := match s with (fit, xb, fxb) => AfterIter fit xb fxb end.

(** [iterations k s es s']: es (oldest first) are the events of k complete iterations; each one
    shows the state before it and the state after it, starting from s and ending in s' *)
Inductive iterations : nat -> snap -> list event -> snap -> Prop :=
| it_none : forall s, iterations 0 s [] s
| it_more : forall k s es s1 s2, iterations k s es s1 ->
    iterations (S k) s (es ++ [before_ev s1; after_ev s2]) s2.

(** every population reported to the callbacks satisfies J *)
Definition reported_ok (J : snap -> Prop) (ev : list event) : Prop :=
  forall s, In (before_ev s) ev \/ In (after_ev s) ev -> J s.

Definition fit_size (P : nat -> Prop) (s : list num * vec * num) : Prop := P (length (fst (fst s))).
(** the population sizes reported to the callbacks *)
Definition sizes_ok (P : nat -> Prop) (E : env) (A : algo) : Prop :=
  forall cb n pos r w' ev, run_body E A cb n (World (task_init (e_cfg E)) [] pos) = (r, w', ev) ->
  reported_ok (fit_size P) ev.

(** the same run on a task that maximizes the negated problem *)
Definition dual_env (E : env) : env :=
  Env (dual_cfg (e_cfg E)) (neg_problem (e_prob E)) (e_rep E) (e_flt E) (e_int E).
