(** The states a run passes through, and invariants of all of them. *)
From Coq Require Import ZArith Lia Bool List.
From Verif Require Import Num Task TaskSpec TaskProofs TaskProofs2 Prog Wp GetBest Run RunSpec RunProofs RunProofs2
  AlgoLib Fops AlgTac StepSpec StepLib.
Import ListNotations.

(** population, fitness, best and parameters at the start of an iteration of some run, with the world *)
Inductive reached (E : env) (A : algo) : rstate A -> world -> Prop :=
| reached_init : forall pos pop fit par w xb fxb,
    exec E (a_init A) (World (task_init (e_cfg E)) [] pos) = (Ret (pop, fit, par), w) ->
    get_best (a_coords A pop) fit None PInf = Ret (xb, fxb) ->
    reached E A (RState pop fit xb fxb par) w
| reached_step : forall s w pop fit xb fxb par w',
    reached E A s w ->
    exec E (a_iter A (r_pop s) (r_fit s) (r_xb s) (r_fxb s) (r_par s)) w = (Ret (pop, fit, xb, fxb, par), w') ->
    reached E A (RState pop fit xb fxb par) (World (next_iter (w_ts w')) (w_h w') (w_pos w')).

Theorem reach_inv : forall K E A Inv, env_ok K E -> algo_ok K A Inv -> forall s w, reached E A s w ->
  Inv s (log_of (c_opt (e_cfg E)) (w_h w)).
Proof.
  intros K E A Inv HE [H0 H1] s w H. induction H as [pos pop fit par w xb fxb Ex G|s w pop fit xb fxb par w' H IH Ex].
  - assert (X : exec E (init_prog A) (World (task_init (e_cfg E)) [] pos) = (Ret (RState pop fit xb fxb par), w)).
    { unfold init_prog. rewrite exec_bind, Ex. cbv beta iota. rewrite exec_bind, G. reflexivity. }
    exact (proj2 (wp_sound _ K E _ Inv (World (task_init (e_cfg E)) [] pos) _ _ HE H0 X)).
  - assert (X : exec E (iter_prog s) w = (Ret (RState pop fit xb fxb par), w')).
    { unfold iter_prog. rewrite exec_bind, Ex. reflexivity. }
    cbn [w_h]. exact (proj2 (wp_sound _ K E _ Inv w _ _ HE (H1 _ _ IH) X)).
Qed.
Theorem reach_c : forall P X E A (I : a_pop A -> list num -> vec -> num -> a_par A -> elog -> Prop),
  no_nan (e_prob E) -> repair_ok E ->
  init_c (KPX (e_cfg E) P X) A I -> iter_c (KPX (e_cfg E) P X) A I ->
  forall s w, reached E A s w -> I (r_pop s) (r_fit s) (r_xb s) (r_fxb s) (r_par s) (log_of (c_opt (e_cfg E)) (w_h w)).
Proof.
  intros P X E A I Hn Hr H1 H2 s w H.
  exact (reach_inv (KPX (e_cfg E) P X) E A (Inv_of A I) (env_ok_KB _ _ _ Hn Hr) (algo_ok_c _ _ _ H1 H2) s w H).
Qed.

(** an iteration that starts by looking at the task *)
Definition view_iter {P T} (body : tview -> P -> list num -> vec -> num -> T -> prog (P * list num * vec * num * T))
  (pop : P) (fit : list num) (xb : vec) (fxb : num) (par : T) : prog (P * list num * vec * num * T) :=
  let* v := view in body v pop fit xb fxb par.
Definition only_if {P T} (G : tview -> bool) (body : tview -> P -> list num -> vec -> num -> T -> prog (P * list num * vec * num * T))
  (v : tview) (pop : P) (fit : list num) (xb : vec) (fxb : num) (par : T) : prog (P * list num * vec * num * T) :=
  if G v then body v pop fit xb fxb par else Fail EFuel.
(** iterations only start when the task has not stopped, so whatever holds then may be assumed *)
Lemma loop_guard : forall E P T (co : P -> list vec) ini body G,
  (forall ts, stopping_condition (e_cfg E) ts = false -> G (TView (t_evals ts) (t_iters ts) false) = true) ->
  forall cb n pop fit xb fxb (par : T) w ev,
  loop E (Algo P T co ini (view_iter body)) cb n (RState (A := Algo P T co ini (view_iter body)) pop fit xb fxb par) w ev =
  loop E (Algo P T co ini (view_iter (only_if G body))) cb n (RState (A := Algo P T co ini (view_iter (only_if G body))) pop fit xb fxb par) w ev.
Proof.
  intros E P T co ini body G HG cb n. induction n as [|n IH]; intros pop fit xb fxb par w ev; cbn [loop].
  - destruct (stopping_condition (e_cfg E) (w_ts w)); auto.
  - destruct (stopping_condition (e_cfg E) (w_ts w)) eqn:Hs; auto. cbn [r_pop r_fit r_xb r_fxb r_par].
    destruct (cb _); auto. cbn [a_iter a_pop a_par].
    assert (X : exec E (view_iter body pop fit xb fxb par) w = exec E (view_iter (only_if G body) pop fit xb fxb par) w).
    { unfold view_iter. rewrite !exec_bind. cbn [exec view]. rewrite Hs. unfold only_if. rewrite HG by auto. reflexivity. }
    rewrite X. destruct (exec E (view_iter (only_if G body) pop fit xb fxb par) w) as [[[[[[pop' fit'] xb'] fxb'] par']|e] w']; auto.
    destruct (cb _); auto.
Qed.
Lemma run_guard : forall E P T (co : P -> list vec) ini (body : tview -> P -> list num -> vec -> num -> T -> prog (P * list num * vec * num * T)) G,
  (forall ts, stopping_condition (e_cfg E) ts = false -> G (TView (t_evals ts) (t_iters ts) false) = true) ->
  forall cb n w, run_body E (Algo P T co ini (view_iter body)) cb n w = run_body E (Algo P T co ini (view_iter (only_if G body))) cb n w.
Proof.
  intros E P T co ini body G HG cb n w. unfold run_body. destruct (cb [BeforeRun]); auto. cbn [a_init a_coords a_pop a_par].
  destruct (exec E ini w) as [[[[pop fit] par]|e] w1]; auto. destruct (get_best (co pop) fit None PInf) as [[xb fxb]|e]; auto.
  pose proof (loop_guard E P T co ini body G HG cb n pop fit xb fxb par w1 [BeforeRun]) as X. cbn [a_pop a_par] in *. rewrite X. reflexivity.
Qed.
Lemma best_guard : forall X E P T (co : P -> list vec) ini (body : tview -> P -> list num -> vec -> num -> T -> prog (P * list num * vec * num * T)) G,
  (forall ts, stopping_condition (e_cfg E) ts = false -> G (TView (t_evals ts) (t_iters ts) false) = true) ->
  best_run_x X E (Algo P T co ini (view_iter (only_if G body))) -> best_run_x X E (Algo P T co ini (view_iter body)).
Proof. intros X E P T co ini body G HG H cb n pos r w' ev Hr. apply (H cb n pos). rewrite <- (run_guard E P T co ini body G HG). exact Hr. Qed.

(** the iteration number is below max_iters *)
Definition below (l : lim) (n : nat) : bool := negb (lim_reached n l).
Lemma below_iters : forall C ts, stopping_condition C ts = false -> below (c_max_iters C) (t_iters ts) = true.
Proof. intros C ts H. unfold stopping_condition in H. apply orb_false_iff in H. destruct H as [H _]. apply orb_false_iff in H. unfold below. rewrite (proj2 H). auto. Qed.
Lemma below_evals : forall C ts, stopping_condition C ts = false -> below (c_max_evals C) (t_evals ts) = true.
Proof. intros C ts H. unfold stopping_condition in H. apply orb_false_iff in H. destruct H as [H _]. apply orb_false_iff in H. unfold below. rewrite (proj1 H). auto. Qed.
