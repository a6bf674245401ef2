(** Final theorems about [Task] (C01-C11).  [reachable C P w]: w is the state of a task with
    configuration C after some finite sequence of method calls (Task.v: [do_calls]), the problem
    being an arbitrary function of everything asked before. *)
From Coq Require Import ZArith Lia Bool List Sorted.
From Verif Require Import Num Task TaskSpec TaskProofs TaskProofs2.
Import ListNotations.

(** ** A concrete task used to show that hypotheses are met *)
Module Ex.
  Definition cmin := Cfg Minimization 1 [Fin 0] [Fin 9] (LFin 3) LInf NInf.
  Definition cmax := Cfg Maximization 1 [Fin 0] [Fin 9] (LFin 3) LInf PInf.
  (* f(x) = x[0]; raises for an empty vector *)
  Definition P : problem := fun _ x => match x with [] => Raise (EProblem 7) | a :: _ => Ret a end.
  Definition calls := [CEval [Fin 5]; CNextIter; CEval [NaN]; CEval [Fin 2]; CStopIter; CEval [Fin 1]; CStop].
  Definition wmin := snd (do_calls cmin P (tw_init cmin) calls).
  Definition wmax := snd (do_calls cmax P (tw_init cmax) calls).
  Example wmin_reachable : reachable cmin P wmin.
  Proof. exists calls; reflexivity. Qed.
  Example wmin_value : tw_ts wmin = TS 3 2 (Fin 2) [1; 3] [Fin 5; Fin 2] [Fin 5; Fin 2]
    /\ length (tw_h wmin) = 3 /\ stopping_condition cmin (tw_ts wmin) = true.
  Proof. vm_compute. auto. Qed.
  Example wmax_reachable : reachable cmax P wmax.
  Proof. exists calls; reflexivity. Qed.
End Ex.

(** ** C01 *)
Theorem C01_budget : forall C P w, reachable C P w ->
  within (length (tw_h w)) (c_max_evals C) /\ t_evals (tw_ts w) = length (tw_h w).
Proof. intros C P w H. apply tinv_reachable in H. split; apply H. Qed.

(** the history is exactly what the problem was asked: it only grows, by at most one per call,
    each entry being the problem's own answer *)
Theorem C01_history : forall C P w c,
  tw_h (snd (do_call C P w c)) = tw_h w \/
  exists x, c = CEval x /\ tw_h (snd (do_call C P w c)) = (x, P (tw_h w) x) :: tw_h w.
Proof.
  intros C P w [x| | |]; simpl; auto. unfold task_eval. destruct (stopping_condition C (tw_ts w)); auto.
  right; exists x; split; auto. destruct (P (tw_h w) x); auto.
Qed.

(** ** C02 *)
Theorem C02_inert : forall C P w, stopping_condition C (tw_ts w) = true ->
  (forall cs, stopping_condition C (tw_ts (snd (do_calls C P w cs))) = true /\
              tw_h (snd (do_calls C P w cs)) = tw_h w) /\
  (forall cs x, let w' := snd (do_calls C P w cs) in
     do_call C P w' (CEval x) = (AFloat (Ret PInf), w')).
Proof.
  intros C P w H. split.
  - intros cs. split; [apply stop_calls | apply stop_history]; auto.
  - intros cs x w'. simpl. rewrite task_eval_stopped. destruct w'; auto. apply stop_calls; auto.
Qed.
Example C02_nonvacuous : stopping_condition Ex.cmin (tw_ts Ex.wmin) = true.
Proof. reflexivity. Qed.

(** ** C03 *)
Theorem C03_best : forall C P w, reachable C P w ->
  best_of (c_opt C) (returned (tw_h w)) (t_xf (tw_ts w)).
Proof. intros C P w H. apply tinv_reachable in H. apply H. Qed.
(** the specification determines the value *)
Theorem C03_best_unique : forall o vals a b, best_of o vals a -> best_of o vals b -> a = b.
Proof. exact best_of_unique. Qed.

(** ** C04 *)
Theorem C04_log : forall C P w, reachable C P w ->
  StronglySorted lt (t_n_evals (tw_ts w)) /\
  (forall i, In i (t_n_evals (tw_ts w)) -> 1 <= i <= t_evals (tw_ts w)) /\
  length (t_fitness_evals (tw_ts w)) = length (t_n_evals (tw_ts w)) /\
  StronglySorted (fun a b => fltb b a = true) (t_fitness_evals (tw_ts w)) /\
  (forall k i f, nth_error (t_n_evals (tw_ts w)) k = Some i -> nth_error (t_fitness_evals (tw_ts w)) k = Some f ->
     exists x v, invocation (tw_h w) i = Some (x, Ret v) /\ f = sgn (c_opt C) v) /\
  (forall i, In i (t_n_evals (tw_ts w)) <-> is_record (c_opt C) (tw_h w) i).
Proof.
  intros C P w H. apply tinv_reachable in H. destruct H.
  split; [auto|]. split; [|split; [|split; [auto|split; [|auto]]]].
  - intros i Hi. rewrite ti_evals. apply ti_rec in Hi. eapply is_record_range; eauto.
  - symmetry. eapply Forall2_len; eauto.
  - clear - ti_fe. intros k. revert ti_fe. generalize (t_n_evals (tw_ts w)) (t_fitness_evals (tw_ts w)).
    induction k; intros l l0 F i f H1 H2; destruct F; simpl in *; try discriminate.
    + inversion H1; inversion H2; subst; auto.
    + eapply IHk; eauto.
Qed.

(** ** C05 *)
Theorem C05_fitness_iters : forall C P w, reachable C P w ->
  length (t_fitness_iters (tw_ts w)) = t_iters (tw_ts w) /\
  StronglySorted (fun a b => better (c_opt C) a b = false) (t_fitness_iters (tw_ts w)) /\
  Forall (fun a => better (c_opt C) a (t_xf (tw_ts w)) = false) (t_fitness_iters (tw_ts w)) /\
  Forall (fun f => exists later earlier, tw_h w = later ++ earlier /\ best_of (c_opt C) (returned earlier) f)
    (t_fitness_iters (tw_ts w)).
Proof. intros C P w H. apply tinv_reachable in H. destruct H. auto. Qed.

(** ** C06 *)
Theorem C06_convergence_evals : forall C P w, reachable C P w ->
  exists xs ys, convergence_evals (tw_ts w) = Some (xs, ys) /\ length xs = length ys /\
    (t_n_evals (tw_ts w) = [] -> xs = []) /\
    (forall first, hd_error (t_n_evals (tw_ts w)) = Some first ->
       xs = seq first (S (last (t_n_evals (tw_ts w)) 0 - first))) /\
    (forall k e y, nth_error xs k = Some e -> nth_error ys k = Some y ->
       last_improvement (t_n_evals (tw_ts w)) (t_fitness_evals (tw_ts w)) e y).
Proof.
  intros C P w H. apply tinv_reachable in H. destruct H.
  destruct (conv_evals_ok (t_n_evals (tw_ts w)) (t_fitness_evals (tw_ts w))) as (r1 & r2 & E & (G1 & G2 & G3 & G4)); auto.
  - eapply Forall2_len; eauto.
  - exists r1, r2. auto.
Qed.
Example C06_example : convergence_evals (tw_ts Ex.wmin) = Some ([1; 2; 3], [Fin 5; Fin 5; Fin 2]).
Proof. reflexivity. Qed.

(** ** C07 *)
Theorem C07_convergence_iters : forall C P w, reachable C P w ->
  fst (convergence_iters (tw_ts w)) = seq 0 (t_iters (tw_ts w)) /\
  length (snd (convergence_iters (tw_ts w))) = t_iters (tw_ts w) /\
  snd (convergence_iters (tw_ts w)) = t_fitness_iters (tw_ts w).
Proof. intros C P w H. apply tinv_reachable in H. destruct H. simpl. auto. Qed.
(** the entry recorded by the iteration that ends now is the best value at that moment *)
Theorem C07_entry : forall C P w c, c = CNextIter \/ c = CStopIter ->
  snd (convergence_iters (tw_ts (snd (do_call C P w c)))) =
  snd (convergence_iters (tw_ts w)) ++ [t_xf (tw_ts w)].
Proof. intros C P w c [->| ->]; reflexivity. Qed.

(** ** C08: holds for minimization, fails for maximization *)
Theorem C08_sign_minimization_partial : forall C P w xs ys, reachable C P w -> c_opt C = Minimization ->
  convergence_evals (tw_ts w) = Some (xs, ys) -> ys <> [] ->
  exists l, ys = l ++ [t_xf (tw_ts w)].
Proof.
  intros C P w xs ys H Ho E Hne. apply tinv_reachable in H. destruct H.
  destruct ti_last as [[Hf _]|[l Hl]].
  - exfalso. unfold convergence_evals in E. rewrite Hf in *. inversion ti_fe as [Hn|]. rewrite <- Hn in E. simpl in E. congruence.
  - rewrite Ho in Hl. simpl in Hl. eapply last_fs; eauto. eapply Forall2_len; eauto.
Qed.
Theorem C08_sign_refuted : exists C P w xs ys l y, reachable C P w /\ c_opt C = Maximization /\
  convergence_evals (tw_ts w) = Some (xs, ys) /\ ys = l ++ [y] /\
  t_xf (tw_ts w) = Fin 5 /\ y = Fin (-5) /\ snd (convergence_iters (tw_ts w)) = [Fin 5; Fin 5].
Proof.
  exists Ex.cmax, Ex.P, Ex.wmax, [1], [Fin (-5)], [], (Fin (-5)).
  split; [exact Ex.wmax_reachable|]. vm_compute. tauto.
Qed.
(** in general the curves differ exactly by the optimization sign *)
Theorem C08_sign_general : forall C P w xs ys, reachable C P w ->
  convergence_evals (tw_ts w) = Some (xs, ys) -> ys <> [] ->
  exists l, ys = l ++ [sgn (c_opt C) (t_xf (tw_ts w))].
Proof.
  intros C P w xs ys H E Hne. apply tinv_reachable in H. destruct H.
  destruct ti_last as [[Hf _]|[l Hl]].
  - exfalso. unfold convergence_evals in E. rewrite Hf in *. inversion ti_fe as [Hn|]. rewrite <- Hn in E. simpl in E. congruence.
  - eapply last_fs; eauto. eapply Forall2_len; eauto.
Qed.

(** ** C09 *)
Theorem C09_duality : forall C P cs,
  let a := do_calls C P (tw_init C) cs in
  let b := do_calls (dual_cfg C) (neg_problem P) (tw_init (dual_cfg C)) cs in
  fst b = fst a /\
  t_evals (tw_ts (snd b)) = t_evals (tw_ts (snd a)) /\
  t_iters (tw_ts (snd b)) = t_iters (tw_ts (snd a)) /\
  t_n_evals (tw_ts (snd b)) = t_n_evals (tw_ts (snd a)) /\
  t_fitness_evals (tw_ts (snd b)) = t_fitness_evals (tw_ts (snd a)) /\
  t_xf (tw_ts (snd b)) = fneg (t_xf (tw_ts (snd a))) /\
  t_fitness_iters (tw_ts (snd b)) = map fneg (t_fitness_iters (tw_ts (snd a))) /\
  map fst (tw_h (snd b)) = map fst (tw_h (snd a)) /\
  map snd (tw_h (snd b)) = map neg_outcome (map snd (tw_h (snd a))).
Proof.
  intros C P cs. cbv zeta. rewrite <- init_dual. rewrite calls_dual. simpl.
  unfold neg_history. rewrite !map_map. simpl. auto 10.
Qed.
Example C09_example : c_opt (dual_cfg Ex.cmin) = Maximization /\ neg_problem Ex.P [] [Fin 3] = Ret (Fin (-3)).
Proof. vm_compute. auto. Qed.

(** ** C10 *)
Theorem C10_cutoff : forall C P w, reachable C P w -> c_max_evals C = LInf -> c_max_iters C = LInf ->
  reaches (c_opt C) (worst (c_opt C)) (c_cutoff C) = false ->
  (stopping_condition C (tw_ts w) = true <->
   exists v, In v (returned (tw_h w)) /\ reaches (c_opt C) v (c_cutoff C) = true).
Proof.
  intros C P w H He Hi Hw. apply tinv_reachable in H. destruct H.
  unfold stopping_condition. rewrite He, Hi. simpl. rewrite reaches_sgn. split.
  - intros R. destruct (reaches_best _ _ _ _ ti_best R) as [R'|R']; auto. congruence.
  - intros (v & Hv & R). eapply best_reaches; eauto.
Qed.
(** a value reaching the cutoff can only be the newest invocation: nothing is evaluated after it *)
Theorem C10_nothing_after : forall C P w, reachable C P w ->
  forall later x v earlier, tw_h w = later ++ (x, Ret v) :: earlier ->
  reaches (c_opt C) v (c_cutoff C) = true -> later = [].
Proof.
  intros C P w [cs ->] later x v earlier E R.
  pose proof (older_miss_calls C P cs (tw_init C) (tinv_init C) I) as G. unfold older_miss in G. rewrite E in G.
  destruct later as [|p later]; auto. exfalso. simpl in G.
  rewrite (G v) in R; [discriminate|]. unfold returned. rewrite flat_map_app. apply in_or_app. right. simpl; auto.
Qed.
Theorem C10_default_never_stops : forall C P w, reachable C P w -> c_max_evals C = LInf -> c_max_iters C = LInf ->
  c_cutoff C = default_cutoff (c_opt C) None ->
  (forall v, In v (returned (tw_h w)) -> exists z, v = Fin z) ->
  stopping_condition C (tw_ts w) = false.
Proof.
  intros C P w H He Hi Hc Hf. apply tinv_reachable in H. destruct H.
  unfold stopping_condition. rewrite He, Hi, Hc. simpl. rewrite reaches_sgn.
  destruct ti_best as (Hn & [->|Hb] & _).
  - destruct (c_opt C); reflexivity.
  - destruct (Hf _ Hb) as [z ->]. destruct (c_opt C); reflexivity.
Qed.
Definition c10_cfg := Cfg Minimization 1 [Fin 0] [Fin 9] LInf LInf (Fin 2).
Example C10_nonvacuous :
  reachable c10_cfg Ex.P (snd (do_calls c10_cfg Ex.P (tw_init c10_cfg) Ex.calls)) /\
  reaches Minimization (worst Minimization) (c_cutoff c10_cfg) = false /\
  stopping_condition c10_cfg (tw_ts (snd (do_calls c10_cfg Ex.P (tw_init c10_cfg) Ex.calls))) = true /\
  map fst (tw_h (snd (do_calls c10_cfg Ex.P (tw_init c10_cfg) Ex.calls))) = [[Fin 2]; [NaN]; [Fin 5]].
Proof. split; [exists Ex.calls; reflexivity|]. vm_compute. auto. Qed.

(** ** C11 *)
Theorem C11_eval : forall C P w x, stopping_condition C (tw_ts w) = false ->
  match P (tw_h w) x with
  | Ret v => fst (do_call C P w (CEval x)) = AFloat (Ret (sgn (c_opt C) v))
  | Raise e => do_call C P w (CEval x) =
      (AFloat (Raise e),
       TW (TS (S (t_evals (tw_ts w))) (t_iters (tw_ts w)) (t_xf (tw_ts w)) (t_n_evals (tw_ts w))
              (t_fitness_evals (tw_ts w)) (t_fitness_iters (tw_ts w)))
          ((x, Raise e) :: tw_h w))
  end.
Proof.
  intros C P w x H. simpl. unfold task_eval. rewrite H. destruct (P (tw_h w) x); reflexivity.
Qed.
Theorem C11_state : forall C P w x v, stopping_condition C (tw_ts w) = false -> P (tw_h w) x = Ret v ->
  let t := tw_ts (snd (do_call C P w (CEval x))) in
  t_evals t = S (t_evals (tw_ts w)) /\ t_iters t = t_iters (tw_ts w) /\
  t_fitness_iters t = t_fitness_iters (tw_ts w) /\
  t_xf t = (if better (c_opt C) v (t_xf (tw_ts w)) then v else t_xf (tw_ts w)).
Proof.
  intros C P w x v H E. simpl. unfold task_eval. rewrite H, E. cbv zeta. rewrite fltb_sgn.
  destruct (better (c_opt C) v (t_xf (tw_ts w))); simpl; rewrite ?sgn_invol; auto.
Qed.
Example C11_nonvacuous : stopping_condition Ex.cmin (tw_ts (tw_init Ex.cmin)) = false /\
  fst (do_call Ex.cmax Ex.P (tw_init Ex.cmax) (CEval [Fin 4])) = AFloat (Ret (Fin (-4))) /\
  fst (do_call Ex.cmax Ex.P (tw_init Ex.cmax) (CEval [])) = AFloat (Raise (EProblem 7)).
Proof. vm_compute. auto. Qed.

Print Assumptions C01_budget. Print Assumptions C01_history. Print Assumptions C02_inert.
Print Assumptions C03_best. Print Assumptions C03_best_unique. Print Assumptions C04_log.
Print Assumptions C05_fitness_iters. Print Assumptions C06_convergence_evals.
Print Assumptions C07_convergence_iters. Print Assumptions C07_entry.
Print Assumptions C08_sign_minimization_partial. Print Assumptions C08_sign_refuted.
Print Assumptions C08_sign_general.
Print Assumptions C09_duality. Print Assumptions C10_cutoff. Print Assumptions C10_nothing_after.
Print Assumptions C10_default_never_stops. Print Assumptions C11_eval. Print Assumptions C11_state.
