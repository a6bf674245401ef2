(** A proof device: programs in which every look at the task fails unless the number of evaluations is within the limit.  In a
    run from a new task they do the same as the programs themselves, so that proofs about them may use the limit. *)
From Coq Require Import ZArith Lia Bool List.
From Verif Require Import Num Task TaskSpec TaskProofs Prog Wp GetBest Run RunSpec AlgoLib Fops AlgTac StepSpec StepLib Reach.
Import ListNotations.

Definition within (C : cfg) (n : nat) : bool :=
  match c_max_evals C with LInf => true | LFin k => (Z.of_nat n <=? Z.max 0 k)%Z end.
Fixpoint guard {A} (C : cfg) (p : prog A) : prog A :=
  match p with
  | Done a => Done a
  | Fail e => Fail e
  | Eval x k => Eval x (fun v => guard C (k v))
  | Repair x k => Repair x (fun y => guard C (k y))
  | RndU lo hi k => RndU lo hi (fun r => guard C (k r))
  | RndF k => RndF (fun r => guard C (k r))
  | RndN n k => RndN n (fun r => guard C (k r))
  | View k => View (fun v => if within C (v_evals v) then guard C (k v) else Fail EFuel)
  end.
Definition guarded (C : cfg) (A : algo) : algo :=
  Algo (a_pop A) (a_par A) (a_coords A) (guard C (a_init A)) (fun pop fit xb fxb par => guard C (a_iter A pop fit xb fxb par)).

(** ** Runs *)
Lemma within_eval : forall C P h t x o t' h', task_eval C P h t x = (o, t', h') -> within C (t_evals t) = true -> within C (t_evals t') = true.
Proof.
  intros C P h t x o t' h' H W. unfold task_eval in H. destruct (stopping_condition C t) eqn:S; [inversion H; subst; auto|].
  assert (G : within C (Datatypes.S (t_evals t)) = true).
  { unfold stopping_condition in S. apply orb_false_iff in S. destruct S as [S _]. apply orb_false_iff in S. destruct S as [S _].
    unfold within in *. destruct (c_max_evals C); auto. unfold lim_reached in S. apply Z.leb_le. apply Z.leb_gt in S. lia. }
  destruct (P h x) as [v|e]; [destruct (fltb _ _)|]; inversion H; subst; exact G.
Qed.
Lemma guard_exec : forall A E (p : prog A) w, within (e_cfg E) (t_evals (w_ts w)) = true ->
  exec E (guard (e_cfg E) p) w = exec E p w /\ within (e_cfg E) (t_evals (w_ts (snd (exec E p w)))) = true.
Proof.
  intros A E. induction p as [a|e|x k IH|x k IH|lo hi k IH|k IH|n k IH|k IH]; intros w W; cbn [guard exec]; try (split; [reflexivity|exact W]); try (apply IH; exact W).
  - destruct (task_eval _ _ _ _ x) as [[[v|e] t] h] eqn:Et; assert (W' := within_eval _ _ _ _ _ _ _ _ Et W); [apply IH; exact W'|split; [reflexivity|exact W']].
  - cbn [v_evals]. rewrite W. apply IH. exact W.
Qed.
Lemma guard_loop : forall E A cb n p fit xb fxb q w ev, within (e_cfg E) (t_evals (w_ts w)) = true ->
  loop E (guarded (e_cfg E) A) cb n (RState (A := guarded (e_cfg E) A) p fit xb fxb q) w ev = loop E A cb n (RState (A := A) p fit xb fxb q) w ev.
Proof.
  intros E A cb. induction n as [|n IH]; intros p fit xb fxb q w ev W; cbn [loop r_pop r_fit r_xb r_fxb r_par]; destruct (stopping_condition _ _); auto.
  destruct (cb _); auto. cbn [guarded a_iter a_pop a_par]. destruct (guard_exec _ E (a_iter A p fit xb fxb q) w W) as [G1 G2]. rewrite G1.
  destruct (exec E (a_iter A p fit xb fxb q) w) as [[[[[[p1 f1] x1] g1] q1]|e] w1]; auto. destruct (cb _); auto.
Qed.
Theorem guard_run : forall E A cb n pos,
  run_body E (guarded (e_cfg E) A) cb n (World (task_init (e_cfg E)) [] pos) = run_body E A cb n (World (task_init (e_cfg E)) [] pos).
Proof.
  intros E A cb n pos. unfold run_body. destruct (cb _); auto. cbn [guarded a_init a_coords a_pop a_par].
  assert (W : within (e_cfg E) (t_evals (w_ts (World (task_init (e_cfg E)) [] pos))) = true).
  { unfold within. cbn. destruct (c_max_evals (e_cfg E)); auto. apply Z.leb_le. lia. }
  destruct (guard_exec _ E (a_init A) _ W) as [G1 G2]. rewrite G1. destruct (exec E (a_init A) _) as [[[[p1 f1] q1]|e] w1]; auto.
  destruct (get_best _ _ _ _) as [[xb fxb]|e]; auto. rewrite guard_loop by exact G2. reflexivity.
Qed.
Corollary guard_best : forall P X E A, best_run_p P X E (guarded (e_cfg E) A) -> best_run_p P X E A.
Proof. intros P X E A H cb n pos r w' ev Hr. rewrite <- guard_run in Hr. exact (H cb n pos r w' ev Hr). Qed.
Corollary guard_sizes : forall N E A, sizes_ok N E (guarded (e_cfg E) A) -> sizes_ok N E A.
Proof. intros N E A H cb n pos r w' ev Hr. rewrite <- guard_run in Hr. exact (H cb n pos r w' ev Hr). Qed.
Corollary guard_steps : forall R E A, steps_ok R E (guarded (e_cfg E) A) -> steps_ok R E A.
Proof. intros R E A H cb n pos r w' ev Hr. rewrite <- guard_run in Hr. exact (H cb n pos r w' ev Hr). Qed.

(** ** Rules *)
Lemma g_of_wp : forall A C K (p : prog A) Q l, K_exn K EFuel -> wp K p Q l -> wp K (guard C p) Q l.
Proof.
  intros A C K p Q l KF. revert Q l. induction p as [a|e|x k IH|x k IH|lo hi k IH|k IH|n k IH|k IH]; intros Q l H; cbn [guard wp] in *; auto.
  - destruct H as (H1 & H2 & H3). repeat split; auto. destruct (K_ref K); auto.
  - intros v. destruct (within C (v_evals v)); [auto|exact KF].
Qed.
Lemma g_bind : forall A B C K (p : prog A) (f : A -> prog B) Q l, wp K (guard C p) (fun a l' => wp K (guard C (f a)) Q l') l -> wp K (guard C (bind p f)) Q l.
Proof.
  intros A B C K. induction p as [a|e|x k IH|x k IH|lo hi k IH|k IH|n k IH|k IH]; intros f Q l H; cbn [guard bind wp] in *; auto.
  - destruct H as (H1 & H2 & H3). repeat split; auto. destruct (K_ref K); auto.
  - intros v. specialize (H v). destruct (within C (v_evals v)); [auto|exact H].
Qed.
(** a part without a look at the task *)
Lemma g_step : forall A B C K (p : prog A) (f : A -> prog B) Q l, K_exn K EFuel -> wp K p (fun a l' => wp K (guard C (f a)) Q l') l -> wp K (guard C (bind p f)) Q l.
Proof. intros. apply g_bind. apply g_of_wp; auto. Qed.
Lemma g_view : forall A C K (f : tview -> prog A) Q l, K_exn K EFuel ->
  (forall v, within C (v_evals v) = true -> wp K (guard C (f v)) Q l) -> wp K (guard C (bind view f)) Q l.
Proof. intros A C K f Q l KF H. cbn [view bind guard wp]. intros v. destruct (within C (v_evals v)) eqn:W; [auto|exact KF]. Qed.

(** ** Reached states *)
Theorem guard_reached : forall E A s w, reached E A s w -> within (e_cfg E) (t_evals (w_ts w)) = true /\
  reached E (guarded (e_cfg E) A) (RState (A := guarded (e_cfg E) A) (r_pop s) (r_fit s) (r_xb s) (r_fxb s) (r_par s)) w.
Proof.
  intros E A s w H. induction H as [pos pop fit par w xb fxb Ex G|s w pop fit xb fxb par w' H [IH1 IH2] Ex]; cbn [r_pop r_fit r_xb r_fxb r_par].
  - assert (W : within (e_cfg E) (t_evals (w_ts (World (task_init (e_cfg E)) [] pos))) = true).
    { unfold within. cbn. destruct (c_max_evals (e_cfg E)); auto. apply Z.leb_le. lia. }
    destruct (guard_exec _ E (a_init A) _ W) as [G1 G2]. rewrite Ex in G1, G2. split; [exact G2|]. eapply (reached_init E (guarded (e_cfg E) A)); [exact G1|exact G].
  - destruct (guard_exec _ E (a_iter A (r_pop s) (r_fit s) (r_xb s) (r_fxb s) (r_par s)) w IH1) as [G1 G2]. rewrite Ex in G1, G2. split; [exact G2|].
    exact (reached_step E (guarded (e_cfg E) A) _ w _ _ _ _ _ w' IH2 G1).
Qed.
