(** Progress: programs that evaluate at least once before they return, and termination under a finite max_evals. *)
From Coq Require Import ZArith Lia Bool List.
From Verif Require Import Num Task Prog GetBest Run RunProofs AlgoLib Fops Indiv Reach.
Import ListNotations.

(** [p] never raises EFuel itself (EFuel stands for a loop of the code that does not end) *)
Fixpoint nf {A} (p : prog A) : Prop :=
  match p with
  | Done _ => True
  | Fail e => e <> EFuel
  | Eval _ k => forall v, nf (k v)
  | Repair _ k => forall y, nf (k y)
  | RndU _ _ k => forall r, nf (k r)
  | RndF k => forall r, nf (k r)
  | RndN _ k => forall r, nf (k r)
  | View k => forall v, nf (k v)
  end.
(** ... and evaluates a point before it returns *)
Fixpoint me {A} (p : prog A) : Prop :=
  match p with
  | Done _ => False
  | Fail e => e <> EFuel
  | Eval _ k => forall v, nf (k v)
  | Repair _ k => forall y, me (k y)
  | RndU _ _ k => forall r, me (k r)
  | RndF k => forall r, me (k r)
  | RndN _ k => forall r, me (k r)
  | View k => forall v, me (k v)
  end.
(** every value [p] returns satisfies [Q], the values of evaluations satisfying [V] *)
Fixpoint retsV {A} (V : num -> Prop) (p : prog A) (Q : A -> Prop) : Prop :=
  match p with
  | Done a => Q a
  | Fail _ => True
  | Eval _ k => forall v, V v -> retsV V (k v) Q
  | Repair _ k => forall y, retsV V (k y) Q
  | RndU _ _ k => forall r, retsV V (k r) Q
  | RndF k => forall r, retsV V (k r) Q
  | RndN _ k => forall r, retsV V (k r) Q
  | View k => forall v, retsV V (k v) Q
  end.
Notation rets := (retsV (fun _ => True)).

Lemma me_nf : forall A (p : prog A), me p -> nf p.
Proof. induction p; simpl; intros; auto; contradiction. Qed.
Lemma nf_bind : forall A B (p : prog A) (f : A -> prog B), nf p -> (forall a, nf (f a)) -> nf (bind p f).
Proof. induction p; simpl; intros; auto. Qed.
Lemma me_left : forall A B (p : prog A) (f : A -> prog B), me p -> (forall a, nf (f a)) -> me (bind p f).
Proof. induction p; simpl; intros; auto; try contradiction. apply nf_bind; auto. Qed.
Lemma me_right : forall A B (p : prog A) (f : A -> prog B), nf p -> (forall a, me (f a)) -> me (bind p f).
Proof. induction p; simpl; intros; auto. apply nf_bind; auto using me_nf. Qed.
Lemma rets_bind : forall V A B (p : prog A) (f : A -> prog B) Q, retsV V p (fun a => retsV V (f a) Q) -> retsV V (bind p f) Q.
Proof. induction p; simpl; intros; auto. Qed.
Lemma rets_imp : forall V A (p : prog A) (Q Q' : A -> Prop), (forall a, Q a -> Q' a) -> retsV V p Q -> retsV V p Q'.
Proof. induction p; simpl; intros; eauto. Qed.
Lemma rets_any : forall V A (p : prog A), retsV V p (fun _ => True).
Proof. induction p; simpl; intros; auto. Qed.
Lemma rets_exec_v : forall (V : num -> Prop) A E (p : prog A) Q w a w', V PInf -> (forall h x v, e_prob E h x = Ret v -> V (sgn (c_opt (e_cfg E)) v)) ->
  retsV V p Q -> exec E p w = (Ret a, w') -> Q a.
Proof.
  intros V A E p Q w a w' HI HV. revert w a w'. induction p; cbn [exec retsV]; intros w b w' HQ H0; eauto.
  - inversion H0; subst; auto.
  - discriminate.
  - unfold task_eval in H0. destruct (stopping_condition _ _); [eauto|]. destruct (e_prob E (w_h w) x) as [v|e] eqn:P; [|discriminate].
    destruct (fltb _ _); eauto.
Qed.
Lemma rets_exec : forall A E (p : prog A) Q w a w', rets p Q -> exec E p w = (Ret a, w') -> Q a.
Proof. intros A E p Q w a w'. apply rets_exec_v; auto. Qed.

(** ** The counters *)
Definition sane (E : env) : Prop := forall h x, e_prob E h x <> Raise EFuel.
Lemma task_eval_evals : forall C P h t x o t' h', task_eval C P h t x = (o, t', h') ->
  t_iters t' = t_iters t /\ t_evals t <= t_evals t' /\ (stopping_condition C t = false -> t_evals t' = S (t_evals t)).
Proof.
  intros C P h t x o t' h' H. unfold task_eval in H. destruct (stopping_condition C t); [inversion H; subst; repeat split; auto; discriminate|].
  destruct (P h x); [destruct (fltb _ _)|]; inversion H; subst; cbn; repeat split; auto; lia.
Qed.
Lemma task_eval_fuel : forall C P h t x t' h', (forall h x, P h x <> Raise EFuel) -> task_eval C P h t x <> (Raise EFuel, t', h').
Proof.
  intros C P h t x t' h' HP H. unfold task_eval in H. destruct (stopping_condition C t); [discriminate|].
  destruct (P h x) eqn:Q; [destruct (fltb _ _); discriminate|]. inversion H; subst. exact (HP _ _ Q).
Qed.
Lemma exec_nf : forall A E (p : prog A), sane E -> nf p -> forall w o w', exec E p w = (o, w') ->
  o <> Raise EFuel /\ t_evals (w_ts w) <= t_evals (w_ts w') /\ t_iters (w_ts w') = t_iters (w_ts w).
Proof.
  intros A E p HS. induction p; cbn [exec nf]; intros N w o w' H0; try (destruct (H _ (N _) _ _ _ H0) as (? & ? & ?); auto; fail).
  - inversion H0; subst. repeat split; auto; discriminate.
  - inversion H0; subst. repeat split; auto. intro Q. inversion Q; subst; auto.
  - destruct (task_eval _ _ _ _ _) as [[[v|e] t] h] eqn:T; pose proof (task_eval_evals _ _ _ _ _ _ _ _ T) as (T1 & T2 & _).
    + destruct (H _ (N _) _ _ _ H0) as (? & ? & ?). cbn [w_ts] in *. repeat split; auto; lia.
    + inversion H0; subst. cbn [w_ts]. split; [|auto]. intro Q. inversion Q; subst. exact (task_eval_fuel _ _ _ _ _ _ _ HS T).
Qed.
Lemma exec_me : forall A E (p : prog A), sane E -> me p -> forall w o w', stopping_condition (e_cfg E) (w_ts w) = false -> exec E p w = (o, w') ->
  o <> Raise EFuel /\ t_iters (w_ts w') = t_iters (w_ts w) /\ (forall a, o = Ret a -> t_evals (w_ts w) < t_evals (w_ts w')).
Proof.
  intros A E p HS. induction p; cbn [exec me]; intros N w o w' St H0; try contradiction; try (exact (H _ (N _) (World (w_ts w) (w_h w) (S (w_pos w))) _ _ St H0)); try (exact (H _ (N _) _ _ _ St H0)).
  - inversion H0; subst. repeat split; auto; [intro Q; inversion Q; subst; auto|discriminate].
  - destruct (task_eval _ _ _ _ _) as [[[v|e] t] h] eqn:T; pose proof (task_eval_evals _ _ _ _ _ _ _ _ T) as (T1 & T2 & T3); specialize (T3 St).
    + destruct (exec_nf _ E _ HS (N v) _ _ _ H0) as (G1 & G2 & G3). cbn [w_ts] in *. split; [auto|split; [congruence|intros; lia]].
    + inversion H0; subst. cbn [w_ts]. split; [|split; [auto|discriminate]]. intro Q. inversion Q; subst. exact (task_eval_fuel _ _ _ _ _ _ _ HS T).
Qed.

(** ** Termination *)

(** with a limit of k evaluations the run never uses more than k iterations: it ends (normally or by an exception other than
    the model's EFuel), each completed iteration having used an evaluation, unless the problem or a callback itself
    raises the model's exception EFuel *)
Definition terminates (A : algo) (E : env) : Prop :=
  forall k cb n pos, c_max_evals (e_cfg E) = LFin k -> sane E -> (forall ev, cb ev <> Some EFuel) -> Z.to_nat k <= n ->
  forall o w ev, run_body E A cb n (World (task_init (e_cfg E)) [] pos) = (o, w, ev) ->
  o <> Raise EFuel /\ t_iters (w_ts w) <= t_evals (w_ts w).

Lemma stop_evals : forall C ts k, c_max_evals C = LFin k -> stopping_condition C ts = false -> t_evals ts < Z.to_nat k.
Proof.
  intros C ts k Hk H. apply below_evals in H. rewrite Hk in H. unfold below, lim_reached in H. apply negb_true_iff in H. apply Z.leb_gt in H. lia.
Qed.
(** an iteration started before the stopping condition holds uses at least one evaluation *)
Definition progress (E : env) (A : algo) : Prop :=
  forall s w o w1, sane E -> reached E A s w -> stopping_condition (e_cfg E) (w_ts w) = false ->
  exec E (a_iter A (r_pop s) (r_fit s) (r_xb s) (r_fxb s) (r_par s)) w = (o, w1) ->
  o <> Raise EFuel /\ t_iters (w_ts w1) = t_iters (w_ts w) /\ t_evals (w_ts w) <= t_evals (w_ts w1) /\
  (forall a, o = Ret a -> t_evals (w_ts w) < t_evals (w_ts w1)).
Lemma loop_ends : forall E A cb k, c_max_evals (e_cfg E) = LFin k -> sane E -> (forall ev, cb ev <> Some EFuel) ->
  progress E A ->
  forall n s w ev o w' ev', reached E A s w -> Z.to_nat k <= n + t_evals (w_ts w) -> t_iters (w_ts w) <= t_evals (w_ts w) ->
  loop E A cb n s w ev = (o, w', ev') -> o <> Raise EFuel /\ t_iters (w_ts w') <= t_evals (w_ts w').
Proof.
  intros E A cb k Hk HS Hcb Hme n. induction n as [|n IH]; intros s w ev o w' ev' HR Hn Hi H; cbn [loop] in H.
  - destruct (stopping_condition (e_cfg E) (w_ts w)) eqn:St; [inversion H; subst; split; auto; discriminate|].
    pose proof (stop_evals _ _ _ Hk St). lia.
  - destruct (stopping_condition (e_cfg E) (w_ts w)) eqn:St; [inversion H; subst; split; auto; discriminate|].
    destruct (cb _) eqn:Q1; [inversion H; subst; split; auto; intro Q; inversion Q; subst; exact (Hcb _ Q1)|].
    destruct (exec E _ w) as [o1 w1] eqn:Ex. pose proof (Hme _ _ _ _ HS HR St Ex) as (G1 & G2 & G4 & G3).
    destruct o1 as [[[[[pop fit] xb] fxb] par]|e].
    + specialize (G3 _ eq_refl). destruct (cb (AfterIter _ _ _ :: _)) eqn:Q2; [inversion H; subst; split; [intro Q; inversion Q; subst; exact (Hcb _ Q2)|lia]|].
      eapply IH; [| | |exact H]; [eapply reached_step; eauto|cbn; lia|cbn; lia].
    + inversion H; subst. split; [congruence|]. lia.
Qed.
Theorem ends_x : forall E A, nf (a_init A) ->
  progress E A ->
  terminates A E.
Proof.
  intros E A H0 Hme k cb n pos Hk HS Hcb Hn o w ev H. unfold run_body in H.
  destruct (cb [BeforeRun]) eqn:Q1; [inversion H; subst; split; [intro Q; inversion Q; subst; exact (Hcb _ Q1)|cbn; lia]|].
  destruct (exec E (a_init A) _) as [o1 w1] eqn:Ex. destruct (exec_nf _ E _ HS H0 _ _ _ Ex) as (G1 & G2 & G3). cbn in G2, G3.
  destruct o1 as [[[pop fit] par]|e]; [|inversion H; subst; split; [congruence|lia]].
  destruct (get_best (a_coords A pop) fit None PInf) as [[xb fxb]|e] eqn:G.
  2:{ inversion H; subst. split; [|lia]. intro Q. inversion Q; subst. clear - G. unfold get_best in G. destruct (argmin fit); [|discriminate].
      destruct (nth_error fit n); [|discriminate]. destruct (fleb _ _); [destruct (nth_error _ n); discriminate|discriminate]. }
  destruct (loop E A cb n _ w1 _) as [[o2 w2] ev2] eqn:El.
  assert (L := loop_ends E A cb k Hk HS Hcb Hme n _ _ _ _ _ _ (reached_init E A pos pop fit par w1 xb fxb Ex G) ltac:(lia) ltac:(lia) El).
  destruct o2 as [[y f]|e]; [|inversion H; subst; auto].
  destruct L as [_ L]. destruct (cb (AfterRun :: _)) eqn:Q2; inversion H; subst; split; auto; try discriminate.
  intro Q. inversion Q; subst. exact (Hcb _ Q2).
Qed.
Theorem ends : forall E A, nf (a_init A) ->
  (forall s w, reached E A s w -> stopping_condition (e_cfg E) (w_ts w) = false -> me (a_iter A (r_pop s) (r_fit s) (r_xb s) (r_fxb s) (r_par s))) ->
  terminates A E.
Proof.
  intros E A H0 H. apply ends_x; auto. intros s w o w1 HS HR St Ex.
  destruct (exec_nf _ E _ HS (me_nf _ _ (H _ _ HR St)) _ _ _ Ex) as (_ & ? & _).
  destruct (exec_me _ E _ HS (H _ _ HR St) _ _ _ St Ex) as (? & ? & ?). auto.
Qed.
(** any program: evaluations are never taken back *)
Lemma exec_mono : forall A E (p : prog A) w o w', exec E p w = (o, w') -> t_evals (w_ts w) <= t_evals (w_ts w') /\ t_iters (w_ts w') = t_iters (w_ts w).
Proof.
  intros A E p. induction p; cbn [exec]; intros w o w' H0; try (destruct (H _ _ _ _ H0) as (? & ?); auto; fail); try (inversion H0; subst; auto; fail).
  destruct (task_eval _ _ _ _ _) as [[[v|e] t] h] eqn:T; pose proof (task_eval_evals _ _ _ _ _ _ _ _ T) as (T1 & T2 & _).
  - destruct (H _ _ _ _ H0) as (? & ?). cbn [w_ts] in *. split; [lia|congruence].
  - inversion H0; subst. auto.
Qed.
Lemma reached_start : forall E A s w, reached E A s w -> exists pos pop fit par w0 xb fxb,
  exec E (a_init A) (World (task_init (e_cfg E)) [] pos) = (Ret (pop, fit, par), w0) /\ get_best (a_coords A pop) fit None PInf = Ret (xb, fxb).
Proof. intros E A s w H. induction H; auto. do 7 eexists; eauto. Qed.
(** an invariant of the states proved through [retsV] *)
Lemma reached_rets : forall (V : num -> Prop) E A (J : a_pop A -> list num -> vec -> num -> a_par A -> Prop),
  V PInf -> (forall h x v, e_prob E h x = Ret v -> V (sgn (c_opt (e_cfg E)) v)) ->
  retsV V (a_init A) (fun r => let '(pop, fit, par) := r in forall xb fxb, get_best (a_coords A pop) fit None PInf = Ret (xb, fxb) -> J pop fit xb fxb par) ->
  (forall pop fit xb fxb par, J pop fit xb fxb par -> retsV V (a_iter A pop fit xb fxb par) (fun r => let '(pop, fit, xb, fxb, par) := r in J pop fit xb fxb par)) ->
  forall s w, reached E A s w -> J (r_pop s) (r_fit s) (r_xb s) (r_fxb s) (r_par s).
Proof.
  intros V E A J V1 V2 H0 H1 s w H. induction H as [pos pop fit par w xb fxb Ex G|s w pop fit xb fxb par w' H IH Ex].
  - exact (rets_exec_v _ _ _ _ _ _ _ _ V1 V2 H0 Ex _ _ G).
  - exact (rets_exec_v _ _ _ _ _ _ _ _ V1 V2 (H1 _ _ _ _ _ IH) Ex).
Qed.

(** ** The operations *)
Create HintDb nf.
Lemma nf_done : forall A (a : A), nf (Done a). Proof. exact (fun _ _ => I). Qed.
Lemma nf_random : nf random. Proof. simpl; auto. Qed.
Lemma nf_rnd_f : nf rnd_f. Proof. simpl; auto. Qed.
Lemma nf_uniform : forall a b, nf (uniform a b). Proof. simpl; auto. Qed.
Lemma nf_view : nf view. Proof. simpl; auto. Qed.
Lemma nf_eval : forall x, nf (eval x). Proof. simpl; auto. Qed.
Lemma me_eval : forall x, me (eval x). Proof. simpl; auto. Qed.
Lemma nf_repair : forall x, nf (repair x). Proof. simpl; auto. Qed.
Lemma nf_integers : forall n, nf (integers n). Proof. destruct n; simpl; auto. discriminate. Qed.
Lemma nf_lift_best : forall a b c d, nf (lift (get_best a b c d)).
Proof.
  intros. unfold get_best. destruct (argmin b); [|discriminate]. destruct (nth_error b n); [|discriminate].
  destruct (fleb _ _); [destruct (nth_error _ _)|destruct c]; simpl; auto; discriminate.
Qed.
Lemma nf_lift_best1 : forall a b c d, nf (lift (get_best1 a b c d)).
Proof. intros. unfold get_best1. destruct (fleb _ _); [|destruct c]; simpl; auto; discriminate. Qed.
Lemma nf_nthP : forall A (l : list A) i, nf (nthP l i). Proof. intros. unfold nthP. destruct (nth_error l i); simpl; auto. discriminate. Qed.
Lemma nf_setP : forall A (l : list A) i a, nf (setP l i a). Proof. intros. unfold setP. destruct (i <? length l); simpl; auto. discriminate. Qed.
Lemma nf_mapM : forall A B (f : A -> prog B) l, (forall a, nf (f a)) -> nf (mapM f l).
Proof. intros A B f l H. induction l; simpl; auto. apply nf_bind; auto. intros. apply nf_bind; simpl; auto. Qed.
Lemma nf_foldM : forall A S (f : S -> A -> prog S) l s, (forall s a, nf (f s a)) -> nf (foldM f l s).
Proof. intros A S f l s H. revert s. induction l; simpl; auto. intros s. apply nf_bind; auto. Qed.
Lemma nf_for_range : forall S (f : S -> nat -> prog S) n s, (forall s a, nf (f s a)) -> nf (for_range n f s).
Proof. intros. unfold for_range. apply nf_foldM; auto. Qed.
Lemma me_mapM : forall A B (f : A -> prog B) l, l <> [] -> (forall a, me (f a)) -> me (mapM f l).
Proof.
  intros A B f [|a l] H H0; [congruence|]. cbn [mapM]. apply me_left; auto. intros. apply nf_bind; [|simpl; auto]. apply nf_mapM. auto using me_nf.
Qed.
Lemma me_foldM : forall A S (f : S -> A -> prog S) l s, l <> [] -> (forall s a, me (f s a)) -> me (foldM f l s).
Proof. intros A S f [|a l] s H H0; [congruence|]. cbn [foldM]. apply me_left; auto. intros. apply nf_foldM. auto using me_nf. Qed.
Lemma me_for_range : forall S (f : S -> nat -> prog S) n s, 0 < n -> (forall s a, me (f s a)) -> me (for_range n f s).
Proof. intros. unfold for_range. apply me_foldM; auto. destruct n; [lia|discriminate]. Qed.
Lemma nf_repeatM : forall A n (p : prog A), nf p -> nf (repeatM n p).
Proof. intros A n p H. induction n; simpl; auto. apply nf_bind; auto. intros. apply nf_bind; simpl; auto. Qed.
Lemma nf_uniform_vec : forall lo hi, nf (uniform_vec lo hi).
Proof. induction lo; destruct hi; simpl; auto. intros r. apply nf_bind; simpl; auto. Qed.
Lemma nf_random_vec : forall n, nf (random_vec n). Proof. induction n; simpl; auto. intros r. apply nf_bind; simpl; auto. Qed.
Lemma nf_rnd_f_vec : forall n, nf (rnd_f_vec n). Proof. induction n; simpl; auto. intros r. apply nf_bind; simpl; auto. Qed.
Lemma nf_choice_from : forall A k (l : list A), nf (choice_from l k).
Proof.
  induction k; intros l; cbn [choice_from]; [simpl; auto|]. destruct l; [discriminate|]. apply nf_bind; [apply nf_integers|]. intros.
  apply nf_bind; [apply nf_nthP|]. intros. apply nf_bind; simpl; auto.
Qed.
Lemma nf_eval_all : forall l, nf (eval_all l). Proof. destruct l; [discriminate|]. apply nf_mapM. intros; apply nf_eval. Qed.
Lemma me_eval_all : forall l, me (eval_all l). Proof. destruct l; [discriminate|]. apply me_mapM; [discriminate|]. intros; apply me_eval. Qed.
Lemma nf_repair_all : forall l, nf (repair_all l). Proof. destruct l; [discriminate|]. apply nf_mapM. intros; apply nf_repair. Qed.
Lemma nf_ind_evaluate : forall x, nf (ind_evaluate x). Proof. simpl; auto. Qed.
Lemma me_ind_evaluate : forall x, me (ind_evaluate x). Proof. simpl; auto. Qed.
Lemma nf_rand_ind : forall C, nf (rand_ind C).
Proof. intros. unfold rand_ind. apply nf_bind; [apply nf_uniform_vec|]. intros. apply nf_ind_evaluate. Qed.
Lemma nf_uniform_pop : forall C n, nf (uniform_pop C n).
Proof. induction n; cbn [uniform_pop]; [simpl; auto|]. apply nf_bind; [apply nf_uniform_vec|]. intros. apply nf_bind; simpl; auto. Qed.
Lemma nf_numpy_init : forall C n, nf (default_numpy_init C n).
Proof. intros. unfold default_numpy_init. apply nf_bind; [apply nf_uniform_pop|]. intros. apply nf_bind; [apply nf_eval_all|]. simpl; auto. Qed.
Lemma nf_individual_init : forall C n, nf (default_individual_init C n).
Proof. intros. unfold default_individual_init. apply nf_bind; [apply nf_repeatM, nf_rand_ind|]. simpl; auto. Qed.
#[global] Hint Resolve nf_done nf_random nf_rnd_f nf_uniform nf_view nf_eval me_eval nf_repair nf_integers nf_lift_best nf_lift_best1 nf_nthP
  nf_setP nf_uniform_vec nf_random_vec nf_rnd_f_vec nf_choice_from nf_eval_all me_eval_all nf_repair_all nf_ind_evaluate me_ind_evaluate
  nf_rand_ind nf_uniform_pop nf_numpy_init nf_individual_init : nf.

(** ** Values returned by the operations *)
Lemma rets_bind2 : forall V A B (p : prog A) (f : A -> prog B) P Q, retsV V p P -> (forall a, P a -> retsV V (f a) Q) -> retsV V (bind p f) Q.
Proof. intros. apply rets_bind. eapply rets_imp; eauto. Qed.
Lemma rets_skip : forall V A B (p : prog A) (f : A -> prog B) Q, (forall a, retsV V (f a) Q) -> retsV V (bind p f) Q.
Proof. intros. eapply rets_bind2; [apply rets_any|auto]. Qed.
Lemma rets_uniform_pop : forall V C n, retsV V (uniform_pop C n) (fun pop => length pop = n).
Proof.
  intros V C; induction n; cbn [uniform_pop]; [simpl; auto|]. apply rets_skip. intros x. eapply rets_bind2; [exact IHn|]. intros; simpl; auto.
Qed.
Lemma rets_mapM_len : forall V A B (f : A -> prog B) l, retsV V (mapM f l) (fun r => length r = length l).
Proof. intros V A B f; induction l; cbn [mapM]; [simpl; auto|]. apply rets_skip. intros b. eapply rets_bind2; [exact IHl|]. intros; simpl; auto. Qed.
Lemma rets_repeatM_len : forall V A n (p : prog A), retsV V (repeatM n p) (fun r => length r = n).
Proof. intros V A; induction n; intros p; cbn [repeatM]; [simpl; auto|]. apply rets_skip. intros b. eapply rets_bind2; [apply IHn|]. intros; simpl; auto. Qed.
Lemma rets_numpy_init : forall V C n, retsV V (default_numpy_init C n) (fun r => 0 < n /\ length (fst r) = n /\ length (snd r) = n).
Proof.
  intros V C n. unfold default_numpy_init. eapply rets_bind2; [apply rets_uniform_pop|]. intros pop Hp. destruct pop; [exact I|].
  cbn [eval_all]. eapply rets_bind2; [apply rets_mapM_len|]. intros fit Hf. simpl in *. repeat split; auto; lia.
Qed.
Lemma rets_individual_init : forall V C n, retsV V (default_individual_init C n) (fun r => length (fst r) = n /\ snd r = map snd (fst r)).
Proof. intros V C n. unfold default_individual_init. eapply rets_bind2; [apply rets_repeatM_len|]. intros pop Hp. simpl. auto. Qed.
Lemma rets_setP_len : forall V A (l : list A) i a, retsV V (setP l i a) (fun r => length r = length l).
Proof. intros. unfold setP. destruct (i <? length l); simpl; auto. apply upd_length. Qed.
Lemma rets_foldM : forall V A S (f : S -> A -> prog S) (J : S -> Prop) l s, J s -> (forall s a, J s -> retsV V (f s a) J) -> retsV V (foldM f l s) J.
Proof. intros V A S f J l s Hs H. revert s Hs. induction l; cbn [foldM]; [simpl; auto|]. intros s Hs. eapply rets_bind2; [apply H; auto|]. auto. Qed.
Lemma get_best_cons : forall pop fit bx bf r, get_best pop fit bx bf = Ret r -> fit <> [].
Proof. intros pop fit bx bf r H Q. subst. discriminate. Qed.

(** splits binds, tests and loops; closes what is in the hint database; unfolds definitions *)
Ltac head_of t := lazymatch t with ?f _ => head_of f | _ => t end.
Ltac unfold_head p := let h := head_of p in unfold h; cbv beta.
Ltac nf1 :=
  match goal with
  | |- forall _, _ => intros ?
  | |- nf (bind _ _) => apply nf_bind
  | |- nf (match ?p with _ => _ end) => destruct p
  | |- nf (mapM _ _) => apply nf_mapM
  | |- nf (foldM _ _ _) => apply nf_foldM
  | |- nf (for_range _ _ _) => apply nf_for_range
  | |- nf (repeatM _ _) => apply nf_repeatM
  | |- nf (Fail _) => simpl; discriminate
  | |- nf _ => solve [auto with nf nocore]
  | |- nf (lift ?o) => unfold_head o
  | |- nf ?p => unfold_head p
  end.
Ltac nfs := repeat nf1.
Ltac mes :=
  repeat match goal with
  | |- forall _, _ => intros ?
  | |- me (Fail _) => simpl; discriminate
  | |- me (match ?p with _ => _ end) => destruct p
  | |- me _ => solve [auto with nf nocore]
  | |- me (for_range _ _ _) => apply me_for_range; [solve [auto]|intros ? ?]
  | |- me (bind _ _) => first [solve [apply me_left; [mes|nfs]] | apply me_right; [solve [nfs]|intros ?]]
  | |- me (mapM _ (_ :: _)) => apply me_mapM; [discriminate|intros ?]
  | |- me (mapM _ _) => fail 1
  | |- me (foldM _ _ _) => fail 1
  | |- me ?p => unfold_head p
  end.
