(** The callback protocol, exceptions, duality and event invariants of Algorithm.run. *)
From Coq Require Import ZArith Lia Bool List Sorted.
From Verif Require Import Num Task TaskSpec TaskProofs TaskProofs2 Prog Wp GetBest Run RunSpec RunProofs.
Import ListNotations.

Definition snap_of {A} (s : rstate A) : list num * vec * num := (r_fit s, r_xb s, r_fxb s).

Lemma it_cons : forall k s s1 es s2, iterations k s1 es s2 ->
  iterations (S k) s (before_ev s :: after_ev s1 :: es) s2.
Proof.
  intros k s s1 es s2 H. induction H.
  - apply (it_more 0 s [] s). constructor.
  - change (before_ev s :: after_ev s0 :: es ++ [before_ev s1; after_ev s2])
      with ((before_ev s :: after_ev s0 :: es) ++ [before_ev s1; after_ev s2]).
    apply it_more. auto.
Qed.

Lemma loop_events : forall E A cb n s w ev r w' ev',
  loop E A cb n s w ev = (r, w', ev') ->
  exists k es s', iterations k (snap_of s) es s' /\ k <= n /\
    (forall m, c_max_iters (e_cfg E) = LFin m -> k = 0 \/ t_iters (w_ts w) + k <= Z.to_nat m) /\
    match r with
    | Ret (x, f) => ev' = rev es ++ ev /\ snd (fst s') = x /\ snd s' = f /\
        t_iters (w_ts w') = t_iters (w_ts w) + k /\ stopping_condition (e_cfg E) (w_ts w') = true
    | Raise e => ev' = rev es ++ ev \/ ev' = before_ev s' :: rev es ++ ev
    end.
Proof.
  induction n as [|n IH]; intros s w ev r w' ev' H; rewrite loop_unfold in H.
  - exists 0, [], (snap_of s). split; [constructor|]. split; auto. split; [auto|].
    destruct (stopping_condition (e_cfg E) (w_ts w)) eqn:Es; inversion H; subst; simpl; auto.
  - destruct (stopping_condition (e_cfg E) (w_ts w)) eqn:Es.
    { inversion H; subst. exists 0, [], (snap_of s). split; [constructor|]. split; [lia|]. split; [auto|]. simpl; auto. }
    cbv zeta in H. destruct (cb _) in H.
    { inversion H; subst. exists 0, [], (snap_of s). split; [constructor|]. split; [lia|]. split; [auto|]. right. reflexivity. }
    destruct (exec E (iter_prog s) w) as [[s1|e] w1] eqn:Ex.
    2:{ inversion H; subst. exists 0, [], (snap_of s). split; [constructor|]. split; [lia|]. split; [auto|]. right. reflexivity. }
    assert (Hit : forall m, c_max_iters (e_cfg E) = LFin m -> t_iters (w_ts w) < Z.to_nat m).
    { intros m Hm. unfold stopping_condition in Es. rewrite Hm in Es. apply orb_false_iff in Es. destruct Es as [Es _].
      apply orb_false_iff in Es. destruct Es as [_ Es]. simpl in Es. apply Z.leb_gt in Es. lia. }
    destruct (cb _) in H.
    { inversion H; subst. exists 1, ([] ++ [before_ev (snap_of s); after_ev (snap_of s1)]), (snap_of s1).
      split; [apply it_more; constructor|]. split; [lia|]. split.
      - intros m Hm. specialize (Hit m Hm). right. lia.
      - left. reflexivity. }
    destruct (IH _ _ _ _ _ _ H) as (k & es & s' & I1 & I2 & I3 & I4).
    exists (S k), (before_ev (snap_of s) :: after_ev (snap_of s1) :: es), s'.
    split; [apply it_cons; auto|]. split; [lia|].
    assert (Hi1 := exec_iters _ _ _ _ _ _ Ex). simpl in I3, I4. split.
    + intros m Hm. right. specialize (Hit m Hm). destruct (I3 m Hm) as [->|I3']; lia.
    + assert (Hrev : rev (before_ev (snap_of s) :: after_ev (snap_of s1) :: es) ++ ev =
        rev es ++ AfterIter (r_fit s1) (r_xb s1) (r_fxb s1) :: BeforeIter (r_fit s) (r_xb s) (r_fxb s) :: ev).
      { simpl. rewrite <- !app_assoc. reflexivity. }
      rewrite Hrev. destruct r as [[x f]|e].
      * destruct I4 as (J1 & J2 & J3 & J4 & J5). split; auto. split; auto. split; auto. split; auto. lia.
      * auto.
Qed.

(** ** Exceptions of the problem cannot be swallowed by an algorithm *)
Definition raised (p : vec * outcome num) : Prop := exists e, snd p = Raise e.

Lemma exec_raise : forall A E (p : prog A) w r w', exec E p w = (r, w') ->
  exists d, w_h w' = d ++ w_h w /\
    (Forall (fun q => ~ raised q) d \/ exists x e d', d = (x, Raise e) :: d' /\ Forall (fun q => ~ raised q) d' /\ r = Raise e).
Proof.
  induction p; simpl; intros w r w' Ex; try (inversion Ex; subst; exists []; simpl; auto; fail).
  - destruct (task_eval (e_cfg E) (e_prob E) (w_h w) (w_ts w) x) as [[o t] h] eqn:Et.
    destruct (task_eval_cases _ _ _ _ _ _ _ _ Et) as [(_ & -> & -> & ->)|[(_ & v & Hp & -> & ->)|(_ & e & Hp & -> & ->)]].
    + apply H in Ex. simpl in Ex. auto.
    + apply H in Ex. simpl in Ex. destruct Ex as (d & Hd & G). exists (d ++ [(x, Ret v)]). split.
      * rewrite <- app_assoc. auto.
      * assert (N : ~ raised (x, Ret v)) by (intros [e Q]; discriminate Q).
        destruct G as [G|(x0 & e & d' & -> & G & ->)].
        -- left. apply Forall_app; auto.
        -- right. exists x0, e, (d' ++ [(x, Ret v)]). split; auto. split; auto. apply Forall_app; auto.
    + inversion Ex; subst. exists [(x, Raise e)]. simpl. split; auto. right. exists x, e, []. auto.
  - apply H in Ex. auto.
  - apply H in Ex. auto.
  - apply H in Ex. auto.
  - apply H in Ex. auto.
  - apply H in Ex. auto.
Qed.

Lemma no_raise_app : forall d h : history, Forall (fun q => ~ raised q) d -> Forall (fun q => ~ raised q) h ->
  Forall (fun q => ~ raised q) (d ++ h).
Proof. intros. apply Forall_app; auto. Qed.

Definition raise_spec (r : outcome (vec * num)) (h : history) : Prop :=
  Forall (fun q => ~ raised q) h \/
  exists x e h', h = (x, Raise e) :: h' /\ Forall (fun q => ~ raised q) h' /\ r = Raise e.

Lemma loop_raise : forall E A cb n s w ev r w' ev', loop E A cb n s w ev = (r, w', ev') ->
  Forall (fun q => ~ raised q) (w_h w) -> raise_spec r (w_h w').
Proof.
  induction n as [|n IH]; intros s w ev r w' ev' H Hw; rewrite loop_unfold in H.
  - destruct (stopping_condition (e_cfg E) (w_ts w)); inversion H; subst; left; auto.
  - destruct (stopping_condition (e_cfg E) (w_ts w)); [inversion H; subst; left; auto|].
    cbv zeta in H. destruct (cb _) in H; [inversion H; subst; left; auto|].
    destruct (exec E (iter_prog s) w) as [o w1] eqn:Ex.
    destruct (exec_raise _ _ _ _ _ _ Ex) as (d & Hd & G).
    destruct o as [s1|e].
    + assert (Hw1 : Forall (fun q => ~ raised q) (w_h w1)).
      { rewrite Hd. apply no_raise_app; auto. destruct G as [G|(x & e & d' & _ & _ & Q)]; [auto|discriminate]. }
      destruct (cb _) in H; [inversion H; subst; left; auto|]. eapply IH; eauto.
    + inversion H; subst. destruct G as [G|(x & e0 & d' & -> & G & Q)].
      * left. rewrite Hd. apply no_raise_app; auto.
      * right. inversion Q; subst. exists x, e0, (d' ++ w_h w). split; auto. split; auto. apply no_raise_app; auto.
Qed.
Lemma run_raise : forall E A cb n w r w' ev, run_body E A cb n w = (r, w', ev) ->
  Forall (fun q => ~ raised q) (w_h w) -> raise_spec r (w_h w').
Proof.
  intros E A cb n w r w' ev H Hw. rewrite run_body_unfold in H.
  destruct (cb [BeforeRun]); [inversion H; subst; left; auto|].
  destruct (exec E (init_prog A) w) as [o w1] eqn:Ex.
  destruct (exec_raise _ _ _ _ _ _ Ex) as (d & Hd & G).
  destruct o as [s1|e].
  - assert (Hw1 : Forall (fun q => ~ raised q) (w_h w1)).
    { rewrite Hd. apply no_raise_app; auto. destruct G as [G|(x & e & d' & _ & _ & Q)]; [auto|discriminate]. }
    destruct (loop E A cb n s1 w1 [BeforeRun]) as [[o2 w2] ev2] eqn:El.
    pose proof (loop_raise _ _ _ _ _ _ _ _ _ _ El Hw1) as R.
    destruct o2 as [[x f]|e].
    + assert (Hw2 : Forall (fun q => ~ raised q) (w_h w2)).
      { destruct R as [R|(? & ? & ? & _ & _ & Q)]; [auto|discriminate]. }
      destruct (cb (AfterRun :: ev2)); inversion H; subst; left; auto.
    + inversion H; subst; auto.
  - inversion H; subst. destruct G as [G|(x & e0 & d' & -> & G & Q)].
    + left. rewrite Hd. apply no_raise_app; auto.
    + right. inversion Q; subst. exists x, e0, (d' ++ w_h w). split; auto. split; auto. apply no_raise_app; auto.
Qed.

(** a callback that raised was called last *)
Definition quiet (cb : callback) (ev : list event) : Prop :=
  forall pre post, ev = pre ++ post -> post <> [] -> cb post = None.
Lemma quiet_cons : forall cb e ev, quiet cb ev -> cb (e :: ev) = None -> quiet cb (e :: ev).
Proof.
  intros cb e ev H1 H2 [|p pre] post Q Hp; simpl in Q; subst; auto.
  inversion Q; subst. eapply H1; eauto.
Qed.
Lemma loop_cb : forall E A cb n s w ev r w' ev', loop E A cb n s w ev = (r, w', ev') -> quiet cb ev ->
  quiet cb ev' \/ exists e ev0 c, r = Raise c /\ ev' = e :: ev0 /\ cb ev' = Some c /\ quiet cb ev0.
Proof.
  induction n as [|n IH]; intros s w ev r w' ev' H Hq; rewrite loop_unfold in H.
  - destruct (stopping_condition (e_cfg E) (w_ts w)); inversion H; subst; auto.
  - destruct (stopping_condition (e_cfg E) (w_ts w)); [inversion H; subst; auto|]. cbv zeta in H.
    destruct (cb (BeforeIter _ _ _ :: ev)) as [c|] eqn:Ec in H; [inversion H; subst; right; eauto 10|].
    assert (Hq1 := quiet_cons _ _ _ Hq Ec).
    destruct (exec E (iter_prog s) w) as [[s1|e] w1]; [|inversion H; subst; auto].
    destruct (cb (AfterIter _ _ _ :: _)) as [c|] eqn:Ec2 in H; [inversion H; subst; right; eauto 10|].
    assert (Hq2 := quiet_cons _ _ _ Hq1 Ec2). eapply IH; eauto.
Qed.
Lemma run_cb : forall E A cb n w r w' ev, run_body E A cb n w = (r, w', ev) ->
  quiet cb ev \/ exists e ev0 c, r = Raise c /\ ev = e :: ev0 /\ cb ev = Some c /\ quiet cb ev0.
Proof.
  intros E A cb n w r w' ev H. rewrite run_body_unfold in H.
  assert (Hq0 : quiet cb []).
  { intros pre post Q Hp. destruct pre; simpl in Q; subst; congruence. }
  destruct (cb [BeforeRun]) as [c|] eqn:Ec; [inversion H; subst; right; exists BeforeRun, [], c; auto|].
  assert (Hq := quiet_cons _ _ _ Hq0 Ec).
  destruct (exec E (init_prog A) w) as [[s1|e] w1]; [|inversion H; subst; auto].
  destruct (loop E A cb n s1 w1 [BeforeRun]) as [[o2 w2] ev2] eqn:El.
  pose proof (loop_cb _ _ _ _ _ _ _ _ _ _ El Hq) as R.
  destruct o2 as [[x f]|e]; [|inversion H; subst; auto].
  assert (Hq2 : quiet cb ev2) by (destruct R as [R|(? & ? & ? & Q & _)]; [auto|discriminate]).
  destruct (cb (AfterRun :: ev2)) as [c|] eqn:Ec3; inversion H; subst.
  - right. eauto 10.
  - left. apply quiet_cons; auto.
Qed.

(** ** Invariants of the reported populations *)
Lemma reported_cons_b : forall (J : list num * vec * num -> Prop) s ev, J s -> reported_ok J ev -> reported_ok J (before_ev s :: ev).
Proof.
  intros J s ev H1 H2 s' [[Q|H]|[Q|H]]; auto.
  - destruct s as [[? ?] ?], s' as [[? ?] ?]. simpl in Q. inversion Q; subst; auto.
  - destruct s as [[? ?] ?], s' as [[? ?] ?]. discriminate Q.
Qed.
Lemma reported_cons_a : forall (J : list num * vec * num -> Prop) s ev, J s -> reported_ok J ev -> reported_ok J (after_ev s :: ev).
Proof.
  intros J s ev H1 H2 s' [[Q|H]|[Q|H]]; auto.
  - destruct s as [[? ?] ?], s' as [[? ?] ?]. discriminate Q.
  - destruct s as [[? ?] ?], s' as [[? ?] ?]. simpl in Q. inversion Q; subst; auto.
Qed.
Lemma loop_reported : forall K E A Inv cb (J : list num * vec * num -> Prop), env_ok K E -> algo_ok K A Inv ->
  (forall s l, Inv s l -> J (snap_of s)) ->
  forall n s w ev r w' ev', loop E A cb n s w ev = (r, w', ev') ->
  Inv s (log_of (c_opt (e_cfg E)) (w_h w)) -> reported_ok J ev -> reported_ok J ev'.
Proof.
  intros K E A Inv cb J HE HA HJ. induction n as [|n IH]; intros s w ev r w' ev' H Hi Hr; rewrite loop_unfold in H.
  - destruct (stopping_condition (e_cfg E) (w_ts w)); inversion H; subst; auto.
  - destruct (stopping_condition (e_cfg E) (w_ts w)); [inversion H; subst; auto|]. cbv zeta in H.
    assert (H1 : reported_ok J (BeforeIter (r_fit s) (r_xb s) (r_fxb s) :: ev)).
    { apply (reported_cons_b J (snap_of s)); eauto. }
    destruct (cb _) in H; [inversion H; subst; auto|].
    destruct (exec E (iter_prog s) w) as [o w1] eqn:Ex.
    destruct (wp_sound _ _ _ _ _ _ _ _ HE (ok_iter _ _ _ HA _ _ Hi) Ex) as [_ G].
    destruct o as [s1|e]; [|inversion H; subst; auto].
    assert (H2 : reported_ok J (AfterIter (r_fit s1) (r_xb s1) (r_fxb s1) :: BeforeIter (r_fit s) (r_xb s) (r_fxb s) :: ev)).
    { apply (reported_cons_a J (snap_of s1)); eauto. }
    destruct (cb _) in H; [inversion H; subst; auto|]. eapply IH; eauto.
Qed.
Theorem run_reported : forall K E A Inv cb (J : list num * vec * num -> Prop), env_ok K E -> algo_ok K A Inv ->
  (forall s l, Inv s l -> J (snap_of s)) ->
  forall n pos r w' ev, run_body E A cb n (World (task_init (e_cfg E)) [] pos) = (r, w', ev) -> reported_ok J ev.
Proof.
  intros K E A Inv cb J HE HA HJ n pos r w' ev H. rewrite run_body_unfold in H.
  assert (H0 : reported_ok J [BeforeRun]).
  { intros [[f x] b] [[Q|[]]|[Q|[]]]; discriminate Q. }
  destruct (cb [BeforeRun]); [inversion H; subst; auto|].
  destruct (exec E (init_prog A) _) as [o w1] eqn:Ex.
  destruct (wp_sound _ _ _ _ _ (World (task_init (e_cfg E)) [] pos) _ _ HE (ok_init _ _ _ HA) Ex) as [_ G].
  destruct o as [s1|e]; [|inversion H; subst; auto].
  destruct (loop E A cb n s1 w1 [BeforeRun]) as [[o2 w2] ev2] eqn:El.
  assert (H2 := loop_reported K E A Inv cb J HE HA HJ _ _ _ _ _ _ _ El G H0).
  assert (H3 : reported_ok J (AfterRun :: ev2)).
  { intros [[f x] b] [[Q|Q]|[Q|Q]]; try discriminate Q; apply H2; auto. }
  destruct o2 as [[x f]|e]; [|inversion H; subst; auto].
  destruct (cb (AfterRun :: ev2)); inversion H; subst; auto.
Qed.

(** ** Duality *)
Definition neg_w (w : world) : world := World (neg_state (w_ts w)) (neg_history (w_h w)) (w_pos w).
Definition neg_res (r : outcome (vec * num)) : outcome (vec * num) :=
  match r with Ret (x, v) => Ret (x, fneg v) | Raise e => Raise e end.

Lemma exec_dual : forall A E (p : prog A) w, exec (dual_env E) p (neg_w w) =
  match exec E p w with (r, w') => (r, neg_w w') end.
Proof.
  induction p; simpl; intros w; auto.
  - change (neg_history (w_h w)) with (w_h (neg_w w)). unfold neg_w at 1 2. simpl.
    rewrite eval_dual. destruct (task_eval (e_cfg E) (e_prob E) (w_h w) (w_ts w) x) as [[[v|e] t] h]; auto.
    apply (H v (World t h (w_pos w))).
  - apply (H _ (World (w_ts w) (w_h w) (S (w_pos w)))).
  - apply (H _ (World (w_ts w) (w_h w) (S (w_pos w)))).
  - apply (H _ (World (w_ts w) (w_h w) (S (w_pos w)))).
  - apply (H _ (World (w_ts w) (w_h w) (S (w_pos w)))).
  - rewrite H. rewrite stop_dual. auto.
Qed.
Lemma neg_w_next : forall w, World (next_iter (w_ts (neg_w w))) (w_h (neg_w w)) (w_pos (neg_w w)) =
  neg_w (World (next_iter (w_ts w)) (w_h w) (w_pos w)).
Proof. intros [t h p]. unfold neg_w, neg_state, next_iter; simpl. rewrite map_app. auto. Qed.
Lemma loop_dual : forall E A cb n s w ev, loop (dual_env E) A cb n s (neg_w w) ev =
  match loop E A cb n s w ev with (r, w', ev') => (r, neg_w w', ev') end.
Proof.
  induction n as [|n IH]; intros s w ev; rewrite !loop_unfold; simpl e_cfg; unfold neg_w at 1; simpl w_ts; rewrite stop_dual.
  - destruct (stopping_condition (e_cfg E) (w_ts w)); auto.
  - destruct (stopping_condition (e_cfg E) (w_ts w)); auto. cbv zeta. destruct (cb _); auto.
    rewrite exec_dual. destruct (exec E (iter_prog s) w) as [[s1|e] w1]; auto. destruct (cb _); auto.
    rewrite neg_w_next. apply IH.
Qed.
Theorem run_dual : forall E A cb n w, run_body (dual_env E) A cb n (neg_w w) =
  match run_body E A cb n w with (r, w', ev) => (neg_res r, neg_w w', ev) end.
Proof.
  intros E A cb n w. rewrite !run_body_unfold. destruct (cb [BeforeRun]); auto. rewrite exec_dual.
  destruct (exec E (init_prog A) w) as [[s1|e] w1]; auto. rewrite loop_dual.
  destruct (loop E A cb n s1 w1 [BeforeRun]) as [[[[x f]|e] w2] ev2]; auto.
  destruct (cb (AfterRun :: ev2)); auto. simpl. 
  change (match c_opt (e_cfg E) with Minimization => Maximization | Maximization => Minimization end) with (flip (c_opt (e_cfg E))).
  rewrite sgn_flip'. auto.
Qed.

(** ** A program that evaluates nothing leaves the task alone *)
Lemma exec_len : forall A E (p : prog A) w r w', exec E p w = (r, w') -> length (w_h w) <= length (w_h w').
Proof.
  intros A E p w r w' H. destruct (exec_raise _ _ _ _ _ _ H) as (d & -> & _). rewrite app_length. lia.
Qed.
Lemma exec_same_ts : forall A E (p : prog A) w r w', exec E p w = (r, w') -> w_h w' = w_h w -> w_ts w' = w_ts w.
Proof.
  induction p; simpl; intros w r w' Ex Hh; try (inversion Ex; subst; auto; fail).
  - destruct (task_eval (e_cfg E) (e_prob E) (w_h w) (w_ts w) x) as [[o t] h] eqn:Et.
    destruct (task_eval_cases _ _ _ _ _ _ _ _ Et) as [(_ & -> & -> & ->)|[(_ & v & Hp & -> & ->)|(_ & e & Hp & -> & ->)]].
    + apply H in Ex; auto.
    + apply exec_len in Ex. simpl in Ex. rewrite Hh in Ex. lia.
    + inversion Ex; subst. simpl in Hh. apply (f_equal (@length _)) in Hh. simpl in Hh. lia.
  - apply H in Ex; auto.
  - apply H in Ex; auto.
  - apply H in Ex; auto.
  - apply H in Ex; auto.
  - apply H in Ex; auto.
Qed.
(** a program verified in a context that allows no evaluation and no exception *)
Definition K_pure : wctx :=
  WCtx (fun _ => False) (fun _ _ => True) (fun _ => True) (fun _ => False).
Lemma pure_sound : forall A E (p : prog A) (Q : A -> Prop) w r w',
  (forall l, wp K_pure p (fun a _ => Q a) l) -> exec E p w = (r, w') ->
  (exists a, r = Ret a /\ Q a) /\ w_ts w' = w_ts w /\ w_h w' = w_h w.
Proof.
  intros A E p Q w r w' W Ex.
  assert (HE : env_ok K_pure E) by (split; simpl; auto).
  destruct (wp_sound _ K_pure E _ _ w _ _ HE (W _) Ex) as [(dd & Hdd & HF) G].
  assert (Hh : w_h w' = w_h w).
  { destruct dd as [|q dd]; auto. inversion HF; subst. contradiction. }
  split; [|split; auto; eapply exec_same_ts; eauto].
  destruct r as [a|e]; [eauto|]. destruct G as [[]|(x & h & _ & [])].
Qed.

(** ** Whatever the algorithm, a run keeps the task's invariant *)
Lemma loop_tinv : forall E A cb n s w ev r w' ev', tinv (e_cfg E) (tw_of w) ->
  loop E A cb n s w ev = (r, w', ev') -> tinv (e_cfg E) (tw_of w').
Proof.
  induction n as [|n IH]; intros s w ev r w' ev' T H; simpl in H; destruct (stopping_condition (e_cfg E) (w_ts w)).
  - inversion H; subst; auto.
  - inversion H; subst; auto.
  - inversion H; subst; auto.
  - destruct (cb _); [inversion H; subst; auto|].
    destruct (exec E _ w) as [[[[[[pop fit] xb] fxb] par]|e] w1] eqn:Ex in H;
      [|inversion H; subst; eapply exec_tinv; eauto].
    assert (T1 := exec_tinv _ _ _ _ _ _ T Ex).
    destruct (cb _); [inversion H; subst; auto|]. eapply IH; [|exact H]. exact (tinv_next_iter _ _ T1).
Qed.
Lemma run_tinv : forall E A cb n pos r w' ev,
  run_body E A cb n (World (task_init (e_cfg E)) [] pos) = (r, w', ev) -> tinv (e_cfg E) (tw_of w').
Proof.
  intros E A cb n pos r w' ev H. rewrite run_body_unfold in H.
  assert (T0 : tinv (e_cfg E) (tw_of (World (task_init (e_cfg E)) [] pos))) by (apply tinv_init).
  destruct (cb [BeforeRun]); [inversion H; subst; auto|].
  destruct (exec E (init_prog A) _) as [[s|e] w1] eqn:Ex in H; [|inversion H; subst; eapply exec_tinv; eauto].
  assert (T1 := exec_tinv _ _ _ _ _ _ T0 Ex).
  destruct (loop E A cb n s w1 [BeforeRun]) as [[[[x f]|e] w2] ev2] eqn:El; [|inversion H; subst; eapply loop_tinv; eauto].
  destruct (cb (AfterRun :: ev2)); inversion H; subst; eapply loop_tinv; eauto.
Qed.
