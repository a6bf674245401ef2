(** Runs that end because of max_iters, not because of max_evals or the cutoff value: no evaluation is
    refused in them, so more can be said. *)
From Coq Require Import ZArith Lia Bool List Sorted.
From Verif Require Import Num Task TaskSpec TaskProofs TaskProofs2 Prog Wp GetBest Run RunSpec RunProofs AlgoLib.
Import ListNotations.

(** max_evals or the cutoff value has been reached (task.py:172-174 without the iterations) *)
Definition early (C : cfg) (t : tstate) : bool :=
  lim_reached (t_evals t) (c_max_evals C) || fleb (sgn (c_opt C) (t_xf t)) (sgn (c_opt C) (c_cutoff C)).

(** [best_run_p] for the runs in which neither limit was reached *)
Definition full_run_p (P : vec -> Prop) (X : exn -> Prop) (E : env) (A : algo) : Prop :=
  forall cb n pos r w' ev,
    run_body E A cb n (World (task_init (e_cfg E)) [] pos) = (r, w', ev) ->
    early (e_cfg E) (w_ts w') = false ->
    (forall p, In p (w_h w') -> P (fst p)) /\
    StronglySorted (fun newer older => fleb newer older = true) (reported ev) /\
    match r with
    | Ret (x, v) =>
        length x = c_dim (e_cfg E) /\
        v = t_xf (w_ts w') /\ best_of (c_opt (e_cfg E)) (returned (w_h w')) v /\
        (v = worst (c_opt (e_cfg E)) \/ In (x, Ret v) (w_h w'))
    | Raise e =>
        X e \/ e = EFuel \/ (exists x, hd_error (w_h w') = Some (x, Raise e)) \/ (cb ev = Some e)
    end.
Definition full_run_x (X : exn -> Prop) (E : env) (A : algo) : Prop := full_run_p (inside (e_cfg E)) X E A.
(** the problem is a function of the point *)
Definition deterministic (g : vec -> num) (E : env) : Prop := forall h x v, e_prob E h x = Ret v -> v = g x.
(** repairing a point inside the bounds changes nothing *)
Definition keeps_inside (E : env) : Prop := forall p x, inside (e_cfg E) x -> e_rep E p x = x.

Lemma early_stops : forall C t, early C t = true -> stopping_condition C t = true.
Proof. intros C t. unfold early, stopping_condition. destruct (lim_reached (t_evals t) _), (fleb _ _); simpl; auto using orb_true_r; discriminate. Qed.
Lemma early_next : forall C t, early C (next_iter t) = early C t.
Proof. reflexivity. Qed.
Lemma not_early : forall C t, early C t = false -> lim_reached (t_iters t) (c_max_iters C) = false -> stopping_condition C t = false.
Proof.
  intros C t H1 H2. unfold stopping_condition. rewrite H2, orb_false_r. exact H1.
Qed.
(** once stopped that way, the task stays as it is *)
Lemma early_exec : forall A E (p : prog A) w r w', early (e_cfg E) (w_ts w) = true -> exec E p w = (r, w') -> w_ts w' = w_ts w.
Proof.
  induction p; simpl; intros w r w' He Ex.
  - inversion Ex; subst; auto.
  - inversion Ex; subst; auto.
  - unfold task_eval in Ex. rewrite (early_stops _ _ He) in Ex. apply H in Ex; auto.
  - apply H in Ex; auto.
  - apply H in Ex; auto.
  - apply H in Ex; auto.
  - apply H in Ex; auto.
  - apply H in Ex; auto.
Qed.
Lemma loop_early : forall E A cb n s w ev r w' ev', early (e_cfg E) (w_ts w) = true -> loop E A cb n s w ev = (r, w', ev') -> w' = w.
Proof.
  intros E A cb n s w ev r w' ev' He H. rewrite loop_unfold in H. rewrite (early_stops _ _ He) in H. inversion H; auto.
Qed.

Definition env_okd (K : wctx) (E : env) : Prop :=
  (forall p x, K_rep K x (e_rep E p x)) /\
  (forall h x v, e_prob E h x = Ret v -> K_val K x (sgn (c_opt (e_cfg E)) v)).

Theorem wp_sound_d : forall A K E (p : prog A) Q w r w',
  env_okd K E -> wp K p Q (log_of (c_opt (e_cfg E)) (w_h w)) -> exec E p w = (r, w') ->
  lim_reached (t_iters (w_ts w)) (c_max_iters (e_cfg E)) = false -> early (e_cfg E) (w_ts w') = false ->
  (exists d, w_h w' = d ++ w_h w /\ Forall (fun q => K_pre K (fst q)) d) /\
  match r with
  | Ret a => Q a (log_of (c_opt (e_cfg E)) (w_h w'))
  | Raise e => K_exn K e \/ exists x h, w_h w' = (x, Raise e) :: h /\ K_pre K x
  end.
Proof.
  induction p; simpl; intros Q w r w' HK Hw Ex Hi Hf.
  - inversion Ex; subst. split; auto. exists []; auto.
  - inversion Ex; subst. split; auto. exists []; auto.
  - destruct Hw as (H1 & H2 & H3).
    destruct (early (e_cfg E) (w_ts w)) eqn:He.
    { assert (G : w_ts w' = w_ts w) by (apply (early_exec _ E (Eval x k) w r w' He Ex)). rewrite G in Hf. congruence. }
    destruct (task_eval (e_cfg E) (e_prob E) (w_h w) (w_ts w) x) as [[o t] h] eqn:Et.
    assert (Gi : t_iters t = t_iters (w_ts w)).
    { unfold task_eval in Et. destruct (stopping_condition (e_cfg E) (w_ts w)); [inversion Et; auto|].
      destruct (e_prob E (w_h w) x); [|inversion Et; auto]. cbv zeta in Et.
      destruct (fltb _ _) in Et; inversion Et; subst; simpl; auto. }
    destruct (task_eval_cases _ _ _ _ _ _ _ _ Et) as [(Hs & _)|[(_ & v & Hp & -> & ->)|(_ & e & Hp & -> & ->)]].
    + rewrite (not_early _ _ He Hi) in Hs. discriminate.
    + assert (G0 : wp K (k (sgn (c_opt (e_cfg E)) v)) Q
                     (log_of (c_opt (e_cfg E)) (w_h (World t ((x, Ret v) :: w_h w) (w_pos w))))).
      { simpl. apply H2. apply (proj2 HK) in Hp. auto. }
      assert (Hi' : lim_reached (t_iters (w_ts (World t ((x, Ret v) :: w_h w) (w_pos w)))) (c_max_iters (e_cfg E)) = false) by (simpl; rewrite Gi; auto).
      destruct (H _ _ _ _ _ HK G0 Ex Hi' Hf) as [(d & Hd & HF) G].
      simpl in Hd. split; auto. exists (d ++ [(x, Ret v)]). split. rewrite <- app_assoc. auto.
      apply Forall_app; split; auto.
    + inversion Ex; subst. split.
      * exists [(x, Raise e)]. simpl; auto.
      * right. simpl. eauto.
  - exact (H _ Q (World (w_ts w) (w_h w) (S (w_pos w))) _ _ HK (Hw _ (proj1 HK _ _)) Ex Hi Hf).
  - exact (H _ Q (World (w_ts w) (w_h w) (S (w_pos w))) _ _ HK (Hw _ (draw_u_ok _ _ _)) Ex Hi Hf).
  - exact (H _ Q (World (w_ts w) (w_h w) (S (w_pos w))) _ _ HK (Hw _) Ex Hi Hf).
  - refine (H _ Q (World (w_ts w) (w_h w) (S (w_pos w))) _ _ HK (Hw _ _) Ex Hi Hf). lia.
  - exact (H _ Q w _ _ HK (Hw _) Ex Hi Hf).
Qed.

Lemma stop_split : forall C t, stopping_condition C t = false -> lim_reached (t_iters t) (c_max_iters C) = false.
Proof. intros C t H. unfold stopping_condition in H. destruct (lim_reached (t_iters t) _); auto. rewrite orb_true_r in H. discriminate. Qed.

Lemma loop_inv_d : forall K E A Inv cb, env_okd K E -> algo_ok K A Inv ->
  forall (R : num -> num -> Prop),
  (forall s l s' l', Inv s l -> Inv s' l' -> ext l l' -> R (r_fxb s') (r_fxb s)) ->
  (forall a b c, R a b -> R b c -> R a c) ->
  forall n s w ev r w' ev',
  Inv s (log_of (c_opt (e_cfg E)) (w_h w)) ->
  Forall (fun p => K_pre K (fst p)) (w_h w) ->
  StronglySorted R (reported ev) -> Forall (R (r_fxb s)) (reported ev) ->
  loop E A cb n s w ev = (r, w', ev') -> early (e_cfg E) (w_ts w') = false ->
  Forall (fun p => K_pre K (fst p)) (w_h w') /\
  StronglySorted R (reported ev') /\
  match r with
  | Ret (x, f) => exists s', Inv s' (log_of (c_opt (e_cfg E)) (w_h w')) /\ x = r_xb s' /\ f = r_fxb s'
  | Raise e => raised_ok K cb e (w_h w') ev'
  end.
Proof.
  intros K E A Inv cb HE HA R HR HRt. induction n as [|n IH]; intros s w ev r w' ev' Hi Hp Hs Hf H Hy; rewrite loop_unfold in H.
  - destruct (stopping_condition (e_cfg E) (w_ts w)); inversion H; subst.
    + split; [auto|split; [auto|]]. eauto.
    + split; [auto|split; [auto|]]. right; left; auto.
  - destruct (stopping_condition (e_cfg E) (w_ts w)) eqn:Hst.
    { inversion H; subst. split; [auto|split; [auto|]]. eauto. }
    cbv zeta in H. set (ev1 := BeforeIter (r_fit s) (r_xb s) (r_fxb s) :: ev) in *.
    assert (Hs1 : StronglySorted R (reported ev1)) by (simpl; constructor; auto).
    destruct (cb ev1) as [e|] eqn:Ec.
    { inversion H; subst. split; [auto|split; [auto|]]. right; right; right; auto. }
    destruct (exec E (iter_prog s) w) as [o w1] eqn:Ex.
    assert (Hy1 : early (e_cfg E) (w_ts w1) = false).
    { destruct (early (e_cfg E) (w_ts w1)) eqn:Q; auto. destruct o as [s'|e]; [|inversion H; subst; congruence].
      destruct (cb _) in H; [inversion H; subst; congruence|]. apply loop_early in H; [|exact Q]. subst w'. rewrite <- Hy. symmetry. exact Q. }
    destruct (wp_sound_d _ _ _ _ _ _ _ _ HE (ok_iter _ _ _ HA _ _ Hi) Ex (stop_split _ _ Hst) Hy1) as [(d & Hd & HF) G].
    assert (Hp1 : Forall (fun p => K_pre K (fst p)) (w_h w1)) by (rewrite Hd; apply Forall_app; auto).
    destruct o as [s'|e].
    2:{ inversion H; subst. split; [auto|split; [auto|]].
        destruct G as [G|(x & h & G & _)]; [left; auto|]. right; right; left. rewrite G. simpl; eauto. }
    assert (He : ext (log_of (c_opt (e_cfg E)) (w_h w)) (log_of (c_opt (e_cfg E)) (w_h w1))).
    { rewrite Hd. unfold log_of. rewrite flat_map_app. eexists; reflexivity. }
    assert (Hr : R (r_fxb s') (r_fxb s)) by (eapply HR; eauto).
    set (ev2 := AfterIter (r_fit s') (r_xb s') (r_fxb s') :: ev1) in *.
    assert (Hf1 : Forall (R (r_fxb s')) (reported ev1)).
    { simpl. constructor; auto. eapply Forall_impl; [|exact Hf]. intros a Ha. eapply HRt; eauto. }
    assert (Hs2 : StronglySorted R (reported ev2)) by (simpl; constructor; auto).
    destruct (cb ev2) as [e|] eqn:Ec2.
    { inversion H; subst. split; [auto|split; [auto|]]. right; right; right; auto. }
    eapply (IH s' (World (next_iter (w_ts w1)) (w_h w1) (w_pos w1)) ev2); eauto.
    simpl. constructor; auto. eapply HR; eauto.
Qed.

Lemma run_inv_d : forall K E A Inv cb n pos, env_okd K E -> algo_ok K A Inv ->
  lim_reached 0 (c_max_iters (e_cfg E)) = false ->
  forall (R : num -> num -> Prop),
  (forall s l s' l', Inv s l -> Inv s' l' -> ext l l' -> R (r_fxb s') (r_fxb s)) ->
  (forall a b c, R a b -> R b c -> R a c) ->
  forall r w' ev,
  run_body E A cb n (World (task_init (e_cfg E)) [] pos) = (r, w', ev) -> early (e_cfg E) (w_ts w') = false ->
  Forall (fun p => K_pre K (fst p)) (w_h w') /\
  StronglySorted R (reported ev) /\
  match r with
  | Ret (x, v) => exists s, Inv s (log_of (c_opt (e_cfg E)) (w_h w')) /\ x = r_xb s /\ v = sgn (c_opt (e_cfg E)) (r_fxb s)
  | Raise e => raised_ok K cb e (w_h w') ev
  end.
Proof.
  intros K E A Inv cb n pos HE HA Hm R HR HRt r w' ev H Hy. rewrite run_body_unfold in H.
  destruct (cb [BeforeRun]) as [e|] eqn:Ec.
  { inversion H; subst. split; [constructor|split; [constructor|]]. right; right; right; auto. }
  destruct (exec E (init_prog A) _) as [o w1] eqn:Ex.
  assert (Hy1 : early (e_cfg E) (w_ts w1) = false).
  { destruct (early (e_cfg E) (w_ts w1)) eqn:Q; auto. destruct o as [s|e]; [|inversion H; subst; congruence].
    destruct (loop E A cb n s w1 [BeforeRun]) as [[o2 w2] ev2] eqn:El. apply loop_early in El; [|exact Q].
    destruct o2 as [[x f]|e]; [destruct (cb _) in H|]; inversion H; subst; congruence. }
  destruct (wp_sound_d _ _ _ _ _ (World (task_init (e_cfg E)) [] pos) _ _ HE (ok_init _ _ _ HA) Ex Hm Hy1) as [(d & Hd & HF) G].
  simpl in Hd. rewrite app_nil_r in Hd.
  assert (Hp1 : Forall (fun p => K_pre K (fst p)) (w_h w1)) by (rewrite Hd; auto).
  destruct o as [s|e].
  2:{ inversion H; subst. split; [auto|split; [constructor|]].
      destruct G as [G|(x & h & G & _)]; [left; auto|]. right; right; left. rewrite G. simpl; eauto. }
  destruct (loop E A cb n s w1 [BeforeRun]) as [[o2 w2] ev2] eqn:El.
  assert (Hy2 : early (e_cfg E) (w_ts w2) = false).
  { destruct o2 as [[x f]|e]; [destruct (cb _) in H|]; inversion H; subst; auto. }
  assert (L := loop_inv_d K E A Inv cb HE HA R HR HRt n s w1 [BeforeRun] o2 w2 ev2 G Hp1 (SSorted_nil _) (Forall_nil _) El Hy2).
  destruct L as (L1 & L3 & L4).
  destruct o2 as [[x f]|e].
  - destruct (cb (AfterRun :: ev2)) as [e|] eqn:Ec3; inversion H; subst.
    + split; [auto|split; [auto|]]. right; right; right; auto.
    + split; [auto|split; [auto|]]. destruct L4 as (s' & A1 & -> & ->). eauto.
  - inversion H; subst. auto.
Qed.

(** ** The context: evaluations are never refused, [V x v] holds of every value, [R x y] of every repair *)
Definition KD (C : cfg) (R : vec -> vec -> Prop) (V : vec -> num -> Prop) (P : vec -> Prop) (X : exn -> Prop) : wctx :=
  WCtxG P (fun x y => (length x = c_dim C -> inside C y) /\ R x y) (fun x v => v <> NaN /\ V x v) false (fun e => e = EFuel \/ X e).

Theorem full_run_intro : forall (R : vec -> vec -> Prop) (V : vec -> num -> Prop) (P : vec -> Prop) (X : exn -> Prop) E A (Inv : rstate A -> elog -> Prop),
  cfg_ok (e_cfg E) -> no_nan (e_prob E) -> repair_ok E ->
  (forall p x, R x (e_rep E p x)) -> (forall h x v, e_prob E h x = Ret v -> V x (sgn (c_opt (e_cfg E)) v)) ->
  lim_reached 0 (c_max_iters (e_cfg E)) = false ->
  algo_ok (KD (e_cfg E) R V P X) A Inv ->
  (forall s l, Inv s l -> length (r_xb s) = c_dim (e_cfg E) /\ Good l (r_xb s) (r_fxb s)) ->
  full_run_p P X E A.
Proof.
  intros R V P X E A Inv HC Hn Hr HR HV Hm HA HI cb n pos r w' ev H Hy.
  assert (HE : env_okd (KD (e_cfg E) R V P X) E).
  { split; [intros p x; split; [apply Hr|apply HR]|]. intros h x v Hv. split; [|eapply HV; eauto].
    intros Q. apply (proj1 (sgn_nan _ _)) in Q. eapply Hn; eauto. }
  assert (Ht : tinv (e_cfg E) (tw_of w')).
  { destruct (run_inv (WCtx (fun _ => True) (fun _ _ => True) (fun _ => True) (fun _ => True)) E A (fun _ _ => True) cb n pos) with (R := fun (a b : num) => True) (r := r) (w' := w') (ev := ev)
      as (_ & T & _); auto.
    - split; [|split]; simpl; auto.
    - assert (G : forall T (p : prog T) l, wp (WCtx (fun _ => True) (fun _ _ => True) (fun _ => True) (fun _ => True)) p (fun _ _ => True) l)
        by (induction p; simpl; auto). split; intros; apply G. }
  destruct (run_inv_d _ _ _ _ cb n pos HE HA Hm (fun a b => fleb a b = true)) with (r := r) (w' := w') (ev := ev)
    as (P1 & P3 & P4); auto.
  - intros s l s' l' I1 I2 He. destruct (HI _ _ I1) as (_ & (S1 & L1 & N1)). destruct (HI _ _ I2) as (_ & (S2 & L2 & N2)).
    destruct S1 as [->|S1]; [apply fleb_PInf; auto|]. eapply L2. eapply ext_In; eauto.
  - intros a b c. apply fleb_trans.
  - split; [|split; auto].
    + intros p Hp. rewrite Forall_forall in P1. apply P1; auto.
    + destruct r as [[x v]|e].
      * destruct P4 as (s & I1 & -> & ->). destruct (HI _ _ I1) as (Hl & G).
        destruct (Good_best_of _ _ _ _ G) as [B1 B2]. split; auto. split; auto.
        eapply best_of_unique; eauto. apply Ht.
      * destruct P4 as [[P4|P4]|[P4|[P4|P4]]]; auto.
Qed.

(** ** Rules *)
Lemma w_eval_d : forall C (R : vec -> vec -> Prop) (V : vec -> num -> Prop) (P : vec -> Prop) (X : exn -> Prop) x (Q : num -> elog -> Prop) l, P x ->
  (forall v, v <> NaN -> V x v -> Q v ((x, v) :: l)) -> wp (KD C R V P X) (eval x) Q l.
Proof. intros C R V P X x Q l Hp H. simpl. split; auto. split; auto. intros v [H1 H2]. auto. Qed.
Lemma w_repair_d : forall C (R : vec -> vec -> Prop) (V : vec -> num -> Prop) (P : vec -> Prop) (X : exn -> Prop) x (Q : vec -> elog -> Prop) l, length x = c_dim C ->
  (forall y, inside C y -> R x y -> Q y l) -> wp (KD C R V P X) (repair x) Q l.
Proof. intros C R V P X x Q l Hl H. simpl. intros y [H1 H2]. auto. Qed.
Lemma w_eval_all_d : forall C (R : vec -> vec -> Prop) (V : vec -> num -> Prop) (P : vec -> Prop) (X : exn -> Prop) xs (Q : list num -> elog -> Prop) l, (X EValue \/ xs <> []) -> Forall P xs ->
  (forall vs l', Evals xs vs l l' -> Forall2 (fun x v => v <> NaN /\ V x v /\ In (x, v) l') xs vs -> Q vs l') -> wp (KD C R V P X) (eval_all xs) Q l.
Proof.
  intros C R V P X xs Q l He Hp H. unfold eval_all. destruct xs as [|x0 xs0]; [simpl; destruct He; [auto|congruence]|].
  revert Hp H. generalize (x0 :: xs0) as xs. clear He. intros xs Hp H.
  eapply wp_conseq0; [|intros vs l' G; apply (H vs l' (proj1 G) (proj2 G))]. clear H Q.
  revert l. induction xs as [|x xs IH]; intros l; cbn [mapM].
  - simpl. split; constructor.
  - inversion Hp; subst. apply wp_bind. apply w_eval_d; auto. intros v Hn Hv. apply wp_bind.
    eapply wp_conseq; [apply IH; auto|]. intros vs l' Hx [G1 G2]. simpl. split.
    + econstructor; [left; split; [exact Hn|reflexivity]|exact G1].
    + constructor; auto. split; auto. split; auto. eapply ext_In; [exact Hx|left; auto].
Qed.
Lemma w_repair_all_d : forall C (R : vec -> vec -> Prop) (V : vec -> num -> Prop) (P : vec -> Prop) (X : exn -> Prop) xs (Q : list vec -> elog -> Prop) l, (X EValue \/ xs <> []) -> Forall (fun x => length x = c_dim C) xs ->
  (forall ys, length ys = length xs -> Forall (inside C) ys -> Forall2 R xs ys -> Q ys l) -> wp (KD C R V P X) (repair_all xs) Q l.
Proof.
  intros C R V P X xs Q l He Hd H. unfold repair_all. destruct xs as [|x0 xs0]; [simpl; destruct He; [auto|congruence]|].
  revert Hd H. generalize (x0 :: xs0) as xs. clear He. intros xs Hd H.
  apply wp_conseq0 with (Q := fun ys l' => l' = l /\ length ys = length xs /\ Forall (inside C) ys /\ Forall2 R xs ys);
    [clear H Q|intros ys l' (-> & G1 & G2 & G3); apply (H ys G1 G2 G3)].
  induction xs as [|x xs IH]; cbn [mapM].
  - simpl. auto.
  - inversion Hd; subst. apply wp_bind. apply w_repair_d; auto. intros y Hy Hr. apply wp_bind.
    eapply wp_conseq0; [apply IH; auto|]. intros ys l' (-> & G1 & G2 & G3). simpl. split; auto.
Qed.
