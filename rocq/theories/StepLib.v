(** Proof library for StepSpec.v, and one theorem that yields everything about a run. *)
From Coq Require Import ZArith Lia Bool List Sorted.
From Verif Require Import Num Task TaskSpec TaskProofs TaskProofs2 Prog Wp GetBest Run RunSpec RunProofs RunProofs2
  AlgoLib Fops AlgTac StepSpec.
Import ListNotations.

Definition steps_ev (R : snap -> snap -> Prop) (ev : list event) : Prop :=
  forall pre post s s', ev = pre ++ after_ev s' :: before_ev s :: post -> R s s'.

Lemma after_not_before : forall s s', after_ev s = before_ev s' -> False.
Proof. intros [[? ?] ?] [[? ?] ?] H. discriminate H. Qed.
Lemma after_inj : forall s s', after_ev s = after_ev s' -> s = s'.
Proof. intros [[? ?] ?] [[? ?] ?] H. inversion H; auto. Qed.
Lemma before_inj : forall s s', before_ev s = before_ev s' -> s = s'.
Proof. intros [[? ?] ?] [[? ?] ?] H. inversion H; auto. Qed.

Lemma steps_before : forall R s ev, steps_ev R ev -> steps_ev R (before_ev s :: ev).
Proof.
  intros R s ev H [|p pre] post a b Q; simpl in Q.
  - exfalso. inversion Q. eapply after_not_before. symmetry; eauto.
  - inversion Q. eapply H; eauto.
Qed.
Lemma steps_after : forall R s s' ev, steps_ev R (before_ev s :: ev) -> R s s' -> steps_ev R (after_ev s' :: before_ev s :: ev).
Proof.
  intros R s s' ev H HR [|p pre] post a b Q; simpl in Q.
  - injection Q as Q1 Q2 Q3. apply after_inj in Q1. apply before_inj in Q2. subst. auto.
  - injection Q as Q1 Q2. eapply H; eauto.
Qed.

(** an iteration keeps the invariant and relates the reports *)
Definition iter_rel (K : wctx) (A : algo) (Inv : rstate A -> elog -> Prop) (R : snap -> snap -> Prop) : Prop :=
  forall s l, Inv s l -> wp K (iter_prog s) (fun s' l' => Inv s' l' /\ R (snap_of s) (snap_of s')) l.

Lemma loop_steps : forall K E A Inv cb R, env_ok K E -> iter_rel K A Inv R ->
  forall n s w ev r w' ev', loop E A cb n s w ev = (r, w', ev') ->
  Inv s (log_of (c_opt (e_cfg E)) (w_h w)) -> steps_ev R ev -> steps_ev R ev'.
Proof.
  intros K E A Inv cb R HE HA. induction n as [|n IH]; intros s w ev r w' ev' H Hi Hr; rewrite loop_unfold in H.
  - destruct (stopping_condition (e_cfg E) (w_ts w)); inversion H; subst; auto.
  - destruct (stopping_condition (e_cfg E) (w_ts w)); [inversion H; subst; auto|]. cbv zeta in H.
    assert (H1 : steps_ev R (BeforeIter (r_fit s) (r_xb s) (r_fxb s) :: ev)) by (apply (steps_before R (snap_of s)); auto).
    destruct (cb _) in H; [inversion H; subst; auto|].
    destruct (exec E (iter_prog s) w) as [o w1] eqn:Ex.
    destruct (wp_sound _ _ _ _ _ _ _ _ HE (HA _ _ Hi) Ex) as [_ G].
    destruct o as [s1|e]; [|inversion H; subst; auto]. destruct G as [G1 G2].
    assert (H2 : steps_ev R (AfterIter (r_fit s1) (r_xb s1) (r_fxb s1) :: BeforeIter (r_fit s) (r_xb s) (r_fxb s) :: ev)).
    { apply (steps_after R (snap_of s) (snap_of s1)); eauto. }
    destruct (cb _) in H; [inversion H; subst; auto|]. eapply IH; eauto.
Qed.
Theorem run_steps : forall K E A Inv R, env_ok K E -> wp K (init_prog A) Inv [] -> iter_rel K A Inv R -> steps_ok R E A.
Proof.
  intros K E A Inv R HE H0 HA cb n pos r w' ev H. change (steps_ev R ev). rewrite run_body_unfold in H.
  assert (N : forall ev, steps_ev R ev -> steps_ev R (AfterRun :: ev)).
  { intros ev0 Hs [|p pre] post a [[? ?] ?] Q; simpl in Q; inversion Q. eapply Hs; eauto. }
  assert (N0 : steps_ev R [BeforeRun]).
  { intros [|p [|p' pre]] post [[? ?] ?] [[? ?] ?] Q; simpl in Q; inversion Q. }
  destruct (cb [BeforeRun]); [inversion H; subst; auto|].
  destruct (exec E (init_prog A) _) as [o w1] eqn:Ex.
  destruct (wp_sound _ _ _ _ _ (World (task_init (e_cfg E)) [] pos) _ _ HE H0 Ex) as [_ G].
  destruct o as [s1|e]; [|inversion H; subst; auto].
  destruct (loop E A cb n s1 w1 [BeforeRun]) as [[o2 w2] ev2] eqn:El.
  assert (H2 := loop_steps K E A Inv cb R HE HA _ _ _ _ _ _ _ El G N0).
  destruct o2 as [[x f]|e]; [|inversion H; subst; auto].
  destruct (cb (AfterRun :: ev2)); inversion H; subst; auto.
Qed.

(** ** Everything at once, from a curried invariant *)
Section Curried.
Variables (K : wctx) (A : algo).
Variable I : a_pop A -> list num -> vec -> num -> a_par A -> elog -> Prop.
Variable R : snap -> snap -> Prop.
Definition iter_r : Prop :=
  forall pop fit xb fxb par l, I pop fit xb fxb par l ->
    wp K (a_iter A pop fit xb fxb par) (fun a l' => let '(pop', fit', xb', fxb', par') := a in
      I pop' fit' xb' fxb' par' l' /\ R (fit, xb, fxb) (fit', xb', fxb')) l.
Lemma iter_r_c : iter_r -> iter_c K A I.
Proof.
  intros H pop fit xb fxb par l Hi. eapply wp_conseq0; [apply (H _ _ _ _ _ _ Hi)|].
  intros [[[[pop' fit'] xb'] fxb'] par'] l' [H1 _]. exact H1.
Qed.
Lemma iter_r_rel : iter_r -> iter_rel K A (Inv_of A I) R.
Proof.
  intros H [pop fit xb fxb par] l Hi. unfold iter_prog. apply wp_bind. eapply wp_conseq0; [apply (H _ _ _ _ _ _ Hi)|].
  intros [[[[pop' fit'] xb'] fxb'] par'] l' H'. exact H'.
Qed.
Lemma init_c_prog : init_c K A I -> wp K (init_prog A) (Inv_of A I) [].
Proof.
  intros H1. unfold init_prog. apply wp_bind. eapply wp_conseq0; [exact H1|]. intros [[pop fit] par] l H.
  apply wp_bind. eapply wp_conseq0; [exact H|]. intros [xb fxb] l' H'. exact H'.
Qed.
End Curried.

Theorem steps_c : forall P X R E A (I : a_pop A -> list num -> vec -> num -> a_par A -> elog -> Prop),
  no_nan (e_prob E) -> repair_ok E ->
  init_c (KPX (e_cfg E) P X) A I -> iter_r (KPX (e_cfg E) P X) A I R -> steps_ok R E A.
Proof.
  intros P X R E A I Hn Hr H1 H2. eapply (run_steps (KPX (e_cfg E) P X)); [apply env_ok_KB; auto|apply init_c_prog; eauto|].
  apply iter_r_rel; auto.
Qed.

(** best evaluated point, population size, relation between successive populations *)
Theorem all_c : forall P X (N : nat -> Prop) R E A (I : a_pop A -> list num -> vec -> num -> a_par A -> elog -> Prop),
  cfg_ok (e_cfg E) -> no_nan (e_prob E) -> repair_ok E ->
  init_c (KPX (e_cfg E) P X) A I -> iter_r (KPX (e_cfg E) P X) A I R ->
  (forall pop fit xb fxb par l, I pop fit xb fxb par l -> length xb = c_dim (e_cfg E) /\ Good l xb fxb /\ N (length fit)) ->
  best_run_p P X E A /\ sizes_ok N E A /\ steps_ok R E A.
Proof.
  intros P X N R E A I HC Hn Hr H1 H2 HI. assert (H3 := iter_r_c _ _ _ _ H2). split; [|split].
  - apply (best_run_c P X E A I); auto. intros pop fit xb fxb par l H. destruct (HI _ _ _ _ _ _ H) as (G1 & G2 & _). auto.
  - apply (sizes_c P X N E A I); auto. intros pop fit xb fxb par l H. apply (HI _ _ _ _ _ _ H).
  - apply (steps_c P X R E A I); auto.
Qed.
(** the same without a relation *)
Theorem all2_c : forall P X (N : nat -> Prop) E A (I : a_pop A -> list num -> vec -> num -> a_par A -> elog -> Prop),
  cfg_ok (e_cfg E) -> no_nan (e_prob E) -> repair_ok E ->
  init_c (KPX (e_cfg E) P X) A I -> iter_c (KPX (e_cfg E) P X) A I ->
  (forall pop fit xb fxb par l, I pop fit xb fxb par l -> length xb = c_dim (e_cfg E) /\ Good l xb fxb /\ N (length fit)) ->
  best_run_p P X E A /\ sizes_ok N E A.
Proof.
  intros P X N E A I HC Hn Hr H1 H2 HI. split.
  - apply (best_run_c P X E A I); auto. intros pop fit xb fxb par l H. destruct (HI _ _ _ _ _ _ H) as (G1 & G2 & _). auto.
  - apply (sizes_c P X N E A I); auto. intros pop fit xb fxb par l H. apply (HI _ _ _ _ _ _ H).
Qed.

(** ** No member gets worse *)
Definition down (fs gs : list num) : Prop := Forall2 (fun new old => fleb new old = true) fs gs.
Lemma down_refl : forall fs, Forall (fun f => f <> NaN) fs -> down fs fs.
Proof. induction 1; constructor; auto. apply fleb_refl; auto. Qed.
Lemma down_trans : forall a b c, down a b -> down b c -> down a c.
Proof.
  unfold down. intros a b c H. revert c. induction H; intros c Hc; inversion Hc; subst; constructor; auto.
  eapply fleb_trans; eauto.
Qed.
Lemma down_upd : forall fs gs i f g, down fs gs -> nth_error fs i = Some g -> fleb f g = true -> down (upd fs i f) gs.
Proof.
  unfold down. intros fs gs i f g H. revert i. induction H; intros [|i] E Hf; simpl in *; try discriminate; constructor; auto.
  inversion E; subst. eapply fleb_trans; eauto.
Qed.
Lemma down_len : forall fs gs, down fs gs -> length fs = length gs.
Proof. unfold down. intros. eapply Forall2_len; eauto. Qed.

(** a population whose fitness dominates keeps covering the log *)
Lemma Cov_dom : forall l fs gs fb, Cov l fs fb -> (forall f, In f fs -> f <> NaN -> exists g, In g gs /\ fleb g f = true) -> Cov l gs fb.
Proof.
  intros l fs gs fb H Hd x v Hi. destruct (H x v Hi) as [?|(f & F1 & F2)]; auto. right.
  destruct (Hd f F1) as (g & G1 & G2); [eapply fleb_nan_l; eauto|]. exists g. split; auto. eapply fleb_trans; eauto.
Qed.

(** components *)
Lemma comps_len : forall d x P, comps d x P -> length x = d.
Proof. intros d x P H. apply H. Qed.

(** ** Contexts for step theorems *)

(** no evaluation, no exception; repairs are those of the environment *)
Definition K_rp (E : env) : wctx :=
  WCtx (fun _ => False) (repaired E) (fun _ => True) (fun _ => False).
Lemma rp_sound : forall A E (p : prog A) (Q : A -> Prop) w r w',
  (forall l, wp (K_rp E) p (fun a _ => Q a) l) -> exec E p w = (r, w') ->
  (exists a, r = Ret a /\ Q a) /\ w_ts w' = w_ts w /\ w_h w' = w_h w.
Proof.
  intros A E p Q w r w' W Ex.
  assert (HE : env_ok (K_rp E) E) by (split; simpl; auto; intros q x; exists q; auto).
  destruct (wp_sound _ (K_rp E) E _ _ w _ _ HE (W _) Ex) as [(dd & Hdd & HF) G].
  assert (Hh : w_h w' = w_h w).
  { destruct dd as [|q dd]; auto. inversion HF; subst. contradiction. }
  split; [|split; auto; eapply exec_same_ts; eauto].
  destruct r as [a|e]; [eauto|]. destruct G as [[]|(x & h & _ & [])].
Qed.
(** evaluations anywhere; any exception *)
Definition K_tr (E : env) : wctx :=
  WCtx (fun _ => True) (repaired E) (fun _ => True) (fun _ => True).
Lemma tr_sound : forall A E (p : prog A) (Q : A -> elog -> Prop) w a w',
  wp (K_tr E) p Q (log_of (c_opt (e_cfg E)) (w_h w)) -> exec E p w = (Ret a, w') ->
  Q a (log_of (c_opt (e_cfg E)) (w_h w')).
Proof.
  intros A E p Q w a w' W Ex.
  assert (HE : env_ok (K_tr E) E) by (split; simpl; auto; intros q x; exists q; auto).
  destruct (wp_sound _ (K_tr E) E _ _ w _ _ HE W Ex) as [_ G]. auto.
Qed.
Lemma w_eval_tr : forall E x (Q : num -> elog -> Prop) l, (forall f l', evaluated x f l l' -> Q f l') -> wp (K_tr E) (eval x) Q l.
Proof.
  intros E x Q l H. simpl. split; auto. split; [intros v _|]; apply H; [right; auto|left; auto].
Qed.
Lemma w_repair_tr : forall E x (Q : vec -> elog -> Prop) l, (forall y, repaired E x y -> Q y l) -> wp (K_tr E) (repair x) Q l.
Proof. intros E x Q l H. simpl. auto. Qed.
Lemma w_repair_rp : forall E x (Q : vec -> elog -> Prop) l, (forall y, repaired E x y -> Q y l) -> wp (K_rp E) (repair x) Q l.
Proof. intros E x Q l H. simpl. auto. Qed.
Lemma w_nthP_tr : forall A E (xs : list A) i (Q : A -> elog -> Prop) l, (forall a, nth_error xs i = Some a -> Q a l) -> wp (K_tr E) (nthP xs i) Q l.
Proof. intros A E xs i Q l H. unfold nthP. destruct (nth_error xs i); simpl; auto. Qed.
Lemma row_set_upd : forall A (xs : list A) i y, i < length xs -> row_set xs (upd xs i y) i y.
Proof.
  intros A xs i y H. split; [apply upd_length|]. split; [apply nth_upd_same; auto|].
  intros j Hj. apply nth_upd_other. auto.
Qed.
Lemma w_setP_tr : forall A E (xs : list A) i a (Q : list A -> elog -> Prop) l,
  (row_set xs (upd xs i a) i a -> Q (upd xs i a) l) -> wp (K_tr E) (setP xs i a) Q l.
Proof.
  intros A E xs i a Q l H. unfold setP. destruct (i <? length xs) eqn:Q1; simpl; auto.
  apply Nat.ltb_lt in Q1. apply H. apply row_set_upd; auto.
Qed.
Lemma w_random_u : forall K (Q : num -> elog -> Prop) l, (forall r, in_unit r -> Q r l) -> wp K random Q l.
Proof. intros K Q l H. apply w_random. intros r H1 H2. apply H. split; auto. Qed.
Lemma w_random_vec_u : forall K n (Q : vec -> elog -> Prop) l, (forall v, length v = n -> Forall in_unit v -> Q v l) -> wp K (random_vec n) Q l.
Proof. intros K n Q l H. apply w_random_vec_r. exact H. Qed.
Lemma nth_in_unit : forall v j, Forall in_unit v -> j < length v -> in_unit (nth j v NaN).
Proof. intros v j H Hj. apply (nth_unit v j H Hj). Qed.

(** one step through a program in K_tr or K_rp *)
Ltac t1 :=
  lazymatch goal with
  | |- wp _ (bind _ _) _ _ => apply wp_bind
  | |- wp _ (Done _) _ _ => apply w_done
  | |- wp _ random _ _ => apply w_random_u; intros ? ?
  | |- wp _ rnd_f _ _ => apply w_rnd_f; intros ?
  | |- wp _ (uniform _ _) _ _ => apply w_uniform; intros ? ?
  | |- wp _ view _ _ => apply w_view; intros ?
  | |- wp (K_tr _) (nthP _ _) _ _ => apply w_nthP_tr; intros ? ?
  | |- wp (K_tr _) (setP _ _ _) _ _ => apply w_setP_tr; intros ?
  | |- wp _ (nthP _ _) _ _ => apply w_nthP; [ solve [dl] | intros ? ? ]
  | |- wp _ (setP _ _ _) _ _ => apply w_setP; [ solve [dl] | ]
  | |- wp _ (random_vec _) _ _ => apply w_random_vec_u; intros ? ? ?
  | |- wp _ (rnd_f_vec _) _ _ => apply w_rnd_f_vec; intros ? ?
  | |- wp (K_tr _) (eval _) _ _ => apply w_eval_tr; intros ? ? ?
  | |- wp (K_tr _) (repair _) _ _ => apply w_repair_tr; intros ? ?
  | |- wp (K_rp _) (repair _) _ _ => apply w_repair_rp; intros ? ?
  | |- wp _ (let _ := _ in _) _ _ => cbv zeta
  | |- _ => progress cbn beta iota
  end.
Ltac ts := repeat t1.

(** whole populations *)
Lemma w_eval_all_tr : forall E pop (Q : list num -> elog -> Prop) l,
  (forall fs l', evaluated_all pop fs l l' -> Q fs l') -> wp (K_tr E) (eval_all pop) Q l.
Proof.
  intros E pop Q l HQ. unfold eval_all. destruct pop as [|x0 pop0]; [exact I|]. set (pop := x0 :: pop0) in *. clearbody pop. clear x0 pop0.
  revert Q l HQ. induction pop as [|x pop IH]; intros Q l HQ; cbn [mapM].
  - apply w_done. apply HQ. constructor.
  - apply wp_bind. apply w_eval_tr. intros f l1 He. apply wp_bind. apply IH. intros fs l2 Hs. apply w_done. apply HQ. econstructor; eauto.
Qed.
Lemma w_mapM_repair_tr : forall E pop (Q : list vec -> elog -> Prop) l,
  (forall ys, Forall2 (repaired E) pop ys -> Q ys l) -> wp (K_tr E) (mapM repair pop) Q l.
Proof.
  intros E pop. induction pop as [|x pop IH]; intros Q l HQ; cbn [mapM].
  - apply w_done. apply HQ. constructor.
  - apply wp_bind. apply w_repair_tr. intros y Hy. apply wp_bind. apply IH. intros ys Hs. apply w_done. apply HQ. constructor; auto.
Qed.
Lemma w_repair_all_tr : forall E pop (Q : list vec -> elog -> Prop) l,
  (forall ys, Forall2 (repaired E) pop ys -> Q ys l) -> wp (K_tr E) (repair_all pop) Q l.
Proof. intros E pop Q l HQ. unfold repair_all. destruct pop as [|x0 pop0]; [exact I|]. apply w_mapM_repair_tr; auto. Qed.
Lemma w_lift_tr : forall A E (o : outcome A) (Q : A -> elog -> Prop) l, (forall a, o = Ret a -> Q a l) -> wp (K_tr E) (lift o) Q l.
Proof. intros A E [a|e] Q l H; cbn [lift]; [apply w_done; auto|exact I]. Qed.
Lemma exec_view : forall A E (k : tview -> prog A) w,
  exec E (let* v := view in k v) w = exec E (k (TView (t_evals (w_ts w)) (t_iters (w_ts w)) (stopping_condition (e_cfg E) (w_ts w)))) w.
Proof. intros. rewrite exec_bind. reflexivity. Qed.
(** the new population is repaired, evaluated and searched for a new best *)
Definition renewed (E : env) (moved : list vec) (xb : vec) (fxb : num) (l : elog)
  (pop' : list vec) (fit' : list num) (xb' : vec) (fxb' : num) (l' : elog) : Prop :=
  Forall2 (repaired E) moved pop' /\ evaluated_all pop' fit' l l' /\ get_best pop' fit' (Some xb) fxb = Ret (xb', fxb').
Lemma w_renewed_tr : forall T E moved xb fxb (u : T) (Q : list vec * list num * vec * num * T -> elog -> Prop) l,
  (forall pop' fit' xb' fxb' l', renewed E moved xb fxb l pop' fit' xb' fxb' l' -> Q (pop', fit', xb', fxb', u) l') ->
  wp (K_tr E) (let* pop' := repair_all moved in let* fit' := eval_all pop' in
     let* (xb', fxb') := lift (get_best pop' fit' (Some xb) fxb) in Done (pop', fit', xb', fxb', u)) Q l.
Proof.
  intros T E moved xb fxb u Q l HQ. apply wp_bind. apply w_repair_all_tr. intros ys Hy. apply wp_bind. apply w_eval_all_tr. intros fs l' He.
  apply wp_bind. apply w_lift_tr. intros [x f] G. apply w_done. apply HQ. repeat split; auto.
Qed.
