(** Initialisations during which no evaluation is refused: max_evals leaves room for them and no value reaches the cutoff value. *)
From Coq Require Import ZArith Lia Bool List Sorted.
From Verif Require Import Num Task TaskSpec TaskProofs TaskProofs2 Prog Wp GetBest Run RunSpec RunProofs RunProofs2 AlgoLib AlgTac Det.
Import ListNotations.

(** [p] makes at most k evaluations; what is left of k satisfies [Q] when it returns *)
Fixpoint atmost {A} (k : nat) (p : prog A) (Q : A -> nat -> Prop) : Prop :=
  match p with
  | Done a => Q a k
  | Fail _ => True
  | Eval _ c => match k with O => False | S k' => forall v, atmost k' (c v) Q end
  | Repair _ c => forall y, atmost k (c y) Q
  | RndU _ _ c => forall r, atmost k (c r) Q
  | RndF c => forall r, atmost k (c r) Q
  | RndN _ c => forall r, atmost k (c r) Q
  | View c => forall v, atmost k (c v) Q
  end.
Lemma atmost_bind : forall A B (p : prog A) (f : A -> prog B) k Q, atmost k p (fun a k' => atmost k' (f a) Q) -> atmost k (bind p f) Q.
Proof. intros A B p f. induction p; cbn [bind atmost]; intros m Q H0; auto. destruct m; auto. Qed.
Lemma atmost_imp : forall A (p : prog A) k (Q Q' : A -> nat -> Prop), (forall a m, Q a m -> Q' a m) -> atmost k p Q -> atmost k p Q'.
Proof. intros A p. induction p; cbn [atmost]; intros m Q Q1 HQ H0; eauto. destruct m; eauto. Qed.
Lemma atmost_eval_all : forall xs k (Q : list num -> nat -> Prop), length xs <= k -> (forall vs, length vs = length xs -> Q vs (k - length xs)) -> atmost k (eval_all xs) Q.
Proof.
  intros xs k Q Hk HQ. unfold eval_all. destruct xs as [|x0 xs0]; [exact I|]. revert k Q Hk HQ. generalize (x0 :: xs0) as xs. clear.
  induction xs as [|x xs IH]; intros k Q Hk HQ; cbn [mapM].
  - cbn [atmost]. specialize (HQ [] eq_refl). rewrite Nat.sub_0_r in HQ. exact HQ.
  - apply atmost_bind. cbn [eval atmost length] in *. destruct k as [|k]; [lia|]. intros v. apply atmost_bind. apply IH; [lia|].
    intros vs L. cbn [atmost]. apply (HQ (v :: vs)). simpl. lia.
Qed.
Lemma atmost_uniform_vec : forall lo hi k (Q : vec -> nat -> Prop), (forall v, Q v k) -> atmost k (uniform_vec lo hi) Q.
Proof.
  induction lo as [|a lo IH]; intros [|b hi] k Q HQ; cbn [uniform_vec]; try (cbn [atmost]; auto; fail).
  apply atmost_bind. cbn [uniform atmost]. intros r. apply atmost_bind. apply IH. intros v. cbn [atmost]. auto.
Qed.
Lemma atmost_uniform_pop : forall C n k (Q : list vec -> nat -> Prop), (forall v, length v = n -> Q v k) -> atmost k (uniform_pop C n) Q.
Proof.
  intros C n. induction n as [|n IH]; intros k Q HQ; cbn [uniform_pop]; [cbn [atmost]; auto|]. apply atmost_bind. apply atmost_uniform_vec. intros v.
  apply atmost_bind. apply IH. intros vs L. cbn [atmost]. apply HQ. simpl. lia.
Qed.
Lemma atmost_random_vec : forall n k (Q : vec -> nat -> Prop), (forall v, Q v k) -> atmost k (random_vec n) Q.
Proof.
  intros n. induction n as [|n IH]; intros k Q HQ; cbn [random_vec]; [cbn [atmost]; auto|]. apply atmost_bind. cbn [random uniform atmost]. intros r.
  apply atmost_bind. apply IH. intros vs. cbn [atmost]. auto.
Qed.

(** k more evaluations are allowed *)
Definition room (C : cfg) (m k : nat) : Prop := match c_max_evals C with LInf => True | LFin z => (Z.of_nat (m + k) <= z)%Z end.
(** no value of the problem reaches the cutoff value *)
Definition above_cutoff (E : env) : Prop := let o := c_opt (e_cfg E) in
  fleb PInf (sgn o (c_cutoff (e_cfg E))) = false /\
  forall h x v, e_prob E h x = Ret v -> fleb (sgn o v) (sgn o (c_cutoff (e_cfg E))) = false.
Theorem wp_sound_b : forall A K E (p : prog A) Q T k w r w',
  env_okd K E -> above_cutoff E -> wp K p Q (log_of (c_opt (e_cfg E)) (w_h w)) -> exec E p w = (r, w') ->
  lim_reached (t_iters (w_ts w)) (c_max_iters (e_cfg E)) = false ->
  room (e_cfg E) (t_evals (w_ts w)) k -> atmost k p T -> fleb (sgn (c_opt (e_cfg E)) (t_xf (w_ts w))) (sgn (c_opt (e_cfg E)) (c_cutoff (e_cfg E))) = false ->
  (exists d, w_h w' = d ++ w_h w /\ Forall (fun q => K_pre K (fst q)) d) /\
  match r with
  | Ret a => Q a (log_of (c_opt (e_cfg E)) (w_h w'))
  | Raise e => K_exn K e \/ exists x h, w_h w' = (x, Raise e) :: h /\ K_pre K x
  end.
Proof.
  intros A K E p Q T. induction p; cbn [exec wp atmost]; intros bu w r0 w1 HK HA Hw Ex Hi Hr Ha Hc.
  - inversion Ex; subst. split; auto. exists []; auto.
  - inversion Ex; subst. split; auto. exists []; auto.
  - destruct Hw as (H1 & H2 & H3). destruct bu as [|bu]; [contradiction|].
    assert (Hs : stopping_condition (e_cfg E) (w_ts w) = false).
    { unfold stopping_condition. rewrite Hi, Hc, !orb_false_r. unfold room in Hr. unfold lim_reached. destruct (c_max_evals (e_cfg E)); auto. apply Z.leb_gt. lia. }
    unfold task_eval in Ex. rewrite Hs in Ex. destruct (e_prob E (w_h w) x) as [v|e] eqn:Hp.
    + cbv zeta in Ex.
      match type of Ex with exec E _ (World ?t0 _ _) = _ => set (t := t0) in * end.
      assert (Gi : t_iters t = t_iters (w_ts w)) by (unfold t; destruct (fltb _ _); reflexivity).
      assert (Ge : t_evals t = S (t_evals (w_ts w))) by (unfold t; destruct (fltb _ _); reflexivity).
      assert (Gx : fleb (sgn (c_opt (e_cfg E)) (t_xf t)) (sgn (c_opt (e_cfg E)) (c_cutoff (e_cfg E))) = false).
      { unfold t. destruct (fltb _ _); cbn [t_xf]; auto. rewrite sgn_invol. exact (proj2 HA _ _ _ Hp). }
      assert (G0 : wp K (k (sgn (c_opt (e_cfg E)) v)) Q (log_of (c_opt (e_cfg E)) (w_h (World t ((x, Ret v) :: w_h w) (w_pos w))))).
      { simpl. apply H2. apply (proj2 HK) in Hp. auto. }
      destruct (H _ bu _ _ _ HK HA G0 Ex) as [(d & Hd & HF) G]; cbn [w_ts]; auto.
      { rewrite Gi. auto. } { rewrite Ge. unfold room in *. destruct (c_max_evals (e_cfg E)); auto. replace (S (t_evals (w_ts w)) + bu) with (t_evals (w_ts w) + S bu) by lia. auto. }
      simpl in Hd. split; auto. exists (d ++ [(x, Ret v)]). split; [rewrite <- app_assoc; auto|]. apply Forall_app; split; auto.
    + inversion Ex; subst. split.
      * exists [(x, Raise e)]. simpl; auto.
      * right. simpl. eauto.
  - exact (H _ bu (World (w_ts w) (w_h w) (S (w_pos w))) _ _ HK HA (Hw _ (proj1 HK _ _)) Ex Hi Hr (Ha _) Hc).
  - exact (H _ bu (World (w_ts w) (w_h w) (S (w_pos w))) _ _ HK HA (Hw _ (draw_u_ok _ _ _)) Ex Hi Hr (Ha _) Hc).
  - exact (H _ bu (World (w_ts w) (w_h w) (S (w_pos w))) _ _ HK HA (Hw _) Ex Hi Hr (Ha _) Hc).
  - refine (H _ bu (World (w_ts w) (w_h w) (S (w_pos w))) _ _ HK HA (Hw _ _) Ex Hi Hr (Ha _) Hc). match goal with |- ?a mod S ?b <= ?b => assert (Q0 := Nat.mod_upper_bound a (S b) ltac:(discriminate)) end. lia.
  - exact (H _ bu w _ _ HK HA (Hw _) Ex Hi Hr (Ha _) Hc).
Qed.

(** [best_run_p] for an algorithm whose initialisation makes at most k evaluations: evaluations of the initialisation are never
    refused, those of the iterations may be *)
Theorem roomy_run : forall k (R : vec -> vec -> Prop) (V : vec -> num -> Prop) (P : vec -> Prop) (X : exn -> Prop) E A
  (I : a_pop A -> list num -> vec -> num -> a_par A -> elog -> Prop),
  cfg_ok (e_cfg E) -> no_nan (e_prob E) -> repair_ok E ->
  (forall p x, R x (e_rep E p x)) -> (forall h x v, e_prob E h x = Ret v -> V x (sgn (c_opt (e_cfg E)) v)) ->
  lim_reached 0 (c_max_iters (e_cfg E)) = false -> above_cutoff E -> room (e_cfg E) 0 k ->
  atmost k (a_init A) (fun _ _ => True) ->
  init_c (KD (e_cfg E) R V P X) A I -> iter_c (KPX (e_cfg E) P X) A I ->
  (forall pop fit xb fxb par l, I pop fit xb fxb par l -> length xb = c_dim (e_cfg E) /\ Good l xb fxb) ->
  best_run_p P X E A.
Proof.
  intros k R V P X E A I HC Hn Hr HR HV Hm Hc Hk Ha H1 H2 HI cb n pos r w' ev H.
  assert (HE : env_okd (KD (e_cfg E) R V P X) E).
  { split; [intros p x; split; [apply Hr|apply HR]|]. intros h x v Hv. split; [|eapply HV; eauto].
    intros Q. apply (proj1 (sgn_nan _ _)) in Q. eapply Hn; eauto. }
  assert (HI' : wp (KD (e_cfg E) R V P X) (init_prog A) (Inv_of A I) []).
  { unfold init_prog. apply wp_bind. eapply wp_conseq0; [exact H1|]. intros [[pop fit] par] l H0.
    apply wp_bind. eapply wp_conseq0; [exact H0|]. intros [xb fxb] l' H'. exact H'. }
  assert (Ha' : atmost k (init_prog A) (fun _ _ => True)).
  { unfold init_prog. apply atmost_bind. eapply atmost_imp; [|exact Ha]. intros [[pop fit] par] m _. apply atmost_bind.
    destruct (get_best _ fit None PInf) as [[xb fxb]|e]; cbn [lift atmost]; auto. }
  rewrite run_body_unfold in H.
  set (w0 := World (task_init (e_cfg E)) [] pos) in *.
  assert (Ht0 : tinv (e_cfg E) (tw_of w0)) by (apply tinv_init).
  destruct (cb [BeforeRun]) as [e|] eqn:Ec.
  { inversion H; subst. split; [intros q []|split; [constructor|]]. right; right; right; auto. }
  destruct (exec E (init_prog A) w0) as [o w1] eqn:Ex.
  destruct (wp_sound_b _ _ _ _ _ _ k w0 _ _ HE Hc HI' Ex Hm Hk Ha') as [(d & Hd & HF) G].
  { cbn [w0 w_ts task_init t_xf]. rewrite sgn_invol. apply Hc. }
  assert (Ht1 := exec_tinv _ _ _ _ _ _ Ht0 Ex).
  simpl in Hd. rewrite app_nil_r in Hd.
  assert (Hp1 : Forall (fun q => P (fst q)) (w_h w1)) by (rewrite Hd; auto).
  destruct o as [s|e].
  2:{ inversion H; subst. split; [rewrite Forall_forall in Hp1; auto|split; [constructor|]].
      destruct G as [[G|G]|(x & h & G & _)]; [auto|auto|]. right; right; left. rewrite G. simpl; eauto. }
  destruct (loop E A cb n s w1 [BeforeRun]) as [[o2 w2] ev2] eqn:El.
  assert (HA : forall s0 l0, Inv_of A I s0 l0 -> wp (KPX (e_cfg E) P X) (iter_prog s0) (Inv_of A I) l0).
  { intros [pop fit xb fxb par] l0 H0. unfold iter_prog. apply wp_bind. eapply wp_conseq0; [apply (H2 _ _ _ _ _ _ H0)|].
    intros [[[[pop' fit'] xb'] fxb'] par'] l' H'. exact H'. }
  assert (HE2 : env_ok (KPX (e_cfg E) P X) E) by (apply env_ok_KB; auto).
  assert (L := loop_inv_i _ E A _ cb HE2 HA (fun a b => fleb a b = true)
    ltac:(intros s1 l1 s2 l2 I1 I2 He; destruct (HI _ _ _ _ _ _ I1) as (_ & (S1 & L1 & N1)); destruct (HI _ _ _ _ _ _ I2) as (_ & (S2 & L2 & N2));
      destruct S1 as [->|S1]; [apply fleb_PInf; auto|]; eapply L2; eapply ext_In; eauto)
    ltac:(intros a b c; apply fleb_trans)
    n s w1 [BeforeRun] o2 w2 ev2 G Ht1 Hp1 (SSorted_nil _) (Forall_nil _) El).
  destruct L as (L1 & L2 & L3 & L4). rewrite Forall_forall in L1.
  destruct o2 as [[x f]|e].
  - destruct (cb (AfterRun :: ev2)) as [e|] eqn:Ec3; inversion H; subst.
    + split; [exact L1|split; [auto|]]. right; right; right; auto.
    + split; [exact L1|split; [auto|]]. destruct L4 as (s' & A1 & -> & ->). destruct (HI _ _ _ _ _ _ A1) as (Hl & GG).
      destruct (Good_best_of _ _ _ _ GG) as [B1 B2]. split; auto. split; auto. eapply best_of_unique; eauto. apply L2.
  - inversion H; subst. split; [exact L1|split; [auto|]]. destruct L4 as [[L4|L4]|[L4|[L4|L4]]]; auto.
Qed.
