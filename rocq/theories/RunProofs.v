(** Generic theorems about [run]: any algorithm. *)
From Coq Require Import ZArith Lia Bool List Sorted.
From Verif Require Import Num Task TaskSpec TaskProofs TaskProofs2 Prog Wp GetBest Run RunSpec.
Import ListNotations.

Definition tw_of (w : world) : tworld := TW (w_ts w) (w_h w).

Lemma exec_tinv : forall A E (p : prog A) w r w', tinv (e_cfg E) (tw_of w) ->
  exec E p w = (r, w') -> tinv (e_cfg E) (tw_of w').
Proof.
  induction p; simpl; intros w r w' Hi Ex.
  - inversion Ex; subst; auto.
  - inversion Ex; subst; auto.
  - destruct (task_eval (e_cfg E) (e_prob E) (w_h w) (w_ts w) x) as [[o t] h] eqn:Et.
    assert (G : tinv (e_cfg E) (tw_of (World t h (w_pos w)))) by (apply (tinv_eval (e_cfg E) (e_prob E) (tw_of w) x o t h); auto).
    destruct o as [v|e].
    + eapply H; eauto.
    + inversion Ex; subst; auto.
  - eapply H; [|exact Ex]. exact Hi.
  - eapply H; [|exact Ex]. exact Hi.
  - eapply H; [|exact Ex]. exact Hi.
  - eapply H; [|exact Ex]. exact Hi.
  - eapply H; [|exact Ex]. exact Hi.
Qed.

Lemma exec_iters : forall A E (p : prog A) w r w', exec E p w = (r, w') -> t_iters (w_ts w') = t_iters (w_ts w).
Proof.
  induction p; simpl; intros w r w' Ex; try (inversion Ex; subst; auto; fail).
  - destruct (task_eval (e_cfg E) (e_prob E) (w_h w) (w_ts w) x) as [[o t] h] eqn:Et.
    assert (G : t_iters t = t_iters (w_ts w)).
    { unfold task_eval in Et. destruct (stopping_condition (e_cfg E) (w_ts w)); [inversion Et; auto|].
      destruct (e_prob E (w_h w) x); [|inversion Et; auto]. cbv zeta in Et.
      destruct (fltb _ _) in Et; inversion Et; subst; simpl; auto. }
    destruct o as [v|e].
    + apply H in Ex. simpl in Ex. congruence.
    + inversion Ex; subst; auto.
  - apply H in Ex. auto.
  - apply H in Ex. auto.
  - apply H in Ex. auto.
  - apply H in Ex. auto.
  - apply H in Ex. auto.
Qed.

(** ** Termination and protocol *)

Fixpoint protocol_iters (k : nat) (ev : list event) : Prop :=
  match k with
  | O => ev = [BeforeRun]
  | S k' => exists f1 x1 b1 f2 x2 b2 ev',
      ev = AfterIter f2 x2 b2 :: BeforeIter f1 x1 b1 :: ev' /\ protocol_iters k' ev'
  end.
(** events (newest first) of a run that has completed k iterations, with the iteration
    in progress possibly cut short *)
Definition protocol_prefix (k : nat) (ev : list event) : Prop :=
  protocol_iters k ev \/
  (exists f x b ev', ev = BeforeIter f x b :: ev' /\ protocol_iters k ev') \/
  (exists k', k = S k' /\ protocol_iters k ev).

Lemma loop_protocol : forall E A cb n s w ev k0 r w' ev',
  loop E A cb n s w ev = (r, w', ev') -> protocol_iters k0 ev ->
  exists k, match r with
  | Ret _ => protocol_iters (k0 + k) ev' /\ t_iters (w_ts w') = t_iters (w_ts w) + k
             /\ stopping_condition (e_cfg E) (w_ts w') = true
  | Raise _ => (protocol_iters (k0 + k) ev' \/
               exists f x b ev2, ev' = BeforeIter f x b :: ev2 /\ protocol_iters (k0 + k) ev2)
  end.
Proof.
  induction n as [|n IH]; simpl; intros s w ev k0 r w' ev' H HP.
  - destruct (stopping_condition (e_cfg E) (w_ts w)) eqn:Es; inversion H; subst; exists 0; rewrite !Nat.add_0_r; auto.
  - destruct (stopping_condition (e_cfg E) (w_ts w)) eqn:Es; [inversion H; subst; exists 0; rewrite !Nat.add_0_r; auto|].
    destruct (cb _) in H.
    { inversion H; subst. exists 0. rewrite Nat.add_0_r. right. eauto 10. }
    destruct (exec E _ w) as [[[[[[pop fit] xb] fxb] par]|e] w1] eqn:Ex.
    2:{ inversion H; subst. exists 0. rewrite Nat.add_0_r. right. eauto 10. }
    assert (P1 : protocol_iters (S k0) (AfterIter fit xb fxb :: BeforeIter (r_fit s) (r_xb s) (r_fxb s) :: ev)).
    { simpl. eauto 12. }
    destruct (cb _) in H.
    { inversion H; subst. exists 1. rewrite Nat.add_1_r. left. exact P1. }
    destruct (IH _ _ _ (S k0) _ _ _ H P1) as [k Hk]. exists (S k).
    replace (k0 + S k) with (S k0 + k) by lia.
    destruct r; auto. destruct Hk as (A1 & A2 & A3). split; auto. split; auto.
    rewrite A2. simpl. rewrite (exec_iters _ _ _ _ _ _ Ex). lia.
Qed.

(** how many iterations can a run make when max_iters = m *)
Lemma loop_terminates : forall E A cb m n s w ev r w' ev',
  c_max_iters (e_cfg E) = LFin m -> Z.to_nat m <= n + t_iters (w_ts w) ->
  (forall pop fit xb fxb par w0 w1, exec E (a_iter A pop fit xb fxb par) w0 <> (Raise EFuel, w1)) ->
  (forall ev0, cb ev0 <> Some EFuel) ->
  loop E A cb n s w ev = (r, w', ev') -> r <> Raise EFuel.
Proof.
  intros E A cb m. induction n as [|n IH]; intros s w ev r w' ev' Hm Hn Hnf Hcb H; simpl in H.
  - assert (Hs : stopping_condition (e_cfg E) (w_ts w) = true).
    { unfold stopping_condition. rewrite Hm. simpl. assert ((m <=? Z.of_nat (t_iters (w_ts w)))%Z = true) as -> by (apply Z.leb_le; lia).
      rewrite orb_true_r. auto. }
    rewrite Hs in H. inversion H; congruence.
  - destruct (stopping_condition (e_cfg E) (w_ts w)) eqn:Es; [inversion H; congruence|].
    destruct (cb _) eqn:Ec in H. { inversion H; subst. intros Q. inversion Q; subst. eapply Hcb; eauto. }
    destruct (exec E _ w) as [[[[[[pop fit] xb] fxb] par]|e] w1] eqn:Ex.
    2:{ inversion H; subst. intros Q; inversion Q; subst. eapply Hnf; eauto. }
    destruct (cb _) eqn:Ec2 in H. { inversion H; subst. intros Q; inversion Q; subst. eapply Hcb; eauto. }
    eapply IH; eauto. simpl. rewrite (exec_iters _ _ _ _ _ _ Ex). lia.
Qed.

(** ** Generic soundness of invariants *)

Definition init_prog (A : algo) : prog (rstate A) :=
  let* (pop, fit, par) := a_init A in
  let* (xb, fxb) := lift (get_best (a_coords A pop) fit None PInf) in
  Done (RState pop fit xb fxb par).
Definition iter_prog {A} (s : rstate A) : prog (rstate A) :=
  let* (pop, fit, xb, fxb, par) := a_iter A (r_pop s) (r_fit s) (r_xb s) (r_fxb s) (r_par s) in
  Done (RState pop fit xb fxb par).

Record algo_ok (K : wctx) (A : algo) (Inv : rstate A -> elog -> Prop) : Prop := {
  ok_init : wp K (init_prog A) Inv [];
  ok_iter : forall s l, Inv s l -> wp K (iter_prog s) Inv l
}.

Lemma exec_bind : forall A B E (p : prog A) (f : A -> prog B) w,
  exec E (bind p f) w =
  match exec E p w with (Ret a, w') => exec E (f a) w' | (Raise e, w') => (Raise e, w') end.
Proof.
  induction p; simpl; intros f w; auto.
  destruct (task_eval (e_cfg E) (e_prob E) (w_h w) (w_ts w) x) as [[[v|e] t] h]; auto.
Qed.

Lemma loop_unfold : forall E A cb n s w ev,
  loop E A cb n s w ev =
  if stopping_condition (e_cfg E) (w_ts w) then (Ret (r_xb s, r_fxb s), w, ev) else
  match n with
  | O => (Raise EFuel, w, ev)
  | S n' =>
      let ev1 := BeforeIter (r_fit s) (r_xb s) (r_fxb s) :: ev in
      match cb ev1 with
      | Some e => (Raise e, w, ev1)
      | None =>
          match exec E (iter_prog s) w with
          | (Raise e, w1) => (Raise e, w1, ev1)
          | (Ret s', w1) =>
              let ev2 := AfterIter (r_fit s') (r_xb s') (r_fxb s') :: ev1 in
              match cb ev2 with
              | Some e => (Raise e, w1, ev2)
              | None => loop E A cb n' s' (World (next_iter (w_ts w1)) (w_h w1) (w_pos w1)) ev2
              end
          end
      end
  end.
Proof.
  intros. destruct n; simpl; auto. destruct (stopping_condition (e_cfg E) (w_ts w)); auto.
  destruct (cb _); auto. unfold iter_prog. rewrite exec_bind.
  destruct (exec E _ w) as [[[[[[pop fit] xb] fxb] par]|e] w1]; simpl; auto.
Qed.

Definition raised_ok (K : wctx) (cb : callback) (e : exn) (h : history) (ev : list event) : Prop :=
  K_exn K e \/ e = EFuel \/ (exists x, hd_error h = Some (x, Raise e)) \/ cb ev = Some e.

Lemma loop_inv_i : forall K E A (Inv : rstate A -> elog -> Prop) cb, env_ok K E -> (forall s l, Inv s l -> wp K (iter_prog s) Inv l) ->
  (* a property of the reported bests *)
  forall (R : num -> num -> Prop),
  (forall s l s' l', Inv s l -> Inv s' l' -> ext l l' -> R (r_fxb s') (r_fxb s)) ->
  (forall a b c, R a b -> R b c -> R a c) ->
  forall n s w ev r w' ev',
  Inv s (log_of (c_opt (e_cfg E)) (w_h w)) ->
  tinv (e_cfg E) (tw_of w) ->
  Forall (fun p => K_pre K (fst p)) (w_h w) ->
  StronglySorted R (reported ev) -> Forall (R (r_fxb s)) (reported ev) ->
  loop E A cb n s w ev = (r, w', ev') ->
  Forall (fun p => K_pre K (fst p)) (w_h w') /\ tinv (e_cfg E) (tw_of w') /\
  StronglySorted R (reported ev') /\
  match r with
  | Ret (x, f) => exists s', Inv s' (log_of (c_opt (e_cfg E)) (w_h w')) /\ x = r_xb s' /\ f = r_fxb s'
  | Raise e => raised_ok K cb e (w_h w') ev'
  end.
Proof.
  intros K E A Inv cb HE HA R HR HRt. induction n as [|n IH]; intros s w ev r w' ev' Hi Ht Hp Hs Hf H; rewrite loop_unfold in H.
  - destruct (stopping_condition (e_cfg E) (w_ts w)); inversion H; subst.
    + split; [auto|split; [auto|split; [auto|]]]. eauto.
    + split; [auto|split; [auto|split; [auto|]]]. right; left; auto.
  - destruct (stopping_condition (e_cfg E) (w_ts w)).
    { inversion H; subst. split; [auto|split; [auto|split; [auto|]]]. eauto. }
    cbv zeta in H. set (ev1 := BeforeIter (r_fit s) (r_xb s) (r_fxb s) :: ev) in *.
    assert (Hs1 : StronglySorted R (reported ev1)) by (simpl; constructor; auto).
    destruct (cb ev1) as [e|] eqn:Ec.
    { inversion H; subst. split; [auto|split; [auto|split; [auto|]]]. right; right; right; auto. }
    destruct (exec E (iter_prog s) w) as [o w1] eqn:Ex.
    destruct (wp_sound _ _ _ _ _ _ _ _ HE (HA _ _ Hi) Ex) as [(d & Hd & HF) G].
    assert (Ht1 := exec_tinv _ _ _ _ _ _ Ht Ex).
    assert (Hp1 : Forall (fun p => K_pre K (fst p)) (w_h w1)) by (rewrite Hd; apply Forall_app; auto).
    destruct o as [s'|e].
    2:{ inversion H; subst. split; [auto|split; [auto|split; [auto|]]].
        destruct G as [G|(x & h & G & _)]; [left; auto|]. right; right; left. rewrite G. simpl; eauto. }
    assert (He : ext (log_of (c_opt (e_cfg E)) (w_h w)) (log_of (c_opt (e_cfg E)) (w_h w1))).
    { rewrite Hd. unfold log_of. rewrite flat_map_app. eexists; reflexivity. }
    assert (Hr : R (r_fxb s') (r_fxb s)) by (eapply HR; eauto).
    set (ev2 := AfterIter (r_fit s') (r_xb s') (r_fxb s') :: ev1) in *.
    assert (Hf1 : Forall (R (r_fxb s')) (reported ev1)).
    { simpl. constructor; auto. eapply Forall_impl; [|exact Hf]. intros a Ha. eapply HRt; eauto. }
    assert (Hs2 : StronglySorted R (reported ev2)) by (simpl; constructor; auto).
    destruct (cb ev2) as [e|] eqn:Ec2.
    { inversion H; subst. split; [auto|split; [auto|split; [auto|]]]. right; right; right; auto. }
    eapply (IH s' (World (next_iter (w_ts w1)) (w_h w1) (w_pos w1)) ev2); eauto.
    + apply (tinv_next_iter (e_cfg E) (tw_of w1) Ht1).
    + simpl. constructor; auto. eapply HR; eauto.
Qed.
Lemma loop_inv : forall K E A Inv cb, env_ok K E -> algo_ok K A Inv ->
  (* a property of the reported bests *)
  forall (R : num -> num -> Prop),
  (forall s l s' l', Inv s l -> Inv s' l' -> ext l l' -> R (r_fxb s') (r_fxb s)) ->
  (forall a b c, R a b -> R b c -> R a c) ->
  forall n s w ev r w' ev',
  Inv s (log_of (c_opt (e_cfg E)) (w_h w)) ->
  tinv (e_cfg E) (tw_of w) ->
  Forall (fun p => K_pre K (fst p)) (w_h w) ->
  StronglySorted R (reported ev) -> Forall (R (r_fxb s)) (reported ev) ->
  loop E A cb n s w ev = (r, w', ev') ->
  Forall (fun p => K_pre K (fst p)) (w_h w') /\ tinv (e_cfg E) (tw_of w') /\
  StronglySorted R (reported ev') /\
  match r with
  | Ret (x, f) => exists s', Inv s' (log_of (c_opt (e_cfg E)) (w_h w')) /\ x = r_xb s' /\ f = r_fxb s'
  | Raise e => raised_ok K cb e (w_h w') ev'
  end.
Proof. intros K E A Inv cb HE HA. exact (loop_inv_i K E A Inv cb HE (ok_iter _ _ _ HA)). Qed.

Lemma run_body_unfold : forall E A cb n w,
  run_body E A cb n w =
  match cb [BeforeRun] with
  | Some e => (Raise e, w, [BeforeRun])
  | None =>
    match exec E (init_prog A) w with
    | (Raise e, w1) => (Raise e, w1, [BeforeRun])
    | (Ret s, w1) =>
      match loop E A cb n s w1 [BeforeRun] with
      | (Raise e, w2, ev) => (Raise e, w2, ev)
      | (Ret (x, f), w2, ev) =>
          match cb (AfterRun :: ev) with
          | Some e => (Raise e, w2, AfterRun :: ev)
          | None => (Ret (x, sgn (c_opt (e_cfg E)) f), w2, AfterRun :: ev)
          end
      end
    end
  end.
Proof.
  intros. unfold run_body. destruct (cb [BeforeRun]); auto. unfold init_prog. rewrite exec_bind.
  destruct (exec E (a_init A) w) as [[[[pop fit] par]|e] w1]; auto. rewrite exec_bind.
  destruct (get_best (a_coords A pop) fit None PInf) as [[xb fxb]|e]; simpl; auto.
Qed.

Lemma run_inv : forall K E A Inv cb n pos, env_ok K E -> algo_ok K A Inv ->
  forall (R : num -> num -> Prop),
  (forall s l s' l', Inv s l -> Inv s' l' -> ext l l' -> R (r_fxb s') (r_fxb s)) ->
  (forall a b c, R a b -> R b c -> R a c) ->
  forall r w' ev,
  run_body E A cb n (World (task_init (e_cfg E)) [] pos) = (r, w', ev) ->
  Forall (fun p => K_pre K (fst p)) (w_h w') /\ tinv (e_cfg E) (tw_of w') /\
  StronglySorted R (reported ev) /\
  match r with
  | Ret (x, v) => exists s, Inv s (log_of (c_opt (e_cfg E)) (w_h w')) /\ x = r_xb s /\ v = sgn (c_opt (e_cfg E)) (r_fxb s)
  | Raise e => raised_ok K cb e (w_h w') ev
  end.
Proof.
  intros K E A Inv cb n pos HE HA R HR HRt r w' ev H. rewrite run_body_unfold in H.
  assert (Ht0 : tinv (e_cfg E) (tw_of (World (task_init (e_cfg E)) [] pos))) by (apply tinv_init).
  destruct (cb [BeforeRun]) as [e|] eqn:Ec.
  { inversion H; subst. split; [constructor|split; [auto|split; [constructor|]]]. right; right; right; auto. }
  destruct (exec E (init_prog A) _) as [o w1] eqn:Ex.
  destruct (wp_sound _ _ _ _ _ (World (task_init (e_cfg E)) [] pos) _ _ HE (ok_init _ _ _ HA) Ex) as [(d & Hd & HF) G].
  assert (Ht1 := exec_tinv _ _ _ _ _ _ Ht0 Ex).
  simpl in Hd. rewrite app_nil_r in Hd.
  assert (Hp1 : Forall (fun p => K_pre K (fst p)) (w_h w1)) by (rewrite Hd; auto).
  destruct o as [s|e].
  2:{ inversion H; subst. split; [auto|split; [auto|split; [constructor|]]].
      destruct G as [G|(x & h & G & _)]; [left; auto|]. right; right; left. rewrite G. simpl; eauto. }
  destruct (loop E A cb n s w1 [BeforeRun]) as [[o2 w2] ev2] eqn:El.
  assert (L := loop_inv K E A Inv cb HE HA R HR HRt n s w1 [BeforeRun] o2 w2 ev2 G Ht1 Hp1 (SSorted_nil _) (Forall_nil _) El).
  destruct L as (L1 & L2 & L3 & L4).
  destruct o2 as [[x f]|e].
  - destruct (cb (AfterRun :: ev2)) as [e|] eqn:Ec3; inversion H; subst.
    + split; [auto|split; [auto|split; [auto|]]]. right; right; right; auto.
    + split; [auto|split; [auto|split; [auto|]]]. destruct L4 as (s' & A1 & -> & ->). eauto.
  - inversion H; subst. auto.
Qed.
