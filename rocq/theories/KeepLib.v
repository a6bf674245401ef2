(** Repairs that leave components within the bounds alone, and run theorems for contexts that know more about repairs. *)
From Coq Require Import ZArith Lia Bool List.
From Verif Require Import Num Task TaskSpec TaskProofs TaskProofs2 Prog Wp GetBest Run RunSpec RunProofs RunProofs2 AlgoLib Fops AlgTac StepSpec StepLib Reach.
Import ListNotations.

(** a component of [x] within its bounds (or NaN) is the same in [y] *)
Definition keeps (C : cfg) (x y : vec) : Prop := forall i a l u,
  nth_error x i = Some a -> nth_error (c_lower C) i = Some l -> nth_error (c_upper C) i = Some u -> in_range l u a -> nth_error y i = Some a.
(** what [limit], [limit_inverse], [wang], [rand] and [reflect] of util/repair.py do *)
Definition repair_keeps (E : env) : Prop := forall p x, length x = c_dim (e_cfg E) -> keeps (e_cfg E) x (e_rep E p x).

(** a context that knows less *)
Lemma wp_ctx : forall A K K' (p : prog A) Q l,
  (forall x, K_pre K x -> K_pre K' x) -> (forall x y, K_rep K' x y -> K_rep K x y) -> (forall x v, K_val K' x v -> K_val K x v) ->
  (K_ref K' = true -> K_ref K = true) -> (forall e, K_exn K e -> K_exn K' e) -> wp K p Q l -> wp K' p Q l.
Proof.
  intros A K K' p Q l H1 H2 H3 H4 H5. revert Q l. induction p as [a|e|x k IH|x k IH|lo hi k IH|k IH|n k IH|k IH]; intros Q l H; cbn [wp] in *; auto.
  destruct H as (G1 & G2 & G3). split; [auto|]. split; [auto|]. destruct (K_ref K'); auto. rewrite H4 in G3 by auto. auto.
Qed.
(** programs do not see the log *)
Lemma wp_shift : forall A K (p : prog A) Q d l, wp K p Q d -> wp K p (fun a l' => exists d', l' = d' ++ l /\ Q a d') (d ++ l).
Proof.
  intros A K p Q d l. revert Q d. induction p as [a|e|x k IH|x k IH|lo hi k IH|k IH|n k IH|k IH]; intros Q d H; cbn [wp] in *; eauto.
  destruct H as (G1 & G2 & G3). split; [auto|]. split; [|destruct (K_ref K); auto]. intros v Hv. apply (IH v Q ((x, v) :: d)). auto.
Qed.

(** the context [KPX] with the knowledge [R] about repairs *)
Definition KRX (C : cfg) (R : vec -> vec -> Prop) (P : vec -> Prop) (X : exn -> Prop) : wctx :=
  WCtx P (fun x y => (length x = c_dim C -> inside C y) /\ R x y) (fun v => v <> NaN) (fun e => e = EFuel \/ X e).
Lemma wp_KPX : forall A C R P X (p : prog A) Q l, wp (KPX C P X) p Q l -> wp (KRX C R P X) p Q l.
Proof. intros A C R P X p Q l. apply wp_ctx; simpl; auto. tauto. Qed.
Lemma env_ok_KR : forall (R : vec -> vec -> Prop) P X E, no_nan (e_prob E) -> repair_ok E -> (forall p x, R x (e_rep E p x)) -> env_ok (KRX (e_cfg E) R P X) E.
Proof.
  intros R P X E Hn Hr HR. split; [|split; [|reflexivity]].
  - intros p x. split; [apply Hr|apply HR].
  - intros h x v H. simpl. intros Q. apply (proj1 (sgn_nan _ _)) in Q. eapply Hn; eauto.
Qed.

Section Runs.
Variables (R : vec -> vec -> Prop) (P : vec -> Prop) (X : exn -> Prop) (E : env) (A : algo).
Variable I : a_pop A -> list num -> vec -> num -> a_par A -> elog -> Prop.
Hypothesis Hn : no_nan (e_prob E).
Hypothesis Hr : repair_ok E.
Hypothesis HR : forall p x, R x (e_rep E p x).
Let K := KRX (e_cfg E) R P X.
Hypothesis H1 : init_c K A I.
Theorem best_run_kr : iter_c K A I ->
  (forall pop fit xb fxb par l, I pop fit xb fxb par l -> length xb = c_dim (e_cfg E) /\ Good l xb fxb) -> best_run_p P X E A.
Proof.
  intros H2 HI cb n pos r w' ev H. assert (HA := algo_ok_c _ _ _ H1 H2).
  destruct (run_inv _ _ _ _ cb n pos (env_ok_KR R P X E Hn Hr HR) HA (fun a b => fleb a b = true)) with (r := r) (w' := w') (ev := ev)
    as (P1 & P2 & P3 & P4); auto.
  - intros s l s' l' I1 I2 He. destruct (HI _ _ _ _ _ _ I1) as (_ & (S1 & L1 & N1)). destruct (HI _ _ _ _ _ _ I2) as (_ & (S2 & L2 & N2)).
    destruct S1 as [->|S1]; [apply fleb_PInf; auto|]. eapply L2. eapply ext_In; eauto.
  - intros a b c. apply fleb_trans.
  - split; [|split; auto].
    + intros p Hp. rewrite Forall_forall in P1. apply P1; auto.
    + destruct r as [[x v]|e].
      * destruct P4 as (s & I1 & -> & ->). destruct (HI _ _ _ _ _ _ I1) as (Hl & G).
        destruct (Good_best_of _ _ _ _ G) as [B1 B2]. split; auto. split; auto.
        eapply best_of_unique; eauto. apply P2.
      * destruct P4 as [[P4|P4]|[P4|[P4|P4]]]; auto.
Qed.
Theorem sizes_kr : forall N : nat -> Prop, iter_c K A I ->
  (forall pop fit xb fxb par l, I pop fit xb fxb par l -> N (length fit)) -> sizes_ok N E A.
Proof.
  intros N H2 HI cb k pos r w' ev H. eapply (run_reported K); eauto.
  - apply env_ok_KR; auto.
  - apply algo_ok_c; eauto.
  - intros s l Hs. eapply HI; eauto.
Qed.
Theorem steps_kr : forall Rl, iter_r K A I Rl -> steps_ok Rl E A.
Proof. intros Rl H2. eapply (run_steps K); [apply env_ok_KR; auto|apply init_c_prog; eauto|]. apply iter_r_rel; auto. Qed.
Theorem reach_kr : iter_c K A I -> forall s w, reached E A s w -> I (r_pop s) (r_fit s) (r_xb s) (r_fxb s) (r_par s) (log_of (c_opt (e_cfg E)) (w_h w)).
Proof. intros H2 s w H. exact (reach_inv K E A (Inv_of A I) (env_ok_KR _ _ _ _ Hn Hr HR) (algo_ok_c _ _ _ H1 H2) s w H). Qed.
End Runs.

Lemma w_eval_r : forall C R (P : vec -> Prop) X x (Q : num -> elog -> Prop) l, P x -> (forall v l', Evald x v l l' -> Q v l') -> wp (KRX C R P X) (eval x) Q l.
Proof. intros. apply wp_KPX. apply w_eval; auto. Qed.
Lemma w_eval_all_r : forall C R (P : vec -> Prop) X pop (Q : list num -> elog -> Prop) l, pop <> [] -> Forall P pop ->
  (forall fs l', Evals pop fs l l' -> Q fs l') -> wp (KRX C R P X) (eval_all pop) Q l.
Proof. intros. apply wp_KPX. apply w_eval_all; auto. Qed.
Lemma w_repair_r : forall C (R : vec -> vec -> Prop) (P : vec -> Prop) X x (Q : vec -> elog -> Prop) l, length x = c_dim C ->
  (forall y, inside C y -> R x y -> Q y l) -> wp (KRX C R P X) (repair x) Q l.
Proof. intros C R P X x Q l Hx H. simpl. intros y [H1 H2]. apply H; auto. Qed.
Lemma w_repair_all_r : forall C R (P : vec -> Prop) X pop (Q : list vec -> elog -> Prop) l, pop <> [] -> Forall (fun x => length x = c_dim C) pop ->
  (forall ys, length ys = length pop -> Forall (inside C) ys -> Q ys l) -> wp (KRX C R P X) (repair_all pop) Q l.
Proof. intros. apply wp_KPX. apply w_repair_all; auto. Qed.

(** ** A moved component put back *)
Lemma inside_nth : forall C x i a l u, cfg_ok C -> inside C x -> nth_error x i = Some a -> nth_error (c_lower C) i = Some l -> nth_error (c_upper C) i = Some u -> in_range l u a.
Proof.
  intros C x i a l u HC H E1 E2 E3. assert (Q : nth_error (combine (c_lower C) (c_upper C)) i = Some (l, u)).
  { revert E2 E3. generalize (c_lower C) (c_upper C). clear. intros xs. revert i. induction xs as [|b xs IH]; intros [|i] [|c ys] E2 E3; simpl in *; try discriminate; [congruence|]. apply (IH i ys); auto. }
  exact (Forall2_nth _ _ _ _ _ i _ _ H Q E1).
Qed.
Lemma nth_error_ext_eq : forall A (xs ys : list A), (forall i, nth_error xs i = nth_error ys i) -> xs = ys.
Proof.
  intros A xs. induction xs as [|x xs IH]; intros [|y ys] H; auto; try (specialize (H 0); discriminate).
  assert (H0 := H 0). injection H0 as ->. f_equal. apply IH. intros i. exact (H (S i)).
Qed.
(** [x] inside the bounds, component i replaced, repaired, and component i put back: x again *)
Lemma put_back : forall C x i a c y, cfg_ok C -> inside C x -> nth_error x i = Some a -> inside C y -> keeps C (upd x i c) y -> upd y i a = x.
Proof.
  intros C x i a c y HC Hx Hi Hy Hk. assert (Lx := inside_len _ _ HC Hx). assert (Ly := inside_len _ _ HC Hy).
  assert (Li : i < length x) by (apply nth_error_Some; congruence).
  apply nth_error_ext_eq. intros j. destruct (Nat.eq_dec i j) as [<-|Hj].
  - rewrite nth_upd_same by lia. congruence.
  - rewrite nth_upd_other by auto. destruct (nth_error x j) as [b|] eqn:Ej.
    + destruct HC as (L1 & L2 & L3). assert (Lj : j < length x) by (apply nth_error_Some; congruence).
      destruct (nth_error (c_lower C) j) as [l|] eqn:El; [|apply nth_error_None in El; lia].
      destruct (nth_error (c_upper C) j) as [u|] eqn:Eu; [|apply nth_error_None in Eu; lia].
      apply (Hk j b l u); [rewrite nth_upd_other; auto|exact El|exact Eu|]. exact (inside_nth C x j b l u (conj L1 (conj L2 L3)) Hx Ej El Eu).
    + apply nth_error_None in Ej. apply nth_error_None. lia.
Qed.
Lemma inside_upd : forall C x y i a, cfg_ok C -> inside C y -> inside C x -> nth_error x i = Some a -> inside C (upd y i a).
Proof.
  intros C x y i a HC Hy Hx Hi. unfold inside in *. revert i Hi. assert (L := eq_trans (eq_sym (Forall2_len _ _ _ _ _ Hy)) (Forall2_len _ _ _ _ _ Hx)).
  revert L Hy Hx. generalize (combine (c_lower C) (c_upper C)) as bs. clear. intros bs. revert x y.
  induction bs as [|b bs IH]; intros x y L Hy Hx i Hi; inversion Hx; inversion Hy; subst; [destruct i; discriminate|].
  destruct i as [|i]; simpl in *.
  - injection Hi as <-. constructor; auto.
  - constructor; auto. match goal with Hx' : Forall2 _ bs ?x', Hy' : Forall2 _ bs ?y', Hi' : nth_error ?x' i = _ |- _ => apply (IH x' y'); auto end.
Qed.
