(** Convergence data, duality, cutoff. *)
From Coq Require Import ZArith Lia Bool List Sorted.
From Verif Require Import Num Task TaskSpec TaskProofs.
Import ListNotations.

(** * convergence_data('evals') *)

Lemma last_improvement_cons : forall n ns f fs e y,
  (forall m, In m ns -> n < m) ->
  (exists m, In m ns /\ m <= e) ->
  last_improvement ns fs e y -> last_improvement (n :: ns) (f :: fs) e y.
Proof.
  intros n ns f fs e y Hlt Hex (i & k & H1 & H2 & H3 & H4).
  exists (S i), k. simpl. repeat split; auto.
  intros [|i'] n' Hn' Hle; [lia|]. simpl in Hn'. apply H4 in Hn'; auto. lia.
Qed.

Lemma last_improvement_head : forall n ns f fs e, n <= e ->
  (forall m, In m ns -> e < m) -> last_improvement (n :: ns) (f :: fs) e f.
Proof.
  intros n ns f fs e H1 H2. exists 0, n. simpl. repeat split; auto.
  intros [|i'] n' Hn' Hle; auto. simpl in Hn'. apply nth_error_In in Hn'. apply H2 in Hn'. lia.
Qed.

Definition conv_good (ns : list nat) (fs : list num) (r1 : list nat) (r2 : list num) : Prop :=
  length r1 = length r2 /\
  (forall first, hd_error ns = Some first ->
     r1 = seq first (S (last ns 0 - first))) /\
  (ns = [] -> r1 = []) /\
  (forall k e y, nth_error r1 k = Some e -> nth_error r2 k = Some y -> last_improvement ns fs e y).

Lemma nth_error_repeat_in : forall A (a : A) n k y, nth_error (repeat a n) k = Some y -> y = a.
Proof. intros. apply nth_error_In in H. apply repeat_spec in H. auto. Qed.

Lemma nth_error_seq : forall len s k e, nth_error (seq s len) k = Some e -> e = s + k /\ k < len.
Proof.
  induction len; simpl; intros s [|k] e H; try discriminate.
  - inversion H; subst; lia.
  - apply IHlen in H. lia.
Qed.

Lemma last_ge : forall ns v d, StronglySorted lt (v :: ns) -> v <= last (v :: ns) d.
Proof.
  induction ns; intros v d H; simpl; auto.
  inversion H; subst. inversion H3; subst. specialize (IHns a d H2). simpl in IHns. lia.
Qed.

Lemma conv_evals_ok : forall ns fs, StronglySorted lt ns -> length ns = length fs ->
  exists r1 r2, conv_evals ns fs = Some (r1, r2) /\ conv_good ns fs r1 r2.
Proof.
  induction ns as [|v ns IH]; intros fs Hs Hl.
  - exists [], []. simpl. split; auto. split; [|split; [|split]]; auto; simpl; try discriminate.
    intros [|k] e y H; simpl in H; discriminate.
  - destruct fs as [|f fs]; simpl in Hl; try discriminate.
    inversion Hs as [|? ? Hs' Hf]; subst. rewrite Forall_forall in Hf.
    destruct ns as [|v' ns'].
    + simpl. exists [v], [f]. split; auto. unfold conv_good. split; [|split; [|split]]; simpl; auto.
      * intros first H. inversion H; subst. rewrite Nat.sub_diag. reflexivity.
      * intros [|[|k]] e y H1 H2; simpl in *; try discriminate. inversion H1; inversion H2; subst.
        apply last_improvement_head; auto.
    + assert (Hl' : length (v' :: ns') = length fs) by lia.
      destruct (IH fs Hs' Hl') as (r1 & r2 & E & G1 & G2 & _ & G4).
      assert (Hvv : v < v') by (apply Hf; simpl; auto).
      exists (v :: seq (S v) (v' - v - 1) ++ r1), (f :: repeat f (v' - v - 1) ++ r2).
      split. { simpl in E |- *. rewrite E. reflexivity. }
      assert (R1 := G2 v' eq_refl).
      split; [|split; [|split]].
      * simpl. rewrite !app_length, seq_length, repeat_length. lia.
      * intros first H. simpl in H. inversion H; subst first. clear H.
        rewrite R1. change (last (v :: v' :: ns') 0) with (last (v' :: ns') 0).
        assert (v' <= last (v' :: ns') 0) by (apply last_ge; auto).
        set (L := last (v' :: ns') 0) in *.
        replace (S (L - v)) with (S ((v' - v - 1) + (S (L - v')))) by lia.
        cbn [seq]. f_equal. rewrite seq_app. replace (S v + (v' - v - 1)) with v' by lia. reflexivity.
      * discriminate.
      * intros k e y H1 H2. destruct k as [|k].
        -- simpl in H1, H2. inversion H1; inversion H2; subst. apply last_improvement_head; auto.
        -- simpl in H1, H2. destruct (Nat.lt_ge_cases k (v' - v - 1)).
           ++ rewrite nth_error_app1 in H1 by (rewrite seq_length; auto).
              rewrite nth_error_app1 in H2 by (rewrite repeat_length; auto).
              apply nth_error_seq in H1. apply nth_error_repeat_in in H2. subst y.
              apply last_improvement_head. lia.
              intros m [->|Hm]. lia. inversion Hs' as [|? ? _ Hq]; subst. rewrite Forall_forall in Hq. apply Hq in Hm. lia.
           ++ rewrite nth_error_app2 in H1 by (rewrite seq_length; auto).
              rewrite nth_error_app2 in H2 by (rewrite repeat_length; auto).
              rewrite seq_length in H1. rewrite repeat_length in H2.
              apply last_improvement_cons; auto.
              ** exists v'. split; [simpl; auto|]. rewrite R1 in H1. apply nth_error_seq in H1. lia.
              ** eapply G4; eauto.
Qed.

Lemma Forall2_len : forall A B (R : A -> B -> Prop) l l', Forall2 R l l' -> length l = length l'.
Proof. induction 1; simpl; auto. Qed.

Lemma last_fs : forall ns fs r1 r2 l z, StronglySorted lt ns -> length ns = length fs ->
  conv_evals ns fs = Some (r1, r2) -> fs = l ++ [z] -> exists l', r2 = l' ++ [z].
Proof.
  induction ns as [|v ns IH]; intros fs r1 r2 l z Hs Hl E Hz.
  - destruct fs; simpl in Hl; try discriminate. destruct l; discriminate.
  - destruct fs as [|f fs]; simpl in Hl; try discriminate.
    inversion Hs; subst. destruct ns as [|v' ns'].
    + destruct fs; simpl in Hl; try discriminate. simpl in E. inversion E; subst.
      destruct l as [|? [|]]; simpl in Hz; inversion Hz; subst. exists []; auto.
    + simpl in E. destruct fs as [|f' fs]; [simpl in Hl; discriminate|].
      destruct l as [|f0 l]; simpl in Hz; [inversion Hz|]. inversion Hz; subst f0.
      destruct (conv_evals (v' :: ns') (f' :: fs)) as [[q1 q2]|] eqn:E2; simpl in E, E2; rewrite E2 in E; inversion E; subst; clear E.
      destruct (IH (f' :: fs) q1 q2 l z) as [l' ->]; auto.
      exists (f :: repeat f (v' - v - 1) ++ l'). simpl. rewrite app_assoc. auto.
Qed.

(** * Duality *)

Definition neg_state (t : tstate) : tstate :=
  TS (t_evals t) (t_iters t) (fneg (t_xf t)) (t_n_evals t) (t_fitness_evals t) (map fneg (t_fitness_iters t)).
Definition neg_world (w : tworld) : tworld := TW (neg_state (tw_ts w)) (neg_history (tw_h w)).

Definition flip (o : opt) : opt :=
  match o with Minimization => Maximization | Maximization => Minimization end.
Lemma sgn_flip : forall o v, sgn (flip o) (fneg v) = sgn o v.
Proof. destruct o; simpl; auto using fneg_invol. Qed.
Lemma sgn_flip' : forall o v, sgn (flip o) v = fneg (sgn o v).
Proof. destruct o; simpl; auto. intros; rewrite fneg_invol; auto. Qed.

Lemma dual_opt : forall C, c_opt (dual_cfg C) = flip (c_opt C).
Proof. reflexivity. Qed.

Lemma stop_dual : forall C t, stopping_condition (dual_cfg C) (neg_state t) = stopping_condition C t.
Proof.
  intros. unfold stopping_condition. simpl. fold (flip (c_opt C)). rewrite !sgn_flip. auto.
Qed.

Lemma neg_outcome_invol : forall r, neg_outcome (neg_outcome r) = r.
Proof. destruct r; simpl; auto. rewrite fneg_invol; auto. Qed.
Lemma neg_history_invol : forall h, neg_history (neg_history h) = h.
Proof.
  unfold neg_history. intros. rewrite map_map. rewrite <- map_id. apply map_ext.
  intros [x r]; simpl. rewrite neg_outcome_invol; auto.
Qed.

Lemma eval_dual : forall C P t h x,
  task_eval (dual_cfg C) (neg_problem P) (neg_history h) (neg_state t) x =
  match task_eval C P h t x with (o, t', h') => (o, neg_state t', neg_history h') end.
Proof.
  intros. unfold task_eval. rewrite stop_dual. destruct (stopping_condition C t); auto.
  unfold neg_problem. rewrite neg_history_invol. destruct (P h x) as [v|e]; simpl; auto.
  fold (flip (c_opt C)). rewrite !sgn_flip. destruct (fltb (sgn (c_opt C) v) (sgn (c_opt C) (t_xf t))); simpl.
  - f_equal. f_equal. unfold neg_state; simpl. f_equal. rewrite sgn_flip'. auto.
  - reflexivity.
Qed.

Lemma call_dual : forall C P w c,
  do_call (dual_cfg C) (neg_problem P) (neg_world w) c =
  (fst (do_call C P w c), neg_world (snd (do_call C P w c))).
Proof.
  intros C P [t h] [x| | |]; simpl.
  - rewrite eval_dual. destruct (task_eval C P h t x) as [[o t'] h']; auto.
  - unfold neg_world, neg_state, next_iter; simpl. rewrite map_app. auto.
  - rewrite stop_dual. unfold neg_world, neg_state, next_iter; simpl. rewrite map_app. auto.
  - rewrite stop_dual. auto.
Qed.

Lemma calls_dual : forall C P cs w,
  do_calls (dual_cfg C) (neg_problem P) (neg_world w) cs =
  (fst (do_calls C P w cs), neg_world (snd (do_calls C P w cs))).
Proof.
  induction cs; simpl; intros w; auto. rewrite call_dual.
  destruct (do_call C P w a) as [r w']; simpl. rewrite IHcs. destruct (do_calls C P w' cs); auto.
Qed.

Lemma init_dual : forall C, neg_world (tw_init C) = tw_init (dual_cfg C).
Proof. intros. unfold tw_init, neg_world, neg_state, task_init; simpl. destruct (c_opt C); reflexivity. Qed.

(** * Cutoff *)

Lemma reaches_sgn : forall o v c, fleb (sgn o v) (sgn o c) = reaches o v c.
Proof. destruct o; simpl; auto using fleb_fneg. Qed.

Lemma reaches_best : forall o vals b c, best_of o vals b -> reaches o b c = true ->
  reaches o (worst o) c = true \/ exists v, In v vals /\ reaches o v c = true.
Proof. intros o vals b c (H1 & [->|H2] & H3) H; eauto. Qed.

Lemma best_reaches : forall o vals b c v, best_of o vals b -> In v vals -> reaches o v c = true -> reaches o b c = true.
Proof.
  intros o vals b c v (H1 & H2 & H3) Hin H. apply H3 in Hin. destruct o; simpl in *.
  - assert (fleb b v = true) by (apply fltb_false_fleb; eauto using fleb_nan_l). eauto using fleb_trans.
  - assert (fleb v b = true) by (apply fltb_false_fleb; eauto using fleb_nan_r). eauto using fleb_trans.
Qed.

(** all invocations except the newest missed the cutoff *)
Definition older_miss (C : cfg) (h : history) : Prop :=
  match h with [] => True
  | _ :: h' => forall v, In v (returned h') -> reaches (c_opt C) v (c_cutoff C) = false end.

Lemma older_miss_eval : forall C P w x o t h, tinv C w -> older_miss C (tw_h w) ->
  task_eval C P (tw_h w) (tw_ts w) x = (o, t, h) -> older_miss C h.
Proof.
  intros C P [t0 h0] x o t h I M E. unfold task_eval in E. simpl in *.
  destruct (stopping_condition C t0) eqn:Hs. { inversion E; subst; auto. }
  assert (forall v, In v (returned h0) -> reaches (c_opt C) v (c_cutoff C) = false).
  { intros v Hv. unfold stopping_condition in Hs. apply orb_false_iff in Hs. destruct Hs as [_ Hs].
    rewrite reaches_sgn in Hs. destruct (reaches (c_opt C) v (c_cutoff C)) eqn:Hr; auto.
    assert (Hq := best_reaches _ _ _ _ _ (ti_best _ _ I) Hv Hr). simpl in Hq. congruence. }
  destruct (P h0 x); inversion E; subst; simpl; auto.
Qed.

Lemma older_miss_calls : forall C P cs w, tinv C w -> older_miss C (tw_h w) ->
  older_miss C (tw_h (snd (do_calls C P w cs))).
Proof.
  induction cs; simpl; intros w I M; auto.
  destruct (do_call C P w a) as [r w'] eqn:E. destruct (do_calls C P w' cs) as [l w''] eqn:E2. simpl.
  replace w'' with (snd (do_calls C P w' cs)) by (rewrite E2; auto). apply IHcs.
  - replace w' with (snd (do_call C P w a)) by (rewrite E; auto). apply tinv_call; auto.
  - destruct a; simpl in E; try (inversion E; subst; simpl; auto; fail).
    destruct (task_eval C P (tw_h w) (tw_ts w) x) as [[o t] h] eqn:E3. inversion E; subst.
    simpl. eapply older_miss_eval; eauto.
Qed.

Lemma best_of_unique : forall o vals a b, best_of o vals a -> best_of o vals b -> a = b.
Proof.
  intros o vals a b (Ha & Ia & La) (Hb & Ib & Lb).
  destruct Ia as [->|Ia], Ib as [->|Ib]; auto.
  - specialize (La _ Ib). destruct o, b; simpl in *; congruence.
  - specialize (Lb _ Ia). destruct o, a; simpl in *; congruence.
  - specialize (La _ Ib). specialize (Lb _ Ia).
    destruct o, a, b; simpl in *; try congruence; apply Z.ltb_ge in La; apply Z.ltb_ge in Lb; f_equal; lia.
Qed.
