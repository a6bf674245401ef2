(** Proofs about Task.v. *)
From Coq Require Import ZArith Lia Bool List Sorted.
From Verif Require Import Num Task TaskSpec.
Import ListNotations.

Lemma sgn_invol : forall o v, sgn o (sgn o v) = v.
Proof. destruct o; simpl; auto using fneg_invol. Qed.
Lemma sgn_nan : forall o v, sgn o v = NaN <-> v = NaN.
Proof. destruct o; simpl; intros; [tauto | apply fneg_NaN]. Qed.
Lemma fltb_sgn : forall o a b, fltb (sgn o a) (sgn o b) = better o a b.
Proof. destruct o; simpl; intros; auto using fltb_fneg. Qed.
Lemma fltb_sgn_l : forall o a b, fltb a (sgn o b) = better o (sgn o a) b.
Proof. intros. rewrite <- (sgn_invol o a) at 1. apply fltb_sgn. Qed.
Lemma sgn_worst : forall o, sgn o PInf = worst o.
Proof. destruct o; reflexivity. Qed.
Lemma better_trans : forall o a b c, better o a b = true -> better o b c = true -> better o a c = true.
Proof. destruct o; simpl; intros; eauto using fltb_trans. Qed.
Lemma better_irrefl : forall o a, better o a a = false.
Proof. destruct o; simpl; intros; apply fltb_irrefl. Qed.
Lemma better_nan_l : forall o a b, better o a b = true -> a <> NaN.
Proof. destruct o; simpl; intros; eauto using fltb_nan_l, fltb_nan_r. Qed.
Lemma better_nan_r : forall o a b, better o a b = true -> b <> NaN.
Proof. destruct o; simpl; intros; eauto using fltb_nan_l, fltb_nan_r. Qed.
Lemma better_false_trans : forall o a b c, a <> NaN -> b <> NaN -> c <> NaN ->
  better o a b = false -> better o b c = false -> better o a c = false.
Proof.
  destruct o; simpl; intros a b c Ha Hb Hc H1 H2.
  - apply fleb_fltb_false. apply fltb_false_fleb in H1; auto. apply fltb_false_fleb in H2; auto.
    eauto using fleb_trans.
  - apply fleb_fltb_false. apply fltb_false_fleb in H1; auto. apply fltb_false_fleb in H2; auto.
    eauto using fleb_trans.
Qed.
(* a not better than b, c better than b... : if v better than b and u not better than b, v better than u *)
Lemma better_not_better : forall o v b u, better o v b = true -> u <> NaN -> better o u b = false -> better o v u = true.
Proof.
  destruct o; simpl; intros v b u H Hu H1.
  - assert (fleb b u = true) by (apply fltb_false_fleb; eauto using fltb_nan_r).
    eauto using fltb_fleb_trans.
  - assert (fleb u b = true) by (apply fltb_false_fleb; eauto using fltb_nan_l).
    eauto using fleb_fltb_trans.
Qed.
Lemma better_worst_not_nan : forall o v, v <> NaN -> better o (worst o) v = false.
Proof. destruct o, v; simpl; auto. Qed.

Lemma invocation_cons_lt : forall h p i, i <= length h -> invocation (p :: h) i = invocation h i.
Proof.
  intros h p [|k] Hi; simpl; auto. rewrite nth_error_app1; auto. rewrite rev_length; lia.
Qed.
Lemma invocation_cons_new : forall h p, invocation (p :: h) (S (length h)) = Some p.
Proof.
  intros. simpl. rewrite nth_error_app2; rewrite rev_length; auto. rewrite Nat.sub_diag; reflexivity.
Qed.
Lemma invocation_range : forall h i p, invocation h i = Some p -> 1 <= i <= length h.
Proof.
  intros h [|k] p H; simpl in H; try discriminate.
  assert (nth_error (rev h) k <> None) by congruence. apply nth_error_Some in H0. rewrite rev_length in H0; lia.
Qed.
Lemma invocation_In : forall h i p, invocation h i = Some p -> In p h.
Proof. intros h [|k] p H; simpl in H; try discriminate. apply nth_error_In in H. apply in_rev; auto. Qed.
Lemma In_returned : forall h x v, In (x, Ret v) h -> In v (returned h).
Proof. intros. unfold returned. apply in_flat_map. exists (x, Ret v); simpl; auto. Qed.
Lemma returned_In : forall h v, In v (returned h) -> exists x, In (x, Ret v) h.
Proof.
  intros h v H. unfold returned in H. apply in_flat_map in H. destruct H as [[x [u|e]] [H1 H2]]; simpl in H2.
  - destruct H2 as [->|[]]. eauto.
  - contradiction.
Qed.

Definition fi_ok (o : opt) (h : history) (f : num) : Prop :=
  exists h1 h2, h = h1 ++ h2 /\ best_of o (returned h2) f.

(** The invariant of every reachable task. *)
Record tinv (C : cfg) (w : tworld) : Prop := TInv {
  ti_evals : t_evals (tw_ts w) = length (tw_h w);
  ti_within : within (length (tw_h w)) (c_max_evals C);
  ti_best : best_of (c_opt C) (returned (tw_h w)) (t_xf (tw_ts w));
  ti_rec : forall i, In i (t_n_evals (tw_ts w)) <-> is_record (c_opt C) (tw_h w) i;
  ti_sorted : StronglySorted lt (t_n_evals (tw_ts w));
  ti_fe : Forall2 (fun i f => exists x v, invocation (tw_h w) i = Some (x, Ret v) /\ f = sgn (c_opt C) v)
            (t_n_evals (tw_ts w)) (t_fitness_evals (tw_ts w));
  ti_fsorted : StronglySorted (fun a b => fltb b a = true) (t_fitness_evals (tw_ts w));
  ti_last : (t_fitness_evals (tw_ts w) = [] /\ t_xf (tw_ts w) = worst (c_opt C)) \/
     exists l, t_fitness_evals (tw_ts w) = l ++ [sgn (c_opt C) (t_xf (tw_ts w))];
  ti_iters : length (t_fitness_iters (tw_ts w)) = t_iters (tw_ts w);
  ti_fi : Forall (fun f => fi_ok (c_opt C) (tw_h w) f) (t_fitness_iters (tw_ts w));
  ti_fisorted : StronglySorted (fun a b => better (c_opt C) a b = false) (t_fitness_iters (tw_ts w));
  ti_fixf : Forall (fun a => better (c_opt C) a (t_xf (tw_ts w)) = false) (t_fitness_iters (tw_ts w))
}.

Lemma StronglySorted_snoc : forall A (R : A -> A -> Prop) l a,
  StronglySorted R l -> Forall (fun b => R b a) l -> StronglySorted R (l ++ [a]).
Proof.
  induction l; simpl; intros b H1 H2.
  - repeat constructor.
  - inversion H1; subst. inversion H2; subst. constructor; auto.
    apply Forall_app; split; auto.
Qed.

Lemma StronglySorted_last : forall A (R : A -> A -> Prop) l a,
  StronglySorted R (l ++ [a]) -> Forall (fun b => R b a) l.
Proof.
  induction l; simpl; intros b H; constructor; inversion H; subst; auto.
  apply Forall_app in H3. destruct H3 as [_ H3]. inversion H3; auto.
Qed.

Lemma tinv_init : forall C, tinv C (tw_init C).
Proof.
  intros C. constructor; simpl; try rewrite sgn_worst; try (constructor; fail); auto.
  - destruct (c_max_evals C); simpl; auto; lia.
  - split; [destruct (c_opt C); simpl; congruence|]. split; auto. intros v [].
  - split; [intros [] | intros (x & v & H & _)]. destruct i as [|[|i]]; simpl in H; discriminate.
Qed.

Lemma is_record_cons : forall o h p i, i <= length h -> (is_record o (p :: h) i <-> is_record o h i).
Proof.
  intros o h p i Hi. unfold is_record. split; intros (x & v & H1 & H2 & H3); exists x, v.
  - rewrite invocation_cons_lt in H1 by auto. repeat split; auto. intros j y u Hj Hju.
    apply (H3 j y u Hj). rewrite invocation_cons_lt; auto. lia.
  - rewrite invocation_cons_lt by auto. repeat split; auto. intros j y u Hj Hju.
    apply (H3 j y u Hj). rewrite invocation_cons_lt in Hju; auto. lia.
Qed.
Lemma is_record_range : forall o h i, is_record o h i -> 1 <= i <= length h.
Proof. intros o h i (x & v & H & _). eapply invocation_range; eauto. Qed.

Lemma fi_ok_cons : forall o h p f, fi_ok o h f -> fi_ok o (p :: h) f.
Proof. intros o h p f (h1 & h2 & -> & H). exists (p :: h1), h2. auto. Qed.

Lemma lim_within : forall n l, within n l -> lim_reached n l = false -> within (S n) l.
Proof. destruct l; simpl; auto. intros H1 H2. apply Z.leb_gt in H2. lia. Qed.

Lemma is_record_new : forall C h x v b, best_of (c_opt C) (returned h) b ->
  (is_record (c_opt C) ((x, Ret v) :: h) (S (length h)) <-> better (c_opt C) v b = true).
Proof.
  intros C h x v b (Hb1 & Hb2 & Hb3). unfold is_record. rewrite invocation_cons_new. split.
  - intros (x' & v' & H1 & H2 & H3). inversion H1; subst x' v'. destruct Hb2 as [->|Hin]; auto.
    apply returned_In in Hin. destruct Hin as [y Hin]. apply in_rev in Hin. apply In_nth_error in Hin.
    destruct Hin as [k Hk]. apply (H3 (S k) y b).
    + apply -> Nat.succ_lt_mono. rewrite <- rev_length. apply nth_error_Some. congruence.
    + rewrite invocation_cons_lt. simpl; auto.
      apply Nat.le_succ_l. rewrite <- rev_length. apply nth_error_Some. congruence.
    + auto.
  - intros H. exists x, v. split; auto. split.
    + destruct Hb2 as [->|Hin]; auto. apply better_not_better with b; auto.
      destruct (c_opt C); simpl; congruence. apply better_worst_not_nan; auto.
    + intros j y u Hj Hju Hu. rewrite invocation_cons_lt in Hju by lia. apply invocation_In in Hju.
      apply In_returned in Hju. apply better_not_better with b; auto.
Qed.

Lemma record_raise : forall o h x e, ~ is_record o ((x, Raise e) :: h) (S (length h)).
Proof. intros o h x e (y & v & H & _). rewrite invocation_cons_new in H. discriminate. Qed.

Lemma fe_cons : forall C h p ns fs, (forall i, In i ns -> i <= length h) ->
  Forall2 (fun i f => exists x v, invocation h i = Some (x, Ret v) /\ f = sgn (c_opt C) v) ns fs ->
  Forall2 (fun i f => exists x v, invocation (p :: h) i = Some (x, Ret v) /\ f = sgn (c_opt C) v) ns fs.
Proof.
  intros C h p ns fs Hr H. induction H; constructor; auto.
  - destruct H as (x0 & v & H1 & H2). exists x0, v. rewrite invocation_cons_lt; auto. apply Hr; simpl; auto.
  - apply IHForall2. intros; apply Hr; simpl; auto.
Qed.

Lemma Forall2_snoc : forall A B (R : A -> B -> Prop) l l' a b,
  Forall2 R l l' -> R a b -> Forall2 R (l ++ [a]) (l' ++ [b]).
Proof. intros. apply Forall2_app; auto. Qed.

Lemma tinv_eval : forall C P w x o t h, tinv C w ->
  task_eval C P (tw_h w) (tw_ts w) x = (o, t, h) -> tinv C (TW t h).
Proof.
  intros C P [t0 h0] x o t h I E. unfold task_eval in E. simpl in *.
  destruct (stopping_condition C t0) eqn:Hs.
  { inversion E; subst; auto. }
  assert (Hev := ti_evals _ _ I). simpl in Hev.
  assert (Hw : within (S (length h0)) (c_max_evals C)).
  { apply lim_within. apply (ti_within _ _ I). unfold stopping_condition in Hs.
    apply orb_false_iff in Hs; destruct Hs as [Hs _]. apply orb_false_iff in Hs; destruct Hs as [Hs _].
    rewrite Hev in Hs. auto. }
  assert (Hns : forall i, In i (t_n_evals t0) -> i <= length h0).
  { intros i Hi. apply (ti_rec _ _ I) in Hi. apply is_record_range in Hi. simpl in Hi. lia. }
  assert (Hfi : forall p, Forall (fun f => fi_ok (c_opt C) (p :: h0) f) (t_fitness_iters t0)).
  { intros p. eapply Forall_impl. 2: apply (ti_fi _ _ I). intros; apply fi_ok_cons; auto. }
  destruct (P h0 x) as [v|e] eqn:HP.
  - set (o' := c_opt C) in *.
    assert (Hb := ti_best _ _ I). simpl in Hb. fold o' in Hb. destruct Hb as (Hb1 & Hb2 & Hb3).
    rewrite fltb_sgn in E. destruct (better o' v (t_xf t0)) eqn:Hbet; inversion E; subst; clear E.
    + rewrite sgn_invol.
      constructor; simpl; fold o'; auto.
      * split. eauto using better_nan_l. split. right; simpl; auto. intros u [->|Hu]. apply better_irrefl.
        destruct (better o' u v) eqn:Huv; auto. specialize (Hb3 u Hu).
        rewrite (better_trans _ _ _ _ Huv Hbet) in Hb3. discriminate.
      * intros i. rewrite in_app_iff. rewrite Hev. simpl. rewrite (ti_rec _ _ I). simpl. fold o'.
        split.
        -- intros [H|[H|[]]].
           ++ apply is_record_cons; auto. apply is_record_range in H. lia.
           ++ subst i. apply (is_record_new C h0 x v (t_xf t0)). apply (ti_best _ _ I). auto.
        -- intros H. assert (Hr := is_record_range _ _ _ H). simpl in Hr.
           destruct (Nat.eq_dec i (S (length h0))); auto. left. rewrite is_record_cons in H by lia; auto.
      * apply StronglySorted_snoc. apply (ti_sorted _ _ I). apply Forall_forall. intros i Hi.
        apply Hns in Hi. rewrite Hev. simpl. lia.
      * apply Forall2_snoc. apply fe_cons; auto. apply (ti_fe _ _ I).
        exists x, v. rewrite Hev. rewrite invocation_cons_new. auto.
      * apply StronglySorted_snoc. apply (ti_fsorted _ _ I).
        assert (Hl := ti_last _ _ I). simpl in Hl. fold o' in Hl. destruct Hl as [[-> _]|[l Hl]]. constructor.
        assert (Hss := ti_fsorted _ _ I). simpl in Hss. rewrite Hl in *. apply StronglySorted_last in Hss.
        assert (fltb (sgn o' v) (sgn o' (t_xf t0)) = true) by (rewrite fltb_sgn; auto).
        apply Forall_app; split; auto. eapply Forall_impl; [|apply Hss]. simpl; intros a Ha.
        eapply fltb_trans; eauto.
      * right. exists (t_fitness_evals t0). auto.
      * apply (ti_iters _ _ I).
      * apply (ti_fisorted _ _ I).
      * assert (HF := ti_fixf _ _ I). simpl in HF. fold o' in HF. eapply Forall_impl; [|apply HF].
        simpl; intros a Ha2.
        destruct (better o' a v) eqn:Hav; auto. rewrite (better_trans _ _ _ _ Hav Hbet) in Ha2. discriminate.
    + constructor; simpl; fold o'; auto.
      * split; auto. split. destruct Hb2; simpl; auto. intros u [->|Hu]; auto.
      * intros i. rewrite (ti_rec _ _ I). simpl. fold o'. split; intros H.
        -- apply is_record_cons; auto. apply is_record_range in H; lia.
        -- assert (Hr := is_record_range _ _ _ H). simpl in Hr.
           destruct (Nat.eq_dec i (S (length h0))).
           ++ subst i. apply (is_record_new C h0 x v (t_xf t0)) in H. fold o' in H; congruence. apply (ti_best _ _ I).
           ++ rewrite is_record_cons in H by lia; auto.
      * apply (ti_sorted _ _ I).
      * apply fe_cons; auto. apply (ti_fe _ _ I).
      * apply (ti_fsorted _ _ I).
      * apply (ti_last _ _ I).
      * apply (ti_iters _ _ I).
      * apply (ti_fisorted _ _ I).
      * apply (ti_fixf _ _ I).
  - inversion E; subst; clear E. constructor; simpl; auto.
    + apply (ti_best _ _ I).
    + intros i. rewrite (ti_rec _ _ I). simpl. split; intros H.
      * apply is_record_cons; auto. apply is_record_range in H; lia.
      * assert (Hr := is_record_range _ _ _ H). simpl in Hr.
        destruct (Nat.eq_dec i (S (length h0))).
        -- subst i. apply record_raise in H; contradiction.
        -- rewrite is_record_cons in H by lia; auto.
    + apply (ti_sorted _ _ I).
    + apply fe_cons; auto. apply (ti_fe _ _ I).
    + apply (ti_fsorted _ _ I).
    + apply (ti_last _ _ I).
    + apply (ti_iters _ _ I).
    + apply (ti_fisorted _ _ I).
    + apply (ti_fixf _ _ I).
Qed.

Lemma tinv_next_iter : forall C w, tinv C w -> tinv C (TW (next_iter (tw_ts w)) (tw_h w)).
Proof.
  intros C [t h] I. destruct I. simpl in *. constructor; simpl; auto.
  - rewrite app_length, ti_iters0; simpl; lia.
  - apply Forall_app; split; auto. constructor; auto. exists [], h. auto.
  - apply StronglySorted_snoc; auto.
  - apply Forall_app; split; auto. constructor; auto. apply better_irrefl.
Qed.

Lemma tinv_call : forall C P w c, tinv C w -> tinv C (snd (do_call C P w c)).
Proof.
  intros C P w [x| | |] I; simpl; auto using tinv_next_iter.
  destruct (task_eval C P (tw_h w) (tw_ts w) x) as [[o t] h] eqn:E. simpl. eapply tinv_eval; eauto.
Qed.

Lemma tinv_calls : forall C P cs w, tinv C w -> tinv C (snd (do_calls C P w cs)).
Proof.
  induction cs; simpl; intros w I; auto.
  destruct (do_call C P w a) as [r w'] eqn:E. destruct (do_calls C P w' cs) as [l w''] eqn:E2. simpl.
  assert (tinv C w') by (replace w' with (snd (do_call C P w a)) by (rewrite E; auto); apply tinv_call; auto).
  apply IHcs in H. rewrite E2 in H. auto.
Qed.

(** [reachable C P w]: [w] is the state of a task after some client history. *)
Definition reachable (C : cfg) (P : problem) (w : tworld) : Prop :=
  exists cs, w = snd (do_calls C P (tw_init C) cs).

Lemma tinv_reachable : forall C P w, reachable C P w -> tinv C w.
Proof. intros C P w [cs ->]. apply tinv_calls, tinv_init. Qed.

(** ** Stopping *)

Lemma task_eval_stopped : forall C P h t x, stopping_condition C t = true ->
  task_eval C P h t x = (Ret PInf, t, h).
Proof. intros. unfold task_eval. rewrite H. auto. Qed.

Lemma lim_reached_S : forall n l, lim_reached n l = true -> lim_reached (S n) l = true.
Proof. destruct l; simpl; auto. rewrite !Z.leb_le. lia. Qed.

Lemma stop_next_iter : forall C t, stopping_condition C t = true -> stopping_condition C (next_iter t) = true.
Proof.
  unfold stopping_condition; simpl; intros C t H. rewrite !orb_true_iff in *.
  destruct H as [[H|H]|H]; auto using lim_reached_S.
Qed.

Lemma stop_call : forall C P w c, stopping_condition C (tw_ts w) = true ->
  stopping_condition C (tw_ts (snd (do_call C P w c))) = true.
Proof.
  intros C P w [x| | |] H; simpl; auto using stop_next_iter.
  rewrite task_eval_stopped; auto.
Qed.

Lemma stop_calls : forall C P cs w, stopping_condition C (tw_ts w) = true ->
  stopping_condition C (tw_ts (snd (do_calls C P w cs))) = true.
Proof.
  induction cs; simpl; intros w H; auto.
  destruct (do_call C P w a) as [r w'] eqn:E. destruct (do_calls C P w' cs) as [l w''] eqn:E2. simpl.
  replace w'' with (snd (do_calls C P w' cs)) by (rewrite E2; auto). apply IHcs.
  replace w' with (snd (do_call C P w a)) by (rewrite E; auto). apply stop_call; auto.
Qed.

(** after the stop no call makes a problem invocation *)
Lemma stop_history : forall C P cs w, stopping_condition C (tw_ts w) = true ->
  tw_h (snd (do_calls C P w cs)) = tw_h w.
Proof.
  induction cs; simpl; intros w H; auto.
  destruct (do_call C P w a) as [r w'] eqn:E. destruct (do_calls C P w' cs) as [l w''] eqn:E2. simpl.
  replace w'' with (snd (do_calls C P w' cs)) by (rewrite E2; auto).
  rewrite IHcs.
  - replace w' with (snd (do_call C P w a)) by (rewrite E; auto). destruct a; simpl; auto.
    rewrite task_eval_stopped; auto.
  - replace w' with (snd (do_call C P w a)) by (rewrite E; auto). apply stop_call; auto.
Qed.
