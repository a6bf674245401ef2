(** wp rules for individuals. *)
From Coq Require Import ZArith Lia Bool List.
From Verif Require Import Num Task TaskSpec TaskProofs TaskProofs2 Prog Wp GetBest Run RunSpec RunProofs AlgoLib Fops Indiv.
Import ListNotations.

(** an individual inside the bounds whose fitness was obtained at its coordinates *)
Definition IOk (C : cfg) (l : elog) (i : ind) : Prop := inside C (fst i) /\ Seen l (fst i) (snd i).

Lemma IOk_ext : forall C l l' i, ext l l' -> IOk C l i -> IOk C l' i.
Proof. intros C l l' i He [H1 H2]. split; auto. eapply Seen_ext; eauto. Qed.
Lemma IOks_ext : forall C l l' pop, ext l l' -> Forall (IOk C l) pop -> Forall (IOk C l') pop.
Proof. intros. eapply Forall_impl; [|eauto]. intros; eapply IOk_ext; eauto. Qed.
Lemma IOk_seen2 : forall C l pop, Forall (IOk C l) pop -> Forall2 (Seen l) (map fst pop) (map snd pop).
Proof. induction 1; simpl; constructor; auto. apply H. Qed.
Lemma IOk_inside : forall C l pop, Forall (IOk C l) pop -> Forall (inside C) (map fst pop).
Proof. induction 1; simpl; constructor; auto. apply H. Qed.

Lemma w_new_ind : forall C X x (Q : ind -> elog -> Prop) l, length x = c_dim C ->
  (forall y v l', inside C y -> Evald y v l l' -> Q (y, v) l') -> wp (KBX C X) (new_ind x) Q l.
Proof.
  intros C X x Q l Hx HQ. unfold new_ind, ind_evaluate. apply wp_bind. apply w_repair; auto. intros y Hy.
  apply wp_bind. apply w_eval; auto. intros v l' He. simpl. auto.
Qed.
Lemma w_rand_ind : forall C X (Q : ind -> elog -> Prop) l, cfg_ok C ->
  (forall y v l', inside C y -> Evald y v l l' -> Q (y, v) l') -> wp (KBX C X) (rand_ind C) Q l.
Proof.
  intros C X Q l HC HQ. unfold rand_ind. apply wp_bind. apply w_uniform_pt; auto. intros x Hx.
  apply (w_new_ind C X x); auto. apply inside_len; auto.
Qed.

Lemma wp_repeatM : forall A K (p : prog A) (I : list A -> elog -> Prop) n l,
  I [] l ->
  (forall bs l', length bs < n -> I bs l' -> wp K p (fun b l'' => I (bs ++ [b]) l'') l') ->
  wp K (repeatM n p) (fun bs l' => I bs l' /\ length bs = n) l.
Proof.
  intros A K p I n l H0 Hp.
  assert (G : forall m bs l', length bs + m = n -> I bs l' ->
    wp K (repeatM m p) (fun cs l'' => I (bs ++ cs) l'' /\ length (bs ++ cs) = n) l').
  { induction m; simpl; intros bs l' Hl HI.
    - rewrite app_nil_r. split; auto. lia.
    - apply wp_bind. eapply wp_conseq0. apply (Hp bs); auto. lia. intros b l1 H1. simpl.
      apply wp_bind. eapply wp_conseq0.
      + apply (IHm (bs ++ [b]) l1); auto. rewrite app_length; simpl; lia.
      + intros cs l2 H2. cbv beta in H2. rewrite <- !app_assoc in H2. exact H2. }
  apply (G n [] l); auto.
Qed.

(** a growing list of evaluated individuals *)
Definition IAcc (C : cfg) (l0 : elog) (fb : num) (bs : list ind) (l : elog) : Prop :=
  ext l0 l /\ Forall (IOk C l) bs /\ Cov l (map snd bs) fb.

Lemma IAcc_nil : forall C l0 fb, Cov l0 [] fb -> IAcc C l0 fb [] l0.
Proof. intros. split; [|split]; auto. Qed.
Lemma IAcc_step : forall C l0 fb bs l y v l', IAcc C l0 fb bs l -> inside C y -> Evald y v l l' ->
  IAcc C l0 fb (bs ++ [(y, v)]) l'.
Proof.
  intros C l0 fb bs l y v l' (H1 & H2 & H3) Hy He. assert (Hx := Evald_ext _ _ _ _ He). split; [|split].
  - eapply ext_trans; eauto.
  - apply Forall_app. split. eapply IOks_ext; eauto. constructor; auto. split; auto. eapply Evald_seen; eauto.
  - rewrite map_app. simpl. eapply Cov_incl; [|eapply Cov_Evald; eauto].
    intros a Ha. apply in_or_app. destruct Ha; simpl; auto.
Qed.

Lemma w_default_individual_init : forall C X n (Q : list ind * list num -> elog -> Prop), cfg_ok C ->
  (forall pop l, length pop = n -> Forall (IOk C l) pop -> Cov l (map snd pop) PInf -> Q (pop, map snd pop) l) ->
  wp (KBX C X) (default_individual_init C n) Q [].
Proof.
  intros C X n Q HC HQ. unfold default_individual_init. apply wp_bind. eapply wp_conseq0.
  - apply (wp_repeatM _ _ _ (IAcc C [] PInf)).
    + apply IAcc_nil. intros x v [].
    + intros bs l' _ HI. apply w_rand_ind; auto. intros y v l1 Hy He. eapply IAcc_step; eauto.
  - intros pop l [(_ & H2 & H3) H4]. simpl. auto.
Qed.

(** get_best on individuals *)
Lemma w_get_best_i : forall K C l pop xb fb (Q : vec * num -> elog -> Prop),
  pop <> [] -> Forall (IOk C l) pop -> Seen l xb fb -> fb <> NaN -> Cov l (map snd pop) fb ->
  (forall x f, Good l x f -> (inside C x \/ x = xb) -> Q (x, f) l) ->
  wp K (lift (get_best_i pop (map snd pop) (Some xb) fb)) Q l.
Proof.
  intros K C l pop xb fb Q Hne HI Hs Hn Hc HQ. apply w_get_best; auto.
  - destruct pop; simpl; congruence.
  - eapply IOk_seen2; eauto.
  - intros x f G [Hi|Hi]; apply HQ; auto. left. apply IOk_inside in HI. rewrite Forall_forall in HI. auto.
Qed.
Lemma w_get_best0_i : forall K C l pop (Q : vec * num -> elog -> Prop),
  pop <> [] -> Forall (IOk C l) pop -> Cov l (map snd pop) PInf ->
  (forall x f, Good l x f -> inside C x -> Q (x, f) l) ->
  wp K (lift (get_best (map fst pop) (map snd pop) None PInf)) Q l.
Proof.
  intros K C l pop Q Hne HI Hc HQ. apply w_get_best0_cov; auto.
  - destruct pop; simpl; congruence.
  - eapply IOk_seen2; eauto.
  - intros x f G Hi; apply HQ; auto. apply IOk_inside in HI. rewrite Forall_forall in HI. auto.
Qed.
