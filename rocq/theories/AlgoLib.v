(** Proof library for algorithms: what is known about evaluated populations. *)
From Coq Require Import ZArith Lia Bool List Sorted.
From Verif Require Import Num Task TaskSpec TaskProofs TaskProofs2 Prog Wp GetBest Run RunSpec RunProofs.
Import ListNotations.

(** the context used for "run returns the best evaluated point inside the bounds" *)
Definition KPX (C : cfg) (P : vec -> Prop) (X : exn -> Prop) : wctx :=
  WCtx P (fun x y => length x = c_dim C -> inside C y) (fun v => v <> NaN) (fun e => e = EFuel \/ X e).
Notation KBX C X := (KPX C (inside C) X).
Notation KB C := (KBX C (fun _ => False)).

(** [f] is the infinity of an unevaluated point or the logged value of [x] *)
Definition Seen (l : elog) (x : vec) (f : num) : Prop := f = PInf \/ In (x, f) l.
(** nothing logged is below [f] *)
Definition LB (l : elog) (f : num) : Prop := forall x v, In (x, v) l -> fleb f v = true.
Definition Good (l : elog) (x : vec) (f : num) : Prop := Seen l x f /\ LB l f /\ f <> NaN.
(** everything logged is above [fb] or above an element of [fs] *)
Definition Cov (l : elog) (fs : list num) (fb : num) : Prop :=
  forall x v, In (x, v) l -> fleb fb v = true \/ exists f, In f fs /\ fleb f v = true.

(** the effect of one evaluation *)
Definition Evald (x : vec) (v : num) (l l' : elog) : Prop :=
  (v <> NaN /\ l' = (x, v) :: l) \/ (v = PInf /\ l' = l).
Inductive Evals : list vec -> list num -> elog -> elog -> Prop :=
| Evals_nil : forall l, Evals [] [] l l
| Evals_cons : forall x v xs vs l l1 l2, Evald x v l l1 -> Evals xs vs l1 l2 -> Evals (x :: xs) (v :: vs) l l2.

Lemma Seen_ext : forall l l' x f, ext l l' -> Seen l x f -> Seen l' x f.
Proof. intros l l' x f He [H|H]; [left|right]; auto. eapply ext_In; eauto. Qed.
Lemma Seen_PInf : forall l x, Seen l x PInf.
Proof. left; auto. Qed.
Lemma Seen2_ext : forall l l' xs fs, ext l l' -> Forall2 (Seen l) xs fs -> Forall2 (Seen l') xs fs.
Proof. intros l l' xs fs He F. induction F; constructor; eauto using Seen_ext. Qed.

Lemma Evald_ext : forall x v l l', Evald x v l l' -> ext l l'.
Proof. intros x v l l' [[_ ->]|[_ ->]]; auto. Qed.
Lemma Evald_seen : forall x v l l', Evald x v l l' -> Seen l' x v.
Proof. intros x v l l' [[_ ->]|[-> ->]]; [right; simpl; auto | left; auto]. Qed.
Lemma Evald_nan : forall x v l l', Evald x v l l' -> v <> NaN.
Proof. intros x v l l' [[H _]|[-> _]]; auto; discriminate. Qed.
Lemma Evals_ext : forall xs vs l l', Evals xs vs l l' -> ext l l'.
Proof. induction 1; auto. eapply ext_trans; [eapply Evald_ext; eauto | auto]. Qed.
Lemma Evals_seen : forall xs vs l l', Evals xs vs l l' -> Forall2 (Seen l') xs vs.
Proof.
  induction 1; constructor; auto. eapply Seen_ext; [eapply Evals_ext; eauto | eapply Evald_seen; eauto].
Qed.
Lemma Evals_nan : forall xs vs l l', Evals xs vs l l' -> Forall (fun v => v <> NaN) vs.
Proof. induction 1; constructor; eauto using Evald_nan. Qed.
Lemma Evals_len : forall xs vs l l', Evals xs vs l l' -> length vs = length xs.
Proof. induction 1; simpl; auto. Qed.

Lemma LB_Cov : forall l f fs, LB l f -> Cov l fs f.
Proof. intros l f fs H x v Hi. left; eauto. Qed.
Lemma Good_Cov : forall l x f fs, Good l x f -> Cov l fs f.
Proof. intros l x f fs H. apply LB_Cov. apply H. Qed.
Lemma Cov_nil_LB : forall l f, Cov l [] f -> LB l f.
Proof. intros l f H x v Hi. destruct (H x v Hi) as [?|(g & [] & _)]; auto. Qed.
Lemma Cov_incl : forall l fs gs f, incl fs gs -> Cov l fs f -> Cov l gs f.
Proof. intros l fs gs f Hi H x v Hx. destruct (H x v Hx) as [?|(g & G1 & G2)]; eauto. Qed.
Lemma Cov_Evald : forall x v l l' fs fb, Cov l fs fb -> Evald x v l l' -> Cov l' (v :: fs) fb.
Proof.
  intros x v l l' fs fb H [[Hn ->]|[-> ->]] y u Hi.
  - destruct Hi as [Q|Hi].
    + inversion Q; subst. right. exists u. simpl. split; auto. apply fleb_refl; auto.
    + destruct (H y u Hi) as [?|(g & G1 & G2)]; auto. right. exists g; simpl; auto.
  - destruct (H y u Hi) as [?|(g & G1 & G2)]; auto. right. exists g; simpl; auto.
Qed.
Lemma Cov_Evals : forall xs vs l l' fs fb, Cov l fs fb -> Evals xs vs l l' -> Cov l' (vs ++ fs) fb.
Proof.
  intros xs vs l l' fs fb H Hv. revert fs H. induction Hv; intros fs Hc; simpl; auto.
  apply (Cov_Evald x v l l1) in Hc; auto. apply IHHv in Hc.
  eapply Cov_incl; [|exact Hc]. intros a Ha. apply in_app_or in Ha. simpl in *.
  destruct Ha as [Ha|[Ha|Ha]]; auto; right; apply in_or_app; auto.
Qed.
Lemma Seen_not_nan : forall l x f fs fb, Cov l fs fb -> Seen l x f -> f <> NaN.
Proof.
  intros l x f fs fb H [->|Hi]; [discriminate|]. destruct (H x f Hi) as [Q|(g & _ & Q)]; eapply fleb_nan_r; eauto.
Qed.
Lemma Seen2_not_nan : forall l xs gs fs fb, Cov l fs fb -> Forall2 (Seen l) xs gs -> Forall (fun v => v <> NaN) gs.
Proof. intros l xs gs fs fb H F. induction F; constructor; auto. eapply Seen_not_nan; eauto. Qed.

(** a better or equal evaluated point becomes the best *)
Lemma Good_take : forall l l' x v xb fb, Good l xb fb -> Evald x v l l' -> fleb v fb = true -> Good l' x v.
Proof.
  intros l l' x v xb fb (H1 & H2 & H3) He Hle. assert (Hn := Evald_nan _ _ _ _ He).
  split; [eapply Evald_seen; eauto|split; auto].
  destruct He as [[_ ->]|[-> ->]]; intros y u Hi.
  - destruct Hi as [Q|Hi]; [inversion Q; subst; apply fleb_refl; auto|]. eapply fleb_trans; eauto.
  - eapply fleb_trans; eauto.
Qed.
Lemma Good_keep : forall l l' x v xb fb, Good l xb fb -> Evald x v l l' -> fltb v fb = false -> Good l' xb fb.
Proof.
  intros l l' x v xb fb (H1 & H2 & H3) He Hle. assert (Hn := Evald_nan _ _ _ _ He).
  split; [eapply Seen_ext; [eapply Evald_ext; eauto|auto]|split; auto].
  destruct He as [[_ ->]|[-> ->]]; intros y u Hi; eauto.
  destruct Hi as [Q|Hi]; eauto. inversion Q; subst. apply fltb_false_fleb; auto.
Qed.
Lemma Good_keep_le : forall l l' x v xb fb, Good l xb fb -> Evald x v l l' -> fleb v fb = false -> Good l' xb fb.
Proof.
  intros. eapply Good_keep; eauto. apply fleb_fltb_false. apply fltb_fleb. apply fleb_false_fltb; auto.
  eapply Evald_nan; eauto. apply H.
Qed.

(** keeping the best when nothing below it was logged *)
Lemma Good_Cov_keep : forall l xb fb, Seen l xb fb -> Cov l [] fb -> fb <> NaN -> Good l xb fb.
Proof. intros. split; auto. split; auto. apply Cov_nil_LB; auto. Qed.

(** ** wp rules *)

Lemma w_eval : forall C (P : vec -> Prop) X x (Q : num -> elog -> Prop) l, P x -> (forall v l', Evald x v l l' -> Q v l') -> wp (KPX C P X) (eval x) Q l.
Proof.
  intros C P X x Q l Hx H. simpl. split; auto. split.
  - intros v Hv. apply H. left; auto.
  - apply H. right; auto.
Qed.
Lemma w_repair : forall C (P : vec -> Prop) X x (Q : vec -> elog -> Prop) l, length x = c_dim C -> (forall y, inside C y -> Q y l) -> wp (KPX C P X) (repair x) Q l.
Proof. intros C P X x Q l Hx H. simpl. intros y Hy. apply H. auto. Qed.
Lemma w_random : forall K (Q : num -> elog -> Prop) l, (forall r, fleb f0 r = true -> fleb r rtop = true -> Q r l) -> wp K random Q l.
Proof. intros K Q l H. unfold random. cbn [wp uniform]. intros r Hr. destruct Hr as [H1 H2]; auto. Qed.
Lemma w_rnd_f : forall K (Q : num -> elog -> Prop) l, (forall r, Q r l) -> wp K rnd_f Q l.
Proof. intros K Q l H. simpl. auto. Qed.
Lemma w_uniform : forall K lo hi (Q : num -> elog -> Prop) l, (forall r, (fleb lo hi = true -> fleb lo r = true /\ fleb r hi = true) -> Q r l) ->
  wp K (uniform lo hi) Q l.
Proof. intros K lo hi Q l H. simpl. auto. Qed.
Lemma w_integers : forall K n (Q : nat -> elog -> Prop) l, 0 < n -> (forall r, r < n -> Q r l) -> wp K (integers n) Q l.
Proof. intros K [|n] Q l Hn H; [lia|]. simpl. intros r Hr. apply H. lia. Qed.
Lemma w_view : forall K (Q : tview -> elog -> Prop) l, (forall v, Q v l) -> wp K view Q l.
Proof. intros K Q l H. simpl. auto. Qed.
Lemma w_done : forall A K (a : A) (Q : A -> elog -> Prop) l, Q a l -> wp K (Done a) Q l.
Proof. auto. Qed.
Lemma w_nthP : forall A K (xs : list A) i (Q : A -> elog -> Prop) l, i < length xs ->
  (forall a, nth_error xs i = Some a -> Q a l) -> wp K (nthP xs i) Q l.
Proof.
  intros A K xs i Q l Hi H. unfold nthP. destruct (nth_error xs i) eqn:E; simpl; auto.
  apply nth_error_None in E. lia.
Qed.
Lemma w_setP : forall A K (xs : list A) i a (Q : list A -> elog -> Prop) l, i < length xs -> Q (upd xs i a) l -> wp K (setP xs i a) Q l.
Proof.
  intros A K xs i a Q l Hi H. unfold setP. destruct (i <? length xs) eqn:E; simpl; auto.
  apply Nat.ltb_ge in E. lia.
Qed.

Lemma upd_length : forall A (l : list A) i a, length (upd l i a) = length l.
Proof. induction l; destruct i; simpl; auto. Qed.
Lemma Forall_upd : forall A (P : A -> Prop) l i a, Forall P l -> P a -> Forall P (upd l i a).
Proof. induction l; destruct i; simpl; intros; auto; inversion_clear H; constructor; auto. Qed.
Lemma Forall2_upd : forall A B (P : A -> B -> Prop) l l' i a b, Forall2 P l l' -> P a b ->
  Forall2 P (upd l i a) (upd l' i b).
Proof. intros A B P l l' i a b H. revert i. induction H; destruct i; simpl; intros; auto. Qed.
Lemma nth_upd_same : forall A (l : list A) i a, i < length l -> nth_error (upd l i a) i = Some a.
Proof. induction l; destruct i; simpl; intros; auto; try lia. apply IHl. lia. Qed.
Lemma nth_upd_other : forall A (l : list A) i j a, i <> j -> nth_error (upd l i a) j = nth_error l j.
Proof. induction l; destruct i, j; simpl; intros; auto; try lia. Qed.
Lemma In_upd : forall A (l : list A) i a b, In b (upd l i a) -> b = a \/ In b l.
Proof.
  induction l; destruct i; simpl; intros; auto.
  - destruct H; auto.
  - destruct H; auto. apply IHl in H. tauto.
Qed.
Lemma Forall_nth : forall A (P : A -> Prop) l i a, Forall P l -> nth_error l i = Some a -> P a.
Proof. intros A P l i a H E. rewrite Forall_forall in H. apply H. eapply nth_error_In; eauto. Qed.
Lemma Forall2_nth : forall A B (P : A -> B -> Prop) l l' i a b, Forall2 P l l' ->
  nth_error l i = Some a -> nth_error l' i = Some b -> P a b.
Proof.
  intros A B P l l' i a b H. revert i. induction H; destruct i; simpl; intros; try discriminate; eauto.
  inversion H1; inversion H2; subst; auto.
Qed.

Lemma w_random_vec : forall K n (Q : vec -> elog -> Prop) l, (forall v, length v = n -> Q v l) -> wp K (random_vec n) Q l.
Proof.
  induction n; intros Q l H; [simpl; auto|]. cbn [random_vec]. apply wp_bind. apply w_random. intros r _ _.
  apply wp_bind. apply IHn. intros v Hv. simpl. apply H. simpl; lia.
Qed.
Lemma w_rnd_f_vec : forall K n (Q : vec -> elog -> Prop) l, (forall v, length v = n -> Q v l) -> wp K (rnd_f_vec n) Q l.
Proof.
  induction n; intros Q l H; [simpl; auto|]. cbn [rnd_f_vec]. apply wp_bind. apply w_rnd_f. intros r.
  apply wp_bind. apply IHn. intros v Hv. simpl. apply H. simpl; lia.
Qed.
Lemma w_uniform_vec : forall K lo hi (Q : vec -> elog -> Prop) l, Forall2 (fun a b => fleb a b = true) lo hi ->
  (forall v, Forall2 (fun b a => in_range (fst b) (snd b) a) (combine lo hi) v -> Q v l) ->
  wp K (uniform_vec lo hi) Q l.
Proof.
  intros K lo hi Q l F. revert Q. induction F; intros Q HQ; simpl.
  { apply HQ. constructor. }
  intros r Hr. apply wp_bind. apply IHF. intros v Hv. simpl. apply HQ. simpl. constructor; auto.
  right. simpl. auto.
Qed.
(** a feasible uniform point of a well-formed task *)
Lemma w_uniform_pt : forall K C (Q : vec -> elog -> Prop) l, cfg_ok C -> (forall v, inside C v -> Q v l) ->
  wp K (uniform_vec (c_lower C) (c_upper C)) Q l.
Proof. intros K C Q l (_ & _ & H) HQ. apply w_uniform_vec; auto. Qed.

Lemma inside_len : forall C x, cfg_ok C -> inside C x -> length x = c_dim C.
Proof.
  intros C x (H1 & H2 & _) H. apply Forall2_len in H. rewrite <- H, combine_length. lia.
Qed.

Lemma w_eval_all : forall C (P : vec -> Prop) X pop (Q : list num -> elog -> Prop) l, pop <> [] -> Forall P pop ->
  (forall fs l', Evals pop fs l l' -> Q fs l') -> wp (KPX C P X) (eval_all pop) Q l.
Proof.
  intros C P X pop Q l Hne Hp HQ. unfold eval_all. destruct pop as [|x0 pop0]; [congruence|].
  remember (x0 :: pop0) as pop eqn:E. clear E Hne x0 pop0. revert Q l HQ.
  induction Hp as [|x pop Hx Hp IH]; intros Q l HQ; cbn [mapM].
  - simpl. apply HQ. constructor.
  - apply wp_bind. apply w_eval; auto. intros v l1 H1. apply wp_bind. apply IH. intros fs l2 H2. simpl.
    apply HQ. econstructor; eauto.
Qed.
Lemma w_repair_all : forall C (P : vec -> Prop) X pop (Q : list vec -> elog -> Prop) l, pop <> [] -> Forall (fun x => length x = c_dim C) pop ->
  (forall ys, length ys = length pop -> Forall (inside C) ys -> Q ys l) -> wp (KPX C P X) (repair_all pop) Q l.
Proof.
  intros C P X pop Q l Hne Hp HQ. unfold repair_all. destruct pop as [|x0 pop0]; [congruence|].
  remember (x0 :: pop0) as pop eqn:E. clear E Hne x0 pop0. revert Q HQ.
  induction Hp as [|x pop Hx Hp IH]; intros Q HQ; cbn [mapM].
  - simpl. apply HQ; auto.
  - apply wp_bind. apply w_repair; auto. intros y Hy. apply wp_bind. apply IH. intros ys Hl Hys. simpl.
    apply HQ; simpl; auto.
Qed.

Lemma remove_at_length : forall A (l : list A) i, i < length l -> length (remove_at l i) = length l - 1.
Proof. induction l; destruct i; simpl; intros; try lia. rewrite IHl; lia. Qed.
Lemma remove_at_in : forall A (l : list A) i a, In a (remove_at l i) -> In a l.
Proof. induction l; destruct i; simpl; intros; auto. destruct H; auto. right; eauto. Qed.
Lemma remove_at_nodup : forall A (l : list A) i a, NoDup l -> nth_error l i = Some a ->
  NoDup (remove_at l i) /\ ~ In a (remove_at l i).
Proof.
  induction l; destruct i; simpl; intros b Hn E; try discriminate; inversion_clear Hn.
  - inversion E; subst. auto.
  - destruct (IHl _ _ H0 E) as [G1 G2]. split.
    + constructor; auto. intros Q. apply remove_at_in in Q. auto.
    + intros [->|Q]; auto. apply nth_error_In in E. auto.
Qed.
Lemma w_choice_from : forall A K k (xs : list A) (Q : list A -> elog -> Prop) l, k <= length xs -> NoDup xs ->
  (forall rs, length rs = k -> NoDup rs -> (forall r, In r rs -> In r xs) -> Q rs l) ->
  wp K (choice_from xs k) Q l.
Proof.
  induction k; intros xs Q l Hk Hn HQ.
  - simpl. apply HQ; auto using NoDup_nil. intros r [].
  - destruct xs as [|x0 xs0]; [simpl in Hk; lia|]. cbn [choice_from]. remember (x0 :: xs0) as xs.
    apply wp_bind. apply w_integers; [lia|]. intros i Hi. apply wp_bind. apply w_nthP; auto. intros a Ea.
    destruct (remove_at_nodup _ xs i a Hn Ea) as [G1 G2].
    apply wp_bind. apply IHk; auto. rewrite remove_at_length; lia.
    intros rs H1 H2 H3. simpl. apply HQ.
    + simpl; lia.
    + constructor; auto.
    + intros r [<-|Hr]. eapply nth_error_In; eauto. eapply remove_at_in; eauto.
Qed.
Lemma w_choice : forall K n k (Q : list nat -> elog -> Prop) l, k <= n ->
  (forall rs, length rs = k -> NoDup rs -> (forall r, In r rs -> r < n) -> Q rs l) -> wp K (choice n k) Q l.
Proof.
  intros K n k Q l Hk HQ. unfold choice. apply w_choice_from.
  - rewrite seq_length; auto.
  - apply seq_NoDup.
  - intros rs H1 H2 H3. apply HQ; auto. intros r Hr. apply H3 in Hr. apply in_seq in Hr. lia.
Qed.
Lemma w_permutation : forall K n (Q : list nat -> elog -> Prop) l,
  (forall rs, length rs = n -> NoDup rs -> (forall r, In r rs -> r < n) -> Q rs l) -> wp K (permutation n) Q l.
Proof. intros. apply w_choice; auto. Qed.
Lemma w_integers_skip : forall C (P : vec -> Prop) X fuel low high skip (Q : nat -> elog -> Prop) l, low < high ->
  (forall r, low <= r -> r < high -> ~ In r skip -> Q r l) -> wp (KPX C P X) (integers_skip fuel low high skip) Q l.
Proof.
  intros C P X fuel low high skip Q l Hlh HQ. induction fuel; [simpl; auto|]. cbn [integers_skip].
  apply wp_bind. apply w_integers; [lia|]. intros r Hr.
  destruct (existsb (Nat.eqb (low + r)) skip) eqn:E; auto. simpl. apply HQ; try lia.
  intros Hi. assert (Xs : existsb (Nat.eqb (low + r)) skip = true) by (apply existsb_exists; exists (low + r); split; auto; apply Nat.eqb_refl).
  congruence.
Qed.

(** the best of a population together with the previous best *)
Lemma get_best_good : forall l pop fit xb fb,
  fit <> [] -> Forall2 (Seen l) pop fit -> Seen l xb fb -> fb <> NaN -> Cov l fit fb ->
  exists x f, get_best pop fit (Some xb) fb = Ret (x, f) /\ Good l x f /\ (In x pop \/ x = xb) /\ fleb f fb = true.
Proof.
  intros l pop fit xb fb Hne HF Hs Hn Hc.
  destruct (get_best_spec pop fit (Some xb) fb) as (b & m & (M1 & M2 & M3) & E & (x & Ex)); auto.
  - eapply Forall2_len; eauto.
  - eapply Seen2_not_nan; eauto.
  - assert (Hx : Seen l x m) by (eapply Forall2_nth; eauto).
    assert (Hmn : m <> NaN) by (eapply Seen_not_nan; eauto).
    rewrite E, Ex. destruct (fleb m fb) eqn:El.
    + exists x, m. split; auto. split; [|split; [left; eapply nth_error_In; eauto|auto]]. split; auto. split; auto.
      intros y v Hi. destruct (Hc y v Hi) as [Q|(g & G1 & G2)].
      * eapply fleb_trans; eauto.
      * apply In_nth_error in G1. destruct G1 as [k Hk]. eapply fleb_trans; [eapply M2; eauto|auto].
    + exists xb, fb. split; auto. split; [|split; [right; auto|apply fleb_refl; auto]]. split; auto. split; auto.
      intros y v Hi. destruct (Hc y v Hi) as [Q|(g & G1 & G2)]; auto.
      apply In_nth_error in G1. destruct G1 as [k Hk]. apply fleb_false_fltb in El; auto.
      eapply fleb_trans; [|exact G2]. apply fltb_fleb. eapply fltb_fleb_trans; eauto.
Qed.
Lemma w_get_best : forall K l pop fit xb fb (Q : vec * num -> elog -> Prop),
  fit <> [] -> Forall2 (Seen l) pop fit -> Seen l xb fb -> fb <> NaN -> Cov l fit fb ->
  (forall x f, Good l x f -> (In x pop \/ x = xb) -> Q (x, f) l) ->
  wp K (lift (get_best pop fit (Some xb) fb)) Q l.
Proof.
  intros K l pop fit xb fb Q H1 H2 H3 H4 H5 HQ.
  destruct (get_best_good l pop fit xb fb) as (x & f & E & G1 & G2 & _); auto. rewrite E. simpl. auto.
Qed.
(** after evaluating a whole new population *)
Lemma w_get_best_evals : forall K l0 l pop fit xb fb (Q : vec * num -> elog -> Prop),
  pop <> [] -> Good l0 xb fb -> Evals pop fit l0 l ->
  (forall x f, Good l x f -> (In x pop \/ x = xb) -> Q (x, f) l) ->
  wp K (lift (get_best pop fit (Some xb) fb)) Q l.
Proof.
  intros K l0 l pop fit xb fb Q Hne (G1 & G2 & G3) He HQ. apply w_get_best; auto.
  - apply Evals_len in He. destruct fit, pop; simpl in *; congruence.
  - eapply Evals_seen; eauto.
  - eapply Seen_ext; [eapply Evals_ext; eauto|auto].
  - assert (X : Cov l (fit ++ []) fb) by (eapply Cov_Evals; eauto; apply LB_Cov; auto).
    rewrite app_nil_r in X. auto.
Qed.
(** the first best (algorithm.py:311) *)
Lemma w_get_best0 : forall K l pop fit (Q : vec * num -> elog -> Prop),
  pop <> [] -> Evals pop fit [] l ->
  (forall x f, Good l x f -> In x pop -> Q (x, f) l) ->
  wp K (lift (get_best pop fit None PInf)) Q l.
Proof.
  intros K l pop fit Q Hne He HQ.
  destruct (get_best_spec pop fit None PInf) as (b & m & (M1 & M2 & M3) & E & (x & Ex)).
  - symmetry. eapply Evals_len; eauto.
  - apply Evals_len in He. destruct fit, pop; simpl in *; congruence.
  - eapply Evals_nan; eauto.
  - assert (Hc : Cov l (fit ++ []) PInf) by (eapply Cov_Evals; eauto; intros y v []).
    rewrite app_nil_r in Hc. assert (HS := Evals_seen _ _ _ _ He).
    assert (Hx : Seen l x m) by (eapply Forall2_nth; eauto).
    assert (Hmn : m <> NaN) by (eapply Seen_not_nan; eauto).
    rewrite E, Ex. rewrite fleb_PInf; auto. simpl. apply HQ; [|eapply nth_error_In; eauto].
    split; auto. split; auto. intros y v Hi. destruct (Hc y v Hi) as [Q0|(g & G1 & G2)].
    + apply PInf_fleb in Q0. subst. apply fleb_PInf; auto.
    + apply In_nth_error in G1. destruct G1 as [k Hk]. eapply fleb_trans; [eapply M2; eauto|auto].
Qed.
(** general form: any first population whose fitness covers the log *)
Lemma w_get_best0_cov : forall K l pop fit (Q : vec * num -> elog -> Prop),
  fit <> [] -> Forall2 (Seen l) pop fit -> Cov l fit PInf ->
  (forall x f, Good l x f -> In x pop -> Q (x, f) l) ->
  wp K (lift (get_best pop fit None PInf)) Q l.
Proof.
  intros K l pop fit Q Hne HS Hc HQ.
  destruct (get_best_spec pop fit None PInf) as (b & m & (M1 & M2 & M3) & E & (x & Ex)); auto.
  - eapply Forall2_len; eauto.
  - eapply Seen2_not_nan; eauto.
  - assert (Hx : Seen l x m) by (eapply Forall2_nth; eauto).
    assert (Hmn : m <> NaN) by (eapply Seen_not_nan; eauto).
    rewrite E, Ex. rewrite fleb_PInf; auto. simpl. apply HQ; [|eapply nth_error_In; eauto].
    split; auto. split; auto. intros y v Hi. destruct (Hc y v Hi) as [Q0|(g & G1 & G2)].
    + apply PInf_fleb in Q0. subst. apply fleb_PInf; auto.
    + apply In_nth_error in G1. destruct G1 as [k Hk]. eapply fleb_trans; [eapply M2; eauto|auto].
Qed.

(** ** From an invariant to the statement about runs *)

Lemma in_log_of : forall o h x f, In (x, f) (log_of o h) <-> exists v, In (x, Ret v) h /\ f = sgn o v.
Proof.
  intros o h x f. unfold log_of. rewrite in_flat_map. split.
  - intros ([y [v|e]] & H1 & H2); simpl in H2.
    + destruct H2 as [Q|[]]. inversion Q; subst. eauto.
    + contradiction.
  - intros (v & H1 & ->). exists (x, Ret v). simpl; auto.
Qed.

Lemma env_ok_KB : forall P X E, no_nan (e_prob E) -> repair_ok E -> env_ok (KPX (e_cfg E) P X) E.
Proof.
  intros P X E Hn Hr. split; [|split; [|reflexivity]].
  - intros p x. simpl. apply Hr.
  - intros h x v H. simpl. intros Q. apply (proj1 (sgn_nan _ _)) in Q. eapply Hn; eauto.
Qed.

Lemma Good_best_of : forall o h x f, Good (log_of o h) x f -> best_of o (returned h) (sgn o f) /\
  (sgn o f = worst o \/ In (x, Ret (sgn o f)) h).
Proof.
  intros o h x f (H1 & H2 & H3).
  assert (X : sgn o f = worst o \/ In (x, Ret (sgn o f)) h).
  { destruct H1 as [->|H1]; [left; apply sgn_worst|]. apply in_log_of in H1. destruct H1 as (v & Hv & ->).
    right. rewrite sgn_invol. auto. }
  split; auto. split; [|split].
  - intros Q. apply (proj1 (sgn_nan _ _)) in Q. auto.
  - destruct X; auto. right. eapply In_returned; eauto.
  - intros v Hv. apply returned_In in Hv. destruct Hv as [y Hy].
    rewrite <- fltb_sgn, sgn_invol. apply fleb_fltb_false. apply (H2 y). apply in_log_of. eauto.
Qed.

Theorem best_run_p_intro : forall P X E A (Inv : rstate A -> elog -> Prop),
  cfg_ok (e_cfg E) -> no_nan (e_prob E) -> repair_ok E ->
  algo_ok (KPX (e_cfg E) P X) A Inv ->
  (forall s l, Inv s l -> length (r_xb s) = c_dim (e_cfg E) /\ Good l (r_xb s) (r_fxb s)) ->
  best_run_p P X E A.
Proof.
  intros P X E A Inv HC Hn Hr HA HI cb n pos r w' ev H.
  destruct (run_inv _ _ _ _ cb n pos (env_ok_KB P X E Hn Hr) HA (fun a b => fleb a b = true)) with (r := r) (w' := w') (ev := ev)
    as (P1 & P2 & P3 & P4); auto.
  - intros s l s' l' I1 I2 He. destruct (HI _ _ I1) as (_ & (S1 & L1 & N1)). destruct (HI _ _ I2) as (_ & (S2 & L2 & N2)).
    destruct S1 as [->|S1]; [apply fleb_PInf; auto|]. eapply L2. eapply ext_In; eauto.
  - intros a b c. apply fleb_trans.
  - split; [|split; auto].
    + intros p Hp. rewrite Forall_forall in P1. apply P1; auto.
    + destruct r as [[x v]|e].
      * destruct P4 as (s & I1 & -> & ->). destruct (HI _ _ I1) as (Hl & G).
        destruct (Good_best_of _ _ _ _ G) as [B1 B2]. split; auto. split; auto.
        eapply best_of_unique; eauto. apply P2.
      * destruct P4 as [[P4|P4]|[P4|[P4|P4]]]; auto.
Qed.

Theorem best_run_intro : forall X E A (Inv : rstate A -> elog -> Prop),
  cfg_ok (e_cfg E) -> no_nan (e_prob E) -> repair_ok E ->
  algo_ok (KBX (e_cfg E) X) A Inv ->
  (forall s l, Inv s l -> length (r_xb s) = c_dim (e_cfg E) /\ Good l (r_xb s) (r_fxb s)) ->
  best_run_x X E A.
Proof. intros X E. apply best_run_p_intro. Qed.
Theorem sound_run_p_intro : forall P X E A (Inv : rstate A -> elog -> Prop),
  cfg_ok (e_cfg E) -> no_nan (e_prob E) -> repair_ok E ->
  algo_ok (KPX (e_cfg E) P X) A Inv ->
  (forall s l, Inv s l -> length (r_xb s) = c_dim (e_cfg E) /\ Seen l (r_xb s) (r_fxb s)) ->
  sound_run_p P X E A.
Proof.
  intros P X E A Inv HC Hn Hr HA HI cb n pos r w' ev H.
  destruct (run_inv _ _ _ _ cb n pos (env_ok_KB P X E Hn Hr) HA (fun a b => True)) with (r := r) (w' := w') (ev := ev)
    as (P1 & P2 & P3 & P4); auto.
  split.
  - intros p Hp. rewrite Forall_forall in P1. apply P1; auto.
  - destruct r as [[x v]|e].
    * destruct P4 as (s & I1 & -> & ->). destruct (HI _ _ I1) as (Hl & [->|G]).
      -- split; [auto|]. left. apply sgn_worst.
      -- split; auto. right. apply in_log_of in G. destruct G as (v & Hv & ->). rewrite sgn_invol. auto.
    * destruct P4 as [[P4|P4]|[P4|[P4|P4]]]; auto.
Qed.

Theorem sound_run_intro : forall X E A (Inv : rstate A -> elog -> Prop),
  cfg_ok (e_cfg E) -> no_nan (e_prob E) -> repair_ok E ->
  algo_ok (KBX (e_cfg E) X) A Inv ->
  (forall s l, Inv s l -> length (r_xb s) = c_dim (e_cfg E) /\ Seen l (r_xb s) (r_fxb s)) ->
  sound_run_x X E A.
Proof. intros X E. apply sound_run_p_intro. Qed.

(** ** Initial populations *)

(** algorithm.py:24-40 [default_numpy_init] *)
Fixpoint uniform_pop (C : cfg) (n : nat) : prog (list vec) :=
  match n with
  | O => Done []
  | S m => let* x := uniform_vec (c_lower C) (c_upper C) in let* xs := uniform_pop C m in Done (x :: xs)
  end.
Definition default_numpy_init (C : cfg) (n : nat) : prog (list vec * list num) :=
  let* pop := uniform_pop C n in
  let* fit := eval_all pop in
  Done (pop, fit).

Lemma w_uniform_pop : forall K C n (Q : list vec -> elog -> Prop) l, cfg_ok C ->
  (forall pop, length pop = n -> Forall (inside C) pop -> Q pop l) -> wp K (uniform_pop C n) Q l.
Proof.
  intros K C n Q l HC. revert Q. induction n; intros Q HQ; cbn [uniform_pop]; [simpl; auto|].
  apply wp_bind. apply w_uniform_pt; auto. intros x Hx. apply wp_bind. apply IHn. intros pop H1 H2. simpl.
  apply HQ; simpl; auto.
Qed.
Lemma w_default_numpy_init : forall C (P : vec -> Prop) X n (Q : list vec * list num -> elog -> Prop) l, cfg_ok C -> 0 < n ->
  (forall x, inside C x -> P x) ->
  (forall pop fit l', length pop = n -> Forall (inside C) pop -> Evals pop fit l l' -> Q (pop, fit) l') ->
  wp (KPX C P X) (default_numpy_init C n) Q l.
Proof.
  intros C P X n Q l HC Hn HP HQ. unfold default_numpy_init. apply wp_bind. apply w_uniform_pop; auto.
  intros pop H1 H2. apply wp_bind. apply w_eval_all; auto.
  - destruct pop; simpl in *; [lia|congruence].
  - eapply Forall_impl; eauto.
  - intros fs l' He. simpl. auto.
Qed.
