(** Weakest preconditions for programs over an evaluation log. *)
From Coq Require Import ZArith Lia Bool List.
From Verif Require Import Num Task TaskSpec TaskProofs Prog.
Import ListNotations.

(** The evaluation log: points with the value [task.eval] returned for them
    (sign-adjusted), newest first; evaluations that the stopped task refused are not in it. *)
Notation elog := (list (vec * num)) (only parsing).

Definition log_of (o : opt) (h : history) : elog :=
  flat_map (fun p => match snd p with Ret v => [(fst p, sgn o v)] | Raise _ => [] end) h.

(** [K_pre]: what every evaluated point must satisfy; [K_rep x y]: y is a possible result
    of repairing x; [K_val x v]: v is a possible value of x; [K_ref]: must evaluations that the
    stopped task refuses be considered? [K_exn]: allowed exceptions. *)
Record wctx : Type := WCtxG {
  K_pre : vec -> Prop;
  K_rep : vec -> vec -> Prop;
  K_val : vec -> num -> Prop;
  K_ref : bool;
  K_exn : exn -> Prop
}.
(** the usual contexts: values do not depend on the point, refusals are considered *)
Definition WCtx (P : vec -> Prop) (R : vec -> vec -> Prop) (V : num -> Prop) (X : exn -> Prop) : wctx :=
  WCtxG P R (fun _ => V) true X.

Fixpoint wp {A} (K : wctx) (p : prog A) (Q : A -> elog -> Prop) (l : elog) : Prop :=
  match p with
  | Done a => Q a l
  | Fail e => K_exn K e
  | Eval x k =>
      K_pre K x /\ (forall v, K_val K x v -> wp K (k v) Q ((x, v) :: l)) /\
      (if K_ref K then wp K (k PInf) Q l else True)
  | Repair x k => forall y, K_rep K x y -> wp K (k y) Q l
  | RndU lo hi k =>
      forall r, (fleb lo hi = true -> fleb lo r = true /\ fleb r hi = true) -> wp K (k r) Q l
  | RndF k => forall r, wp K (k r) Q l
  | RndN n k => forall r, r <= n -> wp K (k r) Q l
  | View k => forall v, wp K (k v) Q l
  end.

Definition ext (l l' : elog) : Prop := exists d, l' = d ++ l.
Lemma ext_refl : forall l, ext l l.
Proof. intros; exists []; auto. Qed.
Lemma ext_cons : forall l p, ext l (p :: l).
Proof. intros; exists [p]; auto. Qed.
Lemma ext_trans : forall a b c, ext a b -> ext b c -> ext a c.
Proof. intros a b c [d ->] [e ->]. exists (e ++ d). rewrite app_assoc; auto. Qed.
Lemma ext_In : forall l l' p, ext l l' -> In p l -> In p l'.
Proof. intros l l' p [d ->] H. apply in_or_app; auto. Qed.
Global Hint Resolve ext_refl ext_cons : core.

Lemma wp_conseq : forall A K (p : prog A) (Q Q' : A -> elog -> Prop) l,
  wp K p Q l -> (forall a l', ext l l' -> Q a l' -> Q' a l') -> wp K p Q' l.
Proof.
  induction p; simpl; intros Q Q' l Hw HQ; auto.
  destruct Hw as (H1 & H2 & H3). repeat split; auto.
  - intros v Hv. eapply H; eauto. intros a l' He. apply HQ. eapply ext_trans; [apply ext_cons | exact He].
  - destruct (K_ref K); auto. eapply H; eauto.
  - intros y Hy. eapply H; eauto.
  - intros r Hr. eapply H; eauto.
  - intros r. eapply H; eauto.
  - intros r Hr. eapply H; eauto.
  - intros v. eapply H; eauto.
Qed.

Lemma wp_bind : forall A B K (p : prog A) (f : A -> prog B) Q l,
  wp K p (fun a l' => wp K (f a) Q l') l -> wp K (bind p f) Q l.
Proof.
  induction p; simpl; intros f Q l Hw; auto.
  destruct Hw as (H1 & H2 & H3). repeat split; auto. destruct (K_ref K); auto.
Qed.

(** binds with a known specification of the first part *)
Lemma wp_bind_spec : forall A B K (p : prog A) (f : A -> prog B) R Q l,
  wp K p R l -> (forall a l', ext l l' -> R a l' -> wp K (f a) Q l') -> wp K (bind p f) Q l.
Proof. intros. apply wp_bind. eapply wp_conseq; eauto. Qed.

Lemma wp_conseq0 : forall A K (p : prog A) (Q Q' : A -> elog -> Prop) l,
  wp K p Q l -> (forall a l', Q a l' -> Q' a l') -> wp K p Q' l.
Proof. intros. eapply wp_conseq; eauto. Qed.

Lemma wp_and : forall A K (p : prog A) (Q Q' : A -> elog -> Prop) l,
  wp K p Q l -> wp K p Q' l -> wp K p (fun a l' => Q a l' /\ Q' a l') l.
Proof.
  induction p; simpl; intros Q Q' l0 Hw HQ; auto.
  destruct Hw as (H1 & H2 & H3). destruct HQ as (G1 & G2 & G3). repeat split; auto. destruct (K_ref K); auto.
Qed.

Lemma wp_ext : forall A K (p : prog A) Q l, wp K p Q l -> wp K p (fun a l' => ext l l' /\ Q a l') l.
Proof. intros. eapply wp_conseq; eauto. Qed.

(** ** Loops *)

Lemma wp_foldM : forall A S K (f : S -> A -> prog S) (I : list A -> S -> elog -> Prop) xs s l,
  I xs s l ->
  (forall a r s' l', (exists pre, xs = pre ++ a :: r) -> I (a :: r) s' l' ->
     wp K (f s' a) (I r) l') ->
  wp K (foldM f xs s) (I []) l.
Proof.
  induction xs as [|a xs IH]; simpl; intros s l H0 HI; auto.
  apply wp_bind. eapply wp_conseq0.
  - apply (HI a xs); auto. exists []; auto.
  - intros s' l' H. apply IH; auto. intros b r s2 l2 [pre E] H2. apply HI; auto. exists (a :: pre). simpl; rewrite E; auto.
Qed.

(** invariant indexed by the loop counter *)
Lemma wp_for_range : forall S K n (f : S -> nat -> prog S) (I : nat -> S -> elog -> Prop) s l,
  I 0 s l ->
  (forall i s' l', i < n -> I i s' l' -> wp K (f s' i) (I (i + 1)) l') ->
  wp K (for_range n f s) (I n) l.
Proof.
  intros S K n f I s l H0 HI. unfold for_range.
  assert (G : forall len st s l, I st s l -> st + len = n -> wp K (foldM f (seq st len) s) (I n) l).
  { induction len; simpl; intros st s0 l0 H Hn.
    - replace n with st by lia; auto.
    - apply wp_bind. eapply wp_conseq0. apply HI; auto. lia. intros s' l' H'. apply IHlen; auto.
      replace (Datatypes.S st) with (st + 1) by lia; auto. lia. }
  apply G; auto.
Qed.

Lemma wp_mapM : forall A B K (f : A -> prog B) (R : A -> B -> elog -> Prop) (I : elog -> Prop) xs l,
  I l ->
  (forall a l', In a xs -> ext l l' -> I l' -> wp K (f a) (fun b l'' => R a b l'' /\ I l'') l') ->
  (forall a b l1 l2, ext l1 l2 -> R a b l1 -> R a b l2) ->
  wp K (mapM f xs) (fun bs l' => Forall2 (fun a b => R a b l') xs bs /\ I l') l.
Proof.
  intros A B K f R I xs l HI Hf HR.
  assert (G : forall xs' l', ext l l' -> I l' -> (forall a, In a xs' -> In a xs) ->
     wp K (mapM f xs') (fun bs l'' => Forall2 (fun a b => R a b l'') xs' bs /\ I l'') l').
  { induction xs' as [|a xs' IH]; simpl; intros l' He Hi Hsub.
    - auto.
    - apply wp_bind. eapply wp_conseq. apply Hf; auto.
      intros b l1 He1 [Hr Hi1]. simpl. apply wp_bind. eapply wp_conseq. apply IH; auto.
      eapply ext_trans; eauto.
      intros bs l2 He2 [HF Hi2]. simpl. split; auto. constructor; auto. eapply HR; eauto. }
  apply G; auto.
Qed.

(** results accumulated so far *)
Lemma wp_mapM_acc : forall A B K (f : A -> prog B) (I : list B -> elog -> Prop) xs l,
  I [] l ->
  (forall pre a post bs l', xs = pre ++ a :: post -> length bs = length pre -> I bs l' ->
     wp K (f a) (fun b l'' => I (bs ++ [b]) l'') l') ->
  wp K (mapM f xs) (fun bs l' => I bs l' /\ length bs = length xs) l.
Proof.
  intros A B K f I xs l H0 Hf.
  assert (G : forall ys pre bs l', xs = pre ++ ys -> length bs = length pre -> I bs l' ->
    wp K (mapM f ys) (fun cs l'' => I (bs ++ cs) l'' /\ length (bs ++ cs) = length xs) l').
  { induction ys as [|a ys IH]; simpl; intros pre bs l' E Hl HI.
    - rewrite app_nil_r. split; auto. rewrite E, app_nil_r; auto.
    - apply wp_bind. eapply wp_conseq0. eapply Hf; eauto. intros b l1 H1. simpl.
      apply wp_bind. eapply wp_conseq0.
      + apply (IH (pre ++ [a]) (bs ++ [b]) l1); auto. rewrite <- app_assoc; auto. rewrite !app_length; simpl; lia.
      + intros cs l2 H2. cbv beta in H2. rewrite <- !app_assoc in H2. exact H2. }
  apply (G xs [] [] l); auto.
Qed.

(** ** Soundness *)

Definition env_ok (K : wctx) (E : env) : Prop :=
  (forall p x, K_rep K x (e_rep E p x)) /\
  (forall h x v, e_prob E h x = Ret v -> K_val K x (sgn (c_opt (e_cfg E)) v)) /\
  K_ref K = true.

Lemma draw_u_ok : forall lo hi r, fleb lo hi = true -> fleb lo (draw_u lo hi r) = true /\ fleb (draw_u lo hi r) hi = true.
Proof.
  intros. unfold draw_u. destruct (fleb lo r && fleb r hi) eqn:E.
  - apply andb_true_iff in E. auto.
  - split; auto. apply fleb_refl. eauto using fleb_nan_l.
Qed.

Lemma task_eval_cases : forall C P h t x o t' h', task_eval C P h t x = (o, t', h') ->
  (stopping_condition C t = true /\ o = Ret PInf /\ t' = t /\ h' = h) \/
  (stopping_condition C t = false /\ exists v, P h x = Ret v /\ o = Ret (sgn (c_opt C) v) /\ h' = (x, Ret v) :: h) \/
  (stopping_condition C t = false /\ exists e, P h x = Raise e /\ o = Raise e /\ h' = (x, Raise e) :: h).
Proof.
  intros C P h t x o t' h' E. unfold task_eval in E. destruct (stopping_condition C t) eqn:Hs.
  - inversion E; auto.
  - right. destruct (P h x) as [v|e]; inversion E; subst; [left; split; [reflexivity|]; exists v|right; split; [reflexivity|]; exists e]; split; auto.
Qed.

(** Every outcome of a run of [p] satisfies what [wp] promises. *)
Theorem wp_sound : forall A K E (p : prog A) Q w r w',
  env_ok K E -> wp K p Q (log_of (c_opt (e_cfg E)) (w_h w)) -> exec E p w = (r, w') ->
  (exists d, w_h w' = d ++ w_h w /\ Forall (fun q => K_pre K (fst q)) d) /\
  match r with
  | Ret a => Q a (log_of (c_opt (e_cfg E)) (w_h w'))
  | Raise e => K_exn K e \/ exists x h, w_h w' = (x, Raise e) :: h /\ K_pre K x
  end.
Proof.
  induction p; simpl; intros Q w r w' (Hrep & Hval & Href) Hw Ex.
  - inversion Ex; subst. split; auto. exists []; auto.
  - inversion Ex; subst. split; auto. exists []; auto.
  - destruct Hw as (H1 & H2 & H3).
    destruct (task_eval (e_cfg E) (e_prob E) (w_h w) (w_ts w) x) as [[o t] h] eqn:Et.
    destruct (task_eval_cases _ _ _ _ _ _ _ _ Et) as [(_ & -> & -> & ->)|[(_ & v & Hp & -> & ->)|(_ & e & Hp & -> & ->)]].
    + destruct w as [t0 h0 p0]; simpl in *. rewrite Href in H3. apply (H PInf Q (World t0 h0 p0) _ _ (conj Hrep (conj Hval Href)) H3 Ex).
    + assert (G0 : wp K (k (sgn (c_opt (e_cfg E)) v)) Q
                     (log_of (c_opt (e_cfg E)) (w_h (World t ((x, Ret v) :: w_h w) (w_pos w))))).
      { simpl. apply H2. eapply Hval; eauto. }
      destruct (H _ _ _ _ _ (conj Hrep (conj Hval Href)) G0 Ex) as [(d & Hd & HF) G].
      * simpl in Hd. split; auto. exists (d ++ [(x, Ret v)]). split. rewrite <- app_assoc. auto.
        apply Forall_app; split; auto.
    + inversion Ex; subst. split.
      * exists [(x, Raise e)]. simpl; auto.
      * right. simpl. eauto.
  - eapply (H _ _ (World (w_ts w) (w_h w) (S (w_pos w)))); eauto. split; [|split]; auto.
  - eapply (H _ _ (World (w_ts w) (w_h w) (S (w_pos w)))); eauto. split; [|split]; auto. apply Hw. apply draw_u_ok.
  - eapply (H _ _ (World (w_ts w) (w_h w) (S (w_pos w)))); eauto. split; [|split]; auto.
  - refine (H _ Q (World (w_ts w) (w_h w) (S (w_pos w))) r w' (conj Hrep (conj Hval Href)) _ Ex). apply Hw. lia.
  - eapply H; eauto. split; [|split]; auto.
Qed.
