(** Proofs about the algorithms of AlgBasic2.v. *)
From Coq Require Import ZArith Lia Bool List Permutation Sorting.Sorted.
From Verif Require Import Num Task TaskSpec TaskProofs TaskProofs2 Prog Wp GetBest Run RunSpec RunProofs RunProofs2
  AlgoLib Fops AlgTac StepSpec StepLib Indiv IndivLib Repair AlgPSO AlgPSOProofs AlgSwarm PopLib SortLib AlgBasic AlgBasic2 Det.
Import ListNotations.

(** ** take_best *)
Lemma take_best_spec : forall pop fit xb fxb, fit <> [] -> length pop = length fit -> Forall (fun f => f <> NaN) fit -> fxb <> NaN ->
  exists x f, take_best pop fit xb fxb = Done (x, f) /\ fleb f fxb = true /\ f <> NaN /\
    (forall g, In g fit -> fleb f g = true) /\
    ((exists i, nth_error pop i = Some x /\ nth_error fit i = Some f) \/ (x = xb /\ f = fxb)).
Proof.
  intros pop fit xb fxb Hne Hl Hn Hb. destruct (argmin_spec fit Hne Hn) as (b & m & E & (M1 & M2 & M3)).
  unfold take_best. rewrite E. unfold nthP at 2. rewrite M1.
  assert (b < length pop) by (rewrite Hl; apply nth_error_Some; congruence).
  unfold nthP. destruct (nth_error pop b) as [x|] eqn:Ex; [|apply nth_error_None in Ex; lia]. cbn [bind].
  assert (Hm : m <> NaN) by exact (Forall_nth _ _ _ _ _ Hn M1).
  assert (G : forall g, In g fit -> fleb m g = true) by (intros g Hg; apply In_nth_error in Hg; destruct Hg; eauto).
  destruct (fltb m fxb) eqn:Q.
  - exists x, m. split; auto. split; [apply fltb_fleb; auto|]. split; auto. split; auto. left. eauto.
  - exists xb, fxb. split; auto. split; [apply fleb_refl; auto|]. split; auto. split; auto.
    intros g Hg. eapply fleb_trans; [apply fltb_false_fleb; [| |exact Q]; auto|auto].
Qed.
(** a pair seen in the log whose value is a number *)
Definition SeenN (l : elog) (x : vec) (f : num) : Prop := Seen l x f /\ f <> NaN.
Lemma SeenN_ext : forall l l' x f, ext l l' -> SeenN l x f -> SeenN l' x f.
Proof. intros l l' x f He [H1 H2]. split; auto. eapply Seen_ext; eauto. Qed.
Lemma SeenN2_ext : forall l l' xs fs, ext l l' -> Forall2 (SeenN l) xs fs -> Forall2 (SeenN l') xs fs.
Proof. intros l l' xs fs He F. induction F; constructor; eauto using SeenN_ext. Qed.
Lemma SeenN2_nan : forall l xs fs, Forall2 (SeenN l) xs fs -> Forall (fun f => f <> NaN) fs.
Proof. induction 1; constructor; auto. apply H. Qed.
Lemma SeenN2_seen : forall l xs fs, Forall2 (SeenN l) xs fs -> Forall2 (Seen l) xs fs.
Proof. induction 1; constructor; auto. apply H. Qed.
Lemma Evald_seenN : forall x v l l', Evald x v l l' -> SeenN l' x v.
Proof. intros. split; [eapply Evald_seen; eauto|eapply Evald_nan; eauto]. Qed.
Lemma Evals_seenN : forall xs vs l l', Evals xs vs l l' -> Forall2 (SeenN l') xs vs.
Proof.
  induction 1; constructor; auto. eapply SeenN_ext; [eapply Evals_ext; eauto | eapply Evald_seenN; eauto].
Qed.
Lemma w_take_best : forall K pop fit xb fxb (Q : vec * num -> elog -> Prop) l, fit <> [] -> Forall2 (SeenN l) pop fit -> SeenN l xb fxb ->
  (forall x f, SeenN l x f -> In x pop \/ x = xb -> fleb f fxb = true -> (forall g, In g fit -> fleb f g = true) -> Q (x, f) l) ->
  wp K (take_best pop fit xb fxb) Q l.
Proof.
  intros K pop fit xb fxb Q l Hne HF Hb HQ.
  destruct (take_best_spec pop fit xb fxb Hne (Forall2_len _ _ _ _ _ HF) (SeenN2_nan _ _ _ HF) (proj2 Hb)) as (x & f & E & L & N & M & C).
  rewrite E. apply w_done. destruct C as [(i & C1 & C2)|[-> ->]].
  - apply HQ; auto; [eapply Forall2_nth; eauto|left; eapply nth_error_In; eauto].
  - apply HQ; auto.
Qed.
Lemma Good_take_best : forall l fit fxb x f, Seen l x f -> f <> NaN -> fleb f fxb = true -> (forall g, In g fit -> fleb f g = true) -> Cov l fit fxb -> Good l x f.
Proof.
  intros l fit fxb x f H1 H2 H3 H4 H5. split; auto. split; auto. intros y v Hi. destruct (H5 y v Hi) as [Q|(g & G1 & G2)].
  - exact (fleb_trans _ _ _ H3 Q).
  - exact (fleb_trans _ _ _ (H4 g G1) G2).
Qed.
Lemma not_nil_len : forall A (xs : list A) n, length xs = n -> 0 < n -> xs <> [].
Proof. intros A xs n H Hn ->. simpl in H. lia. Qed.
Ltac nonil := match goal with |- ?xs <> [] => eapply (not_nil_len _ xs); [eassumption|lia] end.

(** ** Rules shared by the contexts *)
Section Rules.
Variables (F : fops) (C : cfg) (K : wctx).
Variable Rr : vec -> vec -> Prop.
Variable Ev : vec -> num -> elog -> elog -> Prop.
Hypothesis HC : cfg_ok C.
Hypothesis HR : forall x (Q : vec -> elog -> Prop) l, length x = c_dim C -> (forall y, inside C y -> Rr x y -> Q y l) -> wp K (repair x) Q l.
Hypothesis HE : forall x (Q : num -> elog -> Prop) l, inside C x -> (forall v l', Ev x v l l' -> Q v l') -> wp K (eval x) Q l.

(** what the loop body of HarrisHawksOptimization gives before the final repair *)
Inductive hho_moved (x : vec) (f : num) (l : elog) : vec -> elog -> Prop :=
| hm_plain : forall y, length y = c_dim C -> hho_moved x f l y l
| hm_first : forall c1 f1 l1, inside C c1 -> Ev c1 f1 l l1 -> fltb f1 f = true -> hho_moved x f l c1 l1
| hm_second : forall c1 f1 l1 c2 f2 l2, inside C c1 -> inside C c2 -> Ev c1 f1 l l1 -> fltb f1 f = false -> Ev c2 f2 l1 l2 ->
    hho_moved x f l (if fltb f2 f then c2 else x) l2.

Lemma w_levy_vec_a : forall a d (Q : vec -> elog -> Prop) l, (forall v, length v = d -> Q v l) -> wp K (levy_vec_a F a d) Q l.
Proof.
  intros a d Q l H. unfold levy_vec_a. apply wp_bind. apply w_rnd_f_vec. intros u Hu. apply wp_bind. apply w_rnd_f_vec. intros v Hv.
  apply w_done. apply H. apply map2_length; auto.
Qed.
Lemma w_hho_dive : forall p x f t (Q : vec -> elog -> Prop) l, length x = c_dim C -> length t = c_dim C ->
  (forall y l', hho_moved x f l y l' -> Q y l') -> wp K (hho_dive F C p x f t) Q l.
Proof.
  intros p x f t Q l Hx Ht HQ. unfold hho_dive. apply wp_bind. apply HR; auto. intros c1 I1 _. assert (L1 := inside_len _ _ HC I1).
  apply wp_bind. apply w_random_vec. intros r Hr. apply wp_bind. apply w_levy_vec_a. intros s Hs.
  apply wp_bind. apply HR. { dl. } intros c2 I2 _. apply wp_bind. apply HE; auto. intros f1 l1 E1.
  destruct (fltb f1 f) eqn:Q1; [apply w_done; apply HQ; exact (hm_first x f l c1 f1 l1 I1 E1 Q1)|].
  apply wp_bind. apply HE; auto. intros f2 l2 E2. apply w_done. apply HQ. exact (hm_second x f l c1 f1 l1 c2 f2 l2 I1 I2 E1 Q1 E2).
Qed.
Lemma w_hho_move : forall p fac mean xb pop fit i x f (Q : vec -> elog -> Prop) l,
  length pop = hh_n p -> length fit = hh_n p -> dims (c_dim C) pop -> length xb = c_dim C ->
  nth_error pop i = Some x -> nth_error fit i = Some f ->
  (forall y l', hho_moved x f l y l' -> Q y l') -> wp K (hho_move F C p fac mean xb pop fit i) Q l.
Proof.
  intros p fac mean xb pop fit i x f Q l Lp Lf Hd Lb Ex Ef HQ. unfold hho_move. cbv zeta.
  assert (Lx : length x = c_dim C) by dnth.
  assert (0 < hh_n p). { assert (i < length pop) by (apply nth_error_Some; congruence). lia. }
  assert (HP : forall y, length y = c_dim C -> Q y l) by (intros y Hy; apply HQ; apply hm_plain; auto).
  apply wp_bind. apply w_uniform. intros jump _. apply wp_bind. apply w_uniform. intros u _. apply wp_bind. apply w_random. intros r _ _.
  unfold nthP at 1. rewrite Ex. cbn [bind].
  destruct (_ && _); [|destruct (_ && _); [|destruct (_ && _); [|destruct (_ && _); [|destruct (_ && _); [|destruct (_ && _)]]]]].
  - apply wp_bind. apply w_integers; auto. intros h Hh. apply wp_bind. apply w_nthP; [lia|]. intros y Ey. assert (length y = c_dim C) by dnth.
    apply wp_bind. apply w_random. intros a _ _. apply wp_bind. apply w_random. intros b _ _. apply w_done. apply HP. dl.
  - apply wp_bind. apply w_random. intros a _ _. apply wp_bind. apply w_uniform_pt; auto. intros z Hz. apply w_done. apply HP. dl.
  - apply w_done. apply HP. dl.
  - apply w_done. apply HP. dl.
  - unfold nthP. rewrite Ef. cbn [bind]. apply w_hho_dive; auto. dl.
  - unfold nthP. rewrite Ef. cbn [bind]. apply w_hho_dive; auto. dl.
  - apply w_done. auto.
Qed.
Lemma w_hho_step : forall p fac mean xb s i x f (Q : list vec * list num -> elog -> Prop) l,
  length (fst s) = hh_n p -> length (snd s) = hh_n p -> dims (c_dim C) (fst s) -> length xb = c_dim C ->
  nth_error (fst s) i = Some x -> nth_error (snd s) i = Some f ->
  (forall y l1 z g l', hho_moved x f l y l1 -> inside C z -> Rr y z -> Ev z g l1 l' -> Q (upd (fst s) i z, upd (snd s) i g) l') ->
  wp K (hho_step F C p fac mean xb s i) Q l.
Proof.
  intros p fac mean xb s i x f Q l Lp Lf Hd Lb Ex Ef HQ. unfold hho_step.
  assert (Hi : i < hh_n p). { rewrite <- Lp. apply nth_error_Some. congruence. }
  assert (Lx : length x = c_dim C) by dnth.
  apply wp_bind. eapply w_hho_move; eauto. intros y l1 Hm.
  assert (Ly : length y = c_dim C). { inversion Hm; subst; auto using inside_len. destruct (fltb f2 f); auto using inside_len. }
  apply wp_bind. apply HR; auto. intros z Iz Rz. apply wp_bind. apply w_setP; [lia|]. apply wp_bind. apply HE; auto. intros g l' Hg.
  apply wp_bind. apply w_setP; [lia|]. apply w_done. eapply HQ; eauto.
Qed.
End Rules.

(** ** Invariants: evaluated population, best pair seen *)
Record PopSeen (C : cfg) (n : nat) (pop : list vec) (fit : list num) (xb : vec) (fxb : num) (l : elog) : Prop := {
  ps_pop : length pop = n; ps_fit : length fit = n; ps_in : Forall (inside C) pop; ps_seen : Forall2 (SeenN l) pop fit;
  ps_xb : length xb = c_dim C; ps_best : SeenN l xb fxb
}.
Lemma pi_ps : forall C n pop fit xb fxb l, PopInv C n pop fit xb fxb l -> PopSeen C n pop fit xb fxb l.
Proof.
  intros C n pop fit xb fxb l H. assert (N := pi_nan _ _ _ _ _ _ _ H). destruct H as [P1 P2 P3 P4 P5 P6]. constructor; auto.
  - clear - P4 N. induction P4; inversion N; subst; constructor; auto. split; auto.
  - split; apply P6.
Qed.
Lemma ps_dims : forall C n pop fit xb fxb l, cfg_ok C -> PopSeen C n pop fit xb fxb l -> dims (c_dim C) pop.
Proof. intros C n pop fit xb fxb l HC H. apply dims_inside; auto. apply H. Qed.
Lemma ps_ext : forall C n pop fit xb fxb l l', ext l l' -> PopSeen C n pop fit xb fxb l -> PopSeen C n pop fit xb fxb l'.
Proof. intros C n pop fit xb fxb l l' He [P1 P2 P3 P4 P5 P6]. constructor; auto; [eapply SeenN2_ext; eauto|eapply SeenN_ext; eauto]. Qed.
Lemma ps_set : forall C n pop fit xb fxb l l' i x f, PopSeen C n pop fit xb fxb l -> ext l l' -> inside C x -> SeenN l' x f ->
  PopSeen C n (upd pop i x) (upd fit i f) xb fxb l'.
Proof.
  intros C n pop fit xb fxb l l' i x f H He Hx Hf. apply (ps_ext _ _ _ _ _ _ _ _ He) in H. destruct H as [P1 P2 P3 P4 P5 P6].
  constructor; rewrite ?upd_length; auto; [apply Forall_upd; auto|apply Forall2_upd; auto].
Qed.
Lemma w_ps_take : forall C K n pop fit xb fxb (Q : vec * num -> elog -> Prop) l, cfg_ok C -> 0 < n -> PopSeen C n pop fit xb fxb l ->
  (forall x f, PopSeen C n pop fit x f l -> fleb f fxb = true -> (forall g, In g fit -> fleb f g = true) -> Q (x, f) l) ->
  wp K (take_best pop fit xb fxb) Q l.
Proof.
  intros C K n pop fit xb fxb Q l HC Hn [P1 P2 P3 P4 P5 P6] HQ. apply w_take_best; auto; [nonil|].
  intros x f Hs Hx Hl Hg. apply HQ; auto. constructor; auto. destruct Hx as [Hx| ->]; auto. apply inside_len; auto. rewrite Forall_forall in P3. auto.
Qed.
(** in a context of evaluations that are never refused *)
Definition EvD (V : vec -> num -> Prop) (x : vec) (v : num) (l l' : elog) : Prop := v <> NaN /\ V x v /\ l' = (x, v) :: l.
Lemma EvD_Evald : forall V x v l l', EvD V x v l l' -> Evald x v l l'.
Proof. intros V x v l l' (H1 & H2 & ->). left. auto. Qed.
Lemma w_default_numpy_init_d : forall C (R : vec -> vec -> Prop) (V : vec -> num -> Prop) X n (Q : list vec * list num -> elog -> Prop) l, cfg_ok C -> 0 < n ->
  (forall pop fit l', length pop = n -> Forall (inside C) pop -> Evals pop fit l l' -> Forall2 (fun x v => v <> NaN /\ V x v /\ In (x, v) l') pop fit -> Q (pop, fit) l') ->
  wp (KD C R V (inside C) X) (default_numpy_init C n) Q l.
Proof.
  intros C R V X n Q l HC Hn HQ. unfold default_numpy_init. apply wp_bind. apply w_uniform_pop; auto.
  intros pop H1 H2. apply wp_bind. apply w_eval_all_d; auto.
  - right. nonil.
  - intros fs l' He Hf. apply w_done. auto.
Qed.
Lemma pi_first : forall C K n pop fit (Q : vec * num -> elog -> Prop) l, cfg_ok C -> 0 < n -> length pop = n -> Forall (inside C) pop -> Evals pop fit [] l ->
  (forall x f, PopInv C n pop fit x f l -> Q (x, f) l) -> wp K (lift (get_best pop fit None PInf)) Q l.
Proof.
  intros C K n pop fit Q l HC Hn Hl Hin He HQ. apply (w_get_best0 _ l); auto; [nonil|].
  intros x f HG Hx. apply HQ. constructor; auto.
  - apply Evals_len in He. lia.
  - eapply Evals_seen; eauto.
  - apply inside_len; auto. rewrite Forall_forall in Hin. auto.
Qed.

(** ** HarrisHawksOptimization *)
Section HHO.
Variables (F : fops) (C : cfg) (p : hho_par).
Hypothesis HC : cfg_ok C.
Hypothesis Hn : 0 < hh_n p.
Let I (pop : list vec) (fit : list num) (xb : vec) (fxb : num) (u : unit) (l : elog) : Prop := PopSeen C (hh_n p) pop fit xb fxb l.
Lemma moved_ext : forall x f l y l', hho_moved C (fun x v l l' => Evald x v l l') x f l y l' -> ext l l'.
Proof. intros x f l y l' H. inversion H; subst; auto; [eapply Evald_ext; eauto|eapply ext_trans; eapply Evald_ext; eauto]. Qed.
Lemma hho_init_c : forall X it, init_c (KBX C X) (Algo (list vec) unit (fun pop => pop) (plain_init C (hh_n p)) it) I.
Proof.
  intros X it. unfold init_c. cbn [a_init a_coords]. unfold plain_init. apply wp_bind. apply w_default_numpy_init; auto.
  intros pop fit l H1 H2 H3. apply w_done. eapply pi_first; eauto. intros x f H. apply pi_ps. exact H.
Qed.
Lemma hho_iter_c : forall X pop fit xb fxb u l, I pop fit xb fxb u l ->
  wp (KBX C X) (hho_iter F C p pop fit xb fxb u) (fun a l' => let '(pop', fit', xb', fxb', u') := a in I pop' fit' xb' fxb' u' l' /\ fleb fxb' fxb = true /\ (forall g, In g fit' -> fleb fxb' g = true)) l.
Proof.
  intros X pop fit xb fxb u l H. unfold hho_iter. apply wp_bind. apply w_view. intros v. apply wp_bind. eapply wp_conseq0.
  - apply (wp_for_range _ _ _ _ (fun i s l' => PopSeen C (hh_n p) (fst s) (snd s) xb fxb l')); [exact H|].
    intros i [pop' fit'] l' Hi Hs. cbn [fst snd] in *.
    destruct (nth_error pop' i) as [x|] eqn:Ex; [|apply nth_error_None in Ex; destruct Hs; lia].
    destruct (nth_error fit' i) as [f|] eqn:Ef; [|apply nth_error_None in Ef; destruct Hs; lia].
    eapply (w_hho_step F C (KBX C X) (fun _ _ => True) (fun x v l l' => Evald x v l l')); cbn [fst snd]; eauto; try apply Hs.
    + intros y Q0 l0 Hy HQ. apply w_repair; auto.
    + intros y Q0 l0 Hy HQ. apply w_eval; auto.
    + eapply ps_dims; eauto.
    + intros y l1 z g l2 Hm Hz _ Hg. assert (X1 := moved_ext _ _ _ _ _ Hm). eapply ps_set; eauto.
      * eapply ext_trans; [exact X1|eapply Evald_ext; eauto].
      * eapply Evald_seenN; eauto.
  - intros [pop' fit'] l' Hs. cbn [fst snd] in Hs. apply wp_bind. eapply w_ps_take; eauto. intros x f Hx Hf Hg. apply w_done. auto.
Qed.

(** without refused evaluations, for a problem that is a function and a repair that leaves feasible points alone *)
Variable g : vec -> num.
Let V (x : vec) (v : num) : Prop := v = g x.
Let R (x y : vec) : Prop := inside C x -> y = x.
Let J (pop : list vec) (fit : list num) (xb : vec) (fxb : num) (u : unit) (l : elog) : Prop := PopInv C (hh_n p) pop fit xb fxb l.
Lemma hho_init_d : forall X it, init_c (KD C R V (inside C) X) (Algo (list vec) unit (fun pop => pop) (plain_init C (hh_n p)) it) J.
Proof.
  intros X it. unfold init_c. cbn [a_init a_coords]. unfold plain_init. apply wp_bind. apply w_default_numpy_init_d; auto.
  intros pop fit l H1 H2 H3 _. apply w_done. apply (pi_first C _ (hh_n p)); auto.
Qed.
Lemma good_le : forall l xb fxb x f, Good l xb fxb -> Seen l x f -> fleb fxb f = true.
Proof. intros l xb fxb x f (G1 & G2 & G3) [->|H]; [apply fleb_PInf; auto|eauto]. Qed.
Lemma firstn_upd : forall A (xs : list A) i a, firstn i (upd xs i a) = firstn i xs.
Proof. induction xs; destruct i; simpl; intros; auto. rewrite IHxs. auto. Qed.
Lemma firstn_S_nth : forall A (xs : list A) i a, nth_error xs i = Some a -> firstn (i + 1) xs = firstn i xs ++ [a].
Proof. induction xs; destruct i; simpl; intros b H; try discriminate; [injection H as ->; reflexivity|]. rewrite (IHxs _ _ H). auto. Qed.
Definition hho_J (xb : vec) (fxb : num) (i : nat) (s : list vec * list num) (l : elog) : Prop :=
  PopSeen C (hh_n p) (fst s) (snd s) xb fxb l /\ Cov l (firstn i (snd s)) fxb /\
  (forall j f, i <= j -> nth_error (snd s) j = Some f -> fleb fxb f = true).
Lemma hho_iter_d : forall X, iter_c (KD C R V (inside C) X) (hho F C p) J.
Proof.
  intros X pop fit xb fxb u l H. unfold J in H. cbn [a_iter hho]. unfold hho_iter. apply wp_bind. apply w_view. intros v. apply wp_bind. eapply wp_conseq0.
  - apply (wp_for_range _ _ _ _ (hho_J xb fxb)).
    + split; [apply pi_ps; auto|]. cbn [fst snd firstn]. split; [eapply Good_Cov; apply H|]. intros j f _ E.
      destruct (nth_error pop j) as [x|] eqn:Ex; [|apply nth_error_None in Ex; assert (j < length fit) by (apply nth_error_Some; congruence); destruct H; lia].
      eapply good_le; [apply H|]. exact (Forall2_nth _ _ _ _ _ _ _ _ (pi_seen _ _ _ _ _ _ _ H) Ex E).
    + intros i [pop' fit'] l' Hi (Hs & Hcov & Htl). cbn [fst snd] in *.
      destruct (nth_error pop' i) as [x|] eqn:Ex; [|apply nth_error_None in Ex; destruct Hs; lia].
      destruct (nth_error fit' i) as [f|] eqn:Ef; [|apply nth_error_None in Ef; destruct Hs; lia].
      assert (Ix : inside C x) by exact (Forall_nth _ _ _ _ _ (ps_in _ _ _ _ _ _ _ Hs) Ex).
      assert (Nf : f <> NaN) by exact (Forall_nth _ _ _ _ _ (SeenN2_nan _ _ _ (ps_seen _ _ _ _ _ _ _ Hs)) Ef).
      assert (Lf : fleb fxb f = true) by (eapply Htl; [|exact Ef]; lia).
      eapply (w_hho_step F C (KD C R V (inside C) X) R (EvD V)); cbn [fst snd]; eauto; try apply Hs.
      * intros y Q0 l0 Hy HQ. apply w_repair_d; auto.
      * intros y Q0 l0 Hy HQ. apply w_eval_d; auto. intros w W1 W2. apply HQ. split; [|split]; auto.
      * eapply ps_dims; eauto.
      * intros y l1 z h l2 Hm Hz Hr Hh. split; [|split]; cbn [fst snd].
        -- assert (X1 : ext l' l1). { inversion Hm; subst; auto; [eapply Evald_ext; eapply EvD_Evald; eauto|].
             eapply ext_trans; eapply Evald_ext; eapply EvD_Evald; eauto. }
           eapply ps_set; eauto; [|eapply Evald_seenN; eapply EvD_Evald; eauto].
           eapply ext_trans; [exact X1|eapply Evald_ext; eapply EvD_Evald; eauto].
        -- rewrite (firstn_S_nth _ _ i h); [|apply nth_upd_same; destruct Hs; lia]. rewrite firstn_upd.
           assert (G : forall l1, Cov l1 (h :: firstn i fit') fxb -> Cov l1 (firstn i fit' ++ [h]) fxb).
           { intros l3 H3. eapply Cov_incl; [|exact H3]. intros a [->|Ha]; apply in_or_app; simpl; auto. }
           apply G. destruct Hh as (N1 & V1 & ->).
           assert (G2 : forall l3, (forall a b, In (a, b) l3 -> fleb h b = true \/ fleb fxb b = true \/ exists f, In f (firstn i fit') /\ fleb f b = true) ->
                          Cov ((z, h) :: l3) (h :: firstn i fit') fxb).
           { intros l3 H3 a b [Q0|Hab]; [inversion Q0; subst; right; exists b; split; [left; auto|apply fleb_refl; auto]|].
             destruct (H3 _ _ Hab) as [G3|[G3|(f3 & G3 & G4)]]; auto; right; [exists h; split; [left; auto|auto]|exists f3; split; [right; auto|auto]]. }
           apply G2. intros a b Hab. inversion Hm; subst.
           ++ destruct (Hcov _ _ Hab); auto.
           ++ destruct H1 as (N2 & V2 & ->). rewrite (Hr H0) in *. unfold V in *. destruct Hab as [Q0|Hab]; [|destruct (Hcov _ _ Hab); auto].
              inversion Q0; subst. left. apply fleb_refl; auto.
           ++ destruct H2 as (N2 & V2 & ->). destruct H4 as (N3 & V3 & ->). destruct Hab as [Q0|[Q0|Hab]]; [| |destruct (Hcov _ _ Hab); auto].
              ** inversion Q0; subst a b. destruct (fltb f2 f) eqn:Q2.
                 --- rewrite (Hr H1) in *. unfold V in *. left. rewrite V1, <- V3. apply fleb_refl; auto.
                 --- right. left. eapply fleb_trans; [exact Lf|]. apply fltb_false_fleb; auto.
              ** inversion Q0; subst a b. right. left. eapply fleb_trans; [exact Lf|]. apply fltb_false_fleb; auto.
        -- intros j k Hj Ek. rewrite nth_upd_other in Ek by lia. eapply Htl; [|exact Ek]. lia.
  - intros [pop' fit'] l' (Hs & Hcov & _). cbn [fst snd] in *.
    assert (Hl : length fit' = hh_n p) by apply Hs. rewrite <- Hl, firstn_all in Hcov.
    apply wp_bind. eapply w_ps_take; eauto. intros x f Hx Hf Hg. apply w_done. unfold J. destruct Hx as [P1 P2 P3 P4 P5 P6]. constructor; auto.
    + apply SeenN2_seen; auto.
    + eapply Good_take_best; eauto; apply P6.
Qed.
End HHO.

(** ** ArtificialBeeColonyAlgorithm *)
Lemma map_upd : forall A B (f : A -> B) xs i a, map f (upd xs i a) = upd (map f xs) i (f a).
Proof. induction xs; destruct i; simpl; intros; auto. rewrite IHxs. auto. Qed.
Section ABC.
Variables (F : fops) (C : cfg) (p : abc_par) (X : exn -> Prop).
Hypothesis HC : cfg_ok C.
Hypothesis HX : (idx_ok F (c_dim C) /\ (ab_food p = 0 \/ idx_ok F (ab_food p))) \/ X EIndex.
Record AbcInv (s : colony) (l : elog) : Prop := {
  ai_pop : length (co_pop s) = ab_n p; ai_tr : length (co_tr s) = ab_food p; ai_ok : Forall (IOk C l) (co_pop s);
  ai_xb : length (co_xb s) = c_dim C; ai_good : Good l (co_xb s) (co_fxb s)
}.
Lemma food_le : ab_food p <= ab_n p.
Proof. unfold ab_food. apply Nat.div_le_upper_bound; lia. Qed.
(** a new individual replaces row i; the best is updated iff it is strictly better *)
Lemma ai_set : forall s l i a l' tr, AbcInv s l -> inside C (fst a) -> Evald (fst a) (snd a) l l' -> length tr = ab_food p ->
  AbcInv (if fltb (snd a) (co_fxb s) then Colony (upd (co_pop s) i a) tr (fst a) (snd a) else Colony (upd (co_pop s) i a) tr (co_xb s) (co_fxb s)) l'.
Proof.
  intros s l i a l' tr [A1 A2 A3 A4 A5] Hi He Ht. assert (Hx := Evald_ext _ _ _ _ He).
  assert (Hp : Forall (IOk C l') (upd (co_pop s) i a)) by (apply Forall_upd; [eapply IOks_ext; eauto|split; auto; eapply Evald_seen; eauto]).
  destruct (fltb (snd a) (co_fxb s)) eqn:Q; constructor; cbn [co_pop co_tr co_xb co_fxb]; rewrite ?upd_length; auto.
  - apply inside_len; auto.
  - eapply Good_take; eauto. apply fltb_fleb; auto.
  - eapply Good_keep; eauto.
Qed.
(** nothing but the counters changes: the new point was not better than a member *)
Lemma ai_keep : forall s l a o l' tr, AbcInv s l -> Evald (fst a) (snd a) l l' -> In o (co_pop s) -> fltb (snd a) (snd o) = false -> length tr = ab_food p ->
  AbcInv (Colony (co_pop s) tr (co_xb s) (co_fxb s)) l'.
Proof.
  intros s l a o l' tr [A1 A2 A3 A4 A5] He Ho Hf Ht. assert (Hx := Evald_ext _ _ _ _ He). constructor; cbn [co_pop co_tr co_xb co_fxb]; auto.
  - eapply IOks_ext; eauto.
  - rewrite Forall_forall in A3. destruct (A3 _ Ho) as [_ So]. assert (L := good_le _ _ _ _ _ A5 So).
    eapply Good_keep; eauto. apply fleb_fltb_false. eapply fleb_trans; [exact L|]. apply fltb_false_fleb; auto.
    + eapply Evald_nan; eauto.
    + eapply fleb_nan_r; eauto.
Qed.
Lemma w_ind_evaluate : forall x (Q : ind -> elog -> Prop) l, length x = c_dim C ->
  (forall y v l', inside C y -> Evald y v l l' -> Q (y, v) l') -> wp (KBX C X) (ind_evaluate x) Q l.
Proof. intros x Q l Hx HQ. apply (w_new_ind C X x); auto. Qed.
Lemma w_abc_scout : forall s l k, AbcInv s l -> k < ab_food p -> wp (KBX C X) (abc_scout C s k) AbcInv l.
Proof.
  intros s l k H Hk. assert (Hf := food_le). unfold abc_scout. apply wp_bind. apply w_rand_ind; auto. intros y v l' Hy He.
  apply wp_bind. apply w_setP; [rewrite (ai_pop _ _ H); lia|]. apply wp_bind. apply w_setP; [rewrite (ai_tr _ _ H); lia|]. apply w_done.
  apply (ai_set s l k (y, v) l'); auto. rewrite upd_length. apply H.
Qed.
Lemma w_abc_select : forall s l i k a l', AbcInv s l -> i < ab_food p -> k < ab_food p -> inside C (fst a) -> Evald (fst a) (snd a) l l' ->
  wp (KBX C X) (abc_select C p s i k a) AbcInv l'.
Proof.
  intros s l i k a l' H Hi Hk Ha He. assert (Hf := food_le). assert (L1 := ai_pop _ _ H). assert (L2 := ai_tr _ _ H). unfold abc_select.
  apply wp_bind. apply w_nthP; [lia|]. intros o Eo. destruct (fltb (snd a) (snd o)) eqn:Q.
  - apply wp_bind. apply w_setP; [lia|]. apply wp_bind. apply w_setP; [lia|]. apply w_done. eapply ai_set; eauto. rewrite upd_length. auto.
  - apply wp_bind. apply w_nthP; [lia|]. intros t Et. apply wp_bind. apply w_setP; [lia|]. apply wp_bind. apply w_nthP; [rewrite upd_length; lia|]. intros tk Etk.
    cbv zeta. assert (G : AbcInv (Colony (co_pop s) (upd (co_tr s) i (t + 1)%Z) (co_xb s) (co_fxb s)) l').
    { eapply ai_keep; eauto; [eapply nth_error_In; eauto|rewrite upd_length; auto]. }
    destruct (ab_limit p <=? tk)%Z; [apply w_abc_scout; auto|apply w_done; auto].
Qed.
Lemma w_food_index : forall n (Q : nat -> elog -> Prop) l, (forall i, (idx_ok F n -> i < n) -> Q i l) -> wp (KBX C X) (food_index F n) Q l.
Proof.
  intros n Q l H. unfold food_index. apply wp_bind. apply w_random. intros r H1 H2. apply w_done. apply H. intros Hi.
  destruct (Hi r (conj H1 H2)) as [_ H3]. lia.
Qed.
Lemma w_abc_neighbor : forall n s fuel (Q : nat -> elog -> Prop) l, (forall i, (idx_ok F n -> i < n) -> i <> s -> Q i l) -> wp (KBX C X) (abc_neighbor F n s fuel) Q l.
Proof.
  intros n s fuel Q l H. induction fuel; [simpl; auto|]. cbn [abc_neighbor]. apply wp_bind. apply w_food_index. intros k Hk.
  destruct (k =? s) eqn:E; auto. apply w_done. apply H; auto. apply Nat.eqb_neq. auto.
Qed.
Lemma w_abc_candidate : forall x xn k (Q : ind -> elog -> Prop) l, length x = c_dim C -> length xn = c_dim C -> (k < c_dim C \/ X EIndex) ->
  (forall y v l', inside C y -> Evald y v l l' -> Q (y, v) l') -> wp (KBX C X) (abc_candidate F x xn k) Q l.
Proof.
  intros x xn k Q l Lx Ln Hk HQ. unfold abc_candidate. apply wp_bind. apply w_nthP_i; [rewrite Lx; auto|]. intros a Ea.
  assert (k < length x) by (apply nth_error_Some; congruence).
  apply wp_bind. apply w_nthP; [lia|]. intros b Eb. apply wp_bind. apply w_uniform. intros u _. apply wp_bind. apply w_setP; auto.
  apply w_ind_evaluate; auto. rewrite upd_length. auto.
Qed.
Lemma row_len : forall s l i a, AbcInv s l -> nth_error (co_pop s) i = Some a -> length (fst a) = c_dim C.
Proof. intros s l i a H E. apply inside_len; auto. exact (proj1 (Forall_nth _ _ _ _ _ (ai_ok _ _ H) E)). Qed.
Lemma w_abc_employed : forall s i l, AbcInv s l -> i < ab_food p -> wp (KBX C X) (abc_employed F C p s i) AbcInv l.
Proof.
  intros s i l H Hi. assert (Hf := food_le). assert (L1 := ai_pop _ _ H). unfold abc_employed. apply wp_bind. apply w_nthP; [lia|]. intros o Eo.
  apply wp_bind. apply w_rand_index. intros k Hk. apply wp_bind. apply w_food_index. intros n Hn.
  apply wp_bind. apply w_nthP_i. { destruct HX as [[_ [Q|Q]]|Q]; [lia| |auto]. apply Hn in Q. lia. }
  intros nb En. apply wp_bind. apply w_abc_candidate.
  - eapply row_len; eauto.
  - eapply row_len; eauto.
  - tauto.
  - intros y v l' Hy He. eapply w_abc_select; eauto.
Qed.
Lemma w_abc_onlooker : forall fuel s i l, AbcInv s l -> i < ab_food p -> wp (KBX C X) (abc_onlooker F C p fuel s i) AbcInv l.
Proof.
  intros fuel s i l H Hi. assert (Hf := food_le). assert (L1 := ai_pop _ _ H). unfold abc_onlooker. apply wp_bind. apply w_nthP; [lia|]. intros o Eo.
  apply wp_bind. apply w_rand_index. intros k Hk. apply wp_bind. apply w_abc_neighbor. intros n Hn _.
  apply wp_bind. apply w_nthP_i. { destruct HX as [[_ [Q|Q]]|Q]; [lia| |auto]. apply Hn in Q. lia. }
  intros nb En. apply wp_bind. apply w_abc_candidate.
  - eapply row_len; eauto.
  - eapply row_len; eauto.
  - tauto.
  - intros y v l' Hy He. eapply w_abc_select; eauto. lia.
Qed.
Lemma w_abc_onlookers : forall nf probs fuel t i s l, length probs = ab_food p -> AbcInv s l -> (0 < ab_food p -> i < ab_food p) ->
  wp (KBX C X) (abc_onlookers F C p nf probs fuel t i s) AbcInv l.
Proof.
  intros nf probs fuel. induction fuel as [|fu IH]; intros t i s l Hp H Hi; cbn [abc_onlookers]; destruct (ab_food p <=? t) eqn:Q.
  - exact H.
  - left. reflexivity.
  - exact H.
  - apply Nat.leb_gt in Q. assert (Hi' := Hi ltac:(lia)). apply wp_bind. apply w_random. intros r _ _. apply wp_bind. apply w_nthP; [lia|]. intros q Eq. cbv zeta.
    assert (Hj : 0 < ab_food p -> (if S i =? ab_food p then 0 else S i) < ab_food p) by (intros; destruct (S i =? ab_food p) eqn:Q1; [lia|apply Nat.eqb_neq in Q1; lia]).
    destruct (fltb r q); [|apply IH; auto]. apply wp_bind. eapply wp_conseq0; [apply w_abc_onlooker; eauto|]. intros s' l' H'. apply IH; auto.
Qed.
Let I (pop : list ind) (fit : list num) (xb : vec) (fxb : num) (tr : list Z) (l : elog) : Prop := AbcInv (Colony pop tr xb fxb) l /\ fit = map snd pop.
Lemma abc_init_c : forall fuel, 0 < ab_n p -> init_c (KBX C X) (abc F C p fuel) I.
Proof.
  intros fuel Hn. unfold init_c. cbn [a_init abc a_coords]. unfold abc_init. apply wp_bind. apply w_default_individual_init; auto.
  intros pop l H1 H2 H3. apply w_done. eapply w_get_best0_i; eauto; [nonil|]. intros x f HG Hx. split; auto. constructor; cbn; auto; [rewrite repeat_length; auto|apply inside_len; auto].
Qed.
Lemma abc_probs_len : forall pop, length pop = ab_n p -> length (abc_probs F p pop) = ab_food p.
Proof. intros pop H. unfold abc_probs. cbv zeta. rewrite !map_length, firstn_length, H. assert (Hf := food_le). lia. Qed.
Lemma abc_iter_c : forall fuel, iter_c (KBX C X) (abc F C p fuel) I.
Proof.
  intros fuel pop fit xb fxb tr l [H _]. cbn [a_iter abc]. unfold abc_iter. apply wp_bind. eapply wp_conseq0.
  - apply (wp_for_range _ _ _ _ (fun i s l' => AbcInv s l')); [exact H|]. intros i s l' Hi Hs. apply w_abc_employed; auto.
  - intros s l' Hs. apply wp_bind. eapply wp_conseq0; [apply w_abc_onlookers; eauto; apply abc_probs_len; apply Hs|].
    intros s' l2 Hs'. apply w_done. split; auto. destruct s'; exact Hs'.
Qed.
End ABC.

(** ** ForestOptimizationAlgorithm *)
Section SortOn.
Variable A : Type.
Variable key : A -> num.
Let klt (a b : A) : Prop := key_le (key a) (key b) = true.
Lemma ins_on_perm : forall x xs, Permutation (x :: xs) (ins_on key x xs).
Proof.
  intros x xs. induction xs as [|y xs IH]; simpl; auto. destruct (key_le _ _); auto.
  eapply perm_trans; [apply perm_swap|]. constructor. exact IH.
Qed.
Lemma sort_on_perm : forall xs, Permutation xs (sort_on key xs).
Proof. induction xs as [|x xs IH]; simpl; auto. eapply perm_trans; [|apply ins_on_perm]. constructor. exact IH. Qed.
Lemma ins_on_sorted : forall x xs, StronglySorted klt xs -> StronglySorted klt (ins_on key x xs).
Proof.
  intros x xs H. induction H as [|y xs H IH Hy]; simpl; [repeat constructor|].
  destruct (key_le (key x) (key y)) eqn:E.
  - constructor; [constructor; auto|]. constructor; [exact E|]. eapply Forall_impl; [|exact Hy].
    intros z Hz. red. eapply key_le_trans; [exact E|exact Hz].
  - constructor; auto. apply Forall_forall. intros z Hz. apply (Permutation_in z (Permutation_sym (ins_on_perm x xs))) in Hz. destruct Hz as [->|Hz].
    + apply key_le_total. exact E.
    + rewrite Forall_forall in Hy. apply Hy; auto.
Qed.
Lemma sort_on_sorted : forall xs, StronglySorted klt (sort_on key xs).
Proof. induction xs; simpl; [constructor|]. apply ins_on_sorted; auto. Qed.
Lemma sort_on_length : forall xs, length (sort_on key xs) = length xs.
Proof. intros. symmetry. apply Permutation_length. apply sort_on_perm. Qed.
Lemma sort_on_In : forall xs a, In a (sort_on key xs) <-> In a xs.
Proof. intros xs a. split; apply Permutation_in; [apply Permutation_sym|]; apply sort_on_perm. Qed.
(** the first ones are below all the others *)
Lemma sort_on_split : forall xs n a b, In a (firstn n (sort_on key xs)) -> In b (skipn n (sort_on key xs)) -> key_le (key a) (key b) = true.
Proof.
  intros xs n. generalize (sort_on key xs) (sort_on_sorted xs). clear xs. intros xs H. revert n. induction H as [|y xs H IH Hy]; intros [|n] a b Ha Hb; simpl in *; try contradiction.
  destruct Ha as [->|Ha]; [|eapply IH; eauto]. rewrite Forall_forall in Hy. apply Hy. eapply skipn_In; eauto.
Qed.
End SortOn.
Lemma combine_SeenN : forall A (x : A -> vec) l ts fs, Forall2 (SeenN l) (map x ts) fs -> Forall (fun a => SeenN l (x (fst a)) (snd a)) (combine ts fs).
Proof. intros A x l ts. induction ts; destruct fs; simpl; intros H; constructor; inversion H; subst; auto. Qed.
Lemma Forall_SeenN2 : forall A (x : A -> vec) l (s : list (A * num)), Forall (fun a => SeenN l (x (fst a)) (snd a)) s -> Forall2 (SeenN l) (map (fun a => x (fst a)) s) (map snd s).
Proof. induction 1; simpl; constructor; auto. Qed.
Lemma combine_snd : forall A B (xs : list A) (ys : list B), length xs = length ys -> map snd (combine xs ys) = ys.
Proof. induction xs; destruct ys; simpl; intros; try discriminate; auto. rewrite IHxs; auto. Qed.
Lemma Forall2_nth_ex : forall A B (P : A -> B -> Prop) xs ys, length xs = length ys ->
  (forall i a b, nth_error xs i = Some a -> nth_error ys i = Some b -> P a b) -> Forall2 P xs ys.
Proof.
  induction xs; destruct ys; simpl; intros Hl H; try discriminate; constructor.
  - apply (H 0); auto.
  - apply IHxs; auto. intros i. apply (H (S i)).
Qed.
(** one component replaced by a number of its range *)
Lemma inside_upd : forall C x j u lo hi, cfg_ok C -> inside C x -> nth_error (c_lower C) j = Some lo -> nth_error (c_upper C) j = Some hi ->
  fleb lo u = true -> fleb u hi = true -> inside C (upd x j u).
Proof.
  intros C x j u lo hi (H1 & H2 & _) Hx El Eu L1 L2. unfold inside in *.
  apply Forall2_nth_ex; [rewrite upd_length; eapply Forall2_len; eauto|].
  intros i b a Eb Ea. destruct (Nat.eq_dec i j) as [->|Hij].
  - assert (j < length x) by (rewrite <- (upd_length _ x j u); apply nth_error_Some; congruence).
    rewrite nth_upd_same in Ea by auto. injection Ea as <-.
    assert (Ec : nth_error (combine (c_lower C) (c_upper C)) j = Some (lo, hi)).
    { clear - El Eu. revert j El Eu. generalize (c_lower C) (c_upper C). intros xs. induction xs; intros [|y ys] [|j]; simpl; intros; try discriminate; auto. congruence. }
    rewrite Ec in Eb. injection Eb as <-. right; split; auto.
  - rewrite nth_upd_other in Ea by auto. exact (Forall2_nth _ _ _ _ _ _ _ _ Hx Eb Ea).
Qed.
(** numpy's choice without replacement asked for too many *)
Lemma w_choice_from_over : forall A K k (xs : list A) (Q : list A -> elog -> Prop) l, K_exn K EValue -> length xs < k -> wp K (choice_from xs k) Q l.
Proof.
  intros A K k. induction k; intros xs Q l He Hk; [lia|]. destruct xs as [|x xs]; [exact He|]. cbn [choice_from].
  apply wp_bind. apply w_integers; [simpl; lia|]. intros i Hi. apply wp_bind. apply w_nthP; auto. intros a _. apply wp_bind. apply IHk; auto.
  rewrite remove_at_length by auto. simpl in *. lia.
Qed.
Section FOA.
Variables (F : fops) (C : cfg) (p : foa_par) (X : exn -> Prop).
Hypothesis HC : cfg_ok C.
Hypothesis Hn : 0 < fo_n p.
Hypothesis Harea : 0 < fo_area p.
Hypothesis Hlife : 0 < fo_life p \/ 0 < fo_lsc p.
Hypothesis Hlsc : fo_lsc p <= c_dim C.
Hypothesis Hgsc : fo_gsc p <= c_dim C.
Hypothesis Hrate : (forall m, (fint F (fmul F (fo_rate p) (fnat F m)) <= Z.of_nat m)%Z) \/ X EValue.
Let K := KBX C X.
Lemma w_lseed : forall x (Q : vec -> elog -> Prop) l, inside C x -> (forall y, inside C y -> Q y l) -> wp K (foa_lseed F C p x) Q l.
Proof.
  intros x Q l Hx HQ. assert (Lx := inside_len _ _ HC Hx). assert (Lu := cfg_upper_len _ HC). unfold foa_lseed. apply wp_bind. apply w_choice; auto. intros idx _ _ Hi. apply wp_bind.
  eapply wp_conseq0.
  - apply (wp_foldM _ _ _ _ (fun rest y l' => l' = l /\ length y = c_dim C)); auto.
    intros j r y l' (pre & E) [-> Hy]. assert (Hj : j < c_dim C) by (apply Hi; rewrite E; apply in_or_app; simpl; auto).
    apply wp_bind. apply w_nthP; [unfold fo_dx; rewrite map_length; lia|]. intros d _. apply wp_bind. apply w_uniform. intros u _. apply wp_bind. apply w_nthP; [lia|]. intros a _.
    apply w_setP; [lia|]. rewrite upd_length. auto.
  - intros y l' [-> Hy]. apply w_repair; auto.
Qed.
Lemma w_gseed : forall x (Q : vec -> elog -> Prop) l, inside C x -> (forall y, inside C y -> Q y l) -> wp K (foa_gseed C p x) Q l.
Proof.
  intros x Q l Hx HQ. assert (Lx := inside_len _ _ HC Hx). assert (Lu := cfg_upper_len _ HC). assert (Ll := cfg_lower_len _ HC). unfold foa_gseed. apply wp_bind. apply w_choice; auto. intros idx _ _ Hi.
  eapply wp_conseq0.
  - apply (wp_foldM _ _ _ _ (fun rest y l' => l' = l /\ inside C y)); auto.
    intros j r y l' (pre & E) [-> Hy]. assert (Hj : j < c_dim C) by (apply Hi; rewrite E; apply in_or_app; simpl; auto).
    apply wp_bind. apply w_nthP; [lia|]. intros lo El. apply wp_bind. apply w_nthP; [lia|]. intros hi Eu. apply wp_bind. apply w_uniform. intros u Hu.
    apply w_setP; [rewrite (inside_len _ _ HC Hy); lia|]. split; auto.
    assert (Hb : fleb lo hi = true) by (destruct HC as (_ & _ & HB); exact (Forall2_nth _ _ _ _ _ _ _ _ HB El Eu)).
    destruct (Hu Hb). eapply inside_upd; eauto.
  - intros y l' [-> Hy]. auto.
Qed.
Lemma w_mapM_in : forall A (f : A -> prog vec) xs (Q : list vec -> elog -> Prop) l,
  (forall a (R : vec -> elog -> Prop), In a xs -> (forall y, inside C y -> R y l) -> wp K (f a) R l) ->
  (forall ys, length ys = length xs -> Forall (inside C) ys -> Q ys l) -> wp K (mapM f xs) Q l.
Proof.
  intros A f xs Q l Hf HQ. eapply wp_conseq0.
  - apply (wp_mapM_acc _ _ _ _ (fun bs l' => l' = l /\ Forall (inside C) bs)); auto.
    intros pre a post bs l' E _ [-> Hb]. apply Hf; [rewrite E; apply in_or_app; simpl; auto|]. intros y Hy. split; auto. apply Forall_app; auto.
  - intros ys l' [[-> H1] H2]. auto.
Qed.
Lemma w_foa_local : forall xs (Q : list vec -> elog -> Prop) l, Forall (inside C) xs ->
  (forall ys, length ys = length xs * fo_lsc p -> Forall (inside C) ys -> Q ys l) -> wp K (foa_local F C p xs) Q l.
Proof.
  intros xs Q l Hx HQ. unfold foa_local. apply w_mapM_in.
  - intros a R Ha HR. apply in_concat in Ha. destruct Ha as (g & Hg & Ha). apply in_map_iff in Hg. destruct Hg as (x & <- & Hi). apply repeat_spec in Ha. subst a.
    apply w_lseed; auto. rewrite Forall_forall in Hx. auto.
  - intros ys Hl Hy. apply HQ; auto. rewrite Hl. clear. induction xs; simpl; auto. rewrite app_length, repeat_length, IHxs. auto.
Qed.
Lemma w_foa_transfer : forall cand (Q : list (tree * num) -> elog -> Prop) l, Forall (inside C) cand ->
  (forall gs fs l', Forall (inside C) gs -> Evals gs fs l l' -> length gs <= length cand \/ X EValue -> Q (combine (map (fun x => Tree x 0) gs) fs) l') -> wp K (foa_transfer F C p cand) Q l.
Proof.
  intros cand Q l Hc HQ. unfold foa_transfer. cbv zeta. set (k := fint F _). destruct (0 <? k)%Z eqn:Ek.
  - apply Z.ltb_lt in Ek. unfold foa_global. apply wp_bind. apply wp_bind.
    assert (G : forall (Q : list nat -> elog -> Prop), (forall rs, length rs = Z.to_nat k -> Z.to_nat k <= length cand \/ X EValue -> (forall r, In r rs -> r < length cand) -> Q rs l) -> wp K (choice (length cand) (Z.to_nat k)) Q l).
    { intros Q0 H0. destruct (le_lt_dec (Z.to_nat k) (length cand)) as [Hk|Hk]; [apply w_choice; auto|]. destruct Hrate as [H1|H1].
      - exfalso. specialize (H1 (length cand)). fold k in H1. lia.
      - unfold choice. apply w_choice_from_over; [right; auto|rewrite seq_length; auto]. }
    apply G. intros idx Li Hk Hi. apply w_mapM_in.
    + intros i R Hin HR. apply wp_bind. apply w_nthP; [auto|]. intros x Ex. apply w_gseed; auto. exact (Forall_nth _ _ _ _ _ Hc Ex).
    + intros gs Lg Hg. apply wp_bind. apply w_eval_all; auto.
      * intros ->. simpl in Lg. lia.
      * intros fs l' He. apply w_done. apply HQ; auto. rewrite Lg, Li. auto.
  - apply w_done. apply (HQ [] []); auto. constructor. left. simpl. lia.
Qed.
Record FoaInv (pop : list vec) (fit : list num) (xb : vec) (fxb : num) (ages : list nat) (l : elog) : Prop := {
  fi_fit : length fit = length pop; fi_ages : length ages = length pop; fi_in : Forall (inside C) pop; fi_seen : Forall2 (SeenN l) pop fit;
  fi_young : In 0 ages; fi_xb : length xb = c_dim C; fi_good : Good l xb fxb
}.
Lemma foa_init_c : forall it, init_c K (Algo (list vec) (list nat) (fun pop => pop) (foa_init C p) it) FoaInv.
Proof.
  intros it. unfold init_c. cbn [a_init a_coords]. unfold foa_init. apply wp_bind. apply w_default_numpy_init; auto.
  intros pop fit l H1 H2 H3. apply w_done. apply (pi_first C _ (fo_n p)); auto. intros x f H. assert (S := pi_ps _ _ _ _ _ _ _ H).
  destruct S as [P1 P2 P3 P4 P5 P6]. constructor; auto; try lia; [rewrite repeat_length; lia| |apply H].
  destruct (fo_n p); [lia|]. simpl. auto.
Qed.
Lemma map2_tree : forall pop ages, length ages = length pop -> map tr_x (map2 Tree pop ages) = pop /\ map tr_age (map2 Tree pop ages) = ages.
Proof. induction pop; destruct ages; simpl; intros H; try discriminate; auto. destruct (IHpop ages); auto. split; f_equal; auto. Qed.
Lemma foa_iter_c : iter_c K (foa F C p) FoaInv.
Proof.
  intros pop fit xb fxb ages l [I1 I2 I3 I4 I5 I6 I7]. cbn [a_iter foa]. unfold foa_iter. cbv zeta. destruct (map2_tree pop ages I2) as [Tx Ta].
  set (ts := map2 Tree pop ages) in *. assert (Hts : Forall (fun t => inside C (tr_x t)) ts).
  { apply Forall_forall. intros t Ht. rewrite Forall_forall in I3. apply I3. rewrite <- Tx. apply in_map. auto. }
  apply wp_bind. apply w_foa_local.
  { apply Forall_forall. intros x Hx. apply in_map_iff in Hx. destruct Hx as (t & <- & Ht). apply filter_In in Ht. rewrite Forall_forall in Hts. apply Hts. apply Ht. }
  intros seeds Ls Hs. set (old := map _ ts).
  assert (Ho : Forall (fun t => inside C (tr_x t)) old).
  { apply Forall_forall. intros t Ht. apply in_map_iff in Ht. destruct Ht as (t0 & <- & Ht). rewrite Forall_forall in Hts. apply (Hts _ Ht). }
  set (live := filter (fun t => negb (fo_life p <? tr_age t)) old). set (dead := filter (fun t => fo_life p <? tr_age t) old).
  set (all0 := live ++ map (fun x => Tree x 0) seeds).
  assert (H0 : Forall (fun t => inside C (tr_x t)) all0).
  { apply Forall_app. split; [|apply Forall_map; auto]. apply Forall_forall. intros t Ht. apply filter_In in Ht. rewrite Forall_forall in Ho. apply Ho. apply Ht. }
  assert (Hne : all0 <> []).
  { rewrite <- Ta in I5. apply in_map_iff in I5. destruct I5 as (t & Et & Ht). destruct Hlife as [Hl|Hl].
    - assert (In (Tree (tr_x t) 1) all0); [|intros Q; rewrite Q in *; contradiction]. apply in_or_app. left. apply filter_In. split.
      + apply in_map_iff. exists t. rewrite Et. auto.
      + cbn [tr_age]. destruct (fo_life p <? 1) eqn:Q; auto. apply Nat.ltb_lt in Q. lia.
    - assert (G : 0 < length seeds).
      { rewrite Ls, map_length. assert (0 < length (filter (fun t => tr_age t =? 0) ts)); [|nia].
        assert (Hf : In t (filter (fun t => tr_age t =? 0) ts)) by (apply filter_In; rewrite Et; auto). destruct (filter _ ts); [contradiction|simpl; lia]. }
      intros Q. apply app_eq_nil in Q. destruct Q as [_ Q]. destruct seeds; [simpl in G; lia|discriminate]. }
  apply wp_bind. unfold foa_survival. apply wp_bind. apply w_eval_all.
  { intros Q. apply map_eq_nil in Q. auto. }
  { apply Forall_map. auto. }
  intros fs l1 He. cbv zeta. apply w_done. set (s := sort_on snd (combine all0 fs)).
  assert (Lf : length all0 = length fs) by (apply Evals_len in He; rewrite map_length in He; auto).
  assert (S1 : Forall (fun a => SeenN l1 (tr_x (fst a)) (snd a)) s).
  { apply Forall_forall. intros a Ha. apply sort_on_In in Ha. apply Evals_seenN in He. apply combine_SeenN in He. rewrite Forall_forall in He. auto. }
  assert (S2 : Forall (fun a => inside C (tr_x (fst a))) s).
  { apply Forall_forall. intros [t g] Ha. apply sort_on_In in Ha. apply in_combine_l in Ha. rewrite Forall_forall in H0. apply (H0 _ Ha). }
  assert (Ls1 : length s = length all0) by (unfold s; rewrite sort_on_length, combine_length; lia).
  assert (Lk : firstn (fo_area p) s <> []).
  { destruct s; [destruct all0; [congruence|discriminate]|]. destruct (fo_area p); [lia|discriminate]. }
  assert (Cv : Cov l1 (map snd (firstn (fo_area p) s)) fxb).
  { intros y v Hv. destruct (Cov_Evals _ _ _ _ [] fxb (Good_Cov _ _ _ _ I7) He y v Hv) as [G|(g & Hg & G)]; auto. right. rewrite app_nil_r in Hg.
    rewrite <- (combine_snd _ _ all0 fs Lf) in Hg. apply in_map_iff in Hg. destruct Hg as (a & <- & Ha).
    assert (Ha' : In a s) by (apply sort_on_In; auto). rewrite <- (firstn_skipn (fo_area p) s) in Ha'. apply in_app_or in Ha'. destruct Ha' as [Ha'|Ha'].
    - exists (snd a). split; auto. apply in_map. auto.
    - destruct (firstn (fo_area p) s) as [|b r] eqn:Eb; [congruence|]. exists (snd b). split; [left; auto|].
      assert (Q : key_le (snd b) (snd a) = true) by (eapply (sort_on_split _ snd (combine all0 fs) (fo_area p)); fold s; [rewrite Eb; left; auto|auto]).
      eapply fleb_trans; [|exact G]. apply key_le_fleb; auto. exact (fleb_nan_l _ _ G). }
  apply wp_bind. apply w_foa_transfer.
  { apply Forall_app. split.
    - apply Forall_forall. intros x Hx. apply in_map_iff in Hx. destruct Hx as (t & <- & Ht). apply filter_In in Ht. rewrite Forall_forall in Ho. apply Ho. apply Ht.
    - apply Forall_map. apply Forall_skipn. auto. }
  intros gs fg l2 Hg He2 _. assert (X2 := Evals_ext _ _ _ _ He2). set (new := combine (map (fun x => Tree x 0) gs) fg).
  assert (Lg : length (map (fun x => Tree x 0) gs) = length fg) by (apply Evals_len in He2; rewrite map_length; auto).
  assert (S3 : Forall (fun a => SeenN l2 (tr_x (fst a)) (snd a)) (firstn (fo_area p) s ++ new)).
  { apply Forall_app. split.
    - eapply Forall_impl; [|apply Forall_firstn; exact S1]. intros a Ha. eapply SeenN_ext; eauto.
    - apply Evals_seenN in He2. apply combine_SeenN. rewrite map_map, map_id. auto. }
  assert (S4 : Forall (fun a => inside C (tr_x (fst a))) (firstn (fo_area p) s ++ new)).
  { apply Forall_app. split; [apply Forall_firstn; auto|]. apply Forall_forall. intros [t v] Ha. apply in_combine_l in Ha. apply in_map_iff in Ha. destruct Ha as (x & <- & Hx). rewrite Forall_forall in Hg. apply (Hg _ Hx). }
  assert (Cv2 : Cov l2 (map snd (firstn (fo_area p) s ++ new)) fxb).
  { apply (Cov_Evals _ _ _ _ _ _ Cv) in He2. eapply Cov_incl; [|exact He2]. unfold new. rewrite map_app, combine_snd by auto. intros a Ha. apply in_or_app. apply in_app_or in Ha. tauto. }
  set (all := firstn (fo_area p) s ++ new) in *.
  assert (Hall : all <> []) by (unfold all; destruct (firstn (fo_area p) s); [congruence|discriminate]).
  assert (SN := Forall_SeenN2 _ tr_x _ _ S3). assert (Hin : Forall (inside C) (map (fun a => tr_x (fst a)) all)) by (apply Forall_map; auto).
  apply wp_bind. apply w_take_best; auto.
  { intros Q. apply map_eq_nil in Q. auto. }
  { split; [|apply I7]. eapply Seen_ext; [|apply I7]. eapply ext_trans; [eapply Evals_ext; eauto|auto]. }
  intros x f Hx Hi Hl Hle. apply w_done. constructor; rewrite ?map_length; auto.
  - unfold foa_rejuvenate. destruct (argmin _); rewrite ?upd_length, map_length; auto.
  - unfold foa_rejuvenate. destruct (argmin_spec (map snd all)) as (i & m & E & M1 & _); [intros Q; apply map_eq_nil in Q; auto|eapply SeenN2_nan; eauto|].
    rewrite E. eapply nth_error_In with (n := i). apply nth_upd_same. rewrite map_length. rewrite <- (map_length snd). apply nth_error_Some. congruence.
  - destruct Hi as [Hi| ->]; auto. apply inside_len; auto. rewrite Forall_forall in Hin. auto.
  - eapply Good_take_best; eauto; apply Hx.
Qed.
End FOA.

(** ** CatSwarmOptimization *)
Lemma first_true_lt : forall bs i, first_true bs = Some i -> nth_error bs i = Some true.
Proof.
  induction bs as [|b bs IH]; simpl; intros i H; [discriminate|]. destruct b; [injection H as <-; auto|].
  destruct (first_true bs); [|discriminate]. injection H as <-. simpl. auto.
Qed.
Lemma first_true_none : forall bs, first_true bs = None -> ~ In true bs.
Proof. induction bs as [|[] bs IH]; simpl; intros H; auto; try discriminate. destruct (first_true bs); [discriminate|]. intros [Q|Q]; [discriminate|]. exact (IH eq_refl Q). Qed.
Lemma cumsum_from_len : forall F xs s, length (cumsum_from F s xs) = length xs.
Proof. induction xs; simpl; auto. Qed.
Lemma cumsum_len : forall F xs, length (cumsum F xs) = length xs.
Proof. intros F [|x xs]; simpl; auto. rewrite cumsum_from_len. auto. Qed.
Lemma cso_weights_len : forall F fs w b, length (cso_weights F fs w b) = length fs.
Proof. intros F [|f fs] w b; auto. unfold cso_weights. destruct (existsb _ _); [destruct w|]; rewrite map_length; auto. Qed.
Lemma w_cso_select : forall F K ws (Q : nat -> elog -> Prop) l, ws <> [] -> (forall i, i < length ws -> Q i l) -> wp K (cso_select F ws) Q l.
Proof.
  intros F K ws Q l Hne HQ. unfold cso_select. cbv zeta. apply wp_bind. apply w_random. intros r _ _. assert (L := cumsum_len F ws).
  destruct (cumsum F ws) as [|c cs] eqn:Ec; [destruct ws; [congruence|discriminate]|]. apply w_done. apply HQ. rewrite <- L.
  destruct (first_true _) as [i|] eqn:Ei; [|simpl; lia]. apply first_true_lt in Ei. rewrite <- (map_length (fun c0 => fleb (fmul F r (last (c :: cs) NaN)) c0)). apply nth_error_Some. congruence.
Qed.
Lemma clip_c_range : forall lo hi a, fleb lo hi = true -> in_range lo hi (clip_c lo hi a).
Proof.
  intros lo hi a H. unfold clip_c, np_max, np_min. destruct (is_nan a || is_nan lo) eqn:Q; [left; reflexivity|].
  apply orb_false_iff in Q. destruct Q as [Qa Ql].
  assert (Na : a <> NaN) by (intros ->; discriminate). assert (Nl : lo <> NaN) by (intros ->; discriminate). assert (Nh : hi <> NaN) by (eapply fleb_nan_r; eauto).
  assert (G : forall b, b <> NaN -> fleb lo b = true -> in_range lo hi (if is_nan b || is_nan hi then NaN else if fltb hi b then hi else b)).
  { intros b Nb Lb. destruct (is_nan b || is_nan hi); [left; auto|]. right. destruct (fltb hi b) eqn:Q1; split; auto.
    - apply fleb_refl; auto.
    - apply fltb_false_fleb; auto. }
  destruct (fltb a lo) eqn:Q1; apply G; auto; [apply fleb_refl; auto|apply fltb_false_fleb; auto].
Qed.
Section CSO.
Variables (F : fops) (C : cfg) (p : cso_par) (X : exn -> Prop).
Hypothesis HC : cfg_ok C.
Hypothesis Hn : 0 < ct_n p.
Hypothesis Hsmp : 0 < ct_smp p \/ ct_spc p = true.
Hypothesis Hv : fleb (fneg (ct_vmax p)) (ct_vmax p) = true.
Hypothesis Hmr : (let k := fint F (fmul F (fnat F (ct_n p)) (ct_mr p)) in 0 <= k <= Z.of_nat (ct_n p))%Z \/ X EValue.
Let K := KBX C X.
Definition vel_ok (v : vec) : Prop := length v = c_dim C /\ Forall (in_range (fneg (ct_vmax p)) (ct_vmax p)) v.
Definition cat_ok (l : elog) (a : vec * num) : Prop := inside C (fst a) /\ SeenN l (fst a) (snd a).
Lemma cat_ok_ext : forall l l' a, ext l l' -> cat_ok l a -> cat_ok l' a.
Proof. intros l l' a He [H1 H2]. split; auto. eapply SeenN_ext; eauto. Qed.
Lemma w_cso_copy : forall x (Q : vec * num -> elog -> Prop) l, length x = c_dim C ->
  (forall y v l', inside C y -> Evald y v l l' -> Q (y, v) l') -> wp K (cso_copy F C p x) Q l.
Proof.
  intros x Q l Lx HQ. unfold cso_copy. apply wp_bind. apply w_permutation. intros idx _ _ _. cbv zeta. apply wp_bind. apply w_integers; [lia|]. intros up _.
  apply wp_bind. apply w_repair; [apply map2_length; [rewrite seq_length; auto|auto]|]. intros z Hz. apply wp_bind. apply w_eval; auto. intros v l' Hv'. apply w_done. auto.
Qed.
Record CsoInv (pop : list vec) (fit : list num) (xb : vec) (fxb : num) (vs : list vec) (l : elog) : Prop := {
  ci_ps : PopSeen C (ct_n p) pop fit xb fxb l; ci_vn : length vs = ct_n p; ci_v : Forall vel_ok vs
}.
Lemma w_cso_seek : forall x f pop fit xb fxb (Q : vec * num * list vec * list num -> elog -> Prop) l,
  PopSeen C (ct_n p) pop fit xb fxb l -> inside C x -> SeenN l x f ->
  (forall y g pop' fit' l', ext l l' -> cat_ok l' (y, g) -> PopSeen C (ct_n p) pop' fit' xb fxb l' -> Q (y, g, pop', fit') l') ->
  wp K (cso_seek F C p x f pop fit fxb) Q l.
Proof.
  intros x f pop fit xb fxb Q l HP Hx Hf HQ. unfold cso_seek. apply wp_bind. eapply wp_conseq0.
  { apply (wp_repeatM _ _ _ (fun bs l' => ext l l' /\ Forall (cat_ok l') bs)); [split; auto; apply ext_refl|].
    intros bs l' _ [He Hb]. apply w_cso_copy; [apply inside_len; auto|]. intros y v l2 Hy Hv2. assert (X2 := Evald_ext _ _ _ _ Hv2). split; [eapply ext_trans; eauto|].
    apply Forall_app. split; [eapply Forall_impl; [|exact Hb]; intros a Ha; eapply cat_ok_ext; eauto|]. constructor; [split; [auto|eapply Evald_seenN; eauto]|constructor]. }
  intros cs0 l' [[He Hb] Lb]. cbv zeta. set (cs := if ct_spc p then cs0 ++ [(x, f)] else cs0).
  assert (Hcs : Forall (cat_ok l') cs).
  { unfold cs. destruct (ct_spc p); auto. apply Forall_app. split; auto. constructor; [split; [auto|eapply SeenN_ext; eauto]|constructor]. }
  assert (Lcs : cs <> []).
  { unfold cs in *. destruct (ct_spc p); [destruct cs0; discriminate|]. destruct Hsmp as [H|H]; [|discriminate]. intros Q0. rewrite Q0 in Lb. simpl in Lb. lia. }
  assert (Hfn : Forall (fun v => v <> NaN) (map snd cs)) by (apply Forall_map; eapply Forall_impl; [|exact Hcs]; intros a Ha; apply Ha).
  assert (Lfs : map snd cs <> []) by (intros Q0; apply map_eq_nil in Q0; auto).
  destruct (argmax_spec _ Lfs Hfn) as (iw & mw & Ew & Mw & _). destruct (argmin_spec _ Lfs Hfn) as (ib & mb & Eb & Mb & _). rewrite Ew, Eb.
  apply wp_bind. unfold nthP. rewrite Mw. apply w_done. apply wp_bind. rewrite Mb. apply w_done. apply wp_bind.
  assert (G : forall pop' fit', PopSeen C (ct_n p) pop' fit' xb fxb l' ->
    wp K (let* s := cso_select F (cso_weights F (map snd cs) mw mb) in let* z := nthP cs s in Done (fst z, snd z, pop', fit')) Q l').
  { intros pop' fit' HP'. apply wp_bind. apply w_cso_select.
    { intros Q0. apply Lfs. apply length_zero_iff_nil. rewrite <- (cso_weights_len F (map snd cs) mw mb), Q0. auto. }
    rewrite cso_weights_len, map_length. intros i Hi. apply wp_bind. apply w_nthP; auto. intros [y g] Ez. apply w_done. apply HQ; auto. exact (Forall_nth _ _ _ _ _ Hcs Ez). }
  assert (HP' := ps_ext _ _ _ _ _ _ _ _ He HP).
  destruct (fltb mb fxb).
  - apply wp_bind. apply w_integers; auto. intros k Hk. destruct (first_true _) as [j|] eqn:Ej.
    + apply first_true_lt in Ej. rewrite nth_error_map in Ej. destruct (nth_error (map snd cs) j) as [b|] eqn:Ebj; [|discriminate]. simpl in Ej. injection Ej as Ej. apply feqb_eq in Ej. subst b.
      rewrite nth_error_map in Ebj. destruct (nth_error cs j) as [[y g]|] eqn:Ec; [|discriminate]. injection Ebj as ->.
      assert (Ey : nth_error (map fst cs) j = Some y) by (rewrite nth_error_map, Ec; auto). apply wp_bind. rewrite Ey. apply w_done.
      assert (Oc : cat_ok l' (y, mb)) by exact (Forall_nth _ _ _ _ _ Hcs Ec).
      apply wp_bind. apply w_setP; [destruct HP; lia|]. apply wp_bind. apply w_setP; [destruct HP; lia|]. apply w_done. apply G.
      eapply ps_set; eauto; apply Oc.
    + exfalso. apply first_true_none in Ej. apply Ej. apply in_map_iff. exists mb. split; [apply feqb_refl; exact (Forall_nth _ _ _ _ _ Hfn Mb)|eapply nth_error_In; eauto].
  - apply w_done. apply G; auto.
Qed.
Lemma cso_init_c : forall it, init_c K (Algo (list vec) (list vec) (fun pop => pop) (cso_init C p) it) CsoInv.
Proof.
  intros it. unfold init_c. cbn [a_init a_coords]. unfold cso_init. apply wp_bind. apply w_default_numpy_init; auto.
  intros pop fit l H1 H2 H3. apply wp_bind. eapply wp_conseq0.
  { apply (wp_repeatM _ _ _ (fun bs l' => l' = l /\ Forall vel_ok bs)); auto. intros bs l' _ [-> Hb].
    eapply wp_conseq0.
    - apply (wp_mapM_acc _ _ _ _ (fun v l' => l' = l /\ Forall (in_range (fneg (ct_vmax p)) (ct_vmax p)) v)); auto.
      intros pre a post v l' _ _ [-> Hv']. apply w_uniform. intros r Hr. split; auto. apply Forall_app. split; auto. constructor; auto. right. auto.
    - intros v l' [[-> Hv'] Lv]. split; auto. apply Forall_app. split; auto. constructor; auto. split; auto. rewrite Lv, seq_length. auto. }
  intros vs l' [[-> Hvs] Lvs]. apply w_done. apply (pi_first C _ (ct_n p)); auto. intros x f H. constructor; auto. apply pi_ps. exact H.
Qed.
Lemma w_cso_step : forall tr xb fxb s l k, CsoInv (ca_pop s) (ca_fit s) xb fxb (ca_v s) l -> k < ct_n p ->
  wp K (cso_step F C p tr xb fxb s k) (fun s' l' => CsoInv (ca_pop s') (ca_fit s') xb fxb (ca_v s') l') l.
Proof.
  intros tr xb fxb [pop fit vs] l k [H1 H2 H3] Hk. cbn [ca_pop ca_fit ca_v] in *. assert (Lp := ps_pop _ _ _ _ _ _ _ H1). assert (Lf := ps_fit _ _ _ _ _ _ _ H1).
  unfold cso_step. cbn [ca_pop ca_fit ca_v]. apply wp_bind. apply w_nthP; [lia|]. intros x Ex. apply wp_bind. apply w_nthP; [lia|]. intros f Ef.
  assert (Ix : inside C x) by exact (Forall_nth _ _ _ _ _ (ps_in _ _ _ _ _ _ _ H1) Ex). assert (Lx := inside_len _ _ HC Ix). assert (Lxb := ps_xb _ _ _ _ _ _ _ H1).
  assert (Sx : SeenN l x f) by exact (Forall2_nth _ _ _ _ _ _ _ _ (ps_seen _ _ _ _ _ _ _ H1) Ex Ef).
  destruct (existsb _ tr).
  - apply wp_bind. apply w_nthP; [lia|]. intros v Ev. destruct (Forall_nth _ _ _ _ _ H3 Ev) as [Lv _]. apply wp_bind. unfold cso_trace. apply wp_bind. apply w_random_vec. intros r Lr. cbv zeta.
    set (v' := map _ _). assert (Lv' : length v' = c_dim C) by (unfold v'; dl). apply wp_bind. apply w_repair; [dl|]. intros y Hy. apply wp_bind. apply w_eval; auto. intros g l' Hg.
    apply w_done. apply wp_bind. apply w_setP; [lia|]. apply wp_bind. apply w_setP; [lia|]. apply wp_bind. apply w_setP; [lia|]. apply w_done. cbn [ca_pop ca_fit ca_v]. constructor; rewrite ?upd_length; auto.
    + eapply ps_set; eauto; [eapply Evald_ext; eauto|eapply Evald_seenN; eauto].
    + apply Forall_upd; auto. split; auto. apply Forall_map. apply Forall_forall. intros a _. apply clip_c_range. auto.
  - apply wp_bind. eapply w_cso_seek; eauto. intros y g pop' fit' l' He [O1 O2] HP. apply wp_bind. apply w_setP; [destruct HP; lia|]. apply wp_bind. apply w_setP; [destruct HP; lia|].
    apply w_done. cbn [ca_pop ca_fit ca_v]. constructor; auto. eapply ps_set; eauto.
Qed.
Lemma cso_iter_c : forall pop fit xb fxb vs l, CsoInv pop fit xb fxb vs l ->
  wp K (cso_iter F C p pop fit xb fxb vs) (fun a l' => let '(pop', fit', xb', fxb', vs') := a in CsoInv pop' fit' xb' fxb' vs' l' /\ fleb fxb' fxb = true /\ (forall g, In g fit' -> fleb fxb' g = true)) l.
Proof.
  intros pop fit xb fxb vs l H. unfold cso_iter. apply wp_bind.
  assert (G : forall Q : list nat -> elog -> Prop, (forall tr, Q tr l) -> wp K (cso_tracing F p) Q l).
  { intros Q HQ. unfold cso_tracing. cbv zeta. destruct (_ <? 0)%Z eqn:Q0.
    - apply Z.ltb_lt in Q0. destruct Hmr as [Hm|Hm]; [cbv zeta in Hm; lia|right; exact Hm].
    - apply Z.ltb_ge in Q0. destruct (le_lt_dec (Z.to_nat (fint F (fmul F (fnat F (ct_n p)) (ct_mr p)))) (ct_n p)) as [Q1|Q1]; [apply w_choice; auto|].
      destruct Hmr as [Hm|Hm]; [cbv zeta in Hm; lia|]. apply w_choice_from_over; [right; exact Hm|rewrite seq_length; auto]. }
  apply G. intros tr. apply wp_bind. eapply wp_conseq0.
  - apply (wp_for_range _ _ _ _ (fun i s l' => CsoInv (ca_pop s) (ca_fit s) xb fxb (ca_v s) l')); [exact H|]. intros i s l' Hi Hs. apply w_cso_step; auto.
    rewrite (ps_pop _ _ _ _ _ _ _ (ci_ps _ _ _ _ _ _ H)) in Hi. auto.
  - intros s l' [H1 H2 H3]. apply wp_bind. eapply w_ps_take; eauto. intros x f Hx Hf Hg. apply w_done. split; auto. constructor; auto.
Qed.
End CSO.

(** ** MonarchButterflyOptimization *)
Lemma w_get_best_seen : forall K l pop fit xb fxb (Q : vec * num -> elog -> Prop), fit <> [] -> Forall2 (SeenN l) pop fit -> SeenN l xb fxb ->
  (forall x f, SeenN l x f -> In x pop \/ x = xb -> fleb f fxb = true -> (forall g, In g fit -> fleb f g = true) -> Q (x, f) l) ->
  wp K (lift (get_best pop fit (Some xb) fxb)) Q l.
Proof.
  intros K l pop fit xb fxb Q Hne HF Hb HQ.
  destruct (get_best_spec pop fit (Some xb) fxb) as (b & m & (M1 & M2 & M3) & E & (x & Ex)); auto; [eapply Forall2_len; eauto|eapply SeenN2_nan; eauto|].
  assert (Hx : SeenN l x m) by exact (Forall2_nth _ _ _ _ _ _ _ _ HF Ex M1).
  assert (G : forall g, In g fit -> fleb m g = true) by (intros g Hg; apply In_nth_error in Hg; destruct Hg; eauto).
  rewrite E, Ex. destruct (fleb m fxb) eqn:El; apply w_done.
  - apply HQ; auto. left. eapply nth_error_In; eauto.
  - apply HQ; auto; [apply fleb_refl; apply Hb|]. intros g Hg. eapply fleb_trans; [|apply G; auto]. apply fltb_fleb. apply fleb_false_fltb; auto; [apply Hx|apply Hb].
Qed.
Lemma sort_by_combine_seen : forall l pop fit, Forall2 (SeenN l) pop fit -> Forall2 (SeenN l) (map fst (sort_by (combine pop fit))) (map snd (sort_by (combine pop fit))).
Proof.
  intros l pop fit H. apply (Forall_SeenN2 _ (fun x => x)). apply Forall_forall. intros a Ha.
  apply (Permutation_in a (Permutation_sym (sort_by_perm _))) in Ha. revert a Ha. apply Forall_forall. apply (combine_SeenN _ (fun x => x)). rewrite map_id. auto.
Qed.
Lemma sort_by_combine_in : forall C pop fit, length pop = length fit -> Forall (inside C) pop -> Forall (inside C) (map fst (sort_by (combine pop fit))).
Proof.
  intros C pop fit Hl H. apply Forall_map. apply Forall_forall. intros [x f] Ha.
  apply (Permutation_in _ (Permutation_sym (sort_by_perm _))) in Ha. apply in_combine_l in Ha. rewrite Forall_forall in H. auto.
Qed.
Lemma sort_by_combine_len : forall pop (fit : list num), length pop = length fit -> length (sort_by (combine pop fit)) = length pop.
Proof. intros pop fit H. rewrite <- (Permutation_length (sort_by_perm _)), combine_length. lia. Qed.
Section MBO.
Variables (F : fops) (C : cfg) (pi : num) (p : mbo_par) (X : exn -> Prop).
Variable K : wctx.
Variable Evs : list vec -> list num -> elog -> elog -> Prop.
Hypothesis HC : cfg_ok C.
Hypothesis Hn : 0 < mb_n p.
Hypothesis Hnp : mb_np1 F p <= mb_n p.
Hypothesis HX : (mb_np1 F p <> 1 /\ 2 <= mb_np2 F p /\ 2 <= c_dim C) \/ (K_exn K EValue /\ K_exn K EIndex).
Hypothesis HRA : forall xs (Q : list vec -> elog -> Prop) l, xs <> [] -> dims (c_dim C) xs -> (forall ys, length ys = length xs -> Forall (inside C) ys -> Q ys l) -> wp K (repair_all xs) Q l.
Hypothesis HEA : forall xs (Q : list num -> elog -> Prop) l, xs <> [] -> Forall (inside C) xs -> (forall vs l', length vs = length xs -> Evs xs vs l l' -> Q vs l') -> wp K (eval_all xs) Q l.
Let pk (b : list vec) : Prop := length b = mb_n p /\ dims (c_dim C) b.
Lemma w_set2 : forall b k i c (Q : list vec -> elog -> Prop) l, pk b -> k < mb_n p -> i < c_dim C -> (forall b', pk b' -> Q b' l) -> wp K (set2 b k i c) Q l.
Proof.
  intros b k i c Q l [H1 H2] Hk Hi HQ. unfold set2. apply wp_bind. apply w_nthP; [lia|]. intros row Er. assert (Lr := dims_nth _ _ _ _ H2 Er).
  apply wp_bind. apply w_setP; [lia|]. apply w_setP; [lia|]. apply HQ. split; [rewrite upd_length; auto|]. apply dims_upd; auto. rewrite upd_length. auto.
Qed.
(** a random row of a part of the population; numpy refuses an empty range *)
Lemma w_int_part : forall m (Q : nat -> elog -> Prop) l, (2 <= m \/ K_exn K EValue) -> (forall j, j < m -> Q j l) -> wp K (integers (m - 1)) Q l.
Proof.
  intros m Q l Hm HQ. destruct (le_lt_dec 2 m) as [H2|H2]; [apply w_integers; [lia|]; intros j Hj; apply HQ; lia|].
  destruct Hm as [Hm|Hm]; [lia|]. replace (m - 1) with 0 by lia. exact Hm.
Qed.
Lemma w_nth2 : forall (q : list vec) j i (Q : num -> elog -> Prop) l, dims (c_dim C) q -> j < length q -> (i < c_dim C \/ K_exn K EIndex) -> (forall c, Q c l) -> wp K (nth2 q j i) Q l.
Proof.
  intros q j i Q l Hd Hj Hi HQ. unfold nth2. apply wp_bind. apply w_nthP; [lia|]. intros row Er. assert (Lr := dims_nth _ _ _ _ Hd Er).
  destruct (le_lt_dec (length row) i) as [H3|H3]; [|apply w_nthP; auto]. destruct Hi as [Hi|Hi]; [lia|apply w_nthP_x; auto].
Qed.
Lemma parts : forall pop, pk pop -> length (firstn (mb_np1 F p) pop) = mb_np1 F p /\ dims (c_dim C) (firstn (mb_np1 F p) pop) /\
  length (skipn (mb_np1 F p) pop) = mb_np2 F p /\ dims (c_dim C) (skipn (mb_np1 F p) pop).
Proof. intros pop [H1 H2]. unfold mb_np2. rewrite firstn_length, skipn_length, H1. split; [lia|]. split; [apply Forall_firstn; auto|]. split; [lia|apply Forall_skipn; auto]. Qed.
Lemma w_mbo_migrate : forall pop (Q : list vec -> elog -> Prop) l, pk pop -> (forall b, pk b -> Q b l) -> wp K (mbo_migrate F C p pop) Q l.
Proof.
  intros pop Q l Hp HQ. destruct (parts pop Hp) as (P1 & P2 & P3 & P4). unfold mbo_migrate. cbv zeta. eapply wp_conseq0.
  - apply (wp_for_range _ _ _ _ (fun i b l' => l' = l /\ pk b)); auto. intros k b l' Hk [-> Hb].
    apply (wp_for_range _ _ _ _ (fun i b l' => l' = l /\ pk b)); auto. intros i b1 l' Hi [-> Hb1]. unfold mbo_migrate1. apply wp_bind. apply w_random. intros r _ _. apply wp_bind.
    assert (G : forall c, wp K (set2 b1 k i c) (fun b l' => l' = l /\ pk b) l) by (intros c; apply w_set2; auto; lia).
    destruct (fleb _ _); apply wp_bind; (apply w_int_part; [destruct HX as [(N1 & N2 & _)|[N1 _]]; [left; lia|right; auto]|]); intros j Hj; apply w_nth2; auto; lia.
  - intros b l' [-> Hb]. auto.
Qed.
Lemma w_mbo_levy : forall d (Q : vec -> elog -> Prop) l, (forall v, length v = d -> Q v l) -> wp K (mbo_levy F pi d) Q l.
Proof.
  intros d Q l HQ. unfold mbo_levy. apply w_mapM_len; [|intros v Lv; apply HQ; rewrite Lv, seq_length; auto].
  intros _ R _ HR. apply wp_bind. apply w_mapM_len; [intros _ R0 _ HR0; apply w_uniform; auto|]. intros v _. apply w_done. auto.
Qed.
Lemma w_mbo_adjust : forall t best pop (Q : list vec -> elog -> Prop) l, pk pop -> length best = c_dim C -> (forall b, pk b -> Q b l) -> wp K (mbo_adjust F C pi p t best pop) Q l.
Proof.
  intros t best pop Q l Hp Hbest HQ. destruct (parts pop Hp) as (P1 & P2 & P3 & P4). unfold mbo_adjust. cbv zeta. eapply wp_conseq0.
  - apply (wp_for_range _ _ _ _ (fun i b l' => l' = l /\ pk b)); auto. intros k b l' Hk [-> Hb]. apply wp_bind. apply w_rnd_f. intros st. apply wp_bind. apply w_mbo_levy. intros delta Ld.
    apply (wp_for_range _ _ _ _ (fun i b l' => l' = l /\ pk b)); auto. intros i b1 l' Hi [-> Hb1]. unfold mbo_adjust1. apply wp_bind. apply w_uniform. intros u _.
    assert (Hk' : mb_np1 F p + k < mb_n p) by (unfold mb_np2 in Hk; lia).
    assert (G : forall c, wp K (set2 b1 (mb_np1 F p + k) i c) (fun b l' => l' = l /\ pk b) l) by (intros c; apply w_set2; auto; lia).
    destruct (fleb _ _).
    + apply wp_bind. apply w_nthP; [lia|]. intros c _. apply G.
    + assert (G2 : forall c, wp K (let* u' := uniform (flit F 0 1) (flit F 1 1) in let* e := nthP delta i in
          set2 b1 (mb_np1 F p + k) i (if fltb (mb_bar p) u' then fadd F c (fmul F (fdiv F (flit F 1 1) (fz F (Z.of_nat (S t) * Z.of_nat (S t)))) (fsub F e (flit F 1 2))) else c)) (fun b l' => l' = l /\ pk b) l).
      { intros c. apply wp_bind. apply w_uniform. intros u' _. apply wp_bind. apply w_nthP; [lia|]. intros e _. apply G. }
      apply wp_bind. apply w_int_part; [destruct HX as [(N1 & N2 & _)|[N1 _]]; auto|]. intros j Hj. apply wp_bind. apply w_nth2; auto; [lia|].
      destruct HX as [(_ & _ & N)|[_ N]]; [left; lia|auto].
  - intros b l' [-> Hb]. auto.
Qed.
Lemma w_mbo_evaluate : forall pop (Q : list vec * list num -> elog -> Prop) l, pop <> [] -> Forall (inside C) pop ->
  (forall fit l', length fit = length pop -> Evs pop fit l l' -> Q (map fst (sort_by (combine pop fit)), map snd (sort_by (combine pop fit))) l') -> wp K (mbo_evaluate pop) Q l.
Proof. intros pop Q l Hne Hin HQ. unfold mbo_evaluate. apply wp_bind. apply HEA; auto. Qed.
Lemma w_mbo_iter : forall pop fit xb fxb cb (Q : list vec * list num * vec * num * option vec -> elog -> Prop) l,
  length pop = mb_n p -> Forall (inside C) pop -> (match cb with Some b => length b = c_dim C | None => True end) ->
  (forall pop2 fit2 l1 pop4 fit4 l2 cb', length pop2 = mb_n p -> Forall (inside C) pop2 -> length fit2 = mb_n p -> Evs pop2 fit2 l l1 ->
     pop4 = firstn (mb_n p - mb_keep p) (map fst (sort_by (combine pop2 fit2))) ++ firstn (mb_keep p) pop ->
     length pop4 = mb_n p -> Forall (inside C) pop4 -> length fit4 = mb_n p -> Evs pop4 fit4 l1 l2 -> nth_error pop4 0 = Some cb' ->
     let s := sort_by (combine pop4 fit4) in
     wp K (lift (get_best (map fst s) (map snd s) (Some xb) fxb)) (fun b l' => Q (map fst s, map snd s, fst b, snd b, Some cb') l') l2) ->
  wp K (mbo_iter F C pi p pop fit xb fxb cb) Q l.
Proof.
  intros pop fit xb fxb cb Q l Lp Hin Hcb HQ. unfold mbo_iter. cbv zeta. apply wp_bind. apply w_view. intros v.
  apply wp_bind. apply w_mbo_migrate; [split; auto; apply dims_inside; auto|]. intros m [Lm Dm]. apply wp_bind. apply HRA; auto; [nonil|]. intros pop1 L1 I1.
  apply wp_bind. assert (G : forall Q0 : vec -> elog -> Prop, (forall b, length b = c_dim C -> Q0 b l) -> wp K (match cb with Some b => Done b | None => nthP (if mb_inplace p then pop1 else m) 0 end) Q0 l).
  { intros Q0 H0. destruct cb as [b|]; [apply w_done; auto|]. destruct (mb_inplace p); apply w_nthP; try lia; intros a Ea; apply H0; [|exact (dims_nth _ _ _ _ Dm Ea)].
    apply inside_len; auto. exact (Forall_nth _ _ _ _ _ I1 Ea). }
  apply G. intros best Lb. apply wp_bind. apply w_mbo_adjust; [split; [lia|apply dims_inside; auto]|auto|]. intros a [La Da]. apply wp_bind. apply HRA; auto; [nonil|]. intros pop2 L2 I2.
  assert (L2' : length pop2 = mb_n p) by lia. apply wp_bind. apply w_mbo_evaluate; auto; [nonil|]. intros fit2 l1 Lf2 E2. set (s2 := sort_by (combine pop2 fit2)).
  assert (Ls2 : length s2 = mb_n p) by (unfold s2; rewrite sort_by_combine_len; lia). rewrite map_length, Ls2.
  set (pop4 := firstn (mb_n p - mb_keep p) (map fst s2) ++ firstn (mb_keep p) pop).
  assert (L4 : length pop4 = mb_n p) by (unfold pop4; rewrite app_length, !firstn_length, map_length, Ls2; lia).
  assert (I4 : Forall (inside C) pop4).
  { apply Forall_app. split; apply Forall_firstn; auto. apply sort_by_combine_in; auto. }
  apply wp_bind. apply w_nthP; [lia|]. intros cb' Ecb. apply wp_bind. apply w_mbo_evaluate; auto; [nonil|]. intros fit4 l2 Lf4 E4. apply wp_bind.
  eapply wp_conseq0; [apply (HQ pop2 fit2 l1 pop4 fit4 l2 cb'); auto; lia|]. intros [x f] l3 H. apply w_done. exact H.
Qed.
End MBO.
Section MBO2.
Variables (F : fops) (C : cfg) (pi : num) (p : mbo_par) (X : exn -> Prop).
Hypothesis HC : cfg_ok C.
Hypothesis Hn : 0 < mb_n p.
Hypothesis Hnp : mb_np1 F p <= mb_n p.
Hypothesis HX : (mb_np1 F p <> 1 /\ 2 <= mb_np2 F p /\ 2 <= c_dim C) \/ (X EValue /\ X EIndex).
Definition MboInv (pop : list vec) (fit : list num) (xb : vec) (fxb : num) (cb : option vec) (l : elog) : Prop :=
  PopSeen C (mb_n p) pop fit xb fxb l /\ match cb with Some b => length b = c_dim C | None => True end.
Lemma sorted_ps : forall pop fit xb fxb l, PopSeen C (mb_n p) pop fit xb fxb l ->
  PopSeen C (mb_n p) (map fst (sort_by (combine pop fit))) (map snd (sort_by (combine pop fit))) xb fxb l.
Proof.
  intros pop fit xb fxb l [P1 P2 P3 P4 P5 P6]. constructor; auto; rewrite ?map_length; try (rewrite sort_by_combine_len; lia).
  - apply sort_by_combine_in; auto. lia.
  - apply sort_by_combine_seen; auto.
Qed.
Lemma sorted_snd_In : forall (pop : list vec) fit g, length pop = length fit -> (In g (map snd (sort_by (combine pop fit))) <-> In g fit).
Proof.
  intros pop fit g H. rewrite <- (combine_snd _ _ pop fit H) at 2. split; intros Hg; (eapply Permutation_in; [|exact Hg]); apply Permutation_map; try (apply Permutation_sym; apply sort_by_perm); apply sort_by_perm.
Qed.
(** get_best of the sorted initial population *)
Lemma w_sorted_first : forall K n pop fit (Q : vec * num -> elog -> Prop) l, 0 < n -> length pop = n -> Forall (inside C) pop -> Evals pop fit [] l ->
  (forall x f, PopInv C n (map fst (sort_by (combine pop fit))) (map snd (sort_by (combine pop fit))) x f l -> Q (x, f) l) ->
  wp K (lift (get_best (map fst (sort_by (combine pop fit))) (map snd (sort_by (combine pop fit))) None PInf)) Q l.
Proof.
  intros K n pop fit Q l Hn0 Lp Hin He HQ. assert (Lf := Evals_len _ _ _ _ He). assert (S := Evals_seenN _ _ _ _ He). assert (Ls := sort_by_combine_len pop fit ltac:(lia)).
  apply w_get_best0_cov.
  - intros Q0. apply (f_equal (@length num)) in Q0. rewrite map_length, Ls in Q0. simpl in Q0. lia.
  - apply SeenN2_seen. apply sort_by_combine_seen. auto.
  - assert (Cv : Cov l fit PInf) by (rewrite <- (app_nil_r fit); eapply Cov_Evals; [|exact He]; intros ? ? []).
    eapply Cov_incl; [|exact Cv]. intros g Hg. apply sorted_snd_In; auto.
  - intros x f HG Hx. apply HQ. assert (Hi := sort_by_combine_in C pop fit ltac:(lia) Hin). constructor; rewrite ?map_length; auto; try lia.
    + apply SeenN2_seen. apply sort_by_combine_seen. auto.
    + apply inside_len; auto. rewrite Forall_forall in Hi. auto.
Qed.
Lemma mbo_init_c : forall it, init_c (KBX C X) (Algo (list vec) (option vec) (fun pop => pop) (mbo_init C (mb_n p)) it) MboInv.
Proof.
  intros it. unfold init_c. cbn [a_init a_coords]. unfold mbo_init. apply wp_bind. apply w_default_numpy_init; auto.
  intros pop fit l H1 H2 H3. cbv zeta. apply w_done. apply (w_sorted_first _ (mb_n p)); auto. intros x f H. split; auto. apply pi_ps. exact H.
Qed.
Lemma mbo_iter_c : forall pop fit xb fxb cb l, MboInv pop fit xb fxb cb l ->
  wp (KBX C X) (mbo_iter F C pi p pop fit xb fxb cb) (fun a l' => let '(pop', fit', xb', fxb', cb') := a in
    MboInv pop' fit' xb' fxb' cb' l' /\ fleb fxb' fxb = true /\ (forall g, In g fit' -> fleb fxb' g = true)) l.
Proof.
  intros pop fit xb fxb cb l [HP Hcb]. eapply (w_mbo_iter F C pi p _ Evals); auto.
  - destruct HX as [?|[H1 H2]]; [left; auto|right; split; right; auto].
  - intros xs Q l0 Hne Hd HQ. apply w_repair_all; auto.
  - intros xs Q l0 Hne Hd HQ. apply w_eval_all; auto. intros vs l' He. apply HQ; auto. eapply Evals_len; eauto.
  - apply HP.
  - apply HP.
  - intros pop2 fit2 l1 pop4 fit4 l2 cb' L2 I2 Lf2 E2 E4 L4 I4 Lf4 Ev4 Ecb s. assert (X1 : ext l l2) by (eapply ext_trans; eapply Evals_ext; eauto).
    assert (Sx : SeenN l2 xb fxb) by (eapply SeenN_ext; [exact X1|apply HP]).
    assert (PS : PopSeen C (mb_n p) (map fst s) (map snd s) xb fxb l2) by (apply sorted_ps; constructor; auto; [eapply Evals_seenN; eauto|apply HP]).
    apply w_get_best_seen; auto; [|apply PS|].
    + intros Q0. apply (f_equal (@length num)) in Q0. rewrite (ps_fit _ _ _ _ _ _ _ PS) in Q0. simpl in Q0. lia.
    + intros x f Hs Hx Hf Hg. split; auto. split; cbn [fst snd].
      * destruct PS as [P1 P2 P3 P4 P5 P6]. constructor; auto. destruct Hx as [Hx| ->]; auto. apply inside_len; auto. rewrite Forall_forall in P3. auto.
      * apply inside_len; auto. exact (Forall_nth _ _ _ _ _ I4 Ecb).
Qed.
(** with a problem that is a function, when no evaluation is refused and some of the new rows are kept *)
Variable g : vec -> num.
Hypothesis Hk : mb_keep p < mb_n p.
Let V (x : vec) (v : num) : Prop := v = g x.
Let R (x y : vec) : Prop := True.
Let EvsD (xs : list vec) (vs : list num) (l l' : elog) : Prop := Evals xs vs l l' /\ Forall2 (fun x v => v = g x) xs vs.
Definition MboGood (pop : list vec) (fit : list num) (xb : vec) (fxb : num) (cb : option vec) (l : elog) : Prop :=
  MboInv pop fit xb fxb cb l /\ Good l xb fxb.
Lemma mbo_init_d : forall it, init_c (KD C R V (inside C) X) (Algo (list vec) (option vec) (fun pop => pop) (mbo_init C (mb_n p)) it) MboGood.
Proof.
  intros it. unfold init_c. cbn [a_init a_coords]. unfold mbo_init. apply wp_bind. apply w_default_numpy_init_d; auto.
  intros pop fit l H1 H2 H3 _. cbv zeta. apply w_done. apply (w_sorted_first _ (mb_n p)); auto. intros x f H. split; [split; auto; apply pi_ps; exact H|apply H].
Qed.
Lemma mbo_iter_d : iter_c (KD C R V (inside C) X) (mbo F C pi p) MboGood.
Proof.
  intros pop fit xb fxb cb l [[HP Hcb] HG]. cbn [a_iter mbo]. eapply (w_mbo_iter F C pi p _ EvsD); auto.
  - destruct HX as [?|[H1 H2]]; [left; auto|right; split; right; auto].
  - intros xs Q l0 Hne Hd HQ. apply w_repair_all_d; auto.
  - intros xs Q l0 Hne Hd HQ. apply w_eval_all_d; auto. intros vs l' He Hf. apply HQ; [eapply Evals_len; eauto|split; auto]. clear - Hf. induction Hf; constructor; auto. apply H.
  - apply HP.
  - apply HP.
  - intros pop2 fit2 l1 pop4 fit4 l2 cb' L2 I2 Lf2 [E2 D2] E4 L4 I4 Lf4 [Ev4 D4] Ecb s. assert (X1 : ext l l2) by (eapply ext_trans; eapply Evals_ext; eauto).
    assert (Sx : SeenN l2 xb fxb) by (eapply SeenN_ext; [exact X1|apply HP]).
    assert (PS : PopSeen C (mb_n p) (map fst s) (map snd s) xb fxb l2) by (apply sorted_ps; constructor; auto; [eapply Evals_seenN; eauto|apply HP]).
    assert (Cv : Cov l2 fit4 fxb).
    { assert (C1 := Cov_Evals _ _ _ _ [] fxb (Good_Cov _ _ _ _ HG) E2). rewrite app_nil_r in C1.
      assert (C2 := Cov_Evals _ _ _ _ _ _ C1 Ev4). intros y v Hv. destruct (C2 y v Hv) as [G|(h & Hh & G)]; auto. right. apply in_app_or in Hh. destruct Hh as [Hh|Hh]; [exists h; auto|].
      (* the head of the sorted new rows is re-evaluated *)
      assert (Ls2 : length (sort_by (combine pop2 fit2)) = mb_n p) by (rewrite sort_by_combine_len; lia).
      destruct (sort_by (combine pop2 fit2)) as [|[b fb] r] eqn:Es; [simpl in Ls2; lia|].
      assert (Hb : In (b, fb) (combine pop2 fit2)) by (eapply Permutation_in; [apply Permutation_sym; apply sort_by_perm|rewrite Es; left; auto]).
      assert (Vb : fb = g b). { clear - Hb D2. induction D2; [contradiction|]. destruct Hb as [Q|Q]; [inversion Q; subst; auto|auto]. }
      assert (Lh : fleb fb h = true).
      { rewrite <- (combine_snd _ _ pop2 fit2) in Hh by lia. apply in_map_iff in Hh. destruct Hh as (a & <- & Ha). change fb with (snd (b, fb)). apply key_le_fleb; [|eapply sort_by_hd; eauto].
        apply (fleb_nan_l _ _ G). }
      destruct (mb_n p - mb_keep p) as [|k] eqn:Ek; [lia|]. cbn [map firstn fst] in E4. rewrite E4 in D4. inversion D4; subst. exists (g b). split; [left; auto|]. exact (fleb_trans _ _ _ Lh G). }
    apply w_get_best_seen; auto; [|apply PS|].
    + intros Q0. apply (f_equal (@length num)) in Q0. rewrite (ps_fit _ _ _ _ _ _ _ PS) in Q0. simpl in Q0. lia.
    + intros x f Hs Hx Hf Hg. split; [split|]; cbn [fst snd].
      * destruct PS as [P1 P2 P3 P4 P5 P6]. constructor; auto. destruct Hx as [Hx| ->]; auto. apply inside_len; auto. rewrite Forall_forall in P3. auto.
      * apply inside_len; auto. exact (Forall_nth _ _ _ _ _ I4 Ecb).
      * eapply Good_take_best; [apply Hs|apply Hs|exact Hf| |exact Cv]. intros h Hh. apply Hg. apply sorted_snd_In; auto. lia.
Qed.
End MBO2.
