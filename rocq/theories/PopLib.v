(** Proof library for algorithms whose population is an array of points with an array of fitness values. *)
From Coq Require Import ZArith Lia Bool List.
From Verif Require Import Num Task TaskSpec TaskProofs TaskProofs2 Prog Wp GetBest Run RunSpec RunProofs RunProofs2
  AlgoLib Fops AlgTac StepSpec StepLib Indiv IndivLib AlgSwarm.
Import ListNotations.

Record PopInv (C : cfg) (n : nat) (pop : list vec) (fit : list num) (xb : vec) (fxb : num) (l : elog) : Prop := {
  pi_pop : length pop = n; pi_fit : length fit = n; pi_in : Forall (inside C) pop; pi_seen : Forall2 (Seen l) pop fit;
  pi_xb : length xb = c_dim C; pi_good : Good l xb fxb
}.
Lemma pi_dims : forall C n pop fit xb fxb l, cfg_ok C -> PopInv C n pop fit xb fxb l -> dims (c_dim C) pop.
Proof. intros C n pop fit xb fxb l HC H. apply dims_inside; auto. apply H. Qed.
Lemma pi_nan : forall C n pop fit xb fxb l, PopInv C n pop fit xb fxb l -> Forall (fun f => f <> NaN) fit.
Proof. intros C n pop fit xb fxb l [P1 P2 P3 P4 P5 P6]. eapply Seen2_not_nan; [|exact P4]. apply (Good_Cov l xb fxb []); auto. Qed.

(** a whole new population was evaluated and get_best called *)
Lemma w_best_evals : forall C K n pop fit fit0 xb fxb pop0 l l' (Q : vec * num -> elog -> Prop), cfg_ok C -> 0 < n ->
  PopInv C n pop0 fit0 xb fxb l -> length pop = n -> Forall (inside C) pop -> Evals pop fit l l' ->
  (forall x f, PopInv C n pop fit x f l' -> Q (x, f) l') ->
  wp K (lift (get_best pop fit (Some xb) fxb)) Q l'.
Proof.
  intros C K n pop fit fit0 xb fxb pop0 l l' Q HC Hn [P1 P2 P3 P4 P5 P6] Hp Hin He HQ.
  eapply w_get_best_evals; eauto. { destruct pop; simpl in *; [lia|congruence]. }
  intros x f HG Hx. apply HQ. constructor; auto.
  - apply Evals_len in He. lia.
  - eapply Evals_seen; eauto.
  - destruct Hx as [Hx| ->]; auto. apply inside_len; auto. rewrite Forall_forall in Hin. auto.
Qed.
(** one row was replaced by an evaluated point and get_best called *)
Lemma w_best_row : forall C K n pop fit i x f xb fxb l l' (Q : vec * num -> elog -> Prop), cfg_ok C ->
  PopInv C n pop fit xb fxb l -> i < n -> inside C x -> Evald x f l l' ->
  (forall x' f', PopInv C n (upd pop i x) (upd fit i f) x' f' l' -> Q (x', f') l') ->
  wp K (lift (get_best (upd pop i x) (upd fit i f) (Some xb) fxb)) Q l'.
Proof.
  intros C K n pop fit i x f xb fxb l l' Q HC [P1 P2 P3 P4 P5 P6] Hi Hx He HQ. assert (Hext := Evald_ext _ _ _ _ He).
  assert (S : Forall2 (Seen l') (upd pop i x) (upd fit i f)).
  { apply Forall2_upd; [eapply Seen2_ext; eauto|eapply Evald_seen; eauto]. }
  assert (Hf : In f (upd fit i f)) by (eapply nth_error_In; apply (nth_upd_same _ fit i f); lia).
  apply w_get_best; auto.
  - intros Q0. assert (length (upd fit i f) = 0) by (rewrite Q0; auto). rewrite upd_length in *. lia.
  - eapply Seen_ext; eauto. apply P6.
  - apply P6.
  - eapply Cov_incl; [|eapply (Cov_Evald x f l l' []); eauto; eapply Good_Cov; eauto]. intros a [<-|[]]. auto.
  - intros x' f' HG Hx'. apply HQ. constructor; auto; rewrite ?upd_length; auto.
    + apply Forall_upd; auto.
    + destruct Hx' as [Hx'| ->]; auto. apply inside_len; auto. apply In_upd in Hx'. destruct Hx' as [->|Hx']; auto.
      rewrite Forall_forall in P3. auto.
Qed.
(** a row is replaced by an evaluated point, the best is updated iff that is at least as good *)
Lemma pi_set_row : forall C n pop fit xb fxb l i x f l', cfg_ok C -> PopInv C n pop fit xb fxb l -> inside C x -> Evald x f l l' ->
  PopInv C n (upd pop i x) (upd fit i f) (if fleb f fxb then x else xb) (if fleb f fxb then f else fxb) l'.
Proof.
  intros C n pop fit xb fxb l i x f l' HC [P1 P2 P3 P4 P5 P6] Hx He. assert (Hext := Evald_ext _ _ _ _ He).
  constructor; rewrite ?upd_length; auto.
  - apply Forall_upd; auto.
  - apply Forall2_upd; [eapply Seen2_ext; eauto|eapply Evald_seen; eauto].
  - destruct (fleb f fxb); auto. apply inside_len; auto.
  - destruct (fleb f fxb) eqn:Q; [eapply Good_take; eauto|eapply Good_keep_le; eauto].
Qed.
(** the same with the row kept *)
Lemma pi_keep_row : forall C n pop fit xb fxb l x f l', cfg_ok C -> PopInv C n pop fit xb fxb l -> inside C x -> Evald x f l l' ->
  PopInv C n pop fit (if fleb f fxb then x else xb) (if fleb f fxb then f else fxb) l'.
Proof.
  intros C n pop fit xb fxb l x f l' HC [P1 P2 P3 P4 P5 P6] Hx He. assert (Hext := Evald_ext _ _ _ _ He).
  constructor; auto.
  - eapply Seen2_ext; eauto.
  - destruct (fleb f fxb); auto. apply inside_len; auto.
  - destruct (fleb f fxb) eqn:Q; [eapply Good_take; eauto|eapply Good_keep_le; eauto].
Qed.

(** the default initialisation with additional parameters *)
Lemma init_pop : forall C X n T (ini : prog (list vec * list num * T)) it (I : list vec -> list num -> T -> Prop), cfg_ok C -> 0 < n ->
  (forall (Q : list vec * list num * T -> elog -> Prop), (forall pop fit par l, length pop = n -> Forall (inside C) pop -> Evals pop fit [] l -> I pop fit par -> Q (pop, fit, par) l) ->
    wp (KBX C X) ini Q []) ->
  init_c (KBX C X) (Algo (list vec) T (fun pop => pop) ini it)
    (fun pop fit xb fxb par l => PopInv C n pop fit xb fxb l /\ I pop fit par).
Proof.
  intros C X n T ini it I HC Hn Hini. unfold init_c. cbn [a_init a_coords]. apply Hini.
  intros pop fit par l Hl Hin He HI.
  apply (w_get_best0 _ l); auto. { destruct pop; simpl in *; [lia|congruence]. }
  intros x f HG Hx. cbn [fst snd]. split; auto. constructor; auto.
  - apply Evals_len in He. lia.
  - eapply Evals_seen; eauto.
  - apply inside_len; auto. rewrite Forall_forall in Hin. auto.
Qed.

(** best evaluated point, constant population size, relation R between iterations *)
Theorem pop_all : forall X E n R T (ini : prog (list vec * list num * T)) it (I : list vec -> list num -> T -> Prop), let C := e_cfg E in
  cfg_ok C -> no_nan (e_prob E) -> repair_ok E -> 0 < n ->
  (forall (Q : list vec * list num * T -> elog -> Prop), (forall pop fit par l, length pop = n -> Forall (inside C) pop -> Evals pop fit [] l -> I pop fit par -> Q (pop, fit, par) l) ->
    wp (KBX C X) ini Q []) ->
  (forall pop fit xb fxb par l, PopInv C n pop fit xb fxb l -> I pop fit par ->
     wp (KBX C X) (it pop fit xb fxb par) (fun a l' => let '(pop', fit', xb', fxb', par') := a in
       (PopInv C n pop' fit' xb' fxb' l' /\ I pop' fit' par') /\ R (fit, xb, fxb) (fit', xb', fxb')) l) ->
  best_run_x X E (Algo (list vec) T (fun pop => pop) ini it) /\
  sizes_ok (fun k => k = n) E (Algo (list vec) T (fun pop => pop) ini it) /\
  steps_ok R E (Algo (list vec) T (fun pop => pop) ini it).
Proof.
  intros X E n R T ini it I C HC Hn Hr Hp Hini Hit.
  set (A := Algo (list vec) T (fun pop => pop) ini it).
  apply (all_c (inside C) X (fun k => k = n) R E A (fun pop fit xb fxb par l => PopInv C n pop fit xb fxb l /\ I pop fit par)); auto.
  - apply init_pop; auto.
  - intros pop fit xb fxb par l [H1 H2]. apply Hit; auto.
  - intros pop fit xb fxb par l [[P1 P2 P3 P4 P5 P6] _]. auto.
Qed.
Definition any_step (s s' : snap) : Prop := True.
Theorem pop_all2 : forall X E n T (ini : prog (list vec * list num * T)) it (I : list vec -> list num -> T -> Prop), let C := e_cfg E in
  cfg_ok C -> no_nan (e_prob E) -> repair_ok E -> 0 < n ->
  (forall (Q : list vec * list num * T -> elog -> Prop), (forall pop fit par l, length pop = n -> Forall (inside C) pop -> Evals pop fit [] l -> I pop fit par -> Q (pop, fit, par) l) ->
    wp (KBX C X) ini Q []) ->
  (forall pop fit xb fxb par l, PopInv C n pop fit xb fxb l -> I pop fit par ->
     wp (KBX C X) (it pop fit xb fxb par) (fun a l' => let '(pop', fit', xb', fxb', par') := a in
       PopInv C n pop' fit' xb' fxb' l' /\ I pop' fit' par') l) ->
  best_run_x X E (Algo (list vec) T (fun pop => pop) ini it) /\
  sizes_ok (fun k => k = n) E (Algo (list vec) T (fun pop => pop) ini it).
Proof.
  intros X E n T ini it I C HC Hn Hr Hp Hini Hit.
  destruct (pop_all X E n any_step T ini it I) as (H1 & H2 & _); auto.
  intros pop fit xb fxb par l H1 H2. eapply wp_conseq0; [apply (Hit _ _ _ _ _ _ H1 H2)|].
  intros [[[[pop' fit'] xb'] fxb'] par'] l' H. split; auto. exact Logic.I.
Qed.

(** matrices of draws *)
Lemma w_random_mat : forall K n d (Q : list vec -> elog -> Prop) l,
  (forall m, length m = n -> dims d m -> Forall (Forall in_unit) m -> Q m l) -> wp K (random_mat n d) Q l.
Proof.
  intros K n d Q l H. unfold random_mat. eapply wp_conseq0.
  - apply (wp_repeatM _ K _ (fun bs l' => l' = l /\ dims d bs /\ Forall (Forall in_unit) bs) n l); [repeat split; constructor|].
    intros bs l' _ (-> & H1 & H2). apply w_random_vec_u. intros v L U. split; auto. split; [apply dims_app; auto; apply dims_cons; auto; constructor|].
    apply Forall_app; auto.
  - intros m l' [(-> & H1 & H2) L]. auto.
Qed.
Lemma w_rnd_f_mat : forall K n d (Q : list vec -> elog -> Prop) l, (forall m, length m = n -> dims d m -> Q m l) -> wp K (rnd_f_mat n d) Q l.
Proof.
  intros K n d Q l H. unfold rnd_f_mat. eapply wp_conseq0.
  - apply (wp_repeatM _ K _ (fun bs l' => l' = l /\ dims d bs) n l); [repeat split; constructor|].
    intros bs l' _ (-> & H1). apply w_rnd_f_vec. intros v L. split; auto. apply dims_app; auto; apply dims_cons; auto; constructor.
  - intros m l' [(-> & H1) L]. auto.
Qed.
Lemma dims_map2 : forall A d (f : A -> vec -> vec) xs ys, (forall x y, In x xs -> length y = d -> length (f x y) = d) -> dims d ys -> dims d (map2 f xs ys).
Proof.
  intros A d f xs. induction xs; intros ys Hf H; simpl; [constructor|]. inversion H; subst; constructor; auto.
  - apply Hf; simpl; auto.
  - apply IHxs; auto. intros; apply Hf; simpl; auto.
Qed.
Lemma dims_map2v : forall d (f : num -> num -> num) xs ys, dims d xs -> dims d ys -> dims d (map2 (map2 f) xs ys).
Proof. intros d f xs ys H1 H2. apply dims_map2; auto. intros x y Hx Hy. apply map2_length; auto. dnth. Qed.
Lemma dims_mapv : forall A d (f : A -> vec) xs, (forall x, In x xs -> length (f x) = d) -> dims d (map f xs).
Proof. intros A d f xs H. apply Forall_forall. intros y Hy. apply in_map_iff in Hy. destruct Hy as (x & <- & Hx). auto. Qed.
(** component (i, j) of computed matrices *)
Lemma nth_mat2 : forall (f : num -> num -> num) xs ys i j n d, length xs = n -> length ys = n -> dims d xs -> dims d ys -> i < n -> j < d ->
  nth j (nth i (map2 (map2 f) xs ys) []) NaN = f (nth j (nth i xs []) NaN) (nth j (nth i ys []) NaN).
Proof.
  intros f xs ys i j n d L1 L2 D1 D2 Hi Hj. rewrite (nth_map2 _ _ _ _ _ _ _ n [] [] []); auto.
  apply (nth_map2 _ _ _ _ _ _ _ d); auto.
  - eapply dims_In; [exact D1|]. apply nth_In. lia.
  - eapply dims_In; [exact D2|]. apply nth_In. lia.
Qed.
Lemma dims_nthd : forall d xs i, dims d xs -> i < length xs -> length (nth i xs []) = d.
Proof. intros d xs i H Hi. eapply dims_In; [exact H|]. apply nth_In; auto. Qed.
