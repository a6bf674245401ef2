(** Proofs about KrillHerd. *)
From Coq Require Import ZArith Lia Bool List.
From Verif Require Import Num Task TaskSpec TaskProofs TaskProofs2 Prog Wp GetBest Run RunSpec RunProofs RunProofs2
  AlgoLib Fops AlgTac StepSpec StepLib Indiv IndivLib AlgBasic AlgSwarm PopLib AlgEvoProofs AlgKh.
Import ListNotations.

(** a loop whose steps make no evaluations *)
Lemma w_mapM_rel : forall A B K (R : A -> B -> Prop) (f : A -> prog B) xs (Q : list B -> elog -> Prop) l,
  (forall a (Q' : B -> elog -> Prop), In a xs -> (forall b, R a b -> Q' b l) -> wp K (f a) Q' l) ->
  (forall ys, Forall2 R xs ys -> Q ys l) -> wp K (mapM f xs) Q l.
Proof.
  intros A B K R f xs. induction xs as [|a xs IH]; intros Q l Hf HQ; cbn [mapM]; [apply w_done; apply HQ; constructor|].
  apply wp_bind. apply Hf; [left; auto|]. intros b Hb. apply wp_bind. apply IH; [intros; apply Hf; auto; right; auto|].
  intros ys H. apply w_done. apply HQ. constructor; auto.
Qed.
Lemma Forall2_seq : forall B (R : nat -> B -> Prop) n k ys d, Forall2 R (seq k n) ys -> length ys = n /\ forall i, i < n -> R (k + i) (nth i ys d).
Proof.
  intros B R n. induction n as [|n IH]; intros k ys d H; inversion H; subst; [split; [reflexivity|lia]|].
  destruct (IH (S k) l' d) as [L G]; auto. split; [cbn [length]; lia|]. intros [|i] Hi; cbn [nth]; [rewrite Nat.add_0_r; auto|].
  replace (k + S i) with (S k + i) by lia. apply G. lia.
Qed.
Lemma w_mapM_seq : forall B K (R : nat -> B -> Prop) (f : nat -> prog B) n d (Q : list B -> elog -> Prop) l,
  (forall i (Q' : B -> elog -> Prop), i < n -> (forall b, R i b -> Q' b l) -> wp K (f i) Q' l) ->
  (forall ys, length ys = n -> (forall i, i < n -> R i (nth i ys d)) -> Q ys l) -> wp K (mapM f (seq 0 n)) Q l.
Proof.
  intros B K R f n d Q l Hf HQ. apply (w_mapM_rel _ _ _ R).
  - intros a Q' Ha. apply Hf. apply in_seq in Ha. lia.
  - intros ys H. destruct (Forall2_seq _ _ _ _ _ d H) as [L G]. apply HQ; auto.
Qed.
Lemma w_mapM_vec : forall (A : Type) K (R : A -> num -> Prop) (f : A -> prog num) xs d (Q : vec -> elog -> Prop) l,
  (forall a (Q' : num -> elog -> Prop), In a xs -> (forall b, R a b -> Q' b l) -> wp K (f a) Q' l) ->
  (forall ys, length ys = length xs -> (forall j, j < length xs -> R (nth j xs d) (nth j ys NaN)) -> Q ys l) -> wp K (mapM f xs) Q l.
Proof.
  intros A K R f xs d Q l Hf HQ. apply (w_mapM_rel _ _ _ R); auto. intros ys H. apply HQ; [symmetry; eapply Forall2_len; eauto|].
  intros j Hj. apply (Forall2_nth _ _ _ _ _ j _ _ H); [apply nth_error_nth'; exact Hj|]. apply nth_error_nth'. rewrite <- (Forall2_len _ _ _ _ _ H). exact Hj.
Qed.
Lemma dims_of_nth : forall d n ys, length ys = n -> (forall i, i < n -> length (nth i ys []) = d) -> dims d ys.
Proof. intros d n ys L H. apply Forall_forall. intros y Hy. apply (In_nth _ _ []) in Hy. destruct Hy as (i & Hi & <-). apply H. lia. Qed.
Lemma nth_map_seq : forall A (f : nat -> A) n i d, i < n -> nth i (map f (seq 0 n)) d = f i.
Proof. intros A f n i d Hi. rewrite (nth_indep _ d (f 0)) by (rewrite map_length, seq_length; auto). rewrite map_nth. rewrite seq_nth by auto. reflexivity. Qed.

Section Kh.
Variables (F : fops) (C : cfg) (p : kh_par) (X : exn -> Prop).
Hypothesis HC : cfg_ok C.
Hypothesis Hn : 0 < kh_n p.
Hypothesis Hwn : length (kh_wn p) = c_dim C.
Hypothesis Hwf : length (kh_wf p) = c_dim C.
Notation K := (KBX C X).
Notation n := (kh_n p).
Notation d := (c_dim C).

Definition KhInv (pop : list vec) (fit : list num) (st : kh_state) : Prop :=
  length (kh_ind st) = n /\ length (kh_frg st) = n /\ dims d (kh_ind st) /\ dims d (kh_frg st).

Lemma w_neighbours : forall K' pop i (Q : list nat -> elog -> Prop) l, (forall js, Forall (fun j => j < n) js -> Q js l) -> wp K' (kh_neighbours F p pop i) Q l.
Proof.
  intros K' pop i Q l HQ. unfold kh_neighbours. destruct (kh_near F p pop i) as [|j js] eqn:E.
  - apply wp_bind. apply w_integers; auto. intros r Hr. apply w_done. apply HQ. auto.
  - apply w_done. apply HQ. rewrite <- E. apply Forall_forall. intros a Ha. unfold kh_near in Ha. apply filter_In in Ha. destruct Ha as [Ha _]. apply in_seq in Ha. lia.
Qed.
Lemma krow_len : forall pop i, dims d pop -> length pop = n -> i < n -> length (krow pop i) = d.
Proof. intros pop i H L Hi. apply dims_nthd; auto. lia. Qed.
Lemma kh_x_len : forall x y, length x = d -> length y = d -> length (kh_x F x y) = d.
Proof. intros x y Hx Hy. unfold kh_x. dl. Qed.
Lemma kh_forage_len : forall it pop fit b w food ff frg i, dims d pop -> length pop = n -> dims d frg -> length frg = n -> length food = d -> i < n -> b < n ->
  length (kh_foraging F C p it pop fit b w food ff frg i) = d.
Proof.
  intros it pop fit b w food ff frg i D1 L1 D2 L2 Lf Hi Hb. unfold kh_foraging. cbv zeta.
  assert (G1 := krow_len pop i D1 L1 Hi). assert (G2 := krow_len pop b D1 L1 Hb). assert (G3 := krow_len frg i D2 L2 Hi).
  assert (G4 := kh_x_len _ _ G1 Lf). assert (G5 := kh_x_len _ _ G1 G2). destruct (fltb _ _); dl.
Qed.
Lemma w_crossover_len : forall K' cr x xo (Q : vec -> elog -> Prop) l, length x = d -> length xo = d -> (forall y, length y = d -> Q y l) -> wp K' (kh_crossover cr x xo) Q l.
Proof.
  intros K' cr x xo Q l Hx Ho HQ. unfold kh_crossover. apply w_mapM_len.
  - intros a R _ HR. ws. auto.
  - intros v Hv. apply HQ. rewrite Hv, combine_length. lia.
Qed.
Lemma w_mutate_len : forall K' mr x xb (Q : vec -> elog -> Prop) l, length x = d -> length xb = d -> (forall y, length y = d -> Q y l) -> wp K' (kh_mutate F mr x xb) Q l.
Proof.
  intros K' mr x xb Q l Hx Ho HQ. unfold kh_mutate. apply w_mapM_len.
  - intros a R _ HR. ws. destruct (fltb _ _); ws; auto.
  - intros v Hv. apply HQ. rewrite Hv, combine_length. lia.
Qed.
Lemma argmin_some : forall fs, fs <> [] -> exists b, argmin fs = Some b.
Proof. intros [|a fs] H; [congruence|]. eexists. reflexivity. Qed.
Lemma argmax_some : forall fs, fs <> [] -> exists b, argmax fs = Some b.
Proof. intros [|a fs] H; [congruence|]. eexists. reflexivity. Qed.

Lemma kh_it : forall pop fit xb fxb st l, PopInv C n pop fit xb fxb l -> KhInv pop fit st ->
  wp K (kh_iter F C p pop fit xb fxb st) (fun a l' => let '(pop', fit', xb', fxb', st') := a in PopInv C n pop' fit' xb' fxb' l' /\ KhInv pop' fit' st') l.
Proof.
  intros pop fit xb fxb st l P (S1 & S2 & S3 & S4). unfold kh_iter. ws.
  assert (Ne : fit <> []) by (intros Q; assert (L := pi_fit _ _ _ _ _ _ _ P); rewrite Q in L; simpl in L; lia).
  destruct (argmin_some fit Ne) as [b Eb]. destruct (argmax_some fit Ne) as [w Ew]. rewrite Eb, Ew. cbn [argP]. ws.
  assert (Lb := argmin_range _ _ Eb). rewrite (pi_fit _ _ _ _ _ _ _ P) in Lb.
  apply w_repair; [unfold kh_food; dl|]. intros food Hfd. ws. match goal with H : Evald _ _ _ _ |- _ => rename H into He end. rename v0 into ff. rename l' into l1.
  assert (P1 : PopInv C n pop fit (if fltb ff fxb then food else xb) (if fltb ff fxb then ff else fxb) l1).
  { destruct P as [P1 P2 P3 P4 P5 P6]. constructor; auto.
    - eapply Seen2_ext; [eapply Evald_ext; eauto|auto].
    - destruct (fltb ff fxb); auto. apply inside_len; auto.
    - destruct (fltb ff fxb) eqn:Q; [eapply Good_take; eauto; apply fltb_fleb; auto|eapply Good_keep; eauto]. }
  replace (if fltb ff fxb then (food, ff) else (xb, fxb)) with (if fltb ff fxb then food else xb, if fltb ff fxb then ff else fxb) by (destruct (fltb ff fxb); reflexivity).
  assert (D := pi_dims _ _ _ _ _ _ _ HC P). assert (Lp := pi_pop _ _ _ _ _ _ _ P). cbn beta iota.
  apply wp_bind. apply (w_mapM_seq _ _ (fun _ x => length x = d) _ _ []).
  { intros i Q' Hi HQ. unfold kh_induced. apply wp_bind. apply w_neighbours. intros js _. ws. apply HQ. assert (G := krow_len _ i S3 S1 Hi). dl. }
  intros ind Li Di. cbv zeta. apply wp_bind. apply (w_mapM_seq _ _ (fun _ x => length x = d) _ _ []).
  { intros i Q' Hi HQ. unfold kh_diffusion. apply wp_bind. apply (w_uniform_vec_len _ _ _ d); [apply repeat_length|apply repeat_length|]. intros u [Hu _]. ws. apply HQ. dl. }
  intros dif Ld Dd. apply wp_bind. apply (w_mapM_seq _ _ (fun _ x => length x = d) _ _ []).
  { intros i Q' Hi HQ. apply w_crossover_len; auto; [|apply krow_len; auto]. unfold krow at 1. rewrite nth_map_seq by auto.
    assert (G := krow_len _ i D Lp Hi). assert (G1 := Di i Hi). assert (G2 := Dd i Hi).
    assert (G3 : length (krow (map (kh_foraging F C p (v_iters v) pop fit b w food ff (kh_frg st)) (seq 0 n)) i) = d).
    { unfold krow. rewrite nth_map_seq by auto. apply kh_forage_len; auto. apply inside_len; auto. }
    unfold krow in G1, G2. fold (krow ind i) in G1. fold (krow dif i) in G2. dl. }
  intros new2 L2 D2. apply wp_bind. apply (w_mapM_seq _ _ (fun _ x => length x = d) _ _ []).
  { intros i Q' Hi HQ. apply w_mutate_len; auto; [apply D2; auto|apply krow_len; auto]. }
  intros new3 L3 D3. ws. apply w_repair_all; [destruct new3; simpl in *; [lia|congruence]|apply (dims_of_nth d n); auto|].
  intros pop' Lp' Hin. ws. rewrite L3 in Lp'. apply w_eval_all; [destruct pop'; simpl in *; [lia|congruence]|auto|]. intros fit' l' Ev. ws.
  apply (w_best_evals C _ n pop' fit' fit (if fltb ff fxb then food else xb) (if fltb ff fxb then ff else fxb) pop l1 l'); auto.
  intros x f P'. ws. split; auto. split; [exact Li|]. split; [cbn [kh_frg]; dl|]. split; [apply (dims_of_nth d n); auto|].
  cbn [kh_frg]. apply (dims_of_nth d n); [dl|]. intros i Hi. rewrite nth_map_seq by auto. apply kh_forage_len; auto. apply inside_len; auto.
Qed.
Lemma kh_in : forall (Q : list vec * list num * kh_state -> elog -> Prop), (forall pop fit st l, length pop = n -> Forall (inside C) pop -> Evals pop fit [] l -> KhInv pop fit st -> Q (pop, fit, st) l) ->
  wp K (kh_init F C p) Q [].
Proof.
  intros Q HQ. unfold kh_init. apply wp_bind. apply w_default_numpy_init; auto. intros pop fit l L Hin He. cbv zeta. apply w_done. apply HQ; auto.
  split; [apply repeat_length|]. split; [apply repeat_length|]. split; apply dims_repeat; apply repeat_length.
Qed.
End Kh.
