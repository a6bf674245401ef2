(** Proofs about the fireworks algorithms of AlgFwa.v. *)
From Coq Require Import ZArith Lia Bool List.
From Verif Require Import Num Task TaskSpec TaskProofs TaskProofs2 Prog Wp GetBest Run RunSpec RunProofs
  AlgoLib Fops AlgTac StepSpec StepLib Indiv IndivLib AlgDE AlgPSO AlgSwarm PopLib AlgSwarmProofs AlgBasic AlgBasicProofs AlgEvo AlgEvoProofs
  Repair PropertiesRepair AlgFwa.
Import ListNotations.

(** the exceptions these algorithms raise themselves: ValueError and OverflowError (rounding, sampling) *)
Definition fwx (e : exn) : Prop := e = EValue \/ e = EOverflow.

Lemma w_amax : forall K xs (Q : num -> elog -> Prop) l, xs <> [] ->
  (forall i v, argmax xs = Some i -> nth_error xs i = Some v -> Q v l) -> wp K (amax xs) Q l.
Proof.
  intros K xs Q l Hne HQ. unfold amax. destruct (argmax xs) as [i|] eqn:E.
  - apply w_nthP; [apply argmax_range; auto|]. intros a Ha. eapply HQ; eauto.
  - destruct xs; [congruence|discriminate].
Qed.
Lemma w_amin : forall K xs (Q : num -> elog -> Prop) l, xs <> [] ->
  (forall i v, argmin xs = Some i -> nth_error xs i = Some v -> Q v l) -> wp K (amin xs) Q l.
Proof.
  intros K xs Q l Hne HQ. unfold amin. destruct (argmin xs) as [i|] eqn:E.
  - apply w_nthP; [apply argmin_range; auto|]. intros a Ha. eapply HQ; eauto.
  - destruct xs; [congruence|discriminate].
Qed.
Lemma w_py_round : forall K x (Q : Z -> elog -> Prop) l, K_exn K EValue -> K_exn K EOverflow ->
  (forall y, x = Fin y -> Q (fround x) l) -> wp K (lift (py_round x)) Q l.
Proof. intros K x Q l H1 H2 HQ. destruct x; cbn [py_round lift]; simpl; eauto. Qed.

Section Fw.
Variable K : wctx.
Hypothesis KV : K_exn K EValue.
Hypothesis KO : K_exn K EOverflow.

Lemma w_fw_counts : forall F p fit (Q : list Z -> elog -> Prop) l, fit <> [] ->
  (forall cs, length cs = length fit -> Q cs l) -> wp K (fw_counts F p fit) Q l.
Proof.
  intros F p fit Q l Hne HQ. unfold fw_counts. apply wp_bind. apply w_amax; auto. intros i w _ _.
  apply wp_bind. apply w_py_round; auto. intros ? _. apply wp_bind. apply w_py_round; auto. intros ? _. apply w_done. apply HQ. apply map_length.
Qed.
Lemma w_fw_amplitudes : forall F p fit (Q : list num -> elog -> Prop) l, fit <> [] ->
  (forall cs, length cs = length fit -> Q cs l) -> wp K (fw_amplitudes F p fit) Q l.
Proof.
  intros F p fit Q l Hne HQ. unfold fw_amplitudes. apply wp_bind. apply w_amin; auto. intros i w _ _. apply w_done. apply HQ. apply map_length.
Qed.
Lemma w_ef_amplitudes : forall F C p fit (Q : list num -> elog -> Prop) l, fit <> [] ->
  (forall cs, length cs = length fit -> Q cs l) -> wp K (ef_amplitudes F C p fit) Q l.
Proof.
  intros F C p fit Q l Hne HQ. unfold ef_amplitudes. apply wp_bind. apply w_fw_amplitudes; auto. intros cs Hc.
  apply wp_bind. apply w_view. intros v. apply w_done. apply HQ. rewrite map_length. auto.
Qed.
Lemma w_integers_v : forall n (Q : nat -> elog -> Prop) l, (forall r, r < n -> Q r l) -> wp K (integers n) Q l.
Proof. intros n Q l HQ. destruct n; [exact KV|]. apply w_integers; [lia|auto]. Qed.
Lemma w_choice_from_v : forall A k (xs : list A) (Q : list A -> elog -> Prop) l, NoDup xs ->
  (forall rs, length rs = k -> NoDup rs -> (forall r, In r rs -> In r xs) -> Q rs l) -> wp K (choice_from xs k) Q l.
Proof.
  intros A k xs Q l Hn HQ. destruct (Compare_dec.le_lt_dec k (length xs)) as [H|H]; [apply w_choice_from; auto|]. clear HQ. revert xs Q l Hn H.
  induction k as [|k IH]; intros xs Q l Hn H; [lia|]. cbn [choice_from]. destruct xs as [|x xs0]; [exact KV|]. remember (x :: xs0) as xs.
  apply wp_bind. apply w_integers_v. intros i Hi. apply wp_bind. apply w_nthP; auto. intros a Ea.
  destruct (remove_at_nodup _ xs i a Hn Ea) as [G1 G2]. apply wp_bind. apply IH; auto. rewrite remove_at_length; lia.
Qed.
Lemma w_choice_v : forall n k (Q : list nat -> elog -> Prop) l,
  (forall rs, length rs = k -> NoDup rs -> (forall r, In r rs -> r < n) -> Q rs l) -> wp K (choice n k) Q l.
Proof.
  intros n k Q l HQ. unfold choice. apply w_choice_from_v; [apply seq_NoDup|]. intros rs H1 H2 H3. apply HQ; auto.
  intros r Hr. apply H3 in Hr. apply in_seq in Hr. lia.
Qed.
(** a selection of fewer than all dimensions *)
Lemma w_fw_dims : forall C (Q : list nat -> elog -> Prop) l,
  (forall z, length z < c_dim C -> NoDup z -> (forall j, In j z -> j < c_dim C) -> Q z l) -> wp K (fw_dims C) Q l.
Proof.
  intros C Q l HQ. unfold fw_dims. apply wp_bind. apply w_integers_v. intros k Hk. apply w_choice_v. intros z H1 H2 H3. apply HQ; auto. lia.
Qed.
Lemma w_repeatM_P : forall A (P : A -> Prop) n (p : prog A) (Q : list A -> elog -> Prop) l,
  (forall (R : A -> elog -> Prop), (forall a, P a -> R a l) -> wp K p R l) ->
  (forall xs, length xs = n -> Forall P xs -> Q xs l) -> wp K (repeatM n p) Q l.
Proof.
  intros A P n p Q l Hp. revert Q. induction n as [|n IH]; intros Q HQ; cbn [repeatM]; [apply w_done; auto|].
  apply wp_bind. apply Hp. intros a Ha. apply wp_bind. apply IH. intros xs H1 H2. apply w_done. apply HQ; simpl; auto.
Qed.
Lemma w_mapM_P : forall A B (P : A -> Prop) (R : A -> B -> Prop) (f : A -> prog B) xs (Q : list B -> elog -> Prop) l, Forall P xs ->
  (forall a (T : B -> elog -> Prop), P a -> (forall b, R a b -> T b l) -> wp K (f a) T l) ->
  (forall ys, Forall2 R xs ys -> Q ys l) -> wp K (mapM f xs) Q l.
Proof.
  intros A B P R f xs Q l HP Hf. revert Q. induction HP as [|a xs Ha HP IH]; intros Q HQ; cbn [mapM]; [apply w_done; auto|].
  apply wp_bind. apply Hf; auto. intros b Hb. apply wp_bind. apply IH. intros ys Hy. apply w_done. apply HQ. constructor; auto.
Qed.
Lemma w_rows : forall A (xs : list A) is (Q : list A -> elog -> Prop) l, (forall i, In i is -> i < length xs) ->
  (forall ys, Forall2 (fun i y => nth_error xs i = Some y) is ys -> Q ys l) -> wp K (mapM (nthP xs) is) Q l.
Proof.
  intros A xs is Q l Hi HQ. apply (w_mapM_P _ _ (fun i => i < length xs) (fun i y => nth_error xs i = Some y)).
  - apply Forall_forall. auto.
  - intros a T Ha HT. apply w_nthP; auto.
  - auto.
Qed.

Lemma w_explode : forall (P : vec -> Prop) spark n pop counts amps (Q : list vec -> elog -> Prop) l,
  (forall x a (R : vec -> elog -> Prop), P x -> (forall y, P y -> R y l) -> wp K (spark x a) R l) ->
  length pop = n -> length counts = n -> length amps = n -> Forall P pop ->
  (forall sp, Forall P sp -> Q (pop ++ sp) l) -> wp K (fw_explode spark n pop counts amps) Q l.
Proof.
  intros P spark n pop counts amps Q l Hs H1 H2 H3 HP HQ. unfold fw_explode. eapply wp_conseq0.
  - apply (wp_for_range _ _ _ _ (fun i all l' => l' = l /\ exists sp, all = pop ++ sp /\ Forall P sp)).
    + split; auto. exists []. rewrite app_nil_r. auto.
    + intros i all l' Hi (-> & sp & -> & Hsp). apply wp_bind. apply w_nthP; [lia|]. intros s Es. apply wp_bind. apply w_nthP; [lia|]. intros a Ea.
      apply wp_bind. apply w_nthP; [lia|]. intros x Ex. destruct (s <? 0)%Z; [exact KV|]. apply wp_bind.
      assert (Px : P x) by exact (Forall_nth _ _ _ _ _ HP Ex).
      apply (w_repeatM_P _ P); [intros R HR; apply Hs; auto|]. intros xs Hl Hxs. apply w_done. split; auto. exists (sp ++ xs). rewrite app_assoc. split; auto.
      apply Forall_app. auto.
  - intros all l' (-> & sp & -> & Hsp). auto.
Qed.
Lemma Forall_rows : forall A (P : A -> Prop) xs is ys, Forall P xs -> Forall2 (fun i y => nth_error xs i = Some y) is ys -> Forall P ys.
Proof. intros A P xs is ys HP H. induction H; constructor; auto. exact (Forall_nth _ _ _ _ _ HP H). Qed.
Lemma w_gaussians : forall (P : vec -> Prop) gspark g all (Q : list vec -> elog -> Prop) l,
  (forall x (R : vec -> elog -> Prop), P x -> (forall y, P y -> R y l) -> wp K (gspark x) R l) ->
  Forall P all -> (forall gs, length gs = g -> Forall P gs -> Q (all ++ gs) l) -> wp K (fw_gaussians gspark g all) Q l.
Proof.
  intros P gspark g all Q l Hs HP HQ. unfold fw_gaussians. apply wp_bind. apply w_choice_v. intros is I1 I2 I3.
  apply wp_bind. apply w_rows; auto. intros rows Hr. apply wp_bind.
  apply (w_mapM_P _ _ P (fun _ y => P y)).
  - eapply Forall_rows; eauto.
  - intros a T Ha HT. apply Hs; auto.
  - intros gs Hg. apply w_done. apply HQ.
    + rewrite <- (Forall2_len _ _ _ _ _ Hg), <- (Forall2_len _ _ _ _ _ Hr). auto.
    + clear - Hg. induction Hg; auto.
Qed.
Lemma w_choice_p : forall F tol p k (Q : list nat -> elog -> Prop) l,
  (forall rs, length rs = k -> NoDup rs -> (forall r, In r rs -> r < length p) -> Q rs l) -> wp K (choice_p F tol p k) Q l.
Proof.
  intros F tol p k Q l HQ. unfold choice_p. destruct (_ || _ || _ || _); [exact KV|]. apply w_choice_from_v.
  - apply NoDup_filter. apply seq_NoDup.
  - intros rs H1 H2 H3. apply HQ; auto. intros r Hr. apply H3 in Hr. apply filter_In in Hr. destruct Hr as [Hr _]. apply in_seq in Hr. lia.
Qed.
End Fw.

Lemma remove_at_Forall2 : forall A B (R : A -> B -> Prop) xs ys i, Forall2 R xs ys -> Forall2 R (remove_at xs i) (remove_at ys i).
Proof. intros A B R xs ys i H. revert i. induction H; intros [|i]; simpl; auto. Qed.
Lemma remove_at_Forall : forall A (P : A -> Prop) xs i, Forall P xs -> Forall P (remove_at xs i).
Proof. intros A P xs i H. revert i. induction H; intros [|i]; simpl; auto. Qed.
Lemma Forall2_rows : forall A B (R : A -> B -> Prop) xs ys is us vs, Forall2 R xs ys ->
  Forall2 (fun i y => nth_error xs i = Some y) is us -> Forall2 (fun i y => nth_error ys i = Some y) is vs -> Forall2 R us vs.
Proof.
  intros A B R xs ys is us vs H H1. revert vs. induction H1; intros vs H2; inversion H2; subst; constructor; auto.
  exact (Forall2_nth _ _ R _ _ _ _ _ H H0 H5).
Qed.

(** the population, its fitness (each value seen at its row or the refused one) and a best pair that was seen *)
Record FwInv (P : vec -> Prop) (n : nat) (pop : list vec) (fit : list num) (xb : vec) (fxb : num) (l : elog) : Prop := {
  fi_pop : Forall P pop; fi_n : length pop = n; fi_seen : Forall2 (Seen l) pop fit; fi_xb : P xb; fi_fxb : Seen l xb fxb }.

Lemma fw_init_ok : forall C (P : vec -> Prop) X n T (ini : prog (list vec * list num * T)) it (I : list vec -> list num -> T -> Prop),
  cfg_ok C -> 0 < n -> (forall x, inside C x -> P x) ->
  (forall (Q : list vec * list num * T -> elog -> Prop), (forall pop fit par l, length pop = n -> Forall (inside C) pop -> Evals pop fit [] l -> I pop fit par -> Q (pop, fit, par) l) ->
    wp (KPX C P X) ini Q []) ->
  init_c (KPX C P X) (Algo (list vec) T (fun pop => pop) ini it)
    (fun pop fit xb fxb par l => FwInv P n pop fit xb fxb l /\ Good l xb fxb /\ I pop fit par).
Proof.
  intros C P X n T ini it I HC Hn HP Hini. unfold init_c. cbn [a_init a_coords]. apply Hini.
  intros pop fit par l Hl Hin He HI.
  apply (w_get_best0 _ l); auto. { destruct pop; simpl in *; [lia|congruence]. }
  intros x f HG Hx. cbn [fst snd]. split; auto. rewrite Forall_forall in Hin. constructor; auto.
  - apply Forall_forall. auto.
  - eapply Evals_seen; eauto.
  - apply HG.
Qed.
Lemma w_plain_init : forall C (P : vec -> Prop) X n (Q : list vec * list num * unit -> elog -> Prop), cfg_ok C -> 0 < n -> (forall x, inside C x -> P x) ->
  (forall pop fit par l, length pop = n -> Forall (inside C) pop -> Evals pop fit [] l -> True -> Q (pop, fit, par) l) ->
  wp (KPX C P X) (plain_init C n) Q [].
Proof.
  intros C P X n Q HC Hn HP HQ. unfold plain_init. apply wp_bind. apply w_default_numpy_init; auto. intros pop fit l H1 H2 H3. apply w_done. auto.
Qed.

(** ** FireworksAlgorithm *)
Section FWA.
Variables (F : fops) (C : cfg) (P : vec -> Prop) (X : exn -> Prop).
Hypothesis XF : forall e, fwx e -> X e.
Hypothesis PR : forall x f z, P x -> P (reflect F C (on_dims f z x)).

Let K := KPX C P X.
Lemma KPX_v : K_exn K EValue.
Proof. right. apply XF. left. reflexivity. Qed.
Lemma KPX_o : K_exn K EOverflow.
Proof. right. apply XF. right. reflexivity. Qed.

Lemma w_fw_spark : forall x a (R : vec -> elog -> Prop) l, P x -> (forall y, P y -> R y l) -> wp K (fw_spark F C x a) R l.
Proof.
  intros x a R l Hx HR. unfold fw_spark. apply wp_bind. apply (w_fw_dims K KPX_v). intros z _ _ _. apply wp_bind. apply w_uniform. intros u _. apply w_done. auto.
Qed.
Lemma w_fw_gspark : forall x (R : vec -> elog -> Prop) l, P x -> (forall y, P y -> R y l) -> wp K (fw_gspark F C x) R l.
Proof.
  intros x R l Hx HR. unfold fw_gspark. apply wp_bind. apply (w_fw_dims K KPX_v). intros z _ _ _. apply wp_bind. apply w_rnd_f. intros u. apply w_done. auto.
Qed.
Lemma w_fw_selection : forall tol n sparks (Q : list vec * list num * vec * num -> elog -> Prop) l, sparks <> [] -> 0 < n -> Forall P sparks ->
  (forall pop fit xb fxb l', FwInv P n pop fit xb fxb l' -> Q (pop, fit, xb, fxb) l') -> wp K (fw_selection F tol n sparks) Q l.
Proof.
  intros tol n sparks Q l Hne Hn HP HQ. unfold fw_selection. apply wp_bind. apply w_eval_all; auto. intros sf l' He.
  assert (Hlen := Evals_len _ _ _ _ He). assert (HS := Evals_seen _ _ _ _ He).
  destruct (argmin sf) as [b|] eqn:E; [|exact KPX_v]. assert (Hb := argmin_range _ _ E).
  apply wp_bind. apply w_nthP; [lia|]. intros bx Ebx. apply wp_bind. apply w_nthP; [lia|]. intros bf Ebf.
  apply wp_bind. apply (w_choice_p K KPX_v). unfold fw_probabilities. rewrite !map_length. rewrite remove_at_length by lia. intros sel S1 S2 S3.
  apply wp_bind. apply (w_rows K). { intros i Hi. rewrite remove_at_length; [auto|lia]. } intros xs Hxs.
  apply wp_bind. apply (w_rows K). { intros i Hi. rewrite remove_at_length; [|lia]. rewrite Hlen. auto. } intros fs Hfs.
  apply w_done. apply HQ.
  assert (Pbx : P bx) by exact (Forall_nth _ _ _ _ _ HP Ebx).
  assert (Sbx : Seen l' bx bf) by exact (Forall2_nth _ _ _ _ _ _ _ _ HS Ebx Ebf).
  constructor; auto.
  - constructor; auto. eapply Forall_rows; [|exact Hxs]. apply remove_at_Forall; auto.
  - simpl. rewrite <- (Forall2_len _ _ _ _ _ Hxs). lia.
  - constructor; auto. eapply Forall2_rows; [|exact Hxs|exact Hfs]. apply remove_at_Forall2; auto.
Qed.
Lemma w_fwa_iter : forall tol p pop fit xb fxb u l, 0 < fw_n p -> FwInv P (fw_n p) pop fit xb fxb l ->
  wp K (fwa_iter F C tol p pop fit xb fxb u) (fun a l' => let '(pop', fit', xb', fxb', _) := a in FwInv P (fw_n p) pop' fit' xb' fxb' l') l.
Proof.
  intros tol p pop fit xb fxb u l Hn [I1 I2 I3 I4 I5]. assert (Hlen := Forall2_len _ _ _ _ _ I3).
  assert (Hne : fit <> []) by (destruct fit; simpl in *; [lia|congruence]).
  unfold fwa_iter. apply wp_bind. apply (w_fw_counts K KPX_v KPX_o); auto. intros cs Hc. apply wp_bind. apply (w_fw_amplitudes K); auto. intros am Ha.
  apply wp_bind. apply (w_explode K KPX_v P); auto; [intros; apply w_fw_spark; auto|lia|lia|]. intros sp Hsp.
  apply wp_bind. apply (w_gaussians K KPX_v P); auto; [intros; apply w_fw_gspark; auto|apply Forall_app; auto|]. intros gs Hg HG.
  apply wp_bind. apply w_fw_selection; [destruct pop; simpl in *; [lia|discriminate]|auto| |].
  - repeat (apply Forall_app; split); auto.
  - intros pop' fit' xb' fxb' l' HI. apply w_done. auto.
Qed.
End FWA.

(** ** Sparks repaired by rand *)
Lemma w_rand_inside : forall K C x (Q : vec -> elog -> Prop) l, cfg_ok C -> length x = c_dim C ->
  (forall y, inside C y -> Q y l) -> wp K (rand_repair x (c_lower C) (c_upper C)) Q l.
Proof.
  intros K C x Q l HC Hx HQ. destruct HC as (H1 & H2 & H3).
  eapply wp_conseq0; [apply w_rand_repair; auto; lia|]. intros y l' (-> & Hl & Hy). apply HQ.
  unfold inside. clear HQ. assert (G : forall bs ys, length ys = length bs ->
    (forall i b a, nth_error bs i = Some b -> nth_error ys i = Some a -> in_range (fst b) (snd b) a) ->
    Forall2 (fun b a => in_range (fst b) (snd b) a) bs ys).
  { induction bs as [|b bs IH]; intros [|a ys] HL H; simpl in HL; try lia; constructor.
    - apply (H 0 b a); reflexivity.
    - apply IH; [lia|]. intros i b' a' E1 E2. apply (H (S i) b' a'); auto. }
  apply G; [rewrite combine_length; lia|]. intros i [lo hi] a E1 E2. cbn [fst snd].
  assert (L1 : nth_error (c_lower C) i = Some lo /\ nth_error (c_upper C) i = Some hi).
  { clear - E1. revert i E1. generalize (c_upper C). induction (c_lower C) as [|x xs IH]; intros [|u us] [|i] E; simpl in E; try discriminate.
    - injection E as <- <-. auto.
    - apply IH in E. auto. }
  destruct L1 as [L1 L2]. destruct (nth_error x i) as [c|] eqn:E3.
  - destruct (Hy i c lo hi) as (b & Eb & B1 & _ & B3); [repeat split; auto|]. assert (b = a) by congruence. subst b.
    destruct c; [left; auto| | |]; right; apply B3; discriminate.
  - apply nth_error_None in E3. assert (i < length y) by (apply nth_error_Some; congruence). lia.
Qed.
Lemma on_dims_len : forall f z x, length (on_dims f z x) = length x.
Proof. intros. unfold on_dims. apply map2_length; auto. apply seq_length. Qed.
Lemma fold_upd_len : forall A B (g : list A -> B -> nat) (h : list A -> B -> A) zs x, length (fold_left (fun y b => upd y (g y b) (h y b)) zs x) = length x.
Proof. intros A B g h zs. induction zs as [|b zs IH]; intros x; simpl; auto. rewrite IH, upd_length. auto. Qed.

Section RAND.
Variables (F : fops) (C : cfg) (X : exn -> Prop).
Hypothesis XF : forall e, fwx e -> X e.
Hypothesis HC : cfg_ok C.

Let P := inside C.
Let K := KPX C P X.
Let KV : K_exn K EValue := KPX_v C P X XF.
Let KO : K_exn K EOverflow := KPX_o C P X XF.

Lemma w_ef_spark_v : forall x amp (R : vec -> elog -> Prop) l, P x -> (forall y, P y -> R y l) -> wp K (ef_spark_v F C x amp) R l.
Proof.
  intros x amp R l Hx HR. apply inside_len in Hx; auto. unfold ef_spark_v. apply wp_bind. apply (w_fw_dims K KV). intros z _ _ _.
  apply wp_bind. unfold ef_move. apply wp_bind. apply (w_mapM_P K _ _ (fun _ => True) (fun _ _ => True)).
  - apply Forall_forall. auto.
  - intros a T _ HT. apply w_uniform. auto.
  - intros us _. apply w_done. apply w_rand_inside; auto. rewrite fold_upd_len. auto.
Qed.
Lemma w_ef_spark : forall x a (R : vec -> elog -> Prop) l, P x -> (forall y, P y -> R y l) -> wp K (ef_spark F C x a) R l.
Proof. intros. apply w_ef_spark_v; auto. Qed.
Lemma w_ef_gspark : forall best x (R : vec -> elog -> Prop) l, P x -> (forall y, P y -> R y l) -> wp K (ef_gspark F C best x) R l.
Proof.
  intros best x R l Hx HR. apply inside_len in Hx; auto. unfold ef_gspark. apply wp_bind. apply (w_fw_dims K KV). intros z _ _ _.
  apply wp_bind. apply w_rnd_f. intros e. apply w_rand_inside; auto. rewrite on_dims_len. auto.
Qed.

(** one firework against a random spark *)
Lemma w_ef_replace : forall sparks sf pop fit i (Q : list vec * list num -> elog -> Prop) l, length sf = length sparks -> i < length fit -> length fit = length pop ->
  (Q (pop, fit) l) -> (forall r x f fi, nth_error sparks r = Some x -> nth_error sf r = Some f -> nth_error fit i = Some fi -> fltb f fi = true ->
     Q (upd pop i x, upd fit i f) l) ->
  wp K (ef_replace sparks sf (pop, fit) i) Q l.
Proof.
  intros sparks sf pop fit i Q l H1 H2 H3 HQ0 HQ. unfold ef_replace. cbn [fst snd]. apply wp_bind. apply (w_integers_v K KV). intros r Hr.
  apply wp_bind. apply w_nthP; [lia|]. intros fr Ef. apply wp_bind. apply w_nthP; auto. intros fi Efi. destruct (fltb fr fi) eqn:Q1; [|apply w_done; auto].
  apply wp_bind. apply w_nthP; [lia|]. intros x Ex. apply wp_bind. apply w_setP; [lia|]. apply wp_bind. apply w_setP; [lia|]. apply w_done. eauto.
Qed.
(** rows and fitness after some replacements: same size, every pair seen, no fitness worse *)
Definition better_rows (fit fit' : list num) : Prop := Forall2 (fun a b => a = b \/ fltb b a = true) fit fit'.
Lemma better_refl : forall fit, better_rows fit fit.
Proof. induction fit; constructor; auto. Qed.
Lemma better_trans : forall a b c, better_rows a b -> better_rows b c -> better_rows a c.
Proof.
  intros a b c H. revert c. induction H as [|x y xs ys Hx H IH]; intros c Hc; inversion Hc as [|y' z ys' zs Hz Hzs]; subst; constructor; [|apply IH; exact Hzs].
  destruct Hx as [->|Hx]; [exact Hz|]. destruct Hz as [->|Hz]; right; [exact Hx|]. eapply fltb_trans; eauto.
Qed.
Lemma better_upd : forall fit i f fi, nth_error fit i = Some fi -> fltb f fi = true -> better_rows fit (upd fit i f).
Proof.
  induction fit as [|a fit IH]; intros [|i] f fi H Q; simpl in *; try discriminate; constructor; auto.
  - injection H as <-. auto.
  - apply better_refl.
  - eapply IH; eauto.
Qed.
Lemma w_replaces : forall sparks sf is pop fit (Q : list vec * list num -> elog -> Prop) l, length fit = length pop ->
  (forall i, In i is -> i < length fit) -> Forall P sparks -> Forall P pop -> Forall2 (Seen l) sparks sf -> Forall2 (Seen l) pop fit ->
  (forall pop' fit', length pop' = length pop -> Forall P pop' -> Forall2 (Seen l) pop' fit' -> better_rows fit fit' ->
     (forall f, In f fit' -> In f fit \/ In f sf) -> Q (pop', fit') l) ->
  wp K (foldM (ef_replace sparks sf) is (pop, fit)) Q l.
Proof.
  intros sparks sf is. induction is as [|i is IH]; intros pop fit Q l H1 H2 Hs Hp Ss Sp HQ; cbn [foldM].
  - apply w_done. apply HQ; auto. apply better_refl.
  - assert (Hl := Forall2_len _ _ _ _ _ Ss). apply wp_bind. apply w_ef_replace; auto. { apply H2. simpl; auto. }
    + apply IH; auto. intros k Hk. apply H2. simpl; auto.
    + intros r x f fi Ex Ef Efi Hlt. apply IH; auto.
      * rewrite !upd_length. auto.
      * intros k Hk. rewrite upd_length. apply H2. simpl; auto.
      * apply Forall_upd; auto. exact (Forall_nth _ _ _ _ _ Hs Ex).
      * apply Forall2_upd; auto. exact (Forall2_nth _ _ _ _ _ _ _ _ Ss Ex Ef).
      * rewrite upd_length. intros pop' fit' L1 L2 L3 L4 L5. apply HQ; auto.
        -- eapply better_trans; [|exact L4]. eapply better_upd; eauto.
        -- intros g Hg. apply L5 in Hg. destruct Hg as [Hg|Hg]; auto. apply In_nth_error in Hg. destruct Hg as [k Hk].
           destruct (Nat.eq_dec i k) as [->|Hne].
           ++ rewrite nth_upd_same in Hk by (apply H2; simpl; auto). injection Hk as <-. right. eapply nth_error_In; eauto.
           ++ rewrite nth_upd_other in Hk; auto. left. eapply nth_error_In; eauto.
Qed.

(** EnhancedFireworksAlgorithm *)
Lemma w_ef_selection : forall n pop fit xb fxb sparks (Q : list vec * list num * vec * num -> elog -> Prop) l, sparks <> [] -> 0 < n -> Forall P sparks ->
  FwInv P n pop fit xb fxb l ->
  (forall pop' fit' xb' fxb' l', FwInv P n pop' fit' xb' fxb' l' -> better_rows fit fit' -> Q (pop', fit', xb', fxb') l') ->
  wp K (ef_selection n pop fit sparks) Q l.
Proof.
  intros n pop fit xb fxb sparks Q l Hne Hn HP [I1 I2 I3 I4 I5] HQ. unfold ef_selection. apply wp_bind. apply w_eval_all; auto. intros sf l' He.
  assert (Hlen := Evals_len _ _ _ _ He). assert (HS := Evals_seen _ _ _ _ He). assert (Hx := Evals_ext _ _ _ _ He).
  destruct (argmin sf) as [b|] eqn:E; [|exact KV]. assert (Hb := argmin_range _ _ E). assert (Hf := Forall2_len _ _ _ _ _ I3).
  apply wp_bind. apply w_nthP; [lia|]. intros bx Ebx. apply wp_bind. apply w_nthP; [lia|]. intros bf Ebf.
  apply wp_bind. apply w_nthP; [lia|]. intros f0 Ef0.
  assert (Pbx : P bx) by exact (Forall_nth _ _ _ _ _ HP Ebx).
  assert (Sbx : Seen l' bx bf) by exact (Forall2_nth _ _ _ _ _ _ _ _ HS Ebx Ebf).
  assert (I3' : Forall2 (Seen l') pop fit) by (eapply Seen2_ext; eauto).
  apply wp_bind.
  assert (G : forall pop1 fit1, length pop1 = n -> Forall P pop1 -> Forall2 (Seen l') pop1 fit1 -> better_rows fit fit1 ->
    wp K (let* (pop', fit') := foldM (ef_replace sparks sf) (seq 1 (n - 1)) (pop1, fit1) in Done (pop', fit', bx, bf)) Q l').
  { intros pop1 fit1 G1 G2 G3 G4. assert (Hf1 := Forall2_len _ _ _ _ _ G3). apply wp_bind. apply w_replaces; auto.
    - intros i Hi. apply in_seq in Hi. lia.
    - intros pop' fit' L1 L2 L3 L4 _. apply w_done. apply HQ; [|eapply better_trans; eauto]. constructor; auto. lia. }
  destruct (fltb bf f0) eqn:Q0.
  - apply wp_bind. apply w_setP; [lia|]. apply wp_bind. apply w_setP; [lia|]. apply w_done. apply G.
    + rewrite upd_length. auto.
    + apply Forall_upd; auto.
    + apply Forall2_upd; auto.
    + eapply better_upd; eauto.
  - apply w_done. apply G; auto. apply better_refl.
Qed.
Lemma w_efwa_iter : forall p pop fit xb fxb u l, let n := fw_n (ef_fw p) in 0 < n -> FwInv P n pop fit xb fxb l ->
  wp K (efwa_iter F C p pop fit xb fxb u) (fun a l' => let '(pop', fit', xb', fxb', _) := a in FwInv P n pop' fit' xb' fxb' l' /\ better_rows fit fit') l.
Proof.
  intros p pop fit xb fxb u l n Hn HI. destruct HI as [I1 I2 I3 I4 I5] eqn:EI. clear EI. assert (Hlen := Forall2_len _ _ _ _ _ I3).
  assert (Hne : fit <> []) by (destruct fit; simpl in *; [lia|congruence]).
  unfold efwa_iter. apply wp_bind. apply (w_fw_counts K KV KO); auto. intros cs Hc. apply wp_bind. apply (w_ef_amplitudes K); auto. intros am Ha.
  apply wp_bind. apply (w_explode K KV P); auto; [intros; apply w_ef_spark; auto|fold n; lia|fold n; lia|]. intros sp Hsp.
  apply wp_bind. apply (w_gaussians K KV P); auto; [intros; apply w_ef_gspark; auto|apply Forall_app; auto|]. intros gs Hg HG.
  apply wp_bind. apply (w_ef_selection _ _ _ xb fxb); [destruct pop; simpl in *; [lia|discriminate]|auto| | |].
  - repeat (apply Forall_app; split); auto.
  - constructor; auto.
  - intros pop' fit' xb' fxb' l' H1 H2. apply w_done. auto.
Qed.

(** the dynamic variants: the best value is the best value evaluated; the best point belongs to it unless it aliases population[0] *)
Definition value_ok (l : elog) (f : num) : Prop := (exists y, Seen l y f) /\ LB l f /\ f <> NaN.
Record DyInv (n : nat) (pop : list vec) (fit : list num) (xb : vec) (fxb : num) (t : dy_state) (l : elog) : Prop := {
  di_pop : Forall P pop; di_n : length pop = n; di_seen : Forall2 (Seen l) pop fit; di_xb : P xb; di_val : value_ok l fxb;
  di_pair : dy_alias t = false -> Seen l xb fxb; di_alias : dy_alias t = true -> nth_error pop 0 = Some xb; di_cf : length (dy_cf t) = c_dim C }.

Lemma w_dy_cf_num : forall p fit fxb (Q : Z -> elog -> Prop) l, fit <> [] -> (forall z, Q z l) -> wp K (dy_cf_num F p fit fxb) Q l.
Proof.
  intros p fit fxb Q l Hne HQ. unfold dy_cf_num. apply wp_bind. apply w_amax; auto. intros i w _ _. apply wp_bind. apply w_amax; [destruct fit; [congruence|discriminate]|]. intros j v _ _.
  destruct (fltb _ _); [apply w_py_round; auto|]. destruct (_ && _); apply w_py_round; auto.
Qed.
Lemma w_dy_selection : forall n pop fit sparks (Q : list vec * list num -> elog -> Prop) l, sparks <> [] -> 0 < n -> Forall P sparks ->
  length pop = n -> Forall P pop -> Forall2 (Seen l) pop fit ->
  (forall pop' fit' sf b f l', length pop' = n -> Forall P pop' -> Forall2 (Seen l') pop' fit' -> Evals sparks sf l l' -> first_min sf b f ->
     nth_error fit' 0 = Some f -> Q (pop', fit') l') ->
  wp K (dy_selection pop fit sparks) Q l.
Proof.
  intros n pop fit sparks Q l Hne Hn HP H1 H2 H3 HQ. unfold dy_selection. apply wp_bind. apply w_eval_all; auto. intros sf l' He.
  assert (Hlen := Evals_len _ _ _ _ He). assert (HS := Evals_seen _ _ _ _ He). assert (Hx := Evals_ext _ _ _ _ He).
  destruct (argmin_spec sf) as (b & m & E & (M1 & M2 & M3)); [destruct sf, sparks; simpl in *; congruence|eapply Evals_nan; eauto|].
  rewrite E. assert (Hb := argmin_range _ _ E). assert (Hf := Forall2_len _ _ _ _ _ H3).
  assert (H3' : Forall2 (Seen l') pop fit) by (eapply Seen2_ext; eauto).
  apply wp_bind. apply w_replaces; auto. { intros i Hi. apply in_seq in Hi. lia. }
  intros pop1 fit1 L1 L2 L3 _ _. assert (Hf1 := Forall2_len _ _ _ _ _ L3).
  apply wp_bind. apply w_nthP; [lia|]. intros bx Ebx. apply wp_bind. apply w_nthP; [lia|]. intros bf Ebf.
  apply wp_bind. apply w_setP; [lia|]. apply wp_bind. apply w_setP; [lia|]. apply w_done.
  assert (Pbx : P bx) by exact (Forall_nth _ _ _ _ _ HP Ebx).
  assert (Sbx : Seen l' bx bf) by exact (Forall2_nth _ _ _ _ _ _ _ _ HS Ebx Ebf).
  apply (HQ _ _ sf b bf).
  - rewrite upd_length. lia.
  - apply Forall_upd; auto.
  - apply Forall2_upd; auto.
  - auto.
  - rewrite Ebf in M1. injection M1 as ->. split; auto.
  - apply nth_upd_same. lia.
Qed.
Lemma value_take : forall l xs fs l' b m fb, value_ok l fb -> Evals xs fs l l' -> first_min fs b m ->
  value_ok l' (if fleb m fb then m else fb).
Proof.
  intros l xs fs l' b m fb ((y & V1) & V2 & V3) He (M1 & M2 & M3).
  assert (HS := Evals_seen _ _ _ _ He). assert (Hx := Evals_ext _ _ _ _ He). assert (Hl := Evals_len _ _ _ _ He).
  assert (Hb : b < length xs) by (rewrite <- Hl; apply nth_error_Some; congruence).
  destruct (nth_error xs b) as [x|] eqn:Ex; [|apply nth_error_None in Ex; lia].
  assert (Hm : m <> NaN) by (assert (Hn := Evals_nan _ _ _ _ He); exact (Forall_nth _ _ _ _ _ Hn M1)).
  assert (Hc : Cov l' (fs ++ []) fb) by (eapply Cov_Evals; eauto; apply LB_Cov; auto). rewrite app_nil_r in Hc.
  destruct (fleb m fb) eqn:Q.
  - split; [exists x; exact (Forall2_nth _ _ _ _ _ _ _ _ HS Ex M1)|]. split; auto. intros z v Hi. destruct (Hc z v Hi) as [G|(g & G1 & G2)].
    + eapply fleb_trans; eauto.
    + apply In_nth_error in G1. destruct G1 as [k Hk]. eapply fleb_trans; [eapply M2; eauto|auto].
  - split; [exists y; eapply Seen_ext; eauto|]. split; auto. intros z v Hi. destruct (Hc z v Hi) as [G|(g & G1 & G2)]; auto.
    apply In_nth_error in G1. destruct G1 as [k Hk]. apply fleb_false_fltb in Q; auto. eapply fleb_trans; [|exact G2]. apply fltb_fleb. eapply fltb_fleb_trans; eauto.
Qed.
Lemma min_swap : forall a b c, a <> NaN -> b <> NaN -> c <> NaN ->
  (let m := if fleb b c then b else c in if fleb a m then a else m) = (let m := if fleb a c then a else c in if fleb b m then b else m).
Proof.
  intros a b c Ha Hb Hc. destruct (fleb b c) eqn:Q1; destruct (fleb a c) eqn:Q2; cbv zeta.
  - destruct (fleb a b) eqn:Q3; destruct (fleb b a) eqn:Q4; auto.
    + apply fleb_antisym; auto.
    + apply fleb_false_fltb in Q3, Q4; auto. apply fltb_fleb in Q3. pose proof (fleb_fltb_false _ _ Q3). congruence.
  - rewrite Q1. destruct (fleb a b) eqn:Q3; auto. exfalso. rewrite (fleb_trans _ _ _ Q3 Q1) in Q2. discriminate.
  - rewrite Q2. destruct (fleb b a) eqn:Q3; auto. exfalso. rewrite (fleb_trans _ _ _ Q3 Q2) in Q1. discriminate.
  - rewrite Q1, Q2. auto.
Qed.
Lemma w_eval_all_v : forall xs (Q : list num -> elog -> Prop) l, Forall P xs -> (forall fs l', xs <> [] -> Evals xs fs l l' -> Q fs l') -> wp K (eval_all xs) Q l.
Proof.
  intros xs Q l HP HQ. destruct xs as [|x xs]; [exact KV|]. apply w_eval_all; auto; [discriminate|]. intros fs l' He. apply HQ; auto. discriminate.
Qed.
Lemma w_dy_update : forall n p cf pop fit xcb fcb xb fxb t sparks sf b l0 l (Q : vec * num * dy_state -> elog -> Prop),
  length pop = n -> Forall P pop -> Forall2 (Seen l) pop fit -> nth_error pop 0 = Some xcb -> nth_error fit 0 = Some fcb ->
  Forall P cf -> P xb -> value_ok l0 fxb -> Evals sparks sf l0 l -> first_min sf b fcb ->
  (dy_alias t = false -> Seen l xb fxb) -> (dy_alias t = true -> xb = xcb) -> length (dy_cf t) = c_dim C ->
  (forall xb' fxb' t' l', DyInv n pop fit xb' fxb' t' l' -> fleb fxb' fxb = true -> Q (xb', fxb', t') l') ->
  wp K (dy_update F p cf xcb fcb xb fxb t) Q l.
Proof.
  intros n p cf pop fit xcb fcb xb fxb t sparks sf b l0 l Q H1 H2 H3 H4 H5 H6 H7 H8 H9 H10 H11 H12 H13 HQ.
  unfold dy_update. apply wp_bind. apply w_eval_all_v; auto. intros cfs l' Hne He.
  assert (Hlen := Evals_len _ _ _ _ He). assert (HS := Evals_seen _ _ _ _ He). assert (Hx := Evals_ext _ _ _ _ He).
  destruct (argmin_spec cfs) as (c & m & E & FM); [destruct cfs, cf; simpl in *; congruence|eapply Evals_nan; eauto|].
  rewrite E. assert (Hb := argmin_range _ _ E).
  apply wp_bind. apply w_nthP; [lia|]. intros sx Esx. apply wp_bind. apply w_nthP; [lia|]. intros sb Esb.
  assert (sb = m) by (destruct FM as (M1 & _); congruence). subst m.
  assert (Nsb : sb <> NaN) by (assert (Hn := Evals_nan _ _ _ _ He); exact (Forall_nth _ _ _ _ _ Hn Esb)).
  assert (Nfcb : fcb <> NaN) by (assert (Hn := Evals_nan _ _ _ _ H9); destruct H10 as (M1 & _); exact (Forall_nth _ _ _ _ _ Hn M1)).
  assert (Nfxb : fxb <> NaN) by apply H8.
  assert (V := value_take _ _ _ _ _ _ _ (value_take _ _ _ _ _ _ _ H8 H9 H10) He FM). pose proof (min_swap sb fcb fxb Nsb Nfcb Nfxb) as MS. cbv zeta in MS. rewrite MS in V. clear MS.
  assert (H3' : Forall2 (Seen l') pop fit) by (eapply Seen2_ext; eauto).
  assert (Sx : Seen l' sx sb) by exact (Forall2_nth _ _ _ _ _ _ _ _ HS Esx Esb).
  assert (Sc : Seen l' xcb fcb) by exact (Forall2_nth _ _ _ _ _ _ _ _ H3' H4 H5).
  assert (Pc : P xcb) by exact (Forall_nth _ _ _ _ _ H2 H4).
  assert (Px : P sx) by exact (Forall_nth _ _ _ _ _ H6 Esx).
  assert (L : forall r, length (vscaler F (dy_cf t) r) = c_dim C) by (intros; unfold vscaler; rewrite map_length; auto).
  destruct (fleb sb fxb) eqn:Q1; rewrite ?Q1 in V.
  - destruct (fleb fcb sb) eqn:Q2; rewrite ?Q2 in V; apply w_done; apply HQ.
    + constructor; cbn [dy_cf dy_alias]; auto; discriminate.
    + eapply fleb_trans; eauto.
    + constructor; cbn [dy_cf dy_alias]; auto; discriminate.
    + auto.
  - destruct (fleb fcb fxb) eqn:Q2; rewrite ?Q2 in V; apply w_done; apply HQ.
    + constructor; cbn [dy_cf dy_alias]; auto; discriminate.
    + auto.
    + constructor; cbn [dy_cf dy_alias]; auto.
      * intros Ht. eapply Seen_ext; eauto.
      * intros Ht. rewrite H12; auto.
    + apply fleb_refl; auto.
Qed.
Lemma w_dy_iter : forall p gauss pop fit xb fxb t l, let n := fw_n (dy_fw p) in 0 < n -> DyInv n pop fit xb fxb t l ->
  wp K (dy_iter F C p gauss pop fit xb fxb t) (fun a l' => let '(pop', fit', xb', fxb', t') := a in DyInv n pop' fit' xb' fxb' t' l' /\ fleb fxb' fxb = true) l.
Proof.
  intros p gauss pop fit xb fxb t l n Hn [I1 I2 I3 I4 I5 I6 I7 I8]. assert (Hlen := Forall2_len _ _ _ _ _ I3).
  assert (Hne : fit <> []) by (destruct fit; simpl in *; [lia|congruence]).
  assert (Hpe : pop <> []) by (destruct pop; simpl in *; [lia|congruence]).
  unfold dy_iter. apply wp_bind. apply (w_fw_counts K KV KO); auto. intros cs Hc. apply wp_bind. apply (w_fw_amplitudes K); auto. intros am Ha.
  apply wp_bind. apply w_dy_cf_num; auto. intros cn.
  apply wp_bind. apply (w_explode K KV P); auto; [intros; apply w_ef_spark; auto|fold n; lia|fold n; lia|]. intros sp Hsp.
  assert (G : forall all, all <> [] -> Forall P all -> wp K (
    let* cf := (if (cn <? 0)%Z then Fail EValue else repeatM (Z.to_nat cn) (ef_spark_v F C xb (dy_cf t))) in
    let* (pop', fit') := dy_selection pop fit all in
    let* xcb := nthP pop' 0 in
    let* fcb := nthP fit' 0 in
    let* (xb', fxb', t') := dy_update F p cf xcb fcb (if dy_alias t then xcb else xb) fxb t in
    Done (pop', fit', xb', fxb', t')) (fun a l' => let '(pop', fit', xb', fxb', t') := a in DyInv n pop' fit' xb' fxb' t' l' /\ fleb fxb' fxb = true) l).
  { intros all A1 A2. apply wp_bind. destruct (cn <? 0)%Z; [exact KV|]. apply (w_repeatM_P K _ P); [intros; apply w_ef_spark_v; auto|]. intros cf _ Hcf.
    apply wp_bind. apply (w_dy_selection n); auto. intros pop' fit' sf b f l' S1 S2 S3 S4 S5 S6. assert (Hl' := Forall2_len _ _ _ _ _ S3).
    apply wp_bind. apply w_nthP; [lia|]. intros xcb Exc. apply wp_bind. apply w_nthP; [lia|]. intros fcb Efc. rewrite S6 in Efc. injection Efc as <-.
    assert (Pc : P xcb) by exact (Forall_nth _ _ _ _ _ S2 Exc). assert (Hx := Evals_ext _ _ _ _ S4).
    apply wp_bind. apply (w_dy_update n p cf pop' fit' xcb f _ fxb t all sf b l); auto.
    - destruct (dy_alias t); auto.
    - intros Ht. rewrite Ht. eapply Seen_ext; eauto.
    - intros Ht. rewrite Ht. auto.
    - intros xb' fxb' t' l2 HD Hle. apply w_done. auto. }
  apply wp_bind. destruct gauss.
  - apply (w_gaussians K KV P); auto; [intros; apply w_ef_gspark; auto|apply Forall_app; auto|]. intros gs Hg HG. apply G.
    + destruct pop; [congruence|discriminate].
    + repeat (apply Forall_app; split); auto.
  - apply w_done. apply G; [destruct pop; [congruence|discriminate]|apply Forall_app; auto].
Qed.
End RAND.
