(** The dynamic fireworks algorithms on problems that are functions of the point (C69): the alias of best_x does no harm. *)
From Coq Require Import ZArith Lia Bool List Sorting.Sorted.
From Verif Require Import Num Task TaskSpec TaskProofs TaskProofs2 Prog Wp GetBest Run RunSpec RunProofs RunProofs2 Det
  AlgoLib Fops AlgTac StepSpec StepLib Indiv IndivLib AlgDE AlgPSO AlgSwarm PopLib AlgSwarmProofs Reach SortLib AlgBasic AlgBasicProofs
  AlgEvo AlgEvoProofs Repair PropertiesRepair AlgFwa AlgFwaProofs AlgOtherProofs B64 ExLib ExLib2 PropertiesFwa.
Import ListNotations.

(** programs without evaluations *)
Fixpoint silent {A} (p : prog A) : Prop :=
  match p with
  | Done _ | Fail _ => True
  | Eval _ _ => False
  | Repair x k => forall y, silent (k y)
  | RndU lo hi k => forall r, silent (k r)
  | RndF k => forall r, silent (k r)
  | RndN n k => forall i, silent (k i)
  | View k => forall v, silent (k v)
  end.
Lemma silent_exec : forall E A (p : prog A) w r w', silent p -> exec E p w = (r, w') -> w_ts w' = w_ts w /\ w_h w' = w_h w.
Proof.
  intros E A p. induction p as [a|e|x k IH|x k IH|lo hi k IH|k IH|n k IH|k IH]; intros w r w' H Ex; cbn [silent] in H; try contradiction; cbn [exec] in Ex;
    try (injection Ex as _ <-; auto; fail); try (exact (IH _ (World (w_ts w) (w_h w) (S (w_pos w))) _ _ (H _) Ex)).
  exact (IH _ w _ _ (H _) Ex).
Qed.
Lemma silent_bind : forall A B (p : prog A) (f : A -> prog B), silent p -> (forall a, silent (f a)) -> silent (bind p f).
Proof. intros A B p f Hp Hf. induction p; cbn [bind silent] in *; auto. Qed.
Lemma silent_nthP : forall A (l : list A) i, silent (nthP l i).
Proof. intros A l i. unfold nthP. destruct (nth_error l i); exact I. Qed.
Lemma silent_setP : forall A (l : list A) i a, silent (setP l i a).
Proof. intros A l i a. unfold setP. destruct (i <? length l); exact I. Qed.
Lemma silent_lift : forall A (o : outcome A), silent (lift o).
Proof. intros A [a|e]; exact I. Qed.
Lemma silent_mapM : forall A B (f : A -> prog B) xs, (forall a, silent (f a)) -> silent (mapM f xs).
Proof. intros A B f xs H. induction xs as [|a xs IH]; cbn [mapM]; [exact I|]. apply silent_bind; auto. intros b. apply silent_bind; auto. intros bs. exact I. Qed.
Lemma silent_foldM : forall A B (f : A -> B -> prog A) xs s, (forall s b, silent (f s b)) -> silent (foldM f xs s).
Proof. intros A B f xs s H. revert s. induction xs as [|b xs IH]; intros s; cbn [foldM]; [exact I|]. apply silent_bind; auto. Qed.
Lemma silent_repeatM : forall A n (p : prog A), silent p -> silent (repeatM n p).
Proof. intros A n p H. induction n as [|n IH]; cbn [repeatM]; [exact I|]. apply silent_bind; auto. intros a. apply silent_bind; auto. intros b. exact I. Qed.
Lemma silent_choice : forall A k (l : list A), silent (choice_from l k).
Proof.
  intros A k. induction k as [|k IH]; intros l; cbn [choice_from]; [exact I|]. destruct l as [|a l]; [exact I|]. apply silent_bind; [unfold integers; cbn; auto|]. intros i.
  apply silent_bind; [apply silent_nthP|]. intros b. apply silent_bind; [apply IH|]. intros c. exact I.
Qed.
Lemma silent_amax : forall xs, silent (amax xs).
Proof. intros xs. unfold amax. destruct (argmax xs); [apply silent_nthP|exact I]. Qed.
Lemma silent_amin : forall xs, silent (amin xs).
Proof. intros xs. unfold amin. destruct (argmin xs); [apply silent_nthP|exact I]. Qed.
Lemma silent_counts : forall F p fit, silent (fw_counts F p fit).
Proof. intros F p fit. unfold fw_counts. apply silent_bind; [apply silent_amax|]. intros w. cbv zeta. apply silent_bind; [apply silent_lift|]. intros a. apply silent_bind; [apply silent_lift|]. intros b. exact I. Qed.
Lemma silent_amps : forall F p fit, silent (fw_amplitudes F p fit).
Proof. intros F p fit. unfold fw_amplitudes. apply silent_bind; [apply silent_amin|]. intros w. exact I. Qed.
Lemma silent_cf_num : forall F p fit fxb, silent (dy_cf_num F p fit fxb).
Proof. intros F p fit fxb. unfold dy_cf_num. apply silent_bind; [apply silent_amax|]. intros a. apply silent_bind; [apply silent_amax|]. intros b. cbv zeta. destruct (fltb _ _); [apply silent_lift|]. destruct (_ && _); apply silent_lift. Qed.
Lemma silent_dims : forall C, silent (fw_dims C).
Proof. intros C. unfold fw_dims. apply silent_bind; [unfold integers; destruct (c_dim C); cbn; auto|]. intros k. apply silent_choice. Qed.
Lemma silent_pass : forall t x lo hi, silent (rand_pass t x lo hi).
Proof.
  intros t x. induction x as [|a x IH]; intros [|l lo] [|u hi]; cbn [rand_pass]; try exact I.
  destruct (t a l u); [apply silent_bind; [cbn; auto|]; intros b|]; (apply silent_bind; auto; intros c; exact I).
Qed.
Lemma silent_rand : forall x lo hi, silent (rand_repair x lo hi).
Proof. intros x lo hi. unfold rand_repair. apply silent_bind; [apply silent_pass|]. intros y. apply silent_pass. Qed.
Lemma silent_spark : forall F C x a, silent (ef_spark_v F C x a).
Proof.
  intros F C x a. unfold ef_spark_v. apply silent_bind; [apply silent_dims|]. intros z. apply silent_bind; [|intros y; apply silent_rand].
  unfold ef_move. apply silent_bind; [apply silent_mapM; intros k; cbn; auto|]. intros us. exact I.
Qed.
Lemma silent_gspark : forall F C b x, silent (ef_gspark F C b x).
Proof. intros F C b x. unfold ef_gspark. apply silent_bind; [apply silent_dims|]. intros z. apply silent_bind; [cbn; auto|]. intros e. apply silent_rand. Qed.
Lemma silent_explode : forall sp n pop cs am, (forall x a, silent (sp x a)) -> silent (fw_explode sp n pop cs am).
Proof.
  intros sp n pop cs am H. unfold fw_explode, for_range. apply silent_foldM. intros all i. apply silent_bind; [apply silent_nthP|]. intros s. apply silent_bind; [apply silent_nthP|]. intros a.
  apply silent_bind; [apply silent_nthP|]. intros x. destruct (s <? 0)%Z; [exact I|]. apply silent_bind; [apply silent_repeatM; auto|]. intros y. exact I.
Qed.
Lemma silent_gaussians : forall gs g all, (forall x, silent (gs x)) -> silent (fw_gaussians gs g all).
Proof.
  intros gs g all H. unfold fw_gaussians. apply silent_bind; [apply silent_choice|]. intros idx. apply silent_bind; [apply silent_mapM; intros; apply silent_nthP|]. intros rows.
  apply silent_bind; [apply silent_mapM; auto|]. intros r. exact I.
Qed.
(** what is added to the population stands behind it *)
Lemma explode_prefix : forall E sp n pop cs am w all w', exec E (fw_explode sp n pop cs am) w = (Ret all, w') -> exists r, all = pop ++ r.
Proof.
  intros E sp n pop cs am w all w' Ex. unfold fw_explode, for_range in Ex.
  assert (G : forall is acc w, (exists r, acc = pop ++ r) -> forall all w', exec E (foldM (fun all i => let* s := nthP cs i in let* a := nthP am i in let* x := nthP pop i in
    if (s <? 0)%Z then Fail EValue else let* sp := repeatM (Z.to_nat s) (sp x a) in Done (all ++ sp)) is acc) w = (Ret all, w') -> exists r, all = pop ++ r).
  { clear. induction is as [|i is IH]; intros acc w Ha all w' Ex; cbn [foldM] in Ex; [injection Ex as <- _; auto|]. rewrite exec_bind in Ex.
    destruct (exec E _ w) as [[acc1|e] w1] eqn:Q; [|discriminate]. eapply IH; [|exact Ex]. unfold nthP in Q.
    destruct (nth_error cs i) as [s|]; [|discriminate]. cbn [bind] in Q. destruct (nth_error am i) as [a|]; [|discriminate]. cbn [bind] in Q. destruct (nth_error pop i) as [x|]; [|discriminate]. cbn [bind] in Q.
    destruct (s <? 0)%Z; [discriminate|]. rewrite exec_bind in Q. destruct (exec E (repeatM _ _) w) as [[y|e] w2] eqn:Q2; [|discriminate]. cbn [exec] in Q. injection Q as <- _.
    destruct Ha as [r ->]. exists (r ++ y). rewrite app_assoc. reflexivity. }
  eapply G; [|exact Ex]. exists []. rewrite app_nil_r. reflexivity.
Qed.

(** logged values are those of the function *)
Definition det_h (g : vec -> num) (h : history) : Prop := forall x v, In (x, Ret v) h -> v = g x.
Lemma exec_det : forall g A E (p : prog A) w r w', deterministic g E -> det_h g (w_h w) -> exec E p w = (r, w') -> det_h g (w_h w').
Proof.
  intros g A E p w r w' Hg. revert w. induction p as [a|e|x k IH|x k IH|lo hi k IH|k IH|n k IH|k IH]; intros w Hd Ex; cbn [exec] in Ex; try (injection Ex as _ <-; auto; fail);
    try (eapply IH; [|exact Ex]; exact Hd).
  unfold task_eval in Ex. destruct (stopping_condition _ _); [eapply IH; [|exact Ex]; exact Hd|]. destruct (e_prob E (w_h w) x) as [v|e] eqn:Q.
  - eapply IH; [|exact Ex]. intros y u [H|H]; [injection H as <- <-; eapply Hg; eauto|auto].
  - injection Ex as _ <-. intros y u [H|H]; [discriminate|auto].
Qed.
Lemma det_log : forall g o h x f, det_h g h -> In (x, f) (log_of o h) -> f = sgn o (g x).
Proof.
  intros g o h x f Hd H. unfold log_of in H. apply in_flat_map in H. destruct H as ([y [v|e]] & H1 & H2); [|contradiction]. destruct H2 as [H2|[]]. injection H2 as <- <-. rewrite (Hd _ _ H1). reflexivity.
Qed.
(** the first row is evaluated when the task has not stopped *)
Lemma eval_all_first : forall g E x xs w sf w', deterministic g E -> stopping_condition (e_cfg E) (w_ts w) = false -> exec E (eval_all (x :: xs)) w = (Ret sf, w') ->
  exists r, sf = sgn (c_opt (e_cfg E)) (g x) :: r.
Proof.
  intros g E x xs w sf w' Hg Hs Ex. cbn [eval_all mapM eval bind exec] in Ex. unfold task_eval in Ex. rewrite Hs in Ex. destruct (e_prob E (w_h w) x) as [v|e] eqn:Q; [|discriminate].
  rewrite (Hg _ _ _ Q) in Ex. cbn [bind] in Ex. rewrite exec_bind in Ex. destruct (exec E (mapM eval xs) _) as [[r|e] w1]; [|discriminate]. cbn [exec] in Ex. injection Ex as <- _. eauto.
Qed.
Lemma eval_all_seen : forall E xs w sf w', no_nan (e_prob E) -> repair_ok E -> exec E (eval_all xs) w = (Ret sf, w') -> Evals xs sf (log_of (c_opt (e_cfg E)) (w_h w)) (log_of (c_opt (e_cfg E)) (w_h w')).
Proof.
  intros E xs w sf w' Hn Hr Ex. destruct xs as [|x0 xs0]; [discriminate|]. set (xs := x0 :: xs0) in *.
  assert (W : wp (KPX (e_cfg E) (fun _ => True) (fun _ => True)) (eval_all xs) (fun fs l' => Evals xs fs (log_of (c_opt (e_cfg E)) (w_h w)) l') (log_of (c_opt (e_cfg E)) (w_h w))).
  { apply w_eval_all; [discriminate|apply Forall_forall; auto|auto]. }
  exact (proj2 (wp_sound _ _ _ _ _ _ _ _ (env_ok_KB _ _ E Hn Hr) W Ex)).
Qed.
Lemma exec_more : forall A E (p : prog A) w r w', exec E p w = (r, w') -> forall q, In q (w_h w) -> In q (w_h w').
Proof.
  intros A E p. induction p as [a|e|x k IH|x k IH|lo hi k IH|k IH|n k IH|k IH]; intros w r w' Ex q Hq; cbn [exec] in Ex; try (injection Ex as _ <-; auto; fail);
    try (eapply IH; [exact Ex|]; exact Hq).
  unfold task_eval in Ex. destruct (stopping_condition _ _); [eapply IH; [exact Ex|]; exact Hq|]. destruct (e_prob E (w_h w) x) as [v|e] eqn:Q.
  - eapply IH; [exact Ex|]. right. exact Hq.
  - injection Ex as _ <-. right. exact Hq.
Qed.
Lemma exec_seen : forall A E (p : prog A) w r w' x f, exec E p w = (r, w') -> Seen (log_of (c_opt (e_cfg E)) (w_h w)) x f -> Seen (log_of (c_opt (e_cfg E)) (w_h w')) x f.
Proof.
  intros A E p w r w' x f Ex [H|H]; [left; auto|right]. apply in_log_of in H. destruct H as (v & H & ->). apply in_log_of. exists v. split; auto. eapply exec_more; eauto.
Qed.
Lemma silent_cfs : forall F C cn xb cf, silent (if (cn <? 0)%Z then Fail EValue else repeatM (Z.to_nat cn) (ef_spark_v F C xb cf)).
Proof. intros F C cn xb cf. destruct (cn <? 0)%Z; [exact I|]. apply silent_repeatM. apply silent_spark. Qed.
Lemma gauss_prefix : forall E (b : bool) gs k all w all' w', exec E (if b then fw_gaussians gs k all else Done all) w = (Ret all', w') -> exists r, all' = all ++ r.
Proof.
  intros E [] gs k all w all' w' Ex; [|injection Ex as <- _; exists []; rewrite app_nil_r; reflexivity]. unfold fw_gaussians in Ex. rewrite exec_bind in Ex.
  destruct (exec E (choice _ _) w) as [[idx|e] w1]; [|discriminate]. rewrite exec_bind in Ex. destruct (exec E (mapM _ idx) w1) as [[rows|e] w2]; [|discriminate]. rewrite exec_bind in Ex.
  destruct (exec E (mapM gs rows) w2) as [[r|e] w3]; [|discriminate]. injection Ex as <- _. eauto.
Qed.
Lemma silent_gs : forall F C (b : bool) xb k all, silent (if b then fw_gaussians (ef_gspark F C xb) k all else Done all).
Proof. intros F C [] xb k all; [apply silent_gaussians; apply silent_gspark|exact I]. Qed.
(** one iteration started while the task has not stopped keeps the pair *)
Lemma dy_pair : forall F E p gauss g pop fit xb fxb t w pop' fit' xb' fxb' t' w', let C := e_cfg E in let lg := fun w => log_of (c_opt C) (w_h w) in
  no_nan (e_prob E) -> repair_ok E -> deterministic g E -> det_h g (w_h w) -> stopping_condition C (w_ts w) = false ->
  pop <> [] -> (dy_alias t = true -> nth_error pop 0 = Some xb) -> Seen (lg w) xb fxb ->
  exec E (dy_iter F C p gauss pop fit xb fxb t) w = (Ret (pop', fit', xb', fxb', t'), w') -> Seen (lg w') xb' fxb'.
Proof.
  intros F E p gauss g pop fit xb fxb t w pop' fit' xb' fxb' t' w' C lg Hn Hr Hg Hd Hs Hne Hal Hseen Ex. unfold dy_iter in Ex.
  rewrite exec_bind in Ex. destruct (exec E (fw_counts F (dy_fw p) fit) w) as [[c1|?] w1] eqn:Q1; [|discriminate].
  assert (S1 := silent_exec _ _ _ _ _ _ (silent_counts F (dy_fw p) fit) Q1).
  rewrite exec_bind in Ex. destruct (exec E (fw_amplitudes F (dy_fw p) fit) w1) as [[c2|?] w2] eqn:Q2; [|discriminate].
  assert (S2 := silent_exec _ _ _ _ _ _ (silent_amps F (dy_fw p) fit) Q2).
  rewrite exec_bind in Ex. destruct (exec E (dy_cf_num F (dy_fw p) fit fxb) w2) as [[c3|?] w3] eqn:Q3; [|discriminate].
  assert (S3 := silent_exec _ _ _ _ _ _ (silent_cf_num F (dy_fw p) fit fxb) Q3).
  rewrite exec_bind in Ex. destruct (exec E (fw_explode _ _ _ _ _) w3) as [[all|?] w4] eqn:Q4; [|discriminate].
  assert (S4 := silent_exec _ _ _ _ _ _ (silent_explode _ _ _ _ _ (fun x a => silent_spark F C x (repeat a (c_dim C)))) Q4).
  apply explode_prefix in Q4. destruct Q4 as [r4 ->].
  rewrite exec_bind in Ex. destruct (exec E (if gauss then _ else _) w4) as [[all|?] w5] eqn:Q5; [|discriminate].
  assert (S5 := silent_exec _ _ _ _ _ _ (silent_gs F C gauss xb _ _) Q5). apply gauss_prefix in Q5. destruct Q5 as [r5 ->].
  rewrite exec_bind in Ex. destruct (exec E (if (_ <? 0)%Z then _ else _) w5) as [[cf|?] w6] eqn:Q6; [|discriminate].
  assert (S6 := silent_exec _ _ _ _ _ _ (silent_cfs F C _ xb _) Q6).
  assert (T : w_ts w6 = w_ts w /\ w_h w6 = w_h w).
  { destruct S1, S2, S3, S4, S5, S6. split; congruence. }
  destruct T as [T1 T2]. clear S1 S2 S3 S4 S5 S6 Q6.
  rewrite exec_bind in Ex. destruct (exec E (dy_selection _ _ _) w6) as [[[pop1 fit1]|?] w7] eqn:Q7; [|discriminate].
  assert (Hseen7 : Seen (lg w7) xb fxb). { eapply exec_seen; [exact Q7|]. rewrite T2. exact Hseen. }
  destruct (C69_select E _ _ _ _ _ _ _ Q7) as (sf & b & bx & bf & s & wm & E1 & _ & A1 & A2 & A3 & E2 & R1 & R2).
  assert (V := eval_all_seen _ _ _ _ _ Hn Hr E1).
  assert (Hb : Seen (lg w7) bx bf).
  { eapply exec_seen; [exact E2|]. eapply Forall2_nth; [apply (Evals_seen _ _ _ _ V)| |]; eauto. }
  destruct pop as [|x0 pop0]; [congruence|]. cbn [app] in E1. assert (R0 : exists r0, sf = sgn (c_opt C) (g x0) :: r0) by (eapply eval_all_first; [exact Hg|rewrite T1; exact Hs|exact E1]). destruct R0 as [r0 R0].
  assert (NN := Evals_nan _ _ _ _ V).
  assert (LE : fleb bf (sgn (c_opt C) (g x0)) = true /\ bf <> NaN).
  { destruct (argmin_spec sf) as (b' & m & Eb & (M1 & M2 & M3)); [rewrite R0; discriminate|exact NN|]. rewrite A1 in Eb. injection Eb as <-. rewrite A3 in M1. injection M1 as <-. split; [apply (M2 0); rewrite R0; reflexivity|]. rewrite Forall_forall in NN. apply NN. eapply nth_error_In; eauto. }
  unfold nthP in Ex. rewrite (proj1 (proj2 R1)), (proj1 (proj2 R2)) in Ex. cbn [bind] in Ex. rewrite exec_bind in Ex.
  destruct (exec E (dy_update _ _ _ _ _ _ _ _) w7) as [[[[x2 f2] t2]|?] w8] eqn:Q8; [|discriminate]. cbn [exec] in Ex. injection Ex as _ _ <- <- _ <-.
  assert (Hb8 := exec_seen _ _ _ _ _ _ _ _ Q8 Hb). assert (Hx8 := exec_seen _ _ _ _ _ _ _ _ Q8 Hseen7). unfold dy_update in Q8. rewrite exec_bind in Q8.
  destruct (exec E (eval_all cf) w7) as [[sf2|?] w9] eqn:Q9; [|discriminate]. assert (V2 := Evals_seen _ _ _ _ (eval_all_seen _ _ _ _ _ Hn Hr Q9)).
  destruct (argmin sf2) as [b2|]; [|discriminate]. unfold nthP in Q8. destruct (nth_error cf b2) as [sx|] eqn:B2; [|discriminate]. cbn [bind] in Q8.
  destruct (nth_error sf2 b2) as [sb|] eqn:B3; [|discriminate]. cbn [bind] in Q8. assert (Hc := Forall2_nth _ _ _ _ _ _ _ _ V2 B2 B3).
  destruct (fleb sb fxb) eqn:Ls.
  - destruct (fleb bf sb) eqn:Lf; cbn [exec] in Q8; injection Q8 as <- <- _ <-; [exact Hb8|exact Hc].
  - destruct (fleb bf fxb) eqn:Lf; cbn [exec] in Q8; injection Q8 as <- <- _ <-; [exact Hb8|].
    destruct (dy_alias t); [|exact Hx8]. exfalso. specialize (Hal eq_refl). injection Hal as ->. destruct LE as [LE NE]. destruct Hseen as [->|Hseen].
    + destruct bf; try discriminate; congruence.
    + rewrite <- (det_log g _ _ _ _ Hd Hseen) in LE. congruence.
Qed.
(** on a problem that is a function of the point the returned pair is the best evaluated one: the alias is always overwritten by a point that
    is reported as well, because the first spark of an iteration is the aliased point itself *)
Theorem C69_deterministic : forall F E p gauss g, let C := e_cfg E in
  cfg_ok C -> no_nan (e_prob E) -> repair_ok E -> 0 < fw_n (dy_fw p) -> deterministic g E -> best_run_x fwx E (dynfwa F C p gauss).
Proof.
  intros F E p gauss g C HC Hn Hr Hp Hg. set (A := dynfwa F C p gauss). set (n := fw_n (dy_fw p)).
  set (J := fun pop fit xb fxb t l => DyInv C n pop fit xb fxb t l).
  assert (H1 : init_c (KPX C (inside C) fwx) A (fun pop fit xb fxb t l => J pop fit xb fxb t l /\ dy_alias t = false)).
  { eapply init_imp; [apply (fw_init_ok C (inside C) fwx n dy_state (dy_init F C n) (dy_iter F C p gauss)
      (fun _ _ t => dy_alias t = false /\ length (dy_cf t) = c_dim C)); auto|].
    - intros Q HQ. unfold dy_init. apply wp_bind. apply w_default_numpy_init; auto. intros pop fit l I1 I2 I3. apply w_done. apply HQ; auto.
      split; [reflexivity|]. cbn [dy_cf]. destruct HC as (L1 & L2 & _). unfold vsub. apply map2_length; auto.
    - intros pop fit xb fxb t l ([I1 I2 I3 I4 I5] & (G1 & G2 & G3) & I6 & I7). split; [|exact I6]. constructor; auto; [split; [exists xb; auto|auto]|]. rewrite I6. discriminate. }
  assert (H2 : iter_c (KPX C (inside C) fwx) A J).
  { intros pop fit xb fxb t l HI. eapply wp_conseq0; [apply (w_dy_iter F C fwx); auto|]. intros [[[[a b] c] d] e] l' [H _]. exact H. }
  destruct (C69_dynfwa_partial F E p gauss HC Hn Hr Hp) as [V _]. fold C A in V.
  intros cb k pos r w' ev Hrun. destruct (V cb k pos r w' ev Hrun) as (V1 & V2 & V3). split; [exact V1|]. split; [exact V2|]. destruct r as [[x v]|e]; [|exact V3]. destruct V3 as (X1 & X2 & X3).
  split; [exact (inside_len _ _ HC X1)|]. split; [exact X2|]. split; [exact X3|].
  set (lg := fun w => log_of (c_opt C) (w_h w)).
  assert (S : exists s : rstate A, (J (r_pop s) (r_fit s) (r_xb s) (r_fxb s) (r_par s) (lg w') /\ det_h g (w_h w') /\ Seen (lg w') (r_xb s) (r_fxb s)) /\ x = r_xb s /\ v = sgn (c_opt C) (r_fxb s)).
  { refine (run_strong E A cb (fun (s : rstate A) w => J (r_pop s) (r_fit s) (r_xb s) (r_fxb s) (r_par s) (lg w) /\ det_h g (w_h w) /\ Seen (lg w) (r_xb s) (r_fxb s)) _ _ k pos x v w' ev Hrun).
    - intros pos0 pop fit par w xb fxb Ex G. cbn [r_pop r_fit r_xb r_fxb r_par].
      assert (D : det_h g (w_h w)) by (eapply exec_det with (3 := Ex); [exact Hg|]; intros ? ? []).
      assert (W : wp (KPX C (inside C) fwx) (lift (get_best (a_coords A pop) fit None PInf)) (fun b l' => J pop fit (fst b) (snd b) par l' /\ dy_alias par = false) (lg w)).
      { pose (Q := fun (r : a_pop A * list num * a_par A) l => let '(pop, fit, par) := r in
          wp (KPX C (inside C) fwx) (lift (get_best (a_coords A pop) fit None PInf)) (fun b l' => J pop fit (fst b) (snd b) par l' /\ dy_alias par = false) l).
        assert (H0 : wp (KPX C (inside C) fwx) (a_init A) Q (log_of (c_opt C) [])) by exact H1.
        exact (proj2 (wp_sound _ _ _ _ _ (World (task_init (e_cfg E)) [] pos0) _ _ (env_ok_KB (inside C) fwx E Hn Hr) H0 Ex)). }
      rewrite G in W. cbn [lift wp fst snd] in W.
      destruct W as [W WA]. split; [exact W|]. split; [exact D|]. destruct W; auto.
    - intros s w pop fit xb fxb par w1 (HJ & HD & HS) Hstop Ex. cbn [r_pop r_fit r_xb r_fxb r_par w_h].
      split; [|split].
      + exact (proj2 (wp_sound _ _ _ _ _ _ _ _ (env_ok_KB (inside C) fwx E Hn Hr) (H2 _ _ _ _ _ _ HJ) Ex)).
      + exact (exec_det g _ E _ _ _ _ Hg HD Ex).
      + eapply dy_pair with (9 := Ex); eauto; [|destruct HJ; auto].
        intros Hz. destruct HJ as [_ L]. rewrite Hz in L. cbn in L. unfold n in L. lia. }
  destruct S as (s & (_ & _ & S) & -> & ->). destruct S as [S|S].
  - left. rewrite S. fold C. destruct (c_opt C); reflexivity.
  - right. apply in_log_of in S. destruct S as (u & S & ->). rewrite sgn_invol. exact S.
Qed.
(** the runs of ExFwa meet the hypotheses; both returned points ([ExFwa.dynfwag_trace], [ExFwa.dynfwa_trace]) are evaluated ones *)
Example C69_deterministic_case : forall gauss, deterministic (lin_from 1) ExFwa.E /\ best_run_x fwx ExFwa.E (dynfwa fxx ExFwa.C ExFwa.dy gauss).
Proof.
  intros gauss. assert (D : deterministic (lin_from 1) ExFwa.E) by (intros h x v H; injection H as <-; reflexivity). split; [exact D|].
  destruct ExFwa.hyps as (H1 & H2 & H3 & _ & _ & _ & H4). exact (C69_deterministic fxx ExFwa.E ExFwa.dy gauss (lin_from 1) H1 H2 H3 H4 D).
Qed.
(** the problem of [C69_pair_refuted] is not such a function *)
Example noisy_is_no_function : forall g, ~ (forall h x v, noisy h x = Ret v -> v = g x).
Proof.
  intros g H. assert (H1 := H [] [] _ eq_refl). assert (H2 := H [([], Ret NaN)] [] _ eq_refl). rewrite <- H1 in H2. vm_compute in H2. discriminate.
Qed.

Print Assumptions C69_deterministic.
