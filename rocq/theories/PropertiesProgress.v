(** C24: with a finite max_evals alone the run terminates, because every iteration uses an evaluation. *)
From Coq Require Import ZArith Lia Bool List.
From Verif Require Import Num Task TaskSpec Prog Wp GetBest Run RunSpec RunProofs AlgoLib Fops Indiv Reach AlgTac StepSpec StepLib Progress Endless ExLib ExLib2 B64
  AlgPSO AlgSwarm AlgBasic AlgBasic2 AlgDE AlgBat AlgFwa AlgOther Repair.
From Verif Require AlgEvo PropertiesOther.
Import ListNotations.

(** a population size for which the initialisation returns is positive *)
Lemma starts : forall E A s w (Q : Prop), reached E A s w -> rets (a_init A) (fun _ => Q) -> Q.
Proof.
  intros E A s w Q H HR. destruct (reached_start _ _ _ _ H) as (pos & pop & fit & par & w0 & xb & fxb & Ex & _).
  exact (rets_exec _ _ _ _ _ _ _ HR Ex).
Qed.
Lemma rets_init_pos : forall B C n (k : list vec * list num -> prog B), rets (bind (default_numpy_init C n) k) (fun _ => 0 < n).
Proof.
  intros B C n k. eapply rets_bind2; [apply rets_numpy_init|]. intros a (H & _ & _). eapply rets_imp; [|apply rets_any]. auto.
Qed.
Lemma nf_py_round : forall x, nf (lift (py_round x)).
Proof. intros x. destruct x; simpl; auto; discriminate. Qed.
Lemma nf_rand_pass : forall t x lo hi, nf (rand_pass t x lo hi).
Proof. intros t x. induction x as [|a x IH]; destruct lo, hi; cbn [rand_pass]; nfs; auto. Qed.
#[local] Hint Resolve nf_py_round nf_rand_pass : nf.
Ltac show_init := repeat match goal with |- context [a_init ?A] => unfold_head A; cbv zeta; cbn [a_init] end.
Ltac show_iter := repeat match goal with |- context [a_iter ?A] => unfold_head A; cbv zeta; cbn [a_iter] end.
(** algorithms whose iterations evaluate whatever the state is *)
Ltac by_me := intros; apply ends; [show_init; nfs|intros st wd HR _; destruct st; cbn [r_pop r_fit r_xb r_fxb r_par]; show_iter; mes].
(** ... when the population size is positive, which the initialisation guarantees *)
Ltac by_pos sz :=
  intros; apply ends; [show_init; nfs|intros st wd HR _;
  match goal with HR : reached _ _ _ _ |- _ => assert (0 < sz) by (refine (starts _ _ _ _ _ HR _); show_init; apply rets_init_pos) end;
  clear HR; destruct st; cbn [r_pop r_fit r_xb r_fxb r_par]; show_iter; mes].

Theorem C24_gwo : forall F C n E, terminates (gwo F C n) E.
Proof. intros F C n E. by_pos n. Qed.
Theorem C24_mfo : forall F C pi n E, terminates (mfo F C pi n) E.
Proof. by_me. Qed.
Theorem C24_sca : forall F C pi p E, terminates (sca F C pi p) E.
Proof. by_me. Qed.
Theorem C24_gsa : forall F C p E, terminates (gsa F C p) E.
Proof. by_me. Qed.
Theorem C24_hs : forall F C ip p br E, terminates (hs F C ip p br) E.
Proof. by_me. Qed.
Theorem C24_hs1 : forall F C ip p bmin bmax E, terminates (hs1 F C ip p bmin bmax) E.
Proof. by_me. Qed.
Theorem C24_ba : forall F C p E, terminates (ba F C p) E.
Proof. intros F C p E. by_pos (ba_n p). Qed.
Theorem C24_hba : forall F C p s w cr E, terminates (hba F C p s w cr) E.
Proof. intros F C p s w cr E. by_pos (ba_n p). Qed.
Theorem C24_aba : forall F C p E, terminates (aba F C p) E.
Proof. intros F C p E. by_pos (aba_n p). Qed.
Theorem C24_saba : forall F C p E, terminates (saba F C p) E.
Proof. intros F C p E. by_pos (aba_n (sb_aba p)). Qed.
Theorem C24_hsaba : forall F C p s w cr E, terminates (hsaba F C p s w cr) E.
Proof. intros F C p s w cr E. by_pos (aba_n (sb_aba p)). Qed.
Theorem C24_plba : forall F C n E, terminates (plba F C n) E.
Proof. intros F C n E. by_pos n. Qed.
Theorem C24_cs : forall F C mat n pa E, terminates (cs F C mat n pa) E.
Proof. by_me. Qed.
Theorem C24_fpa : forall F C n pr E, terminates (fpa F C n pr) E.
Proof. intros F C n pr E. by_pos n. Qed.
Theorem C24_bbfwa : forall F C p E, terminates (AlgEvo.bbfwa F C p) E.
Proof. by_me. Qed.
Theorem C24_fwa : forall F C tol p E, terminates (fwa F C tol p) E.
Proof. by_me. Qed.
Theorem C24_efwa : forall F C p E, terminates (efwa F C p) E.
Proof. by_me. Qed.
Theorem C24_dynfwa : forall F C p g E, terminates (dynfwa F C p g) E.
Proof. by_me. Qed.
Theorem C24_sa : forall F C p E, terminates (sa F C p) E.
Proof. by_me. Qed.
Theorem C24_nm : forall F C p E, terminates (nm F C p) E.
Proof. by_me. Qed.
Theorem C24_clonalg : forall F C p E, terminates (AlgEvo.clonalg F C p) E.
Proof. by_me. Qed.

(** the DE family: an iteration on an empty population raises (get_best of nothing) *)
Lemma de_like_ends : forall C n ev sel post E, (forall pop xb, pop <> [] -> me (ev pop xb)) -> (forall xb, ev [] xb = Done []) ->
  (forall a b c d, nf (sel a b c d)) -> (forall xb fxb, sel [] [] xb fxb = Fail EValue) -> (forall pop, nf (post pop)) ->
  terminates (de_like C n ev sel post) E.
Proof.
  intros C n ev sel post E H1 H2 H3 H4 H5. apply ends; [show_init; nfs|]. intros st wd HR _. destruct st as [pop fit xb fxb par]. cbn [r_pop r_fit r_xb r_fxb r_par]. show_iter.
  unfold de_iteration. destruct pop as [|i pop]; [rewrite H2; cbn [bind]; rewrite H4; simpl; discriminate|].
  apply me_left; [apply H1; discriminate|]. intros new. apply nf_bind; [apply H3|]. intros [[arr x1] f1]. apply nf_bind; [apply H5|]. intros pop'. nfs.
Qed.
Lemma nf_cross : forall F s pop ic f cr xb, nf (cross F s pop ic f cr xb).
Proof. intros. unfold cross, mutant, draw_indices. nfs. Qed.
Lemma nf_de_selection : forall a b c d, nf (de_selection a b c d).
Proof.
  intros. unfold de_selection. apply nf_bind; [|intros arr; nfs]. revert b. induction a as [|e a IH]; intros b; destruct b; cbn [de_select]; try (simpl; auto; discriminate).
  apply nf_bind; [auto|]. nfs.
Qed.
#[local] Hint Resolve nf_cross nf_de_selection : nf.
Lemma me_de_evolve : forall F p pop xb, pop <> [] -> me (de_evolve F p pop xb).
Proof.
  intros F p pop xb H. unfold de_evolve. apply me_mapM; [destruct pop; [congruence|discriminate]|]. intros i. apply me_right; [nfs|]. intros x. apply me_ind_evaluate.
Qed.
Lemma me_ms_evolve : forall F p ss pop xb, pop <> [] -> me (ms_evolve F p ss pop xb).
Proof.
  intros F p ss pop xb H. unfold ms_evolve. apply me_mapM; [destruct pop; [congruence|discriminate]|]. intros i. unfold multi_mutations.
  destruct ss as [|s ss]; [simpl; discriminate|]. apply me_left; [|nfs]. apply me_mapM; [discriminate|]. intros s'. apply me_right; [nfs|]. intros x. apply me_ind_evaluate.
Qed.
Lemma nf_dynnp_post : forall C a b pop, nf (dynnp_post C a b pop).
Proof. intros. unfold dynnp_post, halve. nfs. Qed.
Theorem C24_de : forall F C p E, terminates (de F C p) E.
Proof. intros. apply de_like_ends; [intros; apply me_de_evolve; auto|reflexivity|intros; apply nf_de_selection|reflexivity|simpl; auto]. Qed.
Theorem C24_dynnp_de : forall F C p a b E, terminates (dynnp_de F C p a b) E.
Proof. intros. apply de_like_ends; [intros; apply me_de_evolve; auto|reflexivity|intros; apply nf_de_selection|reflexivity|intros; apply nf_dynnp_post]. Qed.
Theorem C24_ms_de : forall F C p ss E, terminates (ms_de F C p ss) E.
Proof. intros. apply de_like_ends; [intros; apply me_ms_evolve; auto|reflexivity|intros; apply nf_de_selection|reflexivity|simpl; auto]. Qed.
Theorem C24_dynnp_ms_de : forall F C p ss a b E, terminates (dynnp_ms_de F C p ss a b) E.
Proof. intros. apply de_like_ends; [intros; apply me_ms_evolve; auto|reflexivity|intros; apply nf_de_selection|reflexivity|intros; apply nf_dynnp_post]. Qed.
Lemma nf_ag_select : forall b a, nf (ag_select a b).
Proof. intros b a. revert b. induction a as [|e a IH]; intros b; destruct b; cbn [ag_select]; try (simpl; auto; discriminate). apply nf_bind; [auto|]. nfs. Qed.
#[local] Hint Resolve nf_ag_select : nf.
Theorem C24_aging_de : forall F C p E, terminates (aging_de F C p) E.
Proof.
  intros F C p E. apply ends; [show_init; nfs|]. intros st wd HR _. destruct st as [pop fit xb fxb par]. cbn [r_pop r_fit r_xb r_fxb r_par]. show_iter.
  unfold aging_iteration. destruct pop as [|i pop]; [simpl; discriminate|].
  apply me_left; [apply me_de_evolve; discriminate|]. intros new. nfs.
Qed.
Theorem C24_ga : forall F C p E, terminates (AlgEvo.ga F C p) E.
Proof.
  intros F C p E. apply ends; [show_init; nfs|]. intros st wd HR _.
  assert (Hn : 0 < AlgEvo.ga_n p).
  { destruct (reached_start _ _ _ _ HR) as (pos & pop & fit & par & w0 & xb & fxb & Ex & G). apply get_best_cons in G.
    assert (R : rets (a_init (AlgEvo.ga F C p)) (fun r => length (snd (fst r)) = AlgEvo.ga_n p)).
    { show_init. unfold AlgEvo.ga_init. eapply rets_bind2; [apply rets_individual_init|]. intros [a b] (L & M). cbn [fst snd] in *. subst b. simpl. rewrite map_length. exact L. }
    assert (L := rets_exec _ _ _ _ _ _ _ R Ex). cbn [fst snd] in L. destruct fit; [congruence|]. simpl in L. lia. }
  destruct st as [pop fit xb fxb par]. cbn [r_pop r_fit r_xb r_fxb r_par]. show_iter. mes.
Qed.
(** BeesAlgorithm: some bees must be sent out *)
Theorem C24_bea : forall F C p E,
  (0 < AlgEvo.be_e p /\ 0 < AlgEvo.be_nep p) \/ (AlgEvo.be_e p < AlgEvo.be_m p /\ 0 < AlgEvo.be_nsp p) \/ AlgEvo.be_m p < AlgEvo.be_n p ->
  terminates (AlgEvo.bea F C p) E.
Proof.
  intros F C p E Hp. apply ends; [show_init; nfs|]. intros st wd HR _. destruct st as [pop fit xb fxb par]. cbn [r_pop r_fit r_xb r_fxb r_par]. show_iter.
  unfold AlgEvo.bea_iter.
  assert (Site : forall ngh k s i, 0 < k -> me (AlgEvo.bea_site F C ngh k s i)). { intros. unfold AlgEvo.bea_site. mes. }
  assert (Seq : forall a k, 0 < k -> seq a k <> []) by (intros a k Hk; destruct k; [lia|discriminate]).
  destruct Hp as [[H1 H2]|[[H1 H2]|H1]].
  - apply me_left; [apply me_foldM; [apply Seq; lia|auto]|]. intros s1. nfs.
  - apply me_right; [nfs|]. intros s1. apply me_left; [apply me_foldM; [apply Seq; lia|auto]|]. intros s2. nfs.
  - apply me_right; [nfs|]. intros s1. apply me_right; [nfs|]. intros s2. apply me_left; [apply me_foldM; [apply Seq; lia|]|nfs]. intros s i. mes.
Qed.

(** ** The PSO family: the population keeps its size *)
Lemma rets_particle : forall V F uv nested w lo hi s i,
  retsV V (pso_particle F uv nested w lo hi s i) (fun s' => length (sw_pop s') = length (sw_pop s)).
Proof.
  intros. unfold pso_particle. do 5 (apply rets_skip; intros ?). apply rets_skip; intros x'. eapply rets_bind2; [apply rets_setP_len|]. intros pop Hp.
  repeat (apply rets_skip; intros ?). cbn. auto.
Qed.
Lemma rets_moves : forall V F uv nested w lo hi s,
  retsV V (pso_moves F uv nested w lo hi s) (fun s' => length (sw_pop s') = length (sw_pop s)).
Proof.
  intros. unfold pso_moves, for_range. apply rets_foldM; auto. intros s' i H. eapply rets_imp; [|apply rets_particle]. cbn beta. congruence.
Qed.
Lemma me_moves : forall F uv nested w lo hi s, (forall a b c d e f g, nf (uv a b c d e f g)) -> sw_pop s <> [] -> me (pso_moves F uv nested w lo hi s).
Proof.
  intros F uv nested w lo hi s H1 H2. unfold pso_moves. apply me_for_range; [destruct (sw_pop s); [congruence|simpl; lia]|]. intros s' i. unfold pso_particle.
  do 3 (apply me_right; [nfs|]; intros ?). apply me_right; [auto|]. intros v'. mes.
Qed.
Lemma me_pso_iter : forall F uv pop fit xb fxb t, (forall a b c d e f g, nf (uv a b c d e f g)) -> pop <> [] -> me (pso_iter F uv pop fit xb fxb t).
Proof. intros. unfold pso_iter. apply me_left; [apply me_moves; auto|]. nfs. Qed.
Lemma rets_pso_iter : forall V F uv pop fit xb fxb t, pop <> [] ->
  retsV V (pso_iter F uv pop fit xb fxb t) (fun r => let '(pop, _, _, _, _) := r in pop <> []).
Proof.
  intros. unfold pso_iter. eapply rets_bind2; [apply rets_moves|]. intros s Hs. cbn in *. destruct (sw_pop s); [destruct pop; [congruence|discriminate]|discriminate].
Qed.
Lemma rets_pso_init : forall V C p, retsV V (pso_init C p) (fun r => let '(pop, _, _) := r in pop <> []).
Proof.
  intros. unfold pso_init. eapply rets_bind2; [apply rets_numpy_init|]. intros [pop fit] (H & L & _). cbn in *. destruct pop; [simpl in L; lia|discriminate].
Qed.
Lemma nf_uv : forall F C p a b c d e f g, nf (update_velocity F C p a b c d e f g).
Proof. intros. unfold update_velocity. nfs. Qed.
Lemma nf_uv_mcu : forall F C p a b c d e f g, nf (update_velocity_mcu F C p a b c d e f g).
Proof. intros. unfold update_velocity_mcu. nfs. Qed.
Lemma nf_mean_direction : forall F d v, nf (mean_direction F d v).
Proof. intros. unfold mean_direction. apply nf_bind; [|nfs]. unfold vmax. destruct (map (fabs F) (centroid F d v)); simpl; auto. discriminate. Qed.
#[local] Hint Resolve nf_uv nf_uv_mcu nf_mean_direction : nf.

(** algorithms over pso_state whose iterations keep the population non-empty *)
Lemma pso_like_ends : forall init iter E, nf init -> rets init (fun r => let '(pop, _, _) := r in pop <> []) ->
  (forall pop fit xb fxb t, pop <> [] -> me (iter pop fit xb fxb t) /\ rets (iter pop fit xb fxb t) (fun r => let '(pop, _, _, _, _) := r in pop <> [])) ->
  terminates (Algo (list vec) pso_state (fun pop => pop) init iter) E.
Proof.
  intros init iter E H1 H2 H3. apply ends; [exact H1|]. intros st wd HR _. cbn [a_iter]. apply H3.
  set (A := Algo (list vec) pso_state (fun pop => pop) init iter) in *.
  refine (reached_rets (fun _ => True) E A (fun pop _ _ _ _ => pop <> []) I (fun _ _ _ _ => I) _ _ st wd HR).
  - cbn [a_init A]. eapply rets_imp; [|exact H2]. intros [[pop fit] par] H xb fxb _. exact H.
  - intros pop fit xb fxb par H. exact (proj2 (H3 pop fit xb fxb par H)).
Qed.
Theorem C24_wvcpso : forall F C p E, terminates (wvcpso F C p) E.
Proof.
  intros. apply pso_like_ends; [nfs|apply rets_pso_init|]. intros. split; [apply me_pso_iter; auto; intros; apply nf_uv|apply rets_pso_iter; auto].
Qed.
Theorem C24_pso : forall F C n c1 c2 rep E, terminates (pso F C n c1 c2 rep) E.
Proof. intros. apply C24_wvcpso. Qed.
Lemma cpso_iter_ok : forall F C uv pop fit xb fxb t, (forall a b c d e f g, nf (uv a b c d e f g)) -> pop <> [] ->
  me (cpso_iter F C uv pop fit xb fxb t) /\ rets (cpso_iter F C uv pop fit xb fxb t) (fun r => let '(pop, _, _, _, _) := r in pop <> []).
Proof.
  intros F C uv pop fit xb fxb t Hu H. unfold cpso_iter. split.
  - apply me_left; [apply me_pso_iter; auto|nfs].
  - eapply rets_bind2; [apply rets_pso_iter; auto|]. intros [[[[pop1 fit1] xb1] fxb1] t1] Hp. apply rets_skip. intros fc. simpl. destruct (fleb fc fxb1); auto.
Qed.
Theorem C24_cpso : forall F C p E, terminates (cpso F C p) E.
Proof. intros. apply pso_like_ends; [nfs|apply rets_pso_init|]. intros. apply cpso_iter_ok; auto. intros; apply nf_uv. Qed.
Lemma mutated_ends : forall F C p k base E, (forall pop fit xb fxb t, pop <> [] -> me (base pop fit xb fxb t) /\ rets (base pop fit xb fxb t) (fun r => let '(pop, _, _, _, _) := r in pop <> [])) ->
  terminates (Algo (list vec) pso_state (fun pop => pop) (pso_init C p) (mutated_iter F C k base)) E.
Proof.
  intros F C p k base E HB. apply pso_like_ends; [nfs|apply rets_pso_init|]. intros pop fit xb fxb t H. destruct (HB pop fit xb fxb t H) as [H1 H2]. unfold mutated_iter. split.
  - apply me_left; [exact H1|nfs].
  - eapply rets_bind2; [exact H2|]. intros [[[[pop1 fit1] xb1] fxb1] t1] Hp. repeat (apply rets_skip; intros ?). destruct a0. exact Hp.
Qed.
Theorem C24_mpso : forall F C p k E, terminates (mpso F C p k) E.
Proof. intros. apply mutated_ends. intros. split; [apply me_pso_iter; auto; intros; apply nf_uv|apply rets_pso_iter; auto]. Qed.
Theorem C24_mcpso : forall F C p k E, terminates (mcpso F C p k) E.
Proof. intros. apply mutated_ends. intros. apply cpso_iter_ok; auto. intros; apply nf_uv. Qed.
Theorem C24_mcupso : forall F C p k E, terminates (mcupso F C p k) E.
Proof. intros. apply mutated_ends. intros. apply cpso_iter_ok; auto. intros; apply nf_uv_mcu. Qed.
Lemma nf_rows_fold : forall f r, nf (lift (rows_fold f r)).
Proof. intros f [|x r]; simpl; auto. discriminate. Qed.
#[local] Hint Resolve nf_rows_fold : nf.
Lemma rets_rows_fold : forall V f r, retsV V (lift (rows_fold f r)) (fun _ => r <> []).
Proof. intros V f [|x r]; simpl; auto. discriminate. Qed.
Theorem C24_ovcpso : forall F C p E, terminates (ovcpso F C p) E.
Proof.
  intros F C p E. apply ends; [show_init; nfs|]. intros st wd HR _.
  assert (HJ : r_pop st <> []).
  { set (A := ovcpso F C p) in *.
    refine (reached_rets (fun _ => True) E A (fun pop fit _ _ _ => pop <> []) I (fun _ _ _ _ => I) _ _ st wd HR); unfold A; show_init; show_iter.
    - unfold ovcpso_init. apply rets_skip. intros [[pop fit] t]. apply rets_skip. intros new. cbn. intros xb fxb G. apply get_best_cons in G.
      destruct new; [simpl in G; congruence|discriminate].
    - intros pop fit xb fxb t H. unfold ovcpso_iter. apply rets_skip. intros r. destruct (fltb r (ov_p0 p)).
      + apply rets_skip. intros [|[nb fnb] new]; [exact I|]. destruct (fltb fnb fxb); simpl; discriminate.
      + apply rets_skip. intros v. cbv zeta. eapply rets_bind2; [apply rets_any|]. intros s _. eapply rets_bind2; [apply rets_rows_fold|]. intros mn Hm.
        apply rets_skip. intros mx. exact Hm. }
  destruct st as [pop fit xb fxb t]. cbn [r_pop r_fit r_xb r_fxb r_par] in *. show_iter. unfold ovcpso_iter. apply me_right; [nfs|]. intros r.
  destruct (fltb r (ov_p0 p)).
  - apply me_left; [|nfs]. unfold opposite_learning. apply me_left; [|nfs]. apply me_mapM; [|intros; apply me_eval]. destruct pop; [congruence|discriminate].
  - apply me_right; [nfs|]. intros v. cbv zeta. apply me_left; [apply me_moves; [intros; apply nf_uv|exact HJ]|nfs].
Qed.

(** ** FireflyAlgorithm evaluates as long as no fitness value is NaN *)
Lemma rets_eval : forall (V : num -> Prop) x, retsV V (eval x) V.
Proof. simpl. auto. Qed.
Lemma rets_mapM : forall (V : num -> Prop) A B (f : A -> prog B) (P : B -> Prop) l, (forall a, retsV V (f a) P) -> retsV V (mapM f l) (Forall P).
Proof. intros V A B f P l H. induction l; cbn [mapM]; [simpl; auto|]. eapply rets_bind2; [apply H|]. intros b Hb. eapply rets_bind2; [exact IHl|]. intros; simpl; auto. Qed.
Lemma rets_setP : forall V A (l : list A) i a (P : A -> Prop), Forall P l -> P a -> retsV V (setP l i a) (Forall P).
Proof.
  intros V A l i a P H Ha. unfold setP. destruct (i <? length l); simpl; auto. clear - H Ha. revert i. induction H; intros [|i]; simpl; auto.
Qed.
Lemma rets_nthP : forall V A (l : list A) i (P : A -> Prop), Forall P l -> retsV V (nthP l i) P.
Proof. intros V A l i P H. unfold nthP. destruct (nth_error l i) eqn:Q; simpl; auto. apply nth_error_In in Q. rewrite Forall_forall in H. auto. Qed.
Theorem C24_fa : forall F C p E, no_nan (e_prob E) -> terminates (fa F C p) E.
Proof.
  intros F C p E HN. apply ends; [show_init; nfs|]. intros st wd HR _.
  assert (Hn : 0 < fa_n p) by (refine (starts _ _ _ _ _ HR _); show_init; apply rets_init_pos).
  assert (HJ : Forall (fun f => f <> NaN) (r_fit st)).
  { set (A := fa F C p) in *.
    refine (reached_rets (fun f => f <> NaN) E A (fun pop fit _ _ _ => Forall (fun f => f <> NaN) fit) _ _ _ _ st wd HR); [discriminate| | |].
    - intros h x v Q. specialize (HN _ _ _ Q). destruct (c_opt (e_cfg E)), v; simpl; congruence.
    - unfold A. show_init. unfold fa_init. apply rets_bind. unfold default_numpy_init. apply rets_skip. intros pop. eapply rets_bind2 with (P := Forall (fun f => f <> NaN)).
      + destruct pop; [exact I|]. cbn [eval_all]. apply rets_mapM. intros x. apply rets_eval.
      + intros fit Hf. cbn. auto.
    - intros pop fit xb fxb alpha H. unfold A. show_iter. unfold fa_iter. cbv zeta.
      eapply rets_bind2 with (P := fun s => Forall (fun f => f <> NaN) (snd (fst (fst s)))); [|intros [[[pop' fit'] xb'] fxb'] G; exact G].
      unfold for_range. apply rets_foldM; [exact H|]. intros s i Hs. apply rets_foldM; [exact Hs|]. intros [[[pop1 fit1] xb1] fxb1] j H1. cbn [fst snd] in H1. unfold fa_pair.
      apply rets_skip. intros fi. apply rets_skip. intros fj. destruct (fleb fj fi); [|exact H1]. do 5 (apply rets_skip; intros ?).
      eapply rets_bind2; [apply rets_eval|]. intros f Hf. eapply rets_bind2; [apply rets_setP; [exact H1|exact Hf]|]. intros fit2 H2. apply rets_skip. intros [x4 f4]. exact H2. }
  destruct st as [pop fit xb fxb alpha]. cbn [r_pop r_fit r_xb r_fxb r_par] in *. show_iter. unfold fa_iter. cbv zeta. apply me_left; [|nfs].
  unfold for_range. destruct (fa_n p) as [|k]; [lia|]. cbn [seq foldM]. apply me_left; [|intros; apply nf_foldM; nfs]. apply me_left; [|intros; apply nf_foldM; nfs].
  unfold fa_pair. unfold nthP at 1 2. destruct (nth_error fit 0) as [f0'|] eqn:Q; [|simpl; discriminate]. cbn [bind].
  assert (N0 : f0' <> NaN) by (apply nth_error_In in Q; rewrite Forall_forall in HJ; auto). rewrite (fleb_refl f0' N0). mes.
Qed.

(** ** HillClimbAlgorithm, with enough fuel for its inner loop *)
Theorem C24_hc : forall F E fuel k, c_max_evals (e_cfg E) = LFin k -> (k < Z.of_nat fuel)%Z -> 0 < fuel -> terminates (hc F (e_cfg E) fuel) E.
Proof.
  intros F E fuel k Hk Hf H0. apply ends_x; [show_init; nfs|]. intros st wd o w1 HS HR St Ex. destruct st as [pop fit xb fxb t]. cbn [r_pop r_fit r_xb r_fxb r_par] in *.
  cbn [hc a_iter] in Ex. split.
  - intros ->. exact (PropertiesOther.C71_hc_ends F E fuel k pop fit xb fxb t wd Hk Hf H0 HS (f_equal fst Ex)).
  - destruct (exec_mono _ _ _ _ _ _ Ex) as [G1 G2]. split; [exact G2|]. split; [exact G1|]. intros a ->. unfold hc_iter in Ex. rewrite exec_bind in Ex.
    destruct (exec E (nthP pop 0) wd) as [[x|e] w2] eqn:E1; [|discriminate]. rewrite exec_bind in Ex.
    destruct (exec E (sample F (e_cfg E)) w2) as [[xn|e] w3] eqn:E2; [|discriminate]. rewrite exec_bind in Ex.
    destruct (exec E (eval xn) w3) as [[fn|e] w4] eqn:E3; [|discriminate].
    destruct (exec_mono _ _ _ _ _ _ Ex) as [G3 _].
    assert (T1 : w_ts w2 = w_ts wd) by (unfold nthP in E1; destruct (nth_error pop 0); cbn [exec] in E1; inversion E1; auto).
    assert (T2 : w_ts w3 = w_ts w2).
    { unfold sample in E2. rewrite exec_bind in E2. assert (R : forall n w z w', exec E (random_vec n) w = (z, w') -> w_ts w' = w_ts w).
      { clear. induction n as [|n IH]; intros w z w' H; [inversion H; auto|]. cbn [random_vec] in H. rewrite exec_bind in H. cbn [random exec] in H. rewrite exec_bind in H.
        destruct (exec E (random_vec n) _) as [[q|e] w2] eqn:Q; apply IH in Q; cbn [exec] in H; inversion H; subst; exact Q. }
      destruct (exec E (random_vec (c_dim (e_cfg E))) w2) as [[q|e] w5] eqn:Q; [|discriminate]. apply R in Q. cbn [exec] in E2. inversion E2; subst; auto. }
    cbn [eval exec] in E3. destruct (task_eval _ _ _ _ _) as [[[v|e] ts] h] eqn:T; [|discriminate]. cbn [exec] in E3. inversion E3; subst.
    apply task_eval_evals in T. destruct T as (_ & _ & T). rewrite T2, T1 in T. specialize (T St). cbn [w_ts] in G3. lia.
Qed.

(** ** Runs that never end *)

(** FireflyAlgorithm once all fitness values are NaN: fit[i] >= fit[j] is never true.  Here f(x) = x for x >= 0 and NaN below
    (as for a square root or a logarithm), one firefly in [-5, 5] *)
Definition half_line : problem := fun _ x => Ret (if fltb (nth 0 x NaN) f0 then NaN else nth 0 x NaN).
Definition faE : env := Env (box 1 (-5) 5 (LFin 10)) half_line (clip (box 1 (-5) 5 (LFin 10))) (fun p => if p =? 0 then N' 1 else f0) (fun _ => 0).
Definition fa1 : fa_par := FAPar 1 (flit b64ops 1 1) (flit b64ops 1 1) (flit b64ops 1 100) (flit b64ops 97 100).
Theorem C24_fa_nan_refuted : cfg_ok (e_cfg faE) /\ repair_ok faE /\ c_max_evals (e_cfg faE) = LFin 10 /\ never_ends faE (fa b64ops (e_cfg faE) fa1).
Proof.
  split; [apply box_ok; lia|]. split; [apply clip_ok; apply box_ok; lia|]. split; [reflexivity|].
  apply (endless faE (fa b64ops (e_cfg faE) fa1) (fun s w => r_fit s = [NaN] /\ t_evals (w_ts w) = 2 /\ fltb NInf (t_xf (w_ts w)) = true)) with (k := 1).
  - intros [pop fit xb fxb alpha] w (H1 & H2 & H3). cbn [r_pop r_fit r_xb r_fxb r_par] in *. subst fit. split.
    + unfold stopping_condition. rewrite H2. cbn. destruct (t_xf (w_ts w)); auto; discriminate.
    + exists pop, [NaN], xb, fxb, (fmul b64ops alpha (fa_theta fa1)), w. split; [reflexivity|]. auto.
  - vm_compute. reflexivity.
  - vm_compute. auto.
Qed.

(** BeesAlgorithm that sends out no bees and has no scouts (e = m = population_size, nep = 0) *)
Definition beaP : AlgEvo.bea_par := AlgEvo.BEAPar 1 1 1 (flit b64ops 1 1) 0 2.
Definition beaE : env := exenv (box 1 0 4 (LFin 10)) lin.
Theorem C24_bea_refuted : cfg_ok (e_cfg beaE) /\ no_nan (e_prob beaE) /\ repair_ok beaE /\ c_max_evals (e_cfg beaE) = LFin 10 /\
  never_ends beaE (AlgEvo.bea b64ops (e_cfg beaE) beaP).
Proof.
  split; [apply box_ok; lia|]. split; [exact lin_no_nan|]. split; [apply clip_ok; apply box_ok; lia|]. split; [reflexivity|].
  apply (endless beaE (AlgEvo.bea b64ops (e_cfg beaE) beaP) (fun s w => (exists x, r_pop s = [x]) /\ (exists f, r_fit s = [f]) /\ t_evals (w_ts w) = 1 /\ fltb NInf (t_xf (w_ts w)) = true)) with (k := 0).
  - intros [pop fit xb fxb ngh] w ((x & H1) & (f & H2) & H3 & H4). cbn [r_pop r_fit r_xb r_fxb r_par] in *. subst pop fit. split.
    + unfold stopping_condition. rewrite H3. cbn. destruct (t_xf (w_ts w)); auto; discriminate.
    + exists [x], [f], x, f, (fmul b64ops ngh (flit b64ops 95 100)), w. split; [destruct f; reflexivity|]. cbn. eauto 6.
  - reflexivity.
  - vm_compute. eauto 6.
Qed.

(** a binary64 exp on the three arguments the learning probabilities of two particles need *)
Definition clF : fops := {| fadd := fadd b64ops; fsub := fsub b64ops; fmul := fmul b64ops; fdiv := fdiv b64ops; fmod := fmod b64ops; fpow := fpow b64ops;
  fexp := fun a => if feqb a (b64_lit (-10) 1) then b64_lit 453999297624849 (10 ^ 19) else if feqb a (b64_lit 10 1) then b64_lit 22026465794806718 (10 ^ 12) else b64_lit 1 1;
  fln := fln b64ops; fsqrt := fsqrt b64ops; fsin := fsin b64ops; fcos := fcos b64ops; ftan := ftan b64ops; fabs := fabs b64ops; ffloor := ffloor b64ops;
  fgamma := fgamma b64ops; fsign := fsign b64ops; flit := b64_lit; fint := fint b64ops |}.
Definition clP : AlgPSO.cl_par := AlgPSO.CLPar (PSOPar 2 (b64_lit 2 1) (b64_lit 2 1) [b64_lit 7 10] [b64_lit (-15) 10] [b64_lit 15 10] (reflect_v clF)) 10 (b64_lit 9 10) (b64_lit 4 10) (b64_lit 149445 100000).
Definition clE : env := Env (box 1 0 1 (LFin 10)) lin (clip (box 1 0 1 (LFin 10))) (fun p => nth p [N' 0; N' 1; f0; q 7 8; q 7 8; q 7 8; f0; f0; f0; q 7 8] f0) (fun _ => 0).
Definition clA := clpso clF (e_cfg clE) clP.

Lemma div_inf : forall x, fdiv b64ops x PInf = f0 \/ fdiv b64ops x PInf = NaN.
Proof. intros x. change (fdiv b64ops x PInf) with (of_sf (SpecFloat.SFdiv 53 1024 (to_sf x) (SpecFloat.S754_infinity false))). destruct (to_sf x); cbn; auto. Qed.
Definition clS {B} (f : rstate clA -> B) (d : B) : B := match state_after clE clA 2 with Some (s, _) => f s | None => d end.
Definition clX0 : num := nth 0 (nth 0 (clS (@r_pop clA) []) []) NaN.
Definition clX1 : num := nth 0 (nth 1 (clS (@r_pop clA) []) []) NaN.
Definition clfit : list num := [N' 0; N' 1].
Definition clpb : list vec := [[N' 0]; [N' 1]].
Definition clpc : vec := [cl_pc clF 2 0; cl_pc clF 2 1].
Definition clsw (a b : bool) : swarm :=
  Swarm [[if a then clX0 else NaN]; [if b then clX1 else NaN]] clfit [N' 0] (N' 0) clpb clfit [[if a then f0 else NaN]; [if b then f0 else NaN]].
Definition clstep (w : num) (a b : bool) := zero (for_range 2 (clpso_particle clF (e_cfg clE) clP w clpc [b64_lit (-15) 10] [b64_lit 15 10]) (clsw a b, [0; 0])).
Lemma clstep_ok : forall w a b, w = f0 \/ w = NaN -> exists a' b', clstep w a b = Some (clsw a' b', [0; 0]).
Proof.
  intros w a b [->| ->]; [exists a, b|exists false, false]; destruct a, b; vm_compute; reflexivity.
Qed.
Definition clJ (s : rstate clA) (w : world) : Prop :=
  10 <= w_pos w /\ t_evals (w_ts w) = 2 /\ t_xf (w_ts w) = N' 0 /\
  exists a b pw, r_pop s = sw_pop (clsw a b) /\ r_fit s = clfit /\ r_xb s = [N' 0] /\ r_fxb s = N' 0 /\
    r_par s = CLState (PState clpb clfit pw [b64_lit (-15) 10] [b64_lit 15 10] (sw_v (clsw a b))) [0; 0] clpc.
(** ComprehensiveLearningParticleSwarmOptimizer with the default parameters: both particles leave the box [0, 1], and if
    all later random numbers are 0 they never come back and nothing is evaluated any more *)
Theorem C24_clpso_refuted : cfg_ok (e_cfg clE) /\ no_nan (e_prob clE) /\ repair_ok clE /\ c_max_evals (e_cfg clE) = LFin 10 /\ never_ends clE clA.
Proof.
  split; [apply box_ok; lia|]. split; [exact lin_no_nan|]. split; [apply clip_ok; apply box_ok; lia|]. split; [reflexivity|].
  apply (endless clE clA clJ) with (k := 2).
  - intros [pop fit xb fxb par] w (H1 & H2 & H3 & a & b & pw & H4 & H5 & H6 & H7 & H8). cbn [r_pop r_fit r_xb r_fxb r_par] in *. split.
    + unfold stopping_condition. rewrite H2, H3. vm_compute. reflexivity.
    + destruct (clstep_ok (cl_w clF (e_cfg clE) clP (t_iters (w_ts w))) a b) as (a' & b' & Hz); [unfold cl_w; exact (div_inf _)|].
      unfold clstep in Hz. apply (zero_exec clE _ _ _ 10 w) in Hz; [|intros i Hi; cbn [e_flt clE]; apply nth_overflow; cbn; lia|reflexivity|exact H1].
      destruct Hz as (n & Hn & Ex).
      exists (sw_pop (clsw a' b')), clfit, [N' 0], (N' 0), (CLState (PState clpb clfit pw [b64_lit (-15) 10] [b64_lit 15 10] (sw_v (clsw a' b'))) [0; 0] clpc), (World (w_ts w) (w_h w) n).
      split.
      * rewrite H4, H5, H6, H7, H8. change (a_iter clA) with (clpso_iter clF (e_cfg clE) clP). unfold clpso_iter. rewrite exec_bind.
        cbn [exec view v_iters ct_pso pt_pb pt_pbf pt_v ct_flag ct_pc pt_min pt_max]. rewrite exec_bind. cbn [length sw_pop clsw].
        change (Swarm _ _ _ _ _ _ _) with (clsw a b). rewrite Ex. reflexivity.
      * split; [exact Hn|]. split; [exact H2|]. split; [exact H3|]. exists a', b', pw. auto.
  - vm_compute. reflexivity.
  - vm_compute. split; [lia|]. split; [reflexivity|]. split; [reflexivity|]. exists true, true. eexists.
    split; [reflexivity|]. split; [reflexivity|]. split; [reflexivity|]. split; reflexivity.
Qed.

(** ** Hawks, butterflies, forests and cats; see C76_one_refuted and C79_endless_refuted for bees and cats that never end *)
Theorem C24_hho : forall F C p E, terminates (hho F C p) E.
Proof. intros F C p E. by_pos (hh_n p). Qed.
Theorem C24_mbo : forall F C pi p E, terminates (mbo F C pi p) E.
Proof. by_me. Qed.
Theorem C24_foa : forall F C p E, terminates (foa F C p) E.
Proof. by_me. Qed.

(** CatSwarmOptimization, unless a seeking cat has only itself to look at *)
Lemma me_repeatM : forall A n (p : prog A), 0 < n -> me p -> me (repeatM n p).
Proof. intros A [|n] p H1 H2; [lia|]. cbn [repeatM]. apply me_left; auto. intros a. apply nf_bind; [|intros; simpl; auto]. clear - H2. induction n; cbn [repeatM]; [simpl; auto|]. apply nf_bind; [apply me_nf; auto|]. intros b. apply nf_bind; auto. intros; simpl; auto. Qed.
Lemma me_cso_copy : forall F C p x, me (cso_copy F C p x).
Proof. intros. unfold cso_copy. mes. Qed.
Lemma nf_cso_select : forall F ws, nf (cso_select F ws).
Proof. intros. unfold cso_select. cbv zeta. apply nf_bind; [nfs|]. intros r. destruct (cumsum F ws); simpl; auto. discriminate. Qed.
Lemma me_cso_seek : forall F C p x f pop fit fxb, ct_spc p = false \/ 2 <= ct_smp p -> me (cso_seek F C p x f pop fit fxb).
Proof.
  intros F C p x f pop fit fxb H. unfold cso_seek. assert (L : forall cs : list (vec * num), nf
   (let cs0 := if ct_spc p then cs ++ [(x, f)] else cs in let fs := map snd cs0 in
    match argmax fs, argmin fs with
    | Some iw, Some ib => let* worst := nthP fs iw in let* best := nthP fs ib in let ws := cso_weights F fs worst best in
        let* (pop', fit') := (if fltb best fxb then let* k := integers (ct_n p) in match first_true (map (fun a => feqb a best) fs) with
           | None => Fail EIndex | Some j => let* y := nthP (map fst cs0) j in let* pop' := setP pop k y in let* fit' := setP fit k best in Done (pop', fit') end else Done (pop, fit)) in
        let* s := cso_select F ws in let* z := nthP cs0 s in Done (fst z, snd z, pop', fit')
    | _, _ => Fail EValue end)).
  { intros cs. cbv zeta. destruct (argmax _); [|simpl; discriminate]. destruct (argmin _); [|simpl; discriminate]. apply nf_bind; [nfs|]. intros wo. apply nf_bind; [nfs|]. intros be. apply nf_bind.
    - destruct (fltb be fxb); [|nfs]. apply nf_bind; [nfs|]. intros k. destruct (first_true _); nfs.
    - intros [pop' fit']. apply nf_bind; [apply nf_cso_select|]. nfs. }
  destruct (Nat.eq_dec (if ct_spc p then ct_smp p - 1 else ct_smp p) 0) as [Z|Z].
  - rewrite Z. cbn [repeatM bind]. destruct (ct_spc p); [destruct H; [discriminate|lia]|]. cbn [map argmax argmin]. simpl. discriminate.
  - apply me_left; [apply me_repeatM; [lia|apply me_cso_copy]|exact L].
Qed.
Lemma me_cso_step : forall F C p ks xb fxb s k, ct_spc p = false \/ 2 <= ct_smp p -> me (cso_step F C p ks xb fxb s k).
Proof.
  intros F C p ks xb fxb s k H. unfold cso_step. apply me_right; [nfs|]. intros x. apply me_right; [nfs|]. intros f. destruct (existsb (Nat.eqb k) ks).
  - apply me_right; [nfs|]. intros v. apply me_left; [unfold cso_trace; mes|nfs].
  - apply me_left; [apply me_cso_seek; auto|nfs].
Qed.
Lemma rets_cso_step : forall V F C p ks xb fxb s k, retsV V (cso_step F C p ks xb fxb s k) (fun s' => length (ca_pop s') = length (ca_pop s)).
Proof.
  intros. unfold cso_step. do 2 (apply rets_skip; intros ?). destruct (existsb (Nat.eqb k) ks).
  - do 2 (apply rets_skip; intros ?). destruct a2 as [[y g] v']. eapply rets_bind2; [apply rets_setP_len|]. intros pop Hp. do 2 (apply rets_skip; intros ?). exact Hp.
  - eapply rets_bind2 with (P := fun r => let '(_, _, pop, _) := r in length pop = length (ca_pop s)).
    + unfold cso_seek. apply rets_skip. intros cs. cbv zeta. destruct (argmax _); [|exact I]. destruct (argmin _); [|exact I]. do 2 (apply rets_skip; intros ?).
      eapply rets_bind2 with (P := fun r : list vec * list num => length (fst r) = length (ca_pop s)).
      * destruct (fltb a2 fxb); [|cbn; auto]. apply rets_skip. intros j. destruct (first_true _); [|exact I]. apply rets_skip. intros y. eapply rets_bind2; [apply rets_setP_len|]. intros pop' Hp. apply rets_skip. intros fit'. exact Hp.
      * intros [pop' fit'] Hp. do 2 (apply rets_skip; intros ?). exact Hp.
    + intros [[[y g] pop] fit] Hp. eapply rets_bind2; [apply rets_setP_len|]. intros pop' Hp'. apply rets_skip. intros fit'. cbn [retsV ca_pop]. congruence.
Qed.
Theorem C24_cso : forall F C p E, ct_spc p = false \/ 2 <= ct_smp p -> terminates (cso F C p) E.
Proof.
  intros F C p E Hs. apply ends; [cbn [a_init cso]; unfold cso_init; nfs|]. intros st wd HR _. cbn [a_iter cso].
  assert (Hp : r_pop st <> ([] : list vec)).
  { refine (reached_rets (fun _ => True) E (cso F C p) (fun pop _ _ _ _ => pop <> ([] : list vec)) I (fun _ _ _ _ => I) _ _ st wd HR).
    - cbn [a_init cso]. unfold cso_init. eapply rets_bind2; [apply rets_numpy_init|]. intros [pop fit] (H & L & _). apply rets_skip. intros vs. cbn [retsV]. intros xb fxb _. cbn in L. destruct pop; [simpl in L; lia|discriminate].
    - intros pop fit xb fxb par H. cbn [a_iter cso]. unfold cso_iter. apply rets_skip. intros ks. eapply rets_bind2 with (P := fun s => length (ca_pop s) = length pop).
      + unfold for_range. apply rets_foldM; auto. intros s k Hk. eapply rets_imp; [|apply rets_cso_step]. cbn beta. congruence.
      + intros s Hk. apply rets_skip. intros [x f]. cbn [retsV]. destruct (ca_pop s); [destruct pop; [congruence|discriminate]|discriminate]. }
  unfold cso_iter. apply me_right; [unfold cso_tracing; cbv zeta; nfs|]. intros ks. apply me_left.
  - apply me_for_range; [destruct (r_pop st : list vec); [congruence|simpl; lia]|]. intros s k. apply me_cso_step. auto.
  - intros s. unfold take_best. apply nf_bind; nfs.
Qed.

(** ** The theorems at work: (iterations, evaluations) at the end of concrete runs *)
Definition ran (E : env) (A : algo) (n : nat) : option (nat * nat) :=
  match run_body E A no_callback n (World (task_init (e_cfg E)) [] 0) with (Ret _, w, _) => Some (t_iters (w_ts w), t_evals (w_ts w)) | _ => None end.
Definition prE : env := exenv (box 2 0 4 (LFin 9)) lin.
Example C24_hyps : sane prE /\ c_max_evals (e_cfg prE) = LFin 9 /\ (forall l, no_callback l <> Some EFuel) /\ Z.to_nat 9 <= 9.
Proof. repeat split; try discriminate; try lia. Qed.
Example C24_gwo_ran : ran prE (gwo fxx (e_cfg prE) 3) 9 =
    Some (2, 9).
Proof. vm_compute. reflexivity. Qed.
Example C24_fa_ran : ran prE (fa b64ops (e_cfg prE) fa1) 9 =
    Some (8, 9).
Proof. vm_compute. reflexivity. Qed.
Example C24_hc_ran : ran prE (hc b64ops (e_cfg prE) 10) 9 =
    Some (4, 9).
Proof. vm_compute. reflexivity. Qed.
Example C24_de_ran : ran prE (de fxx (e_cfg prE) (DEPar 4 (q 3 4) (q 1 2) Rand1)) 9 =
    Some (2, 9).
Proof. vm_compute. reflexivity. Qed.

Example C24_cso_ran : ran prE (cso fxx (e_cfg prE) (CSOPar 3 (q 3 8) (q 2 1) 2 true (q 7 8) (q 1 4) (q 1 2))) 9 =
    Some (2, 9).
Proof. vm_compute. reflexivity. Qed.
Example C24_hho_ran : ran prE (hho fxx (e_cfg prE) (HHOPar 3 (q 1 4))) 9 =
    Some (2, 9).
Proof. vm_compute. reflexivity. Qed.
Example C24_mbo_ran : ran prE (mbo fxx (e_cfg prE) (q 13 4) (MBOPar 5 (q 1 2) (q 5 4) 2 (q 1 2) true)) 9 =
    Some (1, 9).
Proof. vm_compute. reflexivity. Qed.
Example C24_foa_ran : ran prE (foa fxx (e_cfg prE) (FOAPar 2 2 3 1 1 (q 1 2))) 9 =
    Some (2, 9).
Proof. vm_compute. reflexivity. Qed.

Print Assumptions C24_gwo.
Print Assumptions C24_mfo.
Print Assumptions C24_sca.
Print Assumptions C24_gsa.
Print Assumptions C24_hs.
Print Assumptions C24_hs1.
Print Assumptions C24_ba.
Print Assumptions C24_hba.
Print Assumptions C24_aba.
Print Assumptions C24_saba.
Print Assumptions C24_hsaba.
Print Assumptions C24_plba.
Print Assumptions C24_cs.
Print Assumptions C24_fpa.
Print Assumptions C24_bbfwa.
Print Assumptions C24_fwa.
Print Assumptions C24_efwa.
Print Assumptions C24_dynfwa.
Print Assumptions C24_sa.
Print Assumptions C24_nm.
Print Assumptions C24_clonalg.
Print Assumptions C24_de.
Print Assumptions C24_dynnp_de.
Print Assumptions C24_ms_de.
Print Assumptions C24_dynnp_ms_de.
Print Assumptions C24_aging_de.
Print Assumptions C24_ga.
Print Assumptions C24_bea.
Print Assumptions C24_wvcpso.
Print Assumptions C24_pso.
Print Assumptions C24_cpso.
Print Assumptions C24_mpso.
Print Assumptions C24_mcpso.
Print Assumptions C24_mcupso.
Print Assumptions C24_ovcpso.
Print Assumptions C24_fa.
Print Assumptions C24_hc.
Print Assumptions C24_fa_nan_refuted.
Print Assumptions C24_bea_refuted.
Print Assumptions C24_clpso_refuted.
Print Assumptions C24_hho.
Print Assumptions C24_mbo.
Print Assumptions C24_foa.
Print Assumptions C24_cso.
