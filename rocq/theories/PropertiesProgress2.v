(** C24 for the remaining algorithms: with a finite max_evals alone the run terminates. *)
From Coq Require Import ZArith Lia Bool List.
From Verif Require Import Num Task TaskSpec Prog Wp GetBest Run RunSpec RunProofs AlgoLib Fops Indiv Reach AlgTac StepSpec StepLib Progress Endless ExLib ExLib2 B64
  AlgDE AlgPSO AlgBasic2 Repair PropertiesProgress AlgMod.
Import ListNotations.

#[local] Hint Resolve nf_cross nf_de_selection : nf.
Lemma nf_jde_select : forall a b, nf (j_select a b).
Proof. intros a. induction a as [|o a IH]; intros [|e b]; cbn [j_select]; try (simpl; auto; discriminate). apply nf_bind; [auto|]. intros; simpl; auto. Qed.
#[local] Hint Resolve nf_jde_select : nf.
Lemma nf_adaptive : forall F p e, nf (adaptive_gen F p e).
Proof. intros. unfold adaptive_gen. nfs. Qed.
#[local] Hint Resolve nf_adaptive : nf.
Lemma rets_jde_mutate : forall V F s new xb, retsV V (jde_mutate F s new xb) (fun m => length m = length new).
Proof.
  intros V F s new xb. unfold jde_mutate, for_range. apply rets_foldM; auto. intros m i Hm. apply rets_skip. intros e. apply rets_skip. intros x. eapply rets_imp; [|apply rets_setP_len]. cbn beta. congruence.
Qed.
Lemma me_bind : forall A B (p : prog A) (f : A -> prog B) P, nf p -> rets p P -> (forall a, P a -> me (f a)) -> (forall a, nf (f a)) -> me (bind p f).
Proof. intros A B p f P. induction p; cbn [bind nf retsV me]; intros; auto. apply nf_bind; auto. Qed.
Lemma me_jde_evolve : forall F p pop xb, pop <> [] -> me (jde_evolve F p pop xb).
Proof.
  intros F p pop xb H. unfold jde_evolve. apply (me_bind _ _ _ _ (fun a => length a = length pop)); [apply nf_mapM; apply nf_adaptive|apply rets_mapM_len| |].
  - intros a Ha. apply (me_bind _ _ _ _ (fun m => length m = length a)); [unfold jde_mutate; nfs|apply rets_jde_mutate| |].
    + intros m Hm. unfold jde_evaluate. apply me_mapM; [intros ->; destruct pop; [congruence|simpl in *; lia]|]. intros e. apply me_left; [apply me_ind_evaluate|intros; simpl; auto].
    + intros m. unfold jde_evaluate. nfs.
  - intros a. unfold jde_mutate, jde_evaluate. nfs.
Qed.
Lemma me_msjde_evolve : forall F p ss pop xb, pop <> [] -> me (msjde_evolve F p ss pop xb).
Proof.
  intros F p ss pop xb H. unfold msjde_evolve. apply me_mapM; [destruct pop; [congruence|discriminate]|]. intros i. apply me_left; [|intros; simpl; auto]. unfold multi_mutations.
  destruct ss as [|s ss]; [simpl; discriminate|]. apply me_left; [|nfs]. apply me_mapM; [discriminate|]. intros s'. apply me_right; [nfs|]. intros x. apply me_ind_evaluate.
Qed.
Theorem C24_jde : forall F C p E, terminates (jde F C p) E.
Proof.
  intros F C p E. apply ends; [cbn [a_init jde]; unfold jde_init; nfs|]. intros st wd HR _. cbn [a_iter jde]. unfold jde_iteration. destruct (r_pop st : list jind) as [|i pop]; [simpl; discriminate|].
  apply me_left; [apply me_jde_evolve; discriminate|]. intros new. nfs.
Qed.
Theorem C24_msjde : forall F C p ss E, terminates (msjde F C p ss) E.
Proof.
  intros F C p ss E. apply ends; [cbn [a_init msjde]; unfold jde_init; nfs|]. intros st wd HR _. cbn [a_iter msjde]. unfold jde_iteration. destruct (r_pop st : list jind) as [|i pop]; [simpl; discriminate|].
  apply me_left; [apply me_msjde_evolve; discriminate|]. intros new. nfs.
Qed.
(** evolution strategies; see C83_endless_refuted for (mu + lambda) without children *)
Lemma nf_es_due : forall p it, nf (lift (es_due p it)).
Proof. intros. unfold es_due. destruct (es_k p); simpl; auto. discriminate. Qed.
Lemma nf_es_mutate : forall F x r, nf (es_mutate F x r).
Proof. intros. unfold es_mutate. destruct (fltb _ _); [discriminate|]. nfs. Qed.
#[local] Hint Resolve nf_es_due nf_es_mutate : nf.
Theorem C24_es : forall F C p E, terminates (es F C p) E.
Proof.
  intros F C p E. apply ends; [cbn [a_init es]; unfold es_init; nfs|]. intros st wd HR _. cbn [a_iter es]. unfold es_iter. apply me_right; [nfs|]. intros v. apply me_right; [nfs|]. intros [[x f] rho0].
  apply me_right; [nfs|]. intros due. cbv zeta. apply (me_bind _ _ _ _ (fun cn => length cn = es_mu p)); [apply nf_repeatM; nfs|apply rets_repeatM_len| |].
  - intros cn Hcn. destruct cn as [|c cn].
    + cbn [mapM bind argmin]. discriminate.
    + apply me_left; [apply me_mapM; [discriminate|apply me_eval]|]. intros cf. destruct (argmin cf); [|discriminate]. nfs.
  - intros cn. apply nf_bind; [nfs|]. intros cf. destruct (argmin cf); [|discriminate]. nfs.
Qed.
Lemma me_es_child : forall F p pop, me (es_child F p pop).
Proof.
  intros. unfold es_child. apply me_right; [nfs|]. intros i. apply me_right; [nfs|]. intros e. apply me_right; [nfs|]. intros y. apply me_right; [nfs|]. intros z.
  apply me_left; [apply me_ind_evaluate|intros; simpl; auto].
Qed.
Theorem C24_es_mpl : forall F C p E, 0 < es_lam p -> terminates (es_mpl F C p) E.
Proof.
  intros F C p E Hl. apply ends; [cbn [a_init es_mpl]; unfold mpl_init; nfs|]. intros st wd HR _. cbn [a_iter es_mpl]. unfold mpl_iter. apply me_right; [nfs|]. intros v. apply me_right; [nfs|]. intros due. cbv zeta.
  apply me_left; [apply me_repeatM; [auto|apply me_es_child]|]. intros ch. nfs.
Qed.
Theorem C24_es_ml : forall F C p E, terminates (es_ml F C p) E.
Proof.
  intros F C p E. apply ends; [cbn [a_init es_ml]; unfold mpl_init; nfs|]. intros st wd HR _. cbn [a_iter es_ml]. unfold ml_iter.
  assert (G : forall ch, nf (ml_new_pop p ch)) by (intros ch; unfold ml_new_pop; destruct (_ <? _); [simpl; auto|]; destruct (_ =? _); [discriminate|simpl; auto]).
  destruct (es_lam p) as [|lam] eqn:El.
  - cbn [repeatM bind]. unfold ml_new_pop. rewrite El. cbn [Nat.ltb Nat.leb Nat.eqb]. discriminate.
  - rewrite <- El. apply me_left; [apply me_repeatM; [lia|apply me_es_child]|]. intros ch. apply nf_bind; [apply G|]. nfs.
Qed.

Example C24_jde_ran : ran prE (jde fxx (e_cfg prE) (JDEPar 4 Rand1 (q 1 4) (q 1 1) (q 1 2) (q 3 8))) 9 = Some (2, 9).
Proof. vm_compute. reflexivity. Qed.
Example C24_msjde_ran : ran prE (msjde fxx (e_cfg prE) (DEPar 4 (q 1 2) (q 3 4) Rand1) [Rand1; Best2]) 9 = Some (1, 9).
Proof. vm_compute. reflexivity. Qed.
Example C24_es_ran : ran prE (es fxx (e_cfg prE) (ESPar 3 2 (q 5 4) (q 3 4) (q 1 8) 2)) 9 = Some (3, 9).
Proof. vm_compute. reflexivity. Qed.
Example C24_mpl_ran : ran prE (es_mpl fxx (e_cfg prE) (ESPar 3 2 (q 5 4) (q 3 4) (q 1 8) 2)) 9 = Some (3, 9).
Proof. vm_compute. reflexivity. Qed.
Example C24_ml_ran : ran prE (es_ml fxx (e_cfg prE) (ESPar 3 2 (q 5 4) (q 3 4) (q 1 8) 2)) 9 = Some (3, 9).
Proof. vm_compute. reflexivity. Qed.

Print Assumptions C24_jde.
Print Assumptions C24_msjde.
Print Assumptions C24_es.
Print Assumptions C24_es_mpl.
Print Assumptions C24_es_ml.
