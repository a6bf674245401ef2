(** C24 for bacteria, glowworms, monkeys and fish: with a finite max_evals alone the run terminates. *)
From Coq Require Import ZArith Lia Bool List.
From Verif Require Import Num Task TaskSpec Prog Wp GetBest Run RunSpec RunProofs AlgoLib Fops Indiv Reach AlgTac StepSpec StepLib Progress Endless ExLib ExLib2 B64
  AlgDE AlgPSO AlgSwarm AlgBasic2 SortLib AlgBasic2Proofs Repair PropertiesProgress PropertiesProgress2 AlgBasic3 PropertiesBasic3.
Import ListNotations.

(** bacteria; see C84_single_refuted for a population of one cell *)
Definition bfo_len (m : nat) (s : bfo_cur) : Prop := length (bc_pop s) = m /\ length (bc_fit s) = m /\ length (bc_cost s) = m /\ length (bc_health s) = m.
Lemma bfo_swim_ok : forall V F p i dir jlast left s m, bfo_len m s -> retsV V (bfo_swim F p i dir jlast left s) (bfo_len m).
Proof.
  intros V F p i dir jlast left. induction left as [|left IH]; intros s m (H1 & H2 & H3 & H4); cbn [bfo_swim]; apply rets_skip; intros x; apply rets_skip; intros y;
    (eapply rets_bind2; [apply rets_setP_len|]; intros pop L1; apply rets_skip; intros f; eapply rets_bind2; [apply rets_setP_len|]; intros fit L2; eapply rets_bind2; [apply rets_setP_len|]; intros cost L3;
     apply rets_skip; intros h; eapply rets_bind2; [apply rets_setP_len|]; intros health L4).
  - repeat split; cbn [bc_pop bc_fit bc_cost bc_health]; congruence.
  - destruct (fleb _ _); [|apply IH]; repeat split; cbn [bc_pop bc_fit bc_cost bc_health]; congruence.
Qed.
Lemma me_bfo_swim : forall F p i dir jlast left s, me (bfo_swim F p i dir jlast left s) .
Proof.
  intros F p i dir jlast left. induction left as [|left IH]; intros s; cbn [bfo_swim]; apply me_right; [nfs| |nfs|]; intros x; apply me_right; [nfs| |nfs|]; intros y; apply me_right; [nfs| |nfs|]; intros pop; apply me_left; auto with nf.
  - nfs.
  - intros f. apply nf_bind; [nfs|]. intros fit. apply nf_bind; [nfs|]. intros cost. apply nf_bind; [nfs|]. intros h. apply nf_bind; [nfs|]. intros health. destruct (fleb _ _); [simpl; auto|]. apply me_nf. auto.
Qed.
Lemma me_bfo_cell : forall F C p s i, me (bfo_cell F C p s i).
Proof.
  intros. unfold bfo_cell. apply me_right; [nfs|]. intros f. apply me_right; [nfs|]. intros x. apply me_right; [nfs|]. intros cost. apply me_right; [unfold bfo_direction; nfs|]. intros dir. apply me_bfo_swim.
Qed.
Lemma zip4_length : forall a b c d m, length a = m -> length b = m -> length c = m -> length d = m -> length (zip4 a b c d) = m.
Proof. induction a as [|x a IH]; intros [|y b] [|z c] [|t d] [|m] H1 H2 H3 H4; simpl in *; try discriminate; auto. Qed.
Lemma bfo_iter_rets : forall V F C p pop fit xb fxb st m, bfo_len m (BFOCur pop fit (bs_cost st) (bs_health st) (xb, fxb)) ->
  retsV V (bfo_iter F C p pop fit xb fxb st) (fun r => let '(pop', fit', xb', fxb', st') := r in
    exists m', (m' = m \/ m' = 2 * Nat.min (bf_n p / 2) m) /\ bfo_len m' (BFOCur pop' fit' (bs_cost st') (bs_health st') (xb', fxb'))).
Proof.
  intros V F C p pop fit xb fxb st m H. unfold bfo_iter. cbv zeta. eapply rets_bind2.
  { unfold for_range. apply rets_foldM with (J := bfo_len m); [exact H|]. intros s i (S1 & S2 & S3 & S4). unfold bfo_cell. apply rets_skip. intros f. apply rets_skip. intros x.
    eapply rets_bind2; [apply rets_setP_len|]. intros cost Lc. apply rets_skip. intros dir. apply bfo_swim_ok. repeat split; cbn [bc_pop bc_fit bc_cost bc_health]; congruence. }
  intros s1 H1. set (s2 := if _ : bool then bfo_reproduce F p s1 else s1).
  assert (H2 : exists m', (m' = m \/ m' = 2 * Nat.min (bf_n p / 2) m) /\ bfo_len m' s2).
  { unfold s2. destruct (_ <=? _); [|exists m; auto]. exists (2 * Nat.min (bf_n p / 2) m). split; auto. destruct H1 as (A1 & A2 & A3 & A4). unfold bfo_reproduce. cbv zeta.
    set (rows := firstn _ _). assert (Lr : length rows = Nat.min (bf_n p / 2) m). { unfold rows. rewrite firstn_length, sort_on_length, (zip4_length _ _ _ _ m); auto. }
    unfold bfo_len, twice. cbn [bc_pop bc_fit bc_cost bc_health]. assert (T : forall A (l : list A) k, length l = k -> length (l ++ l) = 2 * k) by (intros A0 l0 k0 H0; rewrite app_length; lia).
    split; [apply T; rewrite map_length; exact Lr|]. split; [apply T; rewrite map_length; exact Lr|]. split; [apply T; rewrite map_length; exact Lr|]. rewrite repeat_length. apply T. exact Lr. }
  destruct H2 as (m' & Hm & H2). clearbody s2. eapply rets_bind2.
  { destruct (_ <=? _); [|exact H2]. unfold for_range. apply rets_foldM with (J := bfo_len m'); [exact H2|]. intros s i (S1 & S2 & S3 & S4). unfold bfo_disperse. apply rets_skip. intros u. destruct (fltb _ _); [|repeat split; auto].
    apply rets_skip. intros r. eapply rets_bind2; [apply rets_setP_len|]. intros pop1 L1. apply rets_skip. intros f. eapply rets_bind2; [apply rets_setP_len|]. intros fit1 L2. repeat split; cbn [bc_pop bc_fit bc_cost bc_health]; congruence. }
  intros s3 H3. cbn [retsV]. exists m'. split; auto.
Qed.
Theorem C24_bfo : forall F C p k0 j0 E, 2 <= bf_n p -> terminates (bfo F C p k0 j0) E.
Proof.
  intros F C p k0 j0 E Hn. apply ends; [cbn [a_init bfo]; unfold bfo_init; nfs|]. intros st wd HR _.
  assert (HJ : exists m, 0 < m /\ bfo_len m (BFOCur (r_pop st) (r_fit st) (bs_cost (r_par st)) (bs_health (r_par st)) (r_xb st, r_fxb st))).
  { refine (reached_rets (fun _ => True) E (bfo F C p k0 j0) (fun pop fit xb fxb par => exists m, 0 < m /\ bfo_len m (BFOCur pop fit (bs_cost par) (bs_health par) (xb, fxb))) I (fun _ _ _ _ => I) _ _ st wd HR).
    - cbn [a_init bfo]. unfold bfo_init. eapply rets_bind2; [apply rets_numpy_init|]. intros [pop fit] (_ & L1 & L2) xb fxb _. exists (bf_n p). split; [lia|]. unfold bfo_len. cbn [bc_pop bc_fit bc_cost bc_health bs_cost bs_health fst snd] in *. rewrite !repeat_length. auto.
    - intros pop fit xb fxb par (m & Hm & H). cbn [a_iter bfo]. eapply rets_imp; [|apply bfo_iter_rets; exact H]. intros [[[[pop' fit'] xb'] fxb'] par'] (m' & Hm' & H'). exists m'. split; auto.
      assert (1 <= bf_n p / 2) by (apply Nat.div_le_lower_bound; lia). destruct Hm' as [->| ->]; auto. lia. }
  destruct HJ as (m & Hm & (L1 & _)). cbn [bc_pop] in L1. cbn [a_iter bfo]. unfold bfo_iter. apply me_left; [apply me_for_range; [lia|intros; apply me_bfo_cell]|]. intros s. unfold bfo_disperse. nfs.
Qed.
(** glowworms *)
Theorem C24_gso : forall F C pi p E, terminates (gso F C pi p) E.
Proof.
  intros F C pi p E. apply ends; [cbn [a_init gso]; unfold gso_init; nfs|]. intros st wd HR _. cbn [a_iter gso]. unfold gso_iter. cbv zeta. apply me_right; [unfold gso_select; nfs|]. intros js. apply me_right; [unfold gso_move; nfs|]. intros pop'.
  apply me_left; [apply me_eval_all|]. intros fit'. nfs.
Qed.
(** monkeys; see C86_endless_refuted for version 2 without points for the kings *)
Lemma nf_crown : forall F p pop, nf (mke_crown F p pop).
Proof. intros. unfold mke_crown, choice. nfs. Qed.
Lemma me_mke_step : forall F C p (v2 : bool) xb pop i, (v2 = true -> 0 < mk_c p * mk_n p) -> me (mke_step F C p v2 xb pop i).
Proof.
  intros F C p v2 xb pop i H. unfold mke_step. apply me_right; [nfs|]. intros m. apply me_left; [|intros; nfs]. destruct (mo_king m); [destruct v2|].
  - unfold mke_king2. apply me_left; [|simpl; auto]. apply me_for_range; [auto|]. intros b k. apply me_right; [unfold choice; nfs|]. intros r. do 4 (apply me_right; [nfs|]; intros ?). apply me_right; [nfs|]. intros ?. apply me_left; [apply me_eval|simpl; auto].
  - unfold mke_king1. cbv zeta. apply me_right; [nfs|]. intros rs. apply me_right; [nfs|]. intros a. apply me_left; [apply me_eval_all|]. intros f. destruct (argmin f); [nfs|discriminate].
  - unfold mke_particle. apply me_right; [nfs|]. intros r. apply me_left; [apply me_ind_evaluate|simpl; auto].
Qed.
Lemma rets_crown : forall V F p pop, retsV V (mke_crown F p pop) (fun pop' => length pop' = length pop).
Proof.
  intros V F p pop. unfold mke_crown. cbv zeta. destruct (_ <? _)%Z; [exact I|]. apply rets_skip. intros idx. apply rets_foldM with (J := fun pop' => length pop' = length pop); auto.
  intros s i Hs. apply rets_skip. intros m. eapply rets_imp; [|apply rets_setP_len]. cbn beta. congruence.
Qed.
Theorem C24_mke12 : forall F C p (v2 : bool) E, (v2 = true -> 0 < mk_c p) -> terminates (mke12 F C p v2) E.
Proof.
  intros F C p v2 E Hc. apply ends; [cbn [a_init mke12]; unfold mke_init; apply nf_bind; [nfs|]; intros [pop fit]; apply nf_bind; [apply nf_crown|simpl; auto]|]. intros st wd HR _.
  assert (HJ : 0 < mk_n p /\ length (r_pop st : list monkey) = mk_n p).
  { refine (reached_rets (fun _ => True) E (mke12 F C p v2) (fun pop _ _ _ _ => 0 < mk_n p /\ length (pop : list monkey) = mk_n p) I (fun _ _ _ _ => I) _ _ st wd HR).
    - cbn [a_init mke12]. unfold mke_init. eapply rets_bind2; [apply rets_individual_init|]. intros [pop fit] [L1 L2]. cbn [fst snd] in *. eapply rets_bind2; [apply rets_crown|]. intros pop' L3 xb fxb G. rewrite map_length in L3.
      split; [|exact (eq_trans L3 L1)]. apply get_best_cons in G. destruct pop; [elim G; exact L2|simpl in L1; lia].
    - intros pop fit xb fxb par [H1 H2]. cbn [a_iter mke12]. unfold mke_iter. eapply rets_bind2.
      { unfold for_range. apply rets_foldM with (J := fun q : list monkey => length q = mk_n p); [exact H2|]. intros s i Hs. unfold mke_step. apply rets_skip. intros m. apply rets_skip. intros m'. eapply rets_imp; [|apply rets_setP_len]. intros q Hq. exact (eq_trans Hq Hs). }
      intros pop1 L1. eapply rets_bind2; [apply rets_crown|]. intros pop2 L2. apply rets_skip. intros [x f]. cbn [retsV]. split; auto. exact (eq_trans L2 L1). }
  destruct HJ as [Hn HL]. cbn [a_iter mke12]. unfold mke_iter. apply me_left.
  - apply me_for_range; [lia|]. intros s i. apply me_mke_step. intros Hv. apply Nat.mul_pos_pos; auto.
  - intros pop1. apply nf_bind; [apply nf_crown|]. intros pop2. nfs.
Qed.
Theorem C24_mke3 : forall F C p E, terminates (mke3 F C p) E.
Proof.
  intros F C p E. apply ends; [cbn [a_init mke3]; unfold plain_init; nfs|]. intros st wd HR _. cbn [a_iter mke3]. unfold mke3_iter. cbv zeta. do 4 (apply me_right; [nfs|]; intros ?). apply me_right; [nfs|]. intros gb.
  apply me_left; [apply me_eval_all|]. intros gf. unfold shuffle, permutation, choice. apply nf_bind; [nfs|]. intros [x f]. apply nf_bind; [nfs|]. intros ms. apply nf_bind; [nfs|]. intros pop1. apply nf_bind; [nfs|]. intros fit1. apply nf_bind; [nfs|]. intros [x2 f2].
  destruct (argmax fit1); [|discriminate]. destruct (argmin gf); [|discriminate]. nfs.
Qed.
(** fish *)
Theorem C24_fss : forall F C p E, terminates (fss F C p) E.
Proof.
  intros F C p E. apply ends; [cbn [a_init fss]; unfold fss_init; nfs|]. intros st wd HR _. cbn [a_iter fss]. unfold fss_iter. cbv zeta. destruct (r_pop st : list fish) as [|a pop].
  - cbn [length]. unfold for_range at 1. cbn [seq foldM bind fss_feed map py_max me]. discriminate.
  - apply me_left.
    + apply me_for_range; [simpl; lia|]. intros s i. unfold fss_individual. cbv zeta. apply me_right; [nfs|]. intros b. apply me_right; [nfs|]. intros u. apply me_right; [nfs|]. intros y. apply me_left; [apply me_eval|]. intros f. destruct (fltb _ _); nfs.
    + intros [s1 b1]. apply nf_bind; [unfold fss_feed; destruct (py_max _); [simpl; auto|discriminate]|]. intros s2. apply nf_bind; [unfold fss_instinctive; nfs|]. intros s3. apply nf_bind; [|intros [s4 b4]; nfs].
      apply nf_for_range. intros s i. unfold fss_volitive. cbv zeta. nfs.
Qed.

(** C86, refuted part: version 2 with c = 0 and every monkey a king evaluates nothing *)
Theorem C86_endless_refuted : exists E p k, let C := e_cfg E in
  cfg_ok C /\ no_nan (e_prob E) /\ repair_ok E /\ 0 < mk_n p /\ fleb f0 (mk_rate p) = true /\ fleb (mk_rate p) (flit b64ops 1 1) = true /\ c_max_evals C = LFin k /\ never_ends E (mke12 b64ops C p true).
Proof.
  pose (p := MKEPar 1 (q 3 4) (q 1 1) 0 (q 1 2)). exists ExBasic3.EE, p, 13%Z. cbv zeta. split; [exact ExBasic3.CE_ok|]. split; [apply lin_no_nan|]. split; [exact (clip_ok _ lin fl8 in7 ExBasic3.CE_ok)|].
  split; [vm_compute; lia|]. split; [vm_compute; reflexivity|]. split; [vm_compute; reflexivity|]. split; [reflexivity|]. pose (A := mke12 b64ops (e_cfg ExBasic3.EE) p true).
  assert (Q : match state_after ExBasic3.EE A 0 with Some (s, w) => match (r_pop s : list monkey) with [m] => mo_king m = true /\ mo_i m = (r_xb s, r_fxb s) /\ mo_pb m = (r_xb s, r_fxb s) /\ fleb (r_fxb s) (r_fxb s) = true | _ => False end /\ stopping_condition ExBasic3.CE (w_ts w) = false | None => False end) by (vm_compute; repeat split).
  destruct (state_after ExBasic3.EE A 0) as [[s w]|] eqn:Es; [|contradiction]. destruct Q as (Q1 & Q2).
  apply (quiet_endless ExBasic3.EE A (fun s => exists x f, r_pop s = [Monkey (x, f) (x, f) true] /\ f <> NaN /\ fleb f (r_fxb s) = true) s w); auto.
  - clear. intros s (x & f & H & Nf & Hf). cbn [a_iter A mke12]. rewrite H. unfold mke_iter. cbn [length]. unfold for_range at 1. cbn [seq foldM]. unfold mke_step. cbn [nthP nth_error bind mo_king]. unfold mke_king2. cbn [p mk_c mk_n Nat.mul]. unfold for_range at 1. cbn [seq foldM bind mo_i mo_pb].
    unfold mke_personal. cbn [mo_i mo_pb snd fst mo_king]. rewrite fltb_irrefl. cbn [setP length Nat.ltb Nat.leb upd bind]. unfold mke_crown. cbn [length mk_rate mk_n p].
    replace (fint b64ops (fmul b64ops (q 1 1) (fnat b64ops 1))) with 1%Z by (vm_compute; reflexivity). cbn [Z.ltb Z.compare]. change (Z.to_nat 1) with 1. unfold choice. cbn [seq choice_from length integers Nat.sub bind quiet].
    intros r Hr. replace r with 0 by lia. cbn [nthP nth_error bind].
    cbn [foldM nthP nth_error bind setP length Nat.ltb Nat.leb upd mo_i mo_pb mo_xs mo_fits map fst snd]. unfold get_best. cbn [argmin argmin_from]. destruct (is_nan f); cbn [nth_error]; rewrite Hf; cbn [lift bind quiet r_pop r_fxb]; exists x, f; split; auto; split; auto; apply fleb_refl; auto.
  - destruct (r_pop s : list monkey) as [|m [|? ?]]; try contradiction. destruct Q1 as (K1 & K2 & K3 & K4). exists (r_xb s), (r_fxb s). destruct m as [a b k]. cbn [mo_king mo_i mo_pb] in *. subst. split; auto. split; auto. intros Hn. rewrite Hn in K4. discriminate.
Qed.

Definition b3C := e_cfg prE.
Example C24_bfo_ran : ran prE (bfo fxx b3C (ExBasic3.bp 4) 0 0) 9 = Some (2, 9).
Proof. vm_compute. reflexivity. Qed.
Example C24_gso_ran : ran prE (gso fxx b3C (q 3 1) (ExBasic3.gp GSO0)) 9 = Some (2, 9).
Proof. vm_compute. reflexivity. Qed.
Example C24_mke1_ran : ran prE (mke12 fxx b3C ExBasic3.mp false) 9 = Some (1, 9).
Proof. vm_compute. reflexivity. Qed.
Example C24_mke2_ran : ran prE (mke12 fxx b3C ExBasic3.mp true) 9 = Some (1, 9).
Proof. vm_compute. reflexivity. Qed.
Example C24_mke3_ran : ran prE (mke3 fxx b3C ExBasic3.mp) 9 = Some (1, 9).
Proof. vm_compute. reflexivity. Qed.
Example C24_fss_ran : ran prE (fss fxx b3C ExBasic3.fp) 9 = Some (1, 9).
Proof. vm_compute. reflexivity. Qed.

Print Assumptions C24_bfo.
Print Assumptions C24_gso.
Print Assumptions C24_mke12.
Print Assumptions C24_mke3.
Print Assumptions C24_fss.
Print Assumptions C86_endless_refuted.
