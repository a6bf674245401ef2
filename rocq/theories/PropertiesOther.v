(** Final theorems about RandomSearch (C24, C53), SimulatedAnnealing (C54), sampling by lower + range * random() (C70),
    HillClimbAlgorithm (C71) and NelderMeadMethod (C72). *)
From Coq Require Import ZArith Lia Bool List Sorting.Sorted Reals Lra.
From Verif Require Import Num Task TaskSpec TaskProofs TaskProofs2 Prog Wp GetBest Run RunSpec RunProofs RunProofs2
  AlgoLib Fops AlgTac StepSpec StepLib Indiv IndivLib AlgPSO AlgSwarm PopLib Reach SortLib AlgPSOProofs AlgBasic AlgBasicProofs AlgOther AlgOtherProofs B64 B64Spec B64Div ExLib ExLib2.
Import ListNotations.
Open Scope nat_scope.

(** ** C70: with binary64 arithmetic lower + range * random() stays inside the bounds *)
(** the bounds are binary64 numbers and upper - lower does not overflow *)
Definition bounds64 (C : cfg) : Prop :=
  Forall2 (fun lo hi => is64 lo /\ is64 hi /\ exists d, fsub b64ops hi lo = Fin d) (c_lower C) (c_upper C).
Theorem C70_drawn_inside : forall C x, cfg_ok C -> bounds64 C -> drawn b64ops C x ->
  length x = c_dim C /\ forall j, j < c_dim C ->
    fleb (nth j (c_lower C) NaN) (nth j x NaN) = true /\ fleb (nth j x NaN) (nth j (c_upper C) NaN) = true.
Proof.
  intros C x HC HB Hx. split; [eapply drawn_len; eauto|]. destruct HC as (H1 & H2 & H3). destruct Hx as (u & Lu & Uu & Hx). unfold t_range in Hx.
  rewrite <- Lu in *. clear Lu. unfold bounds64 in HB.
  intros j Hj. remember (c_lower C) as lo eqn:Elo. remember (c_upper C) as hi eqn:Ehi. clear Elo Ehi.
  revert x hi u j H1 H2 H3 HB Uu Hx Hj. induction lo as [|l lo IH]; intros x hi u j H1 H2 H3 HB Uu Hx Hj.
  { simpl in H1. rewrite <- H1 in Hj. lia. }
  destruct hi as [|h hi]; [simpl in *; lia|]. destruct u as [|v u]; [simpl in *; lia|]. inversion H3; subst. inversion HB; subst. inversion Uu; subst.
  match goal with H : is64 _ /\ is64 _ /\ _ |- _ => destruct H as (A1 & A2 & A3) end. match goal with H : in_unit _ |- _ => destruct H as (B1 & B2) end.
  destruct (affine64 l h v) as (E1 & _ & E2 & E3); auto. 
  destruct j as [|j].
  - destruct Hx as [->| ->]; cbn [vadd vmul vsub map2 nth]; [split; auto|]. rewrite <- E1. split; auto.
  - cbn [nth]. assert (Hx' : tl x = vadd b64ops lo (vmul b64ops (vsub b64ops hi lo) u) \/ tl x = vadd b64ops lo (vmul b64ops u (vsub b64ops hi lo))).
    { destruct Hx as [->| ->]; [left|right]; reflexivity. }
    destruct x as [|a x]; [exfalso; destruct Hx as [Hx|Hx]; discriminate|]. cbn [tl nth] in *. apply (IH x hi u j); simpl in *; auto; lia.
Qed.

Corollary drawn_inside : forall C x, cfg_ok C -> bounds64 C -> drawn b64ops C x -> inside C x.
Proof.
  intros C x HC HB Hx. destruct (C70_drawn_inside C x HC HB Hx) as (L & H). destruct HC as (H1 & H2 & _). unfold inside. rewrite <- L in *. clear Hx L HB.
  remember (c_lower C) as lo eqn:E1. remember (c_upper C) as hi eqn:E2. clear E1 E2. revert lo hi H1 H2 H. induction x as [|a x IH]; intros [|l lo] [|h hi] H1 H2 H; simpl in *; try discriminate; constructor.
  - right. apply (H 0). lia.
  - apply IH; auto. intros j Hj. apply (H (S j)). lia.
Qed.
(** runs whose points are drawn or repaired stay inside the bounds *)
Lemma best_run_p_imp : forall (P Q : vec -> Prop) X E A, (forall x, P x -> Q x) -> best_run_p P X E A -> best_run_p Q X E A.
Proof. intros P Q X E A H B cb n pos r w' ev Hr. destruct (B _ _ _ _ _ _ Hr) as (B1 & B2 & B3). split; auto. Qed.
Lemma doi_inside : forall C x, cfg_ok C -> bounds64 C -> drawn_or_inside b64ops C x -> inside C x.
Proof. intros C x HC HB [H|H]; auto. apply drawn_inside; auto. Qed.

(** ** C53: RandomSearch *)
(** what is returned is the best value; every evaluated point, and the returned one, is lower + range * random(); no error of its own *)
Theorem C53_rs_value : forall F E fuel, let C := e_cfg E in
  cfg_ok C -> no_nan (e_prob E) -> repair_ok E -> 0 < rs_total C ->
  value_run_p (drawn F C) (fun _ => False) E (rs F C fuel) /\ sizes_ok (fun k => k = 1) E (rs F C fuel).
Proof.
  intros F E fuel C HC Hn Hr Hp. set (G := rs_ok C).
  assert (HG : forall ts, stopping_condition (e_cfg E) ts = false -> G (TView (t_evals ts) (t_iters ts) false) = true) by (intros; apply rs_guard; auto).
  set (A := Algo (list vec) (list vec) (fun pop => pop) (rs_init F C fuel) (view_iter (only_if G (rs_body C)))).
  assert (H1 : value_run_p (drawn F C) (fun _ => False) E A).
  { apply (value_run_pc (drawn F C) (fun _ => False) E A (RsInv F C)); auto; [apply rs_init_c; auto|apply rs_iter_c|].
    intros pop fit xb fxb cands l (_ & _ & _ & I1 & I2). auto. }
  assert (H2 : sizes_ok (fun k => k = 1) E A).
  { apply (sizes_c (drawn F C) (fun _ => False) _ E A (RsInv F C)); auto; [apply rs_init_c; auto|apply rs_iter_c|].
    intros pop fit xb fxb cands l (_ & _ & I1 & _). auto. }
  assert (R : forall cb n w, run_body E (rs F C fuel) cb n w = run_body E A cb n w).
  { intros cb n w. exact (run_guard E (list vec) (list vec) (fun pop => pop) (rs_init F C fuel) (rs_body C) G HG cb n w). }
  split; intros cb n pos r w' ev Hrun; rewrite R in Hrun; [exact (H1 _ _ _ _ _ _ Hrun)|exact (H2 _ _ _ _ _ _ Hrun)].
Qed.
(** the candidates: max_iters (or else max_evals) of them, pairwise different, each lower + range * random() *)
Theorem C53_rs_candidates : forall F E fuel w x fit cands w', let C := e_cfg E in
  exec E (rs_init F C fuel) w = (Ret (x, fit, cands), w') ->
  length cands = rs_total C /\ Forall (drawn F C) cands /\ distinct cands /\
  exists c0 f, nth_error cands 0 = Some c0 /\ fit = [f] /\ x = [last cands []] /\
    evaluated c0 f (log_of (c_opt C) (w_h w)) (log_of (c_opt C) (w_h w')).
Proof.
  intros F E fuel w x fit cands w' C Ex.
  pose (S0 := fun (s : list vec * list num * list vec) l' => let '(x, fit, cands) := s in length cands = rs_total C /\ Forall (drawn F C) cands /\ distinct cands /\
    exists c0 f, nth_error cands 0 = Some c0 /\ fit = [f] /\ x = [last cands []] /\ evaluated c0 f (log_of (c_opt C) (w_h w)) l').
  apply (tr_sound _ E _ S0 _ _ _) in Ex; [exact Ex|]. unfold rs_init. apply wp_bind. unfold rs_candidates. eapply wp_conseq0.
  - apply (wp_for_range _ _ _ _ (fun i cands l' => l' = log_of (c_opt C) (w_h w) /\ length cands = i /\ Forall (drawn F C) cands /\ distinct cands)).
    + split; auto. split; auto. split; auto. intros [|i] j a b _ H; discriminate.
    + intros i cs l' Hi (-> & H1 & H2 & H3). apply wp_bind. generalize fuel. induction fuel0 as [|k IH]; cbn [rs_draw]; [exact I|].
      apply wp_bind. apply w_sample. intros y Hy. destruct (existsb _ cs) eqn:Q1; [apply IH; auto|]. apply w_done. apply w_done. split; auto.
      rewrite app_length, H1. split; auto. split; [apply Forall_app; auto|]. apply distinct_snoc; auto. intros a Ha.
      destruct (array_equal a y) eqn:Q2; auto. rewrite (proj2 (existsb_exists (fun a => array_equal a y) cs)) in Q1; [discriminate|]. eauto.
  - intros cs l' (-> & H1 & H2 & H3). apply wp_bind. apply w_nthP_tr. intros c0 H0. apply wp_bind. apply w_eval_tr. intros f l'' He. apply w_done.
    split; auto. split; auto. split; auto. exists c0, f. auto.
Qed.
(** without candidates (no limits, or max_iters = 0): IndexError *)
Theorem C53_rs_no_candidates : forall F E fuel cb n pos, rs_total (e_cfg E) = 0 -> (forall ev, cb ev = None) ->
  exists w' ev, run_body E (rs F (e_cfg E) fuel) cb n (World (task_init (e_cfg E)) [] pos) = (Raise EIndex, w', ev).
Proof.
  intros F E fuel cb n pos H Hcb. unfold run_body. rewrite Hcb. cbn [a_init rs]. unfold rs_init, rs_candidates. rewrite H. unfold for_range. cbn [seq foldM bind nthP nth_error exec].
  eauto.
Qed.
(** an iteration with an iteration limit, started when the task has not stopped *)
Lemma rs_iter_exec : forall E pop0 fit0 xb0 fxb0 cands w pop fit xb fxb par w1 k, let C := e_cfg E in
  c_max_iters C = LFin k -> stopping_condition C (w_ts w) = false ->
  exec E (rs_iter C pop0 fit0 xb0 fxb0 cands) w = (Ret (pop, fit, xb, fxb, par), w1) ->
  exists y u, nth_error cands (t_iters (w_ts w)) = Some y /\ e_prob E (w_h w) y = Ret u /\ w_h w1 = (y, Ret u) :: w_h w /\
    (xb, fxb) = (if fleb (sgn (c_opt C) u) fxb0 then (y, sgn (c_opt C) u) else (xb0, fxb0)).
Proof.
  intros E pop0 fit0 xb0 fxb0 cands w pop fit xb fxb par w1 k C Hk Hs Ex. unfold rs_iter in Ex. rewrite exec_bind in Ex. cbn [view exec] in Ex.
  unfold rs_body in Ex. rewrite exec_bind in Ex. unfold nthP at 1 in Ex. unfold rs_index at 1 in Ex. rewrite Hk in Ex. cbn [v_iters] in Ex.
  destruct (nth_error cands (t_iters (w_ts w))) as [y|] eqn:Qy; cbn [exec] in Ex; [|discriminate]. rewrite exec_bind in Ex. cbn [eval exec] in Ex. unfold task_eval in Ex. fold C in Ex. rewrite Hs in Ex.
  destruct (e_prob E (w_h w) y) as [u|e] eqn:Qe; [|discriminate]. cbn [exec] in Ex. rewrite exec_bind in Ex. exists y, u. split; auto. split; auto.
  unfold get_best1 in Ex. destruct (fleb (sgn (c_opt C) u) fxb0) eqn:Ql; cbn [lift exec] in Ex; injection Ex as <- <- <- <- <- <-; cbn [w_h]; auto.
Qed.
(** deterministic problem, iteration limit, at least one iteration done: the pair was evaluated *)
Theorem C53_rs_pair_partial : forall F E fuel cb n pos k x v w' ev, let C := e_cfg E in
  (forall h h' y, e_prob E h y = e_prob E h' y) -> no_nan (e_prob E) -> c_max_iters C = LFin k ->
  run_body E (rs F C fuel) cb n (World (task_init C) [] pos) = (Ret (x, v), w', ev) -> 0 < t_iters (w_ts w') ->
  v = worst (c_opt C) \/ In (x, Ret v) (w_h w').
Proof.
  intros F E fuel cb n pos k x v w' ev C Hdet Hnan Hk Hrun Hpos.
  pose (SN := fun (xb : vec) (fxb : num) (h : history) => fxb = PInf \/ In (xb, Ret (sgn (c_opt C) fxb)) h).
  pose (J := fun (s : rstate (rs F C fuel)) (w : world) =>
    (t_iters (w_ts w) = 0 /\ exists c0, nth_error (r_par s) 0 = Some c0 /\ r_fxb s <> NaN /\ (r_fxb s = PInf \/ e_prob E [] c0 = Ret (sgn (c_opt C) (r_fxb s)))) \/
    SN (r_xb s) (r_fxb s) (w_h w)).
  assert (SS : forall a, sgn (c_opt C) (sgn (c_opt C) a) = a) by (intros a; destruct (c_opt C); auto; destruct a; simpl; auto; f_equal; lia).
  destruct (run_strong E (rs F C fuel) cb J) with (n := n) (pos := pos) (x := x) (v := v) (w' := w') (ev := ev) as (s & HJ & -> & ->); auto.
  - intros pos0 pop fit par w1 xb fxb Ex GB. left. cbn [a_init rs a_pop a_par] in *. unfold J. cbn [r_par r_fxb]. split; [rewrite (exec_iters _ _ _ _ _ _ Ex); reflexivity|].
    unfold rs_init in Ex. rewrite exec_bind in Ex. destruct (exec E (rs_candidates F C fuel) _) as [[cands|e] w2]; [|discriminate].
    rewrite exec_bind in Ex. unfold nthP in Ex. destruct (nth_error cands 0) as [c0|] eqn:Q0; cbn [exec] in Ex; [|discriminate].
    rewrite exec_bind in Ex. cbn [eval exec] in Ex. unfold task_eval in Ex.
    assert (HB : exists f, fit = [f] /\ par = cands /\ f <> NaN /\ (f = PInf \/ e_prob E [] c0 = Ret (sgn (c_opt C) f))).
    { destruct (stopping_condition _ _).
      - injection Ex as <- <- <- <-. exists PInf. split; auto. split; auto. split; auto. discriminate.
      - rewrite (Hdet (w_h w2) []) in Ex. destruct (e_prob E [] c0) as [u|e] eqn:Qe; [|discriminate]. cbn [exec] in Ex. injection Ex as <- <- <- <-.
        exists (sgn (c_opt C) u). split; auto. split; auto. split; [|right; rewrite SS; auto]. intros Hf. apply (proj1 (sgn_nan _ _)) in Hf. eapply Hnan; eauto. }
    destruct HB as (f & -> & -> & Nf & Hf). exists c0. split; auto.
    assert (fxb = f). { cbn [a_coords] in GB. unfold get_best in GB. cbn [argmin argmin_from nth_error] in GB. replace (if is_nan f then 0 else 0) with 0 in GB by (destruct (is_nan f); auto).
      cbn [nth_error] in GB. rewrite (fleb_PInf f) in GB by auto. destruct (a_coords (rs F C fuel) pop); [discriminate|injection GB; auto]. }
    subst fxb. auto.
  - intros [pop0 fit0 xb0 fxb0 cands] w pop fit xb fxb par w1 HJ Hs Ex. right. unfold J in HJ. cbn [r_xb r_fxb r_par w_h] in *.
    destruct (rs_iter_exec E pop0 fit0 xb0 fxb0 cands w pop fit xb fxb par w1 k Hk Hs Ex) as (y & u & Qy & Qe & Hh & Hx).
    rewrite (Hdet (w_h w) []) in Qe. fold C in Hx. unfold SN. rewrite Hh. destruct (fleb (sgn (c_opt C) u) fxb0) eqn:Ql; injection Hx as -> ->.
    + right. rewrite SS. left. auto.
    + destruct HJ as [(T0 & c0 & Q0 & Nf & HP)|HJ]; [|unfold SN in *; destruct HJ as [HJ|HJ]; [left; auto|right; right; auto]].
      rewrite T0 in Qy. assert (Q1 := eq_trans (eq_sym Qy) Q0). injection Q1 as <-. exfalso. destruct HP as [HP|HP].
      * rewrite HP in Ql. rewrite fleb_PInf in Ql; [discriminate|]. intros Hf. apply (proj1 (sgn_nan _ _)) in Hf. eapply Hnan; eauto.
      * rewrite HP in Qe. injection Qe as <-. rewrite SS, fleb_refl in Ql by auto. discriminate.
  - destruct HJ as [(T0 & _)|HJ]; [lia|]. destruct HJ as [->|HJ]; auto.
Qed.

(** with an evaluation limit only, the pair may never have been evaluated *)
Definition rsE : env := exenv (box 1 0 4 (LFin 2)) lin.
Theorem C53_rs_pair_refuted : exists E fuel n, cfg_ok (e_cfg E) /\ no_nan (e_prob E) /\ repair_ok E /\ bounds64 (e_cfg E) /\
  (forall h h' y, e_prob E h y = e_prob E h' y) /\ 0 < rs_total (e_cfg E) /\
  exists x v w ev, run_body E (rs b64ops (e_cfg E) fuel) (fun _ => None) n (World (task_init (e_cfg E)) [] 0) = (Ret (x, v), w, ev) /\
    v <> worst (c_opt (e_cfg E)) /\ ~ In (x, Ret v) (w_h w).
Proof.
  exists rsE, 5, 9. split; [apply box_ok; lia|]. split; [exact lin_no_nan|]. split; [apply clip_ok; apply box_ok; lia|]. split.
  { constructor; [|constructor]. split; [vm_compute; reflexivity|]. split; [vm_compute; reflexivity|]. exists (4 * 2 ^ 1074)%Z. vm_compute. reflexivity. }
  split; [reflexivity|]. split; [unfold rs_total; simpl; lia|].
  apply (run_bad_pair (fun _ => False) rsE (rs b64ops (e_cfg rsE) 5) 9). vm_compute. reflexivity.
Qed.
Example C53_rs_trace_evals : trace rsE (rs b64ops (e_cfg rsE) 5) 9 =
    (Ret ([163840], 32768), [[32768]; [163840]])%Z.
Proof. vm_compute. reflexivity. Qed.
(** with an iteration limit: the first candidate is evaluated twice and the pair is right *)
Definition rsE2 : env := exenv (Cfg Minimization 2 [N' 0; N' (-1)] [N' 4; N' 3] LInf (LFin 3) NInf) sq.
Example C53_rs_trace_iters : trace rsE2 (rs b64ops (e_cfg rsE2) 5) 9 =
    (Ret ([98304; 32768], 163840), [[32768; 98304]; [32768; 98304]; [98304; 32768]; [163840; (-32768)]])%Z.
Proof. vm_compute. reflexivity. Qed.

(** ** C24: RandomSearch on a box without interior never returns, whatever the limit on evaluations (at least 2) *)
(** nothing is evaluated and only X is raised *)
Definition K_only (X : exn -> Prop) : wctx := WCtx (fun _ => False) (fun _ _ => True) (fun _ => True) X.
Lemma K_only_ok : forall X E, env_ok (K_only X) E.
Proof. intros X E. split; simpl; auto. Qed.
Lemma degenerate : forall C x y, cfg_ok C -> bounds64 C -> c_lower C = c_upper C -> drawn b64ops C x -> drawn b64ops C y -> array_equal x y = true.
Proof.
  intros C x y HC HB Hd Hx Hy. destruct (C70_drawn_inside C x HC HB Hx) as (L1 & H1). destruct (C70_drawn_inside C y HC HB Hy) as (L2 & H2).
  rewrite <- Hd in H1, H2. rewrite <- L1 in H1, H2, L2. clear HC HB Hd Hx Hy L1. revert y H1 H2 L2. generalize (c_lower C) as lo.
  assert (G : forall lo a b, fleb lo a = true /\ fleb a lo = true -> fleb lo b = true /\ fleb b lo = true -> feqb a b = true).
  { intros lo a b [A1 A2] [B1 B2]. destruct lo, a, b; simpl in *; try discriminate; auto. apply Z.leb_le in A1, A2, B1, B2. apply Z.eqb_eq. lia. }
  induction x as [|a x IH]; intros lo [|b y] H1 H2 L2; simpl in *; try discriminate; auto. rewrite (G (nth 0 lo NaN) a b); [|apply (H1 0); lia|apply (H2 0); lia].
  simpl. apply (IH (tl lo)); [intros j Hj; specialize (H1 (S j) ltac:(lia))|intros j Hj; specialize (H2 (S j) ltac:(lia))|lia]; destruct lo; simpl in *; auto; destruct j; auto.
Qed.
Theorem C24_rs_refuted : forall E, let C := e_cfg E in cfg_ok C -> bounds64 C -> c_lower C = c_upper C ->
  c_max_iters C = LInf -> (exists k, c_max_evals C = LFin k /\ (2 <= k)%Z) ->
  forall fuel n pos, exists w', run_body E (rs b64ops C fuel) (fun _ => None) n (World (task_init C) [] pos) = (Raise EFuel, w', [BeforeRun]).
Proof.
  intros E C HC HB Hd Hi (k & Hk & Hk2) fuel n pos. unfold run_body. cbn [a_init rs]. set (w0 := World _ _ _).
  assert (W : wp (K_only (fun e => e = EFuel)) (rs_candidates b64ops C fuel) (fun _ _ => False) (log_of (c_opt (e_cfg E)) (w_h w0))).
  { assert (G : forall x f (Q : vec -> elog -> Prop) l, drawn b64ops C x -> wp (K_only (fun e => e = EFuel)) (rs_draw b64ops C f [x]) Q l).
    { intros x f Q l Dx. induction f as [|f IH]; [reflexivity|]. cbn [rs_draw]. apply wp_bind. apply w_sample. intros y Dy.
      cbn [existsb]. rewrite (degenerate C x y) by auto. cbn [orb]. exact IH. }
    unfold rs_candidates. assert (Ht : exists m, rs_total C = S (S m)) by (unfold rs_total; rewrite Hi, Hk; exists (Z.to_nat (k - 2)); lia). destruct Ht as (m & ->).
    unfold for_range. cbn [seq foldM]. apply wp_bind. destruct fuel as [|fu]; [reflexivity|]. apply wp_bind.
    change (wp (K_only (fun e => e = EFuel)) (let* x := sample b64ops C in if existsb (fun a => array_equal a x) [] then rs_draw b64ops C fu [] else Done x)
      (fun x l => wp (K_only (fun e => e = EFuel)) (Done ([] ++ [x])) (fun a l => wp (K_only (fun e => e = EFuel)) (let* c := (let* y := rs_draw b64ops C (S fu) a in Done (a ++ [y])) in
         foldM (fun cs (_ : nat) => let* y := rs_draw b64ops C (S fu) cs in Done (cs ++ [y])) (seq 2 m) c) (fun _ _ => False) l) l) (log_of (c_opt (e_cfg E)) (w_h w0))).
    apply wp_bind. apply w_sample. intros x Dx. cbn [existsb]. apply w_done. apply w_done. apply wp_bind. apply wp_bind. cbn [app]. apply G; auto. }
  unfold rs_init. rewrite exec_bind. destruct (exec E (rs_candidates b64ops C fuel) w0) as [r w1] eqn:Ex.
  destruct (wp_sound _ _ E _ _ w0 _ _ (K_only_ok _ E) W Ex) as (_ & H). destruct r as [a|e]; [destruct H|].
  destruct H as [H|(x & h & _ & [])]. cbn [K_exn K_only WCtx] in H. subst e. eauto.
Qed.

Example C24_hyps : let C := box 2 3 3 (LFin 2) in cfg_ok C /\ bounds64 C /\ c_lower C = c_upper C /\ c_max_iters C = LInf.
Proof.
  split; [apply box_ok; lia|]. split; [|split; reflexivity].
  assert (H : is64 (N' 3) /\ is64 (N' 3) /\ exists d, fsub b64ops (N' 3) (N' 3) = Fin d).
  { split; [vm_compute; reflexivity|]. split; [vm_compute; reflexivity|]. exists 0%Z. vm_compute. reflexivity. }
  constructor; [exact H|]. constructor; [exact H|constructor].
Qed.

(** ** C54: SimulatedAnnealing *)
(** the pair returned was evaluated; every evaluated point is inside the bounds or the drawn starting point *)
Theorem C54_sa_sound : forall F E p, let C := e_cfg E in cfg_ok C -> no_nan (e_prob E) -> repair_ok E ->
  sound_run_p (drawn_or_inside F C) (fun _ => False) E (sa F C p) /\ sizes_ok (fun k => k = 1) E (sa F C p).
Proof.
  intros F E p C HC Hn Hr. split.
  - apply (sound_run_c _ (fun _ => False) E (sa F C p) (SaInv2 F C)); auto; [apply sa_init_c2|apply sa_iter_c2; auto|].
    intros pop fit xb fxb par l (x & fx & _ & _ & _ & _ & H1 & H2). split; auto. eapply doi_len; eauto.
  - apply (sizes_c (drawn_or_inside F C) (fun _ => False) _ E (sa F C p) (SaInv2 F C)); auto; [apply sa_init_c2|apply sa_iter_c2; auto|].
    intros pop fit xb fxb par l (x & fx & _ & -> & _). reflexivity.
Qed.
(** where differences have the right sign the pair is the best one *)
Theorem C54_sa_best : forall F E p (V : num -> Prop), let C := e_cfg E in cfg_ok C -> no_nan (e_prob E) -> repair_ok E ->
  V PInf -> (forall h x v, e_prob E h x = Ret v -> V (sgn (c_opt C) v)) ->
  (forall a b, V a -> V b -> a <> NaN -> b <> NaN -> fltb (fsub F a b) f0 = fltb a b) ->
  best_run_p (drawn_or_inside F C) (fun _ => False) E (sa F C p).
Proof.
  intros F E p V C HC Hn Hr HV1 HV2 HV3.
  apply (best_run_vc (drawn_or_inside F C) V (fun _ => False) E (sa F C p) (SaInv F C V)); auto; [apply sa_init_c; auto|apply sa_iter_c; auto|].
  intros pop fit xb fxb par l (x & fx & _ & _ & _ & _ & _ & H1 & H2). split; auto. eapply doi_len; eauto.
Qed.
(** in binary64 they do, so SimulatedAnnealing returns the best pair and evaluates only points inside the bounds *)
Theorem C54_sa_b64 : forall E p, let C := e_cfg E in cfg_ok C -> no_nan (e_prob E) -> repair_ok E -> bounds64 C ->
  (forall h x v, e_prob E h x = Ret v -> is64 v) -> best_run E (sa b64ops C p).
Proof.
  intros E p C HC Hn Hr HB Hv. apply (best_run_p_imp (drawn_or_inside b64ops C)); [intros x; apply doi_inside; auto|].
  apply (C54_sa_best b64ops E p is64); auto.
  - reflexivity.
  - intros h x v Hx. assert (H := Hv _ _ _ Hx). unfold C. destruct (c_opt (e_cfg E)); auto. cbn [sgn]. apply is64_neg; auto.
  - intros a b. apply sub64_sign.
Qed.
(** one iteration: the candidate is x - delta/2 + random()*delta repaired; it replaces x when it is better or when the draw is below
    exp(difference / temperature) *)
Theorem C54_sa_step : forall F E p x fx xb fxb t x' fit' xb' fxb' t' w w', let C := e_cfg E in
  exec E (sa_iter F C p [x] [fx] xb fxb t) w = (Ret (x', fit', xb', fxb', t'), w') ->
  exists u c fc r, Forall in_unit u /\ length u = c_dim C /\ in_unit r /\
    repaired E (vadd F (map (fun a => fsub F a (fdiv F (sa_delta p) (flit F 2 1))) x) (map (fun a => fmul F a (sa_delta p)) u)) c /\
    evaluated c fc (log_of (c_opt C) (w_h w)) (log_of (c_opt C) (w_h w')) /\
    (let d := fsub F fc fx in
     if (fltb d f0 || fltb r (fexp F (fdiv F d t)))%bool then x' = [c] /\ fit' = [fc] /\ (xb', fxb') = (if fleb fc fxb then (c, fc) else (xb, fxb))
     else x' = [x] /\ fit' = [fx] /\ (xb', fxb') = (if fleb fx fxb then (x, fx) else (xb, fxb))) /\
    t' = match sa_cool p with CoolDelta => fsub F t (sa_dt p) | CoolLinear => fsub F t (fdiv F (sa_t0 p) (flim F (c_max_evals C))) end.
Proof.
  intros F E p x fx xb fxb t x' fit' xb' fxb' t' w w' C Ex.
  pose (S0 := fun (s : list vec * list num * vec * num * num) l' => let '(x', fit', xb', fxb', t') := s in
    exists u c fc r, Forall in_unit u /\ length u = c_dim C /\ in_unit r /\
    repaired E (vadd F (map (fun a => fsub F a (fdiv F (sa_delta p) (flit F 2 1))) x) (map (fun a => fmul F a (sa_delta p)) u)) c /\
    evaluated c fc (log_of (c_opt C) (w_h w)) l' /\
    (let d := fsub F fc fx in
     if (fltb d f0 || fltb r (fexp F (fdiv F d t)))%bool then x' = [c] /\ fit' = [fc] /\ (xb', fxb') = (if fleb fc fxb then (c, fc) else (xb, fxb))
     else x' = [x] /\ fit' = [fx] /\ (xb', fxb') = (if fleb fx fxb then (x, fx) else (xb, fxb))) /\
    t' = match sa_cool p with CoolDelta => fsub F t (sa_dt p) | CoolLinear => fsub F t (fdiv F (sa_t0 p) (flim F (c_max_evals C))) end).
  apply (tr_sound _ E _ S0 _ _ _) in Ex; [exact Ex|]. unfold sa_iter, nthP. cbn [nth_error]. apply wp_bind, w_done, wp_bind, w_done.
  apply wp_bind. apply w_random_vec_u. intros u Lu Uu. apply wp_bind. apply w_repair_tr. intros c Hc. apply wp_bind. apply w_eval_tr. intros fc l' He.
  apply wp_bind. apply w_random_u. intros r Hr.
  assert (G : forall y f, wp (K_tr E) (let* (xb', fxb') := lift (get_best1 y f (Some xb) fxb) in Done ([y], [f], xb', fxb', cool F C p t))
    (fun s l => l = l' /\ let '(x', fit', xb', fxb', t') := s in x' = [y] /\ fit' = [f] /\ (xb', fxb') = (if fleb f fxb then (y, f) else (xb, fxb)) /\ t' = cool F C p t) l').
  { intros y f. unfold get_best1. destruct (fleb f fxb); simpl; auto. }
  unfold sa_accept. destruct (fltb (fsub F fc fx) f0 || fltb r (fexp F (fdiv F (fsub F fc fx) t)))%bool eqn:Q;
    (eapply wp_conseq0; [apply G|]); intros [[[[a1 a2] a3] a4] a5] l (-> & A1 & A2 & A3 & A4); exists u, c, fc, r;
    repeat (split; [auto; fail|]); (split; [cbv zeta; rewrite Q; auto|exact A4]).
Qed.
(** exp is at least one on non-negative arguments, so a worsening move is accepted at every positive temperature and for every draw *)
Theorem C54_sa_accepts : forall F,
  (forall d t, fleb f0 d = true -> fltb f0 t = true -> fdiv F d t <> NaN -> fleb f0 (fdiv F d t) = true) ->
  (forall y, fleb f0 y = true -> fleb (N' 1) (fexp F y) = true) ->
  forall t fx fc r, fltb f0 t = true -> in_unit r -> fsub F fc fx <> NaN -> fdiv F (fsub F fc fx) t <> NaN -> sa_accept F t fx fc r = true.
Proof.
  intros F Hd He t fx fc r Ht (Hr1 & Hr2) Hn1 Hn2. unfold sa_accept. destruct (fltb (fsub F fc fx) f0) eqn:Q; auto. cbn [orb].
  assert (A : fleb f0 (fsub F fc fx) = true) by (apply fltb_false_fleb; auto; discriminate). assert (B := He _ (Hd _ _ A Ht Hn2)).
  assert (R : fltb rtop (N' 1) = true) by (vm_compute; reflexivity). eapply fltb_fleb_trans; [|exact B].
  destruct (fltb r (N' 1)) eqn:Q2; auto. exfalso.
  assert (N : r <> NaN) by (eapply fleb_nan_r; exact Hr1). assert (D := fltb_false_fleb r (N' 1) N ltac:(discriminate) Q2).
  assert (D2 := fleb_trans _ _ _ D Hr2). apply fleb_fltb_false in D2. congruence.
Qed.

Corollary C54_refuted : exists F t fx fc, fltb f0 t = true /\ fltb fx fc = true /\ forall r, in_unit r -> sa_accept F t fx fc r = true.
Proof.
  exists b64ops, (N' 1), (N' 0), (N' 100). split; [vm_compute; reflexivity|]. split; [vm_compute; reflexivity|]. intros r Hr.
  assert (He : forall y, fleb f0 y = true -> fleb (N' 1) (fexp b64ops y) = true) by (intros y _; vm_compute; reflexivity).
  apply (C54_sa_accepts b64ops div64_nonneg He); [vm_compute; reflexivity|exact Hr|vm_compute; discriminate|vm_compute; discriminate].
Qed.
(** the same in real numbers; a negative temperature is needed to reject anything *)
Theorem C54_sa_real : forall d T r : R, (0 <= d)%R -> (r < 1)%R ->
  ((0 < T)%R -> (r < exp (d / T))%R) /\ ((T < 0)%R -> (0 < d)%R -> (exp (d / T) < 1)%R).
Proof.
  intros d T r Hd Hr. split.
  - intros HT. assert (0 <= d / T)%R by (apply Rmult_le_pos; auto; apply Rlt_le, Rinv_0_lt_compat; auto).
    assert (1 <= exp (d / T))%R; [|lra]. destruct (Req_dec (d / T) 0) as [->|Hn]; [rewrite exp_0; lra|]. left. rewrite <- exp_0. apply exp_increasing. lra.
  - intros HT Hd'. rewrite <- exp_0. apply exp_increasing. unfold Rdiv. assert (/ T < 0)%R by (apply Rinv_lt_0_compat; auto). assert (d * / T < d * 0)%R by (apply Rmult_lt_compat_l; auto). lra.
Qed.
Definition saP : sa_par := SAPar (q 1 2) (N' 20) (q 1 2) CoolDelta.
Definition saE : env := exenv (box 2 0 4 (LFin 4)) sq.
Lemma bounds64_box4 : forall d me, bounds64 (box d 0 4 me).
Proof.
  intros d me. unfold bounds64, box. cbn [c_lower c_upper]. induction d; cbn [repeat]; constructor; auto.
  split; [vm_compute; reflexivity|]. split; [vm_compute; reflexivity|]. exists (4 * 2 ^ 1074)%Z. vm_compute. reflexivity.
Qed.
Example C54_sa_trace : trace saE (sa b64ops (e_cfg saE) saP) 9 =
    (Ret ([28672; 159744], 401920), [[32768; 163840]; [28672; 159744]; [40960; 172032]; [36864; 167936]])%Z.
Proof. vm_compute. reflexivity. Qed.

(** ** C71: HillClimbAlgorithm *)
Theorem C71_hc : forall F E fuel, let C := e_cfg E in cfg_ok C -> no_nan (e_prob E) -> repair_ok E ->
  best_run_p (drawn_or_inside F C) (fun _ => False) E (hc F C fuel) /\ sizes_ok (fun k => k = 1) E (hc F C fuel).
Proof.
  intros F E fuel C HC Hn Hr. split.
  - apply (best_run_c _ (fun _ => False) E (hc F C fuel) (HcInv F C)); auto; [apply hc_init_c; auto|apply hc_iter_c; auto|].
    intros pop fit xb fxb par l (_ & _ & _ & H1 & H2). split; auto. eapply doi_len; eauto.
  - apply (sizes_c (drawn_or_inside F C) (fun _ => False) _ E (hc F C fuel) (HcInv F C)); auto; [apply hc_init_c; auto|apply hc_iter_c; auto|].
    intros pop fit xb fxb par l (_ & _ & H & _). exact H.
Qed.
Theorem C71_hc_b64 : forall E fuel, let C := e_cfg E in cfg_ok C -> no_nan (e_prob E) -> repair_ok E -> bounds64 C ->
  best_run E (hc b64ops C fuel).
Proof.
  intros E fuel C HC Hn Hr HB. apply (best_run_p_imp (drawn_or_inside b64ops C)); [intros x; apply doi_inside; auto|]. apply C71_hc; auto.
Qed.
(** the climb of one iteration ends: each further step evaluates a point, and a refused evaluation is not an improvement *)
Lemma hc_climb_ends : forall F E fuel x xn fn w m, (Z.of_nat (t_evals (w_ts w)) + Z.of_nat fuel > m)%Z -> c_max_evals (e_cfg E) = LFin m -> 0 < fuel ->
  (forall h y, e_prob E h y <> Raise EFuel) -> fst (exec E (hc_climb F (e_cfg E) fuel x xn fn) w) <> Raise EFuel.
Proof.
  intros F E fuel. induction fuel as [|k IH]; intros x xn fn w m Hm Hl Hf HP; [lia|]. cbn [hc_climb]. rewrite exec_bind. unfold hc_neighbor. rewrite exec_bind.
  assert (R : forall n w, exists z w1, exec E (rnd_f_vec n) w = (Ret z, w1) /\ w_ts w1 = w_ts w).
  { clear. induction n as [|n IH]; intros w; [exists [], w; auto|]. cbn [rnd_f_vec]. rewrite exec_bind. cbn [rnd_f exec].
    destruct (IH {| w_ts := w_ts w; w_h := w_h w; w_pos := S (w_pos w) |}) as (z & w1 & Ez & Ew). rewrite exec_bind, Ez. cbn [exec]. eauto. }
  destruct (R (c_dim (e_cfg E)) w) as (z & w1 & -> & Ew). rewrite exec_bind. cbn [repair exec]. rewrite exec_bind. cbn [eval exec w_ts w_h w_pos]. unfold task_eval. rewrite Ew.
  destruct (stopping_condition (e_cfg E) (w_ts w)) eqn:Hs.
  - cbn [exec]. cbn [fltb]. destruct fn; discriminate.
  - destruct (e_prob E (w_h w1) _) as [v|e] eqn:Qe; [|cbn [exec fst]; intros H; injection H as ->; eapply HP; eauto].
    cbn [exec]. destruct (fltb _ fn); [|discriminate]. assert (B := below_evals _ _ Hs). unfold below, lim_reached in B. rewrite Hl in B. apply negb_true_iff in B. apply Z.leb_gt in B.
    apply (IH _ _ _ _ m); auto; cbn [w_ts]; [|lia]. destruct (fltb _ _); cbn [t_evals]; lia.
Qed.
Theorem C71_hc_ends : forall F E fuel m pop fit xb fxb t w, c_max_evals (e_cfg E) = LFin m -> (m < Z.of_nat fuel)%Z -> 0 < fuel ->
  (forall h y, e_prob E h y <> Raise EFuel) -> fst (exec E (hc_iter F (e_cfg E) fuel pop fit xb fxb t) w) <> Raise EFuel.
Proof.
  intros F E fuel m pop fit xb fxb t w Hl Hf Hf0 HP. unfold hc_iter. rewrite exec_bind. unfold nthP. destruct (nth_error pop 0) as [x|]; [|discriminate]. cbn [exec]. rewrite exec_bind.
  assert (R : forall n w, exists z w1, exec E (random_vec n) w = (Ret z, w1) /\ w_ts w1 = w_ts w).
  { clear. induction n as [|n IH]; intros w; [exists [], w; auto|]. cbn [random_vec]. rewrite exec_bind. cbn [random exec].
    destruct (IH {| w_ts := w_ts w; w_h := w_h w; w_pos := S (w_pos w) |}) as (z & w1 & Ez & Ew). rewrite exec_bind, Ez. cbn [exec]. eauto. }
  unfold sample. rewrite exec_bind. destruct (R (c_dim (e_cfg E)) w) as (z & w1 & -> & Ew). cbn [exec]. rewrite exec_bind. cbn [eval exec].
  destruct (task_eval _ _ _ _ _) as [[[fn|e] ts] h] eqn:Qt.
  - rewrite exec_bind. match goal with |- context [exec E (hc_climb ?a ?b ?c ?d ?e ?f) ?g] => pose proof (hc_climb_ends a E c d e f g m) as G end.
    cbn [w_ts] in G. specialize (G ltac:(lia) Hl Hf0 HP). destruct (exec E (hc_climb _ _ _ _ _ _) _) as [[[y f]|e] w2]; cbn [fst] in *; [|intros Hx; injection Hx as ->; apply G; reflexivity].
    rewrite exec_bind. unfold get_best1. destruct (fleb f fxb); cbn [lift exec fst]; discriminate.
  - cbn [fst]. unfold task_eval in Qt. destruct (stopping_condition _ _); [discriminate|]. destruct (e_prob E (w_h w1) _) as [v|e'] eqn:Qe; [discriminate|].
    injection Qt as -> _ _. intros H. injection H as ->. eapply HP; eauto.
Qed.
(** without that limit it need not end, even when the number of iterations is limited: a problem answering better and better values *)
Definition downhill : problem := fun h _ => Ret (Fin (- Z.of_nat (length h))).
Theorem C71_hc_endless : forall F C rep fl it fuel x xn fn w, c_max_evals C = LInf -> c_opt C = Minimization -> c_cutoff C = NInf -> stopping_condition C (w_ts w) = false ->
  (exists z, fn = Fin z /\ (- Z.of_nat (length (w_h w)) < z)%Z) ->
  exists w', exec (Env C downhill rep fl it) (hc_climb F C fuel x xn fn) w = (Raise EFuel, w').
Proof.
  intros F C rep fl it fuel. set (E := Env C downhill rep fl it). induction fuel as [|k IH]; intros x xn fn w Hm Ho Hc Hs (z & -> & Hz); [exists w; reflexivity|]. cbn [hc_climb]. rewrite exec_bind. unfold hc_neighbor. rewrite exec_bind.
  assert (R : forall n w, exists z w1, exec E (rnd_f_vec n) w = (Ret z, w1) /\ w_ts w1 = w_ts w /\ w_h w1 = w_h w).
  { clear. induction n as [|n IH]; intros w; [exists [], w; auto|]. cbn [rnd_f_vec]. rewrite exec_bind. cbn [rnd_f exec].
    destruct (IH {| w_ts := w_ts w; w_h := w_h w; w_pos := S (w_pos w) |}) as (z & w1 & Ez & Ew & Eh). rewrite exec_bind, Ez. cbn [exec]. eauto. }
  destruct (R (c_dim C) w) as (u & w1 & -> & Ew & Eh). rewrite exec_bind. cbn [repair exec]. rewrite exec_bind. cbn [eval exec w_ts w_h w_pos]. unfold task_eval. rewrite Ew, Eh. cbn [e_cfg e_prob E]. rewrite Hs.
  unfold downhill at 1. cbn [exec]. rewrite Ho. cbn [sgn]. rewrite (proj2 (Z.ltb_lt _ _) Hz : fltb (Fin _) (Fin _) = true).
  apply IH; auto; cbn [w_ts w_h].
  - clear IH. unfold stopping_condition in *. rewrite Hm, Hc, Ho in *. cbn [sgn lim_reached orb] in *.
    destruct (lim_reached (t_iters (w_ts w)) (c_max_iters C)) eqn:Qi; [discriminate|].
    match goal with |- context [if ?b then _ else _] => destruct b end; cbn [t_iters t_evals t_xf]; rewrite Qi; auto.
  - exists (- Z.of_nat (length (w_h w)))%Z. split; auto. cbn [length]. lia.
Qed.
(** one iteration: the new point is a fresh sample, or a repaired neighbour of the old point that is better than that sample *)
Theorem C71_hc_step : forall F E fuel x fx xb fxb t pop' fit' xb' fxb' t' w w', let C := e_cfg E in
  exec E (hc_iter F C fuel [x] [fx] xb fxb t) w = (Ret (pop', fit', xb', fxb', t'), w') ->
  exists xn fn y f, pop' = [y] /\ fit' = [f] /\ drawn F C xn /\ (xb', fxb') = (if fleb f fxb then (y, f) else (xb, fxb)) /\
    ((y = xn /\ f = fn) \/ (fltb f fn = true /\ exists z, length z = c_dim C /\ repaired E (vadd F x z) y)).
Proof.
  intros F E fuel x fx xb fxb t pop' fit' xb' fxb' t' w w' C Ex.
  pose (S0 := fun (s : list vec * list num * vec * num * unit) (l' : elog) => let '(pop', fit', xb', fxb', t') := s in
    exists xn fn y f, pop' = [y] /\ fit' = [f] /\ drawn F C xn /\ (xb', fxb') = (if fleb f fxb then (y, f) else (xb, fxb)) /\
    ((y = xn /\ f = fn) \/ (fltb f fn = true /\ exists z, length z = c_dim C /\ repaired E (vadd F x z) y))).
  apply (tr_sound _ E _ S0 _ _ _) in Ex; [exact Ex|]. unfold hc_iter, nthP. cbn [nth_error]. apply wp_bind, w_done. apply wp_bind. apply w_sample. intros xn Dn.
  apply wp_bind. apply w_eval_tr. intros fn l1 He. apply wp_bind.
  assert (G : forall k a fa l, (a = xn /\ fa = fn) \/ (fltb fa fn = true /\ exists z, length z = c_dim C /\ repaired E (vadd F x z) a) ->
    wp (K_tr E) (hc_climb F C k x a fa) (fun s _ => (fst s = xn /\ snd s = fn) \/ (fltb (snd s) fn = true /\ exists z, length z = c_dim C /\ repaired E (vadd F x z) (fst s))) l).
  { induction k as [|k IH]; intros a fa l H; cbn [hc_climb]; [exact I|]. apply wp_bind. unfold hc_neighbor. apply wp_bind. apply w_rnd_f_vec. intros z Lz. apply wp_bind. apply w_repair_tr. intros y Hy.
    apply wp_bind. apply w_eval_tr. intros f l' He'. apply w_done. destruct (fltb f fa) eqn:Q; [|apply w_done; exact H]. apply IH. right. split; [|eauto].
    destruct H as [[_ ->]|[H _]]; auto. eapply fltb_trans; eauto. }
  eapply wp_conseq0; [apply G; left; auto|]. intros [y f] l H. cbn [fst snd] in H. apply wp_bind. unfold get_best1.
  destruct (fleb f fxb) eqn:Q; cbn [lift]; apply w_done; apply w_done; exists xn, fn, y, f; rewrite Q; auto.
Qed.
Definition hcE : env := exenv (box 2 0 4 (LFin 6)) sq.
Example C71_hc_trace : trace hcE (hc b64ops (e_cfg hcE) 9) 9 =
    (Ret ([98304; 98304], 294912), [[32768; 163840]; [98304; 98304]; [73728; 172032]; [229376; 32768];
    [139264; 122880]; [139264; 106496]])%Z.
Proof. vm_compute. reflexivity. Qed.
Example C71_endless_hyps : let C := box 2 0 4 LInf in
  stopping_condition C (TS 1 0 (N' 1) [1] [N' 1] []) = false /\ exists z, N' 1 = Fin z /\ (- Z.of_nat (length [([N' 1; N' 1], Ret (N' 1))]) < z)%Z.
Proof. split; [vm_compute; reflexivity|]. exists (2 ^ 1074)%Z. split; vm_compute; reflexivity. Qed.

(** ** C72: NelderMeadMethod *)
Theorem C72_nm : forall F E p, let C := e_cfg E in cfg_ok C -> no_nan (e_prob E) -> repair_ok E -> 2 <= nm_size C p ->
  best_run_p (fun x => length x = c_dim C) (fun _ => False) E (nm F C p) /\ sizes_ok (fun k => k = nm_size C p) E (nm F C p).
Proof.
  intros F E p C HC Hn Hr Hs. assert (Hs' : 0 < nm_size C p) by lia. split.
  - apply (best_run_c (right_len C) (fun _ => False) E (nm F C p) (NmInv C (nm_size C p))); auto; [apply nm_init_c; auto|apply nm_iter_c; auto|].
    intros pop fit xb fxb par l [I1 I2 I3 I4 I5 I6]. auto.
  - apply (sizes_c (right_len C) (fun _ => False) _ E (nm F C p) (NmInv C (nm_size C p))); auto; [apply nm_init_c; auto|apply nm_iter_c; auto|].
    intros pop fit xb fxb par l [I1 I2 I3 I4 I5 I6]. auto.
Qed.
(** the population never has fewer members than the problem has dimensions *)
Theorem C72_nm_size : forall C p, nm_size C p = match nm_n p with None => c_dim C | Some n => Nat.max n (c_dim C) end.
Proof. intros C p. unfold nm_size. destruct (nm_n p) as [n|]; auto. destruct (n <? c_dim C) eqn:Q; [apply Nat.ltb_lt in Q|apply Nat.ltb_ge in Q]; lia. Qed.
(** the expansion step is dead code: its coefficient has no influence on any iteration *)
Theorem C72_nm_no_expansion : forall F E n a g g' r s pop fit xb fxb t w, let C := e_cfg E in
  2 <= length pop -> length fit = length pop -> Forall (fun f => f <> NaN) fit ->
  exec E (nm_iter F C (NMPar n a g r s) pop fit xb fxb t) w = exec E (nm_iter F C (NMPar n a g' r s) pop fit xb fxb t) w.
Proof.
  intros F E n a g g' r s pop fit xb fxb t w C Lp Lf Nf. unfold nm_iter. set (so := sort_by (combine pop fit)).
  assert (Ls : length so = length pop) by (unfold so; rewrite sort_by_len, combine_length; lia).
  assert (Ns : forall p, In p so -> snd p <> NaN).
  { intros p Hp. unfold so in Hp. apply (proj1 (sort_by_In _ _)) in Hp. rewrite Forall_forall in Nf. apply Nf. destruct p. eapply in_combine_r; eauto. }
  assert (Ss : StronglySorted key_lt so) by apply sort_by_sorted. clearbody so.
  assert (M : forall w, exec E (nm_method F C (NMPar n a g r s) (map fst so) (map snd so)) w = exec E (nm_method F C (NMPar n a g' r s) (map fst so) (map snd so)) w);
    [|rewrite !exec_bind, M; reflexivity].
  clear w. intros w. unfold nm_method. rewrite !map_length. cbn [nm_alpha nm_gamma nm_rho nm_sigma].
  rewrite !exec_bind. destruct (exec E (nthP (map fst so) (length so - 1)) w) as [[xl|e] w1]; auto. rewrite !exec_bind. destruct (exec E (eval _) w1) as [[rs|e] w2]; auto.
  rewrite !exec_bind. destruct so as [|[x1 f1] so]; [simpl in *; lia|].
  assert (Q0 : exec E (nthP (map snd ((x1, f1) :: so)) 0) w2 = (Ret f1, w2)) by reflexivity. rewrite !Q0. rewrite !exec_bind.
  destruct (fleb rs f1) eqn:Q1.
  2:{ cbn [exec]. destruct (fltb rs f1) eqn:Q2; auto. apply fltb_fleb in Q2. congruence. }
  rewrite !exec_bind. destruct (exec E (nthZ _ _) w2) as [[g1|e] w3] eqn:Qg; auto. cbn [exec]. destruct (fltb rs g1) eqn:Q2; auto.
  assert (H : fleb f1 g1 = true).
  { unfold nthZ in Qg. change (-2 <? 0)%Z with true in Qg. cbv iota in Qg. cbn [map length snd] in Qg. set (k := (Z.of_nat (S (length (map snd so))) + -2)%Z) in *. destruct (k <? 0)%Z eqn:Qk; [discriminate|]. unfold nthP in Qg.
    destruct (nth_error (f1 :: map snd so) (Z.to_nat k)) as [b|] eqn:Qb; [|discriminate]. cbn in Qg. injection Qg as <- <-.
    change (f1 :: map snd so) with (map snd ((x1, f1) :: so)) in Qb. rewrite nth_error_map in Qb. destruct (nth_error ((x1, f1) :: so) (Z.to_nat k)) as [[x2 f2]|] eqn:Qc; [|discriminate].
    cbn in Qb. injection Qb as <-. assert (N1 : f1 <> NaN) by (apply (Ns (x1, f1)); left; auto). assert (N2 : f2 <> NaN) by (apply (Ns (x2, f2)); eapply nth_error_In; eauto).
    destruct (Z.to_nat k) as [|m] eqn:Qm; [cbn in Qc; injection Qc as <- <-; apply fleb_refl; auto|].
    assert (KL := sorted_nth _ 0 (S m) (x1, f1) (x2, f2) Ss ltac:(lia) eq_refl Qc). unfold key_lt in KL. cbn [snd] in KL. unfold key_le in KL.
    destruct f1; destruct f2; cbn in *; try congruence; auto. }
  destruct (fltb rs f1) eqn:Q3; auto. assert (fltb rs g1 = true) by (eapply fltb_fleb_trans; eauto). congruence.
Qed.
(** points are not repaired: with the default parameters (nmm.py:60) the reflected point leaves the bounds *)
Definition nmP : nm_par := NMPar None (b64_lit 1 10) (b64_lit 3 10) (b64_lit (-2) 10) (b64_lit (-2) 10).
Definition nmE : env := exenv (box 2 0 4 (LFin 9)) lin.
Definition nmE3 : env := Env (box 2 0 4 (LFin 9)) lin (clip (box 2 0 4 (LFin 9))) (fun p => if p <? 2 then N' 0 else N' 4) in7.
Theorem C72_nm_inside_refuted : exists E n, cfg_ok (e_cfg E) /\ no_nan (e_prob E) /\ repair_ok E /\ bounds64 (e_cfg E) /\ 2 <= nm_size (e_cfg E) nmP /\
  (exists r w ev a, run_body E (nm b64ops (e_cfg E) nmP) (fun _ => None) n (World (task_init (e_cfg E)) [] 0) = (r, w, ev) /\ In a (w_h w) /\ ~ inside (e_cfg E) (fst a)).
Proof.
  exists nmE3, 9. split; [apply box_ok; lia|]. split; [exact lin_no_nan|]. split; [apply clip_ok; apply box_ok; lia|]. split; [apply bounds64_box4|].
  split; [cbn; lia|]. apply (run_outside (fun _ => False) nmE3 (nm b64ops (e_cfg nmE3) nmP) 9). vm_compute. reflexivity.
Qed.
Example C72_nm_trace : trace nmE (nm b64ops (e_cfg nmE) nmP) 9 =
    (Ret ([26396; 22755], 71907), [[8192; 40960]; [24576; 24576]; [26214; 22937]; [26378; 22773]; [26394;
    22757]; [26396; 22755]; [26396; 22755]; [26396; 22755]; [26396; 22755]])%Z.
Proof. vm_compute. reflexivity. Qed.
Example C72_nm_trace_shrink : trace (exenv (box 2 0 4 (LFin 9)) sq) (nm b64ops (e_cfg nmE) nmP) 9 =
    (Ret ([24576; 24576], 18432), [[8192; 40960]; [24576; 24576]; [26214; 22937]; [21299; 27852]; [24903;
    24248]; [23920; 25231]; [24641; 24510]; [24444; 24707]; [24589; 24562]])%Z.
Proof. vm_compute. reflexivity. Qed.
(** a population of one (a one-dimensional problem with the default population size): ValueError *)
Example C72_nm_one_dim : own_exn (exenv (box 1 0 4 (LFin 9)) lin) (nm b64ops (box 1 0 4 (LFin 9)) nmP) 9 = Some EValue.
Proof. vm_compute. reflexivity. Qed.
Example C72_hyps : nm_size (e_cfg nmE) nmP = 2.
Proof. reflexivity. Qed.

Print Assumptions C70_drawn_inside.
Print Assumptions C53_rs_value.
Print Assumptions C53_rs_candidates.
Print Assumptions C53_rs_no_candidates.
Print Assumptions C53_rs_pair_partial.
Print Assumptions C53_rs_pair_refuted.
Print Assumptions C24_rs_refuted.
Print Assumptions C54_sa_sound.
Print Assumptions C54_sa_best.
Print Assumptions C54_sa_b64.
Print Assumptions C54_sa_step.
Print Assumptions C54_sa_accepts.
Print Assumptions C54_refuted.
Print Assumptions C54_sa_real.
Print Assumptions C71_hc.
Print Assumptions C71_hc_b64.
Print Assumptions C71_hc_ends.
Print Assumptions C71_hc_endless.
Print Assumptions C71_hc_step.
Print Assumptions C72_nm.
Print Assumptions C72_nm_size.
Print Assumptions C72_nm_no_expansion.
Print Assumptions C72_nm_inside_refuted.
