(** Final theorems about SelfAdaptiveDifferentialEvolution (C80), MultiStrategySelfAdaptiveDifferentialEvolution (C81), the (1 + 1) and
    (mu + 1) evolution strategies (C82) and the (mu + lambda) and (mu, lambda) evolution strategies (C83). *)
From Coq Require Import ZArith Lia Bool List Permutation Sorting.Sorted SpecFloat.
From Verif Require Import Num Task TaskSpec TaskProofs TaskProofs2 Prog Wp GetBest Run RunSpec RunProofs RunProofs2
  AlgoLib Fops AlgTac StepSpec StepLib Indiv IndivLib AlgDE DESpec AlgDEProofs AlgPSO AlgPSOProofs Reach AlgBasic2 AlgBasic2Proofs Repair B64 B64Spec ExLib ExLib2
  PropertiesDE PropertiesBasic2 AlgMod AlgModProofs Endless.
Import ListNotations.
Open Scope nat_scope.

(** ** C80: SelfAdaptiveDifferentialEvolution *)
Theorem C80_jde : forall F E p, let C := e_cfg E in
  cfg_ok C -> 0 < c_dim C -> no_nan (e_prob E) -> repair_ok E -> 0 < jd_n p ->
  best_run E (jde F C p) /\ sizes_ok (fun n => n = jd_n p) E (jde F C p) /\ steps_ok no_worse_fit E (jde F C p).
Proof.
  intros F E p C HC Hd Hn Hr Hp.
  refine (all_c (inside C) (fun _ => False) (fun n => n = jd_n p) no_worse_fit E (jde F C p) (fun pop fit xb fxb _ l => Deco (num * num) C (jd_n p) (j_param F p) pop fit xb fxb l) HC Hn Hr _ _ _).
  - apply (deco_init (num * num) C (jd_n p) (j_param F p)); auto. split; left; reflexivity.
  - apply jde_iter_r; auto. apply jde_evolve_ok; auto.
  - intros pop fit xb fxb u l [D1 D2 D3 D4 D5 D6]. subst fit. rewrite !map_length. auto.
Qed.
(** the parameters of the members of every population *)
Theorem C80_params : forall F E p, let C := e_cfg E in
  cfg_ok C -> 0 < c_dim C -> no_nan (e_prob E) -> repair_ok E -> 0 < jd_n p ->
  forall s w, reached E (jde F C p) s w -> forall x f wt cr, In (x, f, (wt, cr)) (r_pop s : list jind) ->
  (wt = flit F 2 1 \/ exists u, in_unit u /\ wt = fadd F (jd_lo p) (fmul F u (fsub F (jd_up p) (jd_lo p)))) /\ (cr = flit F 1 2 \/ in_unit cr).
Proof.
  intros F E p C HC Hd Hn Hr Hp s w H x f wt cr Hi.
  assert (G := reach_c (inside C) (fun _ => False) E (jde F C p) (fun pop fit xb fxb _ l => Deco (num * num) C (jd_n p) (j_param F p) pop fit xb fxb l) Hn Hr).
  assert (D : Deco (num * num) C (jd_n p) (j_param F p) (r_pop s) (r_fit s) (r_xb s) (r_fxb s) (log_of (c_opt C) (w_h w))).
  { apply G; auto.
    - apply (deco_init (num * num) C (jd_n p) (j_param F p)); auto. split; left; reflexivity.
    - apply (iter_r_c _ _ _ no_worse_fit). apply jde_iter_r; auto. apply jde_evolve_ok; auto. }
  destruct D as [_ _ _ _ _ D6]. rewrite Forall_forall in D6. exact (D6 (wt, cr) (in_map snd _ _ Hi)).
Qed.
(** in binary64 a weight is 2 or lies between the limits, and a crossover probability is in [0, 1) *)
Theorem C80_params_64 : forall E p, let C := e_cfg E in
  cfg_ok C -> 0 < c_dim C -> no_nan (e_prob E) -> repair_ok E -> 0 < jd_n p ->
  is64 (jd_lo p) -> is64 (jd_up p) -> fleb (jd_lo p) (jd_up p) = true -> (exists d, fsub b64ops (jd_up p) (jd_lo p) = Fin d) ->
  forall s w, reached E (jde b64ops C p) s w -> forall x f wt cr, In (x, f, (wt, cr)) (r_pop s : list jind) ->
  (wt = flit b64ops 2 1 \/ (fleb (jd_lo p) wt = true /\ fleb wt (jd_up p) = true)) /\ fleb f0 cr = true /\ fltb cr (flit b64ops 1 1) = true.
Proof.
  intros E p C HC Hd Hn Hr Hp H1 H2 H3 H4 s w H x f wt cr Hi. destruct (C80_params b64ops E p HC Hd Hn Hr Hp s w H x f wt cr Hi) as [[->|(u & [U1 U2] & ->)] Hcr].
  - split; auto. destruct Hcr as [->|[U1 U2]]; [vm_compute; auto|]. split; auto. eapply fleb_fltb_trans; [exact U2|]. vm_compute. reflexivity.
  - split.
    + right. destruct (affine64 (jd_lo p) (jd_up p) u) as (E1 & _ & E2 & E3); auto. rewrite <- E1. auto.
    + destruct Hcr as [->|[V1 V2]]; [vm_compute; auto|]. split; auto. eapply fleb_fltb_trans; [exact V2|]. vm_compute. reflexivity.
Qed.
(** one generation: new parameters, then the mutants one after another, then the evaluations *)
Definition adapted (F : fops) (p : jde_par) (e e' : jind) : Prop :=
  fst (fst e') = fst (fst e) /\ snd (fst e') = PInf /\
  (exists r, in_unit r /\ ((fltb r (jd_tao1 p) = false /\ fst (snd e') = fst (snd e)) \/
     (fltb r (jd_tao1 p) = true /\ exists u, in_unit u /\ fst (snd e') = fadd F (jd_lo p) (fmul F u (fsub F (jd_up p) (jd_lo p)))))) /\
  (exists r, in_unit r /\ ((fltb r (jd_tao2 p) = false /\ snd (snd e') = snd (snd e)) \/ (fltb r (jd_tao2 p) = true /\ in_unit (snd (snd e'))))).
(** the first i members are replaced; member i is made from the current ones *)
Inductive mutated (F : fops) (s : strategy) (xb : vec) (new : list jind) : nat -> list jind -> Prop :=
| mut_0 : mutated F s xb new 0 new
| mut_S : forall i cur cur' x f w x', mutated F s xb new i cur -> nth_error cur i = Some (x, f, w) ->
    crossed F s (fst w) (snd w) (j_xs cur) i xb x' -> row_set cur cur' i (x', f, w) -> mutated F s xb new (S i) cur'.
Inductive eval_each (E : env) : list jind -> list jind -> elog -> elog -> Prop :=
| ee_nil : forall l, eval_each E [] [] l l
| ee_cons : forall x f w y g es es' l l1 l2, repaired E x y -> evaluated y g l l1 -> eval_each E es es' l1 l2 -> eval_each E ((x, f, w) :: es) ((y, g, w) :: es') l l2.
Definition generation (F : fops) (E : env) (p : jde_par) (pop : list jind) (xb : vec) (new : list jind) (l l' : elog) : Prop :=
  exists a m, Forall2 (adapted F p) pop a /\ mutated F (jd_s p) xb a (length pop) m /\ eval_each E m new l l'.
Lemma w_adaptive_tr : forall K F p e (Q : jind -> elog -> Prop) l, (forall e', adapted F p e e' -> Q e' l) -> wp K (adaptive_gen F p e) Q l.
Proof.
  intros K F p [x [f cr]] Q l HQ. unfold adaptive_gen. cbn [fst snd]. apply wp_bind. apply w_random_u. intros r1 U1. apply wp_bind.
  apply wp_conseq0 with (Q := fun f' l' => l' = l /\ ((fltb r1 (jd_tao1 p) = false /\ f' = f) \/
     (fltb r1 (jd_tao1 p) = true /\ exists u, in_unit u /\ f' = fadd F (jd_lo p) (fmul F u (fsub F (jd_up p) (jd_lo p)))))).
  { destruct (fltb r1 _) eqn:Q1; [|apply w_done; auto]. apply wp_bind. apply w_random_u. intros u Hu. apply w_done. split; auto. right. eauto. }
  intros f' l' [-> Hf]. apply wp_bind. apply w_random_u. intros r2 U2. apply wp_bind.
  apply wp_conseq0 with (Q := fun c l' => l' = l /\ ((fltb r2 (jd_tao2 p) = false /\ c = cr) \/ (fltb r2 (jd_tao2 p) = true /\ in_unit c))).
  { destruct (fltb r2 _) eqn:Q2; [|apply w_done; auto]. apply w_random_u. auto. }
  intros c l' [-> Hc]. apply w_done. apply HQ. split; auto. split; auto. cbn [fst snd]. split; eauto.
Qed.
Lemma w_mapM_pure : forall A B K (f : A -> prog B) (R : A -> B -> Prop) xs (Q : list B -> elog -> Prop) l,
  (forall a (P : B -> elog -> Prop), In a xs -> (forall b, R a b -> P b l) -> wp K (f a) P l) -> (forall bs, Forall2 R xs bs -> Q bs l) -> wp K (mapM f xs) Q l.
Proof.
  intros A B K f R xs. induction xs as [|a xs IH]; intros Q l Hf HQ; cbn [mapM]; [apply w_done; apply HQ; constructor|].
  apply wp_bind. apply Hf; [left; auto|]. intros b Hb. apply wp_bind. apply IH; [intros; apply Hf; auto; right; auto|]. intros bs Hbs. apply w_done. apply HQ. constructor; auto.
Qed.
Lemma w_mutate_tr : forall E F s d new xb (Q : list jind -> elog -> Prop) l, 0 < d -> dims d (j_xs new) -> length xb = d ->
  (forall m, mutated F s xb new (length new) m -> Q m l) -> wp (K_tr E) (jde_mutate F s new xb) Q l.
Proof.
  intros E F s d new xb Q l Hd Hx Hb HQ. unfold jde_mutate.
  apply wp_conseq0 with (Q := fun m l' => (l' = l /\ dims d (j_xs m) /\ length m = length new) /\ mutated F s xb new (length new) m); [|intros m l' [(-> & _) H]; auto].
  apply wp_for_range with (I := fun i m l' => (l' = l /\ dims d (j_xs m) /\ length m = length new) /\ mutated F s xb new i m).
  - split; [auto|constructor].
  - intros i cur l' Hi ((-> & D & L) & M). apply wp_bind. apply w_nthP_tr. intros [[x f] w] Ee. cbn [fst snd]. apply wp_bind.
    apply (w_cross _ F s _ _ _ _ _ d); auto; [unfold j_xs; rewrite !map_length; lia|]. intros x' Lx Hc. apply w_setP_tr. intros R.
    split; [split; [auto|]; split; [|dl]|].
    + unfold j_xs. rewrite !map_upd. apply dims_upd; auto.
    + rewrite Nat.add_1_r. econstructor; eauto.
Qed.
Lemma w_evaluate_tr : forall E m (Q : list jind -> elog -> Prop) l, (forall new l', eval_each E m new l l' -> Q new l') -> wp (K_tr E) (jde_evaluate m) Q l.
Proof.
  intros E m. unfold jde_evaluate. induction m as [|[[x f] w] m IH]; intros Q l HQ; cbn [mapM]; [apply w_done; apply HQ; constructor|]. cbn [fst snd].
  apply wp_bind. apply wp_bind. apply w_ind_evaluate_tr. intros y g l1 Hy Hg. apply w_done. apply wp_bind. apply IH. intros new l' Hn. apply w_done. apply HQ. econstructor; eauto.
Qed.
Theorem C80_evolve : forall F E p pop xb new wd wd', let C := e_cfg E in
  0 < c_dim C -> Forall (fun e : jind => length (fst (fst e)) = c_dim C) pop -> length xb = c_dim C ->
  exec E (jde_evolve F p pop xb) wd = (Ret new, wd') -> generation F E p pop xb new (log_of (c_opt C) (w_h wd)) (log_of (c_opt C) (w_h wd')).
Proof.
  intros F E p pop xb new wd wd' C Hd Hp Hx Ex. set (l := log_of (c_opt C) (w_h wd)). apply (tr_sound _ E _ (fun new l' => generation F E p pop xb new l l') _ _ _) in Ex; [exact Ex|]. fold C l.
  unfold jde_evolve. apply wp_bind. apply (w_mapM_pure _ _ _ _ (adapted F p)); [intros; apply w_adaptive_tr; auto|]. intros a Ha.
  assert (La : length a = length pop) by (symmetry; eapply Forall2_len; eauto).
  assert (Da : dims (c_dim C) (j_xs a)).
  { clear - Ha Hp. induction Ha as [|e e' pop a Ad Ha IH]; [constructor|]. apply Forall_cons_iff in Hp. destruct Hp as [P1 P2]. constructor; [|exact (IH P2)]. destruct Ad as [Ad _]. cbn beta. rewrite <- P1. exact (f_equal _ Ad). }
  apply wp_bind. apply (w_mutate_tr E F _ (c_dim C)); auto. intros m Hm. apply w_evaluate_tr. intros new0 l' He. exists a, m. rewrite <- La. auto.
Qed.
(** selection: a strictly better mutant replaces the member, with its parameters *)
Theorem C80_select : forall F E p pop fit xb fxb pop' fit' xb' fxb' u wd wd', let C := e_cfg E in
  0 < c_dim C -> Forall (fun e : jind => length (fst (fst e)) = c_dim C) pop -> length xb = c_dim C ->
  exec E (a_iter (jde F C p) pop fit xb fxb tt) wd = (Ret (pop', fit', xb', fxb', u), wd') ->
  exists new, generation F E p pop xb new (log_of (c_opt C) (w_h wd)) (log_of (c_opt C) (w_h wd')) /\ length new = length pop /\ length pop' = length pop /\
    (forall i e o, nth_error new i = Some e -> nth_error pop i = Some o -> nth_error pop' i = Some (if fltb (snd (fst e)) (snd (fst o)) then e else o)) /\
    fit' = map (fun e : jind => snd (fst e)) pop'.
Proof.
  intros F E p pop fit xb fxb pop' fit' xb' fxb' u wd wd' C Hd Hp Hx Ex. cbn [a_iter jde] in Ex. unfold jde_iteration in Ex. rewrite exec_bind in Ex.
  destruct (exec E (jde_evolve F p pop xb) wd) as [[new|e] w1] eqn:E1; [|discriminate]. exists new. apply (C80_evolve F E p pop xb new wd w1 Hd Hp Hx) in E1. fold C in E1.
  assert (Ln : length new = length pop).
  { destruct E1 as (a & m & A1 & A2 & A3). apply Forall2_len in A1. assert (L2 : forall k m, mutated F (jd_s p) xb a k m -> length m = length a).
    { clear. intros k m H. induction H as [|i cur cur' x f w x' H IH H1 H2 H3]; auto. destruct H3 as [H3 _]. congruence. } specialize (L2 _ _ A2). assert (L3 : forall m new l l', eval_each E m new l l' -> length new = length m) by (clear; induction 1; simpl; auto).
    rewrite (L3 _ _ _ _ A3). lia. }
  rewrite exec_bind in Ex.
  assert (Hs : exec E (j_select pop new) w1 = (Ret (map2 j_choose new pop), w1)).
  { clear - Ln. revert pop Ln. induction new as [|e new IH]; intros [|o pop] Ln; simpl in Ln; try discriminate; [reflexivity|]. cbn [j_select map2]. rewrite exec_bind, IH; auto. }
  rewrite Hs in Ex. rewrite exec_bind in Ex. destruct (get_best _ _ (Some xb) fxb) as [[x1 f1]|e]; [|discriminate]. cbn [lift exec] in Ex. rewrite exec_bind in Ex.
  destruct (get_best _ _ (Some x1) f1) as [[x2 f2]|e]; [|discriminate]. cbn [lift exec] in Ex. injection Ex as <- <- <- <- <- <-.
  split; [exact E1|]. split; [exact Ln|]. split; [apply map2_length; auto|]. split.
  - clear. revert pop. induction new as [|a new IH]; intros [|b pop] [|i] e o H1 H2; cbn [map2 nth_error] in *; try discriminate; [injection H1 as <-; injection H2 as <-; reflexivity|]. auto.
  - unfold j_fits. rewrite map_map. reflexivity.
Qed.

(** ** C81: MultiStrategySelfAdaptiveDifferentialEvolution adapts nothing *)
(** two algorithms whose populations correspond and whose programs do the same *)
Section Same.
Variables (E : env) (A B : algo).
Variable J : a_pop A -> a_par A -> a_pop B -> a_par B -> Prop.
Hypothesis Hco : forall p q p' q', J p q p' q' -> a_coords A p = a_coords B p'.
Definition same {S T} (R : S -> T -> Prop) (a : outcome S * world) (b : outcome T * world) : Prop :=
  snd a = snd b /\ match fst a, fst b with Ret x, Ret y => R x y | Raise e, Raise e' => e = e' | _, _ => False end.
Hypothesis H0 : forall w, same (fun a b => let '(p, f, q) := a in let '(p', f', q') := b in f = f' /\ J p q p' q') (exec E (a_init A) w) (exec E (a_init B) w).
Hypothesis H1 : forall p q p' q' fit xb fxb w, J p q p' q' ->
  same (fun a b => let '(p, f, x, g, q) := a in let '(p', f', x', g', q') := b in f = f' /\ x = x' /\ g = g' /\ J p q p' q')
    (exec E (a_iter A p fit xb fxb q) w) (exec E (a_iter B p' fit xb fxb q') w).
Lemma same_loop : forall cb n p q p' q' fit xb fxb w ev, J p q p' q' ->
  loop E A cb n (RState (A := A) p fit xb fxb q) w ev = loop E B cb n (RState (A := B) p' fit xb fxb q') w ev.
Proof.
  intros cb. induction n as [|n IH]; intros p q p' q' fit xb fxb w ev HJ; cbn [loop r_pop r_fit r_xb r_fxb r_par]; destruct (stopping_condition _ _); auto.
  destruct (cb _); auto. destruct (H1 p q p' q' fit xb fxb w HJ) as [E1 E2].
  destruct (exec E (a_iter A p fit xb fxb q) w) as [[[[[[p1 f1] x1] g1] q1]|e] w1], (exec E (a_iter B p' fit xb fxb q') w) as [[[[[[p2 f2] x2] g2] q2]|e2] w2]; cbn [fst snd] in *; try contradiction; subst; auto.
  destruct E2 as (-> & -> & -> & HJ'). destruct (cb _); auto.
Qed.
Lemma same_run : forall cb n w, run_body E A cb n w = run_body E B cb n w.
Proof.
  intros cb n w. unfold run_body. destruct (cb _); auto. destruct (H0 w) as [E1 E2].
  destruct (exec E (a_init A) w) as [[[[p1 f1] q1]|e] w1], (exec E (a_init B) w) as [[[[p2 f2] q2]|e2] w2]; cbn [fst snd] in *; try contradiction; subst; auto.
  destruct E2 as (-> & HJ). rewrite (Hco _ _ _ _ HJ). destruct (get_best _ _ _ _) as [[xb fxb]|e]; auto. rewrite (same_loop cb n p1 q1 p2 q2 f2 xb fxb w2 [BeforeRun] HJ). reflexivity.
Qed.
End Same.
Lemma same_bind : forall E S T S' T' (R : S -> T -> Prop) (R' : S' -> T' -> Prop) p p' k k' w, same R (exec E p w) (exec E p' w) ->
  (forall a b w', R a b -> same R' (exec E (k a) w') (exec E (k' b) w')) -> same R' (exec E (bind p k) w) (exec E (bind p' k') w).
Proof.
  intros E S T S' T' R R' p p' k k' w [H1 H2] H. rewrite !exec_bind. destruct (exec E p w) as [[a|e] w1], (exec E p' w) as [[b|e2] w2]; cbn [fst snd] in *; try contradiction; subst; [auto|split; reflexivity].
Qed.
Lemma same_refl : forall E S (p : prog S) w, same eq (exec E p w) (exec E p w).
Proof. intros. split; auto. destruct (fst _); auto. Qed.
(** whatever the limits and rates for the parameters are, a run is the run of MultiStrategyDifferentialEvolution with the same settings *)
Theorem C81_msjde_is_msde : forall F E p ss cb n w, let C := e_cfg E in
  run_body E (msjde F C p ss) cb n w = run_body E (ms_de F C p ss) cb n w.
Proof.
  intros F E p ss cb n w C. apply (same_run E (msjde F C p ss) (ms_de F C p ss) (fun p _ p' _ => map fst (p : list jind) = p')).
  - intros a q p' q' <-. reflexivity.
  - intros w0. cbn [a_init msjde ms_de de_like]. unfold jde_init, ind_init. eapply same_bind; [apply same_refl|]. intros [pop fit] b w1 <-. split; [reflexivity|]. cbn [exec fst snd]. split; auto. apply fst_pair_map.
  - intros a q p' q' fit xb fxb w0 <-. cbn [a_iter msjde ms_de de_like]. unfold jde_iteration, de_iteration, de_selection.
    apply same_bind with (R := fun new new' => map fst (new : list jind) = new').
    { unfold msjde_evolve, ms_evolve. rewrite map_length. generalize (seq 0 (length a)). intros is. revert w0. induction is as [|i is IH]; intros w0; cbn [mapM]; [split; reflexivity|].
      eapply same_bind with (R := fun x y => fst (x : jind) = y).
      { pose proof (same_refl E _ (multi_mutations F p ss (map fst a) xb i) w0) as [S1 S2]. rewrite exec_bind. destruct (exec E (multi_mutations F p ss (map fst a) xb i) w0) as [[v|e] w1]; split; auto. }
      intros x y w1 <-. eapply same_bind; [apply IH|]. intros xs ys w2 <-. split; reflexivity. }
    intros new new' w1 <-.
    assert (G : forall w1, exists o, exec E (j_select a new) w1 = (match o with Ret x => Ret x | Raise e => Raise e end, w1) /\
      exec E (de_select (map fst a) (map fst new)) w1 = (match o with Ret x => Ret (map fst (x : list jind)) | Raise e => Raise e end, w1)).
    { cbn [a_pop msjde] in a. clear. revert a. induction new as [|e new IH]; intros a w1; [exists (Ret []); destruct a; split; reflexivity|]. destruct a as [|o a]; [exists (Raise EIndex); split; reflexivity|].
      cbn [j_select de_select map]. rewrite !exec_bind. destruct (IH a w1) as ([r|er] & G1 & G2); rewrite G1, G2; [|exists (Raise er); split; reflexivity].
      exists (Ret ((if fltb (snd (fst e)) (snd (fst o)) then e else o) :: r)). cbn [exec map]. split; auto. unfold de_choose. destruct (fltb _ _); reflexivity. }
    destruct (G w1) as (o & G1 & G2). rewrite !exec_bind, G1, G2. destruct o as [arr|e]; [|split; reflexivity]. rewrite !exec_bind. unfold get_best_i, j_xs, j_fits.
    destruct (get_best _ _ (Some xb) fxb) as [[x1 f1]|e]; [|split; reflexivity]. cbn [lift exec]. rewrite !exec_bind. cbn [exec].
    destruct (get_best _ _ (Some x1) f1) as [[x2 f2]|e]; split; cbn [lift exec fst snd bind]; auto.
Qed.
Theorem C81_msjde : forall F E p ss, let C := e_cfg E in
  cfg_ok C -> 0 < c_dim C -> no_nan (e_prob E) -> repair_ok E -> 0 < de_n p -> ss <> [] ->
  best_run E (msjde F C p ss) /\ sizes_ok (fun n => n = de_n p) E (msjde F C p ss).
Proof.
  intros F E p ss C HC Hd Hn Hr Hp Hs. destruct (C59_multi_strategy F E p ss HC Hd Hn Hr Hp Hs) as [B1 B2]. fold C in B1, B2. split.
  - intros cb n pos r w' ev H. apply (B1 cb n pos r w' ev). rewrite <- H. symmetry. apply C81_msjde_is_msde.
  - intros cb n pos r w' ev H. apply (B2 cb n pos r w' ev). rewrite <- H. symmetry. apply C81_msjde_is_msde.
Qed.
(** every member of every population has the default parameters *)
Theorem C81_default : forall F E p ss, let C := e_cfg E in
  forall s w, reached E (msjde F C p ss) s w -> Forall (fun e : jind => snd e = (flit F 2 1, flit F 1 2)) (r_pop s).
Proof.
  intros F E p ss C s w H. refine (reach_inv (K_tr E) E (msjde F C p ss) (fun s _ => Forall (fun e : jind => snd e = (flit F 2 1, flit F 1 2)) (r_pop s)) (tr_env E) _ s w H).
  constructor.
  - unfold init_prog. cbn [a_init msjde a_coords]. unfold jde_init. apply wp_bind. apply wp_bind. eapply wp_conseq0; [apply wp_any|]. intros [pop fit] l _. apply w_done. cbn beta iota.
    apply wp_bind. apply w_lift_tr. intros [xb fxb] _. apply w_done. cbn [r_pop]. apply Forall_forall. intros e He. apply in_map_iff in He. destruct He as (i & <- & _). reflexivity.
  - intros s0 l H0. unfold iter_prog. cbn [a_iter msjde]. apply wp_bind. unfold jde_iteration. apply wp_bind.
    apply wp_conseq0 with (Q := fun new _ => Forall (fun e : jind => snd e = (flit F 2 1, flit F 1 2)) new).
    { unfold msjde_evolve. apply wp_conseq0 with (Q := fun new _ => Forall (fun e : jind => snd e = (flit F 2 1, flit F 1 2)) new /\ length new = length (seq 0 (length (r_pop s0)))); [|intros ? ? [? _]; auto].
      apply (wp_mapM_acc _ _ _ _ (fun new _ => Forall (fun e : jind => snd e = (flit F 2 1, flit F 1 2)) new)); [constructor|].
      intros pre i post bs l' _ _ Hb. apply wp_bind. eapply wp_conseq0; [apply wp_any|]. intros a l2 _. apply w_done. apply Forall_app. split; auto. }
    intros new l' Hnew. apply wp_bind. apply wp_conseq0 with (Q := fun arr _ => Forall (fun e : jind => snd e = (flit F 2 1, flit F 1 2)) arr).
    { clear - H0 Hnew. revert H0. generalize (r_pop s0 : list jind). intros pop H0. revert pop H0. induction new as [|e new IH]; intros pop H0; [destruct pop; apply w_done; constructor|].
      destruct pop as [|o pop]; [exact I|]. cbn [j_select]. inversion Hnew; inversion H0; subst. apply wp_bind. eapply wp_conseq0; [apply IH; auto|]. intros r l2 Hr. apply w_done. constructor; auto. destruct (fltb _ _); auto. }
    intros arr l2 Ha. apply wp_bind. apply w_lift_tr. intros [x1 f1] _. apply wp_bind. apply w_lift_tr. intros [x2 f2] _. apply w_done. exact Ha.
Qed.

(** ** C82: the (1 + 1) and (mu + 1) evolution strategies *)
(** a product of two numbers that are not negative is not negative in binary64 *)
Definition not_neg_sf (x : spec_float) : Prop := match x with S754_infinity true | S754_finite true _ _ => False | _ => True end.
Lemma round_aux_sign : forall m e l, not_neg_sf (SpecFloat.binary_round_aux 53 1024 false m e l).
Proof.
  intros m e l. unfold SpecFloat.binary_round_aux. destruct (shr_fexp _ _ _ _ _) as [mrs e']. destruct (shr_fexp _ _ _ _ _) as [mrs' e'']. destruct (shr_m mrs'); try exact I. destruct (_ <=? _)%Z; exact I.
Qed.
Lemma normalize_sign : forall z e, (0 <= z)%Z -> not_neg_sf (SpecFloat.binary_normalize 53 1024 z e false).
Proof.
  intros [|m|m] e H; [exact I| |lia]. cbn [SpecFloat.binary_normalize]. unfold SpecFloat.binary_round. destruct (shl_align _ _ _). apply round_aux_sign.
Qed.
Lemma mul_sign : forall x y, not_neg_sf x -> not_neg_sf y -> not_neg_sf (SFmul 53 1024 x y).
Proof.
  intros [s|s| |s m e] [s'|s'| |s' m' e'] Hx Hy; try exact I; destruct s; try contradiction; try destruct s'; try contradiction; try exact I.
  cbn [SFmul xorb]. apply round_aux_sign.
Qed.
Lemma to_sf_sign : forall a, fltb a f0 = false -> not_neg_sf (to_sf a).
Proof. intros [| |z|] H; try exact I; [discriminate|]. cbn [to_sf]. apply normalize_sign. cbn in H. apply Z.ltb_ge in H. exact H. Qed.
Lemma of_sf_sign : forall x, not_neg_sf x -> fltb (of_sf x) f0 = false.
Proof.
  intros [s|[|]| |[|] m e] H; try reflexivity; try contradiction. cbn [of_sf fltb f0]. apply Z.ltb_ge. apply Z.mul_nonneg_nonneg; [lia|]. apply Z.pow_nonneg. lia.
Qed.
Theorem mul64_not_neg : forall a b, fltb a f0 = false -> fltb b f0 = false -> fltb (fmul b64ops a b) f0 = false.
Proof. intros a b Ha Hb. change (fmul b64ops) with (sf2 (SFmul 53 1024)). unfold sf2. apply of_sf_sign. apply mul_sign; apply to_sf_sign; auto. Qed.
(** any arithmetic: the only exceptions of its own are a ZeroDivisionError for k = 0 and a ValueError for a negative standard deviation
    or no mutants *)
Theorem C82_es : forall F E p, let C := e_cfg E in
  cfg_ok C -> no_nan (e_prob E) -> repair_ok E ->
  best_run_x (fun e => (e = EZeroDiv /\ es_k p = 0) \/ e = EValue) E (es F C p) /\ sizes_ok (fun n => n = 1) E (es F C p) /\ steps_ok no_worse_fit E (es F C p).
Proof.
  intros F E p C HC Hn Hr. set (X := fun e => (e = EZeroDiv /\ es_k p = 0) \/ e = EValue). assert (HX : X EValue) by (right; reflexivity).
  refine (all_c (inside C) X (fun n => n = 1) no_worse_fit E (es F C p) (fun pop fit xb fxb _ l => Deco num C 1 (fun _ => True) pop fit xb fxb l) HC Hn Hr _ _ _).
  - apply es_init_c; auto.
  - apply es_iter_c; auto. destruct (Nat.eq_dec (es_k p) 0); [right; left; auto|left; lia].
  - intros pop fit xb fxb u l [D1 D2 D3 D4 D5 D6]. subst fit. rewrite !map_length. auto.
Qed.
(** binary64 with factors that are not negative: no exception of its own *)
Theorem C82_es_64 : forall E p, let C := e_cfg E in
  cfg_ok C -> no_nan (e_prob E) -> repair_ok E -> 0 < es_k p -> 0 < es_mu p -> fltb (es_ca p) f0 = false -> fltb (es_cr p) f0 = false ->
  best_run E (es b64ops C p).
Proof.
  intros E p C HC Hn Hr Hk Hmu Ha Hc.
  refine (proj1 (all_c (inside C) (fun _ => False) (fun n => n = 1) no_worse_fit E (es b64ops C p) (fun pop fit xb fxb _ l => Deco num C 1 (fun r => fltb r f0 = false) pop fit xb fxb l) HC Hn Hr _ _ _)).
  - apply es_init_c; auto.
  - apply es_iter_c; auto. intros r ki H. unfold es_rho. cbv zeta. destruct (fltb (es_phi _ _ _) _); [destruct (fltb _ r); [apply mul64_not_neg; auto|vm_compute; reflexivity]|].
    destruct (fltb _ (es_phi _ _ _)); [|auto]. destruct (fltb _ r); [apply mul64_not_neg; auto|vm_compute; reflexivity].
  - intros pop fit xb fxb u l [D1 D2 D3 D4 D5 D6]. subst fit. rewrite !map_length. auto.
Qed.
(** the current individual is always the best one *)
Theorem C82_current : forall F E p, let C := e_cfg E in
  forall s w, reached E (es F C p) s w -> exists r, r_pop s = [(r_xb s, r_fxb s, r)] /\ r_fit s = [r_fxb s].
Proof.
  intros F E p C s w H. refine (reach_inv (K_tr E) E (es F C p) (fun s _ => exists r, r_pop s = [(r_xb s, r_fxb s, r)] /\ r_fit s = [r_fxb s]) (tr_env E) _ s w H). constructor.
  - unfold init_prog. cbn [a_init es a_coords]. unfold es_init. apply wp_bind. apply wp_bind. eapply wp_conseq0; [apply wp_any|]. intros [x f] l _. apply w_done. cbn beta iota.
    unfold es_xs. cbn [map fst snd]. apply wp_bind. apply w_lift_tr. intros [xb fxb] G. apply w_done. exists (flit F 1 1). cbn [r_pop r_xb r_fxb r_fit].
    unfold get_best in G. cbn [argmin argmin_from] in G. destruct (is_nan f); cbn [nth_error] in G; (destruct (fleb f PInf); [injection G as <- <-; auto|discriminate]).
  - intros s0 l (r & P1 & P2). unfold iter_prog. cbn [a_iter es]. apply wp_bind. unfold es_iter. rewrite P1. apply wp_bind. apply w_view. intros v. apply wp_bind. apply w_nthP_tr. intros c Ec.
    injection Ec as <-. apply wp_bind. apply w_lift_tr. intros due _. cbv zeta. apply wp_bind. eapply wp_conseq0; [apply wp_any|]. intros cn l1 _. apply wp_bind. eapply wp_conseq0; [apply wp_any|]. intros cf l2 _.
    destruct (argmin cf); [|exact I]. apply wp_bind. apply w_nthP_tr. intros y _. apply wp_bind. apply w_nthP_tr. intros g _. destruct (fltb g (r_fxb s0)) eqn:Q.
    + apply wp_bind. unfold get_best1. rewrite (fltb_fleb _ _ Q). apply w_done. apply w_done. cbn. eauto.
    + apply w_done. cbn. eauto.
Qed.
(** the rule for the standard deviation, ki being the number of successes since it was last applied *)
Definition fifth (F : fops) (p : es_par) (ki : nat) (rho rho' : num) : Prop :=
  let phi := fdiv F (fnat F ki) (fnat F (es_k p)) in
  (fltb phi (flit F 1 5) = true -> fltb (es_eps p) rho = true -> rho' = fmul F (es_cr p) rho) /\
  (fltb phi (flit F 1 5) = false -> fltb (flit F 1 5) phi = true -> fltb (es_eps p) rho = true -> rho' = fmul F (es_ca p) rho) /\
  (fltb phi (flit F 1 5) = true \/ fltb (flit F 1 5) phi = true -> fltb (es_eps p) rho = false -> rho' = flit F 1 1) /\
  (fltb phi (flit F 1 5) = false -> fltb (flit F 1 5) phi = false -> rho' = rho).
(** x moved by normal numbers with the standard deviation rho, then repaired *)
Definition es_mutant (F : fops) (E : env) (x : vec) (rho : num) (z : vec) : Prop :=
  fltb rho f0 = false /\ exists g y, length g = length x /\ comps (length x) y (fun j c => c = fadd F (nth j x NaN) (fmul F rho (nth j g NaN))) /\ repaired E y z.
Lemma w_mutate_es_tr : forall E F x rho (Q : vec -> elog -> Prop) l, (forall y, (forall z, repaired E y z -> es_mutant F E x rho z) -> Q y l) -> wp (K_tr E) (es_mutate F x rho) Q l.
Proof.
  intros E F x rho Q l HQ. unfold es_mutate. destruct (fltb rho f0) eqn:Q1; [exact I|]. apply wp_bind. apply w_rnd_f_vec. intros g Lg. apply w_done. apply HQ. intros z Hz.
  split; auto. exists g, (vadd F x (vscale F rho g)). split; auto. split; auto. split; [dl|]. intros j Hj. nths (length x). reflexivity.
Qed.
Lemma w_mutant_tr : forall E F x rho (Q : vec -> elog -> Prop) l, (forall z, es_mutant F E x rho z -> Q z l) -> wp (K_tr E) (let* y := es_mutate F x rho in repair y) Q l.
Proof. intros E F x rho Q l HQ. apply wp_bind. apply w_mutate_es_tr. intros y Hy. apply w_repair_tr. intros z Hz. auto. Qed.
Lemma w_mapM_eval_tr : forall E xs (Q : list num -> elog -> Prop) l, (forall fs l', evaluated_all xs fs l l' -> Q fs l') -> wp (K_tr E) (mapM eval xs) Q l.
Proof. intros E xs Q l HQ. destruct xs as [|x xs]; [apply HQ; constructor|]. change (mapM eval (x :: xs)) with (eval_all (x :: xs)). apply w_eval_all_tr; auto. Qed.
Lemma argmin_first : forall cf b g, argmin cf = Some b -> nth_error cf b = Some g -> ~ In NaN cf -> first_min cf b g.
Proof.
  intros cf b g H1 H2 Hn. destruct (argmin_spec cf) as (b' & m & E & M); [intros ->; discriminate|apply Forall_forall; intros v Hv ->; auto|]. rewrite H1 in E. injection E as <-.
  assert (M1 := proj1 M). rewrite H2 in M1. injection M1 as <-. exact M.
Qed.
(** [it] iterations are complete; the individual (x, f) with the standard deviation rho0 becomes (x', f') with rho *)
Definition es_eq (F : fops) (E : env) (p : es_par) (it : nat) (x : vec) (f rho0 : num) (ki : nat) (x' : vec) (f' rho : num) (ki' : nat) (l l' : elog) : Prop :=
  es_k p <> 0 /\ exists ki0 cn cf b m,
  ((S it mod es_k p = 0 /\ fifth F p ki rho0 rho /\ ki0 = 0) \/ (S it mod es_k p <> 0 /\ rho = rho0 /\ ki0 = ki)) /\
  length cn = es_mu p /\ Forall (es_mutant F E x rho) cn /\ evaluated_all cn cf l l' /\
  nth_error cf b = Some m /\ (~ In NaN cf -> first_min cf b m) /\
  ((fltb m f = true /\ nth_error cn b = Some x' /\ f' = m /\ ki' = S ki0) \/ (fltb m f = false /\ x' = x /\ f' = f /\ ki' = ki0)).
Theorem C82_step : forall F E p x f rho0 xb fxb ki pop' fit' xb' fxb' ki' wd wd', let C := e_cfg E in
  exec E (a_iter (es F C p) [(x, f, rho0)] [f] xb fxb ki) wd = (Ret (pop', fit', xb', fxb', ki'), wd') ->
  exists x' f' rho, pop' = [(x', f', rho)] /\ fit' = [f'] /\
    es_eq F E p (t_iters (w_ts wd)) x f rho0 ki x' f' rho ki' (log_of (c_opt C) (w_h wd)) (log_of (c_opt C) (w_h wd')) /\
    (fltb f' f = true /\ fltb f' fxb = true /\ xb' = x' /\ fxb' = f' \/ (fltb f' f = false \/ fltb f' fxb = false) /\ xb' = xb /\ fxb' = fxb \/ x' = x /\ f' = f /\ xb' = xb /\ fxb' = fxb).
Proof.
  intros F E p x f rho0 xb fxb ki pop' fit' xb' fxb' ki' wd wd' C Ex. cbn [a_iter es] in Ex. unfold es_iter in Ex. rewrite exec_view in Ex. set (it := t_iters (w_ts wd)) in *. cbn [v_iters nthP nth_error] in Ex.
  set (l := log_of (c_opt C) (w_h wd)).
  apply (tr_sound _ E _ (fun s l' => let '(pop', fit', xb', fxb', ki') := s in exists x' f' rho, pop' = [(x', f', rho)] /\ fit' = [f'] /\ es_eq F E p it x f rho0 ki x' f' rho ki' l l' /\
    (fltb f' f = true /\ fltb f' fxb = true /\ xb' = x' /\ fxb' = f' \/ (fltb f' f = false \/ fltb f' fxb = false) /\ xb' = xb /\ fxb' = fxb \/ x' = x /\ f' = f /\ xb' = xb /\ fxb' = fxb)) _ _ _) in Ex; [exact Ex|]. fold C l.
  clear. apply wp_bind. apply w_done. cbn beta iota. apply wp_bind. apply w_lift_tr. intros due Hd. cbv zeta.
  assert (Hk : es_k p <> 0) by (intros Q; unfold es_due in Hd; rewrite Q in Hd; discriminate).
  assert (Hdue : due = (S it mod es_k p =? 0)) by (unfold es_due in Hd; destruct (es_k p); [congruence|]; injection Hd as <-; reflexivity).
  set (rho := if due then es_rho F p rho0 ki else rho0). set (ki0 := if due then 0 else ki).
  assert (G : (S it mod es_k p = 0 /\ fifth F p ki rho0 rho /\ ki0 = 0) \/ (S it mod es_k p <> 0 /\ rho = rho0 /\ ki0 = ki)).
  { unfold rho, ki0. rewrite Hdue. destruct (Nat.eqb_spec (S it mod es_k p) 0); [left|right; auto]. split; auto. split; auto. unfold fifth, es_rho. fold (es_phi F p ki).
    destruct (fltb (es_phi F p ki) _); destruct (fltb _ (es_phi F p ki)); destruct (fltb (es_eps p) rho0); repeat split; intros; try reflexivity; try discriminate; destruct H; discriminate. }
  clearbody rho ki0. apply wp_bind. apply wp_conseq0 with (Q := fun cn l' => (l' = l /\ Forall (es_mutant F E x rho) cn) /\ length cn = es_mu p).
  { apply (wp_repeatM _ _ _ (fun cn l' => l' = l /\ Forall (es_mutant F E x rho) cn)); [auto|]. intros bs l' _ [-> Hb]. apply w_mutant_tr. intros z Hz. split; auto. apply Forall_app; auto. }
  intros cn l0 [[-> Hcn] Lcn]. apply wp_bind. apply w_mapM_eval_tr. intros cf l' Hev. destruct (argmin cf) as [b|] eqn:Eb; [|exact I].
  apply wp_bind. apply w_nthP_tr. intros y Ey. apply wp_bind. apply w_nthP_tr. intros g Eg. assert (Hm := argmin_first cf b g Eb Eg).
  destruct (fltb g f) eqn:Q1.
  - apply wp_bind. destruct (fltb g fxb) eqn:Q2.
    + unfold get_best1. rewrite (fltb_fleb _ _ Q2). apply w_done. apply w_done. exists y, g, rho. split; auto. split; auto. split; [|left; auto]. split; auto. exists ki0, cn, cf, b, g. repeat (split; [assumption|]). left. auto.
    + apply w_done. apply w_done. exists y, g, rho. split; auto. split; auto. split; [|right; left; auto]. split; auto. exists ki0, cn, cf, b, g. repeat (split; [assumption|]). left. auto.
  - apply w_done. exists x, f, rho. split; auto. split; auto. split; [|right; right; auto]. split; auto. exists ki0, cn, cf, b, g. repeat (split; [assumption|]). right. auto.
Qed.

(** ** C83: the (mu + lambda) and (mu, lambda) evolution strategies *)
Theorem C83_mpl : forall F E p, let C := e_cfg E in
  cfg_ok C -> no_nan (e_prob E) -> repair_ok E -> 0 < es_mu p ->
  best_run_x (fun e => (e = EZeroDiv /\ es_k p = 0) \/ e = EValue) E (es_mpl F C p) /\ sizes_ok (fun n => n = es_mu p) E (es_mpl F C p).
Proof.
  intros F E p C HC Hn Hr Hmu. set (X := fun e => (e = EZeroDiv /\ es_k p = 0) \/ e = EValue). assert (HX : X EValue) by (right; reflexivity).
  refine (all2_c (inside C) X (fun n => n = es_mu p) E (es_mpl F C p) (fun pop fit xb fxb _ l => Deco num C (es_mu p) (fun _ => True) pop fit xb fxb l) HC Hn Hr _ _ _).
  - apply (deco_init num C (es_mu p) (fun _ => True)); auto.
  - apply mpl_iter_c; auto. destruct (Nat.eq_dec (es_k p) 0); [right; left; auto|left; lia].
  - intros pop fit xb fxb u l [D1 D2 D3 D4 D5 D6]. subst fit. rewrite !map_length. auto.
Qed.
Theorem C83_mpl_64 : forall E p, let C := e_cfg E in
  cfg_ok C -> no_nan (e_prob E) -> repair_ok E -> 0 < es_k p -> 0 < es_mu p -> fltb (es_ca p) f0 = false -> fltb (es_cr p) f0 = false ->
  best_run E (es_mpl b64ops C p).
Proof.
  intros E p C HC Hn Hr Hk Hmu Ha Hc.
  refine (proj1 (all2_c (inside C) (fun _ => False) (fun n => n = es_mu p) E (es_mpl b64ops C p) (fun pop fit xb fxb _ l => Deco num C (es_mu p) (fun r => fltb r f0 = false) pop fit xb fxb l) HC Hn Hr _ _ _)).
  - apply (deco_init num C (es_mu p) (fun r => fltb r f0 = false)); auto.
  - apply mpl_iter_c; auto. intros r H. split; apply mul64_not_neg; auto.
  - intros pop fit xb fxb u l [D1 D2 D3 D4 D5 D6]. subst fit. rewrite !map_length. auto.
Qed.
Theorem C83_ml : forall F E p, let C := e_cfg E in
  cfg_ok C -> no_nan (e_prob E) -> repair_ok E -> 0 < es_mu p -> 0 < es_lam p -> fltb (flit F 1 1) f0 = false ->
  best_run E (es_ml F C p) /\ sizes_ok (fun n => n = es_mu p) E (es_ml F C p).
Proof.
  intros F E p C HC Hn Hr Hmu Hl H1.
  refine (all2_c (inside C) (fun _ => False) (fun n => n = es_mu p) E (es_ml F C p) (fun pop fit xb fxb _ l => Deco num C (es_mu p) (fun r => fltb r f0 = false) pop fit xb fxb l) HC Hn Hr _ _ _).
  - apply (deco_init num C (es_mu p) (fun r => fltb r f0 = false)); auto.
  - apply ml_iter_c; auto.
  - intros pop fit xb fxb u l [D1 D2 D3 D4 D5 D6]. subst fit. rewrite !map_length. auto.
Qed.
(** a child of a random member: mutated, repaired, repaired again by the constructor, evaluated; its standard deviation is 1 *)
Inductive born (F : fops) (E : env) (mu : nat) (pop : list eind) : list eind -> elog -> elog -> Prop :=
| born_nil : forall l, born F E mu pop [] l l
| born_snoc : forall ch l l1 l2 i x f r z y v, born F E mu pop ch l l1 -> i < mu -> nth_error pop i = Some (x, f, r) -> es_mutant F E x r z -> repaired E z y -> evaluated y v l1 l2 ->
    born F E mu pop (ch ++ [(y, v, flit F 1 1)]) l l2.
Lemma w_born_tr : forall E F p pop (Q : list eind -> elog -> Prop) l, (forall ch l', born F E (es_mu p) pop ch l l' -> length ch = es_lam p -> Q ch l') -> wp (K_tr E) (repeatM (es_lam p) (es_child F p pop)) Q l.
Proof.
  intros E F p pop Q l HQ. apply wp_conseq0 with (Q := fun ch l' => born F E (es_mu p) pop ch l l' /\ length ch = es_lam p); [|intros ch l' []; auto].
  apply (wp_repeatM _ _ _ (fun ch l' => born F E (es_mu p) pop ch l l')); [constructor|]. intros bs l1 _ Hb. unfold es_child. apply wp_bind. apply w_integers_tr. intros i Hi.
  apply wp_bind. apply w_nthP_tr. intros [[x f] r] Ee. cbn [fst snd].
  apply wp_bind. apply w_mutate_es_tr. intros y0 H0. apply wp_bind. apply w_repair_tr. intros z Hz. apply wp_bind. unfold new_ind. apply w_ind_evaluate_tr. intros y v l2 Hy Hv. apply w_done.
  econstructor; eauto.
Qed.
(** every standard deviation by the same factor, without a test against epsilon *)
Definition all_fifth (F : fops) (p : es_par) (ki : nat) (pop pop' : list eind) : Prop :=
  let phi := fdiv F (fnat F ki) (fnat F (es_k p)) in
  Forall2 (fun e e' : eind => fst e' = fst e /\
    (fltb phi (flit F 1 5) = true -> snd e' = fmul F (es_cr p) (snd e)) /\
    (fltb phi (flit F 1 5) = false -> fltb (flit F 1 5) phi = true -> snd e' = fmul F (es_ca p) (snd e)) /\
    (fltb phi (flit F 1 5) = false -> fltb (flit F 1 5) phi = false -> snd e' = snd e)) pop pop'.
(** how many of the list satisfy P *)
Inductive counted {A} (P : A -> Prop) : list A -> nat -> Prop :=
| cnt_nil : counted P [] 0
| cnt_yes : forall a l n, P a -> counted P l n -> counted P (a :: l) (S n)
| cnt_no : forall a l n, ~ P a -> counted P l n -> counted P (a :: l) n.
(** the members (true) and the children (false) compete; [kept] are the best mu of them in increasing order *)
Definition survive (mu : nat) (pop ch : list eind) (kept : list (eind * bool)) : Prop :=
  exists rest, Permutation (kept ++ rest) (map (fun e => (e, false)) ch ++ map (fun e => (e, true)) pop) /\ length kept = Nat.min mu (length ch + length pop) /\
    StronglySorted (fun a b : eind * bool => key_le (snd (fst (fst a))) (snd (fst (fst b))) = true) (kept ++ rest).
Definition mpl_eq (F : fops) (E : env) (p : es_par) (it : nat) (pop0 : list eind) (ki : nat) (xb : vec) (fxb : num)
  (pop' : list eind) (ki' : nat) (xb' : vec) (fxb' : num) (l l' : elog) : Prop :=
  es_k p <> 0 /\ exists pop ki0 ch kept n,
  ((S it mod es_k p = 0 /\ all_fifth F p ki pop0 pop /\ ki0 = 0) \/ (S it mod es_k p <> 0 /\ pop = pop0 /\ ki0 = ki)) /\
  born F E (es_mu p) pop ch l l' /\ length ch = es_lam p /\ survive (es_mu p) pop ch kept /\ pop' = map fst kept /\
  counted (fun e => snd e = false /\ forall o, In o pop -> ind_eq (fst (fst e)) (fst o) = false) kept n /\ ki' = ki0 + n /\
  get_best (map fst (map fst pop')) (map snd (map fst pop')) (Some xb) fxb = Ret (xb', fxb').
Lemma counted_filter : forall A (P : A -> Prop) f (l : list A), (forall a, f a = true <-> P a) -> counted P l (length (filter f l)).
Proof.
  intros A P f l H. induction l as [|a l IH]; [constructor|]. cbn [filter]. destruct (f a) eqn:Q; cbn [length]; constructor; auto; [apply H; auto|]. intros HP. apply H in HP. congruence.
Qed.
Theorem C83_mpl_step : forall F E p pop fit xb fxb ki pop' fit' xb' fxb' ki' wd wd', let C := e_cfg E in
  exec E (a_iter (es_mpl F C p) pop fit xb fxb ki) wd = (Ret (pop', fit', xb', fxb', ki'), wd') ->
  mpl_eq F E p (t_iters (w_ts wd)) pop ki xb fxb pop' ki' xb' fxb' (log_of (c_opt C) (w_h wd)) (log_of (c_opt C) (w_h wd')) /\ fit' = map snd (map fst pop').
Proof.
  intros F E p pop0 fit xb fxb ki pop' fit' xb' fxb' ki' wd wd' C Ex. cbn [a_iter es_mpl] in Ex. unfold mpl_iter in Ex. rewrite exec_view in Ex. set (it := t_iters (w_ts wd)) in *. cbn [v_iters] in Ex.
  set (l := log_of (c_opt C) (w_h wd)).
  apply (tr_sound _ E _ (fun s l' => let '(pop', fit', xb', fxb', ki') := s in mpl_eq F E p it pop0 ki xb fxb pop' ki' xb' fxb' l l' /\ fit' = map snd (map fst pop')) _ _ _) in Ex; [exact Ex|]. fold C l. clear.
  apply wp_bind. apply w_lift_tr. intros due Hd. cbv zeta.
  assert (Hk : es_k p <> 0) by (intros Q; unfold es_due in Hd; rewrite Q in Hd; discriminate).
  assert (Hdue : due = (S it mod es_k p =? 0)) by (unfold es_due in Hd; destruct (es_k p); [congruence|]; injection Hd as <-; reflexivity).
  set (pop := if due then mpl_rho F p pop0 ki else pop0). set (ki0 := if due then 0 else ki).
  assert (G : (S it mod es_k p = 0 /\ all_fifth F p ki pop0 pop /\ ki0 = 0) \/ (S it mod es_k p <> 0 /\ pop = pop0 /\ ki0 = ki)).
  { unfold pop, ki0. rewrite Hdue. destruct (Nat.eqb_spec (S it mod es_k p) 0); [left|right; auto]. split; auto. split; auto. unfold all_fifth, mpl_rho. fold (es_phi F p ki).
    destruct (fltb (es_phi F p ki) _); destruct (fltb _ (es_phi F p ki)); clear; induction pop0 as [|e pop0 IH]; cbn [map]; constructor; auto; cbn [fst snd]; repeat split; intros; try reflexivity; discriminate. }
  clearbody pop ki0. apply wp_bind. apply w_born_tr. intros ch l' Hch Lch.
  set (key := fun e : eind * bool => snd (fst (fst e))). set (all := map (fun e => (e, false)) ch ++ map (fun e => (e, true)) pop). set (kept := firstn (es_mu p) (sort_on key all)).
  apply wp_bind. apply w_lift_tr. intros [x1 f1] Gb. apply w_done. split; [|reflexivity]. split; auto. exists pop, ki0, ch, kept, (change_count pop kept). split; auto. split; auto. split; auto. split.
  - exists (skipn (es_mu p) (sort_on key all)). unfold kept. rewrite firstn_skipn. split; [apply Permutation_sym, sort_on_perm|]. split; [|apply (sort_on_sorted _ key)].
    rewrite firstn_length, sort_on_length. unfold all. rewrite app_length, !map_length. reflexivity.
  - split; auto. split; [|split; [reflexivity|exact Gb]]. unfold change_count. apply counted_filter. intros [e [|]]; cbn [fst snd orb negb]; [split; [discriminate|intros [? _]; discriminate]|].
    rewrite Bool.negb_true_iff. split.
    + intros Q. split; auto. intros o Ho. destruct (ind_eq (fst e) (fst o)) eqn:Q2; auto. assert (T : existsb (fun o => ind_eq (fst e) (fst o)) pop = true) by (apply existsb_exists; eauto). rewrite T in Q. discriminate.
    + intros [_ H]. destruct (existsb _ pop) eqn:Q; auto. apply existsb_exists in Q. destruct Q as (o & O1 & O2). rewrite H in O2; auto.
Qed.
(** (mu, lambda): every standard deviation of every population is 1 *)
Theorem C83_ml_rho : forall F E p, let C := e_cfg E in
  forall s w, reached E (es_ml F C p) s w -> Forall (fun e : eind => snd e = flit F 1 1) (r_pop s) /\ r_par s = 0.
Proof.
  intros F E p C s w H. refine (reach_inv (K_tr E) E (es_ml F C p) (fun s _ => Forall (fun e : eind => snd e = flit F 1 1) (r_pop s) /\ r_par s = 0) (tr_env E) _ s w H). constructor.
  - unfold init_prog. cbn [a_init es_ml a_coords]. unfold mpl_init. apply wp_bind. apply wp_bind. eapply wp_conseq0; [apply wp_any|]. intros [pop fit] l _. apply w_done. cbn beta iota.
    apply wp_bind. apply w_lift_tr. intros [xb fxb] _. apply w_done. cbn [r_pop r_par]. split; auto. apply Forall_forall. intros e He. apply in_map_iff in He. destruct He as (i & <- & _). reflexivity.
  - intros s0 l [_ H1]. unfold iter_prog. cbn [a_iter es_ml]. apply wp_bind. unfold ml_iter. apply wp_bind. apply w_born_tr. intros ch l' Hch Lch. apply wp_bind.
    apply (w_ml_new_pop p); auto; [right; exact I|]. intros _ new [N1 N2]. apply wp_bind. apply w_lift_tr. intros [x1 f1] _. apply w_done. cbn [r_pop r_par]. split; auto.
    assert (Hr : Forall (fun e : eind => snd e = flit F 1 1) ch) by (clear - Hch; induction Hch; auto; apply Forall_app; auto).
    rewrite Forall_forall in *. intros e He. change (In e new) in He. apply Hr. destruct N2 as [[_ ->]|[_ N2]]; [apply firstn_In in He; apply sort_on_In in He; auto|]. apply In_nth_error in He. destruct He as (j & Hj).
    assert (j < es_mu p) by (rewrite <- N1; apply nth_error_Some; congruence). rewrite N2 in Hj; auto. eapply nth_error_In; eauto.
Qed.
(** the members that survive when there are more children than places *)
Definition best_of (mu : nat) (ch new : list eind) : Prop :=
  exists rest, Permutation (new ++ rest) ch /\ length new = mu /\ StronglySorted (fun a b : eind => key_le (snd (fst a)) (snd (fst b)) = true) (new ++ rest).
Theorem C83_ml_step : forall F E p pop fit xb fxb ki pop' fit' xb' fxb' ki' wd wd', let C := e_cfg E in
  exec E (a_iter (es_ml F C p) pop fit xb fxb ki) wd = (Ret (pop', fit', xb', fxb', ki'), wd') ->
  exists ch, born F E (es_mu p) pop ch (log_of (c_opt C) (w_h wd)) (log_of (c_opt C) (w_h wd')) /\ length ch = es_lam p /\ es_lam p <> 0 /\
    (es_mu p < es_lam p -> best_of (es_mu p) ch pop') /\
    (es_lam p <= es_mu p -> length pop' = es_mu p /\ forall j, j < es_mu p -> nth_error pop' j = nth_error ch (j mod es_lam p)) /\
    fit' = map snd (map fst pop') /\ get_best (map fst (map fst pop')) fit' (Some xb) fxb = Ret (xb', fxb') /\ ki' = ki.
Proof.
  intros F E p pop fit xb fxb ki pop' fit' xb' fxb' ki' wd wd' C Ex. set (l := log_of (c_opt C) (w_h wd)).
  apply (tr_sound _ E _ (fun s l' => let '(pop', fit', xb', fxb', ki') := s in exists ch, born F E (es_mu p) pop ch l l' /\ length ch = es_lam p /\ es_lam p <> 0 /\
    (es_mu p < es_lam p -> best_of (es_mu p) ch pop') /\ (es_lam p <= es_mu p -> length pop' = es_mu p /\ forall j, j < es_mu p -> nth_error pop' j = nth_error ch (j mod es_lam p)) /\
    fit' = map snd (map fst pop') /\ get_best (map fst (map fst pop')) fit' (Some xb) fxb = Ret (xb', fxb') /\ ki' = ki) _ _ _) in Ex; [exact Ex|]. fold C l. clear.
  cbn [a_iter es_ml]. unfold ml_iter. apply wp_bind. apply w_born_tr. intros ch l' Hch Lch. apply wp_bind. apply (w_ml_new_pop p); auto; [right; exact I|]. intros Hl new [N1 N2].
  apply wp_bind. apply w_lift_tr. intros [x1 f1] Gb. apply w_done. exists ch. split; auto. split; auto. split; [lia|]. split; [|split].
  - intros Hlt. destruct N2 as [[_ ->]|[Hle _]]; [|lia]. exists (skipn (es_mu p) (sort_on (fun e : eind => snd (fst e)) ch)). rewrite firstn_skipn.
    split; [apply Permutation_sym, sort_on_perm|]. split; [exact N1|apply (sort_on_sorted _ (fun e : eind => snd (fst e)))].
  - intros Hle. destruct N2 as [[Hlt _]|[_ N2]]; [lia|]. auto.
  - split; auto.
Qed.
(** (mu + lambda) without children: no evaluation is made, so a limit on the evaluations is never reached *)
Theorem C83_mpl_endless : forall F E p s w, let C := e_cfg E in 0 < es_mu p -> 0 < es_k p -> es_lam p = 0 -> c_max_iters C = LInf ->
  state_after E (es_mpl F C p) 0 = Some (s, w) -> length (r_pop s : list eind) = es_mu p -> stopping_condition C (w_ts w) = false -> never_ends E (es_mpl F C p).
Proof.
  intros F E p s w C Hmu Hk Hl Hi S0 L1 St. apply (quiet_endless E (es_mpl F C p) (fun s => length (r_pop s : list eind) = es_mu p) s w Hi); auto.
  clear s w S0 L1 St. intros s L1. cbn [a_iter es_mpl]. unfold mpl_iter. apply quiet_bind. cbn [view quiet]. intros v. apply quiet_bind. unfold es_due. destruct (es_k p) as [|k]; [lia|]. cbn [lift quiet]. cbv zeta.
  rewrite Hl. cbn [repeatM]. apply quiet_bind. cbn [quiet map app].
  match goal with |- context [mpl_rho F p (r_pop s) ?ki] => set (pop := if (S (v_iters v) mod S k =? 0) then mpl_rho F p (r_pop s) ki else r_pop s) end.
  assert (L2 : length pop = es_mu p). { unfold pop. destruct (_ =? _); auto. rewrite <- (map_length fst). rewrite mpl_rho_fst, map_length. auto. } clearbody pop.
  set (cn := firstn (es_mu p) (sort_on (fun e : eind * bool => snd (fst (fst e))) (map (fun e => (e, true)) pop))).
  assert (L3 : length cn = es_mu p) by (unfold cn; rewrite firstn_length, sort_on_length, map_length; lia). clearbody cn.
  apply quiet_bind. unfold get_best, es_fits, es_xs. destruct (argmin (map snd (map fst (map fst cn)))) as [b|] eqn:Q1; [|destruct cn; [simpl in L3; lia|discriminate]].
  apply argmin_range in Q1. destruct (nth_error (map snd (map fst (map fst cn))) b) as [f|] eqn:Q2; [|apply nth_error_None in Q2; lia].
  destruct (fleb f (r_fxb s)); [|cbn [lift quiet r_pop]; rewrite map_length; auto]. rewrite !map_length in Q1.
  destruct (nth_error (map fst (map fst (map fst cn))) b) as [x|] eqn:Q3; [|apply nth_error_None in Q3; rewrite !map_length in Q3; lia]. cbn [lift quiet r_pop]. rewrite map_length. auto.
Qed.

(** ** The hypotheses are met, and the models at work *)
Module ExMod.
  Definition C9 := Cfg Minimization 2 [N' 0; N' 0] [N' 1; N' 1] (LFin 13) (LFin 4) NInf.
  Definition E9 := exenv C9 lin.
  (** no limit on the iterations *)
  Definition CE := Cfg Minimization 2 [N' 0; N' 0] [N' 1; N' 1] (LFin 13) LInf NInf.
  Definition EE := exenv CE lin.
  (** more room *)
  Definition C3 := Cfg Minimization 2 [N' (-3); N' (-3)] [N' 3; N' 3] (LFin 40) (LFin 6) NInf.
  Definition E3 := exenv C3 sq.
  Definition jp := JDEPar 4 Rand1 (q 1 4) (q 1 1) (q 1 2) (q 3 8).
  Definition mp := DEPar 4 (q 1 2) (q 3 4) Rand1.
  Definition ep := ESPar 3 2 (q 5 4) (q 3 4) (q 1 8) 2.
  Lemma C9_ok : cfg_ok C9.
  Proof. split; [reflexivity|]. split; [reflexivity|]. repeat constructor. Qed.
  Lemma CE_ok : cfg_ok CE.
  Proof. split; [reflexivity|]. split; [reflexivity|]. repeat constructor. Qed.
  Lemma C3_ok : cfg_ok C3.
  Proof. split; [reflexivity|]. split; [reflexivity|]. repeat constructor. Qed.
  Example hyps : cfg_ok C9 /\ no_nan (e_prob E9) /\ repair_ok E9 /\ 0 < c_dim C9 /\ 0 < jd_n jp /\ 0 < de_n mp /\ [Rand1; Best2] <> [] /\ 0 < es_k ep /\ 0 < es_mu ep /\ 0 < es_lam ep /\
    fltb (flit fxx 1 1) f0 = false /\ fltb (flit b64ops 1 1) f0 = false /\ fltb (es_ca ep) f0 = false /\ fltb (es_cr ep) f0 = false.
  Proof.
    split; [exact C9_ok|]. split; [apply lin_no_nan|]. split; [exact (clip_ok C9 lin fl8 in7 C9_ok)|].
    repeat (split; [vm_compute; solve [reflexivity|discriminate|lia]|]). vm_compute. reflexivity.
  Qed.
  Example hyps3 : cfg_ok C3 /\ no_nan (e_prob E3) /\ repair_ok E3.
  Proof. split; [exact C3_ok|]. split; [apply sq_no_nan|]. exact (clip_ok C3 sq fl8 in7 C3_ok). Qed.
  (** the limits of C80_params_64 *)
  Example hyps64 : is64 (jd_lo jp) /\ is64 (jd_up jp) /\ fleb (jd_lo jp) (jd_up jp) = true /\ exists d, fsub b64ops (jd_up jp) (jd_lo jp) = Fin d.
  Proof. split; [vm_compute; reflexivity|]. split; [vm_compute; reflexivity|]. split; [vm_compute; reflexivity|]. eexists. vm_compute. reflexivity. Qed.
  Example jde_trace : trace E9 (jde fxx C9 jp) 9 =
    (Ret ([0; 0], 0), [[8192; 40960]; [24576; 40960]; [57344; 57344]; [40960; 24576]; [24576; 65536]; [0;
    24576]; [23552; 57344]; [53344; 24576]; [65536; 65536]; [65536; 24576]; [22464; 57344]; [65536; 24576];
    [0; 0]])%Z.
  Proof. vm_compute. reflexivity. Qed.
  Example jde_trace64 : trace E3 (jde b64ops C3 jp) 9 =
    (Ret ([(-8192); 24576], 10240), [[8192; 40960]; [24576; 40960]; [57344; 57344]; [40960; 24576]; [24576;
    90112]; [(-8192); 24576]; [23552; 57344]; [53344; 24576]; [104448; 90112]; [139264; 24576]; [22464;
    57344]; [196608; 24576]; [(-20352); (-40960)]; [(-100160); (-73728)]; [(-95322); (-93184)]; [40960;
    (-26400)]; [(-45184); 90112]; [(-149824); 188416]; [56170; 3072]; [(-38660); 24576]; [(-196608); 67584];
    [196608; (-104448)]; [(-196608); 3072]; [(-196608); 24576]; [(-196608); 67584]; [(-196608); 153600];
    [(-196608); 3072]; [(-38660); 196608]])%Z.
  Proof. vm_compute. reflexivity. Qed.
  Example msjde_trace : trace E9 (msjde fxx C9 mp [Rand1; Best2]) 9 =
    (Ret ([16384; 0], 16384), [[8192; 40960]; [24576; 40960]; [57344; 57344]; [40960; 24576]; [49152; 65536];
    [0; 40960]; [16384; 16384]; [40960; 40960]; [16384; 57344]; [8192; 57344]; [65536; 24576]; [8192; 24576];
    [16384; 0]])%Z.
  Proof. vm_compute. reflexivity. Qed.
  Example es_trace : trace E9 (es fxx C9 ep) 9 =
    (Ret ([8192; 40960], 90112), [[8192; 40960]; [32768; 65536]; [65536; 65536]; [49152; 65536]; [38912;
    47104]; [51200; 47104]; [26624; 59392]; [14336; 65536]; [14336; 65536]; [26624; 65536]; [40448; 65536];
    [31232; 54784]; [31232; 45568]])%Z.
  Proof. vm_compute. reflexivity. Qed.
  Example es_trace64 : trace E3 (es b64ops C3 ep) 9 =
    (Ret ([8192; 40960], 26624), [[8192; 40960]; [32768; 81920]; [65536; 98304]; [49152; 65536]; [38912;
    47104]; [51200; 47104]; [26624; 59392]; [14336; 83968]; [14336; 71680]; [26624; 71680]; [40448; 73216];
    [31232; 54784]; [31232; 45568]; [40448; 45568]; [22016; 54784]; [12800; 73216]; [11648; 58240]; [18560;
    58240]; [32384; 65152]])%Z.
  Proof. vm_compute. reflexivity. Qed.
  Example mpl_trace : trace E9 (es_mpl fxx C9 ep) 9 =
    (Ret ([8192; 40960], 90112), [[8192; 40960]; [24576; 40960]; [57344; 57344]; [65536; 65536]; [65536;
    65536]; [38912; 47104]; [38912; 59392]; [51200; 65536]; [43008; 65536]; [32256; 65536]; [49152; 65536]])%Z.
  Proof. vm_compute. reflexivity. Qed.
  Example mpl_trace64 : trace E3 (es_mpl b64ops C3 ep) 9 =
    (Ret ([8192; 40960], 26624), [[8192; 40960]; [24576; 40960]; [57344; 57344]; [81920; 81920]; [114688;
    65536]; [38912; 47104]; [38912; 59392]; [51200; 83968]; [43008; 71680]; [32256; 79360]; [49152; 118784];
    [69632; 77824]; [61952; 48640]; [36992; 46720]; [36992; 58240]])%Z.
  Proof. vm_compute. reflexivity. Qed.
  Example ml_trace : trace E9 (es_ml fxx C9 ep) 9 =
    (Ret ([8192; 40960], 90112), [[8192; 40960]; [24576; 40960]; [57344; 57344]; [65536; 65536]; [65536;
    65536]; [65536; 65536]; [65536; 65536]; [65536; 65536]; [65536; 65536]; [65536; 65536]; [65536; 65536]])%Z.
  Proof. vm_compute. reflexivity. Qed.
  Example ml_trace64 : trace E3 (es_ml b64ops C3 (ESPar 2 2 (q 5 4) (q 3 4) (q 1 8) 4)) 9 =
    (Ret ([8192; 40960], 26624), [[8192; 40960]; [24576; 40960]; [65536; 49152]; [65536; 49152]; [65536;
    65536]; [65536; 98304]; [90112; 90112]; [73728; 90112]; [73728; 106496]; [90112; 73728]; [147456; 81920];
    [131072; 81920]; [114688; 114688]; [131072; 147456]; [139264; 155648]; [139264; 122880]; [139264; 139264];
    [139264; 139264]; [196608; 147456]; [180224; 131072]; [180224; 147456]; [196608; 196608]; [196608;
    172032]; [188416; 172032]; [188416; 196608]; [196608; 172032]])%Z.
  Proof. vm_compute. reflexivity. Qed.
  (** the mutants are better *)
  Definition CM := Cfg Maximization 2 [N' (-3); N' (-3)] [N' 3; N' 3] (LFin 13) (LFin 6) PInf.
  Definition EM := exenv CM lin.
  Example es_trace_max : trace EM (es b64ops CM ep) 9 =
    (Ret ([196608; 196608], 589824), [[8192; 40960]; [32768; 81920]; [65536; 98304]; [49152; 65536]; [116736;
    108544]; [137216; 108544]; [96256; 129024]; [147456; 180224]; [147456; 159744]; [167936; 159744]; [196608;
    196608]; [196608; 196608]; [196608; 193024]])%Z.
  Proof. vm_compute. reflexivity. Qed.
  Example mpl_trace_max : trace EM (es_mpl b64ops CM ep) 9 =
    (Ret ([196608; 192512], 581632), [[8192; 40960]; [24576; 40960]; [57344; 57344]; [81920; 81920]; [114688;
    65536]; [133120; 92160]; [133120; 112640]; [190464; 169984]; [157696; 133120]; [167936; 184320]; [143360;
    184320]; [167936; 196608]; [196608; 192512]])%Z.
  Proof. vm_compute. reflexivity. Qed.
  (** states for the step theorems *)
  Definition w0 := World (task_init C9) [] 0.
  Definition sv (x : vec) : list Z := map scl x.
  Definition pop : list jind := [([q 1 2; q 1 4], q 3 4, (q 2 1, q 1 2)); ([q 1 1; q 0 1], q 1 1, (q 1 2, q 1 4)); ([q 0 1; q 1 8], q 1 8, (q 3 4, q 7 8)); ([q 3 4; q 3 4], q 3 2, (q 2 1, q 1 2))].
  Definition epop : list eind := [([q 1 2; q 1 4], q 3 4, q 1 1); ([q 1 1; q 0 1], q 1 1, q 1 2); ([q 0 1; q 1 8], q 1 8, q 3 4)].
  Definition sj (e : jind) := (sv (fst (fst e)), scl (snd (fst e)), (scl (fst (snd e)), scl (snd (snd e)))).
  Definition se (e : eind) := (sv (fst (fst e)), scl (snd (fst e)), scl (snd e)).
  Definition shown {A B} (f : A -> B) (r : outcome A * world) : outcome B := match fst r with Ret a => Ret (f a) | Raise e => Raise e end.
  Example state_ok : Forall (fun e : jind => length (fst (fst e)) = c_dim C9) pop.
  Proof. repeat constructor. Qed.
  Example evolve_shown : shown (map sj) (exec E9 (jde_evolve fxx jp pop [q 0 1; q 1 8]) w0) =
    Ret [([65536; 43264], 152064, (47104, 32768)); ([33856; 3960], 41776, (47104, 57344)); ([65536; 9370],
    84276, (49152, 40960)); ([39950; 21966], 83882, (34816, 32768))]%Z.
  Proof. vm_compute. reflexivity. Qed.
  Example select_shown : shown (fun r => let '(pop', fit', _, _, _) := r in (map sj pop', sv fit')) (exec E9 (a_iter (jde fxx C9 jp) pop [q 3 4; q 1 1; q 1 8; q 3 2] [q 0 1; q 1 8] (q 1 8) tt) w0) =
    Ret ([([32768; 16384], 49152, (131072, 32768)); ([33856; 3960], 41776, (47104, 57344)); ([0; 8192], 8192,
    (49152, 57344)); ([39950; 21966], 83882, (34816, 32768))], [49152; 41776; 8192; 83882])%Z.
  Proof. vm_compute. reflexivity. Qed.
  Example es_shown : shown (fun r => let '(pop', fit', xb', _, ki') := r in (map se pop', sv fit', sv xb', Z.of_nat ki')) (exec E9 (a_iter (es fxx C9 ep) [([q 1 2; q 1 4], q 3 4, q 1 1)] [q 3 4] [q 1 2; q 1 4] (q 3 4) 1) (World (next_iter (task_init C9)) [] 3)) =
    Ret ([([32768; 16384], 49152, 81920)], [49152], [32768; 16384], 0)%Z.
  Proof. vm_compute. reflexivity. Qed.
  Example es_shown_max : shown (fun r => let '(pop', fit', xb', _, ki') := r in (map se pop', sv fit', sv xb', Z.of_nat ki')) (exec EM (a_iter (es fxx CM ep) [([q 1 2; q 1 4], q (-3) 4, q 1 1)] [q (-3) 4] [q 1 2; q 1 4] (q (-3) 4) 1) (World (next_iter (task_init CM)) [] 3)) =
    Ret ([([104448; 88064], (-280576), 81920)], [(-280576)], [104448; 88064], 1)%Z.
  Proof. vm_compute. reflexivity. Qed.
  Example mpl_shown_max : shown (fun r => let '(pop', fit', xb', _, ki') := r in (map se pop', sv fit', sv xb', Z.of_nat ki')) (exec EM (a_iter (es_mpl fxx CM ep) (map (fun e => (fst (fst e), fneg (snd (fst e)), snd e)) epop) [q (-3) 4; q (-1) 1; q (-1) 8] [q 1 1; q 0 1] (q (-1) 1) 1) (World (task_init CM) [] 3)) =
    Ret ([([73728; 40960], (-155648), 65536); ([73728; 24576], (-122880), 65536); ([65536; 0], (-65536),
    32768)], [(-155648); (-122880); (-65536)], [73728; 40960], 3)%Z.
  Proof. vm_compute. reflexivity. Qed.
  Example mpl_shown : shown (fun r => let '(pop', fit', xb', _, ki') := r in (map se pop', sv fit', sv xb', Z.of_nat ki')) (exec E9 (a_iter (es_mpl fxx C9 ep) epop [q 3 4; q 1 1; q 1 8] [q 0 1; q 1 8] (q 1 8) 1) (World (next_iter (task_init C9)) [] 3)) =
    Ret ([([0; 8192], 8192, 61440); ([32768; 16384], 49152, 81920); ([65536; 0], 65536, 40960)], [8192; 49152;
    65536], [0; 8192], 0)%Z.
  Proof. vm_compute. reflexivity. Qed.
  Example ml_shown : shown (fun r => let '(pop', fit', xb', _, ki') := r in (map se pop', sv fit', sv xb', Z.of_nat ki')) (exec E9 (a_iter (es_ml fxx C9 ep) epop [q 3 4; q 1 1; q 1 8] [q 0 1; q 1 8] (q 1 8) 0) (World (next_iter (task_init C9)) [] 3)) =
    Ret ([([65536; 24576], 114688, 65536); ([65536; 40960], 147456, 65536); ([65536; 24576], 114688, 65536)],
    [114688; 147456; 114688], [0; 8192], 0)%Z.
  Proof. vm_compute. reflexivity. Qed.
  Example ml_shown2 : shown (fun r => let '(pop', fit', xb', _, ki') := r in (map se pop', sv fit', sv xb', Z.of_nat ki')) (exec E9 (a_iter (es_ml fxx C9 (ESPar 2 2 (q 5 4) (q 3 4) (q 1 8) 4)) (firstn 2 epop) [q 3 4; q 1 1] [q 0 1; q 1 8] (q 1 8) 0) (World (next_iter (task_init C9)) [] 3)) =
    Ret ([([65536; 4096], 73728, 65536); ([65536; 20480], 106496, 65536)], [73728; 106496], [0; 8192], 0)%Z.
  Proof. vm_compute. reflexivity. Qed.
  (** every member of the second population of the adaptive algorithm, with its parameters *)
  Example params_shown : match state_after E9 (jde fxx C9 jp) 1 with Some (s, w) => map sj (r_pop s) | None => [] end =
    [([8192; 40960], 90112, (131072, 32768)); ([0; 24576], 49152, (131072, 40960)); ([23552; 57344], 138240,
    (34816, 32768)); ([40960; 24576], 90112, (131072, 32768))]%Z.
  Proof. vm_compute. reflexivity. Qed.
End ExMod.
(** C80, refuted part: the weights need not lie between f_lower and f_upper, because the first ones are 2 *)
Theorem C80_weight_refuted : exists E p s w, let C := e_cfg E in
  cfg_ok C /\ no_nan (e_prob E) /\ repair_ok E /\ 0 < jd_n p /\ reached E (jde b64ops C p) s w /\ 0 < length (w_h w) /\
  exists e : jind, In e (r_pop s) /\ fltb (jd_up p) (fst (snd e)) = true.
Proof.
  destruct ExMod.hyps as (H1 & H2 & H3 & _).
  destruct (state_check ExMod.E9 (jde b64ops ExMod.C9 ExMod.jp) 2 (fun s w => negb (length (w_h w) =? 0) && existsb (fun e : jind => fltb (jd_up ExMod.jp) (fst (snd e))) (r_pop s))) as (s & w & R & Q); [vm_compute; reflexivity|].
  apply andb_true_iff in Q. destruct Q as [Q1 Q2]. apply existsb_exists in Q2. exists ExMod.E9, ExMod.jp, s, w. cbv zeta. split; [exact H1|]. split; [exact H2|]. split; [exact H3|]. split; [vm_compute; lia|]. split; [exact R|].
  split; [destruct (length (w_h w)); [discriminate|lia]|]. exact Q2.
Qed.
(** C82 and C83, refuted parts: k = 0 raises ZeroDivisionError, no mutants and a negative factor raise ValueError, lam = 0 raises ZeroDivisionError *)
Theorem C82_parameters_refuted : exists E p1 p2 p3, let C := e_cfg E in cfg_ok C /\ no_nan (e_prob E) /\ repair_ok E /\
  es_k p1 = 0 /\ own_exn E (es b64ops C p1) 9 = Some EZeroDiv /\ ~ best_run E (es b64ops C p1) /\
  es_mu p2 = 0 /\ own_exn E (es b64ops C p2) 9 = Some EValue /\ ~ best_run E (es b64ops C p2) /\
  fltb (es_cr p3) f0 = true /\ own_exn E (es b64ops C p3) 9 = Some EValue /\ ~ best_run E (es b64ops C p3).
Proof.
  exists ExMod.E3, (ESPar 3 0 (q 5 4) (q 3 4) (q 1 8) 2), (ESPar 0 2 (q 5 4) (q 3 4) (q 1 8) 2), (ESPar 1 1 (q 5 4) (q (-3) 4) (q 1 8) 2). cbv zeta. destruct ExMod.hyps3 as (H1 & H2 & H3).
  split; [exact H1|]. split; [exact H2|]. split; [exact H3|].
  assert (G : forall A e, own_exn ExMod.E3 A 9 = Some e -> e <> EFuel -> own_exn ExMod.E3 A 9 = Some e /\ ~ best_run ExMod.E3 A).
  { intros A e H He. split; [exact H|]. apply (run_raises (fun _ => False) _ _ _ _ H); [exact He|exact (fun x => x)]. }
  split; [reflexivity|]. rewrite <- !and_assoc. rewrite !and_assoc. 
  destruct (G (es b64ops ExMod.C3 (ESPar 3 0 (q 5 4) (q 3 4) (q 1 8) 2)) EZeroDiv) as [A1 A2]; [vm_compute; reflexivity|discriminate|].
  destruct (G (es b64ops ExMod.C3 (ESPar 0 2 (q 5 4) (q 3 4) (q 1 8) 2)) EValue) as [B1 B2]; [vm_compute; reflexivity|discriminate|].
  destruct (G (es b64ops ExMod.C3 (ESPar 1 1 (q 5 4) (q (-3) 4) (q 1 8) 2)) EValue) as [D1 D2]; [vm_compute; reflexivity|discriminate|].
  split; [exact A1|]. split; [exact A2|]. split; [reflexivity|]. split; [exact B1|]. split; [exact B2|]. split; [vm_compute; reflexivity|]. split; [exact D1|exact D2].
Qed.
Theorem C83_no_children_refuted : exists E p, let C := e_cfg E in cfg_ok C /\ no_nan (e_prob E) /\ repair_ok E /\ 0 < es_mu p /\ es_lam p = 0 /\
  own_exn E (es_ml b64ops C p) 9 = Some EZeroDiv /\ ~ best_run E (es_ml b64ops C p).
Proof.
  exists ExMod.E3, (ESPar 3 2 (q 5 4) (q 3 4) (q 1 8) 0). cbv zeta. destruct ExMod.hyps3 as (H1 & H2 & H3). split; [exact H1|]. split; [exact H2|]. split; [exact H3|]. split; [vm_compute; lia|]. split; [reflexivity|].
  assert (Q1 : own_exn ExMod.E3 (es_ml b64ops ExMod.C3 (ESPar 3 2 (q 5 4) (q 3 4) (q 1 8) 0)) 9 = Some EZeroDiv) by (vm_compute; reflexivity).
  split; [exact Q1|]. apply (run_raises (fun _ => False) _ _ _ _ Q1); [discriminate|exact (fun x => x)].
Qed.
Theorem C83_endless_refuted : exists E p k, let C := e_cfg E in
  cfg_ok C /\ no_nan (e_prob E) /\ repair_ok E /\ 0 < es_mu p /\ 0 < es_k p /\ es_lam p = 0 /\ c_max_evals C = LFin k /\ never_ends E (es_mpl b64ops C p).
Proof.
  pose (p := ESPar 3 2 (q 5 4) (q 3 4) (q 1 8) 0). exists ExMod.EE, p, 13%Z. cbv zeta. split; [exact ExMod.CE_ok|]. split; [apply lin_no_nan|]. split; [exact (clip_ok _ lin fl8 in7 ExMod.CE_ok)|].
  split; [vm_compute; lia|]. split; [vm_compute; lia|]. split; [reflexivity|]. split; [reflexivity|]. pose (A := es_mpl b64ops (e_cfg ExMod.EE) p).
  assert (Q : match state_after ExMod.EE A 0 with Some (s, w) => length (r_pop s : list eind) = 3 /\ stopping_condition ExMod.CE (w_ts w) = false | None => False end) by (vm_compute; repeat split).
  destruct (state_after ExMod.EE A 0) as [[s w]|] eqn:Es; [|contradiction]. destruct Q as (Q1 & Q2). apply (C83_mpl_endless b64ops ExMod.EE p s w); auto; vm_compute; lia.
Qed.

Print Assumptions C80_jde.
Print Assumptions C80_params.
Print Assumptions C80_params_64.
Print Assumptions C80_evolve.
Print Assumptions C80_select.
Print Assumptions C80_weight_refuted.
Print Assumptions C81_msjde_is_msde.
Print Assumptions C81_msjde.
Print Assumptions C81_default.
Print Assumptions mul64_not_neg.
Print Assumptions C82_es.
Print Assumptions C82_es_64.
Print Assumptions C82_current.
Print Assumptions C82_step.
Print Assumptions C82_parameters_refuted.
Print Assumptions C83_mpl.
Print Assumptions C83_mpl_64.
Print Assumptions C83_mpl_step.
Print Assumptions C83_mpl_endless.
Print Assumptions C83_ml.
Print Assumptions C83_ml_rho.
Print Assumptions C83_ml_step.
Print Assumptions C83_no_children_refuted.
Print Assumptions C83_endless_refuted.
