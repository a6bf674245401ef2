(** Final theorems about FireflyAlgorithm (C40), CuckooSearch (C41) and FlowerPollinationAlgorithm (C42). *)
From Coq Require Import ZArith Lia Bool List.
From Verif Require Import Num Task TaskSpec TaskProofs TaskProofs2 Prog Wp GetBest Run RunSpec RunProofs RunProofs2
  AlgoLib Fops AlgTac StepSpec StepLib Indiv IndivLib AlgSwarm PopLib AlgSwarmProofs B64 ExLib.
Import ListNotations.

(** ** C40: FireflyAlgorithm *)
Theorem C40_fa : forall F E p, let C := e_cfg E in
  cfg_ok C -> no_nan (e_prob E) -> repair_ok E -> 0 < fa_n p ->
  best_run E (fa F C p) /\ sizes_ok (fun k => k = fa_n p) E (fa F C p).
Proof.
  intros F E p C HC Hn Hr Hp.
  apply (pop_all2 (fun _ => False) E (fa_n p) num (fa_init C p) (fa_iter F C p) (fun _ _ _ => True)); auto.
  - intros Q HQ. unfold fa_init. apply wp_bind. apply w_default_numpy_init; auto. intros pop fit l Hl Hin He. apply w_done. auto.
  - intros pop fit xb fxb par l HI _. apply w_fa_iter; auto.
Qed.
(** firefly i moves towards j only when j is at least as bright; the move is
    x_i + (beta0 exp(-gamma r^2) (x_j - x_i) + alpha (u - 1/2) (upper - lower)), repaired and evaluated;
    only row i changes *)
Definition firefly_eq (F : fops) (C : cfg) (p : fa_par) (alpha : num) (xi xj y : vec) : Prop :=
  exists u, length u = c_dim C /\ Forall in_unit u /\ comps (c_dim C) y (fun k c => c = fadd F (nth k xi NaN) (fadd F
     (fmul F (fmul F (fa_beta0 p) (fexp F (fmul F (fneg (fa_gamma p)) (fpow F (euclidean F xi xj) (flit F 2 1))))) (fsub F (nth k xj NaN) (nth k xi NaN)))
     (fmul F (fmul F alpha (fsub F (nth k u NaN) (flit F 1 2))) (fsub F (nth k (c_upper C) NaN) (nth k (c_lower C) NaN))))).
Theorem C40_pair : forall F E p alpha i j pop fit xb fxb pop' fit' xb' fxb' wd wd', let C := e_cfg E in
  cfg_ok C -> Forall (fun x => length x = c_dim C) pop -> length fit = length pop ->
  exec E (fa_pair F C p alpha i (pop, fit, xb, fxb) j) wd = (Ret (pop', fit', xb', fxb'), wd') ->
  let l := log_of (c_opt C) (w_h wd) in let l' := log_of (c_opt C) (w_h wd') in
  exists fi fj, nth_error fit i = Some fi /\ nth_error fit j = Some fj /\
  if fleb fj fi then exists xi xj y x f,
    nth_error pop i = Some xi /\ nth_error pop j = Some xj /\ firefly_eq F C p alpha xi xj y /\
    repaired E y x /\ evaluated x f l l' /\ row_set pop pop' i x /\ row_set fit fit' i f /\
    get_best pop' fit' (Some xb) fxb = Ret (xb', fxb')
  else pop' = pop /\ fit' = fit /\ xb' = xb /\ fxb' = fxb /\ l' = l.
Proof.
  intros F E p alpha i j pop fit xb fxb pop' fit' xb' fxb' wd wd' C HC D L Ex l l'.
  pose (S0 := fun (a : list vec * list num * vec * num) (l' : elog) => let '(pop', fit', xb', fxb') := a in
    exists fi fj, nth_error fit i = Some fi /\ nth_error fit j = Some fj /\
    if fleb fj fi then exists xi xj y x f,
      nth_error pop i = Some xi /\ nth_error pop j = Some xj /\ firefly_eq F C p alpha xi xj y /\
      repaired E y x /\ evaluated x f l l' /\ row_set pop pop' i x /\ row_set fit fit' i f /\
      get_best pop' fit' (Some xb) fxb = Ret (xb', fxb')
    else pop' = pop /\ fit' = fit /\ xb' = xb /\ fxb' = fxb /\ l' = l).
  apply (tr_sound _ E _ S0 _ _ _) in Ex; [exact Ex|].
  fold C l. unfold fa_pair. apply wp_bind. apply w_nthP_tr. intros fi Efi. apply wp_bind. apply w_nthP_tr. intros fj Efj.
  destruct (fleb fj fi) eqn:Q.
  - apply wp_bind. apply w_nthP_tr. intros xi Exi. apply wp_bind. apply w_nthP_tr. intros xj Exj. apply wp_bind.
    apply w_fa_move; auto; [exact (Forall_nth _ _ _ _ _ D Exi)|exact (Forall_nth _ _ _ _ _ D Exj)|]. intros y u Lu Uu Hy.
    apply wp_bind. apply w_repair_tr. intros x Hx. apply wp_bind. apply w_setP_tr. intros R1. apply wp_bind. apply w_eval_tr. intros f l1 He.
    apply wp_bind. apply w_setP_tr. intros R2. apply wp_bind.
    destruct (get_best (upd pop i x) (upd fit i f) (Some xb) fxb) as [[xb1 fxb1]|e] eqn:G; [|simpl; auto].
    cbn [lift]. apply w_done. cbv beta iota. apply w_done. exists fi, fj. split; auto. split; auto. rewrite Q.
    exists xi, xj, y, x, f. split; auto. split; auto. split; [exists u; auto|]. auto 10.
  - apply w_done. exists fi, fj. split; auto. split; auto. rewrite Q. auto.
Qed.
(** the step size shrinks by theta every iteration, and each iteration is the double loop over all pairs *)
Theorem C40_alpha : forall F C p pop fit xb fxb alpha,
  fa_iter F C p pop fit xb fxb alpha =
  let* (pop', fit', xb', fxb') :=
    for_range (fa_n p) (fun s i => for_range (fa_n p) (fa_pair F C p (fmul F alpha (fa_theta p)) i) s) (pop, fit, xb, fxb) in
  Done (pop', fit', xb', fxb', fmul F alpha (fa_theta p)).
Proof. reflexivity. Qed.

(** ** C41: CuckooSearch *)
Theorem C41_cs : forall F E n pa, let C := e_cfg E in
  cfg_ok C -> no_nan (e_prob E) -> repair_ok E -> 0 < n ->
  best_run E (cs F C true n pa) /\ sizes_ok (fun k => k = n) E (cs F C true n pa) /\ steps_ok no_worse_fit E (cs F C true n pa).
Proof.
  intros F E n pa C HC Hn Hr Hp.
  apply (pop_all (fun _ => False) E n no_worse_fit unit (plain_init C n) (cs_iter F C true n pa) (fun _ _ _ => True)); auto.
  - intros Q HQ. apply (plain_init_ok C _ n (fun _ _ _ => True)); auto.
  - intros pop fit xb fxb par l HI _. apply w_cs_iter; auto.
Qed.
(** with a repair function that does not take a matrix, the only exception is IndexError *)
Theorem C41_matrix : forall F E mat n pa, let C := e_cfg E in
  cfg_ok C -> no_nan (e_prob E) -> repair_ok E -> 0 < n -> best_run_x (fun e => e = EIndex) E (cs F C mat n pa).
Proof.
  intros F E mat n pa C HC Hn Hr Hp.
  refine (proj1 (pop_all (fun e => e = EIndex) E n no_worse_fit unit (plain_init C n) (cs_iter F C mat n pa) (fun _ _ _ => True) _ _ _ _ _ _)); auto.
  - intros Q HQ. apply (plain_init_ok C _ n (fun _ _ _ => True)); auto.
  - intros pop fit xb fxb par l HI _. apply w_cs_iter; auto.
Qed.
(** Levy flights around the best: x + (0.01 u / |v|^(1/1.5) (x - best)) z *)
Theorem C41_cuckoos : forall F E pop xb wd r wd', let C := e_cfg E in
  Forall (fun x => length x = c_dim C) pop -> length xb = c_dim C ->
  exec E (get_cuckoos F C pop xb) wd = (r, wd') ->
  (exists new, r = Ret new /\ cuckoo_eq F C pop xb new) /\ w_ts wd' = w_ts wd /\ w_h wd' = w_h wd.
Proof.
  intros F E pop xb wd r wd' C D L Ex. apply (rp_sound _ E (get_cuckoos F C pop xb)); auto. intros l. apply w_get_cuckoos; auto.
Qed.
(** abandoned nests: x + r (x_p1 - x_p2) where the draw exceeds pa; p1, p2 permutations *)
Theorem C41_nests : forall F E pa pop wd r wd', let C := e_cfg E in
  Forall (fun x => length x = c_dim C) pop ->
  exec E (empty_nests F C pa (length pop) pop) wd = (r, wd') ->
  (exists new, r = Ret new /\ nests_eq F C pa pop new) /\ w_ts wd' = w_ts wd /\ w_h wd' = w_h wd.
Proof.
  intros F E pa pop wd r wd' C D Ex. apply (rp_sound _ E (empty_nests F C pa (length pop) pop)); auto. intros l. apply w_empty_nests; auto.
Qed.
(** a nest is replaced iff the new one is strictly better *)
Theorem C41_replace : forall pop fit new nfit, length fit = length pop -> length new = length pop -> length nfit = length pop ->
  let r := replace_better pop fit new nfit in
  length (fst r) = length pop /\ length (snd r) = length pop /\
  forall i x f y g, nth_error pop i = Some x -> nth_error fit i = Some f -> nth_error new i = Some y -> nth_error nfit i = Some g ->
    (fltb g f = true -> nth_error (fst r) i = Some y /\ nth_error (snd r) i = Some g) /\
    (fltb g f = false -> nth_error (fst r) i = Some x /\ nth_error (snd r) i = Some f).
Proof. exact replace_better_spec. Qed.

(** ** C42: FlowerPollinationAlgorithm (two flowers are drawn without replacement) *)
Theorem C42_fpa : forall F E n pr, let C := e_cfg E in
  cfg_ok C -> no_nan (e_prob E) -> repair_ok E -> 2 <= n ->
  best_run E (fpa F C n pr) /\ sizes_ok (fun k => k = n) E (fpa F C n pr) /\ steps_ok no_worse_fit E (fpa F C n pr).
Proof.
  intros F E n pr C HC Hn Hr Hp.
  apply (pop_all (fun _ => False) E n no_worse_fit (list vec) (fpa_init C n) (fpa_iter F C n pr) (fun _ _ s => length s = n /\ dims (c_dim C) s)); auto; try lia.
  - intros Q HQ. unfold fpa_init. apply wp_bind. apply w_default_numpy_init; auto; try lia. intros pop fit l Hl Hin He. apply w_done.
    apply HQ; auto. split; auto. apply dims_inside; auto.
  - intros pop fit xb fxb par l HI HS. apply w_fpa_iter; auto.
Qed.
(** one flower: global pollination x_i + levy (x_i - best) when the draw exceeds p, else s_i + r (x_j - x_k)
    with j <> k; the repaired point becomes s_i, replaces x_i and the best when at least as good *)
Theorem C42_step : forall F E n pr s i s' wd wd', let C := e_cfg E in
  2 <= n -> length (fl_pop s) = n -> length (fl_sol s) = n -> Forall (fun x => length x = c_dim C) (fl_pop s) ->
  Forall (fun x => length x = c_dim C) (fl_sol s) -> length (fl_xb s) = c_dim C -> i < n ->
  exec E (fpa_step F C n pr s i) wd = (Ret s', wd') ->
  exists y x f fi, flower_eq F C n pr (fl_pop s) (fl_sol s) (fl_xb s) i y /\ repaired E y x /\
    evaluated x f (log_of (c_opt C) (w_h wd)) (log_of (c_opt C) (w_h wd')) /\
    row_set (fl_sol s) (fl_sol s') i x /\ nth_error (fl_fit s) i = Some fi /\
    (if fleb f fi then row_set (fl_pop s) (fl_pop s') i x /\ row_set (fl_fit s) (fl_fit s') i f
     else fl_pop s' = fl_pop s /\ fl_fit s' = fl_fit s) /\
    (if fleb f (fl_fxb s) then fl_xb s' = x /\ fl_fxb s' = f else fl_xb s' = fl_xb s /\ fl_fxb s' = fl_fxb s).
Proof.
  intros F E n pr s i s' wd wd' C Hn L1 L2 D1 D2 Lx Hi Ex. set (l := log_of (c_opt C) (w_h wd)).
  pose (S0 := fun (s' : flowers) (l' : elog) => exists y x f fi, flower_eq F C n pr (fl_pop s) (fl_sol s) (fl_xb s) i y /\ repaired E y x /\
    evaluated x f l l' /\ row_set (fl_sol s) (fl_sol s') i x /\ nth_error (fl_fit s) i = Some fi /\
    (if fleb f fi then row_set (fl_pop s) (fl_pop s') i x /\ row_set (fl_fit s) (fl_fit s') i f
     else fl_pop s' = fl_pop s /\ fl_fit s' = fl_fit s) /\
    (if fleb f (fl_fxb s) then fl_xb s' = x /\ fl_fxb s' = f else fl_xb s' = fl_xb s /\ fl_fxb s' = fl_fxb s)).
  apply (tr_sound _ E _ S0 _ _ _) in Ex; [exact Ex|]. fold C l. unfold fpa_step.
  apply wp_bind. apply w_fpa_move; auto. intros y Ly Hy. apply wp_bind. apply w_repair_tr. intros x Hx. apply wp_bind. apply w_setP_tr. intros R1.
  apply wp_bind. apply w_eval_tr. intros f l' He. apply wp_bind. apply w_nthP_tr. intros fi Efi. cbv zeta. destruct (fleb f fi) eqn:Q.
  - apply wp_bind. apply w_setP_tr. intros R2. apply wp_bind. apply w_setP_tr. intros R3. apply w_done.
    exists y, x, f, fi. cbn [fl_pop fl_fit fl_xb fl_fxb fl_sol]. rewrite Q. do 5 (split; [assumption|]). split; [split; assumption|]. destruct (fleb f (fl_fxb s)); auto.
  - apply wp_bind. apply w_done. apply wp_bind. apply w_done. apply w_done.
    exists y, x, f, fi. cbn [fl_pop fl_fit fl_xb fl_fxb fl_sol]. rewrite Q. do 5 (split; [assumption|]). split; [split; reflexivity|]. destruct (fleb f (fl_fxb s)); auto.
Qed.

(** ** The hypotheses are met, and what runs do *)
Module ExSwarm.
  Definition C := box 2 0 1 (LFin 13).
  Definition E := exenv C lin.
  Definition p := FAPar 3 (q 1 1) (q 1 1) (q 1 2) (q 1 2).
  Example hyps : cfg_ok C /\ 0 < c_dim C /\ no_nan (e_prob E) /\ repair_ok E /\ 0 < fa_n p /\ 2 <= 3.
  Proof.
    split; [apply box_ok; lia|]. split; [simpl; lia|]. split; [apply lin_no_nan|]. split; [apply clip_ok, box_ok; lia|]. simpl; lia.
  Qed.
  Example fa_trace : trace E (fa fxx C p) 9 =
    (Ret ([33854; 7106], 48066), [[8192; 40960]; [24576; 24576]; [40960; 8192]; [20480; 53248]; [25614;
    41886]; [33480; 21320]; [36864; 12288]; [33854; 7106]; [26789; 20192]; [14501; 24288]; [31432; 23368];
    [38209; 25256]; [34154; 22959]])%Z.
  Proof. vm_compute. reflexivity. Qed.
  Example cs_trace : trace E (cs fxx C true 3 (q 1 4)) 9 =
    (Ret ([8040; 20500], 49042), [[8192; 40960]; [24576; 24576]; [40960; 8192]; [8040; 41476]; [24562; 24589];
    [40960; 8192]; [8192; 40960]; [24576; 38912]; [55296; 8192]; [8040; 41015]; [24548; 24651]; [40960; 8192];
    [8040; 20500]])%Z.
  Proof. vm_compute. reflexivity. Qed.
  Example fpa_trace : trace E (fpa fxx C 3 (q 1 2)) 9 =
    (Ret ([44764; 4288], 53341), [[8192; 40960]; [24576; 24576]; [40960; 8192]; [7787; 41049]; [24554; 25264];
    [38861; 10251]; [7696; 41497]; [26602; 23216]; [43008; 6144]; [7691; 41525]; [28954; 20986]; [44764;
    4288]; [7686; 41550]])%Z.
  Proof. vm_compute. reflexivity. Qed.
  (** states for the theorems about one step *)
  Definition pop := [[q 1 2; q 1 4]; [q 1 1; q 0 1]; [q 0 1; q 0 1]].
  Example state_ok : Forall (fun x => length x = c_dim C) pop /\ length [q 1 1; q 1 1; q 0 1] = length pop.
  Proof. split; [repeat constructor|reflexivity]. Qed.
End ExSwarm.

(** C41, refuted part: with any repair function other than [limit] a run raises IndexError *)
Theorem C41_matrix_refuted : exists E n pa k, let C := e_cfg E in
  cfg_ok C /\ no_nan (e_prob E) /\ repair_ok E /\ 0 < n /\
  (exists wd ev, run_body E (cs fxx C false n pa) (fun _ => None) k (World (task_init C) [] 0) = (Raise EIndex, wd, ev)) /\
  ~ best_run E (cs fxx C false n pa).
Proof.
  exists ExSwarm.E, 3, (q 1 4), 9. cbv zeta. destruct ExSwarm.hyps as (H1 & H2 & H3 & H4 & H5 & _).
  split; [exact H1|]. split; [exact H3|]. split; [exact H4|]. split; [lia|].
  apply (run_raises (fun _ => False)); [vm_compute; reflexivity|discriminate|exact (fun x => x)].
Qed.
(** C42: with one flower a run raises ValueError *)
Theorem C42_single_refuted : exists E pr k, let C := e_cfg E in
  cfg_ok C /\ no_nan (e_prob E) /\ repair_ok E /\
  (exists wd ev, run_body E (fpa fxx C 1 pr) (fun _ => None) k (World (task_init C) [] 0) = (Raise EValue, wd, ev)) /\
  ~ best_run E (fpa fxx C 1 pr).
Proof.
  exists ExSwarm.E, (q 1 1), 9. cbv zeta. destruct ExSwarm.hyps as (H1 & H2 & H3 & H4 & H5 & _).
  split; [exact H1|]. split; [exact H3|]. split; [exact H4|].
  apply (run_raises (fun _ => False)); [vm_compute; reflexivity|discriminate|exact (fun x => x)].
Qed.

Print Assumptions C40_fa.
Print Assumptions C40_pair.
Print Assumptions C40_alpha.
Print Assumptions C41_cs.
Print Assumptions C41_matrix.
Print Assumptions C41_cuckoos.
Print Assumptions C41_nests.
Print Assumptions C41_replace.
Print Assumptions C41_matrix_refuted.
Print Assumptions C42_fpa.
Print Assumptions C42_step.
Print Assumptions C42_single_refuted.
