(** Final theorems about GreyWolfOptimizer (C43), MothFlameOptimizer (C44), SineCosineAlgorithm (C45, C52),
    GravitationalSearchAlgorithm (C46), HarmonySearch and HarmonySearchV1 (C47). *)
From Coq Require Import ZArith Lia Bool List Permutation Sorting.Sorted.
From Verif Require Import Num Task TaskSpec TaskProofs TaskProofs2 Prog Wp GetBest Run RunSpec RunProofs RunProofs2
  AlgoLib Fops AlgTac StepSpec StepLib Indiv IndivLib AlgPSO AlgSwarm PopLib AlgSwarmProofs Reach SortLib AlgBasic AlgBasicProofs Repair B64 ExLib ExLib2.
Import ListNotations.

(** ** C43: GreyWolfOptimizer (three wolves lead, so at least three are needed) *)
Theorem C43_gwo : forall F E n, let C := e_cfg E in
  cfg_ok C -> no_nan (e_prob E) -> repair_ok E -> 3 <= n ->
  best_run E (gwo F C n) /\ sizes_ok (fun k => k = n) E (gwo F C n).
Proof.
  intros F E n C HC Hn Hr Hp.
  apply (all2_c (inside C) (fun _ => False) (fun k => k = n) E (gwo F C n) (GwoInv C n)); auto.
  - apply gwo_init_ok; auto.
  - intros pop fit xb fxb t l HI. apply w_gwo_iter; auto.
  - intros pop fit xb fxb t l [[P1 P2 P3 P4 P5 P6] _]. auto.
Qed.
(** at every iteration: the alpha wolf is the best point evaluated so far, the leaders are evaluated points
    (or nothing was evaluated for them), and their values are in order *)
Theorem C43_leaders : forall F E n s wd, let C := e_cfg E in
  cfg_ok C -> no_nan (e_prob E) -> repair_ok E -> 3 <= n -> reached E (gwo F C n) s wd ->
  let t : wolves := r_par s in let l := log_of (c_opt C) (w_h wd) in
  (forall x v, In (x, v) l -> fleb (gw_fa t) v = true) /\
  fleb (gw_fa t) (gw_fb t) = true /\ fleb (gw_fb t) (gw_fd t) = true /\
  (gw_fa t = PInf \/ In (gw_a t, gw_fa t) l) /\ (gw_fb t = PInf \/ In (gw_b t, gw_fb t) l) /\ (gw_fd t = PInf \/ In (gw_d t, gw_fd t) l).
Proof.
  intros F E n s wd C HC Hn Hr Hp Hs t l.
  assert (H : GwoInv C n (r_pop s) (r_fit s) (r_xb s) (r_fxb s) t l).
  { apply (reach_c (inside C) (fun _ => False) E (gwo F C n) (GwoInv C n)); auto.
    - apply gwo_init_ok; auto.
    - intros pop fit xb fxb t0 l0 HI. apply w_gwo_iter; auto. }
  destruct H as [_ [_ _ _ (G1 & G2 & G3) H5 H6 [H7 H8]]]. auto 10.
Qed.
(** one wolf: the mean of three points, one per leader, repaired and evaluated *)
Definition wolf_eq (F : fops) (d : nat) (a : num) (t : wolves) (w y : vec) : Prop :=
  exists r1 s1 r2 s2 r3 s3, Forall (fun v => length v = d /\ Forall in_unit v) [r1; s1; r2; s2; r3; s3] /\
  comps d y (fun k c => c = fdiv F (fadd F (fadd F (towards_eq F a (gw_a t) w r1 s1 k) (towards_eq F a (gw_b t) w r2 s2 k))
                                    (towards_eq F a (gw_d t) w r3 s3 k)) (flit F 3 1)).
Theorem C43_step : forall F E a t pop fit i pop' fit' wd wd', let C := e_cfg E in
  Forall (fun x => length x = c_dim C) (gw_a t :: gw_b t :: gw_d t :: pop) ->
  exec E (gwo_step F C a t (pop, fit) i) wd = (Ret (pop', fit'), wd') ->
  exists w y x f, nth_error pop i = Some w /\ wolf_eq F (c_dim C) a t w y /\ repaired E y x /\
    evaluated x f (log_of (c_opt C) (w_h wd)) (log_of (c_opt C) (w_h wd')) /\ row_set pop pop' i x /\ row_set fit fit' i f.
Proof.
  intros F E a t pop fit i pop' fit' wd wd' C D Ex. set (l := log_of (c_opt C) (w_h wd)).
  pose (S0 := fun (s' : list vec * list num) (l' : elog) => exists w y x f, nth_error pop i = Some w /\ wolf_eq F (c_dim C) a t w y /\ repaired E y x /\
    evaluated x f l l' /\ row_set pop (fst s') i x /\ row_set fit (snd s') i f).
  apply (tr_sound _ E _ S0 _ _ _) in Ex; [exact Ex|]. fold C l. unfold gwo_step. cbn [fst snd].
  inversion D as [|? ? D1 D']; subst. inversion D' as [|? ? D2 D'']; subst. inversion D'' as [|? ? D3 D4]; subst.
  apply wp_bind. apply w_nthP_tr. intros w Ew. assert (Lw : length w = c_dim C) by (eapply dims_nth; eauto).
  apply wp_bind. apply w_gwo_towards; auto. intros x1 r1 s1 A1 A2 A3 A4 X1.
  apply wp_bind. apply w_gwo_towards; auto. intros x2 r2 s2 B1 B2 B3 B4 X2.
  apply wp_bind. apply w_gwo_towards; auto. intros x3 r3 s3 F1 F2 F3 F4 X3.
  apply wp_bind. apply w_repair_tr. intros x Hx. apply wp_bind. apply w_setP_tr. intros R1. apply wp_bind. apply w_eval_tr. intros f l' He.
  apply wp_bind. apply w_setP_tr. intros R2. apply w_done. exists w. eexists. exists x, f. split; [exact Ew|]. split; [|split; [exact Hx|auto]].
  exists r1, s1, r2, s2, r3, s3. split; [repeat constructor; auto|]. destruct X1 as [L1 X1], X2 as [L2 X2], X3 as [L3 X3].
  split; [dl|]. intros k Hk. nths (c_dim C). rewrite X1, X2, X3 by auto. reflexivity.
Qed.
(** the parameter a falls linearly from 2 with the evaluations used; the wolves then move one after the other *)
Theorem C43_iter : forall F E n pop fit xb fxb t wd, let C := e_cfg E in
  let a := fsub F (flit F 2 1) (fmul F (fnat F (t_evals (w_ts wd))) (fdiv F (flit F 2 1) (flim F (c_max_evals C)))) in
  exec E (gwo_iter F C n pop fit xb fxb t) wd =
  exec E (let* (pop', fit') := for_range n (gwo_step F C a t) (pop, fit) in
          let t' := gwo_leads t pop' fit' in
          let* (xb', fxb') := lift (get_best1 (gw_a t') (gw_fa t') (Some xb) fxb) in
          Done (pop', fit', xb', fxb', t')) wd.
Proof. intros. unfold gwo_iter. rewrite exec_view. reflexivity. Qed.
(** who leads after meeting point x with value f *)
Theorem C43_lead : forall t x f, f <> NaN -> gw_fa t <> NaN -> gw_fb t <> NaN -> gw_fd t <> NaN ->
  let t' := gwo_lead t x f in
  (fltb f (gw_fa t) = true -> gw_a t' = x /\ gw_fa t' = f /\ gw_b t' = gw_b t /\ gw_fb t' = gw_fb t /\ gw_d t' = gw_d t /\ gw_fd t' = gw_fd t) /\
  (fltb (gw_fa t) f = true -> fltb f (gw_fb t) = true ->
     gw_a t' = gw_a t /\ gw_fa t' = gw_fa t /\ gw_b t' = x /\ gw_fb t' = f /\ gw_d t' = gw_d t /\ gw_fd t' = gw_fd t) /\
  (fltb (gw_fa t) f = true -> fltb (gw_fb t) f = true -> fltb f (gw_fd t) = true ->
     gw_a t' = gw_a t /\ gw_fa t' = gw_fa t /\ gw_b t' = gw_b t /\ gw_fb t' = gw_fb t /\ gw_d t' = x /\ gw_fd t' = f).
Proof.
  intros t x f N1 N2 N3 N4 t'. unfold t', gwo_lead.
  assert (A : forall a b, fltb a b = true -> fltb b a = false).
  { intros a b H. destruct a as [| |p|], b as [| |q|]; simpl in *; try discriminate; auto. apply Z.ltb_lt in H. apply Z.ltb_ge. lia. }
  split; [|split].
  - intros H. rewrite H. cbn. auto 10.
  - intros H1 H2. rewrite (A _ _ H1), H1, H2. cbn. auto 10.
  - intros H1 H2 H3. rewrite (A _ _ H1), H1, (A _ _ H2), H2, H3. cbn. auto 10.
Qed.

(** ** C44: MothFlameOptimizer *)
Theorem C44_mfo : forall F E pi n, let C := e_cfg E in
  cfg_ok C -> no_nan (e_prob E) -> repair_ok E -> 0 < n ->
  (forall it, lim_reached it (c_max_iters C) = false -> (- Z.of_nat n <= mfo_flame F C n it)%Z) ->
  best_run E (mfo F C pi n) /\ sizes_ok (fun k => k = n) E (mfo F C pi n).
Proof.
  intros F E pi n C HC Hn Hr Hp HF. set (G := fun v : tview => below (c_max_iters C) (v_iters v)).
  assert (HG : forall ts, stopping_condition (e_cfg E) ts = false -> G (TView (t_evals ts) (t_iters ts) false) = true).
  { intros ts Hs. apply (below_iters C ts Hs). }
  destruct (pop_all2 (fun _ => False) E n unit (plain_init C n) (view_iter (only_if G (mfo_body F C pi n))) (fun _ _ _ => True)) as [H1 H2]; auto.
  - intros Q HQ. apply (plain_init_ok C _ n (fun _ _ _ => True)); auto.
  - intros pop fit xb fxb u l HI _. unfold view_iter. apply wp_bind. apply w_view. intros v. unfold only_if. destruct (G v) eqn:Gv.
    + apply w_mfo_body; auto. right. apply HF. unfold G, below in Gv. apply negb_true_iff in Gv. exact Gv.
    + simpl. auto.
  - split.
    + apply (best_guard (fun _ => False) E (list vec) unit (fun pop => pop) (plain_init C n) (mfo_body F C pi n) G HG). exact H1.
    + intros cb k pos r w' ev Hrun. apply (H2 cb k pos r w' ev).
      rewrite <- (run_guard E (list vec) unit (fun pop => pop) (plain_init C n) (mfo_body F C pi n) G HG). exact Hrun.
Qed.
(** without that hypothesis on the number of flames the only other exception is IndexError *)
Theorem C44_any : forall F E pi n, let C := e_cfg E in
  cfg_ok C -> no_nan (e_prob E) -> repair_ok E -> 0 < n -> best_run_x (fun e => e = EIndex) E (mfo F C pi n).
Proof.
  intros F E pi n C HC Hn Hr Hp.
  refine (proj1 (pop_all2 (fun e => e = EIndex) E n unit (plain_init C n) (mfo_iter F C pi n) (fun _ _ _ => True) _ _ _ _ _ _)); auto.
  - intros Q HQ. apply (plain_init_ok C _ n (fun _ _ _ => True)); auto.
  - intros pop fit xb fxb u l HI _. unfold mfo_iter. apply wp_bind. apply w_view. intros v. apply w_mfo_body; auto.
Qed.
(** every moth spirals around its flame: row i of the population sorted by fitness, or the last flame
    (index [flame], from the end when negative) for moths beyond it;
    |s_i - x| e^(1 t) cos(2 pi t) + flame with t = (a - 1) r + 1 *)
Definition moth_move (F : fops) (d : nat) (pi a : num) (sorted : list vec) (flame : Z) (i : nat) (x y : vec) : Prop :=
  exists j, (if (Z.of_nat i <=? flame)%Z then j = i else if (flame <? 0)%Z then Z.of_nat j = (Z.of_nat (length sorted) + flame)%Z else Z.of_nat j = flame) /\
  j < length sorted /\
  comps d y (fun k c => exists r, in_unit r /\ let t := fadd F (fmul F (fsub F a (flit F 1 1)) r) (flit F 1 1) in
    c = fadd F (fmul F (fmul F (fabs F (fsub F (nth k (nth i sorted []) NaN) (nth k x NaN))) (fexp F (fmul F (flit F 1 1) t)))
                       (fcos F (fmul F (fmul F (flit F 2 1) pi) t)))
               (nth k (nth j sorted []) NaN)).
Theorem C44_step : forall F E pi n pop fit xb fxb u pop' fit' xb' fxb' u' wd wd', let C := e_cfg E in let it := t_iters (w_ts wd) in
  length pop = n -> length fit = n ->
  exec E (mfo_iter F C pi n pop fit xb fxb u) wd = (Ret (pop', fit', xb', fxb', u'), wd') ->
  let flame := fround (fsub F (fnat F n) (fmul F (fnat F (S it)) (fdiv F (fnat F (n - 1)) (flim F (c_max_iters C))))) in
  let a := fadd F (flit F (-1) 1) (fmul F (fnat F (S it)) (fdiv F (flit F (-1) 1) (flim F (c_max_iters C)))) in
  exists sorted moved, Permutation (combine pop fit) sorted /\ StronglySorted (fun a b => key_le (snd a) (snd b) = true) sorted /\
    length moved = n /\ (forall i, i < n -> moth_move F (c_dim C) pi a (map fst sorted) flame i (nth i pop []) (nth i moved [])) /\
    renewed E moved xb fxb (log_of (c_opt C) (w_h wd)) pop' fit' xb' fxb' (log_of (c_opt C) (w_h wd')).
Proof.
  intros F E pi n pop fit xb fxb u pop' fit' xb' fxb' u' wd wd' C it L1 L2 Ex flame a. unfold mfo_iter in Ex. rewrite exec_view in Ex.
  set (l := log_of (c_opt C) (w_h wd)).
  pose (S0 := fun (s' : list vec * list num * vec * num * unit) (l' : elog) => let '(pop', fit', xb', fxb', _) := s' in
    exists sorted moved, Permutation (combine pop fit) sorted /\ StronglySorted (fun a b => key_le (snd a) (snd b) = true) sorted /\
    length moved = n /\ (forall i, i < n -> moth_move F (c_dim C) pi a (map fst sorted) flame i (nth i pop []) (nth i moved [])) /\
    renewed E moved xb fxb l pop' fit' xb' fxb' l').
  apply (tr_sound _ E _ S0 _ _ _) in Ex; [exact Ex|]. fold C l it. unfold mfo_body. cbn [v_iters]. apply wp_bind.
  apply w_mfo_moths; auto; [left; exact I|]. intros moved [Lm (so & P1 & P2 & Hm)].
  apply w_renewed_tr. intros pop1 fit1 xb1 fxb1 l1 HR. exists so, moved. split; [exact P1|]. split; [exact P2|]. split; [exact Lm|]. split; [|exact HR].
  intros i Hi. specialize (Hm i Hi). fold flame a in Hm. change (mfo_flame F C n it) with flame in Hm. change (mfo_a F C it) with a in Hm.
  destruct Hm as (Hj & Hf & Hm). exists (flame_index (length (map fst so)) i flame). split; [|auto].
  unfold flame_index. destruct (Z.of_nat i <=? flame)%Z eqn:Q1; auto. apply Z.leb_gt in Q1. destruct (flame <? 0)%Z eqn:Q2.
  - apply Z.ltb_lt in Q2. apply Z2Nat.id. lia.
  - apply Z.ltb_ge in Q2. apply Z2Nat.id. lia.
Qed.

(** ** C45: SineCosineAlgorithm *)
Theorem C45_sca : forall F E pi p, let C := e_cfg E in
  cfg_ok C -> no_nan (e_prob E) -> repair_ok E -> 0 < sc_n p ->
  best_run E (sca F C pi p) /\ sizes_ok (fun k => k = sc_n p) E (sca F C pi p).
Proof.
  intros F E pi p C HC Hn Hr Hp.
  apply (pop_all2 (fun _ => False) E (sc_n p) unit (plain_init C (sc_n p)) (sca_iter F C pi p) (fun _ _ _ => True)); auto.
  - intros Q HQ. apply (plain_init_ok C _ (sc_n p) (fun _ _ _ => True)); auto.
  - intros pop fit xb fxb u l HI _. apply w_sca_iter; auto.
Qed.
(** x + r1 sin(r2) |r3 best - x| (cos when r4 >= 0.5), the same r1..r4 for all; r1 = a - (t+1) (a/(t+1)) *)
Definition sca_move (F : fops) (d : nat) (xb : vec) (r1 r2 r3 r4 : num) (x y : vec) : Prop :=
  comps d y (fun k c => c = fadd F (nth k x NaN)
    (fmul F (fmul F r1 (if fltb r4 (flit F 1 2) then fsin F r2 else fcos F r2)) (fabs F (fsub F (fmul F r3 (nth k xb NaN)) (nth k x NaN))))).
Theorem C45_step : forall F E pi p pop fit xb fxb u pop' fit' xb' fxb' u' wd wd', let C := e_cfg E in let it := t_iters (w_ts wd) in
  Forall (fun x => length x = c_dim C) pop -> length xb = c_dim C ->
  exec E (sca_iter F C pi p pop fit xb fxb u) wd = (Ret (pop', fit', xb', fxb', u'), wd') ->
  let r1 := fsub F (sc_a p) (fmul F (fnat F (S it)) (fdiv F (sc_a p) (fnat F (S it)))) in
  exists r2 r3 r4 moved,
    (fleb f0 (fmul F (flit F 2 1) pi) = true -> fleb f0 r2 = true /\ fleb r2 (fmul F (flit F 2 1) pi) = true) /\
    (fleb (sc_rmin p) (sc_rmax p) = true -> fleb (sc_rmin p) r3 = true /\ fleb r3 (sc_rmax p) = true) /\ in_unit r4 /\
    Forall2 (sca_move F (c_dim C) xb r1 r2 r3 r4) pop moved /\
    renewed E moved xb fxb (log_of (c_opt C) (w_h wd)) pop' fit' xb' fxb' (log_of (c_opt C) (w_h wd')).
Proof.
  intros F E pi p pop fit xb fxb u pop' fit' xb' fxb' u' wd wd' C it D L Ex r1. unfold sca_iter in Ex. rewrite exec_view in Ex.
  set (l := log_of (c_opt C) (w_h wd)).
  pose (S0 := fun (s' : list vec * list num * vec * num * unit) (l' : elog) => let '(pop', fit', xb', fxb', _) := s' in
    exists r2 r3 r4 moved,
    (fleb f0 (fmul F (flit F 2 1) pi) = true -> fleb f0 r2 = true /\ fleb r2 (fmul F (flit F 2 1) pi) = true) /\
    (fleb (sc_rmin p) (sc_rmax p) = true -> fleb (sc_rmin p) r3 = true /\ fleb r3 (sc_rmax p) = true) /\ in_unit r4 /\
    Forall2 (sca_move F (c_dim C) xb r1 r2 r3 r4) pop moved /\
    renewed E moved xb fxb l pop' fit' xb' fxb' l').
  apply (tr_sound _ E _ S0 _ _ _) in Ex; [exact Ex|]. fold C l it. cbv zeta. cbn [v_iters].
  apply wp_bind. apply w_uniform. intros r2 H2. apply wp_bind. apply w_uniform. intros r3 H3. apply wp_bind. apply w_random_u. intros r4 H4.
  apply w_renewed_tr. intros pop1 fit1 xb1 fxb1 l1 HR. exists r2, r3, r4. eexists. split; [exact H2|]. split; [exact H3|]. split; [exact H4|]. split; [|exact HR].
  clear HR Ex. induction D as [|x xs Dx D IH]; simpl; constructor; auto. apply (sca_pos_eq F C); auto.
Qed.

(** C52 (SCA explores), refuted.  Wherever a - k (a/k) is zero - always, in exact arithmetic - r1 is zero and
    no member ever moves: every iteration evaluates the initial population again.  [zero_at]: the
    difference is zero in the first m iterations, a product with that zero is zero and adding it does nothing. *)
Definition zero_at (F : fops) (a : num) (m : nat) : Prop :=
  (forall k, k < m -> fsub F a (fmul F (fnat F (S k)) (fdiv F a (fnat F (S k)))) = f0) /\
  (forall s y, fmul F (fmul F f0 s) y = f0) /\ (forall x, fadd F x f0 = x).
Definition keeps_inside (E : env) : Prop := forall q x, inside (e_cfg E) x -> e_rep E q x = x.
Lemma sca_still : forall F E xb r1 r2 r3 r4 pop moved, (forall s y, fmul F (fmul F f0 s) y = f0) -> (forall x, fadd F x f0 = x) -> r1 = f0 ->
  Forall (fun x => length x = c_dim (e_cfg E)) pop -> Forall2 (sca_move F (c_dim (e_cfg E)) xb r1 r2 r3 r4) pop moved -> moved = pop.
Proof.
  intros F E xb r1 r2 r3 r4 pop moved H1 H2 -> D H. induction H as [|x y xs ys Hxy H IH]; auto. inversion_clear D. f_equal; auto.
  destruct Hxy as [Ly Hy]. apply nth_ext with (d := NaN) (d' := NaN); [lia|]. intros k Hk. rewrite (Hy k) by lia. rewrite H1. apply H2.
Qed.
Theorem C52_sca_still : forall F E pi p pop fit xb fxb u pop' fit' xb' fxb' u' m wd wd', let C := e_cfg E in
  zero_at F (sc_a p) m -> t_iters (w_ts wd) < m -> keeps_inside E -> cfg_ok C ->
  Forall (inside C) pop -> length xb = c_dim C ->
  exec E (sca_iter F C pi p pop fit xb fxb u) wd = (Ret (pop', fit', xb', fxb', u'), wd') -> pop' = pop.
Proof.
  intros F E pi p pop fit xb fxb u pop' fit' xb' fxb' u' m wd wd' C (Z1 & Z2 & Z3) Hit HK HC Hin L Ex.
  assert (D := dims_inside _ _ HC Hin).
  destruct (C45_step F E pi p pop fit xb fxb u pop' fit' xb' fxb' u' wd wd' D L Ex) as (r2 & r3 & r4 & moved & _ & _ & _ & Hm & [HR _]).
  apply (sca_still F E) in Hm; auto. subst moved. clear Ex D. induction HR as [|x y xs ys (q0 & ->) HR IH]; auto.
  inversion_clear Hin. f_equal; auto.
Qed.
(** so in a whole run nothing but the initial population is ever evaluated *)
Theorem C52_only_initial : forall F E pi p m s wd, let C := e_cfg E in
  zero_at F (sc_a p) m -> keeps_inside E -> cfg_ok C -> no_nan (e_prob E) -> repair_ok E -> 0 < sc_n p ->
  reached E (sca F C pi p) s wd -> t_iters (w_ts wd) <= m ->
  let pop : list vec := r_pop s in length pop = sc_n p /\ forall x v, In (x, v) (log_of (c_opt C) (w_h wd)) -> In x pop.
Proof.
  intros F E pi p m s wd C HZ HK HC Hn Hr Hp Hs Hit.
  assert (Inv : forall s wd, reached E (sca F C pi p) s wd ->
    PopInv C (sc_n p) (r_pop s : list vec) (r_fit s) (r_xb s) (r_fxb s) (log_of (c_opt C) (w_h wd))).
  { intros s0 w0 H0. pose (A := sca F C pi p).
    refine (proj1 (reach_c (inside C) (fun _ => False) E A (fun pop fit xb fxb _ l => PopInv C (sc_n p) pop fit xb fxb l /\ True) Hn Hr _ _ s0 w0 H0)).
    - apply (init_pop C (fun _ => False) (sc_n p) unit (plain_init C (sc_n p)) (sca_iter F C pi p) (fun _ _ _ => True)); auto.
      intros Q HQ. apply (plain_init_ok C _ (sc_n p) (fun _ _ _ => True)); auto.
    - intros pop fit xb fxb u l [HI _]. apply w_sca_iter; auto. }
  intros pop. split; [exact (pi_pop _ _ _ _ _ _ _ (Inv s wd Hs))|]. unfold pop. clear pop.
  induction Hs as [pos pop fit par w xb fxb Ex G|s w pop fit xb fxb par w' Hs IH Ex].
  - cbn [r_pop]. pose (S0 := fun (a : list vec * list num * unit) (l' : elog) => forall x v, In (x, v) l' -> In x (fst (fst a))).
    apply (tr_sound _ E _ S0 _ _ _) in Ex; [exact Ex|]. cbn [a_init sca]. unfold plain_init. apply wp_bind. unfold default_numpy_init. apply wp_bind.
    apply w_uniform_pop; auto. intros pop0 _ _. apply wp_bind. apply w_eval_all_tr. intros fs l' He. apply w_done. apply w_done. intros x v. cbn [fst].
    change (log_of (c_opt (e_cfg E)) (w_h (World (task_init (e_cfg E)) [] pos))) with (@nil (vec * num)) in He.
    assert (X : forall xs fs l l', evaluated_all xs fs l l' -> forall x v, In (x, v) l' -> In (x, v) l \/ In x xs).
    { clear. induction 1 as [|x f xs fs l l1 l2 H H' IH]; intros y v Hy; auto. destruct (IH y v Hy) as [I|I]; [|simpl; auto].
      destruct H as [[_ ->]| ->]; auto. destruct I as [I|I]; auto. injection I as -> _. simpl. auto. }
    intros Hx. destruct (X _ _ _ _ He x v Hx) as [[]|I]; auto.
  - cbn [r_pop w_h]. assert (I := Inv s w Hs). assert (D := pi_dims _ _ _ _ _ _ _ HC I). destruct I as [P1 P2 P3 P4 P5 P6].
    cbn [a_iter sca] in Ex. assert (Ex' := Ex). assert (Ei := exec_iters _ _ _ _ _ _ Ex). unfold next_iter in Hit. cbn [w_ts t_iters] in Hit. rewrite Ei in Hit.
    assert (pop = r_pop s) by (eapply C52_sca_still; eauto). subst pop.
    destruct (C45_step F E pi p _ _ _ _ _ _ _ _ _ _ w w' D P5 Ex') as (r2 & r3 & r4 & moved & _ & _ & _ & _ & [_ [He _]]).
    assert (X : forall xs fs l l', evaluated_all xs fs l l' -> forall x v, In (x, v) l' -> In (x, v) l \/ In x xs).
    { clear. induction 1 as [|x f xs fs l l1 l2 H H' IH]; intros y v Hy; auto. destruct (IH y v Hy) as [I|I]; [|simpl; auto].
      destruct H as [[_ ->]| ->]; auto. destruct I as [I|I]; auto. injection I as -> _. simpl. auto. }
    intros x v Hx. destruct (X _ _ _ _ He x v Hx) as [I|I]; [apply (IH ltac:(lia) x v I)|exact I].
Qed.

(** ** C46: GravitationalSearchAlgorithm *)
Theorem C46_gsa : forall F E p, let C := e_cfg E in
  cfg_ok C -> no_nan (e_prob E) -> repair_ok E -> 0 < gs_n p ->
  best_run E (gsa F C p) /\ sizes_ok (fun k => k = gs_n p) E (gsa F C p).
Proof.
  intros F E p C HC Hn Hr Hp.
  apply (pop_all2 (fun _ => False) E (gs_n p) (list vec) (gsa_init C (gs_n p)) (gsa_iter F C p) (fun _ _ vs => length vs = gs_n p /\ dims (c_dim C) vs)); auto.
  - intros Q HQ. unfold gsa_init. apply wp_bind. apply w_default_numpy_init; auto. intros pop fit l Hl Hin He. apply w_done.
    apply HQ; auto. split; [apply repeat_length|apply dims_repeat, repeat_length].
  - intros pop fit xb fxb vs l HI HV. apply w_gsa_iter; auto.
Qed.
(** v_i' = s_i v_i + a_i and x_i' = x_i + v_i', where
    a_i = (sum_j r_j G (m_i m_j / (|x_i - x_j| + eps)) (x_j - x_i)) / (m_i + eps), G = g0 / (t+1) and the masses
    m are (f - worst)/(best - worst) scaled to sum 1 *)
Definition gsa_accel (F : fops) (p : gsa_par) (it n : nat) (m : list num) (pop r : list vec) (i k : nat) : num :=
  fdiv F (fold_left (fun t j => fadd F t (fmul F (nth k (nth j r []) NaN)
      (fmul F (fmul F (fdiv F (gs_g0 p) (fnat F (S it)))
                 (fdiv F (fmul F (nth i m NaN) (nth j m NaN)) (fadd F (euclidean F (nth i pop []) (nth j pop [])) (gs_eps p))))
         (fsub F (nth k (nth j pop []) NaN) (nth k (nth i pop []) NaN))))) (seq 0 n) (flit F 0 1)) (fadd F (nth i m NaN) (gs_eps p)).
Theorem C46_step : forall F E p pop fit xb fxb vs pop' fit' xb' fxb' vs' wd wd', let C := e_cfg E in let it := t_iters (w_ts wd) in let n := gs_n p in
  0 < n -> length pop = n -> length fit = n -> length vs = n -> Forall (fun f => f <> NaN) fit ->
  Forall (fun x => length x = c_dim C) pop -> Forall (fun x => length x = c_dim C) vs ->
  exec E (gsa_iter F C p pop fit xb fxb vs) wd = (Ret (pop', fit', xb', fxb', vs'), wd') ->
  exists m r s moved, masses F fit m /\ length r = n /\ length s = n /\ Forall (Forall in_unit) (r ++ s) /\
    length vs' = n /\ length moved = n /\
    (forall i, i < n -> comps (c_dim C) (nth i vs' []) (fun k c =>
       c = fadd F (fmul F (nth k (nth i s []) NaN) (nth k (nth i vs []) NaN)) (gsa_accel F p it n m pop r i k))) /\
    (forall i, i < n -> comps (c_dim C) (nth i moved []) (fun k c => c = fadd F (nth k (nth i pop []) NaN) (nth k (nth i vs' []) NaN))) /\
    renewed E moved xb fxb (log_of (c_opt C) (w_h wd)) pop' fit' xb' fxb' (log_of (c_opt C) (w_h wd')).
Proof.
  intros F E p pop fit xb fxb vs pop' fit' xb' fxb' vs' wd wd' C it n Hn L1 L2 L3 Nf D1 D2 Ex.
  set (l := log_of (c_opt C) (w_h wd)).
  pose (S0 := fun (s' : list vec * list num * vec * num * list vec) (l' : elog) => let '(pop', fit', xb', fxb', vs') := s' in
    exists m r s moved, masses F fit m /\ length r = n /\ length s = n /\ Forall (Forall in_unit) (r ++ s) /\
    length vs' = n /\ length moved = n /\
    (forall i, i < n -> comps (c_dim C) (nth i vs' []) (fun k c =>
       c = fadd F (fmul F (nth k (nth i s []) NaN) (nth k (nth i vs []) NaN)) (gsa_accel F p it n m pop r i k))) /\
    (forall i, i < n -> comps (c_dim C) (nth i moved []) (fun k c => c = fadd F (nth k (nth i pop []) NaN) (nth k (nth i vs' []) NaN))) /\
    renewed E moved xb fxb l pop' fit' xb' fxb' l').
  assert (Hne : fit <> []) by (destruct fit; simpl in *; [lia|congruence]).
  assert (M : exists m, gsa_mass F fit = Done m /\ masses F fit m).
  { unfold gsa_mass. destruct (argmin_spec fit Hne Nf) as (ib & fb & E1 & (A1 & A2 & _)).
    destruct (argmax_spec fit Hne Nf) as (iw & fw & E2 & (B1 & B2 & _)). rewrite E1, E2. unfold nthP. rewrite A1, B1. cbn [bind]. cbv zeta.
    eexists. split; [reflexivity|]. exists fb, fw. split; [eapply nth_error_In; eauto|]. split; [eapply nth_error_In; eauto|]. split; [|reflexivity].
    intros f Hin. apply In_nth_error in Hin. destruct Hin as [i Hi]. split; [eapply A2|eapply B2]; eauto. }
  destruct M as (m & Em & Mm). unfold gsa_iter in Ex. rewrite Em in Ex. cbn [bind] in Ex.
  change (exec E (let* v := view in (fun v => let* r := random_mat (gs_n p) (c_dim C) in
    let acc := map2 (gsa_acc F C p (v_iters v) m pop r) m pop in
    let* s := random_mat (gs_n p) (c_dim C) in
    let vs' := map2 (vadd F) (map2 (vmul F) s vs) acc in
    let* pop' := repair_all (map2 (vadd F) pop vs') in
    let* fit' := eval_all pop' in
    let* (xb', fxb') := lift (get_best pop' fit' (Some xb) fxb) in
    Done (pop', fit', xb', fxb', vs')) v) wd = (Ret (pop', fit', xb', fxb', vs'), wd')) in Ex.
  rewrite exec_view in Ex. cbv beta in Ex. cbn [v_iters] in Ex. fold it n in Ex.
  apply (tr_sound _ E _ S0 _ _ _) in Ex; [exact Ex|]. fold C l.
  apply wp_bind. apply w_random_mat. intros r Lr Dr Ur. cbv zeta. apply wp_bind. apply w_random_mat. intros s Ls Ds Us.
  assert (Lm : length m = n) by (destruct Mm as (fb & fw & _ & _ & _ & ->); rewrite !map_length; auto).
  set (acc := map2 (gsa_acc F C p it m pop r) m pop). set (vs1 := map2 (vadd F) (map2 (vmul F) s vs) acc).
  assert (La : length acc = n) by (apply map2_length; auto).
  assert (Da : dims (c_dim C) acc) by (apply dims_gsa; auto).
  assert (K1 := map2_length _ _ _ (vmul F) s vs _ Ls L3). assert (K2 := dims_map2v _ (fmul F) _ _ Ds D2).
  assert (K3 : length vs1 = n) by (apply map2_length; auto). assert (K4 : dims (c_dim C) vs1) by (apply dims_map2v; auto).
  apply w_renewed_tr. intros pop1 fit1 xb1 fxb1 l1 HR. exists m, r, s, (map2 (vadd F) pop vs1). split; [exact Mm|]. split; [exact Lr|]. split; [exact Ls|].
  split; [apply Forall_app; auto|]. split; [exact K3|]. split; [apply map2_length; auto|]. split; [|split; [|exact HR]].
  - intros i Hi. split; [apply dims_nthd; auto; lia|]. intros k Hk. unfold vs1.
    rewrite (nth_mat2 (fadd F) _ _ i k n (c_dim C)); auto. rewrite (nth_mat2 (fmul F) _ _ i k n (c_dim C)); auto. f_equal.
    unfold acc. rewrite (nth_map2 _ _ _ _ _ _ _ n NaN [] []); auto. unfold gsa_accel. apply gsa_acc_nth; auto. apply dims_nthd; auto; lia.
  - intros i Hi. split; [apply dims_nthd; [apply dims_map2v; auto|]; rewrite (map2_length _ _ _ (vadd F) pop vs1 n); auto|]. intros k Hk.
    apply (nth_mat2 (fadd F) _ _ i k n (c_dim C)); auto.
Qed.

(** ** C47: HarmonySearch and HarmonySearchV1, with a repair function that works in place *)
Lemma hs_ok : forall F E p bw R, let C := e_cfg E in cfg_ok C -> no_nan (e_prob E) -> repair_ok E -> 0 < hs_n p -> pure_draw bw R ->
  best_run E (hs_with F C true p bw) /\ sizes_ok (fun k => k = hs_n p) E (hs_with F C true p bw) /\ steps_ok no_worse_fit E (hs_with F C true p bw).
Proof.
  intros F E p bw R C HC Hn Hr Hp HB.
  apply (pop_all (fun _ => False) E (hs_n p) no_worse_fit unit (plain_init C (hs_n p)) (hs_iter F C true p bw) (fun _ _ _ => True)); auto.
  - intros Q HQ. apply (plain_init_ok C _ (hs_n p) (fun _ _ _ => True)); auto.
  - intros pop fit xb fxb u l HI _. apply (w_hs_iter F C _ p bw R); auto.
Qed.
Theorem C47_hs : forall F E p br, let C := e_cfg E in
  cfg_ok C -> no_nan (e_prob E) -> repair_ok E -> 0 < hs_n p ->
  best_run E (hs F C true p br) /\ sizes_ok (fun k => k = hs_n p) E (hs F C true p br) /\ steps_ok no_worse_fit E (hs F C true p br).
Proof. intros. apply (hs_ok F E p (hs_bw F br) (fun _ => True)); auto. apply pure_hs_any. Qed.
Theorem C47_hs1 : forall F E p bmin bmax, let C := e_cfg E in
  cfg_ok C -> no_nan (e_prob E) -> repair_ok E -> 0 < hs_n p ->
  best_run E (hs1 F C true p bmin bmax) /\ sizes_ok (fun k => k = hs_n p) E (hs1 F C true p bmin bmax) /\ steps_ok no_worse_fit E (hs1 F C true p bmin bmax).
Proof. intros F E p bmin bmax C HC Hn Hr Hp. exact (hs_ok F E p (hs1_bw F C bmin bmax) _ HC Hn Hr Hp (pure_hs1 F C bmin bmax)). Qed.
(** one new harmony, each note from memory (draw above r_accept), from memory with the bandwidth added
    (draw above r_pa) or random in the bounds; it replaces the first worst member when at least as good *)
Definition hs_update (pop : list vec) (fit : list num) (xb : vec) (fxb : num) (y : vec) (f : num) (pop' : list vec) (fit' : list num) (xb' : vec) (fxb' : num) : Prop :=
  exists iw fw, nth_error fit iw = Some fw /\ (forall j g, nth_error fit j = Some g -> fleb g fw = true) /\
    (forall j g, j < iw -> nth_error fit j = Some g -> fltb g fw = true) /\
    (if fleb f fw then row_set pop pop' iw y /\ row_set fit fit' iw f else pop' = pop /\ fit' = fit) /\
    (if fleb f fxb then xb' = y /\ fxb' = f else xb' = xb /\ fxb' = fxb).
Lemma hs_step : forall F E ip p bw R pop fit xb fxb u pop' fit' xb' fxb' u' wd wd', let C := e_cfg E in
  cfg_ok C -> 0 < hs_n p -> pure_draw bw R -> length pop = hs_n p -> length fit = hs_n p -> Forall (fun f => f <> NaN) fit ->
  Forall (fun x => length x = c_dim C) pop ->
  exec E (hs_iter F C ip p bw pop fit xb fxb u) wd = (Ret (pop', fit', xb', fxb', u'), wd') ->
  exists h y f, comps (c_dim C) h (note F C p R pop) /\ repaired E h y /\
    evaluated y f (log_of (c_opt C) (w_h wd)) (log_of (c_opt C) (w_h wd')) /\
    hs_update pop fit xb fxb (if ip then y else h) f pop' fit' xb' fxb'.
Proof.
  intros F E ip p bw R pop fit xb fxb u pop' fit' xb' fxb' u' wd wd' C HC Hn HB L1 L2 Nf D Ex. set (l := log_of (c_opt C) (w_h wd)).
  pose (S0 := fun (s' : list vec * list num * vec * num * unit) (l' : elog) => let '(pop', fit', xb', fxb', _) := s' in
    exists h y f, comps (c_dim C) h (note F C p R pop) /\ repaired E h y /\ evaluated y f l l' /\
    hs_update pop fit xb fxb (if ip then y else h) f pop' fit' xb' fxb').
  apply (tr_sound _ E _ S0 _ _ _) in Ex; [exact Ex|]. fold C l. unfold hs_iter. apply wp_bind. apply (w_harmony _ _ _ _ _ R); auto. intros h Hh.
  apply wp_bind. apply w_repair_tr. intros y Hy. apply wp_bind. apply w_eval_tr. intros f l' He. cbv zeta.
  assert (Hne : fit <> []) by (destruct fit; simpl in *; [lia|congruence]).
  destruct (argmax_spec fit Hne Nf) as (iw & fw & E2 & (B1 & B2 & B3)). rewrite E2. apply wp_bind. apply w_nthP_tr. intros fw' Efw.
  assert (fw' = fw) by congruence. subst fw'. set (z := if ip then y else h) in *.
  assert (T : forall pop1 fit1, (if fleb f fw then row_set pop pop1 iw z /\ row_set fit fit1 iw f else pop1 = pop /\ fit1 = fit) ->
    wp (K_tr E) (let* (xb', fxb') := lift (get_best1 z f (Some xb) fxb) in Done (pop1, fit1, xb', fxb', u)) S0 l').
  { intros pop1 fit1 H1. apply wp_bind. apply w_lift_tr. intros [x1 f1] G. apply w_done. exists h, y, f. split; [exact Hh|]. split; [exact Hy|]. split; [exact He|].
    exists iw, fw. split; auto. split; auto. split; auto. split; auto. unfold get_best1 in G. destruct (fleb f fxb); injection G as <- <-; auto. }
  destruct (fleb f fw) eqn:Q.
  - apply wp_bind. apply w_setP_tr. intros R1. apply wp_bind. apply w_setP_tr. intros R2. apply T. auto.
  - apply wp_bind. apply w_done. apply wp_bind. apply w_done. apply T. auto.
Qed.
Theorem C47_step : forall F E ip p br pop fit xb fxb u pop' fit' xb' fxb' u' wd wd', let C := e_cfg E in
  cfg_ok C -> 0 < hs_n p -> fleb (flit F (-1) 1) (flit F 1 1) = true -> length pop = hs_n p -> length fit = hs_n p -> Forall (fun f => f <> NaN) fit ->
  Forall (fun x => length x = c_dim C) pop ->
  exec E (hs_iter F C ip p (hs_bw F br) pop fit xb fxb u) wd = (Ret (pop', fit', xb', fxb', u'), wd') ->
  exists h y f, comps (c_dim C) h (note F C p (fun b => exists r, fleb (flit F (-1) 1) r = true /\ fleb r (flit F 1 1) = true /\ b = fmul F r br) pop) /\
    repaired E h y /\ evaluated y f (log_of (c_opt C) (w_h wd)) (log_of (c_opt C) (w_h wd')) /\
    hs_update pop fit xb fxb (if ip then y else h) f pop' fit' xb' fxb'.
Proof. intros F E ip p br pop fit xb fxb u pop' fit' xb' fxb' u' wd wd' C HC Hn H1. apply (hs_step F E ip p (hs_bw F br)); auto. apply pure_hs; auto. Qed.
(** HarmonySearchV1: the bandwidth is bmin e^(ln(bmin/bmax) (t+1) / max_iters) *)
Theorem C47_v1_bw : forall F E bmin bmax wd, let C := e_cfg E in
  exec E (hs1_bw F C bmin bmax) wd = (Ret (fmul F bmin (fexp F (fdiv F (fmul F (fln F (fdiv F bmin bmax)) (fnat F (S (t_iters (w_ts wd))))) (flim F (c_max_iters C))))), wd).
Proof. intros. unfold hs1_bw. rewrite exec_view. reflexivity. Qed.

Module ExBasic.
  Definition C := Cfg Minimization 2 [N' 0; N' 0] [N' 1; N' 1] LInf (LFin 3) NInf.
  Definition E := exenv C lin.
  Definition C9 := Cfg Minimization 2 [N' 0; N' 0] [N' 1; N' 1] (LFin 13) (LFin 4) NInf.
  Definition E9 := exenv C9 lin.
  Definition pi := q 13 4.
  Definition sp := SCAPar 3 (q 3 1) (q 0 1) (q 2 1).
  Definition gp := GSAPar 3 (q 2 1) (q 1 4).
  Definition hp := HSPar 3 (q 7 8) (q 3 8).
  Lemma C_ok : forall d, cfg_ok (Cfg Minimization 2 [N' 0; N' 0] [N' 1; N' 1] LInf (LFin d) NInf).
  Proof. intros d. split; [reflexivity|]. split; [reflexivity|]. repeat constructor. Qed.
  Lemma C9_ok : cfg_ok C9.
  Proof. split; [reflexivity|]. split; [reflexivity|]. repeat constructor. Qed.
  Example hyps : cfg_ok C9 /\ no_nan (e_prob E9) /\ repair_ok E9 /\ 3 <= 3 /\ 0 < sc_n sp /\ 0 < gs_n gp /\ 0 < hs_n hp /\
    fleb (flit fxx (-1) 1) (flit fxx 1 1) = true.
  Proof.
    split; [exact C9_ok|]. split; [apply lin_no_nan|]. split; [exact (clip_ok C9 lin fl8 in7 C9_ok)|].
    split; [lia|]. split; [simpl; lia|]. split; [simpl; lia|]. split; [simpl; lia|]. vm_compute. reflexivity.
  Qed.
  Example gwo_trace : trace E9 (gwo fxx C9 3) 9 =
    (Ret ([24313; 13285], 50884), [[8192; 40960]; [24576; 24576]; [40960; 8192]; [24313; 13285]; [26939;
    19587]; [41642; 34816]; [27041; 22113]; [16183; 25591]; [11463; 32356]; [22669; 22770]; [26929; 17093];
    [21647; 18416]; [20997; 19154]])%Z.
  Proof. vm_compute. reflexivity. Qed.
  Example mfo_trace : trace E9 (mfo fxx C9 pi 3) 9 =
    (Ret ([34138; 1370], 36878), [[8192; 40960]; [24576; 24576]; [40960; 8192]; [34138; 1370]; [24576; 24576];
    [16202; 48970]; [34138; 1370]; [24576; 24576]; [16202; 48970]; [34138; 1370]; [24576; 24576]; [16202;
    48970]; [34138; 1370]])%Z.
  Proof. vm_compute. reflexivity. Qed.
  (** an inexact division, so that r1 is not zero *)
  Definition fxd : fops := {| fadd := fadd fxx; fsub := fsub fxx; fmul := fmul fxx; fdiv := fun a b => fsub fxx (fdiv fxx a b) (q 1 8);
    fpow := fpow fxx; fmod := fmod fxx; fexp := fexp fxx; fln := fln fxx; fsqrt := fsqrt fxx; fsin := fsin fxx; fcos := fcos fxx; ftan := ftan fxx;
    fabs := fabs fxx; ffloor := ffloor fxx; fgamma := fgamma fxx; fsign := fsign fxx; flit := flit fxx; fint := fint fxx |}.
  Example sca_fxd_trace : trace E9 (sca fxd C9 pi sp) 9 =
    (Ret ([40900; 8180], 57260), [[8192; 40960]; [24576; 24576]; [40960; 8192]; [7868; 40564]; [24444; 24372];
    [40900; 8180]; [8212; 45506]; [26860; 27290]; [45373; 9074]; [9214; 51474]; [28480; 30697]; [49597; 9919];
    [6915; 44955]])%Z.
  Proof. vm_compute. reflexivity. Qed.
  Example sca_trace : trace E9 (sca fxx C9 pi sp) 9 =
    (Ret ([40960; 8192], 57344), [[8192; 40960]; [24576; 24576]; [40960; 8192]; [8192; 40960]; [24576; 24576];
    [40960; 8192]; [8192; 40960]; [24576; 24576]; [40960; 8192]; [8192; 40960]; [24576; 24576]; [40960; 8192];
    [8192; 40960]])%Z.
  Proof. vm_compute. reflexivity. Qed.
  Example gsa_trace : trace E9 (gsa fxx C9 gp) 9 =
    (Ret ([37901; 5796], 49494), [[8192; 40960]; [24576; 24576]; [40960; 8192]; [8192; 40960]; [35275; 13876];
    [38690; 19540]; [8192; 40960]; [37901; 5796]; [33702; 20247]; [8192; 40960]; [39361; 7919]; [31660;
    12873]; [8192; 40960]])%Z.
  Proof. vm_compute. reflexivity. Qed.
  Example hs_trace : trace E9 (hs fxx C9 true hp (q 1 2)) 9 =
    (Ret ([40960; 8192], 57344), [[8192; 40960]; [24576; 24576]; [40960; 8192]; [45056; 53248]; [57344;
    24576]; [65536; 61440]; [8192; 45056]])%Z.
  Proof. vm_compute. reflexivity. Qed.
  Example hs1_trace : trace E9 (hs1 fxx C9 true hp (q 1 2) (q 2 1)) 9 =
    (Ret ([34432; 8192], 50816), [[8192; 40960]; [24576; 24576]; [40960; 8192]; [51072; 24576]; [34560;
    50944]; [34432; 8192]; [44160; 17920]])%Z.
  Proof. vm_compute. reflexivity. Qed.
  (** C44: the number of flames for 30 moths and 100 iterations in binary64 *)
  Lemma flames_ok : forall F C n m, c_max_iters C = LFin (Z.of_nat m) ->
    forallb (fun it => (- Z.of_nat n <=? mfo_flame F C n it)%Z) (seq 0 m) = true ->
    forall it, lim_reached it (c_max_iters C) = false -> (- Z.of_nat n <= mfo_flame F C n it)%Z.
  Proof.
    intros F C n m Hm H it Hit. rewrite Hm in Hit. cbn [lim_reached] in Hit. apply Z.leb_gt in Hit. rewrite forallb_forall in H.
    apply Z.leb_le, H, in_seq. lia.
  Qed.
  Example flames_b64 : let C := Cfg Minimization 2 [N' 0; N' 0] [N' 1; N' 1] LInf (LFin 100) NInf in
    forall it, lim_reached it (c_max_iters C) = false -> (- Z.of_nat 30 <= mfo_flame b64ops C 30 it)%Z.
  Proof. cbv zeta. apply (flames_ok _ _ _ 100); [reflexivity|]. vm_compute. reflexivity. Qed.
  Example flames_fxx : forall it, lim_reached it (c_max_iters C9) = false -> (- Z.of_nat 3 <= mfo_flame fxx C9 3 it)%Z.
  Proof. apply (flames_ok _ _ _ 4); [reflexivity|]. vm_compute. reflexivity. Qed.
  (** C46: a state for the step theorem *)
  Definition pop := [[q 1 2; q 1 4]; [q 1 1; q 0 1]; [q 0 1; q 0 1]].
  Definition fit := [q 1 1; q 3 4; q 1 8].
  Example state_ok : length pop = 3 /\ length fit = 3 /\ Forall (fun f => f <> NaN) fit /\ Forall (fun x => length x = c_dim C) pop.
  Proof. split; [reflexivity|]. split; [reflexivity|]. split; repeat constructor; discriminate. Qed.
  (** C52: an exact arithmetic on the numbers that occur in the first four iterations with a = 3 *)
  Definition fxz : fops := {| fadd := fun a b => if num_eqb b f0 then a else fadd fxx a b; fsub := fsub fxx;
    fmul := fun a b => if num_eqb a f0 then f0 else fmul fxx a b; fdiv := fdiv fxx;
    fpow := fpow fxx; fmod := fmod fxx; fexp := fexp fxx; fln := fln fxx; fsqrt := fsqrt fxx; fsin := fsin fxx; fcos := fcos fxx; ftan := ftan fxx;
    fabs := fabs fxx; ffloor := ffloor fxx; fgamma := fgamma fxx; fsign := fsign fxx; flit := flit fxx; fint := fint fxx |}.
  Lemma zero_fxz : zero_at fxz (sc_a sp) 4.
  Proof.
    split; [|split].
    - assert (H : forallb (fun k => num_eqb (fsub fxz (sc_a sp) (fmul fxz (fnat fxz (S k)) (fdiv fxz (sc_a sp) (fnat fxz (S k))))) f0) (seq 0 4) = true)
        by (vm_compute; reflexivity).
      intros k Hk. apply num_eqb_spec. rewrite forallb_forall in H. apply (H k). apply in_seq. lia.
    - intros s y. cbn [fmul fxz]. rewrite (proj2 (num_eqb_spec f0 f0) eq_refl). rewrite (proj2 (num_eqb_spec f0 f0) eq_refl). reflexivity.
    - intros x. cbn [fadd fxz]. rewrite (proj2 (num_eqb_spec f0 f0) eq_refl). reflexivity.
  Qed.
End ExBasic.

Lemma clip_keeps : forall C k x, inside C x -> clip C k x = x.
Proof.
  intros C k x. unfold inside, clip. generalize (c_lower C), (c_upper C). clear. intros lo. revert x.
  induction lo as [|l lo IH]; intros x [|u hi] H; simpl in *; inversion H as [|? a ? x' H1 H2]; subst; auto.
  unfold limit in *. cbn [zip3]. rewrite IH by auto. f_equal. cbn [fst snd] in H1. unfold limit1, np_min, np_max.
  destruct H1 as [->|[H1 H3]]; [reflexivity|]. destruct a as [| |a|], l as [| |l|], u as [| |u|]; simpl in *; try discriminate; auto;
  rewrite ?Z.leb_le in *; repeat match goal with |- context [Z.ltb ?m ?n] => destruct (Z.ltb_spec m n); simpl end; auto; f_equal; lia.
Qed.
(** C43, refuted parts.  The leaders need not be the three best: a new alpha does not make the old one beta, so
    two different points better than the beta wolf may have been evaluated. *)
Definition two_below (l : list (vec * num)) (b : num) : bool :=
  existsb (fun p => existsb (fun p' => negb (vec_eqb (fst p) (fst p')) && fltb (snd p) b && fltb (snd p') b) l) l.
Theorem C43_three_best_refuted : exists E n, let C := e_cfg E in
  cfg_ok C /\ no_nan (e_prob E) /\ repair_ok E /\ 3 <= n /\
  exists s wd x y f g, reached E (gwo fxx C n) s wd /\ let t : wolves := r_par s in let l := log_of (c_opt C) (w_h wd) in
    In (x, f) l /\ In (y, g) l /\ x <> y /\ fltb f (gw_fb t) = true /\ fltb g (gw_fb t) = true.
Proof.
  exists ExBasic.E9, 3. cbv zeta. destruct ExBasic.hyps as (H1 & H2 & H3 & H4 & _). split; [exact H1|]. split; [exact H2|]. split; [exact H3|]. split; [exact H4|].
  pose (chk := fun (s : rstate (gwo fxx ExBasic.C9 3)) (w : world) => two_below (log_of Minimization (w_h w)) (gw_fb (r_par s : wolves))).
  destruct (state_check ExBasic.E9 (gwo fxx ExBasic.C9 3) 1 chk) as (s & w & Hs & Hc); [vm_compute; reflexivity|].
  unfold chk, two_below in Hc. apply existsb_exists in Hc. destruct Hc as ([x f] & Hx & Hc). apply existsb_exists in Hc. destruct Hc as ([y g] & Hy & Hc).
  cbn [fst snd] in Hc. apply andb_true_iff in Hc. destruct Hc as [Hc Hg]. apply andb_true_iff in Hc. destruct Hc as [Hne Hf].
  exists s, w, x, y, f, g. split; [exact Hs|]. split; [exact Hx|]. split; [exact Hy|]. split; [|split; [exact Hf|exact Hg]].
  intros Hxy. apply vec_eqb_spec in Hxy. rewrite Hxy in Hne. discriminate.
Qed.
(** with two wolves a run raises IndexError *)
Theorem C43_two_refuted : exists E k, let C := e_cfg E in
  cfg_ok C /\ no_nan (e_prob E) /\ repair_ok E /\
  (exists wd ev, run_body E (gwo fxx C 2) (fun _ => None) k (World (task_init C) [] 0) = (Raise EIndex, wd, ev)) /\
  ~ best_run E (gwo fxx C 2).
Proof.
  exists ExBasic.E9, 9. cbv zeta. destruct ExBasic.hyps as (H1 & H2 & H3 & _). split; [exact H1|]. split; [exact H2|]. split; [exact H3|].
  apply (run_raises (fun _ => False)); [vm_compute; reflexivity|discriminate|exact (fun x => x)].
Qed.
(** C47, refuted part: with a repair function that returns a new array, the returned point was never evaluated *)
Theorem C47_copy_repair_refuted : exists E p br k, let C := e_cfg E in
  cfg_ok C /\ no_nan (e_prob E) /\ repair_ok E /\ 0 < hs_n p /\
  (exists x v wd ev, run_body E (hs fxx C false p br) (fun _ => None) k (World (task_init C) [] 0) = (Ret (x, v), wd, ev) /\
     v <> worst (c_opt C) /\ ~ In (x, Ret v) (w_h wd)) /\
  ~ best_run E (hs fxx C false p br).
Proof.
  exists ExBasic.E9, (HSPar 3 (q 1 1) (q 1 8)), (q (-8) 1), 9. cbv zeta. destruct ExBasic.hyps as (H1 & H2 & H3 & _).
  split; [exact H1|]. split; [exact H2|]. split; [exact H3|]. split; [simpl; lia|].
  apply run_bad_pair. vm_compute. reflexivity.
Qed.
(** C52, refuted: a run that never evaluates anything but its initial population *)
Theorem C52_explores_refuted : exists F E pi p m, let C := e_cfg E in
  cfg_ok C /\ no_nan (e_prob E) /\ repair_ok E /\ 0 < sc_n p /\ c_max_iters C = LFin (Z.of_nat m) /\ 0 < m /\
  forall s wd, reached E (sca F C pi p) s wd -> t_iters (w_ts wd) <= m ->
    length (r_pop s : list vec) = sc_n p /\ forall x v, In (x, v) (log_of (c_opt C) (w_h wd)) -> In x (r_pop s : list vec).
Proof.
  exists ExBasic.fxz, ExBasic.E9, ExBasic.pi, ExBasic.sp, 4. cbv zeta. destruct ExBasic.hyps as (H1 & H2 & H3 & _ & H4 & _).
  split; [exact H1|]. split; [exact H2|]. split; [exact H3|]. split; [exact H4|]. split; [reflexivity|]. split; [lia|].
  intros s wd Hs Hit. apply (C52_only_initial ExBasic.fxz ExBasic.E9 ExBasic.pi ExBasic.sp 4); auto; [apply ExBasic.zero_fxz|].
  intros k x Hx. apply (clip_keeps ExBasic.C9 k x Hx).
Qed.

Print Assumptions C43_gwo.
Print Assumptions C43_leaders.
Print Assumptions C43_step.
Print Assumptions C43_iter.
Print Assumptions C43_lead.
Print Assumptions C43_three_best_refuted.
Print Assumptions C43_two_refuted.
Print Assumptions C44_mfo.
Print Assumptions C44_any.
Print Assumptions C44_step.
Print Assumptions C45_sca.
Print Assumptions C45_step.
Print Assumptions C46_gsa.
Print Assumptions C46_step.
Print Assumptions C47_hs.
Print Assumptions C47_hs1.
Print Assumptions C47_step.
Print Assumptions C47_v1_bw.
Print Assumptions C47_copy_repair_refuted.
Print Assumptions C52_sca_still.
Print Assumptions C52_only_initial.
Print Assumptions C52_explores_refuted.
