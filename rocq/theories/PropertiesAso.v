(** Final theorems about AnarchicSocietyOptimization (aso.py) (C114-C117). *)
From Coq Require Import ZArith Lia Lra Reals Bool List Floats.SpecFloat.
From Flocq Require Import Core BinarySingleNaN.
From Verif Require Import Num Task TaskSpec TaskProofs TaskProofs2 Prog Wp GetBest Run RunSpec RunProofs RunProofs2
  AlgoLib Fops AlgTac StepSpec StepLib Indiv IndivLib Reach AlgBasic AlgSwarm PopLib AlgEvoProofs Repair B64 B64Spec B64Int B64Mag ExLib ExLib2
  AlgPSO AlgPSOProofs PropertiesBasic2 PropertiesShade PropertiesProgress AlgKh AlgKhProofs PropertiesKh AlgAso AlgAsoProofs.
Import ListNotations.
Open Scope nat_scope.
Notation fabs := Fops.fabs.

(** * C114: runs *)
(** the only exception of the algorithm itself is ValueError *)
Definition value_error (e : exn) : Prop := e = EValue.
Theorem C114_best : forall F E p, let C := e_cfg E in cfg_ok C -> no_nan (e_prob E) -> repair_ok E -> 0 < as_n p ->
  best_run_x value_error E (aso F C p) /\ sizes_ok (fun n => n = as_n p) E (aso F C p).
Proof.
  intros F E p C HC Hn Hr Hp.
  destruct (all_c (inside C) value_error (fun n => n = as_n p) any_step E (aso F C p) (AsoInv C p)) as (H1 & H2 & _); auto.
  - apply aso_init_c; auto.
  - intros pop fit xb fxb pb l H. eapply wp_conseq0; [apply (aso_iter_c F C p value_error HC Hp pop fit xb fxb pb l); auto; left; reflexivity|].
    intros [[[[pop' fit'] xb'] fxb'] pb'] l' [G _]. split; auto. exact Logic.I.
  - intros pop fit xb fxb pb l H. split; [apply H|]. split; [apply H|apply H].
Qed.
(** * C115: personal bests *)
Lemma aso_inv : forall F E p s w, let C := e_cfg E in cfg_ok C -> no_nan (e_prob E) -> repair_ok E -> 0 < as_n p -> reached E (aso F C p) s w ->
  AsoInv C p (r_pop s) (r_fit s) (r_xb s) (r_fxb s) (r_par s) (log_of (c_opt C) (w_h w)).
Proof.
  intros F E p s w C HC Hn Hr Hp H. apply (reach_c (inside C) value_error E (aso F C p) (AsoInv C p)); auto; [apply aso_init_c; auto|].
  intros pop fit xb fxb pb l G. eapply wp_conseq0; [apply (aso_iter_c F C p value_error HC Hp pop fit xb fxb pb l); auto; left; reflexivity|].
  intros [[[[p1 f1] x1] fx1] pb1] l' [G' _]. exact G'.
Qed.
(** in every state: a personal best is an evaluated pair (or inf), not better than the best found and not worse than the member *)
Theorem C115_personal : forall F E p s w, let C := e_cfg E in cfg_ok C -> no_nan (e_prob E) -> repair_ok E -> 0 < as_n p -> reached E (aso F C p) s w ->
  let l := log_of (c_opt C) (w_h w) in let '(px, pf) := (r_par s : list vec * list num) in
  length px = as_n p /\ length pf = as_n p /\ Forall2 (fun x v => v = PInf \/ In (x, v) l) px pf /\
  forall i, i < as_n p -> fleb (r_fxb s) (nth i pf NaN) = true /\ fleb (nth i pf NaN) (nth i (r_fit s) NaN) = true.
Proof.
  intros F E p s w C HC Hn Hr Hp H. cbv zeta.
  assert (G : AsoInv C p (r_pop s) (r_fit s) (r_xb s) (r_fxb s) (r_par s) (log_of (c_opt C) (w_h w))) by (apply aso_inv; auto).
  destruct (r_par s) as [px pf]. destruct G as [[P1 P2 P3 P4 P5 P6] A2 A3 [B1 B2] A5]. cbn [fst snd] in *. split; auto. assert (L := Forall2_len _ _ _ _ _ B1). split; [lia|]. split; [exact B1|].
  intros i Hi. split; [apply (Forall_nth _ _ _ i _ B2); apply nth_error_nth'; lia|]. apply (Forall2_nth _ _ _ _ _ i _ _ A5); apply nth_error_nth'; lia.
Qed.
(** and it never gets worse *)
Theorem C115_monotone : forall F E p s w pop' fit' xb' fxb' px' pf' w', let C := e_cfg E in cfg_ok C -> no_nan (e_prob E) -> repair_ok E -> 0 < as_n p -> reached E (aso F C p) s w ->
  exec E (a_iter (aso F C p) (r_pop s) (r_fit s) (r_xb s) (r_fxb s) (r_par s)) w = (Ret (pop', fit', xb', fxb', (px', pf')), w') ->
  Forall2 (fun new old => fleb new old = true) pf' (snd (r_par s : list vec * list num)).
Proof.
  intros F E p s w pop' fit' xb' fxb' px' pf' w' C HC Hn Hr Hp H Ex.
  assert (G : AsoInv C p (r_pop s) (r_fit s) (r_xb s) (r_fxb s) (r_par s) (log_of (c_opt C) (w_h w))) by (apply aso_inv; auto).
  assert (W := aso_iter_c F C p value_error HC Hp _ _ _ _ _ _ (or_introl eq_refl) G).
  assert (S := wp_sound _ _ _ _ _ _ _ _ (env_ok_KB (inside C) value_error E Hn Hr) W Ex). destruct S as (_ & S). cbn in S. apply S.
Qed.

(** * C116: one iteration *)
Section Step.
Variables (F : fops) (E : env) (p : aso_par).
Let C := e_cfg E.
Let n := as_n p.
Let d := c_dim C.
Let f := as_f p.
Let cr := as_cr p.
(** one member *)
Definition cands (x xpb xb xr : vec) (mc ms mp : num) (a b c : vec) : Prop :=
  (exists z, fickle F d f cr mc x z /\ repaired E z a) /\ (exists z, follows F d cr ms xr xb x z /\ repaired E z b) /\ (exists z, returns F d cr mp xpb x z /\ repaired E z c).
Definition joined (x xpb xb xr : vec) (mc ms mp : num) (y : vec) (v : num) (l l' : elog) : Prop :=
  match as_comb p with
  | Elitism => exists a b c fs k, cands x xpb xb xr mc ms mp a b c /\ evaluated_all [a; b; c] fs l l' /\
      nth_error [a; b; c] k = Some y /\ nth_error fs k = Some v /\ (Forall (fun u => u <> NaN) fs -> first_min fs k v)
  | Sequential => exists z1 z2 z3, fickle F d f cr mc x z1 /\ returns F d cr mp xpb z1 z2 /\ follows F d cr ms xr xb z2 z3 /\ repaired E z3 y /\ evaluated y v l l'
  | Crossover => exists a b c, cands x xpb xb xr mc ms mp a b c /\ evaluated y v l l' /\
      comps d y (fun k e => exists r, in_unit r /\ if fltb r cr then In e [nth k a NaN; nth k b NaN; nth k c NaN] else e = nth k x NaN)
  end.
Let one := flit F 1 1.
Definition dist (x y : vec) : num := fsqrt F (vsum F (map (fun k => fmul F (fsub F (nth k x NaN) (nth k y NaN)) (fsub F (nth k x NaN) (nth k y NaN))) (seq 0 d))).
(** j is in the neighbourhood of i *)
Definition close (pop : list vec) (i j : nat) : Prop :=
  j < n /\ fleb (fdiv F (dist (nth i pop []) (nth j pop [])) (dist (c_upper C) (c_lower C))) (as_nl p) = true.
Definition moved (pop : list vec) (fit : list num) (xb : vec) (fxb : num) (pbx : list vec) (pbf : list num) (i : nat) (y : vec) (v : num) (l l' : elog) : Prop :=
  exists j r mc ms mp, close pop i j /\ (Forall (fun u => u <> NaN) fit -> forall k, close pop i k -> fleb (nth j fit NaN) (nth k fit NaN) = true) /\
    r < n /\ r <> i /\
    mc = fsub F (fsub F one (fdiv F (fmul F (nth i (as_alpha p) NaN) fxb) (nth i fit NaN))) (fdiv F (fmul F (fsub F one (nth i (as_alpha p) NaN)) (nth i pbf NaN)) (nth i fit NaN)) /\
    ms = fsub F one (fexp F (fmul F (fneg (nth i (as_gamma p) NaN)) (fabs F (fsub F (nth i fit NaN) (nth j fit NaN))))) /\
    mp = fsub F one (fexp F (fmul F (fneg (nth i (as_theta p) NaN)) (fabs F (fsub F (nth i fit NaN) (nth i pbf NaN))))) /\
    joined (nth i pop []) (nth i pbx []) xb (nth r pop []) mc ms mp y v l l'.
Definition society (pop : list vec) (fit : list num) (xb : vec) (fxb : num) (pbx : list vec) (pbf : list num) (l : elog)
  (pop' : list vec) (fit' : list num) (xb' : vec) (fxb' : num) (pbx' : list vec) (pbf' : list num) (l' : elog) : Prop :=
  length pop' = n /\ length fit' = n /\ length pbx' = n /\ length pbf' = n /\
  (exists L, length L = S n /\ nth 0 L [] = l /\ nth n L [] = l' /\
     forall i, i < n -> moved pop fit xb fxb pbx pbf i (nth i pop' []) (nth i fit' NaN) (nth i L []) (nth (S i) L [])) /\
  (forall i, i < n -> if fltb (nth i fit' NaN) (nth i pbf NaN) then nth i pbx' [] = nth i pop' [] /\ nth i pbf' NaN = nth i fit' NaN
                      else nth i pbx' [] = nth i pbx [] /\ nth i pbf' NaN = nth i pbf NaN) /\
  get_best pop' fit' (Some xb) fxb = Ret (xb', fxb').
Lemma dist_eq : forall x y, length x = d -> length y = d -> euclidean F x y = dist x y.
Proof. intros x y L1 L2. unfold euclidean, dist, vsub. rewrite (map2_seq (fsub F) x y d) by auto. rewrite map_map. reflexivity. Qed.
Lemma w_cands_tr : forall x xpb xb xr mc ms mp (Q : list vec -> elog -> Prop) l, length x = d -> length xpb = d -> length xb = d -> length xr = d ->
  (forall a b c, cands x xpb xb xr mc ms mp a b c -> Q [a; b; c] l) -> wp (K_tr E) (as_cands F x xpb xb xr mc ms mp f cr) Q l.
Proof.
  intros x xpb xb xr mc ms mp Q l L1 L2 L3 L4 HQ. unfold as_cands. assert (KX : K_exn (K_tr E) EValue \/ 2 <= d) by (left; exact I).
  apply wp_bind. apply (w_mp_c F d); auto. intros z1 Z1. apply wp_bind. apply w_repair_tr. intros a Ha.
  apply wp_bind. apply (w_mp_s F d); auto. intros z2 Z2. apply wp_bind. apply w_repair_tr. intros b Hb.
  apply wp_bind. apply (w_mp_p F d); auto. intros z3 Z3. apply wp_bind. apply w_repair_tr. intros c Hc.
  apply w_done. apply HQ. split; [exists z1; auto|]. split; [exists z2; auto|exists z3; auto].
Qed.
Lemma w_joined : forall x xpb xb xr mc ms mp (Q : vec * num -> elog -> Prop) l, length x = d -> length xpb = d -> length xb = d -> length xr = d ->
  (forall y v l', joined x xpb xb xr mc ms mp y v l l' -> Q (y, v) l') -> wp (K_tr E) (as_combine F (as_comb p) x xpb xb xr mc ms mp f cr) Q l.
Proof.
  intros x xpb xb xr mc ms mp Q l L1 L2 L3 L4 HQ. unfold joined in HQ. assert (KX : K_exn (K_tr E) EValue \/ 2 <= d) by (left; exact I). destruct (as_comb p); cbn [as_combine].
  - apply wp_bind. apply w_cands_tr; auto. intros a b c Hc. apply wp_bind. apply w_eval_all_tr. intros fs l' He. apply wp_bind.
    destruct (argmin fs) as [k|] eqn:Ek; cbn [argP]; [|exact I]. apply w_done. apply wp_bind. apply w_nthP_tr. intros y Ey. apply wp_bind. apply w_nthP_tr. intros v Ev. apply w_done. apply HQ.
    exists a, b, c, fs, k. do 4 (split; [assumption|]). intros N. destruct (argmin_spec fs) as (k' & m' & Ek' & M); [intros H0; rewrite H0 in Ek; discriminate|exact N|].
    rewrite Ek in Ek'. injection Ek' as <-. assert (m' = v) as <- by (destruct M as (M1 & _); congruence). exact M.
  - apply wp_bind. apply (w_mp_c F d); auto. intros z1 Z1. assert (G1 : length z1 = d) by (destruct Z1 as (s1 & _ & g & [G1 _]); auto).
    apply wp_bind. apply (w_mp_p F d); auto. intros z2 Z2. assert (G2 : length z2 = d) by (destruct Z2 as (s1 & _ & [G2 _]); auto).
    apply wp_bind. apply (w_mp_s F d); auto. intros z3 Z3. apply wp_bind. apply w_repair_tr. intros y Hy. apply wp_bind. apply w_eval_tr. intros v l' He. apply w_done. apply HQ. exists z1, z2, z3. auto.
  - apply wp_bind. apply w_cands_tr; auto. intros a b c Hc. rewrite L1. apply wp_bind.
    apply (w_mapM_seq _ _ (fun k e => exists r, in_unit r /\ if fltb r cr then In e [nth k a NaN; nth k b NaN; nth k c NaN] else e = nth k x NaN) _ _ NaN).
    { intros i Q' Hi HQ'. apply wp_bind. apply w_random_u. intros r Hr. destruct (fltb r cr) eqn:B; [|apply w_done; apply HQ'; exists r; rewrite B; auto].
      apply wp_bind. apply w_integers; [lia|]. intros k Hk. apply w_done. apply HQ'. exists r. rewrite B. split; auto. destruct k as [|[|[|]]]; cbn [nth In]; auto. lia. }
    intros y Ly Hy. apply wp_bind. apply w_eval_tr. intros v l' He. apply w_done. apply HQ. exists a, b, c. split; auto. split; auto. split; auto.
Qed.
End Step.
Lemma w_skip_tr : forall E fuel low high skip (Q : nat -> elog -> Prop) l, (forall r, low <= r -> r < high -> ~ In r skip -> Q r l) -> wp (K_tr E) (integers_skip fuel low high skip) Q l.
Proof.
  intros E fuel low high skip Q l HQ. induction fuel as [|fuel IH]; [exact I|]. cbn [integers_skip]. apply wp_bind. apply w_integers_tr. intros r Hr.
  destruct (existsb (Nat.eqb (low + r)) skip) eqn:B; auto. apply w_done. apply HQ; [lia|lia|]. intros Hi.
  assert (B2 : existsb (Nat.eqb (low + r)) skip = true) by (apply existsb_exists; exists (low + r); split; auto; apply Nat.eqb_refl). congruence.
Qed.
Lemma nth_fst_snd : forall (ps : list (vec * num)) i, i < length ps -> nth i (map fst ps) [] = fst (nth i ps ([], NaN)) /\ nth i (map snd ps) NaN = snd (nth i ps ([], NaN)).
Proof.
  intros ps i Hi. split; [rewrite (nth_indep _ [] (fst (@nil num, NaN))) by (rewrite map_length; auto)|rewrite (nth_indep _ NaN (snd (@nil num, NaN))) by (rewrite map_length; auto)]; apply map_nth.
Qed.
Theorem C116_step : forall F E p pop fit xb fxb pbx pbf pop' fit' xb' fxb' pbx' pbf' wd wd', let C := e_cfg E in cfg_ok C ->
  length pop = as_n p -> Forall (fun x => length x = c_dim C) pop -> length fit = as_n p -> length xb = c_dim C ->
  length pbx = as_n p -> Forall (fun x => length x = c_dim C) pbx -> length pbf = as_n p ->
  exec E (a_iter (aso F C p) pop fit xb fxb (pbx, pbf)) wd = (Ret (pop', fit', xb', fxb', (pbx', pbf')), wd') ->
  society F E p pop fit xb fxb pbx pbf (log_of (c_opt C) (w_h wd)) pop' fit' xb' fxb' pbx' pbf' (log_of (c_opt C) (w_h wd')).
Proof.
  intros F E p pop fit xb fxb pbx pbf pop' fit' xb' fxb' pbx' pbf' wd wd' C HC Lp Dp Lf Lx Lb Db Lpf Ex. set (l := log_of (c_opt C) (w_h wd)).
  cbn [a_iter aso] in Ex. unfold aso_iter in Ex. cbv zeta in Ex. rewrite Lp in Ex.
  apply (tr_sound _ E _ (fun s l' => let '(pop', fit', xb', fxb', (pbx', pbf')) := s in society F E p pop fit xb fxb pbx pbf l pop' fit' xb' fxb' pbx' pbf' l') _ _ _) in Ex; [exact Ex|].
  fold C l. clear Ex pop' fit' xb' fxb' pbx' pbf' wd'. clearbody l. clear wd. set (n := as_n p) in *. set (d := c_dim C) in *.
  assert (Lu : length (c_upper C) = d) by apply HC. assert (Lo : length (c_lower C) = d) by apply HC.
  assert (NR : forall i j, i < n -> In j (as_near F (as_nl p) (as_rs F C) pop i) <-> close F E p pop i j).
  { intros i j Hi. unfold as_near, close. rewrite filter_In, in_seq, Lp. fold n C. unfold as_rs. rewrite (dist_eq F E (c_upper C) (c_lower C)) by auto. split.
    - intros [[_ H1] H2]. split; [lia|]. rewrite <- (dist_eq F E) by (apply dims_nthd; auto; fold n; lia). exact H2.
    - intros [H1 H2]. split; [lia|]. rewrite (dist_eq F E) by (apply dims_nthd; auto; fold n; lia). exact H2. }
  apply wp_bind. apply (w_mapM_seq _ _ (fun i j => close F E p pop i j /\ (Forall (fun u => u <> NaN) fit -> forall k, close F E p pop i k -> fleb (nth j fit NaN) (nth k fit NaN) = true)) _ _ 0).
  { intros i Q' Hi HQ. apply w_neighbor; [left; exact I|]. intros j b Hj Eb Ej. apply HQ. split; [apply NR; auto|]. intros N k Hk. apply NR in Hk; auto.
    set (ids := as_near F (as_nl p) (as_rs F C) pop i) in *. destruct (argmin_spec (map (fun j => nth j fit NaN) ids)) as (b' & m & Eb' & M1 & M2 & M3).
    { destruct ids; [contradiction|discriminate]. } { apply Forall_map. apply Forall_forall. intros q Hq. apply (near_lt F) in Hq. apply (Forall_nth _ _ _ q _ N). apply nth_error_nth'. lia. }
    rewrite Eb in Eb'. injection Eb' as <-. rewrite (map_nth_error (fun j => nth j fit NaN) _ _ Ej) in M1. injection M1 as <-.
    destruct (In_nth_error _ _ Hk) as [q Hq]. apply (M2 q). apply (map_nth_error (fun j => nth j fit NaN)). exact Hq. }
  intros nbs Lnb Hnb. apply wp_bind.
  eapply wp_conseq0; [apply (wp_mapM_acc _ _ (K_tr E) _ (fun new l' => exists L, length L = S (length new) /\ nth 0 L [] = l /\ nth (length new) L [] = l' /\
    forall i, i < length new -> moved F E p pop fit xb fxb pbx pbf i (fst (nth i new ([], NaN))) (snd (nth i new ([], NaN))) (nth i L []) (nth (S i) L [])))|].
  - exists [l]. repeat split. intros i Hi. cbn [length] in Hi. lia.
  - intros pre i post bs l1 Es Lbs (L & L1 & L2 & L3 & L4). assert (Hi : i = length bs /\ i < n).
    { assert (Q1 : nth_error (seq 0 n) (length pre) = Some i) by (rewrite Es, nth_error_app2, Nat.sub_diag; auto). assert (Q2 : length pre < n) by (rewrite <- (seq_length n 0); apply nth_error_Some; congruence).
      rewrite (nth_error_nth' _ 0) in Q1 by (rewrite seq_length; auto). rewrite seq_nth in Q1 by auto. injection Q1 as <-. lia. }
    destruct Hi as [Hi Hin]. apply wp_bind. apply w_skip_tr. intros r _ Hr Hri.
    apply w_joined; auto; try (apply dims_nthd; auto; lia). intros y v l2 J. rewrite app_length. cbn [length]. exists (L ++ [l2]). rewrite app_length. cbn [length].
    split; [lia|]. split; [rewrite app_nth1 by lia; auto|]. split; [rewrite app_nth2 by lia; replace (length bs + 1 - length L) with 0 by lia; reflexivity|].
    intros k Hk. destruct (Nat.eq_dec k (length bs)) as [->|Hne].
    + rewrite (app_nth2 bs) by lia. rewrite Nat.sub_diag. cbn [nth fst snd]. rewrite (app_nth1 L) by lia. rewrite (app_nth2 L) by lia. replace (S (length bs) - length L) with 0 by lia. cbn [nth]. rewrite L3. rewrite <- Hi.
      destruct (Hnb i Hin) as [N1 N2]. exists (nth i nbs 0), r. do 3 eexists. split; [exact N1|]. split; [exact N2|]. split; [exact Hr|]. split; [intros ->; apply Hri; left; auto|].
      split; [reflexivity|]. split; [reflexivity|]. split; [reflexivity|]. exact J.
    + rewrite (app_nth1 bs) by lia. rewrite !(app_nth1 L) by lia. apply L4. lia.
  - intros new l' [(L & L1 & L2 & L3 & L4) Ln]. rewrite seq_length in Ln. apply wp_bind. apply w_lift_tr. intros [x g] Eg. apply w_done.
    destruct (as_pb_spec pbx pbf new n Lb Lpf Ln) as [S1 S2]. unfold society. fold n. rewrite !map_length. repeat (split; [assumption|]). split; [|split; [|exact Eg]].
    + exists L. rewrite Ln in *. repeat (split; [assumption|]). intros i Hi. destruct (nth_fst_snd new i) as [-> ->]; [lia|]. auto.
    + intros i Hi. destruct (nth_fst_snd new i) as [-> ->]; [lia|]. destruct (nth_fst_snd (as_pb (combine pbx pbf) new) i) as [-> ->]; [lia|]. rewrite S2 by auto. destruct (fltb _ _); cbn [fst snd]; auto.
Qed.

(** * C117: exceptions *)
(** every point is in its own neighbourhood *)
Definition self_near (F : fops) (C : cfg) (nl : num) (x : vec) : Prop := fleb (fdiv F (euclidean F x x) (as_rs F C)) nl = true.
Lemma self_no_alone : forall F C p pop, length pop = as_n p -> Forall (self_near F C (as_nl p)) pop -> no_alone F C p pop.
Proof.
  intros F C p pop L H i Hi E. assert (G : In i (as_near F (as_nl p) (as_rs F C) pop i)); [|rewrite E in G; contradiction].
  unfold as_near. apply filter_In. split; [apply in_seq; lia|]. apply (Forall_nth _ _ _ i _ H). apply nth_error_nth'. lia.
Qed.
(** in binary64 *)
Definition fin64 (a : num) : Prop := is64 a /\ exists z, a = Fin z.
Lemma sub_self : forall z, is64 (Fin z) -> fsub b64ops (Fin z) (Fin z) = Fin 0.
Proof.
  intros z H. destruct (sub64 z z H H) as (y & E1 & E2 & E3); [rewrite Rminus_diag_eq, rnd64_0, Rabs_R0 by auto; apply bpow_gt_0|].
  rewrite Rminus_diag_eq, rnd64_0 in E3 by auto. rewrite E1. f_equal. unfold val in E3. apply Rmult_integral in E3. destruct E3 as [E3|E3]; [apply eq_IZR; exact E3|]. assert (Q := bpow_gt_0 radix2 (-1074)). lra.
Qed.
Lemma mul_zero : forall z, is64 (Fin z) -> fmul b64ops (Fin z) (Fin 0) = Fin 0.
Proof.
  intros z H. destruct (mul64 z 0 H) as (y & E1 & E2 & E3); [reflexivity|rewrite val_0, Rmult_0_r, rnd64_0, Rabs_R0; apply bpow_gt_0|].
  rewrite val_0, Rmult_0_r, rnd64_0 in E3. rewrite E1. f_equal. unfold val in E3. apply Rmult_integral in E3. destruct E3 as [E3|E3]; [apply eq_IZR; exact E3|]. assert (Q := bpow_gt_0 radix2 (-1074)). lra.
Qed.
Lemma zero_div : forall r, is64 r -> fltb f0 r = true -> fdiv b64ops (Fin 0) r = Fin 0.
Proof.
  intros [| |z|] H P; try discriminate P; [|reflexivity]. assert (P' : (val z <> 0)%R). { apply fltb_val in P. rewrite val_0 in P. lra. }
  destruct (div64 0 z) as (y & E1 & E2 & E3); auto; [reflexivity|unfold Rdiv; rewrite val_0, Rmult_0_l, rnd64_0, Rabs_R0; apply bpow_gt_0|].
  unfold Rdiv in E3. rewrite val_0, Rmult_0_l, rnd64_0 in E3. rewrite E1. f_equal. unfold val in E3. apply Rmult_integral in E3. destruct E3 as [E3|E3]; [apply eq_IZR; exact E3|]. assert (Q := bpow_gt_0 radix2 (-1074)). lra.
Qed.
(** within the bounds, and a number in every component *)
Definition between (C : cfg) (x : vec) : Prop :=
  comps (c_dim C) x (fun k c => fleb (nth k (c_lower C) NaN) c = true /\ fleb c (nth k (c_upper C) NaN) = true).
Definition repair_between (E : env) : Prop := forall q x, length x = c_dim (e_cfg E) -> between (e_cfg E) (e_rep E q x).
Definition bounds64 (C : cfg) : Prop := Forall fin64 (c_lower C) /\ Forall fin64 (c_upper C).
Lemma between_inside : forall C x, cfg_ok C -> between C x -> inside C x.
Proof. intros C x HC [L H]. apply (proj2 (inside_rows C HC x)). split; [exact L|]. intros k Hk. right. apply H. exact Hk. Qed.
(** a number between two binary64 numbers minus itself is 0, whatever it is *)
Lemma sub_self_in : forall lo hi c, fin64 lo -> fin64 hi -> fleb lo c = true -> fleb c hi = true -> fsub b64ops c c = Fin 0.
Proof.
  intros lo hi c (L1 & a & ->) (H1 & b & ->) A B. destruct c as [| |z|]; try discriminate. apply fleb_val in A. apply fleb_val in B.
  assert (R : (Rabs (rnd64 (val z)) < bpow radix2 1024)%R).
  { assert (Ba := is64_bnd _ L1). assert (Bb := is64_bnd _ H1). assert (Fa := rnd64_id _ (is64_fmt _ L1)). assert (Fb := rnd64_id _ (is64_fmt _ H1)).
    assert (Q1 := rnd64_le _ _ A). assert (Q2 := rnd64_le _ _ B). rewrite Fa in Q1. rewrite Fb in Q2. apply Rabs_lt_inv in Ba. apply Rabs_lt_inv in Bb. apply Rabs_lt. lra. }
  destruct (num2b_rnd z R) as [Fz Ez]. cbn [fsub b64ops]. unfold sf2. rewrite !to_sf_eq, sub_equiv.
  assert (X := Bminus_correct 53 1024 B64Spec.prec_gt_0_53 B64Spec.prec_lt_emax_53 mode_NE _ _ Fz Fz). rewrite Rminus_diag_eq, round_0, Rabs_R0 in X by (auto; apply valid_rnd_N).
  rewrite Rlt_bool_true in X by apply bpow_gt_0. destruct X as (X1 & X2 & _). destruct (of_fin _ X2) as (y & Y1 & Y2). rewrite Y1. f_equal.
  rewrite X1 in Y2. unfold val in Y2. first [apply Rmult_integral in Y2|symmetry in Y2; apply Rmult_integral in Y2]. destruct Y2 as [Y2|Y2]; [apply eq_IZR; exact Y2|]. assert (Q := bpow_gt_0 radix2 (-1074)). lra.
Qed.
Theorem C117_self64 : forall F C nl x, arith64 F -> fsqrt F f0 = f0 -> cfg_ok C -> bounds64 C -> between C x -> is64 (as_rs F C) -> fltb f0 (as_rs F C) = true -> fleb f0 nl = true -> self_near F C nl x.
Proof.
  intros F C nl x (A1 & A2 & A3 & A4 & A5 & A6) S (HL & HU & _) [B1 B2] [Lx Hx] R1 R2 N. unfold self_near, euclidean, vsub, vsum. rewrite A1, A2, A3, A4, A5.
  assert (H : Forall (fun c => fsub b64ops c c = Fin 0) x).
  { apply Forall_forall. intros c Hc. destruct (In_nth _ _ NaN Hc) as (k & Hk & <-). destruct (Hx k) as [G1 G2]; [lia|].
    apply (sub_self_in (nth k (c_lower C) NaN) (nth k (c_upper C) NaN)); auto.
    - apply (Forall_nth _ _ _ k _ B1). apply nth_error_nth'. lia.
    - apply (Forall_nth _ _ _ k _ B2). apply nth_error_nth'. lia. }
  assert (G : forall a, a = f0 -> fold_left (fadd b64ops) (map (fun a => fmul b64ops a a) (map2 (fsub b64ops) x x)) a = f0).
  { clear Lx Hx. induction H as [|c x H0 H IH]; intros a ->; [reflexivity|]. cbn [map2 map fold_left]. rewrite H0. apply IH. vm_compute. reflexivity. }
  rewrite G by (vm_compute; reflexivity). rewrite S. unfold f0 at 1. rewrite zero_div; auto.
Qed.
Lemma w_uniform_between : forall K C n (Q : list vec -> elog -> Prop) l, cfg_ok C -> (forall pop, length pop = n -> Forall (between C) pop -> Q pop l) -> wp K (uniform_pop C n) Q l.
Proof.
  intros K C n Q l HC. revert Q. induction n as [|n IH]; intros Q HQ; cbn [uniform_pop]; [apply w_done; apply HQ; [reflexivity|constructor]|].
  apply wp_bind. destruct HC as (L1 & L2 & B). apply (w_uniform_vec_len _ _ _ (c_dim C)); auto. intros x [Lx Hx].
  apply wp_bind. apply IH. intros pop H1 H2. apply w_done. apply HQ; [cbn; lia|]. constructor; auto. split; auto. intros k Hk. apply Hx; auto.
  apply (Forall2_nth _ _ _ _ _ k _ _ B); apply nth_error_nth'; lia.
Qed.
(** every point of every population is a point between the bounds *)
Theorem C117_between : forall F E p s w, let C := e_cfg E in cfg_ok C -> no_nan (e_prob E) -> repair_between E -> 0 < as_n p -> reached E (aso F C p) s w -> Forall (between C) (r_pop s : list vec).
Proof.
  intros F E p s w C HC Hn Hb Hp H. assert (Hr : repair_ok E) by (intros q x Lx; apply between_inside; auto).
  induction H as [pos pop fit par w xb fxb Ex G|s w pop fit xb fxb par w' H IH Ex].
  - cbn [r_pop]. cbn [a_init aso] in Ex. unfold aso_init in Ex. apply (tr_sound _ E _ (fun a _ => let '(pop, fit, par) := a in Forall (between C) pop) _ _ _) in Ex; [exact Ex|].
    unfold default_numpy_init. apply wp_bind. apply wp_bind. apply w_uniform_between; auto. intros pop0 _ H0. apply wp_bind. apply w_eval_all_tr. intros fs l' _. apply w_done. apply w_done. exact H0.
  - cbn [r_pop]. destruct par as [px pf]. assert (G : AsoInv C p (r_pop s) (r_fit s) (r_xb s) (r_fxb s) (r_par s) (log_of (c_opt C) (w_h w))) by (apply aso_inv; auto). destruct (r_par s) as [px0 pf0] eqn:Ep. destruct G as [[P1 P2 P3 P4 P5 P6] A2 A3 [B1 B2] A5]. cbn [fst snd] in *.
    assert (Lq := Forall2_len _ _ _ _ _ B1).
    destruct (C116_step F E p (r_pop s) (r_fit s) (r_xb s) (r_fxb s) px0 pf0 pop fit xb fxb px pf w w') as (S1 & _ & _ & _ & (L & _ & _ & _ & S2) & _); auto; try lia; try (unfold C; lia).
    { eapply Forall_impl; [|exact P3]. intros x Hx. apply inside_len; auto. }
    apply Forall_forall. intros x Hx. destruct (In_nth _ _ [] Hx) as (i & Hi & <-). destruct (S2 i) as (j & r & mc & ms & mp & _ & _ & _ & _ & _ & _ & _ & J); [lia|]. clear S2.
    assert (Bx : between C (nth i (r_pop s) [])) by (apply (Forall_nth _ _ _ i _ IH); apply nth_error_nth'; lia).
    assert (RB : forall z y, comps (c_dim C) z (fun _ _ => True) -> repaired E z y -> between C y) by (intros z y [Lz _] [q ->]; apply Hb; auto).
    assert (CB : forall a b c, cands F E p (nth i (r_pop s) []) (nth i px0 []) (r_xb s) (nth r (r_pop s) []) mc ms mp a b c -> between C a /\ between C b /\ between C c).
    { intros a b c ((z1 & (s1 & _ & g & [Z1 _]) & Q1) & (z2 & (s2 & _ & [Z2 _]) & Q2) & (z3 & (s3 & _ & [Z3 _]) & Q3)). split; [|split]; eapply RB; eauto; split; auto. }
    unfold joined in J. destruct (as_comb p).
    + destruct J as (a & b & c & fs & k & Hc & _ & Hk & _). apply CB in Hc. destruct Hc as (Ha & Hbb & Hc). apply nth_error_In in Hk. destruct Hk as [<-|[<-|[<-|[]]]]; auto.
    + destruct J as (z1 & z2 & z3 & _ & _ & (s3 & _ & [Z3 _]) & Q & _). eapply RB; eauto. split; auto.
    + destruct J as (a & b & c & Hc & _ & [Ly Hy]). apply CB in Hc. destruct Hc as ((_ & Ha) & (_ & Hbb) & (_ & Hc)). destruct Bx as [_ Bx]. split; auto. intros k Hk. destruct (Hy k Hk) as (u & _ & Hu).
      destruct (fltb u (as_cr p)); [|rewrite Hu; auto]. destruct Hu as [<-|[<-|[<-|[]]]]; auto.
Qed.
(** so no iteration raises an exception of its own, but for the retries of the random index *)
Theorem C117_iteration64 : forall F E p s w e w', let C := e_cfg E in arith64 F -> fsqrt F f0 = f0 -> cfg_ok C -> bounds64 C -> no_nan (e_prob E) -> repair_between E -> 0 < as_n p -> 2 <= c_dim C ->
  is64 (as_rs F C) -> fltb f0 (as_rs F C) = true -> fleb f0 (as_nl p) = true -> reached E (aso F C p) s w ->
  exec E (a_iter (aso F C p) (r_pop s) (r_fit s) (r_xb s) (r_fxb s) (r_par s)) w = (Raise e, w') ->
  e = EFuel \/ exists x h, w_h w' = (x, Raise e) :: h.
Proof.
  intros F E p s w e w' C HF Sq HC HB Hn Hb Hp Hd R1 R2 N H Ex. assert (Hr : repair_ok E) by (intros q x Lx; apply between_inside; auto).
  assert (Hf := C117_between F E p s w HC Hn Hb Hp H). fold C in Hf. assert (G := aso_inv F E p s w HC Hn Hr Hp H). fold C in G.
  assert (W := aso_iter_c F C p (fun _ => False) HC Hp _ _ _ _ _ _ (or_intror (conj Hd (self_no_alone F C p _ (pi_pop _ _ _ _ _ _ _ (ai_pop _ _ _ _ _ _ _ _ G)) (Forall_impl _ (fun x Hx => C117_self64 F C (as_nl p) x HF Sq HC HB Hx R1 R2 N) Hf)))) G).
  assert (S := wp_sound _ _ _ _ _ _ _ _ (env_ok_KB (inside C) (fun _ => False) E Hn Hr) W Ex). destruct S as (_ & [[S|[]]|(x & h & S & _)]); [left; exact S|right; eauto].
Qed.
(** where the exception of a run comes from *)
Lemma loop_raise : forall E A cb n s w ev e w' ev', reached E A s w -> loop E A cb n s w ev = (Raise e, w', ev') ->
  e = EFuel \/ cb ev' = Some e \/ exists s0 w0, reached E A s0 w0 /\ exec E (a_iter A (r_pop s0) (r_fit s0) (r_xb s0) (r_fxb s0) (r_par s0)) w0 = (Raise e, w').
Proof.
  intros E A cb n. induction n as [|n IH]; intros s w ev e w' ev' H L; cbn [loop] in L.
  - destruct (stopping_condition (e_cfg E) (w_ts w)); [discriminate L|]. injection L as <- _ _. auto.
  - destruct (stopping_condition (e_cfg E) (w_ts w)); [discriminate L|]. destruct (cb (BeforeIter (r_fit s) (r_xb s) (r_fxb s) :: ev)) eqn:Q; [injection L as <- _ <-; auto|].
    destruct (exec E (a_iter A (r_pop s) (r_fit s) (r_xb s) (r_fxb s) (r_par s)) w) as [[[[[[pop fit] xb] fxb] par]|e0] w1] eqn:Ex.
    + destruct (cb (AfterIter fit xb fxb :: BeforeIter (r_fit s) (r_xb s) (r_fxb s) :: ev)) eqn:Q2; [injection L as <- _ <-; auto|]. eapply IH; [|exact L]. eapply reached_step; eauto.
    + injection L as <- <- _. right. right. eauto.
Qed.
Theorem run_raise : forall E A cb n pos e w' ev, run_body E A cb n (World (task_init (e_cfg E)) [] pos) = (Raise e, w', ev) ->
  e = EFuel \/ cb ev = Some e \/ exec E (init_prog A) (World (task_init (e_cfg E)) [] pos) = (Raise e, w') \/
  exists s0 w0, reached E A s0 w0 /\ exec E (a_iter A (r_pop s0) (r_fit s0) (r_xb s0) (r_fxb s0) (r_par s0)) w0 = (Raise e, w').
Proof.
  intros E A cb n pos e w' ev H. unfold run_body in H. unfold init_prog. rewrite exec_bind. destruct (cb [BeforeRun]) eqn:Q; [injection H as <- _ <-; auto|].
  destruct (exec E (a_init A) (World (task_init (e_cfg E)) [] pos)) as [[[[pop fit] par]|e0] w1] eqn:Ex; [|injection H as <- <- _; auto].
  cbv beta iota. rewrite exec_bind. destruct (get_best (a_coords A pop) fit None PInf) as [[xb fxb]|e0] eqn:G; [|injection H as <- <- _; auto]. cbn [lift exec].
  destruct (loop E A cb n (RState pop fit xb fxb par) w1 [BeforeRun]) as [[[[x f]|e0] w2] ev2] eqn:L.
  - destruct (cb (AfterRun :: ev2)) eqn:Q2; [injection H as <- _ <-; auto|discriminate H].
  - injection H as <- <- <-. eapply loop_raise in L; [|eapply reached_init; eauto]. destruct L as [L|[L|L]]; auto.
Qed.
Lemma init_ok : forall K A (I : a_pop A -> list num -> vec -> num -> a_par A -> elog -> Prop), init_c K A I -> wp K (init_prog A) (Inv_of A I) [].
Proof.
  intros K A I H1. unfold init_prog. apply wp_bind. eapply wp_conseq0; [exact H1|]. intros [[pop fit] par] l H.
  apply wp_bind. eapply wp_conseq0; [exact H|]. intros [xb fxb] l' H'. exact H'.
Qed.
Theorem C117_best64 : forall F E p, let C := e_cfg E in arith64 F -> fsqrt F f0 = f0 -> cfg_ok C -> bounds64 C -> no_nan (e_prob E) -> repair_between E -> 0 < as_n p -> 2 <= c_dim C ->
  is64 (as_rs F C) -> fltb f0 (as_rs F C) = true -> fleb f0 (as_nl p) = true -> best_run E (aso F C p).
Proof.
  intros F E p C HF Sq HC HB Hn Hb Hp Hd R1 R2 N cb n pos r w' ev Hrun. assert (Hr : repair_ok E) by (intros q x Lx; apply between_inside; auto).
  destruct (C114_best F E p HC Hn Hr Hp) as [B _]. destruct (B cb n pos r w' ev Hrun) as (B1 & B2 & B3). split; auto. split; auto. destruct r as [[x v]|e]; auto. clear B B1 B2 B3. right.
  destruct (run_raise _ _ _ _ _ _ _ _ Hrun) as [G|[G|[G|(s & w & G1 & G2)]]]; auto.
  - assert (I0 := aso_init_c F C p (fun _ => False) HC Hp).
    assert (I1 := init_ok (KBX C (fun _ => False)) (aso F C p) (AsoInv C p) I0).
    assert (S := wp_sound _ (KBX C (fun _ => False)) E _ (Inv_of (aso F C p) (AsoInv C p)) (World (task_init (e_cfg E)) [] pos) _ _ (env_ok_KB (inside C) (fun _ => False) E Hn Hr) I1 G). destruct S as (_ & [[S|[]]|(x & h & S & _)]); [left; exact S|]. right. left. exists x. rewrite S. reflexivity.
  - destruct (C117_iteration64 F E p s w e w' HF Sq HC HB Hn Hb Hp Hd R1 R2 N G1 G2) as [S|(x & h & S)]; [left; exact S|]. right. left. exists x. rewrite S. reflexivity.
Qed.
(** one variable: the internal irregularity of a member at its personal best is 0, two distinct positions of one are asked for *)
Lemma w_slice1 : forall E (Q : list bool -> elog -> Prop) l, wp (K_tr E) (as_slice 1) Q l.
Proof. intros E Q l. unfold as_slice. apply wp_bind. unfold choice. cbn [seq choice_from length]. apply wp_bind. apply w_integers; [lia|]. intros r Hr. apply wp_bind. apply w_nthP; [cbn; lia|]. intros a _. apply wp_bind. assert (r = 0) as -> by lia. exact I. Qed.
Theorem C117_dim1 : forall F E p pop fit xb fxb pbx w r w', let C := e_cfg E in arith64 F -> fexp F f0 = flit F 1 1 -> fabs F f0 = f0 ->
  c_dim C = 1 -> 0 < as_n p -> length pop = as_n p -> Forall (fun x => length x = 1) pop -> length xb = 1 -> Forall (fun x => length x = 1) pbx -> length pbx = as_n p ->
  fin64 (nth 0 fit NaN) -> fin64 (nth 0 (as_theta p) NaN) ->
  exec E (a_iter (aso F C p) pop fit xb fxb (pbx, fit)) w = (r, w') -> exists e, r = Raise e.
Proof.
  intros F E p pop fit xb fxb pbx w r w' C HF He Ha Hd Hp Lp Dp Lx Db Lb (V1 & v & V2) (T1 & t & T2) Ex. destruct r as [[[[[pop' fit'] xb'] fxb'] pb']|e]; [exfalso|eauto].
  assert (M : fltb (as_ei F (nth 0 fit NaN) (nth 0 fit NaN) (nth 0 (as_theta p) NaN)) (flit F 1 2) = true).
  { destruct HF as (A1 & A2 & A3 & A4 & A5 & A6). unfold as_ei. rewrite A2, A3, V2, T2 in *. rewrite sub_self by auto. fold f0. rewrite Ha. cbn [fneg]. unfold f0. rewrite mul_zero by (apply (is64_neg (Fin t)); auto). fold f0. rewrite He, A5. vm_compute. reflexivity. }
  cbn [a_iter aso] in Ex. unfold aso_iter in Ex. cbv zeta in Ex.
  apply (tr_sound _ E _ (fun _ _ => False) _ _ _) in Ex; [exact Ex|]. fold C.
  apply wp_bind. apply (w_mapM_seq _ _ (fun _ _ => True) _ _ 0). { intros i Q Hi HQ. apply w_neighbor; [left; exact I|]. intros. apply HQ. exact I. }
  intros nbs _ _. apply wp_bind. rewrite Lp. destruct (as_n p) as [|n] eqn:En; [lia|]. cbn [seq mapM]. apply wp_bind. apply wp_bind. apply w_skip_tr. intros j _ Hj _. 
  assert (P0 : length (nth 0 pop []) = 1) by (apply dims_nthd; auto; lia). assert (P1 : length (nth j pop []) = 1) by (apply dims_nthd; auto; lia). assert (P2 : length (nth 0 pbx []) = 1) by (apply dims_nthd; auto; lia).
  assert (KX : forall d, K_exn (K_tr E) EValue \/ 2 <= d) by (left; exact I).
  assert (MP : forall x (Q : vec -> elog -> Prop) l, length x = 1 -> wp (K_tr E) (as_mp_p F x (nth 0 pbx []) (as_cr p) (as_ei F (nth 0 fit NaN) (nth 0 fit NaN) (nth 0 (as_theta p) NaN))) Q l).
  { intros x Q l Lx0. unfold as_mp_p. rewrite M, Lx0. apply wp_bind. apply w_slice1. }
  destruct (as_comb p); cbn [as_combine].
  1,3: apply wp_bind; unfold as_cands; apply wp_bind; apply (w_mp_c F 1); auto; intros z1 _; apply wp_bind; apply w_repair_tr; intros z1' _;
    apply wp_bind; apply (w_mp_s F 1); auto; intros z2 _; apply wp_bind; apply w_repair_tr; intros z2' _; apply wp_bind; apply MP; auto.
  apply wp_bind. apply (w_mp_c F 1); auto. intros z1 (s1 & _ & g & [Z1 _]). apply wp_bind. apply MP; auto.
Qed.
(** which is the state after the initialisation *)
Lemma C117_init : forall F E p w pop fit par w', exec E (a_init (aso F (e_cfg E) p)) w = (Ret (pop, fit, par), w') -> par = (pop, fit).
Proof.
  intros F E p w pop fit par w' Ex. cbn [a_init aso] in Ex. unfold aso_init in Ex. rewrite exec_bind in Ex.
  destruct (exec E (default_numpy_init (e_cfg E) (as_n p)) w) as [[[pop0 fit0]|e] w1]; [|discriminate]. injection Ex as <- <- <- _. reflexivity.
Qed.
(** a single member: there is no other *)
Theorem C117_alone : forall F E p pop fit xb fxb pb w r w', length pop = 1 -> exec E (a_iter (aso F (e_cfg E) p) pop fit xb fxb pb) w = (r, w') -> exists e, r = Raise e.
Proof.
  intros F E p pop fit xb fxb [pbx pbf] w r w' Lp Ex. destruct r as [[[[[pop' fit'] xb'] fxb'] pb']|e]; [exfalso|eauto].
  cbn [a_iter aso] in Ex. unfold aso_iter in Ex. cbv zeta in Ex. apply (tr_sound _ E _ (fun _ _ => False) _ _ _) in Ex; [exact Ex|]. rewrite Lp. cbn [seq mapM].
  apply wp_bind. apply wp_bind. apply w_neighbor; [left; exact I|]. intros. apply wp_bind. apply w_done. apply w_done. apply wp_bind. apply wp_bind. apply wp_bind. apply w_skip_tr.
  intros r _ Hr Hn. exfalso. apply Hn. left. lia.
Qed.

(** * Examples *)
Module ExAso.
  Definition C1 := Cfg Minimization 2 [N' (-2); N' (-2)] [N' 2; N' 2] (LFin 40) (LFin 3) NInf.
  Definition E1 := exenv C1 sq.
  Definition p0 (cb : aso_comb) := AsoPar 3 9 (repeat (q 1 2) 3) (repeat (q 1 4) 3) (repeat (q 1 2) 3) (q 1 2) (q 3 2) (q 1 2) cb.
  Lemma ok1 : cfg_ok C1. Proof. split; [reflexivity|]. split; [reflexivity|]. repeat constructor. Qed.
  Lemma rep1 : repair_ok E1. Proof. exact (clip_ok C1 sq fl8 in7 ok1). Qed.
  Example hyps : forall cb, arith64 b64ops /\ fsqrt b64ops f0 = f0 /\ fexp b64ops f0 = flit b64ops 1 1 /\ fabs b64ops f0 = f0 /\ cfg_ok (e_cfg E1) /\ no_nan (e_prob E1) /\ repair_ok E1 /\ 0 < as_n (p0 cb) /\ 2 <= c_dim C1 /\
    is64 (as_rs b64ops C1) /\ fltb f0 (as_rs b64ops C1) = true /\ fleb f0 (as_nl (p0 cb)) = true.
  Proof.
    intros cb. split; [repeat split|]. split; [vm_compute; reflexivity|]. split; [vm_compute; reflexivity|]. split; [reflexivity|]. split; [exact ok1|]. split; [apply sq_no_nan|]. split; [exact rep1|].
    split; [cbn; lia|]. split; [cbn; lia|]. split; [vm_compute; reflexivity|]. split; vm_compute; reflexivity.
  Qed.
  Example trace1 : trace E1 (aso b64ops C1 (p0 Elitism)) 9 =
    (Ret ([24576; 8192], 10240), [[8192; 40960]; [24576; 24576]; [40960; 8192]; [69632; 40960]; [24576;
    40960]; [8192; 40960]; [86016; 24576]; [24576; 24576]; [24576; 24576]; [53248; 8192]; [24576; 8192];
    [40960; 8192]; [69632; 40960]; [24576; 40960]; [8192; 40960]; [110592; 24576]; [24576; 24576]; [24576;
    24576]; [61440; 8192]; [24576; 8192]; [24576; 8192]; [94208; 40960]; [24576; 40960]; [8192; 40960];
    [61440; 24576]; [24576; 24576]; [24576; 24576]; [110592; 8192]; [24576; 8192]; [24576; 8192]])%Z.
  Proof. vm_compute. reflexivity. Qed.
  Example trace2 : trace E1 (aso b64ops C1 (p0 Sequential)) 9 =
    (Ret ([24576; 8192], 10240), [[8192; 40960]; [24576; 24576]; [40960; 8192]; [24576; 40960]; [24576;
    24576]; [24576; 8192]; [24576; 40960]; [24576; 24576]; [24576; 8192]; [24576; 40960]; [24576; 24576];
    [24576; 8192]])%Z.
  Proof. vm_compute. reflexivity. Qed.
  Example trace3 : trace E1 (aso b64ops C1 (p0 Crossover)) 9 =
    (Ret ([24576; 24576], 18432), [[8192; 40960]; [24576; 24576]; [40960; 8192]; [8192; 40960]; [36864;
    24576]; [40960; 8192]; [8192; 40960]; [24576; 24576]; [77824; 8192]; [8192; 40960]; [24576; 24576];
    [77824; 8192]])%Z.
  Proof. vm_compute. reflexivity. Qed.
  (** a repair that puts every component that is not between its bounds on the lower one *)
  Definition fix1 (C : cfg) (_ : nat) (x : vec) : vec := map3 (fun lo hi c => if fleb lo c && fleb c hi then c else lo) (c_lower C) (c_upper C) x.
  Definition E2 := Env C1 sq (fix1 C1) fl8 in7.
  Lemma fix_between : repair_between E2.
  Proof.
    intros k x L. destruct x as [|a [|b [|]]]; try discriminate. split; [reflexivity|]. intros [|[|j]] Hj; [| |cbn in Hj; lia]; cbn [nth e_rep E2 fix1 c_lower c_upper C1 map3 e_cfg].
    - destruct (fleb (N' (-2)) a && fleb a (N' 2)) eqn:Q; [apply andb_true_iff; exact Q|split; reflexivity].
    - destruct (fleb (N' (-2)) b && fleb b (N' 2)) eqn:Q; [apply andb_true_iff; exact Q|split; reflexivity].
  Qed.
  Lemma bounds1 : bounds64 C1.
  Proof. assert (G : forall z, is64 (N' z) -> fin64 (N' z)) by (intros z H; split; [exact H|eexists; reflexivity]). split; repeat constructor; apply G; vm_compute; reflexivity. Qed.
  Example best1 : forall cb, best_run E2 (aso b64ops C1 (p0 cb)).
  Proof.
    intros cb. destruct (hyps cb) as (H1 & H2 & _ & _ & H3 & H4 & _ & H6 & H7 & H8 & H9 & H10). apply (C117_best64 b64ops E2 (p0 cb)); auto; [exact bounds1|exact fix_between].
  Qed.
  (** the hypotheses of C115 and C116 in the state after the first iteration, for all combinations *)
  Example step1 : forall cb, exists s w pop' fit' xb' fxb' px' pf' wd', let p := p0 cb in reached E1 (aso b64ops C1 p) s w /\
    length (r_pop s : list vec) = 3 /\ Forall (fun x => length x = 2) (r_pop s : list vec) /\ length (r_fit s) = 3 /\ length (r_xb s) = 2 /\
    length (fst (r_par s : list vec * list num)) = 3 /\ Forall (fun x => length x = 2) (fst (r_par s : list vec * list num)) /\ length (snd (r_par s : list vec * list num)) = 3 /\
    exec E1 (a_iter (aso b64ops C1 p) (r_pop s) (r_fit s) (r_xb s) (r_fxb s) (r_par s)) w = (Ret (pop', fit', xb', fxb', (px', pf')), wd').
  Proof.
    intros cb. set (A := aso b64ops C1 (p0 cb)).
    assert (Q : match state_after E1 A 1 with Some (s, w) => (length (r_pop s : list vec) =? 3) && forallb (fun x => length x =? 2) (r_pop s : list vec) && (length (r_fit s) =? 3) && (length (r_xb s) =? 2) &&
      (length (fst (r_par s : list vec * list num)) =? 3) && forallb (fun x => length x =? 2) (fst (r_par s : list vec * list num)) && (length (snd (r_par s : list vec * list num)) =? 3) &&
      match exec E1 (a_iter A (r_pop s) (r_fit s) (r_xb s) (r_fxb s) (r_par s)) w with (Ret _, _) => true | _ => false end | None => false end = true) by (unfold A; destruct cb; vm_compute; reflexivity).
    destruct (state_after E1 A 1) as [[s w]|] eqn:S0; [|discriminate]. assert (Rc := state_reached _ _ _ _ _ S0).
    repeat match goal with H : (_ && _)%bool = true |- _ => apply andb_true_iff in H; destruct H end.
    destruct (exec E1 _ w) as [[[[[[pop' fit'] xb'] fxb'] [px' pf']]|] wd'] eqn:Ex; [|discriminate].
    repeat match goal with H : (_ =? _) = true |- _ => apply Nat.eqb_eq in H end.
    assert (FA : forall (l : list vec), forallb (fun x => length x =? 2) l = true -> Forall (fun x => length x = 2) l) by (intros l G; apply Forall_forall; intros x Hx; apply Nat.eqb_eq; exact (proj1 (forallb_forall _ _) G x Hx)).
    exists s, w, pop', fit', xb', fxb', px', pf', wd'. cbv zeta. split; [exact Rc|]. repeat (split; [solve [auto]|]). exact Ex.
  Qed.
  (** one variable *)
  Definition C2 := Cfg Minimization 1 [N' (-2)] [N' 2] (LFin 40) (LFin 3) NInf.
  Lemma ok2 : cfg_ok C2. Proof. split; [reflexivity|]. split; [reflexivity|]. repeat constructor. Qed.
  Example dim1 : forall cb, exists pop fit par w', exec (exenv C2 sq) (a_init (aso b64ops C2 (p0 cb))) (World (task_init C2) [] 0) = (Ret (pop, fit, par), w') /\
    length (pop : list vec) = 3 /\ Forall (fun x => length x = 1) (pop : list vec) /\ fin64 (nth 0 fit NaN) /\ fin64 (nth 0 (as_theta (p0 cb)) NaN).
  Proof.
    intros cb. set (A := aso b64ops C2 (p0 cb)). assert (Q : match exec (exenv C2 sq) (a_init A) (World (task_init C2) [] 0) with
      | (Ret (pop, fit, _), _) => (length (pop : list vec) =? 3) && forallb (fun x => length x =? 1) (pop : list vec) && num_eqb (of_sf (to_sf (nth 0 fit NaN))) (nth 0 fit NaN) && match nth 0 fit NaN with Fin _ => true | _ => false end
      | _ => false end = true) by (vm_compute; reflexivity).
    destruct (exec (exenv C2 sq) (a_init A) _) as [[[[pop fit] par]|] w']; [|discriminate]. exists pop, fit, par, w'. split; [reflexivity|].
    repeat match goal with H : (_ && _)%bool = true |- _ => apply andb_true_iff in H; destruct H end. split; [apply Nat.eqb_eq; auto|]. split; [|split; split].
    - match goal with H : forallb _ _ = true |- _ => apply Forall_forall; intros x Hx; apply Nat.eqb_eq; exact (proj1 (forallb_forall _ _) H x Hx) end.
    - apply num_eqb_spec. auto.
    - destruct (nth 0 fit NaN) as [| |z|]; try (match goal with H : false = true |- _ => discriminate H end). exists z. reflexivity.
    - vm_compute. reflexivity.
    - eexists. reflexivity.
  Qed.
  (** no room: the lower bounds are the upper bounds *)
  Definition C3 := Cfg Minimization 2 [N' 1; N' 1] [N' 1; N' 1] (LFin 40) (LFin 3) NInf.
  Lemma ok3 : cfg_ok C3. Proof. split; [reflexivity|]. split; [reflexivity|]. repeat constructor. Qed.
End ExAso.

(** The claim that every run returns the best point evaluated is false: with one variable and with a degenerate box the first iteration raises ValueError *)
Theorem C117_dim1_refuted : exists E p, let C := e_cfg E in cfg_ok C /\ no_nan (e_prob E) /\ repair_ok E /\ 1 < as_n p /\ c_dim C = 1 /\ ~ best_run E (aso b64ops C p) /\
  exists w ev, run_body E (aso b64ops C p) (fun _ => None) 9 (World (task_init C) [] 0) = (Raise EValue, w, ev).
Proof.
  exists (exenv ExAso.C2 sq), (ExAso.p0 Elitism). cbv zeta. split; [exact ExAso.ok2|]. split; [apply sq_no_nan|]. split; [exact (clip_ok ExAso.C2 sq fl8 in7 ExAso.ok2)|]. split; [cbn; lia|]. split; [reflexivity|].
  destruct (run_raises (fun _ => False) (exenv ExAso.C2 sq) (aso b64ops ExAso.C2 (ExAso.p0 Elitism)) 9 EValue) as [H1 H2]; [vm_compute; reflexivity|discriminate|auto|]. split; [exact H2|exact H1].
Qed.
Theorem C117_box_refuted : exists E p, let C := e_cfg E in cfg_ok C /\ no_nan (e_prob E) /\ repair_ok E /\ 1 < as_n p /\ c_dim C = 2 /\ ~ best_run E (aso b64ops C p) /\
  exists w ev, run_body E (aso b64ops C p) (fun _ => None) 9 (World (task_init C) [] 0) = (Raise EValue, w, ev).
Proof.
  exists (exenv ExAso.C3 sq), (ExAso.p0 Elitism). cbv zeta. split; [exact ExAso.ok3|]. split; [apply sq_no_nan|]. split; [exact (clip_ok ExAso.C3 sq fl8 in7 ExAso.ok3)|]. split; [cbn; lia|]. split; [reflexivity|].
  destruct (run_raises (fun _ => False) (exenv ExAso.C3 sq) (aso b64ops ExAso.C3 (ExAso.p0 Elitism)) 9 EValue) as [H1 H2]; [vm_compute; reflexivity|discriminate|auto|]. split; [exact H2|exact H1].
Qed.

Print Assumptions C114_best.
Print Assumptions C115_personal.
Print Assumptions C115_monotone.
Print Assumptions C116_step.
Print Assumptions C117_self64.
Print Assumptions C117_between.
Print Assumptions run_raise.
Print Assumptions C117_best64.
Print Assumptions C117_iteration64.
Print Assumptions C117_dim1.
Print Assumptions C117_init.
Print Assumptions C117_alone.
Print Assumptions C117_dim1_refuted.
Print Assumptions C117_box_refuted.
