(** Final theorems about CamelAlgorithm (ca.py) (C102-C104). *)
From Coq Require Import ZArith Lia Lra Reals Bool List Floats.SpecFloat.
From Flocq Require Import Core BinarySingleNaN.
From Verif Require Import Num Task TaskSpec TaskProofs TaskProofs2 Prog Wp GetBest Run RunSpec RunProofs RunProofs2
  AlgoLib Fops AlgTac StepSpec StepLib Indiv IndivLib AlgPSO AlgPSOProofs Reach AlgBasic AlgBasic2 AlgBasic2Proofs Repair B64 B64Spec B64Int B64Mag ExLib ExLib2
  PropertiesBasic2 PropertiesShade Progress PropertiesProgress Endless CondLib ThreadLib AlgCa AlgCaProofs.
Import ListNotations.
Open Scope nat_scope.
Notation fabs := Fops.fabs.

(** the divisors of an iteration are not zero *)
Definition ca_ok (p : ca_par) : Prop := feqb (ca_tmax p) f0 = false /\ feqb (ca_e p) f0 = false /\ feqb (ca_s p) f0 = false.

(** * C102 *)
Theorem C102_sound : forall F E p, let C := e_cfg E in
  cfg_ok C -> no_nan (e_prob E) -> repair_ok E -> 0 < ca_n p ->
  sound_run_x (fun e => e = EZeroDiv) E (ca F C p) /\ sizes_ok (fun n => n = ca_n p) E (ca F C p).
Proof.
  intros F E p C HC Hn Hr Hp. set (X := fun e => e = EZeroDiv). assert (HX : ca_ok p \/ X EZeroDiv) by (right; reflexivity).
  assert (H1 := ca_init_c F C p X HC HX Hp). assert (H2 := ca_iter_c F C p X HC HX Hp). split.
  - apply (sound_run_c (inside C) X E (ca F C p) (CaInv F C p)); auto. intros pop fit xb fxb par l (I1 & I2 & I3 & I4 & I5 & I6). split; [apply inside_len; auto|apply I5].
  - apply (sizes_c (inside C) X (fun n => n = ca_n p) E (ca F C p) (CaInv F C p)); auto. intros pop fit xb fxb par l (I1 & -> & _). rewrite map_length. exact I1.
Qed.
(** no exception if the three divisors are not zero *)
Theorem C102_sound_ok : forall F E p, let C := e_cfg E in
  cfg_ok C -> no_nan (e_prob E) -> repair_ok E -> 0 < ca_n p -> ca_ok p -> sound_run E (ca F C p).
Proof.
  intros F E p C HC Hn Hr Hp Ho. assert (HX : ca_ok p \/ False) by auto. set (X := fun _ : exn => False).
  apply (sound_run_c (inside C) X E (ca F C p) (CaInv F C p)); auto; [apply (ca_init_c F C p X HC HX Hp)|apply (ca_iter_c F C p X HC HX Hp)|].
  intros pop fit xb fxb par l (I1 & I2 & I3 & I4 & I5 & I6). split; [apply inside_len; auto|apply I5].
Qed.
(** a death needs a worse value: then the best evaluated point is returned *)
Theorem C102_best : forall F E p, let C := e_cfg E in
  cfg_ok C -> no_nan (e_prob E) -> repair_ok E -> 0 < ca_n p -> ca_ok p ->
  values_ok (fun v => forall a, fltb a (fmul F (ca_death p) v) = true -> fleb a v = true) E -> best_run E (ca F C p).
Proof.
  intros F E p C HC Hn Hr Hp Ho Hv. assert (HX : ca_ok p \/ False) by auto. set (X := fun _ : exn => False).
  apply (best_run_v (dies_worse F p) (inside C) X E (ca F C p) (CaInv F C p)); auto; [apply (ca_init_c F C p X HC HX Hp)|apply (ca_iter_c F C p X HC HX Hp)|].
  intros pop fit xb fxb par l V (I1 & I2 & I3 & I4 & I5 & I6). split; [apply inside_len; auto|]. destruct I5 as [S N]. split; [exact S|]. split; [exact (I6 V)|exact N].
Qed.
(** in binary64: a death rate between 0 and 1 and values that are not negative *)
Definition nonneg64 (v : num) : Prop := v = PInf \/ (is64 v /\ fleb f0 v = true).
Lemma scaled_le : forall a v, unit64 a -> nonneg64 v -> forall b, fltb b (fmul b64ops a v) = true -> fleb b v = true.
Proof.
  intros a v (Ha & A1 & A2) Hv b Hb. destruct Hv as [-> |(Hv & V1)]; [apply fleb_PInf; eapply fltb_nan_l; eauto|].
  destruct a as [| |x|]; try discriminate. destruct v as [| |y|]; try discriminate; [|apply fleb_PInf; eapply fltb_nan_l; eauto]. unfold f0 in *. apply fleb_val in A1. apply fleb_val in V1. rewrite val_0 in A1, V1.
  unfold one64 in A2. apply fleb_val in A2. rewrite val_1 in A2.
  destruct (btw_mul (Fin x) (Fin y) 0 (val y) x y eq_refl eq_refl Ha Hv) as (z & Z1 & Z2 & Z3); [apply (ok64_int 0); simpl; lia|apply ok64_val; auto|nra|].
  rewrite Z1 in Hb. assert (Hz : fleb (Fin z) (Fin y) = true) by (apply fleb_val; lra). eapply fleb_trans; [apply fltb_fleb; exact Hb|exact Hz].
Qed.
Theorem C102_best_64 : forall F E p, let C := e_cfg E in
  arith64 F -> cfg_ok C -> no_nan (e_prob E) -> repair_ok E -> 0 < ca_n p -> ca_ok p ->
  unit64 (ca_death p) -> values_ok nonneg64 E -> best_run E (ca F C p).
Proof.
  intros F E p C (_ & _ & Fm & _) HC Hn Hr Hp Ho Hd Hv. apply C102_best; auto. intros h x v Hx. rewrite Fm. apply scaled_le; auto. eapply Hv; eauto.
Qed.

(** * C103 *)
(** ** one iteration *)
(** the walk of camel c towards the best point cb *)
Definition walked (F : fops) (E : env) (p : ca_par) (cb : vec) (c c' : camel) (l l' : elog) : Prop :=
  let one := flit F 1 1 in let share a := fdiv F a (flim F (c_max_iters (e_cfg E))) in
  exists t d, (fleb (ca_tmin p) (ca_tmax p) = true -> fleb (ca_tmin p) t = true /\ fleb t (ca_tmax p) = true) /\
    (fleb (flit F (-1) 1) one = true -> fleb (flit F (-1) 1) d = true /\ fleb d one = true) /\
    cm_s c' = fmul F (cm_sp c) (fsub F one (share (fmul F (ca_burden p) (fnat F (cm_age c))))) /\
    cm_e c' = fmul F (fmul F (cm_ep c) (fsub F one (fdiv F t (ca_tmax p)))) (fsub F one (share (fnat F (cm_age c)))) /\
    cm_xp c' = cm_xp c /\ cm_fp c' = cm_fp c /\ cm_ep c' = cm_ep c /\ cm_sp c' = cm_sp c /\ cm_age c' = cm_age c /\
    exists x, comps (min (length (cm_xp c)) (length cb)) x (fun j a => a = fadd F (nth j (cm_xp c) NaN)
        (fmul F (fmul F (fmul F d (fsub F one (fdiv F (cm_e c') (ca_e p)))) (fexp F (fsub F one (fdiv F (cm_s c') (ca_s p))))) (fsub F (nth j cb NaN) (nth j (cm_xp c) NaN)))) /\
      ((is_feasible (e_cfg E) x = Some true /\ cm_x c' = x /\ evaluated x (cm_f c') l l') \/
       (is_feasible (e_cfg E) x = Some false /\ cm_x c' = cm_xp c /\ cm_f c' = cm_f c /\ l' = l)).
(** the oasis: supply and endurance are refilled for a camel that got better, if the camel sees it *)
Definition rested (F : fops) (p : ca_par) (c c' : camel) : Prop :=
  exists r, in_unit r /\
    cm_x c' = cm_x c /\ cm_f c' = cm_f c /\ cm_xp c' = cm_xp c /\ cm_fp c' = cm_fp c /\ cm_ep c' = cm_ep c /\ cm_sp c' = cm_sp c /\ cm_age c' = cm_age c /\
    (if fltb (fsub F (flit F 1 1) (ca_vis p)) r && fltb (cm_f c) (cm_fp c) then cm_s c' = ca_s p /\ cm_e c' = ca_e p else cm_s c' = cm_s c /\ cm_e c' = cm_e c).
(** death and rebirth, or one iteration older *)
Definition lived (F : fops) (E : env) (p : ca_par) (c c' : camel) (l l' : elog) : Prop :=
  cm_xp c' = cm_x c' /\ cm_fp c' = cm_f c' /\ cm_ep c' = cm_e c' /\ cm_sp c' = cm_s c' /\
  if fltb (cm_fp c) (fmul F (ca_death p) (cm_f c))
  then cm_age c' = 0 /\ cm_e c' = ca_e p /\ cm_s c' = ca_s p /\ exists z, inside (e_cfg E) z /\ repaired E z (cm_x c') /\ evaluated (cm_x c') (cm_f c') l l'
  else cm_age c' = S (cm_age c) /\ cm_e c' = cm_e c /\ cm_s c' = cm_s c /\ cm_x c' = cm_x c /\ cm_f c' = cm_f c /\ l' = l.
Lemma next_pos_comps : forall F x cb d qe qs, comps (min (length x) (length cb)) (next_pos F x cb d qe qs) (fun j a => a = fadd F (nth j x NaN)
  (fmul F (fmul F (fmul F d (fsub F (flit F 1 1) qe)) (fexp F (fsub F (flit F 1 1) qs))) (fsub F (nth j cb NaN) (nth j x NaN)))).
Proof.
  intros F x cb d qe qs. unfold next_pos. split; [unfold vadd, vscale, vsub; set (g := fmul F (fmul F d _) _); revert cb; induction x as [|a x IH]; intros [|b cb]; cbn [map2 map length min]; auto|].
  intros j Hj. unfold vadd, vscale, vsub. set (g := fmul F (fmul F d _) _). revert cb j Hj. induction x as [|a x IH]; intros [|b cb] j Hj; cbn [length min] in Hj; try lia.
  destruct j as [|j]; cbn [map2 map nth]; [reflexivity|]. apply IH. lia.
Qed.
Lemma w_py_div_tr : forall E F a b (Q : num -> elog -> Prop) l, Q (fdiv F a b) l -> wp (K_tr E) (py_div F a b) Q l.
Proof. intros E F a b Q l H. unfold py_div. destruct (feqb b f0); [exact I|apply w_done; auto]. Qed.
Lemma w_walked : forall F E p cb c (Q : camel -> elog -> Prop) l, (forall c' l', walked F E p cb c c' l l' -> Q c' l') -> wp (K_tr E) (ca_walk F (e_cfg E) p cb c) Q l.
Proof.
  intros F E p cb c Q l HQ. unfold ca_walk. apply wp_bind. apply w_uniform. intros t Ht. cbv zeta. apply wp_bind. apply w_py_div_tr.
  apply wp_bind. apply w_uniform. intros d Hd. apply wp_bind. apply w_py_div_tr. apply wp_bind. apply w_py_div_tr. apply wp_bind.
  match goal with |- context [feasible _ ?y] => set (x := y) end. unfold feasible. destruct (is_feasible (e_cfg E) x) as [[|]|] eqn:Qf.
  - apply w_done. apply wp_bind. apply w_eval_tr. intros f l' He. apply w_done. apply HQ. exists t, d. cbn [cm_x cm_f cm_xp cm_fp cm_e cm_ep cm_s cm_sp cm_age].
    split; [exact Ht|]. split; [exact Hd|]. repeat (split; [reflexivity|]). exists x. split; [apply next_pos_comps|]. left. auto.
  - apply w_done. apply w_done. apply HQ. exists t, d. cbn [cm_x cm_f cm_xp cm_fp cm_e cm_ep cm_s cm_sp cm_age].
    split; [exact Ht|]. split; [exact Hd|]. repeat (split; [reflexivity|]). exists x. split; [apply next_pos_comps|]. right. auto.
  - exact I.
Qed.
Lemma w_rested : forall F E p c (Q : camel -> elog -> Prop) l, (forall c' l', l' = l /\ rested F p c c' -> Q c' l') -> wp (K_tr E) (ca_oasis F p c) Q l.
Proof.
  intros F E p c Q l HQ. unfold ca_oasis. apply wp_bind. apply w_random_u. intros r Hr. apply w_done. apply HQ. split; [reflexivity|]. exists r. split; [exact Hr|].
  destruct (_ && _); repeat (split; [reflexivity|]); split; reflexivity.
Qed.
Lemma w_lived : forall F E p c (Q : camel -> elog -> Prop) l, cfg_ok (e_cfg E) -> (forall c' l', lived F E p c c' l l' -> Q c' l') -> wp (K_tr E) (ca_life F (e_cfg E) p c) Q l.
Proof.
  intros F E p c Q l HC HQ. unfold ca_life. destruct (fltb (cm_fp c) _) eqn:Qd.
  - unfold new_camel, rand_ind. apply wp_bind. apply wp_bind. apply w_uniform_pt; auto. intros z Hz. apply w_ind_evaluate_tr. intros y f l' Hy Hf. apply w_done. apply HQ.
    unfold lived. rewrite Qd. cbn [camel_of fst snd cm_x cm_f cm_xp cm_fp cm_e cm_ep cm_s cm_sp cm_age]. repeat (split; [reflexivity|]). exists z. auto.
  - apply w_done. apply HQ. unfold lived. rewrite Qd. cbn [ca_next cm_x cm_f cm_xp cm_fp cm_e cm_ep cm_s cm_sp cm_age]. repeat (split; [reflexivity|]). reflexivity.
Qed.
Lemma threaded_pure : forall A B (R : A -> B -> Prop) xs ys l l', threaded (fun a b m m' => m' = m /\ R a b) xs ys l l' -> l' = l /\ Forall2 R xs ys.
Proof. intros A B R xs ys l l' H. induction H as [l|a b xs ys l l1 l2 [-> H] _ [-> IH]]; [split; [reflexivity|constructor]|]. split; [reflexivity|constructor; auto]. Qed.

Theorem C103_step : forall F E p pop fit xb fxb u pop' fit' xb' fxb' u' wd wd', let C := e_cfg E in cfg_ok C ->
  exec E (a_iter (ca F C p) pop fit xb fxb u) wd = (Ret (pop', fit', xb', fxb', u'), wd') ->
  exists out fed l1, threaded (walked F E p xb) pop out (log_of (c_opt C) (w_h wd)) l1 /\ Forall2 (rested F p) out fed /\
    threaded (lived F E p) fed pop' l1 (log_of (c_opt C) (w_h wd')) /\
    fit' = map cm_f pop' /\ get_best (map cm_x pop') fit' (Some xb) fxb = Ret (xb', fxb').
Proof.
  intros F E p pop fit xb fxb u pop' fit' xb' fxb' u' wd wd' C HC Ex. set (l := log_of (c_opt C) (w_h wd)).
  apply (tr_sound _ E _ (fun s l' => let '(pop', fit', xb', fxb', u') := s in exists out fed l1, threaded (walked F E p xb) pop out l l1 /\ Forall2 (rested F p) out fed /\
    threaded (lived F E p) fed pop' l1 l' /\ fit' = map cm_f pop' /\ get_best (map cm_x pop') fit' (Some xb) fxb = Ret (xb', fxb')) _ _ _) in Ex; [exact Ex|]. fold C l. clear - HC.
  cbn [a_iter ca]. unfold ca_iter. apply wp_bind. apply (w_threaded _ _ _ (walked F E p xb)); [intros a Q m _ HQ; apply w_walked; exact HQ|]. intros out l1 H1.
  apply wp_bind. apply (w_threaded _ _ _ (fun a b m m' => m' = m /\ rested F p a b)); [intros a Q m _ HQ; apply w_rested; exact HQ|]. intros fed l2 H2. apply threaded_pure in H2. destruct H2 as [-> H2].
  apply wp_bind. apply (w_threaded _ _ _ (lived F E p)); [intros a Q m _ HQ; apply w_lived; auto|]. intros pop' l' H3.
  apply wp_bind. apply w_lift_tr. intros [x f] Hb. apply w_done. exists out, fed, l1. auto.
Qed.
(** ** the camels between the iterations *)
Definition settled (c : camel) : Prop := cm_xp c = cm_x c /\ cm_fp c = cm_f c /\ cm_ep c = cm_e c /\ cm_sp c = cm_s c.
Lemma ca_born : forall F E p pos pop fit par w, exec E (a_init (ca F (e_cfg E) p)) (World (task_init (e_cfg E)) [] pos) = (Ret (pop, fit, par), w) ->
  length pop = ca_n p /\ Forall (fun c => settled c /\ cm_age c = 0 /\ cm_e c = ca_e p /\ cm_s c = ca_s p) pop.
Proof.
  intros F E p pos pop fit par w Ex.
  apply (tr_sound _ E _ (fun s _ => let '(pop, fit, par) := s in length pop = ca_n p /\ Forall (fun c => settled c /\ cm_age c = 0 /\ cm_e c = ca_e p /\ cm_s c = ca_s p) pop) _ _ _) in Ex; [exact Ex|]. clear.
  cbn [a_init ca]. unfold ca_init. apply wp_bind. eapply wp_conseq0.
  - apply (wp_repeatM _ _ _ (fun cs _ => Forall (fun c => settled c /\ cm_age c = 0 /\ cm_e c = ca_e p /\ cm_s c = ca_s p) cs)); [constructor|].
    intros bs l _ H. unfold new_camel. apply wp_bind. eapply wp_conseq0; [apply wp_any|]. intros i l' _. apply w_done. apply Forall_app. split; [exact H|]. constructor; [repeat split|constructor].
  - intros pop l [H L]. apply w_done. auto.
Qed.
Theorem C103_reached : forall F E p s w, cfg_ok (e_cfg E) -> reached E (ca F (e_cfg E) p) s w ->
  length (r_pop s : list camel) = ca_n p /\ Forall (fun c => settled c /\ cm_age c <= t_iters (w_ts w)) (r_pop s : list camel).
Proof.
  intros F E p s w HC H. induction H as [pos pop fit par w xb fxb Ex Eb|s w pop fit xb fxb par w' H IH Ex].
  - apply ca_born in Ex. destruct Ex as [L Ex]. cbn [r_pop]. split; [exact L|]. eapply Forall_impl; [|exact Ex]. intros c (H1 & H2 & _). split; [exact H1|lia].
  - cbn [r_pop w_ts]. assert (T : t_iters (w_ts w') = t_iters (w_ts w)) by (eapply exec_iters; eauto). destruct (C103_step _ _ _ _ _ _ _ _ _ _ _ _ _ _ _ HC Ex) as (out & fed & l1 & S1 & S2 & S3 & _).
    destruct IH as [L IH]. assert (L1 := threaded_len _ _ _ _ _ _ _ S1). assert (L2 := Forall2_len _ _ _ _ _ S2). assert (L3 := threaded_len _ _ _ _ _ _ _ S3). split; [cbn [r_pop] in *; congruence|].
    apply threaded_F2 in S1. apply threaded_F2 in S3. cbn [next_iter t_iters]. rewrite T.
    clear - IH S1 S2 S3. revert out fed pop S1 S2 S3. induction IH as [|c cs Hc _ IH]; intros out fed pop S1 S2 S3; inversion S1; subst; inversion S2; subst; inversion S3; subst; constructor; [|eauto].
    destruct Hc as [_ Hc]. match goal with H : exists m m', walked _ _ _ _ _ _ m m' |- _ => destruct H as (? & ? & t & d & _ & _ & _ & _ & _ & _ & _ & _ & A1 & _) end.
    match goal with H : rested _ _ _ _ |- _ => destruct H as (? & _ & _ & _ & _ & _ & _ & _ & A2 & _) end.
    match goal with H : exists m m', lived _ _ _ _ _ m m' |- _ => destruct H as (? & ? & B1 & B2 & B3 & B4 & B5) end. split; [split; auto|].
    destruct (fltb _ _); destruct B5 as [-> _]; lia.
Qed.
(** ** the supply in binary64 *)
Lemma ca_factor : forall m b age, unit64 b -> (Z.of_nat age <= 2 ^ 53)%Z -> (m = LInf \/ exists k, m = LFin k /\ (0 < k <= 2 ^ 53)%Z /\ (Z.of_nat age <= k)%Z) ->
  btw 0 1 (fsub b64ops (flit b64ops 1 1) (fdiv b64ops (fmul b64ops b (fnat b64ops age)) (flim b64ops m))).
Proof.
  intros m b age (Hb & B1 & B2) Ha Hm. destruct b as [| |x|]; try discriminate. unfold f0, one64 in *. apply fleb_val in B1. apply fleb_val in B2. rewrite val_0 in B1. rewrite val_1 in B2.
  destruct (fnat64 age Ha) as [E1 E2]. rewrite E1 in *. set (N := Z.of_nat age) in *. assert (N0 : (0 <= IZR N)%R) by (apply IZR_le; lia).
  assert (O0 : ok64 0) by (apply (ok64_int 0); simpl; lia). assert (O1 : ok64 1) by (apply (ok64_int 1); simpl; lia).
  assert (L1 : flit b64ops 1 1 = Fin (1 * 2 ^ 1074)) by (apply (lit_int 1); simpl; lia).
  destruct (btw_mul (Fin x) (Fin (N * 2 ^ 1074)) 0 (IZR N) _ _ eq_refl eq_refl Hb E2) as (y & Y1 & Y2 & Y3); auto; [apply ok64_int; lia|rewrite val_int; nra|]. rewrite Y1.
  assert (Q : btw 0 1 (fdiv b64ops (Fin y) (flim b64ops m))).
  { destruct Hm as [-> |(k & -> & K1 & K2)]; cbn [flim].
    - exists 0%Z. split; [|split; [reflexivity|rewrite val_0; lra]]. cbn [fdiv b64ops]. unfold sf2. unfold is64 in Y2. destruct (to_sf (Fin y)) as [s|[|]| |s mm ee]; cbn [of_sf] in Y2; try discriminate Y2; reflexivity.
    - unfold fz. cbn [flit b64ops]. rewrite lit_int by lia. assert (K3 : (1 <= IZR k)%R) by (apply IZR_le; lia). assert (K4 : (IZR N <= IZR k)%R) by (apply IZR_le; lia).
      eapply btw_div; [reflexivity|reflexivity|auto|apply is64_int; lia|auto|auto|rewrite val_int; lra|]. rewrite val_int. assert (I0 : (0 < / IZR k)%R) by (apply Rinv_0_lt_compat; lra).
      unfold Rdiv. split; [nra|]. apply Rmult_le_reg_r with (IZR k); [lra|]. rewrite Rmult_assoc, Rinv_l by lra. lra. }
  destruct Q as (z & Z1 & Z2 & Z3). rewrite Z1, L1. eapply btw_sub; [reflexivity|reflexivity|apply is64_int; simpl; lia|auto|auto|auto|]. rewrite val_int. lra.
Qed.
Lemma ca_supply : forall m b age s0 s, unit64 b -> (Z.of_nat age <= 2 ^ 53)%Z -> (m = LInf \/ exists k, m = LFin k /\ (0 < k <= 2 ^ 53)%Z /\ (Z.of_nat age <= k)%Z) ->
  is64 (Fin s0) -> btw 0 (val s0) s -> btw 0 (val s0) (fmul b64ops s (fsub b64ops (flit b64ops 1 1) (fdiv b64ops (fmul b64ops b (fnat b64ops age)) (flim b64ops m)))).
Proof.
  intros m b age s0 s Hb Ha Hm H0 (y & -> & Y1 & Y2). destruct (ca_factor m b age Hb Ha Hm) as (z & Z1 & Z2 & Z3). rewrite Z1.
  eapply btw_mul; [reflexivity|reflexivity|auto|auto|apply (ok64_int 0); simpl; lia|apply ok64_val; auto|]. split; [nra|]. apply Rle_trans with (val y * 1)%R; [apply Rmult_le_compat_l; lra|lra].
Qed.
(** it stays between 0 and its initial value *)
Theorem C103_supply_64 : forall F E p s w, let C := e_cfg E in arith64 F -> cfg_ok C -> unit64 (ca_burden p) -> is64 (ca_s p) -> fleb f0 (ca_s p) = true -> (exists z, ca_s p = Fin z) ->
  reached E (ca F C p) s w -> (Z.of_nat (t_iters (w_ts w)) <= 2 ^ 53)%Z ->
  (c_max_iters C = LInf \/ exists k, c_max_iters C = LFin k /\ (k <= 2 ^ 53)%Z /\ (Z.of_nat (t_iters (w_ts w)) <= k)%Z) ->
  Forall (fun c => is64 (cm_s c) /\ fleb f0 (cm_s c) = true /\ fleb (cm_s c) (ca_s p) = true) (r_pop s : list camel).
Proof.
  intros F E p s w C (F1 & F2 & F3 & F4 & F5 & F6) HC Hb H1 H2 [z Ez] Hr Ht Hm. rewrite Ez in *. unfold f0 in H2. apply fleb_val in H2. rewrite val_0 in H2.
  assert (Fn : forall n, fnat F n = fnat b64ops n) by (intros; unfold fnat; rewrite F5; reflexivity). assert (Fl : forall m, flim F m = flim b64ops m) by (intros [|k]; cbn [flim]; unfold fz; rewrite ?F5; reflexivity).
  assert (G : Forall (fun c => btw 0 (val z) (cm_s c)) (r_pop s : list camel)).
  { induction Hr as [pos pop fit par w xb fxb Ex Eb|s w pop fit xb fxb par w' Hr IH Ex].
    - apply ca_born in Ex. destruct Ex as [L Ex]. cbn [r_pop]. eapply Forall_impl; [|exact Ex]. intros c (_ & _ & _ & ->). rewrite Ez. exists z. split; [reflexivity|]. split; [exact H1|lra].
    - cbn [r_pop w_ts] in *. assert (T : t_iters (w_ts w') = t_iters (w_ts w)) by (eapply exec_iters; eauto). cbn [next_iter t_iters] in Ht, Hm. rewrite T in Ht, Hm.
      assert (Hm' : c_max_iters C = LInf \/ exists k, c_max_iters C = LFin k /\ (0 < k <= 2 ^ 53)%Z /\ (Z.of_nat (t_iters (w_ts w)) <= k)%Z) by (destruct Hm as [Hm|(k & K1 & K2 & K3)]; [auto|right; exists k; split; auto; lia]).
      assert (IH' : Forall (fun c => btw 0 (val z) (cm_s c)) (r_pop s : list camel)).
      { apply IH; [lia|]. destruct Hm' as [Hm'|(k & K1 & K2 & K3)]; [auto|right; exists k; split; auto; lia]. }
      destruct (C103_reached F E p s w HC Hr) as [_ A]. destruct (C103_step _ _ _ _ _ _ _ _ _ _ _ _ _ _ _ HC Ex) as (out & fed & l1 & S1 & S2 & S3 & _).
      apply threaded_F2 in S1. apply threaded_F2 in S3. clear IH Ex Hr.
      assert (AB := Forall_and A IH'). clear A IH'. cbn [a_pop ca] in *. change (r_pop s) with (r_pop s : list camel) in *. revert S1 AB. generalize (r_pop s : list camel) as cs0. intros cs0 S1 AB.
      revert out fed pop S1 S2 S3. induction AB as [|c cs Hc _ IH]; intros out fed pop S1 S2 S3; inversion S1; subst; inversion S2; subst; inversion S3; subst; constructor; [|eauto].
      destruct Hc as [[(_ & _ & _ & A1) A2] Hc].
      match goal with H : exists m m', walked _ _ _ _ _ _ m m' |- _ => destruct H as (? & ? & t & d & _ & _ & B1 & _) end.
      match goal with H : rested _ _ _ _ |- _ => destruct H as (? & _ & _ & _ & _ & _ & _ & _ & _ & B2) end.
      match goal with H : exists m m', lived _ _ _ _ _ m m' |- _ => destruct H as (? & ? & _ & _ & _ & _ & B3) end.
      assert (S0 : btw 0 (val z) (Fin z)) by (exists z; split; [reflexivity|]; split; [exact H1|lra]).
      assert (W : btw 0 (val z) (cm_s y)).
      { rewrite B1, A1, F2, F3, F4, F5, Fn, Fl. apply ca_supply; auto; [lia|]. destruct Hm' as [Hm'|(k & K1 & K2 & K3)]; [auto|right; exists k; split; auto; lia]. }
      assert (V : btw 0 (val z) (cm_s y0)) by (match type of B2 with if ?b then _ else _ => destruct b end; destruct B2 as [-> _]; [rewrite Ez|]; auto).
      match type of B3 with if ?b then _ else _ => destruct b end; destruct B3 as (_ & _ & B3 & _); rewrite B3; [rewrite Ez|]; auto. }
  eapply Forall_impl; [|exact G]. intros c (y & -> & Y1 & Y2). split; [exact Y1|]. split; apply fleb_val; rewrite ?val_0; lra.
Qed.

(** * C104 *)
(** an iteration makes at most two evaluations per camel *)
Theorem C104_evals : forall F E p pop fit xb fxb u pop' fit' xb' fxb' u' wd wd', let C := e_cfg E in cfg_ok C ->
  exec E (a_iter (ca F C p) pop fit xb fxb u) wd = (Ret (pop', fit', xb', fxb', u'), wd') ->
  length (log_of (c_opt C) (w_h wd')) <= length (log_of (c_opt C) (w_h wd)) + 2 * length (pop : list camel).
Proof.
  intros F E p pop fit xb fxb u pop' fit' xb' fxb' u' wd wd' C HC Ex. destruct (C103_step _ _ _ _ _ _ _ _ _ _ _ _ _ _ _ HC Ex) as (out & fed & l1 & S1 & S2 & S3 & _).
  assert (G : forall (R : camel -> camel -> elog -> elog -> Prop) xs ys l l', (forall a b m m', R a b m m' -> length m' <= S (length m)) -> threaded R xs ys l l' -> length l' <= length l + length xs).
  { clear. intros R xs ys l l' HR H. induction H as [|a b xs ys l l1 l2 H _ IH]; [cbn; lia|]. apply HR in H. cbn [length]. lia. }
  assert (N := threaded_len _ _ _ _ _ _ _ S1). assert (N2 := Forall2_len _ _ _ _ _ S2).
  apply G in S1; [|intros a b m m' (t & d & _ & _ & _ & _ & _ & _ & _ & _ & _ & x & _ & [(_ & _ & [[_ ->]| ->])|(_ & _ & _ & ->)]); cbn [length]; lia].
  apply G in S3; [|intros a b m m' (_ & _ & _ & _ & H); destruct (fltb _ _); [destruct H as (_ & _ & _ & z & _ & _ & [[_ ->]| ->])|destruct H as (_ & _ & _ & _ & _ & ->)]; cbn [length]; lia]. fold C in S1, S3. cbn [a_pop ca] in *. lia.
Qed.
(** A camel whose endurance has overflowed never moves again: if that holds for all, no evaluation is made and a limit on the evaluations is never reached. *)
Definition nonfin (a : num) : Prop := match a with Fin _ => False | _ => True end.
Definition stuck (F : fops) (C : cfg) (p : ca_par) (c : camel) : Prop :=
  settled c /\ length (cm_x c) = c_dim C /\ nonfin (cm_e c) /\ cm_f c <> NaN /\ fltb (cm_f c) (fmul F (ca_death p) (cm_f c)) = false.
Lemma of_nonfin : forall a, nonfin a -> to_sf a = S754_nan \/ exists b, to_sf a = S754_infinity b.
Proof. intros [| |z|] H; cbn; eauto. contradiction. Qed.
Lemma nonfin_mul : forall a b, nonfin a \/ nonfin b -> nonfin (fmul b64ops a b).
Proof.
  intros a b H. cbn [fmul b64ops]. unfold sf2. destruct H as [H|H]; apply of_nonfin in H; destruct H as [-> |[s ->]].
  - exact I.
  - destruct (to_sf b) as [|s'| |]; cbn; auto; destruct (xorb _ _); exact I.
  - destruct (to_sf a) as [| | |]; exact I.
  - destruct (to_sf a) as [|s'| |]; cbn; auto; destruct (xorb _ _); exact I.
Qed.
Lemma nonfin_sub : forall a b, nonfin b -> nonfin (fsub b64ops a b).
Proof.
  intros a b H. cbn [fsub b64ops]. unfold sf2. apply of_nonfin in H; destruct H as [-> |[s ->]].
  - destruct (to_sf a) as [| | |]; exact I.
  - destruct (to_sf a) as [|s'| |]; cbn; auto; destruct s; try exact I; destruct s'; exact I.
Qed.
Lemma nonfin_add : forall a b, nonfin b -> nonfin (fadd b64ops a b).
Proof.
  intros a b H. cbn [fadd b64ops]. unfold sf2. apply of_nonfin in H; destruct H as [-> |[s ->]].
  - destruct (to_sf a) as [| | |]; exact I.
  - destruct (to_sf a) as [|s'| |]; cbn; auto; destruct s; try exact I; destruct s'; exact I.
Qed.
Lemma nonfin_div : forall a z, nonfin a -> is64 (Fin z) -> nonfin (fdiv b64ops a (Fin z)).
Proof.
  intros a z H Hz. cbn [fdiv b64ops]. unfold sf2. unfold is64 in Hz. apply of_nonfin in H. destruct H as [-> |[s ->]]; [destruct (to_sf (Fin z)); exact I|].
  destruct (to_sf (Fin z)) as [s'|s'| |s' mm ee]; cbn [of_sf] in Hz; try (destruct s'; discriminate Hz); cbn [SFdiv of_sf]; try (destruct (xorb _ _); exact I); exact I.
Qed.
Lemma nonfin_out : forall C x, (exists a, In a x /\ nonfin a) -> Forall (fun a => ~ nonfin a) (c_lower C) -> Forall (fun a => ~ nonfin a) (c_upper C) -> length (c_lower C) = length x -> length (c_upper C) = length x ->
  is_feasible C x = Some false.
Proof.
  intros C x (a & Ha & Hn) Hl Hu L1 L2. unfold is_feasible. revert L1 L2 Hl Hu. generalize (c_lower C) as lo. generalize (c_upper C) as hi. induction x as [|b x IH]; [contradiction|].
  intros [|h hi] [|g lo] L1 L2 Hl Hu; try discriminate. cbn [is_feasible_l]. inversion_clear Hl. inversion_clear Hu. injection L1 as L1. injection L2 as L2. destruct Ha as [<- |Ha].
  - destruct (is_feasible_l x lo hi) as [r|] eqn:Q.
    + f_equal. destruct g as [| |g|]; try (exfalso; apply H; exact I). destruct h as [| |h|]; try (exfalso; apply H1; exact I). destruct b; try contradiction; reflexivity.
    + exfalso. clear - Q L1 L2. revert lo hi L1 L2 Q. induction x as [|b x IH]; intros [|g lo] [|h hi] L1 L2 Q; try discriminate. cbn [is_feasible_l] in Q.
      destruct (is_feasible_l x lo hi) eqn:Q1; [discriminate|]. injection L1 as L1. injection L2 as L2. eauto.
  - rewrite (IH Ha hi lo L1 L2 H0 H2). rewrite andb_false_r. reflexivity.
Qed.
Lemma quiet_py_div : forall F a b (Q : num -> Prop), feqb b f0 = false -> Q (fdiv F a b) -> quiet (py_div F a b) Q.
Proof. intros F a b Q H HQ. unfold py_div. rewrite H. exact HQ. Qed.
Section Stuck.
Variables (F : fops) (C : cfg) (p : ca_par).
Hypothesis HF : arith64 F.
Hypothesis HC : cfg_ok C.
Hypothesis Hd : 0 < c_dim C.
Hypothesis Hlo : Forall (fun a => ~ nonfin a) (c_lower C).
Hypothesis Hup : Forall (fun a => ~ nonfin a) (c_upper C).
Hypothesis Hp : ca_ok p.
Hypothesis He : is64 (ca_e p) /\ ~ nonfin (ca_e p).
Lemma stuck_pos : forall x cb d qe qs, length x = c_dim C -> length cb = c_dim C -> nonfin qe -> is_feasible C (next_pos F x cb d qe qs) = Some false.
Proof.
  intros x cb d qe qs Lx Lc Hq. destruct HF as (F1 & F2 & F3 & F4 & F5 & F6). destruct HC as (L1 & L2 & _).
  assert (G : nonfin (fmul F (fmul F d (fsub F (flit F 1 1) qe)) (fexp F (fsub F (flit F 1 1) qs)))) by (rewrite F2, F3; apply nonfin_mul; left; apply nonfin_mul; right; apply nonfin_sub; exact Hq).
  destruct (next_pos_comps F x cb d qe qs) as [N1 N2]. rewrite Lx, Lc, Nat.min_id in *. apply nonfin_out; auto; [|congruence|congruence].
  exists (nth 0 (next_pos F x cb d qe qs) NaN). split; [apply nth_In; lia|]. rewrite N2 by lia. assert (M : forall a b, nonfin a -> nonfin (fmul F a b)) by (intros; rewrite F3; apply nonfin_mul; auto).
  rewrite F1. apply nonfin_add. apply M. exact G.
Qed.
Lemma stuck_walk : forall cb c, length cb = c_dim C -> stuck F C p c -> quiet (ca_walk F C p cb c)
  (fun c' => cm_x c' = cm_x c /\ cm_f c' = cm_f c /\ cm_fp c' = cm_f c /\ nonfin (cm_e c')).
Proof.
  intros cb c Lc ((S1 & S2 & S3 & S4) & Lx & Hn & _). destruct Hp as (P1 & P2 & P3). unfold ca_walk. apply quiet_bind. cbn [uniform quiet]. intros t. cbv zeta. apply quiet_bind. apply quiet_py_div; auto.
  apply quiet_bind. cbn [uniform quiet]. intros d. apply quiet_bind. apply quiet_py_div; auto. apply quiet_bind. apply quiet_py_div; auto. apply quiet_bind.
  set (e := next_endurance F C c _). assert (En : nonfin e).
  { unfold e, next_endurance. destruct HF as (_ & _ & F3 & _). rewrite F3. apply nonfin_mul. left. apply nonfin_mul. left. rewrite S3. exact Hn. }
  unfold feasible. rewrite stuck_pos; auto; [|congruence|].
  - cbn [quiet cm_x cm_f cm_fp cm_e]. rewrite S1, S2. auto.
  - destruct HF as (_ & _ & _ & F4 & _). rewrite F4. destruct He as [E1 E2]. destruct (ca_e p) as [| |z|]; try (exfalso; apply E2; exact I). apply nonfin_div; auto.
Qed.
Lemma quiet_mapM : forall A B (f : A -> prog B) (R : A -> B -> Prop) xs, (forall a, In a xs -> quiet (f a) (R a)) -> quiet (mapM f xs) (Forall2 R xs).
Proof.
  intros A B f R xs. induction xs as [|a xs IH]; intros H; cbn [mapM quiet]; [constructor|]. apply quiet_bind. eapply quiet_conseq; [apply H; left; auto|]. intros b Hb.
  apply quiet_bind. eapply quiet_conseq; [apply IH; intros; apply H; right; auto|]. intros ys Hys. cbn [quiet]. constructor; auto.
Qed.
Lemma stuck_iter : forall pop fit xb fxb u, pop <> [] -> Forall (stuck F C p) pop -> length xb = c_dim C ->
  quiet (ca_iter F C p pop fit xb fxb u) (fun r => let '(pop', fit', xb', fxb', u') := r in pop' <> [] /\ Forall (stuck F C p) pop' /\ length xb' = c_dim C).
Proof.
  intros pop fit xb fxb u Hne Hs Lb. unfold ca_iter. rewrite Forall_forall in Hs. apply quiet_bind. eapply quiet_conseq; [apply quiet_mapM; intros c Hc; apply stuck_walk; auto|]. intros c1 H1.
  apply quiet_bind. eapply quiet_conseq.
  { apply (quiet_mapM _ _ _ (fun c c' => fltb (cm_f c) (cm_fp c) = false -> c' = c)). intros c Hc. unfold ca_oasis. cbn. intros r Q. rewrite Q, andb_false_r. reflexivity. }
  intros c2 H2. assert (E2 : c2 = c1).
  { clear - H1 H2. revert pop H1. induction H2 as [|a b xs ys H H2 IH]; intros pop H1; [reflexivity|]. inversion H1; subst. f_equal; [|eauto].
    match goal with G : _ /\ _ |- _ => destruct G as (_ & G1 & G2 & _) end. apply H. rewrite G1, G2. apply fltb_irrefl. }
  subst c2. clear H2. apply quiet_bind. eapply quiet_conseq.
  { apply (quiet_mapM _ _ _ (fun c c' => c' = ca_next c)). intros c Hc. unfold ca_life. replace (fltb (cm_fp c) (fmul F (ca_death p) (cm_f c))) with false; [reflexivity|].
    symmetry. clear - Hs H1 Hc. induction H1 as [|a b xs ys H H1 IH]; [contradiction|]. destruct Hc as [<- |Hc]; [|apply IH; auto; intros y Hy; apply Hs; right; auto].
    destruct H as (_ & G1 & G2 & _). rewrite G1, G2. apply (Hs a). left; auto. }
  intros c3 H3. assert (S3 : Forall (stuck F C p) c3 /\ length c3 = length pop).
  { clear - Hs H1 H3. revert c3 H3. induction H1 as [|a b xs ys H H1 IH]; intros c3 H3; inversion H3; subst; [split; [constructor|reflexivity]|].
    match goal with G : Forall2 _ ys _ |- _ => destruct (IH (fun y Hy => Hs y (or_intror Hy)) _ G) as [I1 I2] end. split; [constructor; auto|cbn [length]; congruence].
    destruct H as (G0 & G1 & G2 & G3). destruct (Hs a (or_introl eq_refl)) as (_ & K1 & K2 & K3 & K4). split; [repeat split|]. cbn [ca_next cm_x cm_f cm_e]. rewrite G0, G1. auto. }
  destruct S3 as [S3 L3]. apply quiet_bind. destruct (get_best_spec (map cm_x c3) (map cm_f c3) (Some xb) fxb) as (b & m & M & Gb & x & Hx).
  - rewrite !map_length. reflexivity.
  - intros Q. destruct c3; [destruct pop; [auto|discriminate]|discriminate].
  - clear - S3. induction S3 as [|c cs (_ & _ & _ & H & _)]; cbn [map]; constructor; auto.
  - rewrite Gb, Hx. assert (Lx : length x = c_dim C).
    { apply nth_error_In in Hx. apply in_map_iff in Hx. destruct Hx as (c & <- & Hc). rewrite Forall_forall in S3. apply (S3 c Hc). }
    assert (N3 : c3 <> []) by (intros ->; destruct pop; [auto|discriminate]). destruct (fleb m fxb); cbn [lift quiet]; auto.
Qed.
End Stuck.
Theorem C104_endless : forall F E p k, let C := e_cfg E in let A := ca F C p in
  arith64 F -> cfg_ok C -> 0 < c_dim C -> Forall (fun a => ~ nonfin a) (c_lower C) -> Forall (fun a => ~ nonfin a) (c_upper C) -> ca_ok p -> is64 (ca_e p) -> ~ nonfin (ca_e p) ->
  c_max_iters C = LInf -> going E A k = true ->
  match state_after E A k with
  | Some (s, w) => (r_pop s : list camel) <> [] /\ Forall (stuck F C p) (r_pop s : list camel) /\ length (r_xb s) = c_dim C /\ stopping_condition C (w_ts w) = false
  | None => False
  end -> never_ends E A.
Proof.
  intros F E p k C A HF HC Hd Hl Hu Hp H1 H2 Hi G H.
  apply (endless E A (fun s w => ((r_pop s : list camel) <> [] /\ Forall (stuck F C p) (r_pop s : list camel) /\ length (r_xb s) = c_dim C) /\ stopping_condition C (w_ts w) = false)) with (k := k); auto.
  - clear H. intros s w [(P1 & P2 & P3) P4]. split; auto. assert (Qt := stuck_iter F C p HF HC Hd Hl Hu Hp (conj H1 H2) (r_pop s) (r_fit s) (r_xb s) (r_fxb s) (r_par s) P1 P2 P3).
    apply (quiet_exec E _ _ _ w) in Qt. destruct Qt as ([[[[pop fit] xb] fxb] par] & n & Ex & Q). exists pop, fit, xb, fxb, par. eexists. split; [exact Ex|]. cbn [r_pop r_xb w_ts]. split; auto.
    rewrite <- P4. unfold stopping_condition. rewrite Hi. reflexivity.
  - destruct (state_after E A k) as [[s w]|]; auto. destruct H as (Q1 & Q2 & Q3 & Q4). auto.
Qed.

(** ** The hypotheses are met, and the model at work *)
Module ExCa.
  (** the first component, if it is a number of binary64 that is not negative *)
  Definition is64b (a : num) : bool := num_eqb (of_sf (to_sf a)) a.
  Definition fst64 : problem := fun _ x => Ret (match x with Fin a :: _ => if (0 <=? a)%Z && is64b (Fin a) then Fin a else PInf | _ => PInf end).
  Lemma fst64_no_nan : no_nan fst64.
  Proof. intros h x v H. injection H as <-. destruct x as [|[] x]; try discriminate. destruct (_ && _); discriminate. Qed.
  Definition C1 := Cfg Minimization 2 [N' (-2); N' (-2)] [N' 2; N' 2] (LFin 30) (LFin 5) NInf.
  Definition E1 := exenv C1 fst64.
  Definition pc (n : nat) (e tmax : num) := CAPar n (q 1 4) (q 1 2) (q 1 2) (N' 10) e (N' (-10)) tmax.
  Definition p1 := pc 3 (N' 10) (N' 10).
  Lemma ok1 : cfg_ok C1. Proof. split; [reflexivity|]. split; [reflexivity|]. repeat constructor. Qed.
  Lemma values1 : values_ok nonneg64 E1.
  Proof.
    intros h x v H. injection H as <-. cbn [e_cfg E1 exenv c_opt C1 sgn]. destruct x as [|[| |a|] x]; try (left; reflexivity). destruct ((0 <=? a)%Z && is64b (Fin a)) eqn:Q1; [|left; reflexivity].
    apply andb_true_iff in Q1. destruct Q1 as [Q1 Q2]. right. split; [apply num_eqb_spec; exact Q2|exact Q1].
  Qed.
  Example hyps : arith64 b64ops /\ cfg_ok (e_cfg E1) /\ no_nan (e_prob E1) /\ repair_ok E1 /\ 0 < ca_n p1 /\ ca_ok p1 /\ unit64 (ca_death p1) /\ values_ok nonneg64 E1.
  Proof.
    split; [repeat split|]. split; [exact ok1|]. split; [apply fst64_no_nan|]. split; [exact (clip_ok C1 fst64 fl8 in7 ok1)|]. split; [cbn; lia|]. split; [repeat split|]. split; [|exact values1].
    split; [vm_compute; reflexivity|split; vm_compute; reflexivity].
  Qed.
  Example best1 : best_run E1 (ca b64ops C1 p1).
  Proof. destruct hyps as (H1 & H2 & H3 & H4 & H5 & H6 & H7 & H8). apply (C102_best_64 b64ops E1 p1); auto. Qed.
  Example trace1 : trace E1 (ca b64ops C1 p1) 9 =
    (Ret ([8192; 40960], 8192), [[8192; 40960]; [24576; 40960]; [57344; 57344]; [8192; 40960]; [24192; 40960];
    [56806; 57164]; [8192; 40960]; [23635; 40960]; [45321; 53336]; [8192; 40960]; [18129; 40960]; [42535;
    52407]; [8192; 40960]; [11314; 40960]; [24459; 46382]; [8192; 40960]; [10939; 40960]; [19502; 44730]])%Z.
  Proof. vm_compute. reflexivity. Qed.
  Example ran1 : ran E1 (ca b64ops C1 p1) 9 =
    Some (5, 18).
  Proof. vm_compute. reflexivity. Qed.
  (** endurance, supply and age after two iterations *)
  Example camels1 : match state_after E1 (ca b64ops C1 p1) 2 with Some (s, w) => map (fun c => (scl (cm_e c), scl (cm_s c), cm_age c)) (r_pop s : list camel) | None => [] end =
    [(473088%Z, 622592%Z, 2); (655360%Z, 655360%Z, 2); (478412%Z, 622592%Z, 2)].
  Proof. vm_compute. reflexivity. Qed.
  (** the hypotheses of C103_supply_64 in that state *)
  Example hyps_supply : unit64 (ca_burden p1) /\ is64 (ca_s p1) /\ fleb f0 (ca_s p1) = true /\ (exists z, ca_s p1 = Fin z) /\
    exists s w, reached E1 (ca b64ops C1 p1) s w /\ t_iters (w_ts w) = 2 /\ c_max_iters C1 = LFin 5.
  Proof.
    split; [split; [vm_compute; reflexivity|split; vm_compute; reflexivity]|]. split; [vm_compute; reflexivity|]. split; [vm_compute; reflexivity|]. split; [eexists; reflexivity|].
    assert (Q : match state_after E1 (ca b64ops C1 p1) 2 with Some (s, w) => t_iters (w_ts w) =? 2 | None => false end = true) by (vm_compute; reflexivity).
    destruct (state_after E1 (ca b64ops C1 p1) 2) as [[s w]|] eqn:S2; [|discriminate]. apply Nat.eqb_eq in Q. exists s, w. split; [exact (state_reached _ _ _ _ _ S2)|]. split; [exact Q|reflexivity].
  Qed.
  (** values that are negative *)
  Definition nsq : problem := fun _ x => Ret (fneg (sq_from x)).
  Lemma nsq_no_nan : no_nan nsq.
  Proof. intros h x v H. injection H as H. intros ->. destruct (sq_from x) eqn:Q; try discriminate. exact (sq_no_nan [] x NaN (f_equal Ret Q) eq_refl). Qed.
  Definition CS := Cfg Minimization 1 [N' (-4)] [N' 4] LInf (LFin 1) NInf.
  Definition ES := Env CS nsq (clip CS) (fun k => nth k [N' 2; f0; q (-9) 4; f0; N' 10; q (-1) 8; N' 10] f0) in7.
  Lemma okS : cfg_ok CS. Proof. split; [reflexivity|]. split; [reflexivity|]. repeat constructor. Qed.
  Definition pS := pc 2 (N' 10) (N' 10).
  (** an endurance close to the largest number *)
  Definition CI := Cfg Minimization 2 [N' (-2); N' (-2)] [N' 2; N' 2] (LFin 30) LInf NInf.
  Definition EI := Env CI (fun _ _ => Ret f1) (clip CI) (fun _ => N' (-20)) in7.
  Lemma okI : cfg_ok CI. Proof. split; [reflexivity|]. split; [reflexivity|]. repeat constructor. Qed.
  Definition pI := pc 2 (Fin (2 ^ 2097)) (N' 10).
  Lemma EI_no_nan : no_nan (e_prob EI).
  Proof. intros h x v H. injection H as <-. discriminate. Qed.
End ExCa.
(** ** Refutations *)
Lemma run_raises_s : forall (X : exn -> Prop) E A n e, own_exn E A n = Some e -> e <> EFuel -> ~ X e -> ~ sound_run_p (inside (e_cfg E)) X E A.
Proof.
  intros X E A n e H Hf HX. unfold own_exn in H.
  destruct (run_body E A (fun _ => None) n (World (task_init (e_cfg E)) [] 0)) as [[r w] ev] eqn:Q.
  destruct r as [a|e']; [discriminate|].
  assert (e' = e /\ forall x, hd_error (w_h w) <> Some (x, Raise e)) as [-> Hh].
  { destruct (w_h w) as [|[y [v|e2]] t]; try discriminate; injection H as ->; split; auto; intros x; simpl; congruence. }
  intros B. destruct (B _ _ _ _ _ _ Q) as (_ & [B1|[B1|[(x & B1)|B1]]]); auto; [|discriminate].
  exact (Hh x B1).
Qed.
(** With negative values a camel that got better dies before its value is looked at. *)
Theorem C102_negative_refuted : exists E p, let C := e_cfg E in cfg_ok C /\ no_nan (e_prob E) /\ repair_ok E /\ 0 < ca_n p /\ ca_ok p /\ unit64 (ca_death p) /\
  lost_best E (ca b64ops C p) 9 = true /\ ~ best_run_x (fun _ => True) E (ca b64ops C p).
Proof.
  exists ExCa.ES, ExCa.pS. cbv zeta. split; [exact ExCa.okS|]. split; [apply ExCa.nsq_no_nan|]. split; [intros r x Hx; apply (clip_ok _ lin fl8 in7 ExCa.okS r x Hx)|]. split; [cbn; lia|]. split; [repeat split|].
  split; [split; [vm_compute; reflexivity|split; vm_compute; reflexivity]|].
  assert (Q : lost_best ExCa.ES (ca b64ops (e_cfg ExCa.ES) ExCa.pS) 9 = true) by (vm_compute; reflexivity). split; [exact Q|]. apply (run_lost_best _ _ _ _ Q).
Qed.
(** A maximal temperature, an initial endurance or an initial supply of zero, which the constructor accepts, raises ZeroDivisionError. *)
Theorem C102_zero_refuted : exists E, let C := e_cfg E in cfg_ok C /\ no_nan (e_prob E) /\ repair_ok E /\
  Forall (fun p => 0 < ca_n p /\ own_exn E (ca b64ops C p) 9 = Some EZeroDiv /\ ~ sound_run E (ca b64ops C p)) [ExCa.pc 2 (N' 10) f0; ExCa.pc 2 f0 (N' 10)].
Proof.
  exists ExCa.EI. cbv zeta. split; [exact ExCa.okI|]. split; [apply ExCa.EI_no_nan|]. split; [intros r x Hx; apply (clip_ok _ lin fl8 in7 ExCa.okI r x Hx)|].
  assert (G : forall p, 0 < ca_n p -> own_exn ExCa.EI (ca b64ops (e_cfg ExCa.EI) p) 9 = Some EZeroDiv -> 0 < ca_n p /\ own_exn ExCa.EI (ca b64ops (e_cfg ExCa.EI) p) 9 = Some EZeroDiv /\ ~ sound_run ExCa.EI (ca b64ops (e_cfg ExCa.EI) p)).
  { intros p Hp Q. split; [exact Hp|]. split; [exact Q|]. apply (run_raises_s _ _ _ _ _ Q); [discriminate|auto]. }
  constructor; [apply G; [cbn; lia|vm_compute; reflexivity]|]. constructor; [apply G; [cbn; lia|vm_compute; reflexivity]|constructor].
Qed.
(** The endurance may grow beyond its initial value. *)
Theorem C103_endurance_refuted : exists E p s w, let C := e_cfg E in cfg_ok C /\ no_nan (e_prob E) /\ repair_ok E /\ ca_ok p /\ reached E (ca b64ops C p) s w /\
  exists c, In c (r_pop s : list camel) /\ fltb (ca_e p) (cm_e c) = true.
Proof.
  set (E := Env ExCa.CI (fun _ _ => Ret f1) (clip ExCa.CI) (fun _ => N' (-20)) in7). set (p := ExCa.pc 2 (N' 10) (N' 10)).
  assert (Q : match state_after E (ca b64ops (e_cfg E) p) 1 with Some (s, w) => existsb (fun c => fltb (ca_e p) (cm_e c)) (r_pop s : list camel) | None => false end = true) by (vm_compute; reflexivity).
  destruct (state_after E (ca b64ops (e_cfg E) p) 1) as [[s w]|] eqn:S1; [|discriminate]. exists E, p, s, w. cbv zeta.
  split; [exact ExCa.okI|]. split; [intros h x v H; injection H as <-; discriminate|]. split; [intros r x Hx; apply (clip_ok _ lin fl8 in7 ExCa.okI r x Hx)|]. split; [repeat split|].
  split; [exact (state_reached _ _ _ _ _ S1)|]. apply existsb_exists in Q. exact Q.
Qed.
(** A run that is limited by evaluations only need not end. *)
Theorem C104_endless_refuted : exists E p, let C := e_cfg E in cfg_ok C /\ no_nan (e_prob E) /\ repair_ok E /\ 0 < ca_n p /\ ca_ok p /\ unit64 (ca_death p) /\ values_ok nonneg64 E /\
  (exists k, c_max_evals C = LFin k) /\ never_ends E (ca b64ops C p).
Proof.
  exists ExCa.EI, ExCa.pI. cbv zeta. split; [exact ExCa.okI|]. split; [apply ExCa.EI_no_nan|]. split; [intros r x Hx; apply (clip_ok _ lin fl8 in7 ExCa.okI r x Hx)|]. split; [cbn; lia|]. split; [repeat split|].
  split; [split; [vm_compute; reflexivity|split; vm_compute; reflexivity]|]. split; [intros h x v H; injection H as <-; right; split; vm_compute; reflexivity|]. split; [eexists; reflexivity|].
  apply (C104_endless b64ops ExCa.EI ExCa.pI 1).
  - repeat split.
  - exact ExCa.okI.
  - cbn; lia.
  - repeat constructor; intros [].
  - repeat constructor; intros [].
  - repeat split.
  - vm_compute. reflexivity.
  - intros [].
  - reflexivity.
  - vm_compute. reflexivity.
  - assert (Q : match state_after ExCa.EI (ca b64ops (e_cfg ExCa.EI) ExCa.pI) 1 with
      | Some (s, w) => negb (Nat.eqb (length (r_pop s : list camel)) 0) && forallb (fun c => vec_eqb (cm_xp c) (cm_x c) && num_eqb (cm_fp c) (cm_f c) && num_eqb (cm_ep c) (cm_e c) && num_eqb (cm_sp c) (cm_s c) &&
          Nat.eqb (length (cm_x c)) 2 && num_eqb (cm_e c) PInf && num_eqb (cm_f c) f1 && negb (fltb (cm_f c) (fmul b64ops (ca_death ExCa.pI) (cm_f c)))) (r_pop s : list camel) &&
          Nat.eqb (length (r_xb s)) 2 && negb (stopping_condition (e_cfg ExCa.EI) (w_ts w))
      | None => false end = true) by (vm_compute; reflexivity).
    destruct (state_after ExCa.EI (ca b64ops (e_cfg ExCa.EI) ExCa.pI) 1) as [[s w]|]; [|discriminate].
    repeat (apply andb_true_iff in Q; let H := fresh "Q" in destruct Q as [Q H]). apply negb_true_iff, Nat.eqb_neq in Q. apply negb_true_iff in Q0. apply Nat.eqb_eq in Q1.
    split; [intros Q3; rewrite Q3 in Q; auto|]. split; [|split; [exact Q1|exact Q0]].
    apply Forall_forall. intros c Hc. rewrite forallb_forall in Q2. specialize (Q2 c Hc). repeat (apply andb_true_iff in Q2; let H := fresh "U" in destruct Q2 as [Q2 H]).
    apply vec_eqb_spec in Q2. apply num_eqb_spec in U5, U4, U3, U1, U0. apply Nat.eqb_eq in U2. apply negb_true_iff in U.
    split; [repeat split; auto|]. split; [exact U2|]. split; [rewrite U1; exact I|]. split; [rewrite U0; discriminate|exact U].
Qed.
Print Assumptions C102_sound.
Print Assumptions C102_sound_ok.
Print Assumptions C102_best.
Print Assumptions C102_best_64.
Print Assumptions C102_negative_refuted.
Print Assumptions C102_zero_refuted.
Print Assumptions C103_step.
Print Assumptions C103_reached.
Print Assumptions C103_supply_64.
Print Assumptions C103_endurance_refuted.
Print Assumptions C104_evals.
Print Assumptions C104_endless.
Print Assumptions C104_endless_refuted.
