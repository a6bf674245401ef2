(** Final theorems about MantisSearchAlgorithm (mshoa.py) (C109-C113). *)
From Coq Require Import ZArith Lia Lra Reals Bool List Sorted Floats.SpecFloat.
From Flocq Require Import Core BinarySingleNaN.
From Verif Require Import Num Task TaskSpec TaskProofs TaskProofs2 Prog Wp GetBest Run RunSpec RunProofs RunProofs2
  AlgoLib Fops AlgTac StepSpec StepLib Indiv IndivLib Reach AlgBasic AlgSwarm PopLib AlgEvoProofs Repair B64 B64Spec B64Int B64Mag ExLib ExLib2
  PropertiesShade Progress PropertiesProgress AlgKh AlgKhProofs PropertiesKh Det Late AlgMshoa AlgMshoaProofs.
Import ListNotations.
Open Scope nat_scope.
Notation fabs := Fops.fabs.

(** * C109: without normalize_space *)
Theorem C109_sound : forall F E pi acos p, let C := e_cfg E in cfg_ok C -> no_nan (e_prob E) -> repair_ok E -> 0 < ms_n p -> ms_norm p = false ->
  sound_run E (mshoa F C pi acos p) /\ sizes_ok (fun n => n = ms_n p) E (mshoa F C pi acos p).
Proof.
  intros F E pi acos p C HC Hn Hr Hp Hs.
  assert (G1 := ms_init_c F C pi acos p (fun _ => False) HC Hp Hs (fun _ => True) (fun _ _ => I)).
  assert (G2 : iter_c (KBX C (fun _ => False)) (mshoa F C pi acos p) (fun pop fit xb fxb pti l => MsInv C p False (fun _ => True) pop fit xb fxb pti l)).
  { intros pop fit xb fxb pti l H. eapply wp_conseq0; [apply (ms_iter_c F C pi acos p (fun _ => False) HC Hp Hs False (fun _ => True) pop fit xb fxb pti l); auto|].
    intros [[[[pop' fit'] xb'] fxb'] pti'] l' [G _]. exact G. }
  split.
  - eapply (sound_run_c (inside C) (fun _ => False) E (mshoa F C pi acos p)); [auto|auto|auto|exact G1|exact G2|]. intros pop fit xb fxb pti l H. split; apply H.
  - eapply (sizes_c (inside C) (fun _ => False) _ E (mshoa F C pi acos p)); [auto|auto|exact G1|exact G2|]. intros pop fit xb fxb pti l H. apply H.
Qed.
Lemma ms_init_atmost : forall F C p, ms_norm p = false -> atmost (2 * ms_n p) (ms_init F C p) (fun _ _ => True).
Proof.
  intros F C p Hs. unfold ms_init, default_numpy_init. rewrite Hs. apply atmost_bind. apply atmost_bind. apply atmost_uniform_pop. intros pop L.
  apply atmost_bind. apply atmost_eval_all; [lia|]. intros f0 L0. cbn [atmost]. apply atmost_bind. apply atmost_eval_all; [lia|]. intros f1 L1. cbn [atmost].
  apply atmost_bind. apply atmost_random_vec. intros v. exact I.
Qed.
(** a problem that is a function of the point, room for the 2n evaluations of the initialisation and no value at the cutoff value:
    the result is the best point evaluated *)
Theorem C109_best : forall F E pi acos p g, let C := e_cfg E in cfg_ok C -> no_nan (e_prob E) -> repair_ok E -> 0 < ms_n p -> ms_norm p = false ->
  deterministic g E -> lim_reached 0 (c_max_iters C) = false -> above_cutoff E ->
  match c_max_evals C with LInf => True | LFin k => (2 * Z.of_nat (ms_n p) <= k)%Z end ->
  best_run E (mshoa F C pi acos p).
Proof.
  intros F E pi acos p g C HC Hn Hr Hp Hs Hg Hm Hc Hk.
  apply (roomy_run (2 * ms_n p) (fun _ _ => True) (fun x v => v = sgn (c_opt C) (g x)) (inside C) (fun _ => False) E (mshoa F C pi acos p)
    (fun pop fit xb fxb pti l => MsInv C p True (fun _ => True) pop fit xb fxb pti l)); auto.
  - intros h x v Hv. rewrite (Hg _ _ _ Hv). reflexivity.
  - unfold room. fold C. destruct (c_max_evals C); auto. lia.
  - apply ms_init_atmost; auto.
  - apply (ms_init_d F C pi acos p (fun _ => False) HC Hp Hs (fun _ => True) (fun x => sgn (c_opt C) (g x))). auto.
  - intros pop fit xb fxb pti l H. eapply wp_conseq0; [apply (ms_iter_c F C pi acos p (fun _ => False) HC Hp Hs True (fun _ => True) pop fit xb fxb pti l); auto|].
    intros [[[[pop' fit'] xb'] fxb'] pti'] l' [G _]. exact G.
  - intros pop fit xb fxb pti l H. split; [apply H|]. split; [apply H|]. split; [apply H; exact I|apply H].
Qed.

(** * C111: reflection *)
(** a component that is thrown back at the bounds up to k times and then put on the bound it has passed *)
Fixpoint bounce (F : fops) (k : nat) (a l u : num) : num :=
  if fltb a l then match k with O => l | S k' => bounce F k' (fadd F l (fsub F l a)) l u end
  else if fltb u a then match k with O => u | S k' => bounce F k' (fsub F u (fsub F a u)) l u end
  else a.
Lemma lt_le_not : forall a l u, fleb l u = true -> fltb a l = true -> fltb u a = false.
Proof.
  intros a l u H1 H2. destruct (fltb u a) eqn:Q; auto. assert (T := fltb_fleb_trans _ _ _ H2 H1). assert (T2 := fltb_trans _ _ _ T Q). rewrite fltb_irrefl in T2. discriminate.
Qed.
Lemma limit1_id : forall a l u, fleb l u = true -> fltb a l = false -> fltb u a = false -> limit1 a l u = a.
Proof.
  intros a l u H1 H2 H3. unfold limit1, np_min, np_max. destruct a, l, u; cbn [is_nan orb fltb fleb] in *; try discriminate; try reflexivity; rewrite ?H2, ?H3; cbn [is_nan orb fltb]; rewrite ?H3; reflexivity.
Qed.
Lemma limit1_low : forall a l u, fleb l u = true -> fltb a l = true -> limit1 a l u = l.
Proof.
  intros a l u H1 H2. unfold limit1, np_min, np_max. assert (H3 := fleb_fltb_false _ _ H1). destruct a, l, u; cbn [is_nan orb fltb fleb] in *; try discriminate; try reflexivity; rewrite ?H2; cbn [is_nan orb fltb]; rewrite ?H3; reflexivity.
Qed.
Lemma limit1_high : forall a l u, fleb l u = true -> fltb u a = true -> limit1 a l u = u.
Proof.
  intros a l u H1 H2. assert (H3 : fltb a l = false). { destruct (fltb a l) eqn:Q; auto. rewrite (lt_le_not _ _ _ H1 Q) in H2. discriminate. }
  unfold limit1, np_min, np_max. destruct a, l, u; cbn [is_nan orb fltb fleb] in *; try discriminate; try reflexivity; rewrite ?H3; cbn [is_nan orb fltb]; rewrite ?H2; reflexivity.
Qed.
Lemma bounce_in : forall F k a l u, fltb a l = false -> fltb u a = false -> bounce F k a l u = a.
Proof. intros F [|k] a l u H1 H2; cbn [bounce]; rewrite H1, H2; reflexivity. Qed.
Lemma refl_out_false : forall x lo hi n j, length x = n -> length lo = n -> length hi = n -> refl_out x lo hi = false -> j < n ->
  fltb (nth j x NaN) (nth j lo NaN) = false /\ fltb (nth j hi NaN) (nth j x NaN) = false.
Proof.
  induction x as [|a x IH]; intros [|l lo] [|u hi] n j L1 L2 L3 H Hj; cbn [length refl_out] in *; subst n; try discriminate; [lia|].
  apply orb_false_iff in H. destruct H as [H H']. apply orb_false_iff in H. destruct j as [|j]; cbn [nth]; [tauto|]. apply (IH lo hi (length x)); auto; lia.
Qed.
Lemma refl_bounce : forall F k lo hi x n j, length x = n -> length lo = n -> length hi = n -> (forall i, i < n -> fleb (nth i lo NaN) (nth i hi NaN) = true) -> j < n ->
  limit1 (nth j (refl_rounds F k lo hi x) NaN) (nth j lo NaN) (nth j hi NaN) = bounce F k (nth j x NaN) (nth j lo NaN) (nth j hi NaN).
Proof.
  intros F k lo hi. induction k as [|k IH]; intros x n j L1 L2 L3 Hb Hj; cbn [refl_rounds].
  - cbn [bounce]. destruct (fltb (nth j x NaN) (nth j lo NaN)) eqn:Q1; [apply limit1_low; auto|]. destruct (fltb (nth j hi NaN) (nth j x NaN)) eqn:Q2; [apply limit1_high; auto|]. apply limit1_id; auto.
  - destruct (refl_out x lo hi) eqn:Q.
    + rewrite (IH _ n); auto; [|apply zip3_length; auto]. rewrite (zip3_nth _ _ _ _ _ n) by auto. unfold refl1. cbn [bounce].
      destruct (fltb (nth j x NaN) (nth j lo NaN)) eqn:Q1; [rewrite (lt_le_not _ _ _ (Hb j Hj) Q1); reflexivity|].
      destruct (fltb (nth j hi NaN) (nth j x NaN)) eqn:Q2; [reflexivity|]. apply bounce_in; auto.
    + destruct (refl_out_false _ _ _ _ _ L1 L2 L3 Q Hj) as [Q1 Q2]. rewrite bounce_in by auto. apply limit1_id; auto.
Qed.
Theorem C111_bounce : forall F lo hi x d, length lo = d -> length hi = d -> length x = d -> (forall i, i < d -> fleb (nth i lo NaN) (nth i hi NaN) = true) ->
  comps d (reflect_repair F lo hi x) (fun j c => c = bounce F 10 (nth j x NaN) (nth j lo NaN) (nth j hi NaN)).
Proof.
  intros F lo hi x d L1 L2 L3 Hb. split; [apply reflect_length; auto|]. intros j Hj. unfold reflect_repair, limit. assert (L4 := refl_rounds_length F 10 lo hi x d L1 L2 L3).
  rewrite (zip3_nth _ _ _ _ _ d) by auto. apply (refl_bounce F 10 lo hi x d); auto.
Qed.
(** the result is in the box whatever the arithmetic; a point of the box stays where it is *)
Theorem C111_inside : forall F C x, cfg_ok C -> length x = c_dim C -> inside C (reflect_repair F (c_lower C) (c_upper C) x).
Proof. exact reflect_inside. Qed.
Lemma bounds_le : forall C i, cfg_ok C -> i < c_dim C -> fleb (nth i (c_lower C) NaN) (nth i (c_upper C) NaN) = true.
Proof.
  intros C i (H1 & H2 & H3) Hi. apply (Forall2_nth _ _ _ _ _ i _ _ H3); apply nth_error_nth'; lia.
Qed.
Theorem C111_fixed : forall F C x, cfg_ok C -> inside C x -> reflect_repair F (c_lower C) (c_upper C) x = x.
Proof.
  intros F C x HC Hx. assert (L : length x = c_dim C) by (apply inside_len; auto).
  destruct (C111_bounce F (c_lower C) (c_upper C) x (c_dim C)) as [L1 L2]; auto; try apply HC. { intros i Hi. apply bounds_le; auto. }
  apply nth_ext with (d := NaN) (d' := NaN); [lia|]. intros j Hj. rewrite L1 in Hj. rewrite (L2 j Hj). assert (Hj' : j < length x) by lia. apply bounce_in.
  - unfold inside in Hx. assert (Hc : nth_error (combine (c_lower C) (c_upper C)) j = Some (nth j (c_lower C) NaN, nth j (c_upper C) NaN)).
    { rewrite <- combine_nth by (destruct HC as (A1 & A2 & _); lia). apply nth_error_nth'. rewrite combine_length. destruct HC as (A1 & A2 & _). lia. }
    assert (Hr := Forall2_nth _ _ _ _ _ j _ _ Hx Hc (nth_error_nth' x NaN Hj')). cbn [fst snd] in Hr. destruct Hr as [->|[R1 R2]]; [reflexivity|apply fleb_fltb_false; auto].
  - unfold inside in Hx. assert (Hc : nth_error (combine (c_lower C) (c_upper C)) j = Some (nth j (c_lower C) NaN, nth j (c_upper C) NaN)).
    { rewrite <- combine_nth by (destruct HC as (A1 & A2 & _); lia). apply nth_error_nth'. rewrite combine_length. destruct HC as (A1 & A2 & _). lia. }
    assert (Hr := Forall2_nth _ _ _ _ _ j _ _ Hx Hc (nth_error_nth' x NaN Hj')). cbn [fst snd] in Hr. destruct Hr as [->|[R1 R2]]; [destruct (nth j (c_upper C) NaN); reflexivity|apply fleb_fltb_false; auto].
Qed.

(** * C112: polarization types *)
(** 1 + 2u rounds to 1, 2 or 3 in binary64 *)
Lemma start64 : forall F t, arith64 F -> start_type F t -> is_type t.
Proof.
  intros F t (Fa & _ & Fm & _ & Fl & _) (u & [U1 U2] & ->). rewrite Fa, Fm, Fl. cbn [flit b64ops]. rewrite !lit_int by (cbv; discriminate).
  assert (O0 : ok64 0) by (apply (ok64_int 0); cbv; discriminate). assert (O1 : ok64 1) by (apply (ok64_int 1); cbv; discriminate).
  assert (O2 : ok64 2) by (apply (ok64_int 2); cbv; discriminate). assert (O3 : ok64 3) by (apply (ok64_int 3); cbv; discriminate).
  assert (Hu : exists z, u = Fin z /\ (0 <= val z <= 1)%R).
  { assert (U3 : fleb u f1 = true) by (eapply fleb_trans; [exact U2|vm_compute; reflexivity]). clear U2. destruct u as [| |z|]; try discriminate U1; try discriminate U3.
    exists z. split; auto. unfold f0 in U1. rewrite fleb_val, val_0 in U1. replace f1 with (Fin (1 * 2 ^ 1074)) in U3 by (vm_compute; reflexivity). rewrite fleb_val, val_int in U3. split; auto. }
  destruct Hu as (z & -> & Z). destruct (rnd_in _ _ _ O0 O1 Z) as [R1 R2].
  assert (I2 : is64 (Fin (2 * 2 ^ 1074))) by (apply is64_int; cbv; discriminate). assert (I1 : is64 (Fin (1 * 2 ^ 1074))) by (apply is64_int; cbv; discriminate).
  assert (Z2 : (0 <= 2 * rnd64 (val z) <= 2)%R) by lra. destruct (rnd_in _ _ _ O0 O2 Z2) as [R3 R4].
  destruct (mul64_r (2 * 2 ^ 1074) z I2 R2) as (m & M1 & _ & M3 & M4). { rewrite val_int. exact R4. }
  rewrite M1. rewrite val_int in M4. rewrite <- M4 in R3.
  destruct (btw_add (Fin (1 * 2 ^ 1074)) (Fin m) 1 3 (1 * 2 ^ 1074) m eq_refl eq_refl I1 M3 O1 O3) as (v & V1 & V2 & V3). { rewrite val_int. lra. }
  rewrite V1. cbn [fround]. rewrite <- (val_int 1), <- (val_int 3) in V3. destruct V3 as [V3 V4]. apply val_le in V3, V4.
  apply round_z_mono in V3, V4. rewrite !round_z_int in *. unfold is_type. lia.
Qed.
(** Eq. (5) of the paper: the type of an angle between 0 and pi, if the products k * (pi / 8) grow with k *)
Theorem C112_eq5 : forall F pi a, let m k := fmul F (flit F k 1) (fdiv F pi (flit F 8 1)) in let p8 := fdiv F pi (flit F 8 1) in
  fltb p8 (m 3%Z) = true -> fltb (m 3%Z) (m 5%Z) = true -> fltb (m 5%Z) (m 7%Z) = true ->
  fleb (flit F 0 1) a = true -> fleb a pi = true ->
  (fleb a p8 = true -> polar_type F pi a = 2%Z) /\
  (fltb p8 a = true -> fltb a (m 3%Z) = true -> polar_type F pi a = 3%Z) /\
  (fleb (m 3%Z) a = true -> fleb a (m 5%Z) = true -> polar_type F pi a = 1%Z) /\
  (fltb (m 5%Z) a = true -> fltb a (m 7%Z) = true -> polar_type F pi a = 3%Z) /\
  (fleb (m 7%Z) a = true -> polar_type F pi a = 2%Z).
Proof.
  intros F pi a m p8 H1 H2 H3 A1 A2. unfold polar_type. fold p8. cbv zeta.
  change (fmul F (flit F 3 1) p8) with (m 3%Z). change (fmul F (flit F 5 1) p8) with (m 5%Z). change (fmul F (flit F 7 1) p8) with (m 7%Z).
  generalize dependent (m 3%Z). generalize dependent (m 5%Z). generalize dependent (m 7%Z). clear m. clearbody p8. intros m7 m5 H3 m3 H1 H2.
  rewrite A1, A2. cbn [andb]. rewrite andb_true_r.
  assert (N : forall b c d : num, fltb b c = true -> fleb c d = true -> fleb d b = false).
  { intros b c d Q1 Q2. destruct (fleb d b) eqn:Q; auto. assert (T := fltb_fleb_trans _ _ _ Q1 Q2). rewrite (fleb_fltb_false _ _ Q) in T. discriminate. }
  assert (N2 : forall b d : num, fleb d b = true -> fltb b d = false) by (intros; apply fleb_fltb_false; auto).
  assert (N3 : forall b d : num, fltb b d = true -> fleb d b = false). { intros b d Q1. destruct (fleb d b) eqn:Q; auto. rewrite (fleb_fltb_false _ _ Q) in Q1. discriminate. }
  split; [|split; [|split; [|split]]].
  - intros B. rewrite B. cbn [orb]. rewrite (N2 _ _ B). cbn [andb orb].
    assert (T : fltb m5 a = false). { apply fleb_fltb_false. apply fltb_fleb. eapply fleb_fltb_trans; [exact B|]. eapply fltb_trans; eauto. } rewrite T. reflexivity.
  - intros B1 B2. rewrite B1, B2. reflexivity.
  - intros B1 B2. rewrite B1, B2, (N2 _ _ B1), (N2 _ _ B2), andb_false_r. cbn [andb orb].
    assert (T1 : fleb a p8 = false) by (apply N3; eapply fltb_fleb_trans; eauto). assert (T2 : fleb m7 a = false) by (apply N3; eapply fleb_fltb_trans; eauto). rewrite T1, T2. reflexivity.
  - intros B1 B2. rewrite B1, B2, orb_true_r. reflexivity.
  - intros B. rewrite B, (N2 _ _ B), andb_false_r, orb_true_r, orb_false_r.
    assert (T : fltb a m3 = false). { apply fleb_fltb_false. apply fltb_fleb. eapply fltb_trans; [exact H2|]. eapply fltb_fleb_trans; eauto. } rewrite T, andb_false_r. reflexivity.
Qed.

(** * C113: one iteration, with or without normalize_space *)
Section Step.
Variables (F : fops) (E : env) (pi : num) (acos : num -> num) (p : ms_par).
Let C := e_cfg E.
Let n := ms_n p.
Let d := c_dim C.
Let one := flit F 1 1.
Let zero := flit F 0 1.
(** the coordinates the moves work with, and back *)
Definition coded (x z : vec) : Prop :=
  if ms_norm p then comps d z (fun k c => c = fsub F (fdiv F (fmul F (flit F 2 1) (fsub F (nth k x NaN) (nth k (c_lower C) NaN))) (fsub F (nth k (c_upper C) NaN) (nth k (c_lower C) NaN))) one)
  else z = x.
Definition decoded (z x : vec) : Prop :=
  if ms_norm p then comps d x (fun k c => c = fadd F (nth k (c_lower C) NaN) (fmul F (fmul F (fadd F (nth k z NaN) one) (flit F 1 2)) (fsub F (nth k (c_upper C) NaN) (nth k (c_lower C) NaN))))
  else x = z.
(** use_reflection, or the task's repair function (which works with the bounds of the task in both cases) *)
Definition put_back (y z : vec) : Prop :=
  if ms_refl p then comps d z (fun k c => c = bounce F 10 (nth k y NaN) (if ms_norm p then flit F (-1) 1 else nth k (c_lower C) NaN) (if ms_norm p then one else nth k (c_upper C) NaN))
  else repaired E y z.
(** the cosine of the angle between the old and the new position *)
Definition left_angle (x y : vec) (a : num) : Prop :=
  let dot u v := vsum F (map (fun k => fmul F (nth k u NaN) (nth k v NaN)) (seq 0 d)) in
  let den := fmul F (fsqrt F (dot x x)) (fsqrt F (dot y y)) in
  a = if feqb den zero then zero else limit1 (acos (limit1 (fdiv F (dot x y) den) (flit F (-1) 1) one)) zero pi.
(** the distance from an angle to the nearest reference angle of its type *)
Definition away (a : num) (t : Z) : num :=
  match t with
  | 1%Z => fabs F (fsub F a (fdiv F pi (flit F 2 1)))
  | 2%Z => np_min (fabs F (fsub F a zero)) (fabs F (fsub F a pi))
  | 3%Z => np_min (fabs F (fsub F a (fdiv F pi (flit F 4 1)))) (fabs F (fsub F a (fdiv F (fmul F (flit F 3 1) pi) (flit F 4 1))))
  | _ => zero
  end.
Definition retyped (x y : vec) (t : Z) : Prop :=
  exists a u tl tr, left_angle x y a /\ in_unit u /\ tl = polar_type F pi a /\ tr = polar_type F pi (fmul F u pi) /\
    t = if fltb (away a tl) (away (fmul F u pi) tr) then tl else tr.
Definition hunted (pop : list vec) (xb : vec) (fxb : num) (pti : list Z) (l : elog) (pop' : list vec) (fit' : list num) (xb' : vec) (fxb' : num) (pti' : list Z) (l' : elog) : Prop :=
  length pop' = n /\ length pti' = n /\
  exists old xw mv new, length old = n /\ length mv = n /\ length new = n /\
    (forall i, i < n -> coded (nth i pop []) (nth i old [])) /\ coded xb xw /\
    (forall i, i < n -> moves F pi p d old xw pti i (nth i mv [])) /\
    (forall i, i < n -> put_back (nth i mv []) (nth i new [])) /\
    (forall i, i < n -> decoded (nth i new []) (nth i pop' [])) /\
    evaluated_all pop' fit' l l' /\
    (exists b m, nth_error fit' b = Some m /\ (Forall (fun v => v <> NaN) fit' -> first_min fit' b m) /\
       if fltb m fxb then xb' = nth b pop' [] /\ fxb' = m else xb' = xb /\ fxb' = fxb) /\
    (forall i, i < n -> retyped (nth i old []) (nth i new []) (nth i pti' 0%Z)).
End Step.
Lemma evaluated_all_length : forall pop fs l l', evaluated_all pop fs l l' -> length fs = length pop.
Proof. intros pop fs l l' H. induction H; cbn [length]; auto. Qed.
Lemma from_real_coded : forall F E p x, cfg_ok (e_cfg E) -> ms_norm p = true -> length x = c_dim (e_cfg E) -> coded F E p x (from_real F (e_cfg E) x).
Proof.
  intros F E p x (H1 & H2 & _) Hs L. unfold coded. rewrite Hs. unfold from_real. split; [apply zip3_length; auto|]. intros j Hj.
  rewrite (zip3_nth _ _ _ _ _ (c_dim (e_cfg E))) by auto. reflexivity.
Qed.
Lemma to_real_decoded : forall F E p x, cfg_ok (e_cfg E) -> ms_norm p = true -> length x = c_dim (e_cfg E) -> decoded F E p x (to_real F (e_cfg E) x).
Proof.
  intros F E p x (H1 & H2 & _) Hs L. unfold decoded. rewrite Hs. unfold to_real. split; [apply zip3_length; auto|]. intros j Hj.
  rewrite (zip3_nth _ _ _ _ _ (c_dim (e_cfg E))) by auto. reflexivity.
Qed.
Lemma nth_map_vec : forall (f : vec -> vec) xs i n, length xs = n -> i < n -> nth i (map f xs) [] = f (nth i xs []).
Proof. intros f xs i n L Hi. rewrite (nth_indep _ [] (f [])) by (rewrite map_length; lia). apply map_nth. Qed.
Lemma vmul_seq : forall F d x y, length x = d -> length y = d -> vmul F x y = map (fun k => fmul F (nth k x NaN) (nth k y NaN)) (seq 0 d).
Proof. intros F d x y L1 L2. unfold vmul. apply map2_seq; auto. Qed.
Lemma ang_away : forall F pi a t, ang_diff F pi a t = away F pi a t.
Proof. intros F pi a t. unfold ang_diff, away. destruct (Z.eqb_spec t 1) as [->|H1]; auto. destruct (Z.eqb_spec t 2) as [->|H2]; auto. destruct (Z.eqb_spec t 3) as [->|H3]; auto. destruct t as [|[[]|[]|]|]; auto; congruence. Qed.
Theorem C113_step : forall F E pi acos p pop fit xb fxb pti pop' fit' xb' fxb' pti' wd wd', let C := e_cfg E in cfg_ok C -> repair_ok E -> 0 < ms_n p ->
  length pop = ms_n p -> Forall (fun x => length x = c_dim C) pop -> length xb = c_dim C ->
  fleb (flit F (-1) 1) (flit F 1 1) = true ->
  exec E (a_iter (mshoa F C pi acos p) pop fit xb fxb pti) wd = (Ret (pop', fit', xb', fxb', pti'), wd') ->
  hunted F E pi acos p pop xb fxb pti (log_of (c_opt C) (w_h wd)) pop' fit' xb' fxb' pti' (log_of (c_opt C) (w_h wd')).
Proof.
  intros F E pi acos p pop fit xb fxb pti pop' fit' xb' fxb' pti' wd wd' C HC Hr Hn Lp Dp Lx Hl Ex. set (l := log_of (c_opt C) (w_h wd)).
  cbn [a_iter mshoa] in Ex. unfold ms_iter in Ex. cbv zeta in Ex.
  apply (tr_sound _ E _ (fun s l' => let '(pop', fit', xb', fxb', pti') := s in hunted F E pi acos p pop xb fxb pti l pop' fit' xb' fxb' pti' l') _ _ _) in Ex; [exact Ex|].
  fold C l. clear Ex pop' fit' xb' fxb' pti' wd'. clearbody l. clear wd fit. set (n := ms_n p) in *. set (d := c_dim C) in *.
  set (old := if ms_norm p then map (from_real F C) pop else pop). set (xw := if ms_norm p then from_real F C xb else xb).
  set (lo := if ms_norm p then repeat (flit F (-1) 1) d else c_lower C). set (hi := if ms_norm p then repeat (flit F 1 1) d else c_upper C).
  assert (Lf : forall x, length x = d -> length (from_real F C x) = d) by (intros x Hx; apply zip3_length; auto; apply HC).
  assert (Lt : forall x, length x = d -> length (to_real F C x) = d) by (intros x Hx; apply zip3_length; auto; apply HC).
  assert (Lo : length old = n) by (unfold old; destruct (ms_norm p); rewrite ?map_length; auto).
  assert (Do : dims d old). { unfold old. destruct (ms_norm p); auto. apply Forall_map. eapply Forall_impl; [|exact Dp]. auto. }
  assert (Lw : length xw = d) by (unfold xw; destruct (ms_norm p); auto).
  assert (Co : forall i, i < n -> coded F E p (nth i pop []) (nth i old [])).
  { intros i Hi. unfold old. destruct (ms_norm p) eqn:Hs; [|unfold coded; rewrite Hs; reflexivity]. rewrite (nth_map_vec _ _ _ n) by auto. apply from_real_coded; auto. apply dims_nthd; auto. lia. }
  assert (Cx : coded F E p xb xw). { unfold xw. destruct (ms_norm p) eqn:Hs; [apply from_real_coded; auto|unfold coded; rewrite Hs; reflexivity]. }
  apply wp_bind. apply (w_ms_move _ _ _ _ d); auto. intros mv L1 H1. assert (D1 := moves_dims _ _ _ _ _ _ _ _ Lo Do L1 H1).
  apply wp_bind. apply wp_conseq0 with (Q := fun new l' => l' = l /\ length new = n /\ dims d new /\ forall i, i < n -> put_back F E p (nth i mv []) (nth i new [])).
  { destruct (ms_refl p) eqn:Hf.
    - apply w_done. assert (L2 : length lo = d) by (unfold lo; destruct (ms_norm p); [apply repeat_length|apply HC]). assert (L3 : length hi = d) by (unfold hi; destruct (ms_norm p); [apply repeat_length|apply HC]).
      split; auto. split; [rewrite map_length; auto|]. split; [apply Forall_map; eapply Forall_impl; [|exact D1]; intros x Hx; apply reflect_length; auto|].
      intros i Hi. rewrite (nth_map_vec _ _ _ n) by auto. unfold put_back. rewrite Hf.
      assert (Lm : length (nth i mv []) = d) by (apply dims_nthd; auto; lia).
      destruct (C111_bounce F lo hi (nth i mv []) d L2 L3 Lm) as [B1 B2].
      { intros j Hj. unfold lo, hi. destruct (ms_norm p); [rewrite !nth_rep by auto; auto|apply bounds_le; auto]. }
      split; [exact B1|]. intros j Hj. fold C d in Hj. rewrite (B2 j Hj). unfold lo, hi. destruct (ms_norm p); [rewrite !nth_rep by auto|]; reflexivity.
    - apply w_repair_all_tr. intros ys Hy. assert (Ly : length ys = n) by (rewrite <- (Forall2_len _ _ _ _ _ Hy); auto). split; auto. split; auto.
      split. { clear -Hy D1 HC Hr. induction Hy as [|a b mv ys [q ->] _ IH]; [constructor|]. inversion D1; subst. constructor; [apply inside_len; auto; apply Hr; auto|apply IH; auto]. }
      intros i Hi. unfold put_back. rewrite Hf. apply (Forall2_nth _ _ _ _ _ i _ _ Hy); apply nth_error_nth'; lia. }
  intros new l0 (-> & L2 & D2 & P2). set (real := if ms_norm p then map (to_real F C) new else new).
  assert (Lr : length real = n) by (unfold real; destruct (ms_norm p); rewrite ?map_length; auto).
  assert (Cr : forall i, i < n -> decoded F E p (nth i new []) (nth i real [])).
  { intros i Hi. unfold real. destruct (ms_norm p) eqn:Hs; [|unfold decoded; rewrite Hs; reflexivity]. rewrite (nth_map_vec _ _ _ n) by auto. apply to_real_decoded; auto. apply dims_nthd; auto. lia. }
  apply wp_bind. apply w_eval_all_tr. intros fit' l' He. assert (Le := evaluated_all_length _ _ _ _ He).
  apply wp_bind. destruct (argmin fit') as [b|] eqn:Eb; cbn [argP]; [|exact I]. apply w_done. apply wp_bind. apply w_nthP_tr. intros m Em. apply wp_bind. apply w_nthP_tr. intros x Exx.
  destruct (if fltb m fxb then (x, m) else (xb, fxb)) as [xb' fxb'] eqn:Eq. apply wp_bind. apply w_random_vec_u. intros us Lu Uu. apply w_done.
  split; auto. split; [apply map2_length; [apply map2_length; auto|rewrite map_length; auto]|].
  exists old, xw, mv, new. repeat (split; [assumption|]). split.
  - exists b, m. split; auto. split.
    + intros Hnn. destruct (argmin_spec fit') as (b' & m' & Eb' & M); auto. { intros ->. destruct b; discriminate. } rewrite Eb in Eb'. injection Eb' as <-.
      assert (m' = m) as -> by (destruct M as (M1 & _); congruence). exact M.
    + destruct (fltb m fxb); injection Eq as <- <-; split; auto. symmetry. apply nth_error_nth. auto.
  - intros i Hi. exists (ms_lpa F pi acos (nth i old []) (nth i new [])), (nth i us NaN). do 2 eexists.
    assert (A1 : length (nth i old []) = d) by (apply dims_nthd; auto; lia). assert (A2 : length (nth i new []) = d) by (apply dims_nthd; auto; lia).
    split; [unfold left_angle, ms_lpa; cbv zeta; rewrite !(vmul_seq F d) by auto; reflexivity|].
    split; [apply nth_in_unit; auto; lia|]. split; [reflexivity|]. split; [reflexivity|].
    rewrite (nth_map2 _ _ _ _ _ _ _ n NaN NaN); [| | |auto]; [|apply map2_length; auto|rewrite map_length; auto].
    rewrite (nth_map2 _ _ _ _ _ _ _ n [] []) by auto. rewrite (nth_indep (map _ us) NaN (fmul F NaN pi)) by (rewrite map_length; lia). rewrite (map_nth (fun u => fmul F u pi)).
    unfold ms_eye. cbv zeta. rewrite !ang_away. reflexivity.
Qed.
(** * C112, continued: every mantis always has one of the three types, with or without normalize_space *)
Lemma best_from : forall (pop : list vec) fit x f, get_best pop fit None PInf = Ret (x, f) -> In x pop.
Proof.
  intros pop fit x f H. unfold get_best in H. destruct (argmin fit) as [b|]; [|discriminate]. destruct (nth_error fit b) as [v|]; [|discriminate].
  destruct (fleb v PInf); [|discriminate]. destruct (nth_error pop b) as [y|] eqn:Q; [|discriminate]. injection H as <- <-. eapply nth_error_In; eauto.
Qed.
Lemma hunted_dims : forall F E pi acos p pop xb fxb pti l pop' fit' xb' fxb' pti' l', cfg_ok (e_cfg E) -> repair_ok E -> length xb = c_dim (e_cfg E) -> length pop = ms_n p -> dims (c_dim (e_cfg E)) pop ->
  hunted F E pi acos p pop xb fxb pti l pop' fit' xb' fxb' pti' l' -> dims (c_dim (e_cfg E)) pop' /\ length xb' = c_dim (e_cfg E).
Proof.
  intros F E pi acos p pop xb fxb pti l pop' fit' xb' fxb' pti' l' HC Hr Lx Lp Dp (L1 & L2 & old & xw & mv & new & L3 & L4 & L5 & H1 & H2 & H3 & H4 & H5 & H6 & (b & m & B1 & _ & B2) & _).
  assert (D0 : forall i, i < ms_n p -> length (nth i old []) = c_dim (e_cfg E)).
  { intros i Hi. specialize (H1 i Hi). unfold coded in H1. destruct (ms_norm p); [apply H1|]. rewrite H1. apply dims_nthd; auto. lia. }
  assert (D1 : dims (c_dim (e_cfg E)) pop').
  { apply (dims_of_nth _ (ms_n p)); auto. intros i Hi. specialize (H5 i Hi). unfold decoded in H5. destruct (ms_norm p); [apply H5|]. rewrite H5. specialize (H4 i Hi). unfold put_back in H4.
    destruct (ms_refl p); [apply H4|]. destruct H4 as [k ->]. apply inside_len; auto. apply Hr.
    specialize (H3 i Hi). unfold moves in H3. destruct (nth i pti 0%Z) as [|[[]|[]|]|]; try (rewrite H3; apply D0; auto).
    - destruct H3 as (t & _ & T). apply T.
    - destruct H3 as (t & _ & T). apply T.
    - destruct H3 as (t & r & _ & _ & _ & T). apply T. }
  split; auto. destruct (fltb m fxb); destruct B2 as [-> _]; auto. apply dims_nthd; auto.
  apply evaluated_all_length in H6. rewrite <- H6. apply nth_error_Some. congruence.
Qed.
Theorem C112_types : forall F E pi acos p s w, let C := e_cfg E in cfg_ok C -> repair_ok E -> 0 < ms_n p -> arith64 F ->
  reached E (mshoa F C pi acos p) s w -> length (r_par s : list Z) = ms_n p /\ Forall (fun t => t = 1 \/ t = 2 \/ t = 3)%Z (r_par s : list Z).
Proof.
  intros F E pi acos p s w C HC Hr Hp HF H.
  assert (G : (length (r_pop s : list vec) = ms_n p /\ dims (c_dim C) (r_pop s : list vec) /\ length (r_xb s) = c_dim C) /\ length (r_par s : list Z) = ms_n p /\ Forall is_type (r_par s : list Z)); [|apply G].
  induction H as [pos pop fit par w xb fxb Ex G|s w pop fit xb fxb par w' H IH Ex]; cbn [r_pop r_par r_xb].
  - apply (tr_sound _ E _ (fun s _ => let '(pop, fit, pti) := s in (length pop = ms_n p /\ dims (c_dim C) pop) /\ length pti = ms_n p /\ Forall is_type pti) _ _ _) in Ex.
    + destruct Ex as [[E1 E2] E3]. repeat split; auto; try apply E3. apply best_from in G. exact (proj1 (Forall_forall _ _) E2 _ G).
    + cbn [a_init mshoa]. unfold ms_init, default_numpy_init. apply wp_bind. apply wp_bind. apply w_uniform_pop; auto. intros q Lq Iq. apply wp_bind. apply w_eval_all_tr. intros f0 l1 H0. apply w_done.
      cbv zeta. apply wp_bind. apply w_eval_all_tr. intros f1 l2 H1. apply wp_bind. apply w_random_vec_u. intros us Lu Uu. apply w_done. assert (Dq := dims_inside _ _ HC Iq).
      split; [|split; [rewrite map_length; auto|eapply Forall_impl; [|apply start_types; exact Uu]; intros t; apply start64; auto]].
      destruct (ms_norm p); [|auto]. rewrite map_length. split; auto. apply Forall_map. eapply Forall_impl; [|exact Dq]. intros x Hx. apply zip3_length; auto; apply HC.
  - destruct IH as [(I1 & I2 & I3) _].
    assert (S := C113_step F E pi acos p _ _ _ _ _ _ _ _ _ _ _ _ HC Hr Hp I1 I2 I3 (ltac:(destruct HF as (_ & _ & _ & _ & Fl & _); rewrite Fl; vm_compute; reflexivity)) Ex).
    assert (D := hunted_dims _ _ _ _ _ _ _ _ _ _ _ _ _ _ _ _ HC Hr I3 I1 I2 S). destruct S as (L1 & L2 & old & xw & mv & new & _ & _ & _ & _ & _ & _ & _ & _ & _ & _ & R).
    split; [split; auto|]. split; auto. apply Forall_forall. intros t Ht. destruct (In_nth _ _ 0%Z Ht) as (i & Hi & <-). rewrite L2 in Hi.
    destruct (R i Hi) as (a & u & tl & tr & _ & _ & -> & -> & ->). destruct (fltb _ _); apply polar_range.
Qed.
(** without normalize_space every initial point is evaluated twice *)
Theorem C113_init : forall F E pi acos p pop fit pti wd wd', let C := e_cfg E in cfg_ok C -> ms_norm p = false ->
  exec E (a_init (mshoa F C pi acos p)) wd = (Ret (pop, fit, pti), wd') ->
  exists f0 l1, evaluated_all pop f0 (log_of (c_opt C) (w_h wd)) l1 /\ evaluated_all pop fit l1 (log_of (c_opt C) (w_h wd')).
Proof.
  intros F E pi acos p pop fit pti wd wd' C HC Hs Ex. set (l := log_of (c_opt C) (w_h wd)).
  cbn [a_init mshoa] in Ex. unfold ms_init, default_numpy_init in Ex. rewrite Hs in Ex. cbv zeta in Ex.
  apply (tr_sound _ E _ (fun s l' => let '(pop, fit, pti) := s in exists f0 l1, evaluated_all pop f0 l l1 /\ evaluated_all pop fit l1 l') _ _ _) in Ex; [exact Ex|].
  fold C l. clear -HC. apply wp_bind. apply wp_bind. apply w_uniform_pop; auto. intros pop _ _. apply wp_bind. apply w_eval_all_tr. intros f0 l1 H0. apply w_done. apply wp_bind. apply w_eval_all_tr. intros f1 l2 H1.
  apply wp_bind. apply w_random_vec. intros us _. apply w_done. eauto.
Qed.
Theorem C113_ends : forall F E pi acos p, terminates (mshoa F (e_cfg E) pi acos p) E.
Proof.
  intros F E pi acos p. apply ends; [cbn [a_init mshoa]; unfold ms_init; nfs|]. intros s w _ _. cbn [a_iter mshoa]. unfold ms_iter. cbv zeta.
  apply me_right; [unfold ms_move; cbv zeta; nfs|]. intros mv. apply me_right; [destruct (ms_refl p); nfs|]. intros new. apply me_left; [apply me_eval_all|]. intros fs.
  unfold argP. nfs.
Qed.

(** * C110: with normalize_space the initial population is the normalized one, and its fitness is that of the points it encodes *)
Theorem C110_init : forall F E pi acos p pop fit pti wd wd', let C := e_cfg E in cfg_ok C -> ms_norm p = true ->
  exec E (a_init (mshoa F C pi acos p)) wd = (Ret (pop, fit, pti), wd') ->
  exists start f0 l1 real, length start = ms_n p /\ length pop = ms_n p /\ length real = ms_n p /\ Forall (inside C) start /\
    evaluated_all start f0 (log_of (c_opt C) (w_h wd)) l1 /\
    (forall i, i < ms_n p -> coded F E p (nth i start []) (nth i pop [])) /\
    (forall i, i < ms_n p -> decoded F E p (nth i pop []) (nth i real [])) /\
    evaluated_all real fit l1 (log_of (c_opt C) (w_h wd')).
Proof.
  intros F E pi acos p pop fit pti wd wd' C HC Hs Ex. set (l := log_of (c_opt C) (w_h wd)).
  cbn [a_init mshoa] in Ex. unfold ms_init, default_numpy_init in Ex. rewrite Hs in Ex. cbv zeta in Ex.
  apply (tr_sound _ E _ (fun s l' => let '(pop, fit, pti) := s in exists start f0 l1 real, length start = ms_n p /\ length pop = ms_n p /\ length real = ms_n p /\ Forall (inside C) start /\
    evaluated_all start f0 l l1 /\ (forall i, i < ms_n p -> coded F E p (nth i start []) (nth i pop [])) /\
    (forall i, i < ms_n p -> decoded F E p (nth i pop []) (nth i real [])) /\ evaluated_all real fit l1 l') _ _ _) in Ex; [exact Ex|].
  fold C l. clear -HC Hs. apply wp_bind. apply wp_bind. apply w_uniform_pop; auto. intros pop Lp Ip. apply wp_bind. apply w_eval_all_tr. intros f0 l1 H0. apply w_done.
  apply wp_bind. apply w_eval_all_tr. intros f1 l2 H1. apply wp_bind. apply w_random_vec. intros us _. apply w_done.
  assert (Dp := dims_inside _ _ HC Ip). assert (Lf : forall x, length x = c_dim C -> length (from_real F C x) = c_dim C) by (intros x Hx; apply zip3_length; auto; apply HC).
  exists pop, f0, l1, (map (to_real F C) (map (from_real F C) pop)). rewrite !map_length. repeat (split; [assumption|]). split; [|split; [|exact H1]].
  - intros i Hi. rewrite (nth_map_vec _ _ _ (ms_n p)) by auto. apply from_real_coded; auto. apply dims_nthd; auto. lia.
  - intros i Hi. rewrite (nth_map_vec _ (map _ _) _ (ms_n p)) by (rewrite ?map_length; auto). apply to_real_decoded; auto. rewrite (nth_map_vec _ _ _ (ms_n p)) by auto. apply Lf. apply dims_nthd; auto. lia.
Qed.

Module ExMshoa.
  Definition C1 := Cfg Minimization 2 [N' (-2); N' (-2)] [N' 2; N' 2] (LFin 30) (LFin 5) (N' (-1)).
  Definition E1 := exenv C1 sq.
  Definition pi64 := q 884279719003555 (2 ^ 48).
  (** a stand-in for np.arccos: pi / 2 * (1 - c) *)
  Definition acos1 (F : fops) (c : num) := fmul F (fdiv F pi64 (flit F 2 1)) (fsub F (flit F 1 1) c).
  Definition p1 := MSPar 3 (q 3 8) true false.
  Definition p2 := MSPar 3 (q 3 8) false false.
  Definition p3 := MSPar 3 (q 3 8) true true.
  Lemma ok1 : cfg_ok C1. Proof. split; [reflexivity|]. split; [reflexivity|]. repeat constructor. Qed.
  Lemma rep1 : repair_ok E1. Proof. exact (clip_ok C1 sq fl8 in7 ok1). Qed.
  Lemma sq_nonneg : forall x, fleb (sq_from x) (N' (-1)) = false.
  Proof.
    assert (A : forall x, match sq_from x with Fin a => (0 <= a)%Z | PInf => True | _ => False end).
    { induction x as [|[] x IH]; cbn [sq_from]; auto; [reflexivity|]. destruct (sq_from x); auto. apply Z.add_nonneg_nonneg; [apply Z.shiftr_nonneg; nia|exact IH]. }
    intros x. specialize (A x). destruct (sq_from x); try contradiction; [|reflexivity]. apply Z.leb_gt. eapply Z.lt_le_trans; [|exact A]. reflexivity.
  Qed.
  Example hyps : arith64 b64ops /\ cfg_ok (e_cfg E1) /\ no_nan (e_prob E1) /\ repair_ok E1 /\ 0 < ms_n p1 /\ ms_norm p1 = false /\ deterministic sq_from E1 /\
    lim_reached 0 (c_max_iters C1) = false /\ above_cutoff E1 /\ match c_max_evals C1 with LInf => True | LFin k => (2 * Z.of_nat (ms_n p1) <= k)%Z end.
  Proof.
    split; [repeat split|]. split; [exact ok1|]. split; [apply sq_no_nan|]. split; [exact rep1|]. split; [cbn; lia|]. split; [reflexivity|].
    split; [intros h x v H; injection H as <-; reflexivity|]. split; [reflexivity|]. split; [|cbn; lia]. split; [reflexivity|]. intros h x v H. injection H as <-. apply sq_nonneg.
  Qed.
  Example best1 : best_run E1 (mshoa b64ops C1 pi64 (acos1 b64ops) p1).
  Proof. destruct hyps as (H1 & H2 & H3 & H4 & H5 & H6 & H7 & H8 & H9 & H10). apply (C109_best b64ops E1 _ _ p1 sq_from); auto. Qed.
  Example trace1 : trace E1 (mshoa b64ops C1 pi64 (acos1 b64ops) p1) 9 =
    (Ret ([9600; 9600], 2812), [[8192; 40960]; [24576; 24576]; [40960; 8192]; [8192; 40960]; [24576; 24576];
    [40960; 8192]; [33792; 33792]; [15360; 15360]; [(-12288); 61440]; [15360; 15360]; [15360; 15360]; [48768;
    (-34176)]; [15360; 15360]; [15360; 15360]; [9600; 9600]; [9600; 9600]; [9600; 9600]; [10320; 10320];
    [9600; 9600]; [9600; 9600]; [9600; 9600]])%Z.
  Proof. vm_compute. reflexivity. Qed.
  Example trace2 : trace E1 (mshoa fxx C1 pi64 (acos1 fxx) p2) 9 =
    (Ret ([3712; 3712], 420), [[8192; 40960]; [24576; 24576]; [40960; 8192]; [8192; 40960]; [24576; 24576];
    [40960; 8192]; [33792; 33792]; [15360; 15360]; [(-12288); 61440]; [27007; 27007]; [27007; 27007]; [53376;
    (-48000)]; [27007; 27007]; [27007; 27007]; [27007; 27007]; [27007; 27007]; [27007; 27007]; [3712; 3712];
    [6527; 6527]; [6527; 6527]; [6527; 6527]])%Z.
  Proof. vm_compute. reflexivity. Qed.
  Example trace3 : trace E1 (mshoa b64ops C1 pi64 (acos1 b64ops) p3) 9 =
    (Ret ([4800; 4800], 703), [[8192; 40960]; [24576; 24576]; [40960; 8192]; [8192; 40960]; [24576; 24576];
    [40960; 8192]; [16896; 16896]; [7680; 7680]; [(-6144); 30720]; [7680; 7680]; [7680; 7680]; [24384;
    (-17088)]; [7680; 7680]; [7680; 7680]; [4800; 4800]; [4800; 4800]; [4800; 4800]; [5160; 5160]; [4800;
    4800]; [4800; 4800]; [4800; 4800]])%Z.
  Proof. vm_compute. reflexivity. Qed.
  Example ran1 : ran E1 (mshoa b64ops C1 pi64 (acos1 b64ops) p1) 9 =
    Some (5, 21).
  Proof. vm_compute. reflexivity. Qed.
  Example types1 : map (fun k => match state_after E1 (mshoa b64ops C1 pi64 (acos1 b64ops) p1) k with Some (s, w) => r_par s : list Z | None => [] end) [0; 1; 2; 3] =
    [[3; 3; 1]; [2; 2; 1]; [2; 2; 3]; [2; 2; 1]]%Z.
  Proof. vm_compute. reflexivity. Qed.
  (** the hypotheses of C113_step, in the state after the first iteration, for all settings of the two flags *)
  Example step1 : forall r z, exists s w pop' fit' xb' fxb' st' wd', let p := MSPar 3 (q 3 8) r z in reached E1 (mshoa b64ops C1 pi64 (acos1 b64ops) p) s w /\
    length (r_pop s : list vec) = 3 /\ Forall (fun x => length x = 2) (r_pop s : list vec) /\ length (r_xb s) = 2 /\ fleb (flit b64ops (-1) 1) (flit b64ops 1 1) = true /\
    exec E1 (a_iter (mshoa b64ops C1 pi64 (acos1 b64ops) p) (r_pop s) (r_fit s) (r_xb s) (r_fxb s) (r_par s)) w = (Ret (pop', fit', xb', fxb', st'), wd').
  Proof.
    intros r z. set (A := mshoa b64ops C1 pi64 (acos1 b64ops) (MSPar 3 (q 3 8) r z)).
    assert (Q : match state_after E1 A 1 with Some (s, w) => (length (r_pop s : list vec) =? 3) && forallb (fun x => length x =? 2) (r_pop s : list vec) && (length (r_xb s) =? 2) &&
      match exec E1 (a_iter A (r_pop s) (r_fit s) (r_xb s) (r_fxb s) (r_par s)) w with (Ret _, _) => true | _ => false end | None => false end = true) by (unfold A; destruct r, z; vm_compute; reflexivity).
    destruct (state_after E1 A 1) as [[s w]|] eqn:S0; [|discriminate]. apply andb_true_iff in Q. destruct Q as [Q1 Q2]. apply andb_true_iff in Q1. destruct Q1 as [Q1 Q3]. apply andb_true_iff in Q1. destruct Q1 as [Q0 Q1].
    destruct (exec E1 _ w) as [[[[[[pop' fit'] xb'] fxb'] st']|] wd'] eqn:Ex; [|discriminate]. assert (Rc := state_reached _ _ _ _ _ S0).
    exists s, w, pop', fit', xb', fxb', st', wd'. cbv zeta. split; [exact Rc|]. split; [apply Nat.eqb_eq; exact Q0|]. split; [apply Forall_forall; intros x Hx; apply Nat.eqb_eq; exact (proj1 (forallb_forall _ _) Q1 x Hx)|].
    split; [apply Nat.eqb_eq; exact Q3|]. split; [reflexivity|exact Ex].
  Qed.
  (** 11/4 -> 5/4;  -9 -> 5 -> -1;  a point that is still outside after ten rounds is put on the bound *)
  Example bounce1 : map scl (reflect_repair b64ops (repeat (N' (-2)) 4) (repeat (N' 2) 4) [q 11 4; N' (-9); N' 1; N' 99]) =
    [81920; (-65536); 65536; 131072]%Z.
  Proof. vm_compute. reflexivity. Qed.
  Example order8 : let m k := fmul b64ops (flit b64ops k 1) (fdiv b64ops pi64 (flit b64ops 8 1)) in
    fltb (fdiv b64ops pi64 (flit b64ops 8 1)) (m 3%Z) && fltb (m 3%Z) (m 5%Z) && fltb (m 5%Z) (m 7%Z) && fltb (m 7%Z) pi64 = true.
  Proof. vm_compute. reflexivity. Qed.
  Example types8 : map (polar_type b64ops pi64) [f0; q 1 4; q 1 2; q 3 2; N' 2; q 5 2; N' 3] =
    [2; 2; 3; 1; 3; 3; 2]%Z.
  Proof. vm_compute. reflexivity. Qed.
  (** room for one evaluation of every point: the second evaluations are refused *)
  Definition C2 := Cfg Minimization 2 [N' (-2); N' (-2)] [N' 2; N' 2] (LFin 3) LInf NInf.
  Lemma ok2 : cfg_ok C2. Proof. split; [reflexivity|]. split; [reflexivity|]. repeat constructor. Qed.
  (** a problem whose value depends on the evaluations made before *)
  Definition grow : problem := fun h _ => Ret (N' (Z.of_nat (length h))).
  Definition C3 := Cfg Minimization 2 [N' (-2); N' (-2)] [N' 2; N' 2] (LFin 6) LInf NInf.
  Lemma ok3 : cfg_ok C3. Proof. split; [reflexivity|]. split; [reflexivity|]. repeat constructor. Qed.
  (** bounds -9.8 and 0.9; the point drawn is the double below 0.9 *)
  Definition C4 := Cfg Minimization 1 [q (-2758454771764429) (2 ^ 48)] [q 8106479329266893 (2 ^ 53)] (LFin 2) LInf NInf.
  Definition E4 := Env C4 sq (clip C4) (fun _ => q 2026619832316723 (2 ^ 51)) in7.
  Lemma ok4 : cfg_ok C4. Proof. split; [reflexivity|]. split; [reflexivity|]. repeat constructor. Qed.
  Example trace4 : trace E4 (mshoa b64ops C4 pi64 (acos1 b64ops) (MSPar 1 (q 3 8) true true)) 9 =
    (Ret ([65536], 53084), [[58982]; [58982]])%Z.
  Proof. vm_compute. reflexivity. Qed.
End ExMshoa.

(** The claim that the result is always the best point evaluated is false without the room for the second evaluations (three points, three
    evaluations: the fitness of every point is inf) *)
Theorem C109_room_refuted : forall pi acos, exists E p g, let C := e_cfg E in cfg_ok C /\ no_nan (e_prob E) /\ repair_ok E /\ 0 < ms_n p /\ ms_norm p = false /\
  deterministic g E /\ lim_reached 0 (c_max_iters C) = false /\ ~ best_run E (mshoa b64ops C pi acos p) /\
  exists x v w ev y u, run_body E (mshoa b64ops C pi acos p) (fun _ => None) 9 (World (task_init C) [] 0) = (Ret (x, v), w, ev) /\ In (y, Ret u) (w_h w) /\ better (c_opt C) u v = true.
Proof.
  intros pi acos. exists (exenv ExMshoa.C2 sq), ExMshoa.p1, sq_from. cbv zeta.
  split; [exact ExMshoa.ok2|]. split; [apply sq_no_nan|]. split; [exact (clip_ok ExMshoa.C2 sq fl8 in7 ExMshoa.ok2)|]. split; [cbn; lia|]. split; [reflexivity|].
  split; [intros h x v H; injection H as <-; reflexivity|]. split; [reflexivity|].
  destruct (run_lost_best (fun _ => False) (exenv ExMshoa.C2 sq) (mshoa b64ops ExMshoa.C2 pi acos ExMshoa.p1) 9) as [H1 H2]; [vm_compute; reflexivity|]. split; [exact H2|exact H1].
Qed.
(** ... nor for a problem whose values depend on the evaluations made before *)
Theorem C109_noisy_refuted : forall pi acos, exists E p, let C := e_cfg E in cfg_ok C /\ no_nan (e_prob E) /\ repair_ok E /\ 0 < ms_n p /\ ms_norm p = false /\
  match c_max_evals C with LInf => True | LFin k => (2 * Z.of_nat (ms_n p) <= k)%Z end /\ ~ best_run E (mshoa b64ops C pi acos p) /\
  exists x v w ev y u, run_body E (mshoa b64ops C pi acos p) (fun _ => None) 9 (World (task_init C) [] 0) = (Ret (x, v), w, ev) /\ In (y, Ret u) (w_h w) /\ better (c_opt C) u v = true.
Proof.
  intros pi acos. exists (exenv ExMshoa.C3 ExMshoa.grow), ExMshoa.p1. cbv zeta.
  split; [exact ExMshoa.ok3|]. split; [intros h x v H; injection H as <-; discriminate|]. split; [exact (clip_ok ExMshoa.C3 ExMshoa.grow fl8 in7 ExMshoa.ok3)|]. split; [cbn; lia|]. split; [reflexivity|].
  split; [cbn; lia|].
  destruct (run_lost_best (fun _ => False) (exenv ExMshoa.C3 ExMshoa.grow) (mshoa b64ops ExMshoa.C3 pi acos ExMshoa.p1) 9) as [H1 H2]; [vm_compute; reflexivity|]. split; [exact H2|exact H1].
Qed.
(** With normalize_space a run whose initial population is not improved returns a normalized point with the fitness of the point it encodes *)
Theorem C110_pair_refuted : forall pi acos, exists E p, let C := e_cfg E in cfg_ok C /\ no_nan (e_prob E) /\ repair_ok E /\ 0 < ms_n p /\ ms_norm p = true /\ ~ best_run E (mshoa b64ops C pi acos p) /\
  exists x v w ev, run_body E (mshoa b64ops C pi acos p) (fun _ => None) 9 (World (task_init C) [] 0) = (Ret (x, v), w, ev) /\ v <> worst (c_opt C) /\ ~ In (x, Ret v) (w_h w).
Proof.
  intros pi acos. exists (exenv ExMshoa.C3 sq), ExMshoa.p3. cbv zeta.
  split; [exact ExMshoa.ok3|]. split; [apply sq_no_nan|]. split; [exact (clip_ok ExMshoa.C3 sq fl8 in7 ExMshoa.ok3)|]. split; [cbn; lia|]. split; [reflexivity|].
  destruct (run_bad_pair (fun _ => False) (exenv ExMshoa.C3 sq) (mshoa b64ops ExMshoa.C3 pi acos ExMshoa.p3) 9) as [H1 H2]; [vm_compute; reflexivity|]. split; [exact H2|exact H1].
Qed.
(** ... and the rounding of the decoded point can put it outside the bounds (-9.8, 0.9) *)
Theorem C110_inside_refuted : forall pi acos, exists E p, let C := e_cfg E in cfg_ok C /\ no_nan (e_prob E) /\ repair_ok E /\ 0 < ms_n p /\ ms_norm p = true /\ ms_refl p = true /\
  exists r w ev a, run_body E (mshoa b64ops C pi acos p) (fun _ => None) 9 (World (task_init C) [] 0) = (r, w, ev) /\ In a (w_h w) /\ ~ inside C (fst a).
Proof.
  intros pi acos. exists ExMshoa.E4, (MSPar 1 (q 3 8) true true). cbv zeta.
  split; [exact ExMshoa.ok4|]. split; [apply sq_no_nan|]. split; [exact (clip_ok ExMshoa.C4 sq _ in7 ExMshoa.ok4)|]. split; [cbn; lia|]. split; [reflexivity|]. split; [reflexivity|].
  destruct (run_outside (fun _ => False) ExMshoa.E4 (mshoa b64ops ExMshoa.C4 pi acos (MSPar 1 (q 3 8) true true)) 9) as [H1 _]; [vm_compute; reflexivity|]. exact H1.
Qed.

Print Assumptions C109_sound.
Print Assumptions C109_best.
Print Assumptions C109_room_refuted.
Print Assumptions C109_noisy_refuted.
Print Assumptions C110_init.
Print Assumptions C110_pair_refuted.
Print Assumptions C110_inside_refuted.
Print Assumptions C111_bounce.
Print Assumptions C111_inside.
Print Assumptions C111_fixed.
Print Assumptions C112_types.
Print Assumptions C112_eq5.
Print Assumptions C113_step.
Print Assumptions C113_init.
Print Assumptions C113_ends.
