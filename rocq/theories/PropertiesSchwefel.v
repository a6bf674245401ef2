(** C139: the documented minima of Schwefel, ModifiedSchwefel and (in two dimensions) Michalewicz, up to the rounding of the documented numbers. *)
From Coq Require Import Reals ZArith List Bool Arith Lra Lia Machin.
From Verif Require Import Bench BenchLib PropertiesFormula PropertiesFormula2 PropertiesMinima.
Import ListNotations.
Open Scope R_scope.

(** ** x sin(sqrt x) has the height of the wave at 13 pi / 2 *)
Lemma PI_digits : 3.14159265 <= PI <= 3.14159266.
Proof. assert (H := PI_2_3_7_ineq 5). unfold PI_2_3_7_tg, Ratan_seq, tg_alt in H. simpl in H. lra. Qed.
Lemma sin_13 : forall u, sin (13 / 2 * PI + u) = cos u.
Proof. intros u. rewrite cos_sin. replace (13 / 2 * PI + u) with (PI / 2 + u + 2 * INR 3 * PI) by (simpl; field). apply sin_period. Qed.
Lemma cos_upper : forall u, 0 <= u <= 2 -> cos u <= 1 - u ^ 2 / 2 + u ^ 4 / 24.
Proof.
  intros u Hu. assert (H := proj2 (pre_cos_bound u 0 ltac:(lra) ltac:(lra))). unfold cos_approx, cos_term in H. cbn [Nat.mul Nat.add sum_f_R0] in H.
  replace (INR (fact 0)) with 1 in H by reflexivity. replace (INR (fact 2)) with 2 in H by reflexivity. replace (INR (fact 4)) with 24 in H by (cbn; lra). lra.
Qed.
Lemma cos_lower : forall u, 0 <= u <= 2 -> 1 - u ^ 2 / 2 + u ^ 4 / 24 - u ^ 6 / 720 <= cos u.
Proof.
  intros u Hu. assert (H := proj1 (pre_cos_bound u 1 ltac:(lra) ltac:(lra))). unfold cos_approx, cos_term in H. cbn [Nat.mul Nat.add sum_f_R0] in H.
  replace (INR (fact 0)) with 1 in H by reflexivity. replace (INR (fact 2)) with 2 in H by reflexivity. replace (INR (fact 4)) with 24 in H by (cbn; lra). replace (INR (fact 6)) with 720 in H by (cbn; lra). lra.
Qed.
Lemma wave_poly : forall u, 0 <= u <= 2 -> (20.4203523 + u) ^ 2 * (1 - u ^ 2 / 2 + u ^ 4 / 24) <= 418.983.
Proof.
  intros u Hu.
  assert (E : 418.983 - (20.4203523 + u) ^ 2 * (1 - u ^ 2 / 2 + u ^ 4 / 24) = (u - 0.097171) ^ 2 * ((506351187871629679551299154793 / 2400000000000000000000000000) + (20511059336712869332051 / 1200000000000000000000) * u ^ 1 + (- (13765205962640383 / 800000000000000)) * u ^ 2 + (- (205175233 / 120000000)) * u ^ 3 + (- (1 / 24)) * u ^ 4) + ((237838117602347788931694852974715887 / 2400000000000000000000000000000000000000) + (709196503510555134316213611 / 6250000000000000000000000000000) * u)) by lra.
  assert (H1 : 0 <= u ^ 2 <= 4) by nra. assert (H2 : 0 <= u ^ 3 <= 8) by (replace (u ^ 3) with (u * u ^ 2) by ring; nra). assert (H3 : 0 <= u ^ 4 <= 16) by (replace (u ^ 4) with (u ^ 2 * u ^ 2) by ring; nra).
  assert (Q : 0 <= (506351187871629679551299154793 / 2400000000000000000000000000) + (20511059336712869332051 / 1200000000000000000000) * u ^ 1 + (- (13765205962640383 / 800000000000000)) * u ^ 2 + (- (205175233 / 120000000)) * u ^ 3 + (- (1 / 24)) * u ^ 4) by lra.
  assert (S := pow2_nonneg (u - 0.097171)). assert (T := Rmult_le_pos _ _ S Q). lra.
Qed.
(** for 0 <= a <= 530: a sin(sqrt a) <= 418.983 *)
Lemma wave : forall a, 0 <= a <= 530 -> a * sin (sqrt a) <= 418.983.
Proof.
  intros a Ha. set (t := sqrt a). assert (T2 : t * t = a) by (apply sqrt_sqrt; lra). assert (T0 : 0 <= t) by apply sqrt_pos.
  assert (P := PI_digits). set (u := t - 13 / 2 * PI). assert (Et : t = 13 / 2 * PI + u) by (unfold u; ring). assert (Tm : t <= 23.03) by nra.
  destruct (Rle_dec u 0) as [N|N].
  { assert (B := SIN_bound t). assert (a <= 417); [|nra]. assert (t <= 20.4203523) by lra. nra. }
  rewrite Et at 1. rewrite sin_13. destruct (Rle_dec u 2) as [L|L].
  - assert (U := cos_upper u ltac:(lra)). assert (W := wave_poly u ltac:(lra)). set (c := 1 - u ^ 2 / 2 + u ^ 4 / 24) in *.
    assert (A : a * cos u <= a * c) by (apply Rmult_le_compat_l; lra). destruct (Rle_dec 0 c) as [Hc|Hc]; [|nra].
    assert (A2 : a <= (20.4203523 + u) ^ 2). { rewrite <- T2. assert (t <= 20.4203523 + u) by lra. nra. }
    assert (A3 : a * c <= (20.4203523 + u) ^ 2 * c) by (apply Rmult_le_compat_r; auto). lra.
  - assert (cos u <= 0) by (apply cos_le_0; lra). nra.
Qed.
(** and below 0 *)
Lemma wave_neg : forall a, -500 <= a <= 0 -> a * sin (sqrt (Rabs a)) <= 418.
Proof.
  intros a Ha. rewrite Rabs_left1 by lra. set (b := - a). assert (Hb : 0 <= b <= 500) by (unfold b; lra). replace a with (- b) by (unfold b; ring).
  set (t := sqrt b). assert (T2 : t * t = b) by (apply sqrt_sqrt; lra). assert (T0 : 0 <= t) by apply sqrt_pos. assert (B := SIN_bound t). assert (P := PI_digits).
  destruct (Rle_dec b 418) as [S|S]; [nra|]. assert (T1 : 20.4 <= t) by nra. assert (Tm : t <= 22.37) by nra.
  assert (Es : sin t = sin (t - 6 * PI)). { rewrite <- (sin_period (t - 6 * PI) 3). f_equal. simpl. ring. }
  destruct (Rle_dec (t - 6 * PI) PI) as [L|L].
  - assert (0 <= sin t) by (rewrite Es; apply sin_ge_0; lra). nra.
  - set (w := t - 7 * PI). assert (E7 : sin t = - sin w). { rewrite Es. replace (t - 6 * PI) with (w + PI) by (unfold w; ring). apply neg_sin. }
    assert (Hw : 0 < w <= 0.4) by (unfold w; lra). assert (sin w < w) by (apply sin_lt_x; lra). assert (0 <= sin w) by (apply sin_ge_0; lra). rewrite E7. nra.
Qed.
(** a point where it is attained up to rounding *)
Lemma wave_top : forall a, 420.9687 <= a <= 420.9688 -> 418.9828 <= a * sin (sqrt a).
Proof.
  intros a Ha. set (t := sqrt a). assert (T2 : t * t = a) by (apply sqrt_sqrt; lra). assert (T0 : 0 <= t) by apply sqrt_pos.
  assert (P := PI_digits). set (u := t - 13 / 2 * PI). assert (Et : t = 13 / 2 * PI + u) by (unfold u; ring).
  assert (Tl : 20.51752 <= t) by nra. assert (Tm : t <= 20.517525) by nra.
  assert (Hu : 0.0971676 <= u <= 0.0971728) by (unfold u; lra). rewrite Et. rewrite sin_13. assert (L := cos_lower u ltac:(lra)).
  assert (H2 : 0 <= u ^ 2 <= 0.00944256) by nra. assert (H4 : 0.00008914 <= u ^ 4) by (replace (u ^ 4) with (u ^ 2 * u ^ 2) by ring; nra).
  assert (H6 : u ^ 6 <= 0.000001) by (replace (u ^ 6) with (u ^ 2 * u ^ 2 * u ^ 2) by ring; assert (u ^ 2 * u ^ 2 <= 0.0001) by nra; nra).
  nra.
Qed.

(** schwefel.py:14-71: the minimum in [-500, 500]^d is 0 at (420.968746, ..., 420.968746) *)
Theorem C139_schwefel : forall d,
  (forall x, length x = d -> Forall (fun a => -500 <= a <= 500) x -> - 0.00012 * INR d <= schwefel x) /\
  Rabs (schwefel (repeat 420.968746 d)) <= 0.00012 * INR d.
Proof.
  intros d. assert (Hd := pos_INR d). split.
  - intros x Hx Hb. rewrite C73_schwefel, Hx.
    assert (H : Sum d (fun i => x#i * sin (sqrt (Rabs x#i))) <= Sum d (fun _ => 418.983)).
    { apply Sum_le. intros i Hi. assert (B : -500 <= x#i <= 500). { apply (proj1 (Forall_forall _ _) Hb). unfold comp. apply nth_In. lia. }
      destruct (Rle_dec 0 x#i) as [N|N]; [rewrite Rabs_pos_eq by auto; apply wave; lra|]. assert (W := wave_neg x#i ltac:(lra)). lra. }
    rewrite Sum_const in H. nra.
  - rewrite C73_schwefel, repeat_length. rewrite (Sum_ext d _ (fun _ => 420.968746 * sin (sqrt 420.968746))) by (intros i Hi; rewrite comp_repeat by lia; rewrite Rabs_pos_eq by lra; reflexivity).
    rewrite Sum_const. assert (W := wave 420.968746 ltac:(lra)). assert (W' := wave_top 420.968746 ltac:(lra)). set (v := 420.968746 * sin (sqrt 420.968746)) in *. apply Rabs_le. nra.
Qed.
(** schwefel.py:204-271: the minimum in [-100, 100]^d is 0, at (0, ..., 0) *)
Theorem C139_modified_schwefel : forall d,
  (forall x, length x = d -> Forall (fun a => -100 <= a <= 100) x -> - 0.0001 * INR d <= modified_schwefel x) /\
  Rabs (modified_schwefel (repeat 0 d)) <= 0.0001 * INR d.
Proof.
  intros d. assert (Hd := pos_INR d).
  assert (V : forall x, length x = d -> Forall (fun a => -100 <= a <= 100) x -> modified_schwefel x = 418.9829 * INR d - Sum d (fun i => (x#i + 420.9687462275036) * sin (sqrt (x#i + 420.9687462275036)))).
  { intros x Hx Hb. rewrite C73_modified_schwefel_actual. cbv zeta. rewrite Hx. apply f_equal. apply Sum_ext. intros i Hi.
    assert (B : -100 <= x#i <= 100). { apply (proj1 (Forall_forall _ _) Hb). unfold comp. apply nth_In. lia. }
    destruct (Rlt_dec 500 x#i); [lra|]. destruct (Rlt_dec x#i (-500)); [lra|]. rewrite Rabs_pos_eq by lra. reflexivity. }
  split.
  - intros x Hx Hb. rewrite V by auto. assert (H : Sum d (fun i => (x#i + 420.9687462275036) * sin (sqrt (x#i + 420.9687462275036))) <= Sum d (fun _ => 418.983)).
    { apply Sum_le. intros i Hi. assert (B : -100 <= x#i <= 100). { apply (proj1 (Forall_forall _ _) Hb). unfold comp. apply nth_In. lia. } apply wave. lra. }
    rewrite Sum_const in H. nra.
  - rewrite V; [|apply repeat_length|apply Forall_repeat; lra].
    rewrite (Sum_ext d _ (fun _ => 420.9687462275036 * sin (sqrt 420.9687462275036))) by (intros i Hi; rewrite comp_repeat by lia; rewrite Rplus_0_l; reflexivity).
    rewrite Sum_const. assert (W := wave 420.9687462275036 ltac:(lra)). assert (W' := wave_top 420.9687462275036 ltac:(lra)). set (v := 420.9687462275036 * sin (sqrt 420.9687462275036)) in *. apply Rabs_le. nra.
Qed.
(** the documented place of the minimum is outside the box, and the value there is far from 0 *)
Theorem C139_modified_schwefel_refuted : forall d, (0 < d)%nat ->
  ~ Forall (fun a => -100 <= a <= 100) (repeat 420.968746 d) /\ 418.9829 * INR d <= modified_schwefel (repeat 420.968746 d).
Proof.
  intros d Hd. split.
  - destruct d; [lia|]. intros H. inversion H as [|? ? H1 _]. lra.
  - rewrite C73_modified_schwefel_actual. cbv zeta. rewrite repeat_length. match goal with |- _ <= _ - Sum _ ?f => assert (H : Sum d f <= Sum d (fun _ => 0)) end.
    { apply Sum_le. intros i Hi. rewrite comp_repeat by lia. destruct (Rlt_dec 500 420.968746); [lra|]. destruct (Rlt_dec 420.968746 (-500)); [lra|].
      replace (420.968746 + 420.9687462275036) with 841.9374922275036 by lra. rewrite Rabs_pos_eq by lra. set (t := sqrt 841.9374922275036).
      assert (T2 : t * t = 841.9374922275036) by (apply sqrt_sqrt; lra). assert (T0 : 0 <= t) by apply sqrt_pos. assert (T1 : 29 <= t <= 29.1) by nra. assert (P := PI_digits).
      assert (E : sin t = sin (t - 8 * PI)). { rewrite <- (sin_period (t - 8 * PI) 4). f_equal. simpl. ring. }
      assert (sin t <= 0) by (rewrite E; apply sin_le_0; lra). lra. }
    rewrite Sum_const in H. lra.
Qed.

(** ** sin x sin(x^2/pi)^20 *)
Lemma cos_upper8 : forall u, 0 <= u <= 2 -> cos u <= 1 - u ^ 2 / 2 + u ^ 4 / 24 - u ^ 6 / 720 + u ^ 8 / 40320.
Proof.
  intros u Hu. assert (H := proj2 (pre_cos_bound u 1 ltac:(lra) ltac:(lra))). unfold cos_approx, cos_term in H. cbn [Nat.mul Nat.add sum_f_R0] in H.
  replace (INR (fact 0)) with 1 in H by reflexivity. replace (INR (fact 2)) with 2 in H by reflexivity. replace (INR (fact 4)) with 24 in H by (cbn; lra). replace (INR (fact 6)) with 720 in H by (cbn; lra).
  replace (INR (fact 8)) with 40320 in H by (rewrite INR_IZR_INZ; reflexivity). lra.
Qed.
Lemma sin_lower : forall u, 0 <= u <= 2 -> u - u ^ 3 / 6 <= sin u.
Proof.
  intros u Hu. assert (H := proj1 (pre_sin_bound u 0 ltac:(lra) ltac:(lra))). unfold sin_approx, sin_term in H. cbn [Nat.mul Nat.add sum_f_R0] in H.
  replace (INR (fact 1)) with 1 in H by reflexivity. replace (INR (fact 3)) with 6 in H by (cbn; lra). lra.
Qed.
Lemma bernoulli : forall n y, 0 <= y -> 1 + INR n * y <= (1 + y) ^ n.
Proof. intros n y Hy. induction n as [|n IH]; [simpl; lra|]. rewrite S_INR. cbn [pow]. assert (0 <= INR n) by apply pos_INR. nra. Qed.
Lemma bernoulli_neg : forall n y, 0 <= y <= 1 -> 1 - INR n * y <= (1 - y) ^ n.
Proof.
  intros n y Hy. induction n as [|n IH]; [simpl; lra|]. rewrite S_INR. cbn [pow]. assert (0 <= INR n) by apply pos_INR. assert (0 <= INR n * y) by (apply Rmult_le_pos; lra). nra.
Qed.
Lemma pow_01 : forall n y, 0 <= y <= 1 -> 0 <= y ^ n <= 1.
Proof. intros n y Hy. induction n as [|n IH]; cbn [pow]; [lra|]. nra. Qed.
Lemma pow10_bound : forall y, 0 <= y <= 1 -> (1 - y) ^ 10 * (1 + 10 * y) <= 1.
Proof.
  intros y Hy. assert (B := bernoulli 10 y (proj1 Hy)). replace (INR 10) with 10 in B by (cbn; lra). assert (P := pow_01 10 (1 - y) ltac:(lra)).
  assert (A : (1 - y) ^ 10 * (1 + 10 * y) <= (1 - y) ^ 10 * (1 + y) ^ 10) by (apply Rmult_le_compat_l; lra).
  rewrite <- Rpow_mult_distr in A. assert (P2 := pow_01 10 ((1 - y) * (1 + y)) ltac:(nra)). lra.
Qed.
(** the power falls at least like this *)
Lemma crest : forall v, sin v ^ 20 * (1 + 10 * sin (PI / 2 - v) ^ 2) <= 1.
Proof.
  intros v. rewrite <- cos_shift. rewrite cos_shift. assert (E := sin2_cos2 (PI / 2 - v)). unfold Rsqr in E. rewrite cos_shift in E. set (c := sin (PI / 2 - v)) in *.
  replace (sin v ^ 20) with ((1 - c ^ 2) ^ 10); [apply pow10_bound; nra|]. replace (1 - c ^ 2) with (sin v ^ 2) by nra. rewrite <- pow_mult. reflexivity.
Qed.
Lemma even20 : forall s, -1 <= s <= 1 -> 0 <= s ^ 20 <= 1.
Proof. intros s Hs. replace 20%nat with (2 * 10)%nat by reflexivity. rewrite pow_mult. apply pow_01. nra. Qed.
Lemma sin_upper : forall u, 0 <= u <= 2 -> sin u <= u - u ^ 3 / 6 + u ^ 5 / 120.
Proof.
  intros u Hu. assert (H := proj2 (pre_sin_bound u 0 ltac:(lra) ltac:(lra))). unfold sin_approx, sin_term in H. cbn [Nat.mul Nat.add sum_f_R0] in H.
  replace (INR (fact 1)) with 1 in H by reflexivity. replace (INR (fact 3)) with 6 in H by (cbn; lra). replace (INR (fact 5)) with 120 in H by (cbn; lra). lra.
Qed.
(** next to the maximum the cosine is compared with its tangent *)
Lemma tangent : forall z, 0.5291 <= z <= 0.6415 -> let W := 0.785398 - z - 0.31831 * z ^ 2 in cos z <= 0.8015 * (1 + 10 * (W ^ 2 - W ^ 4 / 3)).
Proof.
  intros z Hz W. set (e := z - 0.632). assert (He : -0.103 <= e <= 0.0095) by (unfold e; lra). assert (Ez : z = 0.632 + e) by (unfold e; ring).
  assert (EW : W = 0.785398 - 0.632 - 0.31831 * 0.399424 - (1 + 0.31831 * 1.264) * e - 0.31831 * e ^ 2) by (unfold W; rewrite Ez; lra). clearbody W.
  assert (C0 := cos_upper8 0.632 ltac:(lra)). assert (C1 : cos 0.632 <= 0.80686) by lra. assert (C2 : 0 <= cos 0.632) by (apply cos_ge_0; assert (P := PI_digits); lra). clear C0.
  assert (S0 := sin_upper 0.632 ltac:(lra)). assert (S1 : sin 0.632 <= 0.5909) by lra. clear S0. assert (S0 := sin_lower 0.632 ltac:(lra)). assert (S2 : 0.5899 <= sin 0.632) by lra. clear S0.
  assert (Q : 0.8015 + 7.934 * W ^ 2 <= 0.8015 * (1 + 10 * (W ^ 2 - W ^ 4 / 3))).
  { assert (B : -0.17 <= W <= 0.17) by nra. assert (W2 : 0 <= W ^ 2 <= 0.0289) by nra. replace (W ^ 4) with (W ^ 2 * W ^ 2) by ring. nra. }
  apply Rle_trans with (2 := Q). clear Q. rewrite Ez, cos_plus. assert (Ce := COS_bound e). assert (Ac : cos 0.632 * cos e <= 0.80686) by nra.
  assert (E2 : 0 <= e ^ 2) by apply pow2_nonneg.
  destruct (Rle_dec 0 e) as [N|N].
  - assert (Se := sin_lower e ltac:(lra)). assert (E3 : 0 <= e ^ 3 <= 0.0001 * e) by (replace (e ^ 3) with (e * e ^ 2) by ring; nra). assert (Se2 : 0.9999 * e <= sin e) by lra.
    assert (As : 0.5898 * e <= sin 0.632 * sin e) by nra. assert (WL : 0.026256 - 1.4055 * e <= W) by nra. assert (WL2 : (0.026256 - 1.4055 * e) ^ 2 <= W ^ 2) by (apply pow_incr; lra). lra.
  - assert (Sn : sin (- e) <= - e) by (apply Rlt_le, sin_lt_x; lra). rewrite sin_neg in Sn. assert (Sp : 0 <= sin (- e)) by (apply sin_ge_0; assert (P := PI_digits); lra). rewrite sin_neg in Sp.
    assert (As : 0.5909 * e <= sin 0.632 * sin e) by nra. assert (WL : 0.026256 - 1.3694 * e <= W) by nra. assert (WL2 : (0.026256 - 1.3694 * e) ^ 2 <= W ^ 2) by (apply pow_incr; lra).
    assert (K := pow2_nonneg (e + 0.001)). lra.
Qed.
Lemma first_term : forall x, 0 <= x <= PI -> sin x * sin (x ^ 2 / PI) ^ 20 <= 0.8015.
Proof.
  intros x Hx. assert (P := PI_digits). set (v := x ^ 2 / PI). assert (Hs : 0 <= sin x) by (apply sin_ge_0; lra). assert (Bx := SIN_bound x). assert (Bv := even20 (sin v) (SIN_bound v)).
  assert (Ev : v * PI = x ^ 2) by (unfold v; field; lra).
  destruct (Rle_dec x 0.8) as [A|A]. { destruct (Rle_dec x 0) as [Z|Z]; [replace x with 0 by lra; rewrite sin_0; lra|]. assert (sin x < x) by (apply sin_lt_x; lra). nra. }
  set (z := x - PI / 2). assert (Ec : sin x = cos z). { rewrite cos_sin. f_equal. unfold z. ring. }
  destruct (Rle_dec 2.2122 x) as [B|B].
  { assert (Hz : 0.6414 <= z <= PI) by (unfold z; lra). assert (D : cos z <= cos 0.6414) by (apply cos_decr_1; lra). assert (U := cos_upper8 0.6414 ltac:(lra)). assert (cos 0.6414 <= 0.8015) by lra. nra. }
  assert (K := crest v). set (w := PI / 2 - v) in *.
  destruct (Rle_dec x 2.1) as [L|L].
  { assert (Hv : 0.2 <= v <= 1.40375) by nra. assert (Hw : 0.167 <= w <= PI / 2) by (unfold w; lra). assert (S1 : sin 0.167 <= sin w) by (apply sin_incr_1; lra). assert (S2 := sin_lower 0.167 ltac:(lra)).
    assert (S3 : 0.1662 <= sin w) by lra. assert (S4 : 0.0276 <= sin w ^ 2) by nra. assert (sin v ^ 20 <= 0.8015) by nra. nra. }
  assert (Hz : 0.5291 <= z <= 0.6415) by (unfold z; lra). assert (R := tangent z Hz). cbv zeta in R. set (W := 0.785398 - z - 0.31831 * z ^ 2) in *.
  assert (Ew : w = PI / 4 - z - z ^ 2 * / PI). { unfold w, v. replace x with (PI / 2 + z) by (unfold z; ring). field. lra. }
  assert (IP : / PI <= 0.31831). { apply Rmult_le_reg_l with PI; [lra|]. rewrite Rinv_r by lra. lra. } assert (IP0 : 0 < / PI) by (apply Rinv_0_lt_compat; lra).
  assert (Hz2 : 0.27 <= z ^ 2 <= 0.4116) by nra.
  assert (HW : W <= w) by (rewrite Ew; unfold W; nra). assert (W0 : 0.01 <= W) by (unfold W; nra). assert (w1 : w <= 0.3) by (rewrite Ew; nra).
  assert (S := sin_lower w ltac:(lra)). assert (w0 : 0 <= w - w ^ 3 / 6) by nra.
  assert (S2 : (w - w ^ 3 / 6) ^ 2 <= sin w ^ 2) by (apply pow_incr; lra).
  assert (S3 : w ^ 2 - w ^ 4 / 3 <= sin w ^ 2). { assert (0 <= w ^ 6) by apply pow6_nonneg. replace ((w - w ^ 3 / 6) ^ 2) with (w ^ 2 - w ^ 4 / 3 + w ^ 6 / 36) in S2 by field. lra. }
  assert (S4 : W ^ 2 - W ^ 4 / 3 <= w ^ 2 - w ^ 4 / 3).
  { assert (W ^ 2 <= w ^ 2) by nra. assert (w ^ 2 <= 0.09) by nra. replace (W ^ 4) with (W ^ 2 * W ^ 2) by ring. replace (w ^ 4) with (w ^ 2 * w ^ 2) by ring. nra. }
  rewrite Ec in *. assert (F : cos z <= 0.8015 * (1 + 10 * sin w ^ 2)) by lra.
  assert (G : cos z * sin v ^ 20 <= 0.8015 * (1 + 10 * sin w ^ 2) * sin v ^ 20) by (apply Rmult_le_compat_r; lra). nra.
Qed.
Lemma power_lower : forall v b, 0 <= PI / 2 - v <= b -> b <= 0.1 -> 1 - 10 * b ^ 2 <= sin v ^ 20.
Proof.
  intros v b Hv Hb. rewrite <- (cos_shift v). set (w := PI / 2 - v) in *. assert (C := proj1 (pre_cos_bound w 0 ltac:(lra) ltac:(lra))). unfold cos_approx, cos_term in C. cbn [Nat.mul Nat.add sum_f_R0] in C.
  replace (INR (fact 0)) with 1 in C by reflexivity. replace (INR (fact 2)) with 2 in C by reflexivity. assert (C1 : 1 - w ^ 2 / 2 <= cos w) by lra. assert (w2 : 0 <= w ^ 2 <= b ^ 2) by nra. assert (b ^ 2 <= 0.01) by nra.
  apply Rle_trans with ((1 - w ^ 2 / 2) ^ 20); [|apply pow_incr; lra]. apply Rle_trans with (1 - INR 20 * (w ^ 2 / 2)); [|apply bernoulli_neg; lra].
  replace (INR 20) with 20 by (rewrite INR_IZR_INZ; reflexivity). lra.
Qed.
(** michalewicz.py:28-30: in two dimensions the minimum in [0, pi]^2 is -1.8013 at (2.20, 1.57) *)
Theorem C139_michalewicz : (forall a b, 0 <= a <= PI -> 0 <= b <= PI -> -1.8015 <= michalewicz 10 [a; b]) /\
  -1.8015 <= michalewicz 10 [2.20; 1.57] <= -1.801 /\ 0 <= 2.20 <= PI /\ 0 <= 1.57 <= PI.
Proof.
  assert (V : forall a b, michalewicz 10 [a; b] = - (sin a * sin (a ^ 2 / PI) ^ 20 + sin b * sin (2 * b ^ 2 / PI) ^ 20)).
  { intros a b. unfold michalewicz, rsum, arange. cbn [length Nat.add Nat.sub seq map map2 fold_right Nat.mul INR]. rewrite Rmult_1_l. replace (1 + 1) with 2 by ring. ring. }
  assert (P := PI_digits).
  assert (G : forall a b, 0 <= a <= PI -> 0 <= b <= PI -> -1.8015 <= michalewicz 10 [a; b]).
  { intros a b Ha Hb. rewrite V. assert (F := first_term a Ha). assert (0 <= sin b) by (apply sin_ge_0; lra). assert (B := SIN_bound b). assert (Bv := even20 (sin (2 * b ^ 2 / PI)) (SIN_bound _)). nra. }
  split; [exact G|]. split; [|lra]. split; [apply G; lra|]. rewrite V.
  assert (S1 : 0.80848 <= sin 2.20). { replace 2.20 with (PI / 2 + (2.20 - PI / 2)) by ring. rewrite <- cos_sin. assert (L := cos_lower (2.20 - PI / 2) ltac:(lra)). set (z := 2.20 - PI / 2) in *. assert (Hz : 0.6292 <= z <= 0.62921) by (unfold z; lra).
    assert (z2 : 0.39589 <= z ^ 2 <= 0.395906) by nra. assert (z4 : 0.1567 <= z ^ 4 <= 0.15675) by (replace (z ^ 4) with (z ^ 2 * z ^ 2) by ring; nra). assert (z6 : z ^ 6 <= 0.0621) by (replace (z ^ 6) with (z ^ 2 * z ^ 4) by ring; nra). lra. }
  assert (S2 : 0.99999 <= sin 1.57). { replace 1.57 with (PI / 2 + (1.57 - PI / 2)) by ring. rewrite <- cos_sin. rewrite <- cos_neg. assert (L := cos_lower (- (1.57 - PI / 2)) ltac:(lra)). set (z := - (1.57 - PI / 2)) in *. assert (Hz : 0 <= z <= 0.001) by (unfold z; lra).
    assert (z2 : 0 <= z ^ 2 <= 0.000001) by nra. assert (z4 : 0 <= z ^ 4 <= 0.000001) by (replace (z ^ 4) with (z ^ 2 * z ^ 2) by ring; nra). assert (z6 : z ^ 6 <= 0.000001) by (replace (z ^ 6) with (z ^ 2 * z ^ 4) by ring; nra). lra. }
  assert (T1 : 0.99087 <= sin (2.20 ^ 2 / PI) ^ 20). { assert (E : 2.20 ^ 2 / PI * PI = 2.20 ^ 2) by (field; lra). set (v := 2.20 ^ 2 / PI) in *. assert (Hv : 0 <= PI / 2 - v <= 0.0302) by nra. assert (Q := power_lower v 0.0302 Hv ltac:(lra)). lra. }
  assert (T2 : 0.99995 <= sin (2 * 1.57 ^ 2 / PI) ^ 20). { assert (E : 2 * 1.57 ^ 2 / PI * PI = 2 * 1.57 ^ 2) by (field; lra). set (v := 2 * 1.57 ^ 2 / PI) in *. assert (Hv : 0 <= PI / 2 - v <= 0.002) by nra. assert (Q := power_lower v 0.002 Hv ltac:(lra)). lra. }
  assert (A1 : 0.80848 * 0.99087 <= sin 2.20 * sin (2.20 ^ 2 / PI) ^ 20) by (apply Rmult_le_compat; auto; lra). assert (A2 : 0.99999 * 0.99995 <= sin 1.57 * sin (2 * 1.57 ^ 2 / PI) ^ 20) by (apply Rmult_le_compat; auto; lra). lra.
Qed.

(** a point of the boxes that is not the minimum *)
Example schwefel_zero : Forall (fun a => -500 <= a <= 500) [0; 0] /\ schwefel [0; 0] = 2 * 418.982887272433799807913601398.
Proof. split; [repeat constructor; lra|]. unfold schwefel, rsum. simpl. lra. Qed.

Print Assumptions C139_schwefel.
Print Assumptions C139_modified_schwefel.
Print Assumptions C139_modified_schwefel_refuted.
Print Assumptions C139_michalewicz.
