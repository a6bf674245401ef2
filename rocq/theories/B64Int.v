(** int(random() * n) < n in binary64 arithmetic (flooring scaled draws, pso.py:1071, abc.py:174-175). *)
From Coq Require Import ZArith Lia Bool List Reals Lra SpecFloat.
From Flocq Require Import Core IEEE754.BinarySingleNaN.
From Verif Require Import Num Task Prog Fops Repair StepSpec AlgPSOProofs B64 B64Spec.
Import ListNotations.

Local Existing Instances B64Spec.prec_gt_0_53 B64Spec.prec_lt_emax_53.
Local Notation fmt := (FLT_exp (-1074) 53).
Local Existing Instance B64Spec.valid_fmt.

Lemma div_equiv : forall x y, SFdiv 53 1024 (B2SF x) (B2SF y) = B2SF (Bdiv (prec := 53) (emax := 1024) mode_NE x y).
Proof.
  intros x y. case x as [sx|sx| |sx mx ex Bx]; case y as [sy|sy| |sy my ey By]; simpl; try reflexivity.
  rewrite B2SF_SF2B. destruct (SFdiv_core_binary _ _ _ _ _ _) as [[mz ez] lz]. apply round_aux_equiv.
Qed.
Local Notation normalize := (binary_normalize 53 1024 B64Spec.prec_gt_0_53 B64Spec.prec_lt_emax_53 mode_NE).
Lemma int_fmt : forall n, (Z.abs n <= 2 ^ 53)%Z -> generic_format radix2 fmt (IZR n).
Proof.
  intros n H. destruct (Z.eq_dec (Z.abs n) (2 ^ 53)) as [E|E].
  - assert (G : generic_format radix2 fmt (bpow radix2 53)) by (apply generic_format_bpow; unfold FLT_exp; simpl; lia).
    assert (E2 : IZR (2 ^ 53) = bpow radix2 53) by (change 2%Z with (radix_val radix2); apply IZR_Zpower; lia).
    destruct (Z.abs_eq_or_opp n) as [Q|Q].
    + replace n with (2 ^ 53)%Z by lia. rewrite E2. auto.
    + replace n with (- (2 ^ 53))%Z by lia. rewrite opp_IZR, E2. apply generic_format_opp. auto.
  - apply generic_format_FLT. exists (Float radix2 n 0); [unfold F2R; simpl; lra|simpl; lia|simpl; lia].
Qed.
Lemma norm_int : forall n, (Z.abs n <= 2 ^ 53)%Z -> is_finite (normalize n 0 false) = true /\ B2R (normalize n 0 false) = IZR n.
Proof.
  intros n H. assert (X := binary_normalize_correct 53 1024 B64Spec.prec_gt_0_53 B64Spec.prec_lt_emax_53 mode_NE n 0 false). cbv zeta in X.
  assert (E : F2R (Float radix2 n 0) = IZR n) by (unfold F2R; simpl; lra). rewrite E in X. change (SpecFloat.fexp 53 1024) with fmt in X.
  rewrite round_generic in X; [|apply valid_rnd_N|apply int_fmt; auto].
  rewrite Rlt_bool_true in X.
  - destruct X as (X1 & X2 & _). auto.
  - rewrite <- abs_IZR. apply Rle_lt_trans with (bpow radix2 53); [|apply bpow_lt; lia].
    rewrite <- (IZR_Zpower radix2) by lia. apply IZR_le. exact H.
Qed.
Lemma val_int : forall n, val (n * 2 ^ 1074) = IZR n.
Proof.
  intros n. unfold val. rewrite mult_IZR. change 2%Z with (radix_val radix2) at 1. rewrite (IZR_Zpower radix2) by lia.
  rewrite Rmult_assoc, <- bpow_plus. replace (1074 + -1074)%Z with 0%Z by lia. simpl. lra.
Qed.
(** the literal n is the binary64 number n *)
Lemma lit_int : forall n, (Z.abs n <= 2 ^ 53)%Z -> b64_lit n 1 = Fin (n * 2 ^ 1074).
Proof.
  intros n H. unfold b64_lit. rewrite !normalize_equiv, div_equiv.
  destruct (norm_int n H) as [F1 E1]. destruct (norm_int 1) as [F2 E2]; [simpl; lia|].
  assert (X := Bdiv_correct 53 1024 B64Spec.prec_gt_0_53 B64Spec.prec_lt_emax_53 mode_NE (normalize n 0 false) (normalize 1 0 false)). rewrite E2 in X.
  assert (NZ : (1 <> 0)%R) by lra. specialize (X NZ). rewrite E1 in X. change (SpecFloat.fexp 53 1024) with fmt in X.
  replace (IZR n / 1)%R with (IZR n) in X by field. rewrite round_generic in X; [|apply valid_rnd_N|apply int_fmt; auto].
  rewrite Rlt_bool_true in X.
  - destruct X as (X1 & X2 & _). rewrite F1 in X2. destruct (of_fin _ X2) as (z & Y1 & Y2).
    rewrite Y1. f_equal. apply val_inj. rewrite val_int. congruence.
  - rewrite <- abs_IZR. apply Rle_lt_trans with (bpow radix2 53); [|apply bpow_lt; lia].
    rewrite <- (IZR_Zpower radix2) by lia. apply IZR_le. exact H.
Qed.

(** the rounded product of an integer n >= 1 and u <= 1 - 2^-53 stays below n *)
Lemma scaled_lt : forall x u, generic_format radix2 fmt x -> (1 <= x)%R -> (u <= 1 - bpow radix2 (-53))%R -> (rnd64 (x * u) < x)%R.
Proof.
  intros x u Fx Hx Hu. assert (Vf := FLT_exp_valid (-1074) 53). set (p := pred radix2 fmt x).
  assert (E53 : (0 < bpow radix2 (-53))%R) by apply bpow_gt_0.
  assert (Fp : generic_format radix2 fmt p) by (apply generic_format_pred; auto).
  assert (Pl : (p < x)%R) by (apply pred_lt_id; lra).
  apply Rle_lt_trans with p; auto. apply round_N_le_midp; auto. unfold p at 2. rewrite succ_pred by auto.
  assert (M : (x * u <= x * (1 - bpow radix2 (-53)))%R) by (apply Rmult_le_compat_l; lra).
  assert (U1 : (ulp radix2 fmt x <= x * bpow radix2 (1 - 53))%R).
  { rewrite <- (Rabs_pos_eq x) at 2 by lra. apply ulp_FLT_le; try reflexivity. rewrite Rabs_pos_eq by lra. apply Rle_trans with 1%R; auto.
    change 1%R with (bpow radix2 0). apply bpow_le. lia. }
  replace (1 - 53)%Z with (1 + -53)%Z in U1 by lia. rewrite bpow_plus in U1. change (bpow radix2 1) with 2%R in U1.
  assert (D : (x - p < x * (2 * bpow radix2 (-53)))%R).
  { unfold p. rewrite pred_eq_pos by lra. unfold pred_pos. destruct (Req_bool_spec x (bpow radix2 (mag radix2 x - 1))) as [Q|Q].
    - remember (mag radix2 x - 1)%Z as e. assert (He : (0 <= e)%Z).
      { destruct (Z_lt_le_dec e 0) as [L|L]; auto. exfalso. assert (bpow radix2 e < bpow radix2 0)%R by (apply bpow_lt; auto). simpl in H. lra. }
      assert (Ef : fmt e = (e - 53)%Z) by (unfold FLT_exp; lia). rewrite Ef. replace (e - 53)%Z with (e + -53)%Z by lia. rewrite bpow_plus, <- Q. assert (0 < x * bpow radix2 (-53))%R by (apply Rmult_lt_0_compat; lra). lra.
    - assert (ulp radix2 fmt x < x * (2 * bpow radix2 (-53)))%R; [|lra]. apply Rle_lt_or_eq_dec in U1. destruct U1 as [U1|U1]; auto. exfalso. apply Q.
      rewrite ulp_neq_0 in U1 by lra. unfold cexp in U1. set (m := (mag radix2 x : Z)) in *.
      assert (Hm : (1 <= m)%Z).
      { unfold m. apply mag_ge_bpow. rewrite Rabs_pos_eq by lra. simpl. lra. }
      assert (Ef : fmt m = (m - 53)%Z) by (unfold FLT_exp; lia). rewrite Ef in U1.
      replace (m - 53)%Z with ((m - 1) + (1 + -53))%Z in U1 by lia. rewrite bpow_plus in U1. rewrite (bpow_plus radix2 1) in U1. change (bpow radix2 1) with 2%R in U1.
      apply Rmult_eq_reg_r in U1; lra. }
  lra.
Qed.

Theorem idx_ok_64 : forall n, 0 < n -> (Z.of_nat n <= 2 ^ 53)%Z -> idx_ok b64ops n.
Proof.
  intros n Hn Hb r [U1 U2]. unfold fnat. cbn [flit b64ops]. rewrite lit_int by lia. set (N := Z.of_nat n) in *.
  destruct r as [| |u|]; try discriminate.
  unfold f0 in U1. apply fleb_val in U1. rewrite val_0 in U1. unfold rtop, dbl in U2. apply fleb_val in U2.
  assert (Et : val ((2 ^ 53 - 1) * 2 ^ (1074 + -53)) = (1 - bpow radix2 (-53))%R).
  { unfold val. rewrite mult_IZR, minus_IZR. change 2%Z with (radix_val radix2). rewrite !(IZR_Zpower radix2) by lia.
    rewrite Rmult_assoc, <- bpow_plus. replace (1074 + -53 + -1074)%Z with (-53)%Z by lia. rewrite Rmult_minus_distr_r, <- bpow_plus.
    replace (53 + -53)%Z with 0%Z by lia. change (bpow radix2 0) with 1%R. lra. }
  assert (Ft : generic_format radix2 fmt (1 - bpow radix2 (-53))).
  { rewrite <- Et. apply generic_format_FLT. exists (Float radix2 (2 ^ 53 - 1) (-53)); [|simpl; lia|simpl; lia].
    rewrite Et. unfold F2R. cbn [Fnum Fexp]. rewrite minus_IZR. change 2%Z with (radix_val radix2). rewrite (IZR_Zpower radix2) by lia.
    rewrite Rmult_minus_distr_r, <- bpow_plus. replace (53 + -53)%Z with 0%Z by lia. change (bpow radix2 0) with 1%R. lra. }
  rewrite Et in U2. clear Et. assert (E53 : (0 < bpow radix2 (-53))%R) by apply bpow_gt_0.
  set (v := rnd64 (val u)).
  assert (V1 : (0 <= v)%R) by (unfold v; rewrite <- rnd64_0; apply rnd64_le; auto).
  assert (V2 : (v <= 1 - bpow radix2 (-53))%R) by (unfold v; rewrite <- (rnd64_id (1 - _)) by auto; apply rnd64_le; auto).
  assert (B1024 : (1 < bpow radix2 1024)%R) by (change 1%R with (bpow radix2 0); apply bpow_lt; lia).
  assert (FN : generic_format radix2 fmt (IZR N)) by (apply int_fmt; lia).
  assert (N1 : (1 <= IZR N)%R) by (apply IZR_le; lia).
  assert (BN : (IZR N < bpow radix2 1024)%R).
  { apply Rle_lt_trans with (bpow radix2 53); [|apply bpow_lt; lia]. rewrite <- (IZR_Zpower radix2) by lia. apply IZR_le. exact Hb. }
  assert (D2 : is64 (Fin (N * 2 ^ 1074))) by (apply is64_intro; rewrite val_int; auto; rewrite Rabs_pos_eq by lra; auto).
  assert (M0 : (0 <= rnd64 (IZR N * v))%R) by (rewrite <- rnd64_0; apply rnd64_le; apply Rmult_le_pos; lra).
  assert (M1 : (rnd64 (IZR N * v) < IZR N)%R) by (apply scaled_lt; auto).
  destruct (mul64_r (N * 2 ^ 1074) u D2) as (m & E1 & E1' & E2 & E3); [fold v; rewrite Rabs_pos_eq; lra|rewrite val_int; fold v; rewrite Rabs_pos_eq; lra|].
  rewrite val_int in E3. fold v in E3. rewrite E1, E1'.
  assert (G : (0 <= fint b64ops (Fin m) < N)%Z); [|auto].
  cbn [fint b64ops]. assert (P : (0 < 2 ^ 1074)%Z) by (apply Z.pow_pos_nonneg; lia).
  assert (m0 : (0 <= m)%Z) by (apply val_le; rewrite val_0, E3; auto).
  assert (m1 : (m < N * 2 ^ 1074)%Z) by (apply val_lt; rewrite val_int, E3; auto).
  rewrite Z.quot_div_nonneg by lia. split; [apply Z.div_pos; lia|]. apply Z.div_lt_upper_bound; lia.
Qed.

(** int(r * n) and int(n * r) for a share r in [0, 1] lie between 0 and n *)
Definition share_ok (F : fops) (n : nat) (r : num) : Prop :=
  (0 <= fint F (fmul F (fnat F n) r) <= Z.of_nat n)%Z /\ (0 <= fint F (fmul F r (fnat F n)) <= Z.of_nat n)%Z.
Theorem share_ok_64 : forall n r, (Z.of_nat n <= 2 ^ 53)%Z -> fleb f0 r = true -> fleb r (Fin (2 ^ 1074)) = true -> share_ok b64ops n r.
Proof.
  intros n r Hb U1 U2. unfold share_ok, fnat. cbn [flit b64ops]. rewrite lit_int by lia. set (N := Z.of_nat n) in *.
  destruct r as [| |u|]; try discriminate.
  unfold f0 in U1. apply fleb_val in U1. rewrite val_0 in U1. apply fleb_val in U2.
  assert (Et : val (2 ^ 1074) = 1%R) by (replace (2 ^ 1074)%Z with (1 * 2 ^ 1074)%Z by ring; apply val_int). rewrite Et in U2. clear Et.
  assert (F1 : generic_format radix2 fmt 1) by (apply (int_fmt 1); simpl; lia).
  set (v := rnd64 (val u)).
  assert (V1 : (0 <= v)%R) by (unfold v; rewrite <- rnd64_0; apply rnd64_le; auto).
  assert (V2 : (v <= 1)%R) by (unfold v; rewrite <- (rnd64_id 1) by auto; apply rnd64_le; auto).
  assert (B1024 : (1 < bpow radix2 1024)%R) by (change 1%R with (bpow radix2 0); apply bpow_lt; lia).
  assert (FN : generic_format radix2 fmt (IZR N)) by (apply int_fmt; lia).
  assert (N0 : (0 <= IZR N)%R) by (apply IZR_le; lia).
  assert (BN : (IZR N < bpow radix2 1024)%R).
  { apply Rle_lt_trans with (bpow radix2 53); [|apply bpow_lt; lia]. rewrite <- (IZR_Zpower radix2) by lia. apply IZR_le. exact Hb. }
  assert (D2 : is64 (Fin (N * 2 ^ 1074))) by (apply is64_intro; rewrite val_int; auto; rewrite Rabs_pos_eq by lra; auto).
  assert (M0 : (0 <= rnd64 (IZR N * v))%R) by (rewrite <- rnd64_0; apply rnd64_le; apply Rmult_le_pos; lra).
  assert (M1 : (rnd64 (IZR N * v) <= IZR N)%R).
  { rewrite <- (rnd64_id (IZR N)) at 2 by auto. apply rnd64_le. rewrite <- (Rmult_1_r (IZR N)) at 2. apply Rmult_le_compat_l; lra. }
  destruct (mul64_r (N * 2 ^ 1074) u D2) as (m & E1 & E1' & E2 & E3); [fold v; rewrite Rabs_pos_eq; lra|rewrite val_int; fold v; rewrite Rabs_pos_eq; lra|].
  rewrite val_int in E3. fold v in E3. rewrite E1, E1'.
  assert (G : (0 <= fint b64ops (Fin m) <= N)%Z); [|auto].
  cbn [fint b64ops]. assert (P : (0 < 2 ^ 1074)%Z) by (apply Z.pow_pos_nonneg; lia).
  assert (m0 : (0 <= m)%Z) by (apply val_le; rewrite val_0, E3; auto).
  assert (m1 : (m <= N * 2 ^ 1074)%Z) by (apply val_le; rewrite val_int, E3; auto).
  rewrite Z.quot_div_nonneg by lia. split; [apply Z.div_pos; lia|]. apply Z.div_le_upper_bound; lia.
Qed.
