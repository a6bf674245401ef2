(** What the operations of B64.v compute, in terms of real numbers (Flocq's IEEE 754 theory). *)
From Coq Require Import ZArith Lia Bool List Reals Lra SpecFloat.
From Flocq Require Import Core IEEE754.BinarySingleNaN.
From Verif Require Import Num Task Prog Fops Repair B64.
Import ListNotations.

Local Instance prec_gt_0_53 : Prec_gt_0 53 := eq_refl.
Local Instance prec_lt_emax_53 : Prec_lt_emax 53 1024 := eq_refl.
Local Notation fmt := (FLT_exp (-1074) 53).
Local Instance valid_fmt : Valid_exp fmt := FLT_exp_valid (-1074) 53.
(** rounding to the nearest binary64 (ties to even), without the overflow *)
Definition rnd64 (x : R) : R := round radix2 (FLT_exp (-1074) 53) ZnearestE x.
(** the real number of a finite [num] *)
Definition val (z : Z) : R := (IZR z * bpow radix2 (-1074))%R.
(** [Fin z] is a binary64 number: rounding it to binary64 does not change it *)
Definition is64 (a : num) : Prop := of_sf (to_sf a) = a.

(** ** SpecFloat against Flocq *)
Lemma round_ne_equiv : forall s m l, round_nearest_even m l = choice_mode mode_NE s m l.
Proof. intros s m l. case l; [reflexivity|]. intros c. case c; [ | reflexivity ..]. simpl. unfold Round.cond_incr. case Z.even; reflexivity. Qed.
Lemma round_aux_equiv : forall sx mx ex lx, SpecFloat.binary_round_aux 53 1024 sx mx ex lx = binary_round_aux 53 1024 mode_NE sx mx ex lx.
Proof.
  intros. unfold SpecFloat.binary_round_aux, binary_round_aux. set (m' := shr_fexp _ _ _ _ _). case m'. intros mrs' e'. simpl.
  rewrite (round_ne_equiv sx). reflexivity.
Qed.
Lemma round_equiv : forall s m e, SpecFloat.binary_round 53 1024 s m e = binary_round 53 1024 mode_NE s m e.
Proof. intros. unfold SpecFloat.binary_round, binary_round, shl_align_fexp. set (mez := shl_align _ _ _). case mez. intros. apply round_aux_equiv. Qed.
Local Notation normalize := (binary_normalize 53 1024 prec_gt_0_53 prec_lt_emax_53 mode_NE).
Lemma normalize_equiv : forall m e s, SpecFloat.binary_normalize 53 1024 m e s = B2SF (normalize m e s).
Proof. intros [|p|p] e s; simpl; auto; rewrite B2SF_SF2B; apply round_equiv. Qed.

Definition num2b (a : num) : binary_float 53 1024 :=
  match a with
  | NaN => B754_nan | PInf => B754_infinity false | NInf => B754_infinity true
  | Fin z => normalize z (-1074) false
  end.
Lemma to_sf_eq : forall a, to_sf a = B2SF (num2b a).
Proof. intros [| |z|]; simpl; auto. apply normalize_equiv. Qed.
Lemma add_equiv : forall x y, SFadd 53 1024 (B2SF x) (B2SF y) = B2SF (Bplus (prec := 53) (emax := 1024) mode_NE x y).
Proof.
  intros x y. case x as [sx|sx| |sx mx ex Bx]; case y as [sy|sy| |sy my ey By]; simpl; try reflexivity; try (case Bool.eqb; reflexivity).
  apply normalize_equiv.
Qed.
Lemma sub_equiv : forall x y, SFsub 53 1024 (B2SF x) (B2SF y) = B2SF (Bminus (prec := 53) (emax := 1024) mode_NE x y).
Proof.
  intros x y. case x as [sx|sx| |sx mx ex Bx]; case y as [sy|sy| |sy my ey By]; simpl; try reflexivity; try (case Bool.eqb; reflexivity).
  unfold Zminus. rewrite <- cond_Zopp_negb. apply normalize_equiv.
Qed.
Lemma mul_equiv : forall x y, SFmul 53 1024 (B2SF x) (B2SF y) = B2SF (Bmult (prec := 53) (emax := 1024) mode_NE x y).
Proof.
  intros x y. case x as [sx|sx| |sx mx ex Bx]; case y as [sy|sy| |sy my ey By]; simpl; try reflexivity.
  rewrite B2SF_SF2B. apply round_aux_equiv.
Qed.

(** ** Values *)
Lemma of_fin : forall b : binary_float 53 1024, is_finite b = true -> exists z, of_sf (B2SF b) = Fin z /\ val z = B2R b.
Proof.
  intros [s|s| |s m e Hb] H; try discriminate.
  - exists 0%Z. split; auto. unfold val. simpl. lra.
  - exists ((if s then Z.neg m else Z.pos m) * 2 ^ (e + 1074))%Z. split; auto.
    assert (He : (-1074 <= e)%Z).
    { assert (Hc := Hb). unfold SpecFloat.bounded in Hc. apply andb_true_iff in Hc. destruct Hc as [Hc _]. unfold canonical_mantissa in Hc.
      apply Zeq_bool_eq in Hc. unfold SpecFloat.fexp, SpecFloat.emin in Hc. lia. }
    unfold val, B2R, F2R. cbn [Fnum Fexp]. rewrite mult_IZR. change 2%Z with (radix_val radix2) at 1. rewrite (IZR_Zpower radix2) by lia.
    rewrite Rmult_assoc, <- bpow_plus. replace (e + 1074 + -1074)%Z with e by lia. destruct s; reflexivity.
Qed.
Lemma val_F2R : forall z, val z = F2R (Float radix2 z (-1074)).
Proof. reflexivity. Qed.
Lemma val_inj : forall x y, val x = val y -> x = y.
Proof. intros x y H. unfold val in H. apply Rmult_eq_reg_r in H; [apply eq_IZR; auto|]. apply Rgt_not_eq. apply bpow_gt_0. Qed.
Lemma val_le : forall x y, (x <= y)%Z <-> (val x <= val y)%R.
Proof.
  intros x y. unfold val. split; intros H.
  - apply Rmult_le_compat_r; [apply bpow_ge_0|]. apply IZR_le; auto.
  - apply Rmult_le_reg_r in H; [apply le_IZR; auto|apply bpow_gt_0].
Qed.
Lemma val_lt : forall x y, (x < y)%Z <-> (val x < val y)%R.
Proof.
  intros x y. unfold val. split; intros H.
  - apply Rmult_lt_compat_r; [apply bpow_gt_0|]. apply IZR_lt; auto.
  - apply Rmult_lt_reg_r in H; [apply lt_IZR; auto|apply bpow_gt_0].
Qed.
Lemma val_0 : val 0 = 0%R.
Proof. unfold val. lra. Qed.
Lemma fleb_val : forall x y, fleb (Fin x) (Fin y) = true <-> (val x <= val y)%R.
Proof. intros. cbn [fleb]. rewrite Z.leb_le. apply val_le. Qed.
Lemma fltb_val : forall x y, fltb (Fin x) (Fin y) = true <-> (val x < val y)%R.
Proof. intros. cbn [fltb]. rewrite Z.ltb_lt. apply val_lt. Qed.

(** a finite binary64 *)
Lemma is64_fin : forall z, is64 (Fin z) -> is_finite (num2b (Fin z)) = true /\ B2R (num2b (Fin z)) = val z.
Proof.
  intros z H. unfold is64 in H. rewrite to_sf_eq in H. destruct (is_finite (num2b (Fin z))) eqn:Q.
  - destruct (of_fin _ Q) as (z' & H1 & H2). rewrite H1 in H. injection H as ->. auto.
  - destruct (num2b (Fin z)) as [s|[]| |s m e Hb]; simpl in *; discriminate.
Qed.
Lemma is64_fmt : forall z, is64 (Fin z) -> generic_format radix2 fmt (val z).
Proof. intros z H. destruct (is64_fin z H) as [_ <-]. apply generic_format_B2R. Qed.
Lemma is64_bnd : forall z, is64 (Fin z) -> (Rabs (val z) < bpow radix2 1024)%R.
Proof. intros z H. destruct (is64_fin z H) as [_ <-]. apply abs_B2R_lt_emax. Qed.
Lemma is64_of : forall b : binary_float 53 1024, is64 (of_sf (B2SF b)).
Proof.
  intros b. unfold is64. destruct (is_finite b) eqn:Q.
  - destruct (of_fin b Q) as (z & H1 & H2). rewrite H1. cbn [to_sf]. rewrite normalize_equiv.
    assert (X := binary_normalize_correct 53 1024 prec_gt_0_53 prec_lt_emax_53 mode_NE z (-1074) false). cbv zeta in X.
    rewrite <- val_F2R, H2 in X. change (SpecFloat.fexp 53 1024) with fmt in X.
    rewrite round_generic in X; [|apply valid_rnd_N|apply generic_format_B2R].
    rewrite Rlt_bool_true in X by apply abs_B2R_lt_emax. destruct X as (X1 & X2 & _).
    destruct (of_fin _ X2) as (z' & Y1 & Y2). rewrite Y1. f_equal. apply val_inj. congruence.
  - destruct b as [s|[]| |s m e Hb]; try discriminate; reflexivity.
Qed.
(** every representable real in range is one *)
Lemma is64_intro : forall z, generic_format radix2 fmt (val z) -> (Rabs (val z) < bpow radix2 1024)%R -> is64 (Fin z).
Proof.
  intros z H1 H2. assert (X := binary_normalize_correct 53 1024 prec_gt_0_53 prec_lt_emax_53 mode_NE z (-1074) false). cbv zeta in X.
  rewrite <- val_F2R in X. change (SpecFloat.fexp 53 1024) with fmt in X.
  rewrite round_generic in X; [|apply valid_rnd_N|auto]. rewrite Rlt_bool_true in X by auto. destruct X as (X1 & X2 & _).
  destruct (of_fin _ X2) as (z' & Y1 & Y2). unfold is64. rewrite to_sf_eq. cbn [num2b]. rewrite Y1. f_equal. apply val_inj. congruence.
Qed.
Lemma val_opp : forall z, val (- z) = (- val z)%R.
Proof. intros z. unfold val. rewrite opp_IZR. ring. Qed.
Lemma is64_neg : forall a, is64 a -> is64 (fneg a).
Proof.
  intros [| |z|] H; try reflexivity. cbn [fneg]. apply is64_intro; rewrite val_opp; [apply generic_format_opp, is64_fmt; auto|].
  rewrite Rabs_Ropp. apply is64_bnd; auto.
Qed.


(** ** + - * on finite operands, when the result does not overflow *)
Lemma add64 : forall x y, is64 (Fin x) -> is64 (Fin y) -> (Rabs (rnd64 (val x + val y)) < bpow radix2 1024)%R ->
  exists z, fadd b64ops (Fin x) (Fin y) = Fin z /\ is64 (Fin z) /\ val z = rnd64 (val x + val y).
Proof.
  intros x y Hx Hy Hb. destruct (is64_fin _ Hx) as [Fx Ex]. destruct (is64_fin _ Hy) as [Fy Ey].
  cbn [fadd b64ops]. unfold sf2. rewrite !to_sf_eq, add_equiv.
  assert (X := Bplus_correct 53 1024 prec_gt_0_53 prec_lt_emax_53 mode_NE _ _ Fx Fy). rewrite Ex, Ey in X. change (SpecFloat.fexp 53 1024) with fmt in X.
  change (round radix2 fmt (round_mode mode_NE) (val x + val y)) with (rnd64 (val x + val y)) in X. rewrite Rlt_bool_true in X by auto.
  destruct X as (X1 & X2 & _). destruct (of_fin _ X2) as (z & Y1 & Y2). exists z. split; auto. rewrite <- Y1. split; [apply is64_of|congruence].
Qed.
Lemma sub64 : forall x y, is64 (Fin x) -> is64 (Fin y) -> (Rabs (rnd64 (val x - val y)) < bpow radix2 1024)%R ->
  exists z, fsub b64ops (Fin x) (Fin y) = Fin z /\ is64 (Fin z) /\ val z = rnd64 (val x - val y).
Proof.
  intros x y Hx Hy Hb. destruct (is64_fin _ Hx) as [Fx Ex]. destruct (is64_fin _ Hy) as [Fy Ey].
  cbn [fsub b64ops]. unfold sf2. rewrite !to_sf_eq, sub_equiv.
  assert (X := Bminus_correct 53 1024 prec_gt_0_53 prec_lt_emax_53 mode_NE _ _ Fx Fy). rewrite Ex, Ey in X. change (SpecFloat.fexp 53 1024) with fmt in X.
  change (round radix2 fmt (round_mode mode_NE) (val x - val y)) with (rnd64 (val x - val y)) in X. rewrite Rlt_bool_true in X by auto.
  destruct X as (X1 & X2 & _). destruct (of_fin _ X2) as (z & Y1 & Y2). exists z. split; auto. rewrite <- Y1. split; [apply is64_of|congruence].
Qed.
Lemma mul64 : forall x y, is64 (Fin x) -> is64 (Fin y) -> (Rabs (rnd64 (val x * val y)) < bpow radix2 1024)%R ->
  exists z, fmul b64ops (Fin x) (Fin y) = Fin z /\ is64 (Fin z) /\ val z = rnd64 (val x * val y).
Proof.
  intros x y Hx Hy Hb. destruct (is64_fin _ Hx) as [Fx Ex]. destruct (is64_fin _ Hy) as [Fy Ey].
  cbn [fmul b64ops]. unfold sf2. rewrite !to_sf_eq, mul_equiv.
  assert (X := Bmult_correct 53 1024 prec_gt_0_53 prec_lt_emax_53 mode_NE (num2b (Fin x)) (num2b (Fin y))). rewrite Ex, Ey in X. change (SpecFloat.fexp 53 1024) with fmt in X.
  change (round radix2 fmt (round_mode mode_NE) (val x * val y)) with (rnd64 (val x * val y)) in X. rewrite Rlt_bool_true in X by auto.
  destruct X as (X1 & X2 & _). rewrite Fx, Fy in X2. destruct (of_fin _ X2) as (z & Y1 & Y2). exists z. split; auto. rewrite <- Y1. split; [apply is64_of|congruence].
Qed.
(** the second factor need not be a binary64: the operation rounds it first *)
Lemma num2b_rnd : forall u, (Rabs (rnd64 (val u)) < bpow radix2 1024)%R -> is_finite (num2b (Fin u)) = true /\ B2R (num2b (Fin u)) = rnd64 (val u).
Proof.
  intros u H. assert (X := binary_normalize_correct 53 1024 prec_gt_0_53 prec_lt_emax_53 mode_NE u (-1074) false). cbv zeta in X.
  rewrite <- val_F2R in X. change (SpecFloat.fexp 53 1024) with fmt in X.
  change (round radix2 fmt (round_mode mode_NE) (val u)) with (rnd64 (val u)) in X. rewrite Rlt_bool_true in X by auto. destruct X as (X1 & X2 & _). auto.
Qed.
Lemma mul64_r : forall x u, is64 (Fin x) -> (Rabs (rnd64 (val u)) < bpow radix2 1024)%R -> (Rabs (rnd64 (val x * rnd64 (val u))) < bpow radix2 1024)%R ->
  exists z, fmul b64ops (Fin x) (Fin u) = Fin z /\ fmul b64ops (Fin u) (Fin x) = Fin z /\ is64 (Fin z) /\ val z = rnd64 (val x * rnd64 (val u)).
Proof.
  intros x y Hx Hy Hb. destruct (is64_fin _ Hx) as [Fx Ex]. destruct (num2b_rnd _ Hy) as [Fy Ey].
  cbn [fmul b64ops]. unfold sf2. rewrite !to_sf_eq, !mul_equiv.
  assert (X := Bmult_correct 53 1024 prec_gt_0_53 prec_lt_emax_53 mode_NE (num2b (Fin x)) (num2b (Fin y))).
  assert (X' := Bmult_correct 53 1024 prec_gt_0_53 prec_lt_emax_53 mode_NE (num2b (Fin y)) (num2b (Fin x))).
  rewrite Ex, Ey in X, X'. rewrite (Rmult_comm (rnd64 (val y))) in X'. change (SpecFloat.fexp 53 1024) with fmt in X, X'.
  change (round radix2 fmt (round_mode mode_NE) (val x * rnd64 (val y))) with (rnd64 (val x * rnd64 (val y))) in X, X'. rewrite Rlt_bool_true in X, X' by auto.
  destruct X as (X1 & X2 & _). destruct X' as (X1' & X2' & _). rewrite Fx, Fy in X2, X2'. destruct (of_fin _ X2) as (z & Y1 & Y2). destruct (of_fin _ X2') as (z' & Y1' & Y2').
  assert (z' = z) as -> by (apply val_inj; congruence). exists z. split; auto. split; auto. rewrite <- Y1. split; [apply is64_of|congruence].
Qed.
(** the difference overflows to the right infinity *)
Lemma sub64_over : forall x y, is64 (Fin x) -> is64 (Fin y) -> (bpow radix2 1024 <= Rabs (rnd64 (val x - val y)))%R ->
  fsub b64ops (Fin x) (Fin y) = if Rlt_bool (val x) (val y) then NInf else PInf.
Proof.
  intros x y Hx Hy Hb. destruct (is64_fin _ Hx) as [Fx Ex]. destruct (is64_fin _ Hy) as [Fy Ey].
  cbn [fsub b64ops]. unfold sf2. rewrite !to_sf_eq, sub_equiv.
  assert (X := Bminus_correct 53 1024 prec_gt_0_53 prec_lt_emax_53 mode_NE _ _ Fx Fy). rewrite Ex, Ey in X. change (SpecFloat.fexp 53 1024) with fmt in X.
  change (round radix2 fmt (round_mode mode_NE) (val x - val y)) with (rnd64 (val x - val y)) in X. rewrite Rlt_bool_false in X by auto.
  destruct X as (X1 & X2). rewrite X1.
  assert (S1 : forall b : binary_float 53 1024, is_finite b = true -> Bsign b = true -> (B2R b <= 0)%R).
  { intros [s|s| |s m e Hb'] H1 H2; simpl in *; try discriminate; try lra. subst s. apply F2R_le_0. simpl. lia. }
  assert (S2 : forall b : binary_float 53 1024, is_finite b = true -> Bsign b = false -> (0 <= B2R b)%R).
  { intros [s|s| |s m e Hb'] H1 H2; simpl in *; try discriminate; try lra. subst s. apply F2R_ge_0. simpl. lia. }
  assert (NZ : (val x - val y <> 0)%R).
  { intros E. rewrite E in Hb. unfold rnd64 in Hb. rewrite round_0, Rabs_R0 in Hb by apply valid_rnd_N. assert (0 < bpow radix2 1024)%R by apply bpow_gt_0. lra. }
  destruct (Bsign (num2b (Fin x))) eqn:Q; symmetry in X2.
  - apply negb_true_iff in X2. assert (A := S1 _ Fx Q). assert (B := S2 _ Fy X2). rewrite Ex in A. rewrite Ey in B. rewrite Rlt_bool_true by lra. reflexivity.
  - apply negb_false_iff in X2. assert (A := S2 _ Fx Q). assert (B := S1 _ Fy X2). rewrite Ex in A. rewrite Ey in B. rewrite Rlt_bool_false by lra. reflexivity.
Qed.

(** ** Rounding *)
Lemma rnd64_le : forall x y, (x <= y)%R -> (rnd64 x <= rnd64 y)%R.
Proof. intros. apply round_le; auto. apply FLT_exp_valid; reflexivity. apply valid_rnd_N. Qed.
Lemma rnd64_id : forall x, generic_format radix2 fmt x -> rnd64 x = x.
Proof. intros. apply round_generic; auto. apply valid_rnd_N. Qed.
Lemma rnd64_fmt : forall x, generic_format radix2 fmt (rnd64 x).
Proof. intros. apply generic_format_round. apply FLT_exp_valid; reflexivity. apply valid_rnd_N. Qed.
Lemma rnd64_0 : rnd64 0 = 0%R.
Proof. apply round_0. apply valid_rnd_N. Qed.
(** integer multiples of the smallest number below 2^-1021 are representable *)
Lemma small_fmt : forall z, (Rabs (val z) < bpow radix2 (-1021))%R -> generic_format radix2 fmt (val z).
Proof.
  intros z H. apply generic_format_FLT. exists (Float radix2 z (-1074)); [reflexivity| |simpl; lia].
  cbn [Fnum]. unfold val in H. rewrite Rabs_mult, (Rabs_pos_eq (bpow _ _)) in H by apply bpow_ge_0.
  replace (-1021)%Z with (53 + -1074)%Z in H by lia. rewrite bpow_plus in H. apply Rmult_lt_reg_r in H; [|apply bpow_gt_0].
  rewrite <- abs_IZR in H. rewrite <- (IZR_Zpower radix2) in H by lia. apply lt_IZR in H. exact H.
Qed.
(** the sign of a rounded difference is the sign of the difference *)
Lemma rnd64_sub_neg : forall x y, (val x < val y)%R -> (rnd64 (val x - val y) < 0)%R.
Proof.
  intros x y H. apply val_lt in H. apply Rle_lt_trans with (val (-1)).
  - rewrite <- (rnd64_id (val (-1))).
    + apply rnd64_le. unfold val. rewrite <- Rmult_minus_distr_r, <- minus_IZR. apply Rmult_le_compat_r; [apply bpow_ge_0|]. apply IZR_le. lia.
    + apply small_fmt. unfold val. rewrite Rabs_mult, (Rabs_pos_eq (bpow _ _)) by apply bpow_ge_0.
      replace (Rabs (-1)) with 1%R by (unfold Rabs; destruct (Rcase_abs (-1)); lra). rewrite Rmult_1_l. apply bpow_lt. lia.
  - unfold val. assert (0 < bpow radix2 (-1074))%R by apply bpow_gt_0. lra.
Qed.

(** Subtraction keeps the order: the test [a - b < 0] is the test [a < b]. *)
Theorem sub64_sign : forall a b, is64 a -> is64 b -> a <> NaN -> b <> NaN -> fltb (fsub b64ops a b) f0 = fltb a b.
Proof.
  intros [| |x|] [| |y|] Ha Hb Na Nb; try congruence; try reflexivity.
  - destruct (is64_fin _ Hb) as [F _]. cbn [fsub b64ops]. unfold sf2. rewrite !to_sf_eq. revert F. generalize (num2b (Fin y)). intros [s|s| |s m e H]; simpl; auto; discriminate.
  - destruct (is64_fin _ Ha) as [F _]. cbn [fsub b64ops]. unfold sf2. rewrite !to_sf_eq. revert F. generalize (num2b (Fin x)). intros [s|s| |s m e H]; simpl; auto; discriminate.
  - assert (Xa := is64_fmt _ Ha). assert (Xb := is64_fmt _ Hb).
    assert (Pos : (val y <= val x)%R -> (0 <= rnd64 (val x - val y))%R) by (intros; rewrite <- rnd64_0; apply rnd64_le; lra).
    destruct (Rlt_le_dec (Rabs (rnd64 (val x - val y))) (bpow radix2 1024)) as [H|H].
    + destruct (sub64 x y Ha Hb H) as (z & -> & _ & Ez). unfold f0. destruct (fltb (Fin x) (Fin y)) eqn:Q.
      * apply fltb_val in Q. apply fltb_val. rewrite Ez, val_0. apply rnd64_sub_neg; auto.
      * destruct (fltb (Fin z) (Fin 0)) eqn:Q2; auto. apply fltb_val in Q2. rewrite Ez, val_0 in Q2.
        destruct (Rlt_le_dec (val x) (val y)) as [Q3|Q3]; [apply fltb_val in Q3; congruence|]. specialize (Pos Q3). lra.
    + rewrite sub64_over; auto. unfold f0. destruct (fltb (Fin x) (Fin y)) eqn:Q.
      * apply fltb_val in Q. rewrite Rlt_bool_true by auto. reflexivity.
      * rewrite Rlt_bool_false; auto. destruct (Rlt_le_dec (val x) (val y)) as [Q3|Q3]; auto. apply fltb_val in Q3. congruence.
  - destruct (is64_fin _ Ha) as [F _]. cbn [fsub b64ops]. unfold sf2. rewrite !to_sf_eq. revert F. generalize (num2b (Fin x)). intros [s|s| |s m e H]; simpl; auto; discriminate.
  - destruct (is64_fin _ Hb) as [F _]. cbn [fsub b64ops]. unfold sf2. rewrite !to_sf_eq. revert F. generalize (num2b (Fin y)). intros [s|s| |s m e H]; simpl; auto; discriminate.
Qed.

(** d = x rounded, u <= 1 - 2^-53: the rounded product d u does not exceed x *)
Lemma scaled_le : forall x y u, (val x <= val y)%R -> generic_format radix2 fmt (val x) -> generic_format radix2 fmt (val y) ->
  (0 <= u <= 1 - bpow radix2 (-53))%R -> (rnd64 (rnd64 (val y - val x) * u) <= val y - val x)%R.
Proof.
  intros a b u Hab Fa Fb [Hu1 Hu2]. set (x := (val b - val a)%R). set (d := rnd64 x).
  assert (E53 : (0 < bpow radix2 (-53))%R) by apply bpow_gt_0.
  assert (D0 : (0 <= d)%R) by (unfold d; rewrite <- rnd64_0; apply rnd64_le; unfold x; lra).
  assert (DD : (rnd64 (d * u) <= d)%R).
  { rewrite <- (rnd64_id d) at 2 by apply rnd64_fmt. apply rnd64_le. rewrite <- (Rmult_1_r d) at 2. apply Rmult_le_compat_l; lra. }
  destruct (Rle_lt_dec d x) as [Q|Q]; [lra|].
  assert (NF : ~ generic_format radix2 fmt x) by (intros Fx; unfold d in Q; rewrite rnd64_id in Q by auto; lra).
  assert (Big : (bpow radix2 (-1021) <= x)%R).
  { apply Rnot_lt_le. intros H. apply NF. unfold x, val. rewrite <- Rmult_minus_distr_r, <- minus_IZR. apply small_fmt.
    unfold val. rewrite minus_IZR, Rmult_minus_distr_r. fold (val a) (val b). fold x. rewrite Rabs_pos_eq; auto. unfold x. lra. }
  assert (UP : d = round radix2 fmt Zceil x).
  { destruct (round_DN_or_UP radix2 fmt ZnearestE x) as [H|H]; [|exact H]. exfalso. unfold d, rnd64 in Q. rewrite H in Q.
    assert (round radix2 fmt Zfloor x <= x)%R by (apply round_DN_pt; apply FLT_exp_valid; reflexivity). lra. }
  assert (Vf := FLT_exp_valid (-1074) 53). set (p := pred radix2 fmt d).
  assert (Ep : p = round radix2 fmt Zfloor x) by (unfold p; rewrite UP; apply pred_UP_eq_DN; auto).
  assert (Fp : generic_format radix2 fmt p) by (rewrite Ep; apply generic_format_round; auto; apply valid_rnd_DN).
  assert (Pb : (bpow radix2 (-1021) <= p)%R).
  { rewrite Ep. apply round_DN_pt; auto. apply generic_format_bpow. unfold FLT_exp. simpl. lia. }
  assert (P0 : (0 < bpow radix2 (-1021))%R) by apply bpow_gt_0.
  assert (Px : (p <= x)%R) by (rewrite Ep; apply round_DN_pt; auto).
  apply Rle_trans with p; auto.
  assert (Es : succ radix2 fmt p = d) by (unfold p; apply succ_pred; auto; apply rnd64_fmt).
  apply round_N_le_midp; auto. rewrite Es.
  assert (Eu : (d = p + ulp radix2 fmt p)%R) by (rewrite <- Es; apply succ_eq_pos; lra).
  assert (Ul : (ulp radix2 fmt p <= Rabs p * bpow radix2 (1 - 53))%R).
  { apply ulp_FLT_le; try reflexivity. rewrite Rabs_pos_eq by lra. eapply Rle_trans; [|exact Pb]. apply bpow_le. lia. }
  rewrite Rabs_pos_eq in Ul by lra. replace (1 - 53)%Z with (1 + -53)%Z in Ul by lia. rewrite bpow_plus in Ul. change (bpow radix2 1) with 2%R in Ul.
  assert (d * u <= d * (1 - bpow radix2 (-53)))%R by (apply Rmult_le_compat_l; lra).
  assert (p * bpow radix2 (-53) < d * bpow radix2 (-53))%R by (apply Rmult_lt_compat_r; lra).
  lra.
Qed.

(** [lo + (hi - lo) * u] with 0 <= u <= 1 - 2^-53 stays in [lo, hi] whenever hi - lo does not overflow. *)
Theorem affine64 : forall lo hi u, is64 lo -> is64 hi -> fleb lo hi = true ->
  (exists d, fsub b64ops hi lo = Fin d) -> fleb f0 u = true -> fleb u rtop = true ->
  let y := fadd b64ops lo (fmul b64ops (fsub b64ops hi lo) u) in
  y = fadd b64ops lo (fmul b64ops u (fsub b64ops hi lo)) /\ is64 y /\ fleb lo y = true /\ fleb y hi = true.
Proof.
  intros lo hi u Hlo Hhi Hle (d & Hd) U1 U2 y.
  destruct u as [| |u|]; try discriminate.
  assert (exists a b, lo = Fin a /\ hi = Fin b) as (a & b & -> & ->).
  { destruct lo as [| |a|], hi as [| |b|]; try discriminate; eauto; exfalso; revert Hd; cbn [fsub b64ops]; unfold sf2; rewrite !to_sf_eq.
    - destruct (is64_fin _ Hhi) as [F _]. revert F. generalize (num2b (Fin b)). intros [s|s| |s m e H]; simpl; discriminate.
    - destruct (is64_fin _ Hlo) as [F _]. revert F. generalize (num2b (Fin a)). intros [s|s| |s m e H]; simpl; discriminate. }
  assert (Fa := is64_fmt _ Hlo). assert (Fb := is64_fmt _ Hhi). apply fleb_val in Hle.
  assert (Ba := is64_bnd _ Hlo). assert (Bb := is64_bnd _ Hhi).
  unfold f0 in U1. apply fleb_val in U1. rewrite val_0 in U1. unfold rtop, dbl in U2. apply fleb_val in U2.
  assert (Et : val ((2 ^ 53 - 1) * 2 ^ (1074 + -53)) = (1 - bpow radix2 (-53))%R).
  { unfold val. rewrite mult_IZR, minus_IZR. change 2%Z with (radix_val radix2). rewrite !(IZR_Zpower radix2) by lia.
    rewrite Rmult_assoc, <- bpow_plus. replace (1074 + -53 + -1074)%Z with (-53)%Z by lia. rewrite Rmult_minus_distr_r, <- bpow_plus.
    replace (53 + -53)%Z with 0%Z by lia. change (bpow radix2 0) with 1%R. lra. }
  assert (Ft : generic_format radix2 fmt (1 - bpow radix2 (-53))).
  { rewrite <- Et. apply generic_format_FLT. exists (Float radix2 (2 ^ 53 - 1) (-53)); [|simpl; lia|simpl; lia].
    rewrite Et. unfold F2R. cbn [Fnum Fexp]. rewrite minus_IZR. change 2%Z with (radix_val radix2). rewrite (IZR_Zpower radix2) by lia.
    rewrite Rmult_minus_distr_r, <- bpow_plus. replace (53 + -53)%Z with 0%Z by lia. change (bpow radix2 0) with 1%R. lra. }
  rewrite Et in U2. clear Et. assert (E53 : (0 < bpow radix2 (-53))%R) by apply bpow_gt_0.
  set (v := rnd64 (val u)).
  assert (V1 : (0 <= v)%R) by (unfold v; rewrite <- rnd64_0; apply rnd64_le; auto).
  assert (V2 : (v <= 1 - bpow radix2 (-53))%R) by (unfold v; rewrite <- (rnd64_id (1 - _)) by auto; apply rnd64_le; auto).
  assert (B1024 : (1 < bpow radix2 1024)%R) by (change 1%R with (bpow radix2 0); apply bpow_lt; lia).
  assert (D : val d = rnd64 (val b - val a) /\ is64 (Fin d)).
  { destruct (Rlt_le_dec (Rabs (rnd64 (val b - val a))) (bpow radix2 1024)) as [H|H].
    - destruct (sub64 b a Hhi Hlo H) as (z & E1 & E2 & E3). rewrite Hd in E1. injection E1 as ->. auto.
    - rewrite (sub64_over b a Hhi Hlo H) in Hd. destruct (Rlt_bool (val b) (val a)); discriminate. }
  destruct D as [D1 D2].
  assert (S := scaled_le a b v Hle Fa Fb (conj V1 V2)). rewrite <- D1 in S.
  assert (D0 : (0 <= val d)%R) by (rewrite D1, <- rnd64_0; apply rnd64_le; lra).
  assert (M0 : (0 <= rnd64 (val d * v))%R) by (rewrite <- rnd64_0; apply rnd64_le; apply Rmult_le_pos; auto).
  assert (M1 : (rnd64 (val d * v) <= val d)%R).
  { rewrite <- (rnd64_id (val d)) at 2 by (apply is64_fmt; auto). apply rnd64_le. rewrite <- (Rmult_1_r (val d)) at 2. apply Rmult_le_compat_l; lra. }
  assert (Bd := is64_bnd _ D2). rewrite Rabs_pos_eq in Bd by auto.
  destruct (mul64_r d u D2) as (m & E1 & E1' & E2 & E3); [fold v; rewrite Rabs_pos_eq; lra|fold v; rewrite Rabs_pos_eq; lra|]. fold v in E3.
  assert (L1 : (val a <= rnd64 (val a + val m))%R) by (rewrite <- (rnd64_id (val a)) at 1 by auto; apply rnd64_le; lra).
  assert (L2 : (rnd64 (val a + val m) <= val b)%R) by (rewrite <- (rnd64_id (val b)) by auto; apply rnd64_le; lra).
  apply Rabs_lt_inv in Ba, Bb.
  destruct (add64 a m Hlo E2) as (z & G1 & G2 & G3); [apply Rabs_lt; lra|].
  unfold y. rewrite Hd, E1, E1', G1. split; auto. split; auto. rewrite !fleb_val, G3. auto.
Qed.
