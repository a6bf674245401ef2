(** Ranges of binary64 results. *)
From Coq Require Import ZArith Lia Bool List Reals Lra SpecFloat.
From Flocq Require Import Core IEEE754.BinarySingleNaN.
From Verif Require Import Num Task Prog Fops B64 B64Spec B64Int.
Import ListNotations.

Local Existing Instances B64Spec.prec_gt_0_53 B64Spec.prec_lt_emax_53.
Local Notation fmt := (FLT_exp (-1074) 53).
Local Existing Instance B64Spec.valid_fmt.

(** a finite binary64 number between two reals *)
Definition btw (a b : R) (x : num) : Prop := exists z, x = Fin z /\ is64 (Fin z) /\ (a <= val z <= b)%R.
(** a real that is a finite binary64 *)
Definition ok64 (r : R) : Prop := generic_format radix2 fmt r /\ (Rabs r < bpow radix2 1024)%R.

Lemma rnd_in : forall a b r, ok64 a -> ok64 b -> (a <= r <= b)%R -> (a <= rnd64 r <= b)%R /\ (Rabs (rnd64 r) < bpow radix2 1024)%R.
Proof.
  intros a b r [A1 A2] [B1 B2] [H1 H2]. assert (L1 := rnd64_le _ _ H1). assert (L2 := rnd64_le _ _ H2). rewrite (rnd64_id a) in L1 by auto. rewrite (rnd64_id b) in L2 by auto.
  split; [lra|]. apply Rabs_def2 in A2. apply Rabs_def2 in B2. apply Rabs_def1; lra.
Qed.
Lemma btw_add : forall x y lo hi u v, x = Fin u -> y = Fin v -> is64 x -> is64 y -> ok64 lo -> ok64 hi -> (lo <= val u + val v <= hi)%R -> btw lo hi (fadd b64ops x y).
Proof. intros x y lo hi u v -> -> X Y L H B. destruct (rnd_in _ _ _ L H B) as [R1 R2]. destruct (add64 u v X Y R2) as (z & Z1 & Z2 & Z3). exists z. rewrite Z1, Z3. auto. Qed.
Lemma btw_sub : forall x y lo hi u v, x = Fin u -> y = Fin v -> is64 x -> is64 y -> ok64 lo -> ok64 hi -> (lo <= val u - val v <= hi)%R -> btw lo hi (fsub b64ops x y).
Proof. intros x y lo hi u v -> -> X Y L H B. destruct (rnd_in _ _ _ L H B) as [R1 R2]. destruct (sub64 u v X Y R2) as (z & Z1 & Z2 & Z3). exists z. rewrite Z1, Z3. auto. Qed.
Lemma btw_mul : forall x y lo hi u v, x = Fin u -> y = Fin v -> is64 x -> is64 y -> ok64 lo -> ok64 hi -> (lo <= val u * val v <= hi)%R -> btw lo hi (fmul b64ops x y).
Proof. intros x y lo hi u v -> -> X Y L H B. destruct (rnd_in _ _ _ L H B) as [R1 R2]. destruct (mul64 u v X Y R2) as (z & Z1 & Z2 & Z3). exists z. rewrite Z1, Z3. auto. Qed.
Lemma div64 : forall x y, is64 (Fin x) -> is64 (Fin y) -> (val y <> 0)%R -> (Rabs (rnd64 (val x / val y)) < bpow radix2 1024)%R ->
  exists z, fdiv b64ops (Fin x) (Fin y) = Fin z /\ is64 (Fin z) /\ val z = rnd64 (val x / val y).
Proof.
  intros x y Hx Hy N Hb. destruct (is64_fin _ Hx) as [Fx Ex]. destruct (is64_fin _ Hy) as [Fy Ey].
  cbn [fdiv b64ops]. unfold sf2. rewrite !to_sf_eq, div_equiv.
  assert (X := Bdiv_correct 53 1024 B64Spec.prec_gt_0_53 B64Spec.prec_lt_emax_53 mode_NE (num2b (Fin x)) (num2b (Fin y))). rewrite Ex, Ey in X. specialize (X N). change (SpecFloat.fexp 53 1024) with fmt in X.
  change (round radix2 fmt (round_mode mode_NE) (val x / val y)) with (rnd64 (val x / val y)) in X. rewrite Rlt_bool_true in X by auto.
  destruct X as (X1 & X2 & _). rewrite Fx in X2. destruct (of_fin _ X2) as (z & Y1 & Y2). exists z. split; auto. rewrite <- Y1. split; [apply is64_of|congruence].
Qed.
Lemma btw_div : forall x y lo hi u v, x = Fin u -> y = Fin v -> is64 x -> is64 y -> ok64 lo -> ok64 hi -> (val v <> 0)%R -> (lo <= val u / val v <= hi)%R -> btw lo hi (fdiv b64ops x y).
Proof. intros x y lo hi u v -> -> X Y L H N B. destruct (rnd_in _ _ _ L H B) as [R1 R2]. destruct (div64 u v X Y N R2) as (z & Z1 & Z2 & Z3). exists z. rewrite Z1, Z3. auto. Qed.

Lemma ok64_int : forall n, (Z.abs n <= 2 ^ 53)%Z -> ok64 (IZR n).
Proof.
  intros n H. split; [apply int_fmt; auto|]. rewrite <- abs_IZR. apply Rle_lt_trans with (bpow radix2 53); [|apply bpow_lt; lia].
  rewrite <- (IZR_Zpower radix2) by lia. apply IZR_le. exact H.
Qed.
Lemma ok64_bpow : forall e, (-1074 <= e < 1024)%Z -> ok64 (bpow radix2 e).
Proof. intros e H. split; [apply generic_format_bpow; unfold FLT_exp; lia|]. rewrite Rabs_pos_eq by apply bpow_ge_0. apply bpow_lt. lia. Qed.
Lemma ok64_opp : forall r, ok64 r -> ok64 (- r).
Proof. intros r [A B]. split; [apply generic_format_opp; auto|rewrite Rabs_Ropp; auto]. Qed.
Lemma ok64_val : forall z, is64 (Fin z) -> ok64 (val z).
Proof. intros z H. split; [apply is64_fmt; auto|apply is64_bnd; auto]. Qed.
Lemma fmt_double : forall x, generic_format radix2 fmt x -> generic_format radix2 fmt (2 * x).
Proof.
  intros x H. apply FLT_format_generic in H; [|reflexivity]. destruct H as [[m e] E1 E2 E3]. apply generic_format_FLT. exists (Float radix2 m (e + 1)); [|exact E2|simpl in *; lia].
  rewrite E1. unfold F2R. cbn [Fnum Fexp]. rewrite bpow_plus. change (bpow radix2 1) with 2%R. ring.
Qed.
Lemma ok64_double : forall x, generic_format radix2 fmt x -> (Rabs x <= bpow radix2 1022)%R -> ok64 (2 * x).
Proof.
  intros x H B. split; [apply fmt_double; auto|]. rewrite Rabs_mult, (Rabs_pos_eq 2) by lra. apply Rle_lt_trans with (2 * bpow radix2 1022)%R; [lra|].
  change 2%R with (bpow radix2 1). rewrite <- bpow_plus. apply bpow_lt. lia.
Qed.
Lemma is64_int : forall n, (Z.abs n <= 2 ^ 53)%Z -> is64 (Fin (n * 2 ^ 1074)).
Proof. intros n H. destruct (ok64_int n H) as [A B]. apply is64_intro; rewrite val_int; auto. Qed.

(** ** Half of a sum *)
Lemma half64 : forall x y, is64 x -> is64 y -> fleb x y = true -> fleb (Fin (- 2 ^ 2096)) x = true -> fleb y (Fin (2 ^ 2096)) = true ->
  (fleb x (fdiv b64ops (fadd b64ops x y) (flit b64ops 2 1)) = true /\ fleb (fdiv b64ops (fadd b64ops x y) (flit b64ops 2 1)) y = true) /\
  (fleb x (fdiv b64ops (fadd b64ops y x) (flit b64ops 2 1)) = true /\ fleb (fdiv b64ops (fadd b64ops y x) (flit b64ops 2 1)) y = true).
Proof.
  intros [| |x|] [| |y|] Hx Hy L1 L2 L3; try discriminate.
  assert (V : val (2 ^ 2096) = bpow radix2 1022).
  { unfold val. change 2%Z with (radix_val radix2) at 1. rewrite (IZR_Zpower radix2) by lia. rewrite <- bpow_plus. reflexivity. }
  apply fleb_val in L1. apply fleb_val in L2. apply fleb_val in L3. rewrite val_opp, V in L2. rewrite V in L3.
  assert (Bx : (Rabs (val x) <= bpow radix2 1022)%R) by (apply Rabs_le; lra). assert (By : (Rabs (val y) <= bpow radix2 1022)%R) by (apply Rabs_le; lra).
  assert (Ox := ok64_double _ (is64_fmt _ Hx) Bx). assert (Oy := ok64_double _ (is64_fmt _ Hy) By).
  assert (E2 : flit b64ops 2 1 = Fin (2 * 2 ^ 1074)) by (cbn [flit b64ops]; apply lit_int; simpl; lia). assert (I2 := is64_int 2 ltac:(simpl; lia)).
  assert (G : forall s, btw (2 * val x) (2 * val y) s -> fleb (Fin x) (fdiv b64ops s (flit b64ops 2 1)) = true /\ fleb (fdiv b64ops s (flit b64ops 2 1)) (Fin y) = true).
  { intros s (z & -> & Hz & B). rewrite E2. destruct (btw_div (Fin z) (Fin (2 * 2 ^ 1074)) (val x) (val y) z (2 * 2 ^ 1074)%Z eq_refl eq_refl Hz I2 (ok64_val _ Hx) (ok64_val _ Hy)) as (r & R1 & R2 & R3).
    - rewrite val_int. lra.
    - rewrite val_int. lra.
    - rewrite R1, !fleb_val. tauto. }
  split; apply G; eapply btw_add; eauto; lra.
Qed.

(** ** Rounding is monotone *)
Lemma round_z_mono : forall a b, (a <= b)%Z -> (round_z a <= round_z b)%Z.
Proof.
  intros a b H. destruct (round_z_near a) as [A1 A2]. destruct (round_z_near b) as [B1 B2]. assert (P : (0 < 2 ^ 1074)%Z) by (apply Z.pow_pos_nonneg; lia).
  revert A1 A2 B1 B2. generalize (round_z a) (round_z b). generalize dependent (2 ^ 1074)%Z. intros P HP m n A1 A2 B1 B2. destruct (Z.le_gt_cases m n) as [L|L]; auto. exfalso.
  assert (M : (n * P + P <= m * P)%Z) by nia. assert (Q1 : (2 * Z.abs (a - m * P) = P)%Z) by lia. assert (Q2 : (2 * Z.abs (b - n * P) = P)%Z) by lia.
  specialize (A2 Q1). specialize (B2 Q2). assert (E : (m = n + 1)%Z) by nia. subst m. rewrite Z.even_add in A2. rewrite B2 in A2. discriminate.
Qed.
Lemma round_z_int : forall n, round_z (n * 2 ^ 1074) = n.
Proof.
  intros n. destruct (round_z_near (n * 2 ^ 1074)) as [A _]. assert (P : (0 < 2 ^ 1074)%Z) by (apply Z.pow_pos_nonneg; lia). revert A. generalize (round_z (n * 2 ^ 1074)). generalize dependent (2 ^ 1074)%Z. intros P HP m A.
  replace (n * P - m * P)%Z with ((n - m) * P)%Z in A by ring. rewrite Z.abs_mul, (Z.abs_eq P) in A by lia. nia.
Qed.
