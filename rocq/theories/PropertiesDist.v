(** The Euclidean distance of util/distances.py in binary64 (C135). *)
From Coq Require Import ZArith Lia Bool List Reals Lra SpecFloat Permutation.
From Flocq Require Import Core IEEE754.BinarySingleNaN.
From Verif Require Import Num Task Prog Fops Repair B64 B64Spec.
Import ListNotations.
Local Instance prec_gt_0_53 : Prec_gt_0 53 := eq_refl.
Local Instance prec_lt_emax_53 : Prec_lt_emax 53 1024 := eq_refl.
Local Notation fmt := (FLT_exp (-1074) 53).
Local Instance valid_fmt : Valid_exp fmt := FLT_exp_valid (-1074) 53.
Local Notation dist := (euclidean b64ops).

(** ** Symmetry: a - b = - (b - a) *)
Definition sf_opp (x : spec_float) : spec_float :=
  match x with S754_zero _ => x | S754_nan => x | S754_infinity s => S754_infinity (negb s) | S754_finite s m e => S754_finite (negb s) m e end.
Lemma of_opp : forall x, of_sf (sf_opp x) = fneg (of_sf x).
Proof. intros [s|[|]| |[|] m e]; cbn [sf_opp of_sf negb fneg]; try reflexivity; f_equal; lia. Qed.
Lemma round_opp : forall s m e, of_sf (SpecFloat.binary_round 53 1024 (negb s) m e) = fneg (of_sf (SpecFloat.binary_round 53 1024 s m e)).
Proof.
  intros s m e. unfold SpecFloat.binary_round. destruct (shl_align m e _) as [mz ez]. unfold SpecFloat.binary_round_aux.
  destruct (shr_fexp 53 1024 _ _ _) as [mrs1 e1]. destruct (shr_fexp 53 1024 _ e1 _) as [mrs2 e2]. destruct (shr_m mrs2); [reflexivity| |reflexivity].
  destruct (e2 <=? _)%Z; rewrite <- of_opp; reflexivity.
Qed.
Lemma normalize_opp : forall m e, of_sf (SpecFloat.binary_normalize 53 1024 (- m) e false) = fneg (of_sf (SpecFloat.binary_normalize 53 1024 m e false)).
Proof. intros [|m|m] e; [reflexivity| |]; cbn [Z.opp SpecFloat.binary_normalize]; [apply (round_opp false)|apply (round_opp true)]. Qed.
Lemma sub_opp : forall a b, fsub b64ops a b = fneg (fsub b64ops b a).
Proof.
  intros a b. cbn [fsub b64ops]. unfold sf2. destruct (to_sf a) as [sx|sx| |sx mx ex], (to_sf b) as [sy|sy| |sy my ey]; cbn [SFsub]; try (destruct sx); try (destruct sy); try reflexivity;
    try (rewrite <- of_opp; reflexivity); cbv zeta; rewrite Z.min_comm, <- normalize_opp; do 2 f_equal; lia.
Qed.
Lemma square_neg : forall a, is64 a -> fmul b64ops (fneg a) (fneg a) = fmul b64ops a a.
Proof.
  intros a Ha. cbn [fmul b64ops]. unfold sf2. assert (G : forall s m e, SFmul 53 1024 (S754_finite s m e) (S754_finite s m e) = SFmul 53 1024 (S754_finite false m e) (S754_finite false m e)) by (intros [|] m e; reflexivity).
  destruct a as [| |z|]; try reflexivity. destruct z as [|m|m]; try reflexivity; cbn [fneg Z.opp to_sf SpecFloat.binary_normalize]; unfold SpecFloat.binary_round;
    destruct (shl_align m (-1074) _) as [mz ez]; unfold SpecFloat.binary_round_aux;
    destruct (shr_fexp 53 1024 _ _ _) as [mrs1 e1]; destruct (shr_fexp 53 1024 _ e1 _) as [mrs2 e2]; destruct (shr_m mrs2); try reflexivity; destruct (e2 <=? _)%Z; try reflexivity; rewrite !(G true); reflexivity.
Qed.
Lemma sub_is64 : forall a b, is64 (fsub b64ops a b).
Proof. intros a b. cbn [fsub b64ops]. unfold sf2. rewrite !to_sf_eq, sub_equiv. apply is64_of. Qed.
Theorem C135_symmetric : forall u v, dist u v = dist v u.
Proof.
  intros u v. unfold euclidean. do 2 f_equal. unfold vsub. revert v. induction u as [|a u IH]; intros [|b v]; auto. cbn [map2 map]. f_equal; auto.
  rewrite (sub_opp a b). apply square_neg. apply sub_is64.
Qed.

(** ** Never negative *)
(** a number that is not negative and not NaN *)
Definition nn (a : num) : Prop := is64 a /\ match a with Fin z => (0 <= z)%Z | PInf => True | _ => False end.
Lemma over_pos : forall b : binary_float 53 1024, B2SF b = binary_overflow 53 1024 mode_NE false -> of_sf (B2SF b) = PInf.
Proof. intros b ->. reflexivity. Qed.
Lemma rnd64_nn : forall x, (0 <= x)%R -> (0 <= rnd64 x)%R.
Proof. intros x H. rewrite <- rnd64_0. apply rnd64_le. auto. Qed.
Lemma val_nn : forall z, (0 <= z)%Z <-> (0 <= val z)%R.
Proof. intros z. rewrite <- val_0. apply val_le. Qed.
Lemma square_nn : forall a, is64 a -> a <> NaN -> nn (fmul b64ops a a).
Proof.
  intros a Ha Hn. split; [cbn [fmul b64ops]; unfold sf2; rewrite !to_sf_eq, mul_equiv; apply is64_of|].
  destruct a as [| |x|]; [congruence|exact I| |exact I].
  destruct (Rlt_or_le (Rabs (rnd64 (val x * val x))) (bpow radix2 1024)) as [H|H].
  - destruct (mul64 _ _ Ha Ha H) as (z & -> & _ & Ez). apply val_nn. rewrite Ez. apply rnd64_nn. apply Rle_0_sqr.
  - cbn [fmul b64ops]. unfold sf2. rewrite !to_sf_eq, mul_equiv. destruct (is64_fin _ Ha) as [Fx Ex].
    assert (X := Bmult_correct 53 1024 prec_gt_0_53 prec_lt_emax_53 mode_NE (num2b (Fin x)) (num2b (Fin x))). rewrite Ex in X. change (SpecFloat.fexp 53 1024) with fmt in X.
    change (round radix2 fmt (round_mode mode_NE) (val x * val x)) with (rnd64 (val x * val x)) in X. rewrite Rlt_bool_false in X by auto.
    rewrite xorb_nilpotent in X. set (r := of_sf _). assert (r = PInf) as -> by exact (over_pos _ X). exact I.
Qed.
Lemma fleb_nn : forall x y, fleb (Fin x) (Fin y) = true <-> (x <= y)%Z.
Proof. intros x y. rewrite fleb_val. symmetry. apply val_le. Qed.
Lemma fin_nn_sign : forall x, is64 (Fin x) -> (0 <= x)%Z -> Bsign (num2b (Fin x)) = false.
Proof.
  intros x Hx H0. destruct x as [|p|p]; [reflexivity| |lia]. destruct (is64_fin _ Hx) as [Fx Ex]. assert (0 < val (Z.pos p))%R by (rewrite <- val_0; apply val_lt; lia).
  destruct (num2b (Fin (Z.pos p))) as [s|s| |s m e Hb]; simpl in *; try discriminate; [lra|]. destruct s; auto. exfalso.
  assert (F2R (Float radix2 (Z.neg m) e) <= 0)%R by (apply F2R_le_0; simpl; lia). simpl in Ex. lra.
Qed.
Lemma add_nn : forall a b, nn a -> nn b -> nn (fadd b64ops a b) /\ fleb a (fadd b64ops a b) = true /\ fleb b (fadd b64ops a b) = true.
Proof.
  intros a b [Ha Na] [Hb Nb].
  assert (I64 : is64 (fadd b64ops a b)) by (cbn [fadd b64ops]; unfold sf2; rewrite !to_sf_eq, add_equiv; apply is64_of).
  destruct a as [| |x|]; try contradiction; destruct b as [| |y|]; try contradiction.
  - destruct (Rlt_or_le (Rabs (rnd64 (val x + val y))) (bpow radix2 1024)) as [H|H].
    + destruct (add64 _ _ Ha Hb H) as (z & E & Hz & Ez). rewrite E in *. apply val_nn in Na, Nb.
      assert (X : (val x <= val z)%R) by (rewrite Ez, <- (rnd64_id (val x)) at 1 by (apply is64_fmt; auto); apply rnd64_le; lra).
      assert (Y : (val y <= val z)%R) by (rewrite Ez, <- (rnd64_id (val y)) at 1 by (apply is64_fmt; auto); apply rnd64_le; lra).
      split; [split; auto; apply val_nn; lra|]. split; apply fleb_val; auto.
    + assert (E : fadd b64ops (Fin x) (Fin y) = PInf).
      { cbn [fadd b64ops]. unfold sf2. rewrite !to_sf_eq, add_equiv. destruct (is64_fin _ Ha) as [Fx Ex]. destruct (is64_fin _ Hb) as [Fy Ey].
        assert (X := Bplus_correct 53 1024 prec_gt_0_53 prec_lt_emax_53 mode_NE _ _ Fx Fy). rewrite Ex, Ey in X. change (SpecFloat.fexp 53 1024) with fmt in X.
        change (round radix2 fmt (round_mode mode_NE) (val x + val y)) with (rnd64 (val x + val y)) in X. rewrite Rlt_bool_false in X by auto.
        destruct X as [X _]. rewrite (fin_nn_sign _ Ha Na) in X. apply over_pos. exact X. }
      rewrite E in *. split; [split; auto; exact I|]. split; reflexivity.
  - assert (E : fadd b64ops (Fin x) PInf = PInf).
    { cbn [fadd b64ops]. unfold sf2. rewrite !to_sf_eq, add_equiv. destruct (is64_fin _ Ha) as [Fx _]. destruct (num2b (Fin x)); try discriminate; reflexivity. }
    rewrite E in *. split; [split; auto; exact I|]. split; reflexivity.
  - assert (E : fadd b64ops PInf (Fin y) = PInf).
    { cbn [fadd b64ops]. unfold sf2. rewrite !to_sf_eq, add_equiv. destruct (is64_fin _ Hb) as [Fx _]. destruct (num2b (Fin y)); try discriminate; reflexivity. }
    rewrite E in *. split; [split; auto; exact I|]. split; reflexivity.
  - split; [split; auto; exact I|]. split; reflexivity.
Qed.
Lemma sqrt_equiv : forall x : binary_float 53 1024, SFsqrt 53 1024 (B2SF x) = B2SF (Bsqrt mode_NE x).
Proof.
  intros x. case x as [sx|sx| |sx mx ex Bx]; [now (trivial || case sx).. | ]. case sx; [reflexivity|]. unfold Bsqrt. rewrite B2SF_SF2B. cbn [B2SF SFsqrt].
  set (melz := SFsqrt_core_binary _ _ _ _). case melz as [[mz ez] lz]. apply round_aux_equiv.
Qed.
Lemma sqrt64 : forall x, is64 (Fin x) -> (0 <= x)%Z -> exists z, fsqrt b64ops (Fin x) = Fin z /\ is64 (Fin z) /\ val z = rnd64 (sqrt (val x)).
Proof.
  intros x Hx H0. cbn [fsqrt b64ops]. rewrite to_sf_eq, sqrt_equiv. destruct (is64_fin _ Hx) as [Fx Ex]. assert (S0 := fin_nn_sign _ Hx H0).
  destruct (Bsqrt_correct 53 1024 prec_gt_0_53 prec_lt_emax_53 mode_NE (num2b (Fin x))) as (X1 & X2 & _). rewrite Ex in X1. change (SpecFloat.fexp 53 1024) with fmt in X1.
  change (round radix2 fmt (round_mode mode_NE) (sqrt (val x))) with (rnd64 (sqrt (val x))) in X1.
  assert (X3 : is_finite (Bsqrt mode_NE (num2b (Fin x))) = true) by (rewrite X2; destruct (num2b (Fin x)); try discriminate; auto; simpl in S0; subst; auto).
  destruct (of_fin _ X3) as (z & Y1 & Y2). exists z. split; auto. rewrite <- Y1. split; [apply is64_of|congruence].
Qed.
Lemma bp_fmt : forall e, (-1074 <= e)%Z -> generic_format radix2 fmt (bpow radix2 e).
Proof. intros e H. apply generic_format_bpow. unfold FLT_exp. lia. Qed.
Lemma val_1 : forall z, (1 <= z)%Z -> (bpow radix2 (-1074) <= val z)%R.
Proof. intros z H. unfold val. assert (A := bpow_gt_0 radix2 (-1074)). assert (IZR 1 <= IZR z)%R by (apply IZR_le; auto). simpl in *. nra. Qed.
Lemma sqrt_nn : forall a, nn a -> nn (fsqrt b64ops a) /\ (fltb f0 a = true -> fltb f0 (fsqrt b64ops a) = true).
Proof.
  intros a [Ha Na]. destruct a as [| |x|]; try contradiction.
  - destruct (sqrt64 _ Ha Na) as (z & -> & Hz & Ez). split; [split; auto; apply val_nn; rewrite Ez; apply rnd64_nn; apply sqrt_pos|].
    intros Hp. unfold f0 in *. apply fltb_val in Hp. apply fltb_val. rewrite Ez. apply val_lt in Hp. rewrite val_0.
    apply Rlt_le_trans with (bpow radix2 (-537)); [apply bpow_gt_0|]. rewrite <- (rnd64_id (bpow radix2 (-537))) by (apply bp_fmt; lia). apply rnd64_le.
    replace (bpow radix2 (-537)) with (sqrt (bpow radix2 (-1074))); [apply sqrt_le_1_alt; apply val_1; lia|].
    replace (-1074)%Z with (-537 + -537)%Z by lia. rewrite bpow_plus. apply sqrt_square. apply bpow_ge_0.
  - split; [split; [auto|exact I]|reflexivity].
Qed.
Lemma zero_eq : flit b64ops 0 1 = f0.
Proof. reflexivity. Qed.
Lemma sum_nn : forall xs s, nn s -> Forall nn xs -> nn (fold_left (fadd b64ops) xs s) /\ fleb s (fold_left (fadd b64ops) xs s) = true /\
  forall a, In a xs -> fleb a (fold_left (fadd b64ops) xs s) = true.
Proof.
  assert (T : forall a b c, fleb a b = true -> fleb b c = true -> fleb a c = true) by (intros [| |x|] [| |y|] [| |z|] H1 H2; simpl in *; auto; try discriminate; apply Z.leb_le; apply Z.leb_le in H1, H2; lia).
  induction xs as [|x xs IH]; intros s Hs Hx.
  - cbn [fold_left]. split; auto. split; [|intros a []]. destruct Hs as [_ Hs]. destruct s; try contradiction; simpl; auto. apply Z.leb_refl.
  - inversion Hx; subst. destruct (add_nn s x) as (A1 & A2 & A3); auto. destruct (IH (fadd b64ops s x)) as (B1 & B2 & B3); auto. cbn [fold_left].
    split; auto. split; [eapply T; eauto|]. intros a [<-|Ha]; auto. eapply T; eauto.
Qed.
Definition finite (a : num) : Prop := is64 a /\ match a with Fin _ => True | _ => False end.
Lemma sub_not_nan : forall a b, finite a -> finite b -> fsub b64ops a b <> NaN.
Proof.
  intros [| |x|] [| |y|] [Ha Na] [Hb Nb] E; try contradiction. destruct (Rlt_or_le (Rabs (rnd64 (val x - val y))) (bpow radix2 1024)) as [H|H].
  - destruct (sub64 _ _ Ha Hb H) as (z & E' & _). congruence.
  - rewrite (sub64_over _ _ Ha Hb H) in E. destruct (Rlt_bool _ _); discriminate.
Qed.
Lemma squares_nn : forall u v, Forall finite u -> Forall finite v -> Forall nn (map (fun a => fmul b64ops a a) (vsub b64ops u v)).
Proof.
  unfold vsub. induction u as [|a u IH]; intros [|b v] Hu Hv; cbn [map2 map]; auto. inversion Hu; inversion Hv; subst. constructor; auto.
  apply square_nn; [apply sub_is64|apply sub_not_nan; auto].
Qed.
Lemma zero_nn : nn f0.
Proof. split; [reflexivity|]. simpl. lia. Qed.
(** between points with finite coordinates it is a number, possibly infinite, that is not negative *)
Theorem C135_nonneg : forall u v, Forall finite u -> Forall finite v -> dist u v <> NaN /\ fleb f0 (dist u v) = true.
Proof.
  intros u v Hu Hv. assert (N : nn (dist u v)).
  { unfold euclidean, vsum. rewrite zero_eq. apply sqrt_nn. apply sum_nn; [apply zero_nn|apply squares_nn; auto]. }
  destruct N as [_ N]. destruct (dist u v) as [| |z|]; try contradiction; split; try discriminate; auto. unfold f0. apply fleb_nn. auto.
Qed.
(** for coordinates that may be infinite or NaN it may be NaN but is not negative *)
Theorem C135_never_negative : forall u v, fltb (dist u v) f0 = false.
Proof.
  intros u v. unfold euclidean, vsum. rewrite zero_eq.
  assert (Q : forall a, fltb (fsqrt b64ops a) f0 = false).
  { intros a. cbn [fsqrt b64ops]. destruct (to_sf a) as [s|[|]| |[|] m e]; try reflexivity. cbn [SFsqrt]. destruct (SFsqrt_core_binary _ _ _ _) as [[mz ez] lz]. unfold SpecFloat.binary_round_aux.
    destruct (shr_fexp 53 1024 _ _ _) as [mrs1 e1]. destruct (shr_fexp 53 1024 _ e1 _) as [mrs2 e2]. destruct (shr_m mrs2); [reflexivity| |reflexivity].
    destruct (e2 <=? _)%Z; [|reflexivity]. cbn [of_sf]. unfold f0, fltb. apply Z.ltb_ge. assert (0 <= 2 ^ (e2 + 1074))%Z by (apply Z.pow_nonneg; lia). nia. }
  apply Q.
Qed.
Lemma sub_self : forall a, finite a -> fsub b64ops a a = f0.
Proof.
  intros [| |x|] [Ha Na]; try contradiction. cbn [fsub b64ops]. unfold sf2. destruct (is64_fin _ Ha) as [Fx _]. rewrite to_sf_eq. destruct (num2b (Fin x)) as [s|s| |s m e Hb]; try discriminate; cbn [B2SF SFsub].
    - destruct s; reflexivity.
    - cbv zeta. rewrite Z.sub_diag. reflexivity.
Qed.
(** a point with finite coordinates is at distance 0 from itself *)
Theorem C135_self : forall u, Forall finite u -> dist u u = f0.
Proof.
  intros u Hu. unfold euclidean, vsum. rewrite zero_eq.
  assert (G : forall us, Forall finite us -> fold_left (fadd b64ops) (map (fun a => fmul b64ops a a) (vsub b64ops us us)) f0 = f0).
  { unfold vsub. induction us as [|a us IH]; intros H; auto. inversion H; subst. cbn [map2 map fold_left]. rewrite (sub_self a) by auto. apply IH. auto. }
  rewrite G by auto. reflexivity.
Qed.
Lemma square_pos : forall x y, is64 (Fin x) -> is64 (Fin y) -> (2 ^ 537 <= Z.abs (x - y))%Z ->
  fltb f0 (fmul b64ops (fsub b64ops (Fin x) (Fin y)) (fsub b64ops (Fin x) (Fin y))) = true.
Proof.
  intros x y Hx Hy H.
  assert (D : (bpow radix2 (-537) <= Rabs (val x - val y))%R).
  { unfold val. rewrite <- Rmult_minus_distr_r, <- minus_IZR, Rabs_mult, <- abs_IZR, (Rabs_pos_eq (bpow radix2 (-1074))) by apply bpow_ge_0. apply IZR_le in H.
    change 2%Z with (radix_val radix2) in H. rewrite (IZR_Zpower radix2) in H by lia. replace (-537)%Z with (537 + -1074)%Z at 1 by lia. rewrite bpow_plus. apply Rmult_le_compat_r; [apply bpow_ge_0|exact H]. }
  assert (D' : (bpow radix2 (-537) <= Rabs (rnd64 (val x - val y)))%R).
  { apply abs_round_ge_generic; [exact valid_fmt|apply valid_rnd_N|apply bp_fmt; lia|exact D]. }
  destruct (Rlt_or_le (Rabs (rnd64 (val x - val y))) (bpow radix2 1024)) as [L|L].
  2: { rewrite (sub64_over _ _ Hx Hy L). destruct (Rlt_bool _ _); reflexivity. }
  destruct (sub64 _ _ Hx Hy L) as (t & -> & Ht & Et). rewrite <- Et in D'.
  assert (T : (bpow radix2 (-1074) <= val t * val t)%R).
  { replace (-1074)%Z with (-537 + -537)%Z by lia. rewrite bpow_plus. replace (val t * val t)%R with (Rabs (val t) * Rabs (val t))%R by (rewrite <- Rabs_mult; apply Rabs_pos_eq; apply Rle_0_sqr).
    apply Rmult_le_compat; auto; apply bpow_ge_0. }
  destruct (square_nn (Fin t) Ht) as [_ SN]; [discriminate|].
  destruct (Rlt_or_le (Rabs (rnd64 (val t * val t))) (bpow radix2 1024)) as [L2|L2].
  - destruct (mul64 _ _ Ht Ht L2) as (s & E & Hs' & Es). rewrite E. unfold f0. apply fltb_val. rewrite val_0, Es. apply Rlt_le_trans with (bpow radix2 (-1074)); [apply bpow_gt_0|].
    rewrite <- (rnd64_id (bpow radix2 (-1074))) by (apply bp_fmt; lia). apply rnd64_le. exact T.
  - revert SN. destruct (fmul b64ops (Fin t) (Fin t)) as [| |s|] eqn:E; intros SN; try contradiction; [|reflexivity]. exfalso.
    assert (X := Bmult_correct 53 1024 prec_gt_0_53 prec_lt_emax_53 mode_NE (num2b (Fin t)) (num2b (Fin t))). destruct (is64_fin _ Ht) as [Ft Ft']. rewrite Ft' in X. change (SpecFloat.fexp 53 1024) with fmt in X.
    change (round radix2 fmt (round_mode mode_NE) (val t * val t)) with (rnd64 (val t * val t)) in X. rewrite Rlt_bool_false in X by auto.
    rewrite xorb_nilpotent in X. apply over_pos in X. cbn [fmul b64ops] in E. unfold sf2 in E. rewrite !to_sf_eq, mul_equiv in E. assert (Fin s = PInf) by (rewrite <- E; exact X). discriminate.
Qed.

(** ** In any order of the additions *)
(** the squares of the coordinates of u - v *)
Definition squares (u v : vec) : list num := map (fun a => fmul b64ops a a) (vsub b64ops u v).
(** s is a sum of xs, added in some order with some bracketing; numpy.sum adds short arrays from left to right and long ones in blocks *)
Inductive adds : list num -> num -> Prop :=
| adds_0 : adds [] f0
| adds_1 : forall a, adds [a] a
| adds_app : forall xs ys a b, adds xs a -> adds ys b -> adds (xs ++ ys) (fadd b64ops a b)
| adds_perm : forall xs ys a, Permutation xs ys -> adds xs a -> adds ys a.
Lemma adds_left : forall xs, adds xs (vsum b64ops xs).
Proof.
  assert (G : forall ys xs s, adds xs s -> adds (xs ++ ys) (fold_left (fadd b64ops) ys s)).
  { induction ys as [|y ys IH]; intros xs s H; [rewrite app_nil_r; auto|]. cbn [fold_left]. replace (xs ++ y :: ys) with ((xs ++ [y]) ++ ys) by (rewrite <- app_assoc; reflexivity).
    apply IH. apply adds_app; auto. constructor. }
  intros xs. apply (G xs [] f0). constructor.
Qed.
Lemma fleb_trans' : forall a b c, fleb a b = true -> fleb b c = true -> fleb a c = true.
Proof. intros [| |x|] [| |y|] [| |z|] H1 H2; simpl in *; auto; try discriminate; apply Z.leb_le; apply Z.leb_le in H1, H2; lia. Qed.
Lemma adds_nn : forall xs s, adds xs s -> Forall nn xs -> nn s /\ (forall a, In a xs -> fleb a s = true).
Proof.
  intros xs s H. induction H as [|a|xs ys a b H1 IH1 H2 IH2|xs ys a P H IH]; intros Hx.
  - split; [apply zero_nn|intros a []].
  - inversion Hx; subst. split; auto. intros b [<-|[]]. destruct H1 as [_ H1]. destruct a; try contradiction; simpl; auto. apply Z.leb_refl.
  - apply Forall_app in Hx. destruct Hx as [X1 X2]. destruct (IH1 X1) as [A1 A2]. destruct (IH2 X2) as [B1 B2]. destruct (add_nn a b) as (C1 & C2 & C3); auto. split; auto.
    intros c Hc. apply in_app_or in Hc. destruct Hc as [Hc|Hc]; eapply fleb_trans'; eauto.
  - destruct IH as [A1 A2]; [eapply Permutation_Forall; [apply Permutation_sym; exact P|exact Hx]|]. split; auto. intros c Hc. apply A2. eapply Permutation_in; [apply Permutation_sym; exact P|exact Hc].
Qed.
Lemma adds_zero : forall xs s, adds xs s -> Forall (fun a => a = f0) xs -> s = f0.
Proof.
  intros xs s H. induction H as [|a|xs ys a b H1 IH1 H2 IH2|xs ys a P H IH]; intros Hx; auto.
  - inversion Hx; auto.
  - apply Forall_app in Hx. destruct Hx as [X1 X2]. rewrite (IH1 X1), (IH2 X2). reflexivity.
  - apply IH. eapply Permutation_Forall; [apply Permutation_sym; exact P|exact Hx].
Qed.
Theorem C135_any_order : forall u v s, adds (squares u v) s -> let d := fsqrt b64ops s in
  adds (squares v u) s /\
  (Forall finite u -> Forall finite v -> d <> NaN /\ fleb f0 d = true) /\
  (Forall finite u -> u = v -> d = f0) /\
  (forall k x y, Forall finite u -> Forall finite v -> nth_error u k = Some (Fin x) -> nth_error v k = Some (Fin y) -> (2 ^ 537 <= Z.abs (x - y))%Z -> fltb f0 d = true).
Proof.
  intros u v s Hs d. split; [|split; [|split]].
  - replace (squares v u) with (squares u v); auto. unfold squares, vsub. clear. revert v. induction u as [|a u IH]; intros [|b v]; auto. cbn [map2 map]. f_equal; auto. rewrite (sub_opp a b). apply square_neg. apply sub_is64.
  - intros Hu Hv. destruct (adds_nn _ _ Hs (squares_nn u v Hu Hv)) as [N _]. destruct (sqrt_nn s N) as [[_ M] _]. subst d. destruct (fsqrt b64ops s) as [| |z|]; try contradiction; split; try discriminate; auto.
    unfold f0. apply fleb_nn. auto.
  - intros Hu <-. subst d. replace s with f0; [reflexivity|]. symmetry. apply (adds_zero _ _ Hs). unfold squares, vsub. clear - Hu. induction Hu as [|a u Ha Hu IH]; cbn [map2 map]; constructor; auto. rewrite (sub_self a Ha). reflexivity.
  - intros k x y Hu Hv Ex Ey H. destruct (adds_nn _ _ Hs (squares_nn u v Hu Hv)) as [N M]. apply sqrt_nn; auto.
    assert (Fx : finite (Fin x)) by (eapply Forall_forall in Hu; [exact Hu|eapply nth_error_In; eauto]). assert (Fy : finite (Fin y)) by (eapply Forall_forall in Hv; [exact Hv|eapply nth_error_In; eauto]).
    assert (Hi : In (fmul b64ops (fsub b64ops (Fin x) (Fin y)) (fsub b64ops (Fin x) (Fin y))) (squares u v)).
    { apply nth_error_In with k. unfold squares, vsub. clear - Ex Ey. revert k v Ex Ey. induction u as [|a u IH]; intros [|k] [|b v] Ex Ey; try discriminate; cbn [nth_error map2 map] in *; auto. congruence. }
    apply M in Hi. assert (P := square_pos x y (proj1 Fx) (proj1 Fy) H). revert P Hi. generalize (fmul b64ops (fsub b64ops (Fin x) (Fin y)) (fsub b64ops (Fin x) (Fin y))). clear.
    intros [| |t|] P Hs; destruct s as [| |z|]; simpl in *; auto; try discriminate. apply Z.ltb_lt. apply Z.ltb_lt in P. apply Z.leb_le in Hs. lia.
Qed.
(** points that are at least 2^-537 apart in one coordinate are not at distance 0 *)
Theorem C135_apart : forall u v k x y, Forall finite u -> Forall finite v -> nth_error u k = Some (Fin x) -> nth_error v k = Some (Fin y) ->
  (2 ^ 537 <= Z.abs (x - y))%Z -> fltb f0 (dist u v) = true.
Proof. intros u v k x y Hu Hv Ex Ey H. apply (C135_any_order u v _ (adds_left _)) with k x y; auto. Qed.

(** ** What is not true *)
(** different points at distance 0: the square of the difference underflows *)
Theorem C135_identity_refuted : exists u v, Forall finite u /\ Forall finite v /\ u <> v /\ length u = length v /\ dist u v = f0.
Proof. exists [Fin 1], [Fin 0]. repeat split; try (repeat constructor; fail); try discriminate. Qed.
(** the way over a third point can be shorter *)
Theorem C135_triangle_refuted : exists u v w, Forall finite u /\ Forall finite v /\ Forall finite w /\ length u = length w /\ length v = length w /\
  fltb (fadd b64ops (dist u w) (dist w v)) (dist u v) = true.
Proof.
  exists [Fin 0], [Fin (3 * 2 ^ 535)], [Fin (3 * 2 ^ 534)]. assert (X : forall z, is64 (Fin z) -> Forall finite [Fin z]) by (intros z H; repeat constructor; exact H).
  split; [apply X; reflexivity|]. split; [apply X; vm_compute; reflexivity|]. split; [apply X; vm_compute; reflexivity|]. split; [reflexivity|]. split; [reflexivity|]. vm_compute. reflexivity.
Qed.
(** the distance of points with finite coordinates can be infinite *)
Theorem C135_finite_refuted : exists u v, Forall finite u /\ Forall finite v /\ length u = length v /\ dist u v = PInf.
Proof.
  exists [Fin 0], [Fin (2 ^ 1600)]. assert (X : forall z, is64 (Fin z) -> Forall finite [Fin z]) by (intros z H; repeat constructor; exact H).
  split; [apply X; reflexivity|]. split; [apply X; vm_compute; reflexivity|]. split; [reflexivity|]. vm_compute. reflexivity.
Qed.
(** the usual case: 3, 4, 5 *)
Example dist_shown : dist [N' 1; N' 2] [N' 4; N' 6] = N' 5 /\ dist [N' 4; N' 6] [N' 1; N' 2] = N' 5 /\ dist [NInf; N' 2] [NInf; N' 6] = NaN.
Proof. vm_compute. auto. Qed.
Example hyps : Forall finite [N' 1; N' 2] /\ Forall finite [N' 4; N' 6] /\ (2 ^ 537 <= Z.abs (1 * fx_scale - 4 * fx_scale))%Z.
Proof. repeat constructor; vm_compute; auto; discriminate. Qed.
Example order_shown : adds (squares [N' 1; N' 2; N' 0] [N' 4; N' 6; N' 12]) (fadd b64ops (N' 144) (fadd b64ops (N' 16) (N' 9))) /\ fsqrt b64ops (fadd b64ops (N' 144) (fadd b64ops (N' 16) (N' 9))) = N' 13.
Proof.
  split; [|vm_compute; reflexivity]. assert (E : squares [N' 1; N' 2; N' 0] [N' 4; N' 6; N' 12] = [N' 9; N' 16; N' 144]) by (vm_compute; reflexivity). rewrite E.
  apply adds_perm with ([N' 144] ++ ([N' 16] ++ [N' 9])); [|repeat constructor]. apply perm_trans with [N' 144; N' 9; N' 16]; [repeat constructor|]. apply perm_trans with [N' 9; N' 144; N' 16]; repeat constructor.
Qed.
