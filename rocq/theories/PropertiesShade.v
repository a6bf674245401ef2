(** Final theorems about SuccessHistoryAdaptiveDifferentialEvolution, LpsrSuccessHistoryAdaptiveDifferentialEvolution and
    ImprovedLpsrSuccessHistoryAdaptiveDifferentialEvolution (C89-C92). *)
From Coq Require Import ZArith Lia Bool List Permutation Sorting.Sorted SpecFloat Reals Lra.
From Flocq Require Import Core Relative.
From Verif Require Import Num Task TaskSpec TaskProofs TaskProofs2 Prog Wp GetBest Run RunSpec RunProofs RunProofs2
  AlgoLib Fops AlgTac StepSpec StepLib Indiv IndivLib AlgDE DESpec AlgDEProofs AlgPSO AlgPSOProofs Reach AlgBasic AlgBasic2 AlgBasic2Proofs Repair PropertiesRepair B64 B64Spec B64Int B64Mag ExLib ExLib2
  PropertiesDE PropertiesBasic2 AlgMod AlgModProofs PropertiesMod Guard AlgShade AlgShadeProofs.
Import ListNotations.
Open Scope nat_scope.

(** ** C89: runs *)
Definition sh_exn (e : exn) : Prop := e = EValue \/ e = EOverflow \/ e = EIndex \/ e = ERecursion.
Lemma py_round_exn : forall x e, py_round x = Raise e -> sh_exn e.
Proof. intros [| |z|] e H; cbn in H; try discriminate; injection H as <-; unfold sh_exn; auto. Qed.
Lemma py_round_fin : forall z e, py_round (Fin z) = Raise e -> False.
Proof. intros z e H. discriminate. Qed.
Lemma py_int_exn : forall F x e, py_int F x = Raise e -> sh_exn e.
Proof. intros F [| |z|] e H; cbn in H; try discriminate; injection H as <-; unfold sh_exn; auto. Qed.
(** whatever the arithmetic and the parameters *)
Theorem C89_shade : forall F pi E p, let C := e_cfg E in
  cfg_ok C -> no_nan (e_prob E) -> repair_ok E -> 0 < sh_n p ->
  best_run_x sh_exn E (shade F pi C p) /\ sizes_ok (fun n => min (sh_n p) 4 <= n <= sh_n p) E (shade F pi C p).
Proof.
  intros F pi E p C HC Hn Hr Hp. apply (shade_all F pi C p sh_exn (fun _ => True) (fun _ => True)); auto; try (right; unfold sh_exn; auto; fail); try (unfold sh_exn; auto; fail).
  - intros. eapply py_round_exn; eauto.
  - intros. eapply py_round_exn; eauto.
  - intros. eapply py_round_exn; eauto.
  - intros. eapply py_int_exn; eauto.
Qed.

(** an arithmetic whose + - * / and numerals are those of binary64; tan may be anything *)
Definition arith64 (F : fops) : Prop :=
  fadd F = fadd b64ops /\ fsub F = fsub b64ops /\ fmul F = fmul b64ops /\ fdiv F = fdiv b64ops /\ flit F = flit b64ops /\ fint F = fint b64ops.
Definition evals_64 (m : lim) : Prop := exists k, m = LFin k /\ (0 < k <= 2 ^ 53)%Z.
Definition two960 : num := Fin (2 ^ 2034).
Lemma val_pow : forall e, (0 <= e)%Z -> val (2 ^ (e + 1074)) = bpow radix2 e.
Proof. intros e H. unfold val. change 2%Z with (radix_val radix2) at 1. rewrite (IZR_Zpower radix2) by lia. rewrite <- bpow_plus. f_equal. lia. Qed.
Lemma val_1 : val (2 ^ 1074) = 1%R.
Proof. change 1074%Z with (0 + 1074)%Z. rewrite val_pow by lia. reflexivity. Qed.
Lemma int_le_bpow : forall n, (Z.abs n <= 2 ^ 53)%Z -> (Rabs (IZR n) <= bpow radix2 53)%R.
Proof. intros n H. rewrite <- abs_IZR. rewrite <- (IZR_Zpower radix2) by lia. apply IZR_le. exact H. Qed.
Lemma fnat64 : forall n, (Z.of_nat n <= 2 ^ 53)%Z -> fnat b64ops n = Fin (Z.of_nat n * 2 ^ 1074) /\ is64 (fnat b64ops n).
Proof. intros n H. unfold fnat. cbn [flit b64ops]. rewrite lit_int by lia. split; [reflexivity|apply is64_int; lia]. Qed.
(** a number between -2^107 and 1 *)
Definition pb64 (x : num) : Prop := btw (- bpow radix2 107) 1 x.
Lemma share_round : forall n pb, (Z.of_nat n <= 2 ^ 53)%Z -> pb64 pb -> exists z, fmul b64ops (fnat b64ops n) pb = Fin z /\ (round_z z <= Z.of_nat n)%Z.
Proof.
  intros n pb Hb (u & -> & Hu & U). destruct (fnat64 n Hb) as [E1 E2]. set (N := Z.of_nat n) in *. rewrite E1 in *.
  assert (N0 : (0 <= IZR N)%R) by (apply IZR_le; lia). assert (N1 := int_le_bpow N ltac:(lia)). rewrite Rabs_pos_eq in N1 by auto. assert (B54 : (0 < bpow radix2 107)%R) by apply bpow_gt_0.
  destruct (btw_mul (Fin (N * 2 ^ 1074)) (Fin u) (- bpow radix2 160) (IZR N) _ _ eq_refl eq_refl E2 Hu) as (z & Z1 & Z2 & Z3).
  - apply ok64_opp. apply ok64_bpow. lia.
  - apply ok64_int. lia.
  - rewrite val_int. split; [|nra]. replace (bpow radix2 160) with (bpow radix2 53 * bpow radix2 107)%R by (rewrite <- bpow_plus; reflexivity).
    apply Rle_trans with (IZR N * - bpow radix2 107)%R; [nra|]. apply Rmult_le_compat_l; lra.
  - exists z. split; auto. rewrite <- (round_z_int N). apply round_z_mono. apply val_le. rewrite val_int. lra.
Qed.
Definition rate64 (r : num) : Prop := is64 r /\ fleb f0 r = true /\ fleb r two960 = true.
Lemma rate_round : forall m n r, m <= n -> (Z.of_nat n <= 2 ^ 53)%Z -> rate64 r ->
  exists y z, fmul b64ops (fnat b64ops m) r = Fin y /\ fmul b64ops (fnat b64ops n) r = Fin z /\ (0 <= y <= z)%Z.
Proof.
  intros m n r Hmn Hb (Hr & R1 & R2). destruct r as [| |u|]; try discriminate. unfold f0, two960 in *. apply fleb_val in R1. apply fleb_val in R2. rewrite val_0 in R1.
  change 2034%Z with (960 + 1074)%Z in R2. rewrite val_pow in R2 by lia.
  destruct (fnat64 n Hb) as [E1 E2]. destruct (fnat64 m) as [E3 E4]; [lia|]. rewrite E1, E3 in *. set (N := Z.of_nat n) in *. set (M := Z.of_nat m) in *.
  assert (M0 : (0 <= IZR M)%R) by (apply IZR_le; lia). assert (MN : (IZR M <= IZR N)%R) by (apply IZR_le; lia). assert (N1 := int_le_bpow N ltac:(lia)). rewrite Rabs_pos_eq in N1 by lra.
  assert (O0 : ok64 0) by (apply (ok64_int 0); simpl; lia). assert (O1 : ok64 (bpow radix2 1013)) by (apply ok64_bpow; lia).
  assert (B0 : (0 < bpow radix2 53)%R) by apply bpow_gt_0. assert (B1 : (0 < bpow radix2 960)%R) by apply bpow_gt_0. assert (B2 : bpow radix2 1013 = (bpow radix2 53 * bpow radix2 960)%R) by (rewrite <- bpow_plus; reflexivity).
  assert (G : forall k, (0 <= IZR k <= IZR N)%R -> (0 <= IZR k * val u <= bpow radix2 1013)%R).
  { intros k [K1 K2]. split; [nra|]. rewrite B2. apply Rle_trans with (IZR k * bpow radix2 960)%R; [apply Rmult_le_compat_l; auto|apply Rmult_le_compat_r; lra]. }
  destruct (rnd_in _ _ _ O0 O1 (G M ltac:(lra))) as [Y1 Y2]. destruct (rnd_in _ _ _ O0 O1 (G N ltac:(lra))) as [Z1 Z2].
  destruct (mul64 (M * 2 ^ 1074) u E4 Hr) as (y & A1 & A2 & A3); [rewrite val_int; auto|]. destruct (mul64 (N * 2 ^ 1074) u E2 Hr) as (z & C1 & C2 & C3); [rewrite val_int; auto|].
  exists y, z. split; auto. split; auto. rewrite val_int in A3, C3. split; apply val_le; [rewrite val_0; lra|]. rewrite A3, C3. apply rnd64_le. apply Rmult_le_compat_r; lra.
Qed.
(** a line through the numbers of evaluations, scaled by the limit *)
Lemma scaled_line : forall C nfe u, evals_64 (c_max_evals C) -> within C nfe = true -> is64 (Fin u) -> (- bpow radix2 53 <= val u <= 0)%R ->
  btw (- bpow radix2 106) 0 (fmul b64ops (fdiv b64ops (Fin u) (flim b64ops (c_max_evals C))) (fnat b64ops nfe)).
Proof.
  intros C nfe u (k & Ek & He) Hw Hu U. unfold within in Hw. rewrite Ek in *. cbn [flim].
  apply Z.leb_le in Hw. unfold fz. cbn [flit b64ops]. rewrite lit_int by lia. assert (K1 : (1 <= IZR k)%R) by (apply IZR_le; lia).
  assert (K2 := int_le_bpow k ltac:(lia)). rewrite Rabs_pos_eq in K2 by lra.
  destruct (fnat64 nfe ltac:(lia)) as [E1 E2]. rewrite E1 in *. set (N := Z.of_nat nfe) in *. assert (N0 : (0 <= IZR N)%R) by (apply IZR_le; lia).
  assert (N1 := int_le_bpow N ltac:(lia)). rewrite Rabs_pos_eq in N1 by auto. assert (B0 : (0 < bpow radix2 53)%R) by apply bpow_gt_0.
  assert (O0 : ok64 0) by (apply (ok64_int 0); simpl; lia).
  destruct (btw_div (Fin u) (Fin (k * 2 ^ 1074)) (- bpow radix2 53) 0 _ _ eq_refl eq_refl Hu (is64_int k ltac:(lia))) as (q & Q1 & Q2 & Q3); auto.
  - apply ok64_opp. apply ok64_bpow. lia.
  - rewrite val_int. lra.
  - rewrite val_int. assert (I0 : (0 < / IZR k <= 1)%R) by (split; [apply Rinv_0_lt_compat; lra|rewrite <- Rinv_1; apply Rinv_le; lra]). unfold Rdiv. split; nra.
  - rewrite Q1. eapply btw_mul; [reflexivity|reflexivity|auto|auto|apply ok64_opp; apply ok64_bpow; lia|auto|]. rewrite val_int.
    replace (bpow radix2 106) with (bpow radix2 53 * bpow radix2 53)%R by (rewrite <- bpow_plus; reflexivity).
    assert (V0 : (0 <= - val q <= bpow radix2 53)%R) by lra. assert (W1 : (- val q * IZR N <= bpow radix2 53 * bpow radix2 53)%R) by (apply Rmult_le_compat; lra).
    assert (W2 : (0 <= - val q * IZR N)%R) by (apply Rmult_le_pos; lra). lra.
Qed.
Lemma line_end : forall C nfe u v, evals_64 (c_max_evals C) -> within C nfe = true -> is64 (Fin u) -> (- bpow radix2 53 <= val u <= 0)%R -> is64 (Fin v) -> (0 <= val v)%R ->
  btw (- bpow radix2 107) (val v) (fadd b64ops (fmul b64ops (fdiv b64ops (Fin u) (flim b64ops (c_max_evals C))) (fnat b64ops nfe)) (Fin v)).
Proof.
  intros C nfe u v He Hw Hu U Hv V. destruct (scaled_line C nfe u He Hw Hu U) as (z & -> & Hz & Z1).
  eapply btw_add; [reflexivity|reflexivity|auto|auto|apply ok64_opp; apply ok64_bpow; lia|apply ok64_val; auto|].
  assert (bpow radix2 106 <= bpow radix2 107)%R by (apply bpow_le; lia). lra.
Qed.
(** pbest_factor and pbest_end: binary64 numbers with 0 <= end <= start <= 1 *)
Definition unit64 (x : num) : Prop := is64 x /\ fleb f0 x = true /\ fleb x one64 = true.
Theorem C89_shade_64 : forall F pi E p, let C := e_cfg E in arith64 F ->
  cfg_ok C -> 0 < c_dim C -> no_nan (e_prob E) -> repair_ok E -> 3 <= sh_n p -> (Z.of_nat (sh_n p) <= 2 ^ 53)%Z -> 0 < sh_h p ->
  unit64 (sh_pb p) -> rate64 (sh_rate p) -> (sh_kd p <> SHADE -> evals_64 (c_max_evals C)) -> (sh_kd p = ILSHADE -> unit64 (sh_end p) /\ fleb (sh_end p) (sh_pb p) = true) ->
  best_run_x (fun e => e = ERecursion) E (shade F pi C p).
Proof.
  intros F pi E p C (F1 & F2 & F3 & F4 & F5 & F6) HC Hd Hn Hr H3 Hb Hh (P1 & P2 & P3) Hrt Hev Hend.
  assert (Fn : forall n, fnat F n = fnat b64ops n) by (intros; unfold fnat; rewrite F5; reflexivity). assert (Fl : forall m, flim F m = flim b64ops m) by (intros [|k]; cbn [flim]; unfold fz; rewrite ?F5; reflexivity).
  assert (Up : exists v, sh_pb p = Fin v /\ (0 <= val v <= 1)%R).
  { destruct (sh_pb p) as [| |v|]; try discriminate. exists v. split; auto. unfold f0, one64 in *. apply fleb_val in P2. apply fleb_val in P3. rewrite val_0 in P2. rewrite val_1 in P3. lra. }
  destruct Up as (v & Ev & V). rewrite Ev in P1. assert (B54 : (1 <= bpow radix2 53 <= bpow radix2 54)%R) by (split; [change 1%R with (bpow radix2 0)|]; apply bpow_le; lia).
  assert (B107 : (bpow radix2 53 <= bpow radix2 107)%R) by (apply bpow_le; lia).
  apply (shade_all F pi C p (fun e => e = ERecursion) pb64 (fun _ => True)); auto; try lia.
  - rewrite Ev. exists v. split; auto. split; auto. lra.
  - intros n pb e L1 L2 Hpb H. rewrite Fn, F3 in H. destruct (share_round n pb ltac:(lia) Hpb) as (z & Z1 & Z2). rewrite Z1 in H. discriminate.
  - intros n pb k L1 L2 Hpb H. rewrite Fn, F3 in H. destruct (share_round n pb ltac:(lia) Hpb) as (z & Z1 & Z2). rewrite Z1 in H. injection H as <-. left. cbn [fround]. lia.
  - intros n e L1 L2 H. rewrite Fn, F3 in H. destruct (rate_round n (sh_n p) (sh_rate p) L2 Hb Hrt) as (y & z & Y & Z & YZ). rewrite Y in H. discriminate.
  - intros n k L1 L2 H. left. unfold sh_asz0. rewrite !Fn, F3 in *. destruct (rate_round n (sh_n p) (sh_rate p) L2 Hb Hrt) as (y & z & Y & Z & YZ). rewrite Y in H. injection H as <-. rewrite Z. cbn [fround].
    assert (M := round_z_mono y z ltac:(lia)). assert (M0 := round_z_mono (0 * 2 ^ 1074) y ltac:(lia)). rewrite round_z_int in M0. lia.
  - left. rewrite Fn, F3. destruct (rate_round (sh_n p) (sh_n p) (sh_rate p) ltac:(lia) Hb Hrt) as (y & z & Y & Z & YZ). rewrite Z. cbn [fround]. assert (M0 := round_z_mono (0 * 2 ^ 1074) z ltac:(lia)). rewrite round_z_int in M0. lia.
  - intros Hk nfe e Hw H. exfalso. unfold next_size in H. rewrite Fl, !Fn, F1, F2, F3, F4, F5 in H. destruct (fnat64 (sh_n p) Hb) as [N1 N2]. cbn [flit b64ops] in H. rewrite lit_int in H by (simpl; lia). rewrite N1 in *.
    set (N := Z.of_nat (sh_n p)) in *. assert (I4 := is64_int 4 ltac:(simpl; lia)). assert (NN := int_le_bpow N ltac:(lia)). assert (N3 : (3 <= IZR N)%R) by (apply IZR_le; lia). rewrite Rabs_pos_eq in NN by lra.
    destruct (Z.le_gt_cases 4 N) as [L|L].
    + assert (N4 : (4 <= IZR N)%R) by (apply IZR_le; lia).
      destruct (btw_sub (Fin (4 * 2 ^ 1074)) (Fin (N * 2 ^ 1074)) (- bpow radix2 53) 0 _ _ eq_refl eq_refl I4 N2) as (u & U1 & U2 & U3); [apply ok64_opp, ok64_bpow; lia|apply (ok64_int 0); simpl; lia|rewrite !val_int; lra|].
      rewrite U1 in H. destruct (line_end C nfe u (N * 2 ^ 1074) (Hev Hk) Hw U2 U3 N2) as (z & Z1 & _); [rewrite val_int; lra|]. fold C in H. rewrite Z1 in H. exact (py_round_fin _ _ H).
    + assert (N = 3%Z) as -> by lia. destruct (Hev Hk) as (k & Ek & Hk2). fold C in H. unfold within in Hw. fold C in Hw. rewrite Ek in H, Hw. cbn [flim] in H. unfold fz in H. cbn [flit b64ops] in H. rewrite lit_int in H by lia.
      apply Z.leb_le in Hw. destruct (fnat64 nfe ltac:(lia)) as [M1 M2]. rewrite M1 in *. set (M := Z.of_nat nfe) in *.
      assert (K1 : (1 <= IZR k)%R) by (apply IZR_le; lia). assert (M0 : (0 <= IZR M)%R) by (apply IZR_le; lia). assert (M3 := int_le_bpow M ltac:(lia)). rewrite Rabs_pos_eq in M3 by auto.
      assert (O0 : ok64 0) by (apply (ok64_int 0); simpl; lia). assert (O1 : ok64 1) by (apply (ok64_int 1); simpl; lia).
      destruct (btw_sub (Fin (4 * 2 ^ 1074)) (Fin (3 * 2 ^ 1074)) 0 1 _ _ eq_refl eq_refl I4 N2) as (u & U1 & U2 & U3); auto; [rewrite !val_int; lra|]. rewrite U1 in H.
      assert (I0 : (0 < / IZR k <= 1)%R) by (split; [apply Rinv_0_lt_compat; lra|rewrite <- Rinv_1; apply Rinv_le; lra]).
      destruct (btw_div (Fin u) (Fin (k * 2 ^ 1074)) 0 1 _ _ eq_refl eq_refl U2 (is64_int k ltac:(lia))) as (q & Q1 & Q2 & Q3); auto; [rewrite val_int; lra|rewrite val_int; unfold Rdiv; split; nra|]. rewrite Q1 in H.
      destruct (btw_mul (Fin q) (Fin (M * 2 ^ 1074)) 0 (bpow radix2 53) _ _ eq_refl eq_refl Q2 M2) as (m & R1 & R2 & R3); auto; [apply ok64_bpow; lia|rewrite val_int; split; nra|]. rewrite R1 in H.
      destruct (btw_add (Fin m) (Fin (3 * 2 ^ 1074)) 0 (bpow radix2 55) _ _ eq_refl eq_refl R2 N2) as (t & T1 & _); auto; [apply ok64_bpow; lia| |rewrite T1 in H; exact (py_round_fin _ _ H)].
      rewrite val_int. assert (bpow radix2 55 = 4 * bpow radix2 53)%R by (change 4%R with (bpow radix2 2); rewrite <- bpow_plus; reflexivity). lra.
  - intros Hk n e L1 L2 H. exfalso. rewrite Fn, F3 in H. destruct (rate_round n (sh_n p) (sh_rate p) L2 Hb Hrt) as (y & z & Y & Z & YZ). rewrite Y in H. discriminate.
  - intros Hk nfe Hw. destruct (Hend Hk) as [(E1 & E2 & E3) E4]. rewrite Fl, Fn, F1, F2, F3, F4. destruct (sh_end p) as [| |w|]; try discriminate. rewrite Ev in *. unfold f0, one64 in *. apply fleb_val in E2. apply fleb_val in E3. apply fleb_val in E4. rewrite val_0 in E2.
    destruct (btw_sub (Fin w) (Fin v) (- bpow radix2 53) 0 _ _ eq_refl eq_refl E1 P1) as (u & U1 & U2 & U3); [apply ok64_opp, ok64_bpow; lia|apply (ok64_int 0); simpl; lia|lra|].
    rewrite U1. assert (Hev' : evals_64 (c_max_evals C)) by (apply Hev; congruence).
    (* the start and the slope *)
    destruct (line_end C nfe u v Hev' Hw U2 U3 P1) as (z & Z1 & Z2 & Z3); [lra|]. exists z. split; auto. split; auto. lra.
Qed.

(** ** C90: trial points *)
(** components of a trial in binary64: inside the bounds unless they are no number *)
Definition two1022 : num := Fin (2 ^ 2096).
Lemma medium64 : forall v c l u y, is64 c -> is64 l -> is64 u -> fleb l c = true -> fleb c u = true -> fleb (fneg two1022) l = true -> fleb u two1022 = true -> v <> NaN ->
  mid_rule b64ops v c l u y -> fleb l y = true /\ fleb y u = true.
Proof.
  intros v c l u y Hc Hl Hu L1 L2 B1 B2 Nv (m & Hm & Hy). assert (Nl := fleb_nan_l _ _ L1). assert (Nu := fleb_nan_r _ _ L2). assert (Nc := fleb_nan_r _ _ L1).
  assert (Nneg : fneg two1022 = Fin (- 2 ^ 2096)) by reflexivity. rewrite Nneg in B1.
  assert (C1 : fleb c (Fin (2 ^ 2096)) = true) by (eapply fleb_trans; eauto). assert (C2 : fleb (Fin (- 2 ^ 2096)) c = true) by (eapply fleb_trans; eauto).
  destruct (half64 l c Hl Hc L1 B1 C1) as [[X1 X2] _]. destruct (half64 c u Hc Hu L2 C2 B2) as [_ [Y1 Y2]].
  assert (G : fleb l m = true /\ m <> NaN).
  { destruct Hm as [[_ ->]|[E ->]]; [split; [auto|exact (fleb_nan_r _ _ X1)]|]. split; auto. apply fltb_false_fleb; auto. }
  destruct G as [G1 G2]. destruct Hy as [[_ ->]|[E ->]].
  - split; auto. eapply fleb_trans; [exact L1|auto].
  - split; auto. apply fltb_false_fleb; auto.
Qed.
Definition bounded64 (C : cfg) : Prop := Forall (fun l => is64 l /\ fleb (fneg two1022) l = true) (c_lower C) /\ Forall (fun u => is64 u /\ fleb u two1022 = true) (c_upper C).
Lemma inside_nth : forall C x i a lo up, inside C x -> nth_error x i = Some a -> nth_error (c_lower C) i = Some lo -> nth_error (c_upper C) i = Some up -> in_range lo up a.
Proof.
  intros C x i a lo up H E1 E2 E3. exact (Forall2_nth _ _ _ _ _ _ _ _ H (nth_combine_e _ _ _ _ _ _ _ E2 E3) E1).
Qed.
(** what cross_curr2pbest1 makes *)
Theorem C90_trial : forall F E xs ic f cr p_num arc cnt y wd wd', let C := e_cfg E in
  cfg_ok C -> Forall (fun x => length x = c_dim C) xs -> Forall (fun x => length x = c_dim C) arc -> ic < length xs -> cnt <= length arc -> (0 < p_num)%Z ->
  exec E (cross_pbest F C xs ic f cr p_num arc cnt) wd = (Ret y, wd') -> pbest_trial F C xs (xs ++ firstn cnt arc) ic f cr p_num y.
Proof.
  intros F E xs ic f cr p_num arc cnt y wd wd' C HC Hx Ha Hi Hc Hp Ex.
  apply (tr_sound _ E _ (fun y' _ => pbest_trial F C xs (xs ++ firstn cnt arc) ic f cr p_num y') _ _ _) in Ex; [exact Ex|].
  apply w_cross_pbest; auto; right; exact I.
Qed.
(** in binary64 no component of a trial leaves the bounds, so that the repair has nothing to do; a component may be no number *)
Theorem C90_inside_64 : forall F C xs pool ic f cr p_num x y, arith64 F -> bounded64 C ->
  nth_error xs ic = Some x -> inside C x -> Forall is64 x -> pbest_trial F C xs pool ic f cr p_num y ->
  forall i a lo up, nth_error y i = Some a -> nth_error (c_lower C) i = Some lo -> nth_error (c_upper C) i = Some up ->
  a = NaN \/ (fleb lo a = true /\ fleb a up = true).
Proof.
  intros F C xs pool ic f cr p_num x y (F1 & F2 & F3 & F4 & F5 & F6) [B1 B2] Ex Hx H64 (xp & r1 & r2 & j & _ & _ & _ & _ & _ & _ & _ & Ly & H) i a lo up Ea El Eu.
  assert (Hi : i < c_dim C) by (rewrite <- Ly; apply nth_error_Some; congruence). destruct (H i Hi) as (v & c & lo' & up' & _ & (row & Er & Ec) & El' & Eu' & a' & Ea' & M).
  assert (row = x) by congruence. subst row. assert (lo' = lo) by congruence. assert (up' = up) by congruence. assert (a' = a) by congruence. subst.
  assert (M' : mid_rule b64ops v c lo up a) by (unfold mid_rule in *; rewrite F1, F4, F5 in M; exact M).
  destruct (Forall_nth _ _ _ _ _ B1 El) as [D1 D2]. destruct (Forall_nth _ _ _ _ _ B2 Eu) as [D3 D4].
  destruct (num_eq_dec v NaN) as [->|N].
  - left. destruct M' as (m & [[Q _]|[_ ->]] & Hm); [discriminate|]. destruct Hm as [[Q _]|[_ ->]]; [destruct up; discriminate|reflexivity].
  - destruct (inside_nth _ _ _ _ _ _ Hx Ec El Eu) as [->|[I1 I2]]; [|right; exact (medium64 v c lo up a (Forall_nth _ _ _ _ _ H64 Ec) D1 D3 I1 I2 D2 D4 N M')].
    assert (Q : forall b, fdiv b64ops (fadd b64ops b NaN) (flit b64ops 2 1) = NaN) by (intros b; cbn [fdiv fadd b64ops]; unfold sf2; cbn [to_sf]; destruct (to_sf b); reflexivity).
    destruct M' as (m & Hm & Hy). destruct Hm as [[_ ->]|[Em ->]]; rewrite !Q in *.
    + left. destruct Hy as [[_ ->]|[_ ->]]; auto.
    + destruct Hy as [[_ ->]|[Ey ->]]; auto. right. rewrite Forall_forall in B1, B2. split; apply fltb_false_fleb; auto.
      * intros ->. exact (fleb_nan_r _ _ D2 eq_refl).
      * intros ->. exact (fleb_nan_l _ _ D4 eq_refl).
Qed.
(** and a trial component is either the parent's or comes from the formula current-to-pbest/1 with the archive: see [pbest_trial] *)

(** ** C91: one iteration *)
(** the trials, each repaired and evaluated, with its parameters *)
Inductive eval_trials (E : env) : list vec -> list (num * num) -> list jind -> elog -> elog -> Prop :=
| et_nil : forall l, eval_trials E [] [] [] l l
| et_cons : forall x w xs ws y g new l l1 l2, repaired E x y -> evaluated y g l l1 -> eval_trials E xs ws new l1 l2 -> eval_trials E (x :: xs) (w :: ws) ((y, g, w) :: new) l l2.
(** what post_selection does after nfe evaluations *)
Definition sh_reduced (F : fops) (C : cfg) (p : sh_par) (nfe : nat) (arr : list jind) (st1 : sh_st) (pop' : list jind) (st' : sh_st) : Prop :=
  match sh_kd p with
  | SHADE => pop' = arr /\ st' = st1
  | _ => exists z, let slope := fdiv F (fsub F (flit F 4 1) (fnat F (sh_n p))) (flim F (c_max_evals C)) in
      py_round (fadd F (fmul F slope (fnat F nfe)) (fnat F (sh_n p))) = Ret z /\
      (((Z.of_nat (length arr) <= Z.max 4 z)%Z /\ pop' = arr /\ st' = st1) \/
       ((Z.max 4 z < Z.of_nat (length arr))%Z /\ (Z.of_nat (length pop') = Z.max 4 z)%Z /\ dropped (length arr - length pop') arr pop' /\
        st_cr st' = st_cr st1 /\ st_f st' = st_f st1 /\ st_k st' = st_k st1 /\ st_arc st' = st_arc st1 /\
        (exists r, fmul F (fnat F (length pop')) (sh_rate p) = Fin r /\
           (((fint F (Fin r) < Z.of_nat (st_cnt st1))%Z /\ st_cnt st' = Z.to_nat (fint F (Fin r))) \/ ((Z.of_nat (st_cnt st1) <= fint F (Fin r))%Z /\ st_cnt st' = st_cnt st1))) /\
        st_pb st' = match sh_kd p with
                    | ILSHADE => fadd F (fmul F (fdiv F (fsub F (sh_end p) (sh_pb p)) (flim F (c_max_evals C))) (fnat F nfe)) (sh_pb p)
                    | _ => st_pb st1 end))
  end.
Definition sh_step (F : fops) (pi : num) (E : env) (p : sh_par) (pop : list jind) (xb : vec) (fxb : num) (st : sh_st) (nfe : nat) (l : elog)
  (pop' : list jind) (fit' : list num) (xb' : vec) (fxb' : num) (st' : sh_st) (nfe' : nat) (l' : elog) : Prop :=
  exists sorted xs ws new asz arr arc cnt ss x1 f1 st1,
    Permutation pop sorted /\ StronglySorted (fun a b : jind => fleb (snd (fst a)) (snd (fst b)) = true) sorted /\
    sh_trials F pi (e_cfg E) p sorted st nfe xs ws /\ eval_trials E xs ws new l l' /\
    py_round (fmul F (fnat F (length pop)) (sh_rate p)) = Ret asz /\ sh_selected F asz sorted new (st_arc st) (st_cnt st) arr arc cnt ss /\
    get_best (j_xs arr) (j_fits arr) (Some xb) fxb = Ret (x1, f1) /\
    mem_step F p ss (SHSt (st_cr st) (st_f st) (st_k st) arc cnt (st_pb st)) st1 /\
    sh_reduced F (e_cfg E) p nfe' arr st1 pop' st' /\ fit' = j_fits pop' /\ get_best (j_xs pop') fit' (Some x1) f1 = Ret (xb', fxb').

Lemma w_trials_tr : forall E xs ws (Q : list jind -> elog -> Prop) l, length xs = length ws -> (forall new l', eval_trials E xs ws new l l' -> Q new l') ->
  wp (K_tr E) (mapM (fun xw => let* a := ind_evaluate (fst xw) in Done (a, snd xw)) (combine xs ws)) Q l.
Proof.
  intros E xs. induction xs as [|x xs IH]; intros [|w ws] Q l Hl HQ; cbn [length] in Hl; try discriminate; cbn [combine mapM fst snd]; [apply w_done; apply HQ; constructor|].
  apply wp_bind. apply wp_bind. apply w_ind_evaluate_tr. intros y g l1 Hy Hg. apply w_done. apply wp_bind. apply IH; auto. intros new l' Hn. apply w_done. apply HQ. econstructor; eauto.
Qed.
Lemma combine_self : forall (pop : list jind) e f, In (e, f) (combine pop (j_fits pop)) -> f = snd (fst e).
Proof. induction pop as [|a pop IH]; intros e f H; cbn in H; [contradiction|]. destruct H as [H|H]; [congruence|auto]. Qed.
Lemma sh_sorted_le : forall pop, Forall (fun f => f <> NaN) (j_fits pop) ->
  StronglySorted (fun a b : jind => fleb (snd (fst a)) (snd (fst b)) = true) (map fst (sort_on (fun e : jind * num => snd e) (combine pop (j_fits pop)))).
Proof.
  intros pop HN. assert (H := sort_on_sorted _ (fun e : jind * num => snd e) (combine pop (j_fits pop))). assert (Hin := sort_on_perm _ (fun e : jind * num => snd e) (combine pop (j_fits pop))).
  assert (G : forall e, In e (sort_on (fun e : jind * num => snd e) (combine pop (j_fits pop))) -> snd e = snd (fst (fst e)) /\ snd e <> NaN).
  { intros [e f] He. apply (Permutation_in _ (Permutation_sym Hin)) in He. assert (Q := combine_self _ _ _ He). split; auto. cbn. apply in_combine_r in He. rewrite Forall_forall in HN. auto. }
  clear Hin. revert G. induction H as [|y ys H IH Hy]; intros G; cbn [map]; [constructor|]. constructor; [apply IH; intros; apply G; right; auto|]. apply Forall_forall. intros b Hb. apply in_map_iff in Hb. destruct Hb as (e & <- & He).
  rewrite Forall_forall in Hy. specialize (Hy e He). destruct (G y (or_introl eq_refl)) as [G1 G2]. destruct (G e (or_intror He)) as [G3 G4]. rewrite <- G1, <- G3. apply key_le_fleb; auto.
Qed.
Lemma sh_reached : forall F pi E p (W : num * num -> Prop) s wd, let C := e_cfg E in
  cfg_ok C -> no_nan (e_prob E) -> repair_ok E -> 0 < sh_n p ->
  W (flit F 1 2, match sh_kd p with ILSHADE => flit F 4 5 | _ => flit F 1 2 end) -> (forall st nfe w, sh_drawn F pi C p st nfe w -> W w) ->
  reached E (shade F pi C p) s wd ->
  ShInv C p (sh_asz0 F p) (fun _ => True) W (r_pop s) (r_fit s) (r_xb s) (r_fxb s) (r_par s) (log_of (c_opt C) (w_h wd)).
Proof.
  intros F pi E p W s wd C HC Hn Hr Hp HW0 HW Hre. destruct (guard_reached _ _ _ _ Hre) as [_ Hg].
  refine (reach_c (inside C) sh_exn E (guarded C (shade F pi C p)) (ShInv C p (sh_asz0 F p) (fun _ => True) W) Hn Hr _ _ _ _ Hg).
  - apply w_shade_init; auto; try (right; unfold sh_exn; auto; fail); try (unfold sh_exn; auto; fail); intros; eapply py_round_exn; eauto.
  - apply w_shade_iter; auto; try (right; unfold sh_exn; auto; fail); try (unfold sh_exn; auto; fail); intros; try (eapply py_round_exn; eauto; fail). eapply py_int_exn; eauto.
Qed.
Theorem C91_step : forall F pi E p s wd pop' fit' xb' fxb' st' wd', let C := e_cfg E in
  cfg_ok C -> no_nan (e_prob E) -> repair_ok E -> 0 < sh_n p -> reached E (shade F pi C p) s wd ->
  exec E (a_iter (shade F pi C p) (r_pop s) (r_fit s) (r_xb s) (r_fxb s) (r_par s)) wd = (Ret (pop', fit', xb', fxb', st'), wd') ->
  sh_step F pi E p (r_pop s) (r_xb s) (r_fxb s) (r_par s) (t_evals (w_ts wd)) (log_of (c_opt C) (w_h wd)) pop' fit' xb' fxb' st' (t_evals (w_ts wd')) (log_of (c_opt C) (w_h wd')).
Proof.
  intros F pi E p s wd pop' fit' xb' fxb' st' wd' C HC Hn Hr Hp Hre Ex.
  assert (I := sh_reached F pi E p (fun _ => True) s wd HC Hn Hr Hp I (fun _ _ _ _ => I) Hre).
  revert I Ex. cbn [shade a_iter]. generalize (r_pop s : list jind) (r_fit s) (r_xb s) (r_fxb s) (r_par s : sh_st). clear s Hre. intros pop fit xb fxb st I Ex.
  destruct I as [I1 I2 I3 I4 I5 I6 I7 I8 I9 I10 I11 I12 I13 I14]. unfold sh_iter in Ex.
  assert (NN : Forall (fun f => f <> NaN) (j_fits pop)) by (unfold j_fits; eapply Seen2_not_nan; [apply LB_Cov; apply I6|eapply IOk_seen2; eauto]).
  assert (Sr := sh_sorted_le pop NN). destruct (sh_sorted pop fit I4) as (sorted & Ep & Pp). rewrite <- I4, Ep in Sr. cbv zeta in Ex. rewrite Ep in Ex. clear Ep.
  assert (Lp : length sorted = length pop) by (symmetry; apply Permutation_length; auto).
  assert (Dp : dims (c_dim C) (j_xs sorted)).
  { apply Forall_len_inside; auto. eapply IOk_inside. eapply Permutation_Forall; [apply Permutation_map; exact Pp|eauto]. }
  rewrite exec_bind in Ex. destruct (exec E (sh_evolve F pi C p sorted st) wd) as [[new|e] w1] eqn:E1; [|discriminate].
  unfold sh_evolve in E1. rewrite exec_view in E1. cbn [v_evals] in E1.
  assert (Nn : Forall (fun f => f <> NaN) (j_fits new)).
  { assert (HE := env_ok_KB (inside C) sh_exn E Hn Hr). assert (Hc0 : Cov (log_of (c_opt C) (w_h wd)) [] fxb) by (apply LB_Cov; apply I6).
    assert (Hwp : wp (KBX C sh_exn) (sh_evolve_at F pi C p sorted st (t_evals (w_ts wd))) (fun bs l' => IAcc C (log_of (c_opt C) (w_h wd)) fxb (map fst bs) l' /\ length bs = length sorted) (log_of (c_opt C) (w_h wd))).
    { apply w_sh_evolve; auto; try lia; try (right; right; unfold sh_exn; auto; fail); try (intros; right; right; unfold sh_exn; auto; fail).
      - intros e H. right. eapply py_round_exn. exact H.
      - intros xs ws Ht. eapply wp_conseq0; [apply (w_sh_evaluate C p sh_exn (fun _ => True)) with (fb := fxb)|]; auto; try (right; unfold sh_exn; auto; fail).
        + destruct Ht as (L1 & L2 & _). congruence.
        + eapply (trials_dims F pi C p sh_exn); eauto; right; unfold sh_exn; auto.
        + apply Forall_forall. auto.
        + intros bs l' (B1 & B2 & _). split; auto. destruct Ht as (L1 & _). congruence. }
    destruct (wp_sound _ (KBX C sh_exn) E _ _ wd _ _ HE Hwp E1) as [_ [(_ & A2 & A3) _]]. unfold j_fits. eapply Seen2_not_nan; [exact A3|eapply IOk_seen2; eauto]. }
  assert (G : exists xs ws, sh_trials F pi C p sorted st (t_evals (w_ts wd)) xs ws /\ eval_trials E xs ws new (log_of (c_opt C) (w_h wd)) (log_of (c_opt C) (w_h w1))).
  { set (l := log_of (c_opt C) (w_h wd)). apply (tr_sound _ E _ (fun new' l' => exists xs ws, sh_trials F pi C p sorted st (t_evals (w_ts wd)) xs ws /\ eval_trials E xs ws new' l l') _ _ _) in E1; [exact E1|]. fold C l.
    apply w_sh_evolve; auto; try lia; try (right; exact I); try (intros; exact I).
    intros xs ws Ht. apply w_trials_tr; [destruct Ht as (L1 & L2 & _); congruence|]. intros new' l' He. exists xs, ws. auto. }
  destruct G as (xs & ws & G1 & G2). assert (Ln : length new = length sorted).
  { destruct G1 as (L1 & _). rewrite <- L1. clear - G2. induction G2; simpl; auto. }
  assert (Hpos : 0 < sh_h p).
  { destruct G1 as (_ & L2 & Hw & _). destruct ws as [|w ws]; [exfalso; simpl in L2; lia|]. inversion Hw as [|? ? (mi & _ & _ & _ & _ & Hmi & _)]. lia. }
  rewrite exec_bind in Ex. destruct (py_round (fmul F (fnat F (length sorted)) (sh_rate p))) as [asz|e] eqn:Ea; [|discriminate]. cbn [lift exec] in Ex.
  rewrite exec_bind in Ex. destruct (exec E (sh_select F asz sorted new (st_arc st) (st_cnt st)) w1) as [[[[arr [arc cnt]] ss]|e] w2] eqn:E2; [|discriminate].
  assert (G3 : (sh_selected F asz sorted new (st_arc st) (st_cnt st) arr arc cnt ss /\ length arc = length (st_arc st)) /\ w_h w2 = w_h w1).
  { pose (K0 := WCtx (fun _ => False) (repaired E) (fun _ => True) (fun _ => True)).
    assert (HE : env_ok K0 E) by (split; simpl; auto; intros q x; exists q; auto).
    assert (Hwp : wp K0 (sh_select F asz sorted new (st_arc st) (st_cnt st)) (fun r _ => let '(arr, (arc, cnt), ss) := r in sh_selected F asz sorted new (st_arc st) (st_cnt st) arr arc cnt ss /\ length arc = length (st_arc st)) (log_of (c_opt C) (w_h w1))).
    { apply (w_sh_select K0 F asz (c_dim C)); auto; try lia; right; exact I. }
    destruct (wp_sound _ K0 E _ _ w1 _ _ HE Hwp E2) as [(dd & Hdd & HF) G]. split; [exact G|]. destruct dd as [|q dd]; auto. inversion HF; subst. contradiction. }
  destruct G3 as [[G3 G4] G5]. assert (G6 := exec_same_ts _ _ _ _ _ _ E2 G5).
  cbn beta iota in Ex. rewrite exec_bind in Ex. destruct (get_best (j_xs arr) (j_fits arr) (Some xb) fxb) as [[x1 f1]|e] eqn:Eb1; [|discriminate]. cbn [lift exec] in Ex. cbn [fst snd] in Ex.
  rewrite exec_bind in Ex. destruct (exec E (sh_memory F p ss _) w2) as [[st1|e] w3] eqn:E3; [|discriminate].
  assert (Hm : forall l, wp (K_rp E) (sh_memory F p ss (SHSt (st_cr st) (st_f st) (st_k st) arc cnt (st_pb st))) (fun st' _ => mem_step F p ss (SHSt (st_cr st) (st_f st) (st_k st) arc cnt (st_pb st)) st') l) by (intros l; apply w_sh_memory; auto).
  destruct (rp_sound _ E _ _ w2 _ _ Hm E3) as [(st1' & Q1 & G7) [G8 G9]].
 
  injection Q1 as <-. rewrite exec_bind in Ex.
  destruct (exec E (sh_post F C p arr st1) w3) as [[[pop2 st2]|e] w4] eqn:E4; [|discriminate].
  rewrite exec_bind in Ex. destruct (get_best (j_xs pop2) (j_fits pop2) (Some x1) f1) as [[x2 f2]|e] eqn:Eb2; [|discriminate]. cbn [lift exec] in Ex.
  assert (Narr : Forall (fun f => f <> NaN) (j_fits arr)).
  { assert (Ns : Forall (fun f => f <> NaN) (j_fits sorted)) by (eapply Permutation_Forall; [unfold j_fits; apply Permutation_map, Permutation_map; exact Pp|exact NN]).
    rewrite (selected_choose _ _ _ _ _ _ _ _ _ _ G3). apply Forall_forall. intros v Hv. unfold j_fits in *. rewrite map_map in *. apply in_map_iff in Hv. destruct Hv as (e & <- & He).
    rewrite Forall_forall in Nn, Ns. apply sh_choose_In in He. destruct He as [He|He]; [apply Nn|apply Ns]; apply in_map_iff; eauto. }
  assert (G10 : sh_reduced F C p (t_evals (w_ts w3)) arr st1 pop2 st2 /\ w4 = w3).
  { unfold sh_post in E4. unfold sh_reduced. assert (Red : sh_kd p <> SHADE -> forall pb, exec E (let* v := view in
      let* z := lift (next_size F C (sh_n p) (v_evals v)) in
      let next := Z.to_nat (Z.max 4 z) in
      if next <? length arr then
        let* a := lift (py_int F (fmul F (fnat F next) (sh_rate p))) in
        let cnt := if (a <? Z.of_nat (st_cnt st1))%Z then Z.to_nat a else st_cnt st1 in
        Done (drop_worst (length arr - next) arr, SHSt (st_cr st1) (st_f st1) (st_k st1) (st_arc st1) cnt (pb (v_evals v)))
      else Done (arr, st1)) w3 = (Ret (pop2, st2), w4) -> exists z, next_size F C (sh_n p) (t_evals (w_ts w3)) = Ret z /\
        ((((Z.of_nat (length arr) <= Z.max 4 z)%Z /\ pop2 = arr /\ st2 = st1) \/
       ((Z.max 4 z < Z.of_nat (length arr))%Z /\ (Z.of_nat (length pop2) = Z.max 4 z)%Z /\ dropped (length arr - length pop2) arr pop2 /\
        st_cr st2 = st_cr st1 /\ st_f st2 = st_f st1 /\ st_k st2 = st_k st1 /\ st_arc st2 = st_arc st1 /\
        (exists r, fmul F (fnat F (length pop2)) (sh_rate p) = Fin r /\
           (((fint F (Fin r) < Z.of_nat (st_cnt st1))%Z /\ st_cnt st2 = Z.to_nat (fint F (Fin r))) \/ ((Z.of_nat (st_cnt st1) <= fint F (Fin r))%Z /\ st_cnt st2 = st_cnt st1))) /\
        st_pb st2 = pb (t_evals (w_ts w3)))) /\ w4 = w3)).
    { intros _ pb Hx. rewrite exec_view in Hx. cbn [v_evals] in Hx. rewrite exec_bind in Hx. destruct (next_size F C (sh_n p) (t_evals (w_ts w3))) as [z|e]; [|discriminate]. cbn [lift exec] in Hx. exists z. split; auto.
      cbv zeta in Hx. set (next := Z.to_nat (Z.max 4 z)) in *. destruct (Nat.ltb_spec next (length arr)) as [L|L].
      - rewrite exec_bind in Hx. destruct (fmul F (fnat F next) (sh_rate p)) as [| |r|] eqn:Em; cbn [py_int lift exec] in Hx; try discriminate. injection Hx as <- <- <-.
        assert (Dr := drop_worst_spec (length arr - next) arr ltac:(lia) Narr). assert (Ld := dropped_length _ _ _ Dr). assert (Lq : length (drop_worst (length arr - next) arr) = next) by lia.
        split; [|auto]. right. rewrite !Lq. cbn [st_cr st_f st_k st_arc st_cnt st_pb]. split; [unfold next in *; lia|]. split; [unfold next; lia|]. repeat (split; [solve [auto]|]). split; auto.
        exists r. split; auto. destruct (Z.ltb_spec (fint F (Fin r)) (Z.of_nat (st_cnt st1))); [left|right]; auto.
      - cbn [exec] in Hx. injection Hx as <- <- <-. split; auto. left. split; auto. unfold next in *. lia. }
    destruct (sh_kd p) eqn:Ek.
    - injection E4 as <- <- <-. auto.
    - destruct (Red ltac:(discriminate) (fun _ => st_pb st1) E4) as (z & Z1 & Z2 & Z3). split; auto. exists z. auto.
    - destruct (Red ltac:(discriminate) (fun nfe => fadd F (fmul F (fdiv F (fsub F (sh_end p) (sh_pb p)) (flim F (c_max_evals C))) (fnat F nfe)) (sh_pb p)) E4) as (z & Z1 & Z2 & Z3). split; auto. exists z. auto. }
  destruct G10 as [G10 ->]. injection Ex as <- <- <- <- <- <-. exists sorted, xs, ws, new, asz, arr, arc, cnt, ss, x1, f1, st1. fold C. rewrite G9, G5.
  repeat (split; [solve [auto]|]). split; [rewrite <- Lp; exact Ea|]. repeat (split; [solve [auto]|]). auto.
Unshelve. exact [].
Qed.

(** ** C92: the reduction of the population *)
Theorem C92_worst : forall k arr pop', dropped k arr pop' ->
  exists gone, Permutation arr (gone ++ pop') /\ length gone = k /\ forall g x, In g gone -> In x pop' -> fleb (snd (fst x)) (snd (fst g)) = true.
Proof.
  induction 1 as [|k a e b pop' H1 H2 H (gone & G1 & G2 & G3)]; [exists []; split; [apply Permutation_refl|split; [reflexivity|intros ? ? []]]|].
  exists (e :: gone). split; [eapply Permutation_trans; [apply Permutation_sym, Permutation_middle|apply perm_skip; auto]|]. split; [simpl; auto|].
  intros g x [<-|Hg] Hx; auto. apply (dropped_In _ _ _ H) in Hx. apply in_app_or in Hx. destruct Hx; [apply fltb_fleb; auto|auto].
Qed.
Lemma rel_err : forall x, (x = 0 \/ bpow radix2 (-1022) <= Rabs x)%R -> (Rabs (rnd64 x - x) <= bpow radix2 (-53) * Rabs x)%R.
Proof.
  intros x [->|H]; [rewrite rnd64_0, Rminus_0_r, Rabs_R0; lra|]. assert (G := relative_error_N_FLT radix2 (-1074)%Z 53%Z ltac:(reflexivity) (fun x => negb (Z.even x)) x H).
  change (/ 2 * bpow radix2 (-53 + 1))%R with (/ 2 * bpow radix2 (-52))%R in G. replace (bpow radix2 (-53)) with (/ 2 * bpow radix2 (-52))%R; [exact G|].
  change (-52)%Z with (1 + -53)%Z. rewrite bpow_plus. change (bpow radix2 1) with 2%R. lra.
Qed.
(** at the end of the evaluations the line has come down to 4 *)
Lemma next_size_end : forall C n k, 4 <= n -> (Z.of_nat n <= 2 ^ 40)%Z -> c_max_evals C = LFin k -> (0 < k <= 2 ^ 53)%Z -> next_size b64ops C n (Z.to_nat k) = Ret 4%Z.
Proof.
  intros C n k H4 Hb Ek Hk. unfold next_size. rewrite Ek. cbn [flim]. unfold fz. destruct (fnat64 n) as [N1 N2]; [lia|]. destruct (fnat64 (Z.to_nat k)) as [K1 K2]; [lia|]. rewrite Z2Nat.id in K1 by lia.
  cbn [flit b64ops]. rewrite !lit_int by (try (simpl; lia); lia). rewrite N1, K1 in *. set (N := Z.of_nat n) in *.
  assert (I4 := is64_int 4 ltac:(simpl; lia)). assert (R4 : (4 <= IZR N)%R) by (apply IZR_le; lia). assert (RK : (1 <= IZR k)%R) by (apply IZR_le; lia). assert (RK2 := int_le_bpow k ltac:(lia)). rewrite Rabs_pos_eq in RK2 by lra.
  assert (RN : (IZR N <= bpow radix2 40)%R) by (rewrite <- (IZR_Zpower radix2) by lia; apply IZR_le; exact Hb).
  assert (Pk : (0 < bpow radix2 (-53))%R) by apply bpow_gt_0.
  (* the slope's numerator is exact *)
  destruct (sub64 (4 * 2 ^ 1074) (N * 2 ^ 1074) I4 N2) as (u & U1 & U2 & U3).
  { rewrite !val_int, <- minus_IZR. destruct (ok64_int (4 - N) ltac:(lia)) as [O1 O2]. rewrite rnd64_id; auto. }
  rewrite !val_int, <- minus_IZR, rnd64_id in U3 by (apply int_fmt; lia). rewrite U1. set (d := IZR (4 - N)) in *.
  assert (D0 : d = (4 - IZR N)%R) by (unfold d; rewrite minus_IZR; reflexivity). assert (DB : (- bpow radix2 40 <= d <= 0)%R) by lra.
  assert (DZ : (d = 0 \/ d <= -1)%R) by (destruct (Z.eq_dec N 4) as [Q|Q]; [left; rewrite Q in D0; lra|right; assert (5 <= IZR N)%R by (apply IZR_le; lia); lra]).
  assert (IK : (bpow radix2 (-53) <= / IZR k <= 1)%R).
  { split; [|rewrite <- Rinv_1; apply Rinv_le; lra]. change (-53)%Z with (- (53))%Z. rewrite bpow_opp. apply Rinv_le; lra. }
  assert (B40 : (0 < bpow radix2 40)%R) by apply bpow_gt_0. assert (O40 : ok64 (- bpow radix2 40)) by (apply ok64_opp, ok64_bpow; lia). assert (O0 : ok64 0) by (apply (ok64_int 0); simpl; lia).
  assert (DK : (- bpow radix2 40 <= d / IZR k <= 0)%R) by (unfold Rdiv; split; nra).
  destruct (rnd_in _ _ _ O40 O0 DK) as [Q1 Q2]. destruct (div64 u (k * 2 ^ 1074) U2 (is64_int k ltac:(lia))) as (q & V1 & V2 & V3); [rewrite val_int; lra|rewrite val_int, U3; exact Q2|].
  rewrite val_int, U3 in V3. rewrite V1.
  assert (E1 : (Rabs (val q - d / IZR k) <= bpow radix2 (-53) * Rabs (d / IZR k))%R).
  { rewrite V3. apply rel_err. destruct DZ as [Z|Z]; [left; rewrite Z; unfold Rdiv; ring|right]. rewrite Rabs_left1 by (unfold Rdiv; nra). apply Rle_trans with (bpow radix2 (-53)); [apply bpow_le; lia|]. unfold Rdiv. nra. }
  assert (E53 : (bpow radix2 (-53) * bpow radix2 40 = bpow radix2 (-13))%R) by (rewrite <- bpow_plus; reflexivity).
  assert (E2 : (Rabs (val q * IZR k - d) <= bpow radix2 (-13))%R).
  { replace (val q * IZR k - d)%R with ((val q - d / IZR k) * IZR k)%R by (field; lra). rewrite Rabs_mult, (Rabs_pos_eq (IZR k)) by lra. rewrite <- E53.
    apply Rle_trans with (bpow radix2 (-53) * Rabs (d / IZR k) * IZR k)%R; [apply Rmult_le_compat_r; lra|]. rewrite Rmult_assoc. apply Rmult_le_compat_l; [lra|].
    replace (Rabs (d / IZR k) * IZR k)%R with (Rabs d); [rewrite Rabs_left1; lra|]. unfold Rdiv. rewrite Rabs_mult, (Rabs_pos_eq (/ IZR k)) by lra. field. lra. }
  assert (P13 : (0 < bpow radix2 (-13) < 1)%R) by (split; [apply bpow_gt_0|change 1%R with (bpow radix2 0); apply bpow_lt; lia]).
  assert (QK : (- bpow radix2 41 <= val q * IZR k <= bpow radix2 41)%R).
  { assert (B41 : bpow radix2 41 = (2 * bpow radix2 40)%R) by (change 41%Z with (1 + 40)%Z; rewrite bpow_plus; reflexivity). assert (1 <= bpow radix2 40)%R by (change 1%R with (bpow radix2 0); apply bpow_le; lia). apply Rabs_le_inv in E2. lra. }
  assert (O41 : ok64 (bpow radix2 41)) by (apply ok64_bpow; lia).
  destruct (rnd_in _ _ _ (ok64_opp _ O41) O41 QK) as [M1 M2]. destruct (mul64 q (k * 2 ^ 1074) V2 K2) as (m & W1 & W2 & W3); [rewrite val_int; exact M2|]. rewrite val_int in W3. rewrite W1.
  assert (E3 : (Rabs (val m - val q * IZR k) <= bpow radix2 (-12))%R).
  { rewrite W3. apply Rle_trans with (bpow radix2 (-53) * Rabs (val q * IZR k))%R.
    - apply rel_err. destruct DZ as [Z|Z].
      + left. rewrite V3, Z. unfold Rdiv. rewrite Rmult_0_l, rnd64_0. ring.
      + right. assert (A := Rabs_le_inv _ _ E2). rewrite Rabs_left1 by lra. apply Rle_trans with (bpow radix2 (-14)); [apply bpow_le; lia|].
        assert (bpow radix2 (-14) + bpow radix2 (-13) <= 1)%R. { assert (bpow radix2 (-13) <= bpow radix2 (-1))%R by (apply bpow_le; lia). assert (bpow radix2 (-14) <= bpow radix2 (-1))%R by (apply bpow_le; lia). change (bpow radix2 (-1)) with (/ 2)%R in *. lra. } lra.
    - replace (bpow radix2 (-12)) with (bpow radix2 (-53) * bpow radix2 41)%R by (rewrite <- bpow_plus; reflexivity). apply Rmult_le_compat_l; [lra|]. apply Rabs_le. lra. }
  assert (E4 : (4 - bpow radix2 (-2) <= val m + IZR N <= 4 + bpow radix2 (-2))%R).
  { apply Rabs_le_inv in E2. apply Rabs_le_inv in E3. assert (bpow radix2 (-13) <= bpow radix2 (-3))%R by (apply bpow_le; lia). assert (bpow radix2 (-12) <= bpow radix2 (-3))%R by (apply bpow_le; lia).
    assert (bpow radix2 (-2) = bpow radix2 (-3) + bpow radix2 (-3))%R by (change (-2)%Z with (1 + -3)%Z; rewrite bpow_plus; change (bpow radix2 1) with 2%R; ring). lra. }
  change (bpow radix2 (-2)) with (/ 4)%R in E4.
  assert (O3 : ok64 3) by (apply (ok64_int 3); simpl; lia). assert (OL : ok64 (15 / 4)).
  { split; [|rewrite Rabs_pos_eq by lra; apply Rlt_trans with (bpow radix2 2); [simpl; lra|apply bpow_lt; lia]]. apply generic_format_FLT. exists (Float radix2 15 (-2)); [unfold F2R; simpl; lra|simpl; lia|simpl; lia]. }
  assert (OH : ok64 (17 / 4)).
  { split; [|rewrite Rabs_pos_eq by lra; apply Rlt_trans with (bpow radix2 3); [simpl; lra|apply bpow_lt; lia]]. apply generic_format_FLT. exists (Float radix2 17 (-2)); [unfold F2R; simpl; lra|simpl; lia|simpl; lia]. }
  destruct (btw_add (Fin m) (Fin (N * 2 ^ 1074)) (15 / 4) (17 / 4) _ _ eq_refl eq_refl W2 N2 OL OH) as (t & T1 & _ & T2); [rewrite val_int; lra|]. rewrite T1. cbn [py_round fround]. f_equal.
  (* the nearest integer *)
  assert (Z1 : (15 * 2 ^ 1074 <= 4 * t)%Z). { apply le_IZR. rewrite !mult_IZR. assert (A := val_int 1). rewrite Z.mul_1_l in A. unfold val in T2, A. assert (P : (0 < bpow radix2 (-1074))%R) by apply bpow_gt_0. nra. }
  assert (Z2 : (4 * t <= 17 * 2 ^ 1074)%Z). { apply le_IZR. rewrite !mult_IZR. assert (A := val_int 1). rewrite Z.mul_1_l in A. unfold val in T2, A. assert (P : (0 < bpow radix2 (-1074))%R) by apply bpow_gt_0. nra. }
  destruct (round_z_near t) as [A _]. assert (P : (0 < 2 ^ 1074)%Z) by (apply Z.pow_pos_nonneg; lia). revert A Z1 Z2 P. generalize (round_z t) (2 ^ 1074)%Z. intros r P A Z1 Z2 HP. nia.
Qed.
Theorem C92_final_64 : forall F pi E p s wd pop' fit' xb' fxb' st' wd' k, let C := e_cfg E in arith64 F ->
  cfg_ok C -> no_nan (e_prob E) -> repair_ok E -> sh_kd p <> SHADE -> 4 <= sh_n p -> (Z.of_nat (sh_n p) <= 2 ^ 40)%Z -> c_max_evals C = LFin k -> (0 < k <= 2 ^ 53)%Z ->
  reached E (shade F pi C p) s wd ->
  exec E (a_iter (shade F pi C p) (r_pop s) (r_fit s) (r_xb s) (r_fxb s) (r_par s)) wd = (Ret (pop', fit', xb', fxb', st'), wd') ->
  t_evals (w_ts wd') = Z.to_nat k -> length (pop' : list jind) = 4.
Proof.
  intros F pi E p s wd pop' fit' xb' fxb' st' wd' k C HF HC Hn Hr Hk H4 Hb Ek Hk2 Hre Ex Ht.
  assert (I := sh_reached F pi E p (fun _ => True) s wd HC Hn Hr ltac:(lia) I (fun _ _ _ _ => I) Hre). destruct I as [I1 _ _ _ _ _ _ _ _ _ _ _ _ _].
  destruct (C91_step F pi E p s wd pop' fit' xb' fxb' st' wd' HC Hn Hr ltac:(lia) Hre Ex) as (sorted & xs & ws & new & asz & arr & arc & cnt & ss & x1 & f1 & st1 & S1 & _ & (L1 & L2 & _) & S2 & _ & S3 & _ & _ & S4 & _).
  assert (Ls := Permutation_length S1). assert (Ln : length new = length xs) by (clear - S2; induction S2; simpl; auto).
  assert (La : length arr = length sorted) by (rewrite (selected_choose _ _ _ _ _ _ _ _ _ _ S3); apply map2_length; congruence).
  assert (Z4 : next_size F C (sh_n p) (t_evals (w_ts wd')) = Ret 4%Z).
  { rewrite Ht. rewrite <- (next_size_end C (sh_n p) k H4 Hb Ek Hk2). destruct HF as (F1 & F2 & F3 & F4 & F5 & F6). unfold next_size, fnat, flim, fz. rewrite F1, F2, F3, F4, F5. reflexivity. }
  unfold next_size in Z4. fold C in S4. assert (N4 : 4 <= length arr) by lia.
  assert (R : exists z, (Z.max 4 z = 4)%Z /\ (((Z.of_nat (length arr) <= Z.max 4 z)%Z /\ pop' = arr) \/ ((Z.of_nat (length (pop' : list jind)) = Z.max 4 z)%Z))).
  { unfold sh_reduced in S4. cbv zeta in S4. rewrite Z4 in S4. destruct (sh_kd p); [congruence| |]; destruct S4 as (z & Ez & S4); injection Ez as <-; exists 4%Z; (split; [reflexivity|]); destruct S4 as [(A & B & _)|(A & B & _)]; auto. }
  destruct R as (z & -> & [[R1 ->]|R1]); lia.
Qed.

(** ** C93: the parameters of the individuals *)
Definition sh_unit (w : num * num) : Prop := (fltb f0 (fst w) = true /\ fleb (fst w) f1 = true) /\ (snd w = NaN \/ (fleb f0 (snd w) = true /\ fleb (snd w) f1 = true)).
Lemma clip01_pos : forall c, fltb f0 c = true -> fltb f0 (clip01 c) = true /\ fleb (clip01 c) f1 = true.
Proof.
  intros [| |z|] H; try discriminate; [|vm_compute; auto]. unfold clip01, limit1, np_min, np_max. cbn [is_nan f0 f1 orb dbl] in *. cbn [fltb] in H. destruct (fltb (Fin z) f0) eqn:E1.
  { cbn [fltb f0] in E1. apply Z.ltb_lt in H. apply Z.ltb_lt in E1. lia. }
  unfold f1. destruct (fltb (dbl 1 0) (Fin z)) eqn:E2; [vm_compute; auto|]. split; auto. unfold dbl in *. cbn [fltb fleb] in *. apply Z.ltb_ge in E2. apply Z.leb_le. exact E2.
Qed.
Lemma clip01_unit : forall c, clip01 c = NaN \/ (fleb f0 (clip01 c) = true /\ fleb (clip01 c) f1 = true).
Proof.
  assert (G : forall c, c <> NaN -> fleb f0 (clip01 c) = true /\ fleb (clip01 c) f1 = true).
  { intros c Hc. destruct (limit1_spec c f0 f1) as (A & B & _); auto. }
  intros [| |z|]; [left; reflexivity| | |]; right; apply G; discriminate.
Qed.
Theorem C93_drawn_64 : forall F pi C p st nfe w, arith64 F -> sh_drawn F pi C p st nfe w -> sh_unit w.
Proof.
  intros F pi C p st nfe w HF (mi & a & b & g & r & _ & _ & _ & H). cbv zeta in H. destruct H as [Hc ->]. apply clip01_pos in Hc.
  assert (Hcr := clip01_unit (if terminal p a then f0 else fadd F a (fmul F (flit F 1 10) g))). set (c := clip01 (cauchy_at F pi b r)) in *. set (cr := clip01 (if terminal p a then f0 else _)) in *. clearbody c cr.
  assert (G : sh_unit (c, cr)) by (split; auto). destruct (sh_kd p); auto. unfold il_f, il_cr. destruct HF as (_ & _ & _ & _ & -> & _). split; cbn [fst snd].
  - repeat match goal with |- context [if ?b then _ else _] => destruct b end; auto; vm_compute; auto.
  - repeat match goal with |- context [if ?b then _ else _] => destruct b end; auto; right; vm_compute; auto.
Qed.
Theorem C93_params_64 : forall F pi E p s wd, let C := e_cfg E in arith64 F ->
  cfg_ok C -> no_nan (e_prob E) -> repair_ok E -> 0 < sh_n p -> reached E (shade F pi C p) s wd ->
  Forall sh_unit (map snd (r_pop s : list jind)).
Proof.
  intros F pi E p s wd C HF HC Hn Hr Hp Hre. assert (W0 : sh_unit (flit F 1 2, match sh_kd p with ILSHADE => flit F 4 5 | _ => flit F 1 2 end)).
  { destruct HF as (_ & _ & _ & _ & -> & _). destruct (sh_kd p); vm_compute; auto. }
  exact (si_w _ _ _ _ _ _ _ _ _ _ _ (sh_reached F pi E p sh_unit s wd HC Hn Hr Hp W0 (fun st nfe w => C93_drawn_64 F pi C p st nfe w HF) Hre)).
Qed.
(** in the first quarter of the evaluations iL-SHADE draws no weight above 0.7 and no probability below 0.5 *)
Theorem C93_early_64 : forall F pi C p st nfe w, arith64 F -> sh_kd p = ILSHADE -> il_early F C nfe 1 4 = true -> sh_drawn F pi C p st nfe w ->
  fleb (fst w) (flit F 7 10) = true /\ (snd w = NaN \/ fleb (flit F 1 2) (snd w) = true).
Proof.
  intros F pi C p st nfe w HF Hk He H. assert (U := C93_drawn_64 _ _ _ _ _ _ _ HF H). destruct H as (mi & a & b & g & r & _ & _ & _ & H). cbv zeta in H. rewrite Hk in H. destruct H as [Hc ->].
  unfold sh_unit in U. cbn [fst snd] in *. apply clip01_pos in Hc. assert (Hr := clip01_unit (if terminal p a then f0 else fadd F a (fmul F (flit F 1 10) g))). unfold il_f, il_cr in *. rewrite He in *. cbn [andb] in *.
  set (c := clip01 (cauchy_at F pi b r)) in *. set (cr := clip01 (if terminal p a then f0 else _)) in *. clearbody c cr. clear U.
  destruct HF as (_ & _ & _ & _ & HF & _). rewrite HF. split.
  - destruct (fltb (flit b64ops 7 10) c) eqn:E1; [vm_compute; reflexivity|].
    assert (L : fleb c (flit b64ops 7 10) = true) by (apply fltb_false_fleb; auto; [vm_compute; discriminate|destruct Hc as [Hc _]; eapply fltb_nan_r; eauto]).
    assert (N : forall y, fleb (flit b64ops 7 10) y = true -> fltb y c = false).
    { intros y Hy. destruct (fltb y c) eqn:E; auto. assert (T := fltb_fleb_trans _ _ _ E (fleb_trans _ _ _ L Hy)). rewrite fltb_irrefl in T. discriminate. }
    rewrite !N by (vm_compute; reflexivity). rewrite !andb_false_r. exact L.
  - destruct (fltb cr (flit b64ops 1 2)) eqn:E1; [right; vm_compute; reflexivity|].
    destruct Hr as [->|[Hr _]]; [left; rewrite andb_false_r; reflexivity|]. right.
    assert (L : fleb (flit b64ops 1 2) cr = true) by (apply fltb_false_fleb; auto; [eapply fleb_nan_r; eauto|vm_compute; discriminate]).
    assert (N : fltb cr (flit b64ops 1 4) = false).
    { destruct (fltb cr (flit b64ops 1 4)) eqn:E; auto. assert (T := fleb_fltb_trans _ _ _ L E). vm_compute in T. discriminate. }
    rewrite N, andb_false_r. exact L.
Qed.
(** the terminal value -1 of the crossover memory stays, except in iL-SHADE *)
Theorem C93_terminal : forall F pi E p s wd pop' fit' xb' fxb' st' wd' j, let C := e_cfg E in
  cfg_ok C -> no_nan (e_prob E) -> repair_ok E -> 0 < sh_n p -> sh_kd p <> ILSHADE -> reached E (shade F pi C p) s wd ->
  exec E (a_iter (shade F pi C p) (r_pop s) (r_fit s) (r_xb s) (r_fxb s) (r_par s)) wd = (Ret (pop', fit', xb', fxb', st'), wd') ->
  nth_error (st_cr (r_par s : sh_st)) j = Some (fneg f1) -> nth_error (st_cr (st' : sh_st)) j = Some (fneg f1).
Proof.
  intros F pi E p s wd pop' fit' xb' fxb' st' wd' j C HC Hn Hr Hp Hk Hre Ex Hj.
  destruct (C91_step F pi E p s wd pop' fit' xb' fxb' st' wd' HC Hn Hr Hp Hre Ex) as (sorted & xs & ws & new & asz & arr & arc & cnt & ss & x1 & y1 & st1 & _ & _ & _ & _ & _ & _ & _ & S3 & S4 & _).
  assert (M : nth_error (st_cr st1) j = Some (fneg f1)).
  { destruct S3 as [[_ ->]|(_ & of & oc & _ & Ec & [_ R] & _)]; [exact Hj|]. cbn [st_cr st_k] in *. destruct R as (_ & R1 & R2). destruct (Nat.eq_dec j (st_k (r_par s : sh_st))) as [->|Ne].
    - rewrite Ec in Hj. injection Hj as ->. rewrite R1. destruct (sh_kd p); try congruence; rewrite orb_true_r; reflexivity.
    - rewrite R2; auto. }
  unfold sh_reduced in S4. destruct (sh_kd p); try congruence; [destruct S4 as [_ ->]; exact M|]. destruct S4 as (z & _ & [(_ & _ & ->)|(_ & _ & _ & -> & _)]); exact M.
Qed.

