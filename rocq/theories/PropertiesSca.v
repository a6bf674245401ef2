(** The weight r1 of the sine cosine algorithm in binary64 (C52). *)
From Coq Require Import ZArith Lia Bool List SpecFloat Reals Lra.
From Flocq Require Import Core Relative.
From Verif Require Import Num Task Prog Fops AlgBasic B64 B64Spec B64Int B64Mag PropertiesShade.
Open Scope nat_scope.

Lemma lo_pow : forall e, (-1022 <= e)%Z -> (bpow radix2 (-1022) <= bpow radix2 e)%R.
Proof. intros e H. apply bpow_le. exact H. Qed.
(** a - t * (a / t) in binary64 with a = 3: both roundings together are below 2^-50 *)
Lemma r1_small : forall t, (1 <= t <= 2 ^ 53)%Z ->
  exists z, fsub b64ops (b64_lit 3 1) (fmul b64ops (Fin (t * 2 ^ 1074)) (fdiv b64ops (b64_lit 3 1) (Fin (t * 2 ^ 1074)))) = Fin z /\ (Rabs (val z) <= bpow radix2 (-50))%R.
Proof.
  intros t Ht. rewrite lit_int by (simpl; lia). assert (I3 := is64_int 3 ltac:(simpl; lia)). assert (It := is64_int t ltac:(lia)).
  assert (T1 : (1 <= IZR t)%R) by (apply IZR_le; lia).
  assert (T2 : (IZR t <= bpow radix2 53)%R) by (rewrite <- (IZR_Zpower radix2) by lia; apply IZR_le; exact (proj2 Ht)).
  set (u := bpow radix2 (-53)). assert (U0 : (0 < u)%R) by apply bpow_gt_0.
  assert (U1 : (u * bpow radix2 53 = 1)%R) by (unfold u; rewrite <- bpow_plus; reflexivity).
  assert (U2 : (bpow radix2 (-50) = 8 * u)%R) by (unfold u; change (-50)%Z with (3 + -53)%Z; rewrite bpow_plus; reflexivity).
  assert (U3 : (u <= / 16)%R) by (change (/ 16)%R with (bpow radix2 (-4)); apply bpow_le; lia).
  assert (Hq : (3 * u <= 3 / IZR t <= 3)%R).
  { split.
    - apply Rmult_le_reg_r with (IZR t); [lra|]. replace (3 / IZR t * IZR t)%R with 3%R by (field; lra). rewrite Rmult_assoc. assert (u * IZR t <= 1)%R by (rewrite <- U1; apply Rmult_le_compat_l; lra). lra.
    - apply Rmult_le_reg_r with (IZR t); [lra|]. replace (3 / IZR t * IZR t)%R with 3%R by (field; lra). lra. }
  destruct (div64 (3 * 2 ^ 1074) (t * 2 ^ 1074) I3 It) as (q & Q1 & Q2 & Q3); rewrite ?val_int in *; [lra| |].
  { apply (rnd_in 0 4); [apply (ok64_int 0); simpl; lia|apply (ok64_int 4); simpl; lia|lra]. }
  assert (Eq : (Rabs (val q - 3 / IZR t) <= u * (3 / IZR t))%R).
  { rewrite Q3. rewrite <- (Rabs_pos_eq (3 / IZR t)) at 3 by lra. apply rel_err. right. rewrite Rabs_pos_eq by lra. assert (P := lo_pow (-53) ltac:(lia)). fold u in P. lra. }
  assert (Et : (Rabs (IZR t * val q - 3) <= 3 * u)%R).
  { replace (IZR t * val q - 3)%R with (IZR t * (val q - 3 / IZR t))%R by (field; lra). rewrite Rabs_mult, (Rabs_pos_eq (IZR t)) by lra.
    apply Rle_trans with (IZR t * (u * (3 / IZR t)))%R; [apply Rmult_le_compat_l; lra|]. apply Req_le. field. lra. }
  assert (Ep : (3 - 3 * u <= IZR t * val q <= 3 + 3 * u)%R) by (revert Et; unfold Rabs; destruct (Rcase_abs _); lra).
  destruct (mul64 (t * 2 ^ 1074) q It Q2) as (m & M1 & M2 & M3); rewrite ?val_int in *.
  { apply (rnd_in 0 4); [apply (ok64_int 0); simpl; lia|apply (ok64_int 4); simpl; lia|lra]. }
  assert (Em : (Rabs (val m - IZR t * val q) <= u * (IZR t * val q))%R).
  { rewrite M3. rewrite <- (Rabs_pos_eq (IZR t * val q)) at 3 by lra. apply rel_err. right. rewrite Rabs_pos_eq by lra. assert (P := lo_pow 0 ltac:(lia)). change (bpow radix2 0) with 1%R in P. lra. }
  assert (E3 : (- (8 * u) <= 3 - val m <= 8 * u)%R).
  { assert (A : (u * (IZR t * val q) <= u * 4)%R) by (apply Rmult_le_compat_l; lra). revert Em. unfold Rabs. destruct (Rcase_abs _); lra. }
  assert (O := ok64_bpow (-50) ltac:(lia)). rewrite <- U2 in E3.
  destruct (rnd_in _ _ _ (ok64_opp _ O) O E3) as [R1 R2].
  destruct (sub64 (3 * 2 ^ 1074) m I3 M2) as (d & D1 & D2 & D3); rewrite ?val_int in *; [exact R2|].
  exists d. rewrite Q1, M1. split; [exact D1|]. rewrite D3. apply Rabs_le. exact R1.
Qed.
(** with the default a = 3, |r1| is at most 2^-50 in every iteration (below 2^53, where counters stop being exact) *)
Theorem C52_r1_binary64 : forall it rmin rmax n, (Z.of_nat it < 2 ^ 53)%Z ->
  fleb (fabs b64ops (sca_r1 b64ops (SCAPar n (b64_lit 3 1) rmin rmax) it)) (Fin (2 ^ (1074 - 50))) = true.
Proof.
  intros it rmin rmax n H. unfold sca_r1. cbn [sc_a]. destruct (fnat64 (S it)) as [-> _]; [lia|].
  destruct (r1_small (Z.of_nat (S it)) ltac:(lia)) as (z & -> & Hz). cbn [fabs b64ops]. apply fleb_val.
  replace (val (Z.abs z)) with (Rabs (val z)).
  - replace (val (2 ^ (1074 - 50))) with (bpow radix2 (-50)); [exact Hz|]. unfold val. change 2%Z with (radix_val radix2) at 1. rewrite (IZR_Zpower radix2) by lia. rewrite <- bpow_plus. reflexivity.
  - unfold val. rewrite abs_IZR, Rabs_mult. f_equal. apply Rabs_pos_eq. apply bpow_ge_0.
Qed.
(** r1 is 0 in the first iteration but not in all of them: it is 2^-51 at counter 46 *)
Example r1_values : (Z.of_nat 46 < 2 ^ 53)%Z /\ map (sca_r1 b64ops (SCAPar 25 (b64_lit 3 1) (b64_lit 0 1) (b64_lit 2 1))) (cons 0 (cons 46 nil)) = cons f0 (cons (Fin (2 ^ (1074 - 51))) nil).
Proof. split; [reflexivity|]. vm_compute. reflexivity. Qed.

Print Assumptions C52_r1_binary64.
