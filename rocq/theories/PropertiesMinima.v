(** C55, C56, C57: the documented minima of the benchmark functions. *)
From Coq Require Import Reals ZArith List Bool Arith Lra Lia.
From Verif Require Import Bench BenchLib PropertiesFormula.
Import ListNotations.
Open Scope R_scope.

(** In dimension d, p is a point of the box [lo, hi]^d where f has the value v, and f is defined and not below v at any real
    vector at all (in the box or not) *)
Definition has_min (f : list R -> option R) (d : nat) (lo hi v : R) (p : list R) : Prop :=
  length p = d /\ Forall (fun a => lo <= a <= hi) p /\ f p = Some v /\
  forall x, length x = d -> exists y, f x = Some y /\ v <= y.

Lemma has_min_tot : forall f d lo hi v p, length p = d -> Forall (fun a => lo <= a <= hi) p -> f p = v -> (forall x, length x = d -> v <= f x) -> has_min (tot f) d lo hi v p.
Proof. intros f d lo hi v p H1 H2 H3 H4. split; [auto|]. split; [auto|]. split; [unfold tot; congruence|]. intros x Hx. exists (f x). split; [reflexivity|auto]. Qed.
Lemma Forall_repeat : forall (P : R -> Prop) c d, P c -> Forall P (repeat c d).
Proof. intros. apply Forall_forall. intros a Ha. apply repeat_spec in Ha. subst. auto. Qed.
Lemma Sum_repeat : forall (g : R -> nat -> R) c d v, (forall i, (1 <= i <= d)%nat -> g c i = v) -> Sum (length (repeat c d)) (fun i => g (repeat c d)#i i) = INR d * v.
Proof. intros g c d v H. rewrite repeat_length, <- Sum_const. apply Sum_ext. intros i Hi. rewrite comp_repeat by lia. auto. Qed.
Lemma Sum_0 : forall n f, (forall i, (1 <= i <= n)%nat -> f i = 0) -> Sum n f = 0.
Proof. intros n f H. rewrite (Sum_ext n f (fun _ => 0)) by auto. rewrite Sum_const. ring. Qed.
Ltac at_repeat c := apply has_min_tot; [apply repeat_length|apply Forall_repeat; lra| |].
Ltac sum0r := rewrite ?repeat_length; apply Sum_0; intros i Hi; rewrite ?comp_repeat by lia; try ring.

(** ** C55 *)
Theorem C55_sphere : forall d, has_min (tot sphere) d (-5.12) 5.12 0 (repeat 0 d).
Proof. intros d. at_repeat 0; [rewrite C73_sphere; sum0r|intros x _; rewrite C73_sphere; apply Sum_nonneg; intros; apply pow2_nonneg]. Qed.
Theorem C55_sphere2 : forall d, has_min (tot sphere2) d (-1) 1 0 (repeat 0 d).
Proof.
  intros d. at_repeat 0; rewrite ?C73_sphere2.
  - rewrite repeat_length. apply Sum_0. intros i Hi. rewrite comp_repeat, Rabs_R0 by lia. apply pow_i. lia.
  - intros x _. rewrite C73_sphere2. apply Sum_nonneg. intros. apply pow_le. apply Rabs_pos.
Qed.
Theorem C55_sphere3 : forall d, has_min (tot sphere3) d (-65.536) 65.536 0 (repeat 0 d).
Proof.
  intros d. at_repeat 0.
  - rewrite C73_sphere3, repeat_length. apply Sum_0. intros i Hi. apply Sum_0. intros j Hj. rewrite comp_repeat by lia. ring.
  - intros x _. rewrite C73_sphere3. apply Sum_nonneg. intros. apply Sum_nonneg. intros. apply pow2_nonneg.
Qed.
Theorem C55_sum_squares : forall d, has_min (tot sum_squares) d (-10) 10 0 (repeat 0 d).
Proof.
  intros d. at_repeat 0; [rewrite C73_sum_squares; sum0r|intros x _; rewrite C73_sum_squares; apply Sum_nonneg; intros; apply Rmult_le_pos; [apply pos_INR|apply pow2_nonneg]].
Qed.
Theorem C55_schumer_steiglitz : forall d, has_min (tot schumer_steiglitz) d (-100) 100 0 (repeat 0 d).
Proof. intros d. at_repeat 0; [rewrite C73_schumer_steiglitz; sum0r|intros x _; rewrite C73_schumer_steiglitz; apply Sum_nonneg; intros; apply pow4_nonneg]. Qed.
Theorem C55_chung_reynolds : forall d, has_min (tot chung_reynolds) d (-100) 100 0 (repeat 0 d).
Proof.
  intros d. at_repeat 0; [rewrite C73_chung_reynolds; replace (Sum _ _) with 0; [ring|symmetry; sum0r]|intros x _; rewrite C73_chung_reynolds; apply pow2_nonneg].
Qed.
Theorem C55_step : forall d, has_min (tot step) d (-100) 100 0 (repeat 0 d).
Proof.
  intros d. at_repeat 0; [rewrite C73_step; sum0r; rewrite Rabs_R0; apply (floor_IZR 0); lra|intros x _; rewrite C73_step; apply Sum_nonneg; intros; apply floor_nonneg, Rabs_pos].
Qed.
Theorem C55_step2 : forall d, has_min (tot step2) d (-100) 100 0 (repeat (-0.5) d).
Proof.
  intros d. at_repeat (-0.5); [rewrite C73_step2; sum0r; rewrite (floor_IZR 0) by lra; ring|intros x _; rewrite C73_step2; apply Sum_nonneg; intros; apply pow2_nonneg].
Qed.
Theorem C55_step3 : forall d, has_min (tot step3) d (-100) 100 0 (repeat 0 d).
Proof.
  intros d. at_repeat 0; [rewrite C73_step3; sum0r; apply (floor_IZR 0); lra|intros x _; rewrite C73_step3; apply Sum_nonneg; intros; apply floor_nonneg, pow2_nonneg].
Qed.
(** dimension 0 has no maximum *)
Theorem C55_schwefel221 : forall d, (0 < d)%nat -> has_min schwefel221 d (-100) 100 0 (repeat 0 d).
Proof.
  intros d Hd. split; [apply repeat_length|]. split; [apply Forall_repeat; lra|]. split.
  - apply C73_schwefel221. rewrite repeat_length. split; [exists 1%nat; split; [lia|]|intros i Hi]; rewrite comp_repeat, Rabs_R0 by lia; lra.
  - intros x Hx. destruct (schwefel221 x) as [y|] eqn:E.
    + exists y. split; [reflexivity|]. apply C73_schwefel221 in E. destruct E as ((i & _ & ->) & _). apply Rabs_pos.
    + unfold schwefel221 in E. destruct x; [simpl in Hx; lia|discriminate].
Qed.
Theorem C55_schwefel222 : forall d, (0 < d)%nat -> has_min (tot schwefel222) d (-100) 100 0 (repeat 0 d).
Proof.
  intros d Hd. at_repeat 0.
  - rewrite C73_schwefel222. replace (Sum _ _) with 0 by (symmetry; sum0r; apply Rabs_R0). rewrite repeat_length. destruct d; [lia|]. cbn [Prod]. rewrite comp_repeat, Rabs_R0 by lia. ring.
  - intros x _. unfold schwefel222. apply Rplus_le_le_0_compat; [apply rsum_nonneg|apply rprod_nonneg]; apply Forall_forall; intros a Ha; apply in_map_iff in Ha; destruct Ha as (b & <- & _); apply Rabs_pos.
Qed.
(** Qing: every choice of signs of the square roots; inside the documented box up to dimension 250000 *)
Theorem C55_qing : forall d (s : nat -> bool), (d <= 500 * 500)%nat ->
  has_min (tot qing) d (-500) 500 0 (map (fun i => if s i then sqrt (INR i) else - sqrt (INR i)) (seq 1 d)).
Proof.
  intros d s Hd. apply has_min_tot.
  - rewrite map_length, seq_length. reflexivity.
  - apply Forall_forall. intros a Ha. apply in_map_iff in Ha. destruct Ha as (i & <- & Hi). apply in_seq in Hi.
    assert (H1 := sqrt_pos (INR i)). assert (H2 : sqrt (INR i) <= 500).
    { rewrite <- (sqrt_pow2 500) by lra. apply sqrt_le_1_alt. replace (500 ^ 2) with (INR 500 * INR 500); [rewrite <- mult_INR; apply le_INR; lia|]. rewrite INR_IZR_INZ. simpl IZR. ring. }
    destruct (s i); lra.
  - rewrite C73_qing. rewrite map_length, seq_length. apply Sum_0. intros i Hi. unfold comp. rewrite nth_map with (a := 0%nat) by (rewrite seq_length; lia). rewrite seq_nth by lia.
    replace (1 + (i - 1))%nat with i by lia. assert (H := sqrt_sqrt (INR i) (pos_INR i)). assert (E : forall b : bool, (if b then sqrt (INR i) else - sqrt (INR i)) ^ 2 = INR i) by (intros []; (transitivity (sqrt (INR i) * sqrt (INR i)); [ring|exact H])).
    rewrite E. ring.
  - intros x _. rewrite C73_qing. apply Sum_nonneg. intros. apply pow2_nonneg.
Qed.
Theorem C55_bent_cigar : forall d, (0 < d)%nat -> has_min bent_cigar d (-100) 100 0 (repeat 0 d).
Proof.
  intros d Hd. split; [apply repeat_length|]. split; [apply Forall_repeat; lra|]. split.
  - rewrite C73_bent_cigar by (destruct d; [lia|discriminate]). f_equal. rewrite comp_repeat by lia. rewrite Sum_0; [ring|]. intros i Hi. rewrite repeat_length in Hi. rewrite comp_repeat by lia. ring.
  - intros x Hx. rewrite C73_bent_cigar by (destruct x; [simpl in Hx; lia|discriminate]). eexists. split; [reflexivity|].
    assert (H := Sum_nonneg (length x - 1) (fun i => x#(i + 1) ^ 2) (fun i _ => pow2_nonneg _)). assert (H1 := pow2_nonneg x#1). lra.
Qed.
(** Powell where it is defined for every vector: the multiples of four *)
Theorem C55_powell : forall k, has_min powell (4 * k) (-4) 5 0 (repeat 0 (4 * k)).
Proof.
  intros k. split; [apply repeat_length|]. split; [apply Forall_repeat; lra|]. split.
  - rewrite (C73_powell _ k) by apply repeat_length. f_equal. apply Sum_0. intros i Hi. rewrite !comp_repeat by lia. ring.
  - intros x Hx. rewrite (C73_powell _ k) by auto. eexists. split; [reflexivity|]. apply Sum_nonneg. intros i Hi.
    match goal with |- 0 <= ?a ^ 2 + 5 * ?b ^ 2 + ?c ^ 4 + 10 * ?e ^ 4 => assert (H1 := pow2_nonneg a); assert (H2 := pow2_nonneg b); assert (H3 := pow4_nonneg c); assert (H4 := pow4_nonneg e) end. lra.
Qed.
(** in nine dimensions the slices have the lengths 3, 2, 2, 2 and numpy raises; in five the last four components are shared *)
Example C55_powell_nine : powell (repeat 0 9) = None.
Proof. reflexivity. Qed.
Example C55_powell_five : forall a b c d e, powell [a; b; c; d; e] =
  Some ((a + 10 * b) ^ 2 + 5 * (c - d) ^ 2 + (b - 2 * c) ^ 4 + 10 * (a - d) ^ 4 + ((e + 10 * b) ^ 2 + 5 * (c - d) ^ 2 + (b - 2 * c) ^ 4 + 10 * (e - d) ^ 4 + 0)).
Proof. reflexivity. Qed.

(** ** C56 *)
Theorem C56_rastrigin : forall d, has_min (tot rastrigin) d (-5.12) 5.12 0 (repeat 0 d).
Proof.
  intros d. at_repeat 0.
  - rewrite C73_rastrigin. rewrite (Sum_repeat (fun a _ => a ^ 2 - 10 * cos (2 * PI * a)) 0 d (-10)); [rewrite repeat_length; ring|]. intros. rewrite Rmult_0_r, cos_0. ring.
  - intros x _. rewrite C73_rastrigin. assert (H : Sum (length x) (fun _ => -10) <= Sum (length x) (fun i => x#i ^ 2 - 10 * cos (2 * PI * x#i))).
    { apply Sum_le. intros i _. assert (H1 := pow2_nonneg x#i). assert (H2 := COS_bound (2 * PI * x#i)). lra. }
    rewrite Sum_const in H. lra.
Qed.
Theorem C56_rosenbrock : forall d, has_min (tot rosenbrock) d (-30) 30 0 (repeat 1 d).
Proof.
  intros d. at_repeat 1.
  - rewrite C73_rosenbrock. rewrite repeat_length. apply Sum_0. intros i Hi. rewrite !comp_repeat by lia. ring.
  - intros x _. rewrite C73_rosenbrock. apply Sum_nonneg. intros i _. assert (H1 := pow2_nonneg (x#(i + 1) - x#i ^ 2)). assert (H2 := pow2_nonneg (x#i - 1)). lra.
Qed.
Theorem C56_griewank : forall d, has_min (tot griewank) d (-100) 100 0 (repeat 0 d).
Proof.
  intros d. at_repeat 0.
  - rewrite C73_griewank, repeat_length. rewrite Sum_0 by (intros i Hi; rewrite comp_repeat by lia; unfold Rdiv; ring).
    replace (Prod _ _) with 1; [ring|]. rewrite (Prod_ext d _ (fun _ => 1)); [clear; induction d; cbn [Prod]; [reflexivity|rewrite <- IHd; ring]|].
    intros i Hi. rewrite comp_repeat by lia. unfold Rdiv. rewrite Rmult_0_l. apply cos_0.
  - intros x _. rewrite C73_griewank. assert (H1 : 0 <= Sum (length x) (fun i => x#i ^ 2 / 4000)) by (apply Sum_nonneg; intros i _; assert (H := pow2_nonneg x#i); lra).
    assert (H2 := Prod_bound (length x) (fun i => cos (x#i / sqrt (INR i))) (fun i _ => COS_bound _)). lra.
Qed.
Theorem C56_ackley : forall a b c d, 0 <= a -> 0 <= b -> (0 < d)%nat -> has_min (tot (ackley a b c)) d (-32.768) 32.768 0 (repeat 0 d).
Proof.
  intros a b c d Ha Hb Hd. assert (Hn : 0 < INR d) by (apply lt_0_INR; lia). at_repeat 0.
  - rewrite C73_ackley, repeat_length. rewrite Sum_0 by (intros i Hi; rewrite comp_repeat by lia; ring). rewrite Rmult_0_r, sqrt_0, Rmult_0_r, exp_0.
    rewrite (Sum_ext d _ (fun _ => 1)) by (intros i Hi; rewrite comp_repeat, Rmult_0_r by lia; apply cos_0). rewrite Sum_const. replace (1 / INR d * (INR d * 1)) with 1 by (field; lra). ring.
  - intros x Hx. rewrite C73_ackley, Hx. set (A := sqrt _). assert (HA : 0 <= A) by apply sqrt_pos.
    assert (E1 : exp (- b * A) <= 1). { rewrite <- exp_0. assert (H : - b * A <= 0) by nra. destruct H as [H|H]; [left; apply exp_increasing; lra|rewrite H; lra]. }
    assert (E2 : exp (1 / INR d * Sum d (fun i => cos (c * x#i))) <= exp 1).
    { assert (H : 1 / INR d * Sum d (fun i => cos (c * x#i)) <= 1).
      { assert (S : Sum d (fun i => cos (c * x#i)) <= Sum d (fun _ => 1)) by (apply Sum_le; intros; apply COS_bound). rewrite Sum_const, Rmult_1_r in S.
        apply Rmult_le_reg_l with (INR d); [auto|]. replace (INR d * (1 / INR d * Sum d (fun i => cos (c * x#i)))) with (Sum d (fun i => cos (c * x#i))) by (field; lra). lra. }
      destruct H as [H|H]; [left; apply exp_increasing; lra|rewrite H; lra]. }
    nra.
Qed.
Theorem C56_salomon : forall d, has_min (tot salomon) d (-100) 100 0 (repeat 0 d).
Proof.
  intros d. at_repeat 0.
  - rewrite C73_salomon. rewrite Sum_0 by (intros i Hi; rewrite repeat_length in Hi; rewrite comp_repeat by lia; ring). rewrite sqrt_0, Rmult_0_r, cos_0. ring.
  - intros x _. rewrite C73_salomon. set (v := sqrt _). assert (0 <= v) by apply sqrt_pos. assert (H1 := COS_bound (2 * PI * v)). lra.
Qed.
Theorem C56_ridge : forall d, has_min (tot ridge) d (-64) 64 0 (repeat 0 d).
Proof.
  intros d. at_repeat 0.
  - rewrite C73_ridge, repeat_length. apply Sum_0. intros i Hi. rewrite Sum_0; [ring|]. intros j Hj. apply comp_repeat. lia.
  - intros x _. rewrite C73_ridge. apply Sum_nonneg. intros. apply pow2_nonneg.
Qed.
Theorem C56_zakharov : forall d, has_min (tot zakharov) d (-5) 10 0 (repeat 0 d).
Proof.
  intros d. at_repeat 0.
  - rewrite C73_zakharov, repeat_length. rewrite !Sum_0 by (intros i Hi; rewrite comp_repeat by lia; ring). ring.
  - intros x _. rewrite C73_zakharov. assert (H := Sum_nonneg (length x) (fun i => x#i ^ 2) (fun i _ => pow2_nonneg _)). set (s := Sum (length x) (fun i => 0.5 * INR i * x#i)).
    assert (H1 := pow2_nonneg s). assert (H2 := pow4_nonneg s). lra.
Qed.
Theorem C56_whitley : forall d, has_min (tot whitley) d (-10.24) 10.24 0 (repeat 1 d).
Proof.
  intros d. at_repeat 1.
  - rewrite C73_whitley, repeat_length. apply Sum_0. intros i Hi. apply Sum_0. intros j Hj. rewrite !comp_repeat by lia.
    replace (100 * (1 ^ 2 - 1) ^ 2 + (1 - 1) ^ 2) with 0 by ring. rewrite cos_0. field.
  - intros x _. rewrite C73_whitley. apply Sum_nonneg. intros i _. apply Sum_nonneg. intros j _. set (t := 100 * _ + _). assert (H1 := pow2_nonneg t). assert (H2 := COS_bound t). lra.
Qed.
Theorem C56_csendes : forall d, has_min (tot csendes) d (-1) 1 0 (repeat 0 d).
Proof.
  intros d. at_repeat 0.
  - rewrite C73_csendes, repeat_length. apply Sum_0. intros i Hi. rewrite comp_repeat by lia. destruct (Req_EM_T 0 0); [reflexivity|lra].
  - intros x _. rewrite C73_csendes. apply Sum_nonneg. intros i _. destruct (Req_EM_T x#i 0); [lra|]. apply Rmult_le_pos; [apply pow6_nonneg|]. assert (H := SIN_bound (1 / x#i)). lra.
Qed.
Theorem C56_quintic : forall d, has_min (tot quintic) d (-10) 10 0 (repeat (-1) d).
Proof.
  intros d. at_repeat (-1).
  - rewrite C73_quintic, repeat_length. apply Sum_0. intros i Hi. rewrite comp_repeat by lia. match goal with |- Rabs ?a = 0 => replace a with 0 by ring end. apply Rabs_R0.
  - intros x _. rewrite C73_quintic. apply Sum_nonneg. intros. apply Rabs_pos.
Qed.
(** Trid: x_i = i (D + 1 - i) *)
Definition trid_opt (d : nat) : list R := map (fun i => INR i * (INR d + 1 - INR i)) (seq 1 d).
Lemma trid_diff : forall D (x : nat -> R) n, let s i := INR i * (D + 1 - INR i) in let h i := x i - s i in (1 <= n)%nat ->
  Sum n (fun i => (x i - 1) ^ 2) - Sum (n - 1) (fun i => x (i + 1)%nat * x i) - (Sum n (fun i => (s i - 1) ^ 2) - Sum (n - 1) (fun i => s (i + 1)%nat * s i))
  = 1 / 2 * h 1%nat ^ 2 + 1 / 2 * Sum (n - 1) (fun i => (h i - h (i + 1)%nat) ^ 2) + 1 / 2 * h n ^ 2 + s (n + 1)%nat * h n.
Proof.
  intros D x n s h Hn. induction n as [|n IH]; [lia|]. destruct n as [|n]; [clear IH; unfold h, s; simpl; field|].
  specialize (IH ltac:(lia)). replace (S (S n) - 1)%nat with (S n) by lia. replace (S n - 1)%nat with n in IH by lia.
  cbn [Sum] in *. replace (S (S n) + 1)%nat with (S (S (S n))) by lia. replace (S n + 1)%nat with (S (S n)) in * by lia.
  assert (Q : s (S (S (S n))) = 2 * s (S (S n)) - 2 - s (S n)) by (unfold s; rewrite !S_INR; ring). rewrite Q. unfold h in *. lra.
Qed.
Lemma trid_val : forall D n, let s i := INR i * (D + 1 - INR i) in (1 <= n)%nat ->
  Sum n (fun i => (s i - 1) ^ 2) - Sum (n - 1) (fun i => s (i + 1)%nat * s i)
  = INR n - ((D + 1) * INR n * (INR n + 1) / 2 - INR n * (INR n + 1) * (2 * INR n + 1) / 6) + 1 / 2 * s n * s (n + 1)%nat.
Proof.
  intros D n s Hn. induction n as [|n IH]; [lia|]. destruct n as [|n]; [clear IH; unfold s; simpl; field|].
  specialize (IH ltac:(lia)). replace (S (S n) - 1)%nat with (S n) by lia. replace (S n - 1)%nat with n in IH by lia.
  cbn [Sum] in *. replace (S (S n) + 1)%nat with (S (S (S n))) by lia. replace (S n + 1)%nat with (S (S n)) in * by lia.
  unfold s in *. rewrite !S_INR in *. set (m := INR n) in *. lra.
Qed.
Theorem C56_trid : forall d, (0 < d)%nat ->
  has_min (tot trid) d (- INR d ^ 2) (INR d ^ 2) (- (INR d * (INR d + 4) * (INR d - 1)) / 6) (trid_opt d).
Proof.
  intros d Hd. set (s := fun i => INR i * (INR d + 1 - INR i)).
  assert (Z : s (d + 1)%nat = 0) by (unfold s; rewrite plus_INR; simpl; ring).
  assert (V' : Sum d (fun i => (s i - 1) ^ 2) - Sum (d - 1) (fun i => s (i + 1)%nat * s i) = - (INR d * (INR d + 4) * (INR d - 1)) / 6) by (assert (V := trid_val (INR d) d ltac:(lia)); change ((fun i => INR i * (INR d + 1 - INR i))) with s in V; cbv zeta beta in V; change (INR (d + 1) * (INR d + 1 - INR (d + 1))) with (s (d + 1)%nat) in V; rewrite Z in V; etransitivity; [exact V|field]).
  assert (C : forall i, (1 <= i <= d)%nat -> (trid_opt d)#i = s i).
  { intros i Hi. unfold comp, trid_opt. rewrite nth_map with (a := 0%nat) by (rewrite seq_length; lia). rewrite seq_nth by lia. replace (1 + (i - 1))%nat with i by lia. reflexivity. }
  apply has_min_tot.
  - unfold trid_opt. rewrite map_length, seq_length. reflexivity.
  - apply Forall_forall. intros a Ha. unfold trid_opt in Ha. apply in_map_iff in Ha. destruct Ha as (i & <- & Hi). apply in_seq in Hi.
    assert (1 <= INR i <= INR d) by (split; [apply (le_INR 1)|apply le_INR]; lia). split; nra.
  - rewrite C73_trid. unfold trid_opt at 1 3. rewrite map_length, seq_length. rewrite <- V'. f_equal; apply Sum_ext; intros i Hi; rewrite !C by lia; reflexivity.
  - intros x Hx. rewrite C73_trid, Hx. assert (E := trid_diff (INR d) (fun i => x#i) d ltac:(lia)). cbv zeta beta in E. change (INR (d + 1) * (INR d + 1 - INR (d + 1))) with (s (d + 1)%nat) in E. rewrite Z in E.
    set (A := Sum d (fun i => (x#i - 1) ^ 2) - Sum (d - 1) (fun i => x#(i + 1) * x#i)) in *.
    match type of E with A - ?B = _ => replace B with (- (INR d * (INR d + 4) * (INR d - 1)) / 6) in E by (symmetry; exact V') end.
    match type of E with _ = 1 / 2 * ?a ^ 2 + 1 / 2 * Sum ?n ?f + 1 / 2 * ?b ^ 2 + _ => assert (H1 := pow2_nonneg a); assert (H2 := pow2_nonneg b); assert (H3 := Sum_nonneg n f (fun i _ => pow2_nonneg _)) end.
    lra.
Qed.

(** ** C57 *)
(** Alpine1 and DixonPrice are not the documented functions (C73), but their minimum is the documented one *)
Theorem C57_alpine1 : forall d, has_min (tot alpine1) d (-10) 10 0 (repeat 0 d).
Proof.
  intros d. at_repeat 0; [|intros x _]; unfold alpine1; rewrite Sum_map.
  - rewrite repeat_length. apply Sum_0. intros i Hi. rewrite comp_repeat, sin_0 by lia. match goal with |- Rabs ?a = 0 => replace a with 0 by lra end. apply Rabs_R0.
  - apply Sum_nonneg. intros. apply Rabs_pos.
Qed.
(** x_i = 2^(-(2^i - 2) / 2^i) *)
Definition dixon_opt (d : nat) : list R := map (fun i => Rpower 2 (- (2 ^ i - 2) / 2 ^ i)) (seq 1 d).
Lemma dixon_opt_comp : forall d i, (1 <= i <= d)%nat -> (dixon_opt d)#i = Rpower 2 (- (2 ^ i - 2) / 2 ^ i).
Proof.
  intros d i Hi. unfold comp, dixon_opt. rewrite nth_map with (a := 0%nat) by (rewrite seq_length; lia). rewrite seq_nth by lia. replace (1 + (i - 1))%nat with i by lia. reflexivity.
Qed.
Lemma dixon_opt_step : forall i, 2 * Rpower 2 (- (2 ^ (i + 1) - 2) / 2 ^ (i + 1)) ^ 2 - Rpower 2 (- (2 ^ i - 2) / 2 ^ i) = 0.
Proof.
  intros i. assert (P : 0 < 2 ^ i) by (apply pow_lt; lra). rewrite <- (Rpower_1 2) at 1 by lra. simpl (_ ^ 2). rewrite Rmult_1_r, <- !Rpower_plus.
  apply Rminus_diag_eq. f_equal. rewrite pow_add, pow_1. field. lra.
Qed.
(** the sum in the code runs over i = 3..D with the weights i - 1 *)
Theorem C57_dixon_price_actual : forall x, x <> [] ->
  dixon_price x = Some ((x#1 - 1) ^ 2 + Sum (length x - 2) (fun i => INR (i + 1) * (2 * x#(i + 2) ^ 2 - x#(i + 1)) ^ 2)).
Proof.
  intros [|a t] H; [congruence|]. unfold dixon_price. f_equal. f_equal. set (x := a :: t). rewrite map_map2.
  assert (L1 : length (skipn 2 x) = (length x - 2)%nat) by apply skipn_length.
  assert (L2 : length (skipn 1 (firstn (length x - 1) x)) = (length x - 2)%nat) by (rewrite skipn_length, firstn_length; lia).
  assert (Sk : forall j n (l : list R), nth n (skipn j l) 0 = nth (j + n) l 0).
  { induction j as [|j IH]; intros n l; [reflexivity|]. destruct l as [|b l]; [rewrite !nth_overflow by (simpl; lia); reflexivity|]. simpl. apply IH. }
  rewrite rsum_Sum, !map2_length, L1, L2, arange_length, !Nat.min_id. apply Sum_ext. intros i Hi. unfold comp at 1.
  rewrite nth_map2 with (a := 0) (b := 0); [|rewrite arange_length; lia|rewrite map2_length; lia]. rewrite nth_arange by lia.
  rewrite nth_map2 with (a := 0) (b := 0) by lia. rewrite !Sk. replace (2 + (i - 1))%nat with (i + 1)%nat by lia. f_equal. unfold comp.
  assert (Cf := comp_firstn (length x - 1) x (i + 1) ltac:(lia)). unfold comp in Cf. replace (i + 1 - 1)%nat with (1 + (i - 1))%nat in * by lia.
  rewrite Cf. replace (i + 2 - 1)%nat with (i + 1)%nat by lia. reflexivity.
Qed.
Theorem C57_dixon_price : forall d, (0 < d)%nat -> has_min dixon_price d (-10) 10 0 (dixon_opt d).
Proof.
  intros d Hd. assert (L : length (dixon_opt d) = d) by (unfold dixon_opt; rewrite map_length, seq_length; reflexivity). split; [exact L|]. split; [|split].
  - apply Forall_forall. intros a Ha. unfold dixon_opt in Ha. apply in_map_iff in Ha. destruct Ha as (i & <- & Hi). apply in_seq in Hi.
    assert (P2 : 2 <= 2 ^ i). { replace i with (1 + (i - 1))%nat by lia. rewrite pow_add, pow_1. assert (1 <= 2 ^ (i - 1)) by (apply pow_R1_Rle; lra). lra. }
    assert (0 < Rpower 2 (- (2 ^ i - 2) / 2 ^ i)) by apply exp_pos. split; [lra|]. apply Rle_trans with (Rpower 2 0); [|rewrite Rpower_O; lra].
    apply Rle_Rpower; [lra|]. apply Rmult_le_reg_r with (2 ^ i); [lra|]. unfold Rdiv. rewrite Rmult_assoc, Rinv_l, Rmult_0_l; lra.
  - rewrite C57_dixon_price_actual by (destruct (dixon_opt d); [simpl in L; lia|discriminate]). f_equal. rewrite L. rewrite dixon_opt_comp by lia. rewrite pow_1.
    replace (- (2 - 2) / 2) with 0 by field. rewrite Rpower_O by lra. rewrite Sum_0; [ring|]. intros i Hi. rewrite !dixon_opt_comp by lia.
    replace (i + 2)%nat with (i + 1 + 1)%nat by lia. rewrite dixon_opt_step. ring.
  - intros x Hx. rewrite C57_dixon_price_actual by (destruct x; [simpl in Hx; lia|discriminate]). eexists. split; [reflexivity|].
    apply Rplus_le_le_0_compat; [apply pow2_nonneg|]. apply Sum_nonneg. intros. apply Rmult_le_pos; [apply pos_INR|apply pow2_nonneg].
Qed.
(** a point of the box with a value below the documented minimum *)
Definition below_min (f : list R -> option R) (lo hi v : R) : Prop := exists x y, Forall (fun a => lo <= a <= hi) x /\ f x = Some y /\ y < v.
Theorem C57_discus_refuted : below_min discus (-100) 100 0.
Proof. exists [-100; 0; 0; 0], (-100 * 1000000 + (0 * 0 + (0 * 0 + (0 * 0 + 0)))). repeat split; try reflexivity; [repeat constructor; lra|lra]. Qed.
Theorem C57_levy_refuted : below_min levy (-10) 10 0.
Proof.
  destruct levy_neg as (v & H & Hv). exists levy_x, v. split; [|split; [exact H|lra]]. assert (P := PI_3). assert (P4 := PI_4).
  assert (I : 0 < / PI <= 1 / 3). { split; [apply Rinv_0_lt_compat; lra|]. unfold Rdiv. rewrite Rmult_1_l. left. apply Rinv_lt_contravar; lra. }
  assert (J : 1 / 4 <= / PI). { unfold Rdiv. rewrite Rmult_1_l. apply Rinv_le_contravar; lra. }
  unfold levy_x, Rdiv. constructor; [split; lra|constructor; [split; lra|constructor]].
Qed.
Theorem C57_griewank_rosenbrock_refuted : below_min (tot griewank_rosenbrock) (-100) 100 0.
Proof.
  exists [1; 1], (griewank_rosenbrock [1; 1]). split; [repeat constructor; lra|]. split; [reflexivity|]. unfold griewank_rosenbrock, rsum. simpl.
  match goal with |- context [cos ?a] => replace a with 0 by (unfold Rdiv; ring) end. rewrite cos_0. lra.
Qed.

(** ** C74: the other benchmarks *)
Theorem C74_elliptic : forall d, (2 <= d)%nat -> has_min (tot elliptic) d (-100) 100 0 (repeat 0 d).
Proof.
  intros d Hd. at_repeat 0.
  - rewrite C73_elliptic by (rewrite repeat_length; lia). rewrite repeat_length. apply Sum_0. intros i Hi. rewrite comp_repeat by lia. ring.
  - intros x Hx. rewrite C73_elliptic by lia. apply Sum_nonneg. intros. apply Rmult_le_pos; [left; apply exp_pos|apply pow2_nonneg].
Qed.
Theorem C74_hgbat : forall d, (0 < d)%nat -> has_min (tot hgbat) d (-100) 100 0 (repeat (-1) d).
Proof.
  intros d Hd. assert (Hn : 0 < INR d) by (apply lt_0_INR; lia). at_repeat (-1).
  - rewrite C73_hgbat. rewrite (Sum_repeat (fun a _ => a ^ 2) (-1) d 1) by (intros; ring). rewrite (Sum_repeat (fun a _ => a) (-1) d (-1)) by (intros; ring). rewrite repeat_length.
    match goal with |- context [Rabs ?a] => replace a with 0 by ring end. rewrite Rabs_R0, sqrt_0.
    replace (0.5 * (INR d * 1) + INR d * -1) with (-0.5 * INR d) by lra. unfold Rdiv. rewrite Rmult_assoc, Rinv_r by lra. lra.
  - intros x Hx. rewrite C73_hgbat, Hx. set (s := sqrt _). assert (0 <= s) by apply sqrt_pos. rewrite <- Sum_scal, <- Sum_plus.
    assert (S : Sum d (fun _ => -0.5) <= Sum d (fun i => 0.5 * x#i ^ 2 + x#i)). { apply Sum_le. intros i _. assert (P := pow2_nonneg (x#i + 1)). lra. }
    rewrite Sum_const in S. assert (Q : -0.5 <= Sum d (fun i => 0.5 * x#i ^ 2 + x#i) / INR d).
    { apply Rmult_le_reg_r with (INR d); [auto|]. unfold Rdiv. rewrite Rmult_assoc, Rinv_l, Rmult_1_r; lra. }
    lra.
Qed.
Theorem C74_perm : forall beta d, has_min (tot (perm beta)) d (- INR d) (INR d) 0 (map (fun i => 1 / INR i) (seq 1 d)).
Proof.
  intros beta d. assert (L : length (map (fun i => 1 / INR i) (seq 1 d)) = d) by (rewrite map_length, seq_length; reflexivity). apply has_min_tot.
  - exact L.
  - apply Forall_forall. intros a Ha. apply in_map_iff in Ha. destruct Ha as (i & <- & Hi). apply in_seq in Hi. assert (H : 1 <= INR i) by (apply (le_INR 1); lia).
    assert (Hd : 1 <= INR d) by (apply (le_INR 1); lia). assert (0 < / INR i <= 1). { split; [apply Rinv_0_lt_compat; lra|]. rewrite <- Rinv_1. apply Rinv_le_contravar; lra. }
    unfold Rdiv. lra.
  - rewrite C73_perm_actual, L. apply Sum_0. intros i Hi. unfold comp. rewrite nth_map with (a := 0%nat) by (rewrite seq_length; lia). rewrite seq_nth by lia.
    replace (1 + (i - 1))%nat with i by lia. ring.
  - intros x _. rewrite C73_perm_actual. apply Sum_nonneg. intros. apply pow2_nonneg.
Qed.
Theorem C74_pinter : forall d, has_min (tot pinter) d (-10) 10 0 (repeat 0 d).
Proof.
  assert (G : forall t, 0 <= t -> 0 <= log10 (1 + t)).
  { intros t H. unfold log10. assert (0 < ln 10) by (rewrite <- ln_1; apply ln_increasing; lra). apply Rmult_le_pos; [|left; apply Rinv_0_lt_compat; auto].
    destruct H as [H|<-]; [left; rewrite <- ln_1; apply ln_increasing; lra|rewrite Rplus_0_r, ln_1; lra]. }
  intros d. at_repeat 0.
  - assert (P : forall i, (1 <= i <= d)%nat -> prev (repeat 0 d) i = 0 /\ next (repeat 0 d) i = 0 /\ (repeat 0 d)#i = 0).
    { intros i Hi. unfold prev, next. rewrite repeat_length. destruct (i =? 1)%nat eqn:E1, (i =? d)%nat eqn:E2; rewrite ?comp_repeat;
        rewrite ?Nat.eqb_eq, ?Nat.eqb_neq in *; try lia; auto. }
    rewrite C73_pinter. cbv zeta. rewrite repeat_length. rewrite !Sum_0; [ring| | |].
    + intros i Hi. destruct (P i Hi) as (-> & -> & ->). rewrite cos_0. match goal with |- _ * log10 ?a = 0 => replace a with 1 by ring end. unfold log10. rewrite ln_1. unfold Rdiv. ring.
    + intros i Hi. destruct (P i Hi) as (-> & -> & ->). rewrite !sin_0, Rmult_0_l, Rplus_0_l, sin_0. ring.
    + intros i Hi. destruct (P i Hi) as (_ & _ & ->). ring.
  - intros x _. rewrite C73_pinter. cbv zeta. apply Rplus_le_le_0_compat; [apply Rplus_le_le_0_compat|]; apply Sum_nonneg; intros i _.
    + apply Rmult_le_pos; [apply pos_INR|apply pow2_nonneg].
    + apply Rmult_le_pos; [assert (H := pos_INR i); lra|apply pow2_nonneg].
    + apply Rmult_le_pos; [apply pos_INR|]. apply G. apply Rmult_le_pos; [apply pos_INR|apply pow2_nonneg].
Qed.
(** 0.5 + (s - 0.5) / t^2 for 0 <= s, 1 <= t *)
Lemma schaffer_low : forall s t, 0 <= s -> 1 <= t -> s <= 0.5 -> s <= 0.5 + (s - 0.5) / t ^ 2.
Proof.
  intros s t Hs Ht H. assert (T : 1 <= t ^ 2) by nra. assert (0 < / t ^ 2 <= 1). { split; [apply Rinv_0_lt_compat; lra|]. rewrite <- Rinv_1. apply Rinv_le_contravar; lra. }
  unfold Rdiv. nra.
Qed.
Lemma schaffer_high : forall s t, 1 <= t -> 0.5 <= s -> 0.5 <= 0.5 + (s - 0.5) / t ^ 2.
Proof.
  intros s t Ht H. assert (T : 1 <= t ^ 2) by nra. assert (0 < / t ^ 2) by (apply Rinv_0_lt_compat; lra). unfold Rdiv. nra.
Qed.
Lemma schaffer_nonneg : forall s t, 0 <= s -> 1 <= t -> 0 <= 0.5 + (s - 0.5) / t ^ 2.
Proof. intros s t Hs Ht. destruct (Rle_dec s 0.5); [assert (H := schaffer_low s t Hs Ht r)|assert (H := schaffer_high s t Ht ltac:(lra))]; lra. Qed.
Theorem C74_schaffer_n2 : has_min (pair_of schaffer_n2) 2 (-100) 100 0 [0; 0].
Proof.
  split; [reflexivity|]. split; [repeat constructor; lra|]. split.
  - simpl. f_equal. unfold schaffer_n2. replace (0 ^ 2 - 0 ^ 2) with 0 by ring. rewrite sin_0. lra.
  - intros [|a [|b [|c x]]] Hx; try discriminate. eexists. split; [reflexivity|]. apply schaffer_nonneg; [apply pow2_nonneg|].
    assert (H1 := pow2_nonneg a). assert (H2 := pow2_nonneg b). lra.
Qed.
Theorem C74_expanded_schaffer : forall d, has_min (tot expanded_schaffer) d (-100) 100 0 (repeat 0 d).
Proof.
  intros d. at_repeat 0.
  - destruct d; [reflexivity|]. rewrite C73_expanded_schaffer by discriminate. rewrite repeat_length. rewrite Sum_0; rewrite ?comp_repeat by lia.
    + replace (0 ^ 2 + 0 ^ 2) with 0 by ring. rewrite sqrt_0, sin_0. lra.
    + intros i Hi. rewrite !comp_repeat by lia. replace (0 ^ 2 + 0 ^ 2) with 0 by ring. rewrite sqrt_0, sin_0. lra.
  - intros x _. destruct x as [|a x]; [unfold expanded_schaffer, rsum; simpl; lra|]. rewrite C73_expanded_schaffer by discriminate. set (y := a :: x).
    assert (G : forall u v, 0 <= 0.5 + (sin (sqrt (u ^ 2 + v ^ 2)) ^ 2 - 0.5) / (1 + 0.001 * (u ^ 2 + v ^ 2)) ^ 2).
    { intros u v. apply schaffer_nonneg; [apply pow2_nonneg|]. assert (H1 := pow2_nonneg u). assert (H2 := pow2_nonneg v). lra. }
    cbv beta zeta. apply Rplus_le_le_0_compat; [apply G|apply Sum_nonneg; intros; apply G].
Qed.
(** Weierstrass for a >= 0 and odd b, in particular the default a = 0.5, b = 3 *)
Lemma cos_odd : forall m, cos (PI * INR (2 * m + 1)) = -1.
Proof. intros m. rewrite plus_INR, mult_INR. simpl (INR 2). simpl (INR 1). replace (PI * ((1 + 1) * INR m + 1)) with (PI + 2 * INR m * PI) by ring. rewrite cos_period. apply cos_PI. Qed.
Theorem C74_weierstrass : forall a m kmax d, 0 <= a -> has_min (tot (weierstrass a (2 * m + 1) kmax)) d (-100) 100 0 (repeat 0 d).
Proof.
  intros a m kmax d Ha. at_repeat 0.
  - rewrite C73_weierstrass, repeat_length. rewrite (Sum_ext d _ (fun _ => Sum (kmax + 1) (fun k => a ^ (k - 1) * cos (2 * PI * INR (2 * m + 1) ^ (k - 1) * 0.5)))); [rewrite Sum_const; ring|].
    intros i Hi. apply Sum_ext. intros k Hk. rewrite comp_repeat, Rplus_0_l by lia. reflexivity.
  - intros x _. rewrite C73_weierstrass.
    assert (H : Sum (length x) (fun _ => Sum (kmax + 1) (fun k => a ^ (k - 1) * cos (2 * PI * INR (2 * m + 1) ^ (k - 1) * 0.5)))
      <= Sum (length x) (fun i => Sum (kmax + 1) (fun k => a ^ (k - 1) * cos (2 * PI * INR (2 * m + 1) ^ (k - 1) * (x#i + 0.5))))).
    { apply Sum_le. intros i _. apply Sum_le. intros k _.
      assert (O : exists q, ((2 * m + 1) ^ (k - 1) = 2 * q + 1)%nat).
      { generalize (k - 1)%nat. induction n as [|n (q & IH)]; [exists 0%nat; reflexivity|]. exists (2 * m * q + m + q)%nat. rewrite Nat.pow_succ_r', IH. ring. }
      destruct O as (q & O). rewrite <- pow_INR, O. replace (2 * PI * INR (2 * q + 1) * 0.5) with (PI * INR (2 * q + 1)) by lra. rewrite cos_odd.
      assert (P : 0 <= a ^ (k - 1)) by (apply pow_le; auto). assert (B := COS_bound (2 * PI * INR (2 * q + 1) * (x#i + 0.5))). nra. }
    rewrite Sum_const in H. lra.
Qed.
(** StyblinskiTang: the documented numbers are rounded; the exact minimum is within 10^-13 D of the documented value, and the value
    at the documented point within 10^-14 D *)
Theorem C74_styblinski_tang : forall d,
  (forall x, length x = d -> (-39.16616570377142 - 1e-13) * INR d <= styblinski_tang x) /\
  Rabs (styblinski_tang (repeat (-2.903534018185960) d) - (-39.16616570377142) * INR d) <= 1e-14 * INR d.
Proof.
  intros d. split.
  - intros x Hx. rewrite C73_styblinski_tang, Hx.
    assert (H : Sum d (fun _ => 2 * (-39.16616570377142 - 1e-13)) <= Sum d (fun i => x#i ^ 4 - 16 * x#i ^ 2 + 5 * x#i)).
    { apply Sum_le. intros i _. generalize (x#i). intros t. set (r := 2.903534018185960).
      assert (E : t ^ 4 - 16 * t ^ 2 + 5 * t = (t + r) ^ 2 * ((t - r) ^ 2 + (2 * r ^ 2 - 16)) + (5 - (4 * r ^ 3 - 32 * r)) * (t + r) + (r ^ 4 - 16 * r ^ 2 - 5 * r)) by ring. rewrite E.
      assert (H1 : 0 <= (t + r) ^ 2 * (t - r) ^ 2) by (apply Rmult_le_pos; apply pow2_nonneg).
      assert (H2 := pow2_nonneg (0.8 * (t + r) + (5 - (4 * r ^ 3 - 32 * r)) / 1.6)). assert (H3 : 0.8 <= 2 * r ^ 2 - 16) by (unfold r; lra). assert (H4 := pow2_nonneg (t + r)).
      assert (H5 : (t + r) ^ 2 * (2 * r ^ 2 - 16) >= 0.64 * (t + r) ^ 2) by nra.
      assert (H6 : r ^ 4 - 16 * r ^ 2 - 5 * r - ((5 - (4 * r ^ 3 - 32 * r)) / 1.6) ^ 2 >= 2 * (-39.16616570377142 - 1e-13)) by (unfold r; lra).
      nra. }
    rewrite Sum_const in H. lra.
  - rewrite C73_styblinski_tang. rewrite (Sum_repeat (fun a _ => a ^ 4 - 16 * a ^ 2 + 5 * a) _ d ((-2.903534018185960) ^ 4 - 16 * (-2.903534018185960) ^ 2 + 5 * (-2.903534018185960))) by reflexivity.
    assert (H := pos_INR d). set (n := INR d) in *. set (c := (-2.903534018185960) ^ 4 - 16 * (-2.903534018185960) ^ 2 + 5 * (-2.903534018185960)).
    replace (1 / 2 * (n * c) - (-39.16616570377142) * n) with ((c / 2 - (-39.16616570377142)) * n) by lra. rewrite Rabs_mult, (Rabs_pos_eq n) by auto.
    apply Rmult_le_compat_r; [auto|]. unfold c. apply Rabs_le. lra.
Qed.
(** HappyCat is never 0 in two or more dimensions *)
Lemma rpow_nonneg : forall a b, 0 <= rpow a b.
Proof. intros. unfold rpow. destruct (Req_EM_T a 0); [lra|]. left. apply exp_pos. Qed.
Theorem C74_happy_cat_refuted : forall alpha x, (2 <= length x)%nat -> 0 < happy_cat alpha x.
Proof.
  intros alpha x Hx. assert (Hn : 0 < INR (length x)) by (apply lt_0_INR; lia). unfold happy_cat. rewrite !Sum_map. set (n := length x) in *.
  assert (T : forall i, (1 <= i <= n)%nat -> -0.5 / INR n <= rpow (Rabs (x#i * x#i - INR n)) alpha + (0.5 * x#i * x#i + x#i) / INR n).
  { intros i Hi. assert (P := rpow_nonneg (Rabs (x#i * x#i - INR n)) alpha). assert (Q := pow2_nonneg (x#i + 1)). assert (-0.5 / INR n <= (0.5 * x#i * x#i + x#i) / INR n); [|lra].
    apply Rmult_le_compat_r; [left; apply Rinv_0_lt_compat; auto|]. lra. }
  assert (T1 : -0.5 / INR n < rpow (Rabs (x#1 * x#1 - INR n)) alpha + (0.5 * x#1 * x#1 + x#1) / INR n).
  { assert (P := rpow_nonneg (Rabs (x#1 * x#1 - INR n)) alpha). assert (I : 0 < / INR n) by (apply Rinv_0_lt_compat; auto). destruct (Req_dec x#1 (-1)) as [E|E].
    - rewrite E. assert (0 < rpow (Rabs (-1 * -1 - INR n)) alpha); [|unfold Rdiv; lra]. unfold rpow. destruct (Req_EM_T _ 0) as [Z|Z]; [|apply exp_pos]. exfalso.
      assert (2 <= INR n) by (apply (le_INR 2); auto). unfold Rabs in Z. destruct (Rcase_abs _) in Z; lra.
    - assert (-0.5 / INR n < (0.5 * x#1 * x#1 + x#1) / INR n); [|lra]. apply Rmult_lt_compat_r; [auto|]. assert (0 < (x#1 + 1) ^ 2) by (rewrite <- Rsqr_pow2; apply Rlt_0_sqr; lra). lra. }
  rewrite <- Sum_plus. destruct n as [|k] eqn:En; [lia|]. rewrite Sum_head. rewrite <- En in *.
  assert (S : Sum k (fun _ => -0.5 / INR n) <= Sum k (fun i => rpow (Rabs (x#(S i) * x#(S i) - INR n)) alpha + (0.5 * x#(S i) * x#(S i) + x#(S i)) / INR n)) by (apply Sum_le; intros i Hi; apply T; lia).
  rewrite Sum_const in S. assert (E : INR k * (-0.5 / INR n) = -0.5 + 0.5 / INR n) by (assert (Ek : INR k = INR n - 1) by (rewrite En, S_INR; ring); assert (Ei := Rinv_r (INR n) ltac:(lra)); rewrite Ek; unfold Rdiv; nra).
  unfold Rdiv in *. lra.
Qed.
Theorem C74_katsuura_refuted : below_min (tot katsuura) (-100) 100 1.
Proof. exists [IZR (-1)], (katsuura [IZR (-1)]). split; [repeat constructor; lra|]. split; [reflexivity|]. rewrite katsuura_int. lra. Qed.
(** SchafferN4 is positive everywhere, and 1 at the documented minimum *)
Theorem C74_schaffer_n4_refuted : schaffer_n4 0 0 = 1 /\ forall a b, 0 < schaffer_n4 a b.
Proof.
  unfold schaffer_n4. split.
  - replace (0 ^ 2 - 0 ^ 2) with 0 by ring. rewrite sin_0, cos_0. lra.
  - intros a b. set (t := sin _). assert (B := SIN_bound (a ^ 2 - b ^ 2)). fold t in B. assert (P := PI_3).
    assert (C : 0 < cos t) by (apply cos_gt_0; lra). assert (C2 : 0 < cos t ^ 2) by nra. assert (H1 := pow2_nonneg a). assert (H2 := pow2_nonneg b).
    destruct (Rle_dec (cos t ^ 2) 0.5); [assert (H := schaffer_low (cos t ^ 2) (1 + 0.001 * (a ^ 2 + b ^ 2)) ltac:(lra) ltac:(lra) r)
      |assert (H := schaffer_high (cos t ^ 2) (1 + 0.001 * (a ^ 2 + b ^ 2)) ltac:(lra) ltac:(lra))]; lra.
Qed.
(** Stepint: the minimum over the box is 25 - 6 D, at the documented point; it is 0 in no dimension *)
Theorem C74_stepint_refuted : forall d,
  stepint (repeat (-5.12) d) = 25 - 6 * INR d /\ stepint (repeat (-5.12) d) <> 0 /\
  (forall x, length x = d -> Forall (fun a => -5.12 <= a <= 5.12) x -> 25 - 6 * INR d <= stepint x).
Proof.
  intros d. assert (E : stepint (repeat (-5.12) d) = 25 - 6 * INR d).
  { unfold stepint. rewrite Sum_map. rewrite (Sum_repeat (fun a _ => floor a) _ d (-6)); [ring|]. intros. apply (floor_IZR (-6)). lra. }
  split; [exact E|]. split.
  - rewrite E, INR_IZR_INZ. intros H. assert (H1 : IZR (25 - 6 * Z.of_nat d) = IZR 0) by (rewrite minus_IZR, mult_IZR; exact H). apply eq_IZR in H1. lia.
  - intros x Hx F. unfold stepint. rewrite Sum_map, Hx. assert (S : Sum d (fun _ => -6) <= Sum d (fun i => floor x#i)); [|rewrite Sum_const in S; lra].
    apply Sum_le. intros i Hi. assert (B : -5.12 <= x#i) by (apply (proj1 (Forall_forall _ _) F); unfold comp; apply nth_In; lia).
    destruct (floor_spec x#i) as [_ H]. unfold floor in *. assert (IZR (-7) < IZR (Int_part x#i)) by lra. apply lt_IZR in H0. apply IZR_le. lia.
Qed.
(** the documented global minimum of Alpine2, 2.808^D, is not a minimum *)
Theorem C74_alpine2_refuted : forall d, (0 < d)%nat -> alpine2 (repeat 0 d) < 2.808 ^ d.
Proof.
  intros [|d] H; [lia|]. unfold alpine2, rprod. cbn [repeat map fold_right]. rewrite sqrt_0. rewrite !Rmult_0_l. apply pow_lt. lra.
Qed.
(** the documented global maximum of CosineMixture, -0.1 D at 0, is not a maximum *)
Theorem C74_cosine_mixture_refuted : forall d, (0 < d)%nat ->
  cosine_mixture (repeat 0 d) = - 0.1 * INR d /\ cosine_mixture (repeat (1 / 5) d) > - 0.1 * INR d.
Proof.
  intros d Hd. assert (0 < INR d) by (apply lt_0_INR; lia). rewrite !C73_cosine_mixture. split.
  - rewrite (Sum_repeat (fun a _ => cos (5 * PI * a)) 0 d 1), (Sum_repeat (fun a _ => a ^ 2) 0 d 0); [ring|intros; ring|intros; rewrite Rmult_0_r; apply cos_0].
  - rewrite (Sum_repeat (fun a _ => cos (5 * PI * a)) _ d (-1)), (Sum_repeat (fun a _ => a ^ 2) _ d (1 / 25)); [lra|intros; field|intros; replace (5 * PI * (1 / 5)) with PI by field; apply cos_PI].
Qed.

Print Assumptions C55_sphere.
Print Assumptions C55_sphere2.
Print Assumptions C55_sphere3.
Print Assumptions C55_sum_squares.
Print Assumptions C55_schumer_steiglitz.
Print Assumptions C55_chung_reynolds.
Print Assumptions C55_step.
Print Assumptions C55_step2.
Print Assumptions C55_step3.
Print Assumptions C55_schwefel221.
Print Assumptions C55_schwefel222.
Print Assumptions C55_qing.
Print Assumptions C55_bent_cigar.
Print Assumptions C55_powell.
Print Assumptions C56_rastrigin.
Print Assumptions C56_rosenbrock.
Print Assumptions C56_griewank.
Print Assumptions C56_ackley.
Print Assumptions C56_salomon.
Print Assumptions C56_ridge.
Print Assumptions C56_zakharov.
Print Assumptions C56_whitley.
Print Assumptions C56_csendes.
Print Assumptions C56_quintic.
Print Assumptions C56_trid.
Print Assumptions C57_alpine1.
Print Assumptions C57_dixon_price_actual.
Print Assumptions C57_dixon_price.
Print Assumptions C57_discus_refuted.
Print Assumptions C57_levy_refuted.
Print Assumptions C57_griewank_rosenbrock_refuted.
Print Assumptions C74_elliptic.
Print Assumptions C74_hgbat.
Print Assumptions C74_perm.
Print Assumptions C74_pinter.
Print Assumptions C74_schaffer_n2.
Print Assumptions C74_expanded_schaffer.
Print Assumptions C74_weierstrass.
Print Assumptions C74_styblinski_tang.
Print Assumptions C74_happy_cat_refuted.
Print Assumptions C74_katsuura_refuted.
Print Assumptions C74_schaffer_n4_refuted.
Print Assumptions C74_stepint_refuted.
Print Assumptions C74_alpine2_refuted.
Print Assumptions C74_cosine_mixture_refuted.
