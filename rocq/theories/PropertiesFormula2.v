(** C73: what the benchmark functions compute that are not the documented ones, and the remaining ones. *)
From Coq Require Import Reals ZArith List Bool Arith Lra Lia.
From Verif Require Import Bench BenchLib PropertiesFormula.
Import ListNotations.
Open Scope R_scope.

Theorem C73_schwefel : forall x, schwefel x = 418.982887272433799807913601398 * INR (length x) - Sum (length x) (fun i => x#i * sin (sqrt (Rabs x#i))).
Proof. intros x. unfold schwefel. rewrite (Sum_map (fun a => a * sin (sqrt (Rabs a)))). reflexivity. Qed.
(** the first component is not squared; no component: IndexError *)
Theorem C73_discus_actual : forall x, discus x = if (length x =? 0)%nat then None else Some (10 ^ 6 * x#1 + Sum (length x - 1) (fun i => x#(i + 1) ^ 2)).
Proof.
  intros [|a t]; [reflexivity|]. unfold discus. rewrite Sum_map, (Sum_cons Rsqr a t). cbn [length Nat.eqb]. f_equal. f_equal; [unfold comp; cbn [Nat.sub nth]; ring|].
  apply Sum_ext. intros. unfold Rsqr. ring.
Qed.
(** the sine in the sum is not squared; no component: IndexError *)
Theorem C73_levy_actual : forall x, let w i := 1 + (x#i - 1) / 4 in
  levy x = if (length x =? 0)%nat then None else
    Some (sin (PI * w 1%nat) ^ 2 + Sum (length x - 1) (fun i => (w i - 1) ^ 2 * (1 + 10 * sin (PI * w i + 1))) + (w (length x) - 1) ^ 2 * (1 + sin (2 * PI * w (length x)) ^ 2)).
Proof.
  intros x w. destruct x as [|a t]; [reflexivity|]. set (x := a :: t) in *. set (v := map (fun a => 1 + (a - 1) / 4) x).
  assert (L : length v = length x) by apply map_length.
  assert (N : forall i, (1 <= i <= length x)%nat -> v#i = w i). { intros i Hi. unfold v, comp. rewrite nth_map with (a := 0) by lia. reflexivity. }
  assert (V : v = (1 + (a - 1) / 4) :: map (fun a => 1 + (a - 1) / 4) t) by reflexivity.
  unfold levy. fold v. rewrite V at 1. replace (length x =? 0)%nat with false by reflexivity.
  assert (Lx : (1 <= length x)%nat) by (cbn; lia).
  assert (La : last v 0 = w (length x)).
  { rewrite <- (N (length x)) by lia. unfold comp. rewrite <- L. apply last_nth. }
  rewrite La. f_equal. f_equal. f_equal.
  rewrite (Sum_map (fun a => (a - 1) ^ 2 * (1 + 10 * sin (PI * a + 1)))). unfold init.
  assert (Li : length (removelast v) = (length x - 1)%nat) by (rewrite <- L; apply removelast_length).
  rewrite Li. apply Sum_ext. intros i Hi. rewrite <- (N i) by lia. assert (R : (removelast v)#i = v#i); [|rewrite R; reflexivity].
  unfold comp. rewrite (removelast_firstn_len v). assert (C := comp_firstn (pred (length v)) v i ltac:(lia)). unfold comp in C. exact C.
Qed.
(** the sine is not multiplied by x_i *)
Theorem C73_alpine1_actual : forall x, alpine1 x = Sum (length x) (fun i => Rabs (sin x#i + 0.1 * x#i)).
Proof. intros x. apply (Sum_map (fun a => Rabs (sin a + 0.1 * a))). Qed.
(** the root is taken in every component *)
Theorem C73_happy_cat_actual : forall alpha x, happy_cat alpha x =
  Sum (length x) (fun i => rpow (Rabs (x#i ^ 2 - INR (length x))) alpha) + Sum (length x) (fun i => (0.5 * x#i ^ 2 + x#i) / INR (length x)) + 0.5.
Proof.
  intros alpha x. unfold happy_cat. rewrite !Sum_map. f_equal. f_equal; apply Sum_ext; intros i Hi; [do 3 f_equal; ring|]. f_equal. ring.
Qed.
(** the rounded numbers are added, not what they are away from the numbers *)
Theorem C73_katsuura_actual : forall x, katsuura x = Prod (length x) (fun i => 1 + INR i * Sum 32 (fun j => rround (2 ^ j * x#i) / 2 ^ j)).
Proof.
  intros x. unfold katsuura. rewrite (Prod_map2_r (fun a i => rsum (map (fun k => rround (2 ^ k * a) * / 2 ^ k) (seq 1 32)) * i + 1)). apply Prod_ext. intros i Hi.
  rewrite rsum_Sum, map_length, seq_length. rewrite Rplus_comm, Rmult_comm. do 2 apply f_equal. apply Sum_ext. intros j Hj. unfold comp at 1.
  rewrite nth_map with (a := 0%nat) by (rewrite seq_length; lia). rewrite seq_nth by lia. replace (1 + (j - 1))%nat with j by lia. reflexivity.
Qed.
Theorem C73_stepint_actual : forall x, stepint x = 25 + Sum (length x) (fun i => floor x#i).
Proof. intros x. unfold stepint. rewrite (Sum_map floor). reflexivity. Qed.
(** no term for x_D and x_1, no 1 added, and the index under the root *)
Theorem C73_griewank_rosenbrock_actual : forall x, let z i := 100 * (x#(i + 1) - x#i ^ 2) ^ 2 + (1 - x#i) ^ 2 in
  griewank_rosenbrock x = Sum (length x - 1) (fun i => z i ^ 2 / 4000 - cos (z i / sqrt (INR i))).
Proof.
  intros x z. unfold griewank_rosenbrock. set (y := map2 _ (tl x) (init x)).
  assert (L : length y = (length x - 1)%nat).
  { unfold y, init. rewrite map2_length, tl_length, removelast_length. lia. }
  rewrite rsum_Sum, map2_length, arange_length, L. replace (Nat.min (length x - 1) (length x - 1)) with (length x - 1)%nat by lia. apply Sum_ext. intros i Hi. unfold comp at 1.
  rewrite nth_map2 with (a := 0) (b := 0); [|lia|rewrite arange_length; lia]. rewrite nth_arange by lia. replace (1 + (i - 1))%nat with i by lia.
  assert (Y : nth (i - 1) y 0 = z i).
  { unfold y. rewrite nth_map2 with (a := 0) (b := 0); [|destruct x; cbn [tl length] in *; lia|unfold init; rewrite removelast_length; lia].
    unfold z, init. rewrite (removelast_firstn_len x). assert (C := comp_firstn (pred (length x)) x i ltac:(lia)). unfold comp in C. rewrite C. unfold comp. replace (i + 1 - 1)%nat with (S (i - 1)) by lia.
    destruct x; cbn [tl nth]; [destruct (i - 1)%nat; reflexivity|reflexivity]. }
  rewrite Y. unfold Rdiv. ring.
Qed.
(** the cases are taken at x_i instead of x_i + 420.9687462275036 *)
Theorem C73_modified_schwefel_actual : forall x, let d := INR (length x) in
  let g a := let z := a + 420.9687462275036 in
    if Rlt_dec 500 a then (500 - fmod z 500) * sin (sqrt (Rabs (500 - fmod z 500))) - (z - 500) ^ 2 / (10000 * d)
    else if Rlt_dec a (-500) then (fmod z 500 - 500) * sin (sqrt (Rabs (fmod z 500 - 500))) + (z - 500) ^ 2 / (10000 * d)
    else z * sin (sqrt (Rabs z)) in
  modified_schwefel x = 418.9829 * d - Sum (length x) (fun i => g x#i).
Proof. intros x d g. unfold modified_schwefel. fold d. rewrite (Sum_map g). reflexivity. Qed.
(** schaffer.py:69-70, 131-132: two components are unpacked *)
Theorem C73_schaffer : forall a b,
  pair_of schaffer_n2 [a; b] = Some (1 / 2 + (sin (a ^ 2 - b ^ 2) ^ 2 - 1 / 2) / (1 + (a ^ 2 + b ^ 2) / 1000) ^ 2) /\
  pair_of schaffer_n4 [a; b] = Some (1 / 2 + (cos (sin (a ^ 2 - b ^ 2)) ^ 2 - 1 / 2) / (1 + (a ^ 2 + b ^ 2) / 1000) ^ 2).
Proof.
  intros a b. unfold pair_of, schaffer_n2, schaffer_n4. replace 0.5 with (1 / 2) by lra. replace (0.001 * (a ^ 2 + b ^ 2)) with ((a ^ 2 + b ^ 2) / 1000) by lra. auto.
Qed.

(** ** the numpy functions the models use, by what they are for *)
Theorem C73_round : forall a, exists n, rround a = IZR n /\ Rabs (a - IZR n) <= 1 / 2 /\ (Rabs (a - IZR n) = 1 / 2 -> Z.even n = true).
Proof.
  intros a. unfold rround. set (n := Int_part a). assert (B : IZR n <= a < IZR n + 1) by (unfold n; apply floor_spec).
  destruct (Rlt_dec (a - IZR n) (1 / 2)) as [H|H]; [exists n; rewrite Rabs_pos_eq by lra; repeat split; lra|].
  destruct (Rlt_dec (1 / 2) (a - IZR n)) as [H'|H'].
  { exists (n + 1)%Z. rewrite plus_IZR. rewrite Rabs_left1 by lra. repeat split; lra. }
  destruct (Z.even n) eqn:E; [exists n; rewrite Rabs_pos_eq by lra; repeat split; auto; lra|].
  exists (n + 1)%Z. rewrite plus_IZR, Rabs_left1 by lra. repeat split; [lra|]. intros _. rewrite Z.add_1_r, Z.even_succ. rewrite <- Z.negb_even, E. reflexivity.
Qed.
Theorem C73_fmod : forall a m, 0 < m -> exists k, fmod a m = a - IZR k * m /\ Rabs (fmod a m) < m /\ (0 <= a -> 0 <= fmod a m) /\ (a <= 0 -> fmod a m <= 0).
Proof.
  intros a m Hm. unfold fmod. set (n := Int_part (Rabs a / m)).
  assert (B : IZR n <= Rabs a / m < IZR n + 1) by (unfold n; apply floor_spec).
  assert (D : Rabs a / m * m = Rabs a) by (field; lra).
  assert (L : 0 <= Rabs a - IZR n * m < m) by (rewrite <- D; set (q := Rabs a / m) in *; replace (q * m - IZR n * m) with ((q - IZR n) * m) by ring; split; [apply Rmult_le_pos; lra|]; rewrite <- (Rmult_1_l m) at 2; apply Rmult_lt_compat_r; lra).
  destruct (Rle_dec 0 a) as [H|H].
  - rewrite (Rabs_pos_eq a H) in *. exists n. rewrite Rmult_1_l. rewrite Rabs_pos_eq by lra. repeat split; try lra.
    intros Ha. assert (a = 0) by lra. subst a. assert (Z : IZR n = IZR 0); [|rewrite Z; lra].
    unfold n. apply floor_IZR. unfold Rdiv. rewrite Rabs_R0, Rmult_0_l. lra.
  - rewrite (Rabs_left1 a) in * by lra. exists (- n)%Z. rewrite opp_IZR. replace (-1 * (- a - IZR n * m)) with (- (- a - IZR n * m)) by ring. rewrite Rabs_Ropp, Rabs_pos_eq by lra. repeat split; lra.
Qed.
Theorem C73_roll : forall x, length (roll1 x) = length x /\ length (rollm1 x) = length x /\
  (forall i, (1 <= i <= length x)%nat -> (roll1 x)#i = x#(if (i =? 1)%nat then length x else i - 1) /\ (rollm1 x)#i = x#(if (i =? length x)%nat then 1 else i + 1)).
Proof.
  intros [|a t]; [cbn; repeat split; auto; lia|].
  assert (Lr : length (roll1 (a :: t)) = length (a :: t)) by (cbn [roll1]; cbn [length]; rewrite removelast_length; cbn [length]; lia).
  assert (Lm : length (rollm1 (a :: t)) = length (a :: t)) by (cbn [rollm1]; rewrite app_length; cbn [length]; lia).
  split; [exact Lr|]. split; [exact Lm|]. intros i Hi. split.
  - unfold comp. cbn [roll1]. destruct (Nat.eqb_spec i 1) as [->|N]; [cbn [Nat.sub nth]; apply last_nth|].
    replace (i - 1 - 1)%nat with (i - 2)%nat by lia. replace (i - 1)%nat with (S (i - 2)) by lia. apply (nth_init _ (a :: t)). cbn [length] in *. lia.
  - unfold comp. cbn [rollm1]. cbn [length] in *. destruct (Nat.eqb_spec i (S (length t))) as [->|N].
    + rewrite app_nth2 by lia. replace (S (length t) - 1 - length t)%nat with 0%nat by lia. reflexivity.
    + rewrite app_nth1 by lia. replace (i + 1 - 1)%nat with (S (i - 1)) by lia. reflexivity.
Qed.
Theorem C73_powers : (forall a, 0 < a -> Rpower 10 (log10 a) = a) /\ (forall a, 0 <= a -> rpow a (1 / 2) = sqrt a) /\
  (forall a b c, 0 <= a -> rpow (rpow a b) c = rpow a (b * c)) /\ (forall a n, 0 <= a -> (1 <= n)%nat -> rpow a (INR n) = a ^ n).
Proof.
  assert (L : 0 < ln 10) by (rewrite <- ln_1; apply ln_increasing; lra).
  repeat split.
  - intros a Ha. unfold Rpower, log10. replace (ln a / ln 10 * ln 10) with (ln a) by (field; lra). apply exp_ln. exact Ha.
  - intros a Ha. unfold rpow. destruct (Req_EM_T a 0) as [->|N]; [rewrite sqrt_0; reflexivity|]. replace (1 / 2) with (/ 2) by lra. apply Rpower_sqrt. lra.
  - intros a b c Ha. unfold rpow. destruct (Req_EM_T a 0) as [->|N]; [destruct (Req_EM_T 0 0); [reflexivity|lra]|].
    destruct (Req_EM_T (Rpower a b) 0) as [E|E]; [exfalso; assert (P := exp_pos (b * ln a)); unfold Rpower in E; lra|]. apply Rpower_mult.
  - intros a n Ha Hn. unfold rpow. destruct (Req_EM_T a 0) as [->|N]; [rewrite pow_i; [reflexivity|lia]|]. apply Rpower_pow. lra.
Qed.

(** at concrete points *)
Example round_at : rround (1 / 2) = 0 /\ rround (3 / 2) = 2.
Proof.
  assert (A : Int_part (1 / 2) = 0%Z) by (apply eq_IZR, floor_IZR; lra). assert (B : Int_part (3 / 2) = 1%Z) by (apply eq_IZR, floor_IZR; lra).
  unfold rround. rewrite A, B. destruct (Rlt_dec (1 / 2 - 0) (1 / 2)); [lra|]. destruct (Rlt_dec (1 / 2) (1 / 2 - 0)); [lra|].
  destruct (Rlt_dec (3 / 2 - 1) (1 / 2)); [lra|]. destruct (Rlt_dec (1 / 2) (3 / 2 - 1)); [lra|]. cbn [Z.even Z.add Pos.add]. split; [reflexivity|]. apply f_equal. reflexivity.
Qed.
Example fmod_at : fmod (-7) 5 = -2.
Proof.
  unfold fmod. destruct (Rle_dec 0 (-7)); [lra|]. rewrite (Rabs_left1 (-7)) by lra. replace (Int_part (- -7 / 5)) with 1%Z by (symmetry; apply eq_IZR, floor_IZR; lra). lra.
Qed.
Example stepint_at : stepint [1; 2] = 28.
Proof. unfold stepint, rsum. simpl. rewrite (floor_IZR 1), (floor_IZR 2) by lra. lra. Qed.
Example levy_at : levy [1] = Some 0.
Proof. unfold levy, rsum. simpl. f_equal. replace (PI * (1 + (1 - 1) / 4)) with PI by field. rewrite sin_PI. field. Qed.
Example griewank_rosenbrock_at : griewank_rosenbrock [1; 1] = -1.
Proof. unfold griewank_rosenbrock, rsum, arange. simpl. replace ((100 * ((1 - 1 * (1 * 1)) * ((1 - 1 * (1 * 1)) * 1)) + (1 - 1) * ((1 - 1) * 1))) with 0 by ring. unfold Rdiv. rewrite !Rmult_0_l, cos_0. lra. Qed.
Example alpine1_at : alpine1 [0; PI] = 0.1 * PI.
Proof. unfold alpine1, rsum. simpl. rewrite sin_0, sin_PI. assert (P := PI_RGT_0). rewrite !Rabs_pos_eq by lra. lra. Qed.
Example discus_at : discus [3; 2] = Some 3000004.
Proof. unfold discus, rsum, Rsqr. simpl. f_equal. ring. Qed.

Print Assumptions C73_schwefel.
Print Assumptions C73_discus_actual.
Print Assumptions C73_levy_actual.
Print Assumptions C73_alpine1_actual.
Print Assumptions C73_happy_cat_actual.
Print Assumptions C73_katsuura_actual.
Print Assumptions C73_stepint_actual.
Print Assumptions C73_griewank_rosenbrock_actual.
Print Assumptions C73_modified_schwefel_actual.
Print Assumptions C73_schaffer.
Print Assumptions C73_round.
Print Assumptions C73_fmod.
Print Assumptions C73_roll.
Print Assumptions C73_powers.
