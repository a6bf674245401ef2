(** C73: the benchmark functions against the formulas in their documentation. *)
From Coq Require Import Reals ZArith List Bool Arith Lra Lia.
From Verif Require Import Bench BenchLib.
Import ListNotations.
Open Scope R_scope.

(** x_i, counted from 1 *)
Notation "x # i" := (comp x i) (at level 1, format "x # i").

Theorem C73_sphere : forall x, sphere x = Sum (length x) (fun i => x#i ^ 2).
Proof. intros. unfold sphere. apply Sum_map. Qed.
Theorem C73_sphere2 : forall x, sphere2 x = Sum (length x) (fun i => Rabs x#i ^ (i + 1)).
Proof.
  intros. unfold sphere2. rewrite rsum_Sum, map2_length, map_length, seq_length, Nat.min_id. apply Sum_ext. intros i H. unfold comp.
  rewrite nth_map2 with (a := 0) (b := 0%nat); [|rewrite map_length; lia|rewrite seq_length; lia].
  rewrite nth_map with (a := 0) by lia. rewrite seq_nth by lia. f_equal. lia.
Qed.
Lemma tril_nth : forall x n i j, (1 <= i <= n)%nat -> (1 <= j <= length x)%nat ->
  nth (j - 1) (nth (i - 1) (tril (repeat x n)) []) 0 = if (j <=? i)%nat then x#j else 0.
Proof.
  intros x n i j Hi Hj. unfold tril. rewrite repeat_length. rewrite nth_map2 with (a := 0%nat) (b := x); [|rewrite seq_length; lia|rewrite repeat_length; lia].
  rewrite seq_nth by lia. rewrite nth_repeat. rewrite nth_map2 with (a := 0%nat) (b := 0); [|rewrite seq_length; lia|lia]. rewrite seq_nth by lia.
  unfold comp. replace (0 + (j - 1) <=? 0 + (i - 1))%nat with (j <=? i)%nat; [reflexivity|]. destruct (Nat.leb_spec j i), (Nat.leb_spec (0 + (j - 1)) (0 + (i - 1))); auto; lia.
Qed.
Lemma Sum_upto : forall n i f, (i <= n)%nat -> Sum n (fun j => if (j <=? i)%nat then f j else 0) = Sum i f.
Proof.
  induction n; intros i f H; [replace i with 0%nat by lia; reflexivity|]. cbn [Sum]. destruct (Nat.leb_spec (S n) i).
  - replace i with (S n) by lia. cbn [Sum]. f_equal. apply Sum_ext. intros j Hj. destruct (Nat.leb_spec j (S n)); [auto|lia].
  - rewrite IHn by lia. lra.
Qed.
Theorem C73_sphere3 : forall x, sphere3 x = Sum (length x) (fun i => Sum i (fun j => x#j ^ 2)).
Proof.
  intros. unfold sphere3.
  assert (L : length (tril (repeat x (length x))) = length x) by (unfold tril; rewrite map2_length, seq_length, repeat_length; apply Nat.min_id).
  rewrite rsum_sum0.
  - rewrite map_length, L, Sum_swap. apply Sum_ext. intros i Hi. rewrite <- (Sum_upto (length x) i) by lia. apply Sum_ext. intros j Hj.
    rewrite nth_map with (a := []) by lia.
    assert (Lr : length (nth (i - 1) (tril (repeat x (length x))) []) = length x).
    { unfold tril. rewrite repeat_length. rewrite nth_map2 with (a := 0%nat) (b := x); [|rewrite seq_length; lia|rewrite repeat_length; lia]. rewrite nth_repeat, map2_length, seq_length. apply Nat.min_id. }
    rewrite nth_map with (a := 0) by lia. rewrite tril_nth by lia. destruct (j <=? i)%nat; [reflexivity|ring].
  - apply Forall_forall. intros r Hr. apply in_map_iff in Hr. destruct Hr as (r0 & <- & Hr). rewrite map_length.
    apply (In_nth _ _ []) in Hr. destruct Hr as (k & Hk & <-). rewrite L in Hk. unfold tril. rewrite repeat_length.
    rewrite nth_map2 with (a := 0%nat) (b := x); [|rewrite seq_length; lia|rewrite repeat_length; lia]. rewrite nth_repeat, map2_length, seq_length. apply Nat.min_id.
Qed.
Theorem C73_sum_squares : forall x, sum_squares x = Sum (length x) (fun i => INR i * x#i ^ 2).
Proof. intros. unfold sum_squares. rewrite map2_map_r. apply (Sum_map2_l (fun i a => i * a ^ 2)). Qed.
Theorem C73_schumer_steiglitz : forall x, schumer_steiglitz x = Sum (length x) (fun i => x#i ^ 4).
Proof. intros. apply Sum_map. Qed.
Theorem C73_chung_reynolds : forall x, chung_reynolds x = Sum (length x) (fun i => x#i ^ 2) ^ 2.
Proof. intros. unfold chung_reynolds. rewrite Sum_map. reflexivity. Qed.
Theorem C73_step : forall x, step x = Sum (length x) (fun i => floor (Rabs x#i)).
Proof. intros. unfold step. rewrite map_map. apply (Sum_map (fun a => floor (Rabs a))). Qed.
Theorem C73_step2 : forall x, step2 x = Sum (length x) (fun i => floor (x#i + 0.5) ^ 2).
Proof. intros. apply (Sum_map (fun a => floor (a + 0.5) ^ 2)). Qed.
Theorem C73_step3 : forall x, step3 x = Sum (length x) (fun i => floor (x#i ^ 2)).
Proof. intros. apply (Sum_map (fun a => floor (a ^ 2))). Qed.
(** max_i |x_i|: one of the |x_i|, and none is larger *)
Theorem C73_schwefel221 : forall x v, schwefel221 x = Some v <->
  (exists i, (1 <= i <= length x)%nat /\ v = Rabs x#i) /\ (forall i, (1 <= i <= length x)%nat -> Rabs x#i <= v).
Proof.
  assert (H : forall t a, (In (fold_left Rmax t a) (a :: t)) /\ forall b, In b (a :: t) -> b <= fold_left Rmax t a).
  { induction t as [|c t IH]; intros a; [split; [left; reflexivity|intros b [<-|[]]; simpl; lra]|]. cbn [fold_left]. destruct (IH (Rmax a c)) as [H1 H2]. split.
    - destruct H1 as [H1|H1]; [rewrite <- H1; unfold Rmax; destruct (Rle_dec a c); [right; left|left]; auto|right; right; auto].
    - intros b Hb. assert (H3 := H2 (Rmax a c) (or_introl eq_refl)). assert (H4 := Rmax_l a c). assert (H5 := Rmax_r a c).
      destruct Hb as [<-|[<-|Hb]]; [lra|lra|]. apply H2. right. auto. }
  intros x v. unfold schwefel221. split.
  - destruct (map Rabs x) as [|a t] eqn:M; [discriminate|]. intros E. injection E as <-. destruct (H t a) as [H1 H2]. rewrite <- M in H1, H2. split.
    + apply in_map_iff in H1. destruct H1 as (b & Hb & Hx). apply (In_nth _ _ 0) in Hx. destruct Hx as (k & Hk & Hx). exists (S k). split; [lia|]. unfold comp. simpl. rewrite Nat.sub_0_r, Hx. auto.
    + intros i Hi. apply H2. apply in_map. unfold comp. apply nth_In. lia.
  - intros ((i & Hi & ->) & Hm). destruct (map Rabs x) as [|a t] eqn:M; [destruct x; [simpl in Hi; lia|discriminate]|].
    f_equal. destruct (H t a) as [H1 H2]. rewrite <- M in H1, H2. apply Rle_antisym.
    + apply in_map_iff in H1. destruct H1 as (b & <- & Hx). apply (In_nth _ _ 0) in Hx. destruct Hx as (k & Hk & <-). specialize (Hm (S k) ltac:(lia)). unfold comp in Hm. simpl in Hm. rewrite Nat.sub_0_r in Hm. auto.
    + apply H2. apply in_map. unfold comp. apply nth_In. lia.
Qed.
Theorem C73_schwefel222 : forall x, schwefel222 x = Sum (length x) (fun i => Rabs x#i) + Prod (length x) (fun i => Rabs x#i).
Proof. intros. unfold schwefel222. rewrite Sum_map, Prod_map. reflexivity. Qed.
Theorem C73_qing : forall x, qing x = Sum (length x) (fun i => (x#i ^ 2 - INR i) ^ 2).
Proof. intros. unfold qing. rewrite map_map2, map2_map_l. apply (Sum_map2_r (fun a i => (a ^ 2 - i) ^ 2)). Qed.
Lemma Sum_cons : forall f a t, Sum (length t) (fun i => f (comp t i)) = Sum (length (a :: t) - 1) (fun i => f (comp (a :: t) (i + 1))).
Proof. intros. simpl length. rewrite Nat.sub_succ, Nat.sub_0_r. apply Sum_ext. intros i H. unfold comp. replace (i + 1 - 1)%nat with (S (i - 1)) by lia. reflexivity. Qed.
(** Sigma_{i=2}^D is written as the sum over i - 1 *)
Theorem C73_bent_cigar : forall x, x <> [] -> bent_cigar x = Some (x#1 ^ 2 + 10 ^ 6 * Sum (length x - 1) (fun i => x#(i + 1) ^ 2)).
Proof.
  intros [|a t] H; [congruence|]. unfold bent_cigar. rewrite Sum_map, (Sum_cons Rsqr a t). f_equal. f_equal. f_equal; [ring|]. apply Sum_ext. intros. unfold Rsqr. ring.
Qed.
Lemma every4_nth : forall l i, nth i (every4 l) 0 = nth (4 * i) l 0.
Proof.
  assert (H : forall n l i, (length l <= n)%nat -> nth i (every4 l) 0 = nth (4 * i) l 0).
  { induction n as [|n IH]; intros l i H.
    - destruct l; [|simpl in H; lia]. rewrite !nth_overflow by (simpl; lia). reflexivity.
    - destruct l as [|a [|b [|c [|d t]]]].
      1-4: destruct i; [reflexivity|]; rewrite !nth_overflow by (cbn [every4 length]; lia); reflexivity.
      + destruct i; [reflexivity|]. replace (4 * S i)%nat with (S (S (S (S (4 * i))))) by lia. cbn [every4 nth]. apply IH. simpl in H. lia. }
  intros. apply (H (length l)). lia.
Qed.
Lemma every4_len : forall k l r, length l = (4 * k + r)%nat -> (r < 4)%nat -> length (every4 l) = (k + if r =? 0 then 0 else 1)%nat.
Proof.
  induction k as [|k IH]; intros l r H Hr.
  - destruct l as [|a [|b [|c [|d t]]]]; simpl in *; try lia; destruct r as [|[|[|[|r]]]]; simpl in *; lia.
  - destruct l as [|a [|b [|c [|d t]]]]; simpl in H; try lia. cbn [every4 length]. rewrite (IH t r) by lia. lia.
Qed.
(** Powell in the dimensions it is documented for, multiples of four *)
Theorem C73_powell : forall x k, length x = (4 * k)%nat -> powell x = Some (Sum k (fun i =>
  (x#(4 * i - 3) + 10 * x#(4 * i - 2)) ^ 2 + 5 * (x#(4 * i - 1) - x#(4 * i)) ^ 2 + (x#(4 * i - 2) - 2 * x#(4 * i - 1)) ^ 4 + 10 * (x#(4 * i - 3) - x#(4 * i)) ^ 4)).
Proof.
  intros x k H. unfold powell.
  assert (L : forall j, (j < 4)%nat -> length (every4 (skipn j x)) = k).
  { intros j Hj. destruct k as [|k]; [destruct x; [destruct j; reflexivity|simpl in H; lia]|]. destruct j as [|j]; [simpl skipn; rewrite (every4_len (S k) x 0) by lia; simpl; lia|].
    rewrite (every4_len k _ (4 - S j)) by (rewrite ?skipn_length; lia). destruct j as [|[|[|j]]]; simpl; lia. }
  assert (L0 : length (every4 x) = k) by (exact (L 0%nat ltac:(lia))).
  assert (L1 := L 1%nat ltac:(lia)). assert (L2 := L 2%nat ltac:(lia)). assert (L3 := L 3%nat ltac:(lia)).
  assert (B : forall f a b, length a = k -> length b = k -> bcast f a b = Some (map2 f a b)) by (intros f a b Ha Hb; unfold bcast; rewrite Ha, Hb, Nat.eqb_refl; auto).
  assert (M : forall (f : R -> R -> R) a b, length a = k -> length b = k -> length (map2 f a b) = k) by (intros f a b Ha Hb; rewrite map2_length, Ha, Hb; apply Nat.min_id).
  repeat (rewrite B by (repeat apply M; assumption); cbn [obind]).
  f_equal. rewrite rsum_Sum, M by (repeat apply M; assumption). apply Sum_ext. intros i Hi. unfold comp.
  repeat (rewrite nth_map2 with (a := 0) (b := 0); [|rewrite ?M; try (repeat apply M; assumption); lia|rewrite ?M; try (repeat apply M; assumption); lia]).
  rewrite !every4_nth. assert (Sk : forall j, nth (4 * (i - 1)) (skipn j x) 0 = nth (4 * (i - 1) + j) x 0).
  { intros j. clear. revert j. generalize (4 * (i - 1))%nat as n. intros n j. revert x. induction j; intros x; simpl; [rewrite Nat.add_0_r; auto|].
    destruct x; [rewrite !nth_overflow by (simpl; lia); reflexivity|]. rewrite IHj. rewrite Nat.add_succ_r. reflexivity. }
  rewrite !Sk. replace (4 * i - 3 - 1)%nat with (4 * (i - 1))%nat by lia. replace (4 * i - 2 - 1)%nat with (4 * (i - 1) + 1)%nat by lia.
  replace (4 * i - 1 - 1)%nat with (4 * (i - 1) + 2)%nat by lia. replace (4 * i - 1)%nat with (4 * (i - 1) + 3)%nat by lia. reflexivity.
Qed.
Theorem C73_elliptic : forall x, (2 <= length x)%nat ->
  elliptic x = Sum (length x) (fun i => Rpower (10 ^ 6) (INR (i - 1) / INR (length x - 1)) * x#i ^ 2).
Proof.
  intros x H. unfold elliptic. rewrite map2_map_l, map2_map_r, rsum_Sum, map2_length, arange_length, Nat.sub_0_r, Nat.min_id. apply Sum_ext. intros i Hi. unfold comp.
  rewrite nth_map2 with (a := 0) (b := 0); [|rewrite arange_length; lia|lia]. rewrite nth_arange by lia. rewrite (minus_INR (length x) 1) by lia. change (INR 1) with 1. replace (10 ^ 6) with 1000000 by ring. reflexivity.
Qed.
Theorem C73_rastrigin : forall x, rastrigin x = 10 * INR (length x) + Sum (length x) (fun i => x#i ^ 2 - 10 * cos (2 * PI * x#i)).
Proof. intros. unfold rastrigin. rewrite Sum_map. f_equal. apply Sum_ext. intros. ring. Qed.
Theorem C73_rosenbrock : forall x, rosenbrock x = Sum (length x - 1) (fun i => 100 * (x#(i + 1) - x#i ^ 2) ^ 2 + (x#i - 1) ^ 2).
Proof. intros. unfold rosenbrock. rewrite (Sum_pairs (fun b a => 100 * (b - a ^ 2) ^ 2 + (1 - a) ^ 2)). apply Sum_ext. intros. ring. Qed.
Theorem C73_griewank : forall x, griewank x = Sum (length x) (fun i => x#i ^ 2 / 4000) - Prod (length x) (fun i => cos (x#i / sqrt (INR i))) + 1.
Proof.
  intros. unfold griewank. rewrite Sum_map, (Prod_map2_r (fun a i => cos (a / sqrt i))). do 2 f_equal. apply Sum_ext. intros. unfold Rdiv. ring.
Qed.
Theorem C73_ackley : forall a b c x, ackley a b c x =
  - a * exp (- b * sqrt (1 / INR (length x) * Sum (length x) (fun i => x#i ^ 2))) - exp (1 / INR (length x) * Sum (length x) (fun i => cos (c * x#i))) + a + exp 1.
Proof.
  intros. unfold ackley. rewrite !Sum_map. do 3 f_equal.
  - do 4 f_equal. unfold Rdiv. rewrite Rmult_1_l, Rmult_comm. f_equal. apply Sum_ext. intros. unfold Rsqr. ring.
  - f_equal. unfold Rdiv. ring.
Qed.
Theorem C73_salomon : forall x, salomon x = 1 - cos (2 * PI * sqrt (Sum (length x) (fun i => x#i ^ 2))) + 0.1 * sqrt (Sum (length x) (fun i => x#i ^ 2)).
Proof. intros. unfold salomon. rewrite Sum_map. reflexivity. Qed.
Lemma comp_firstn : forall k x j, (1 <= j <= k)%nat -> (firstn k x)#j = x#j.
Proof. intros k x j H. unfold comp. rewrite <- (firstn_skipn k x) at 2. destruct (Nat.lt_ge_cases (j - 1) (length (firstn k x))).
  - rewrite app_nth1; auto.
  - assert (length x <= k)%nat by (rewrite firstn_length in H0; lia). rewrite firstn_all2 by auto. rewrite skipn_all2 by auto. rewrite app_nil_r. reflexivity.
Qed.
Theorem C73_ridge : forall x, ridge x = Sum (length x) (fun i => Sum i (fun j => x#j) ^ 2).
Proof.
  intros. unfold ridge. rewrite map_map, rsum_Sum, map_length, seq_length. apply Sum_ext. intros i Hi. unfold comp at 1.
  rewrite nth_map with (a := 0%nat) by (rewrite seq_length; lia). rewrite seq_nth by lia. replace (1 + (i - 1))%nat with i by lia. f_equal.
  rewrite rsum_Sum, firstn_length, Nat.min_l by lia. apply Sum_ext. intros j Hj. apply comp_firstn. auto.
Qed.
Theorem C73_zakharov : forall x, zakharov x =
  Sum (length x) (fun i => x#i ^ 2) + Sum (length x) (fun i => 0.5 * INR i * x#i) ^ 2 + Sum (length x) (fun i => 0.5 * INR i * x#i) ^ 4.
Proof. intros. unfold zakharov. rewrite Sum_map, (Sum_map2_l (fun i a => 0.5 * i * a)). do 2 f_equal. apply Sum_ext. intros. ring. Qed.
Theorem C73_whitley : forall x, whitley x = Sum (length x) (fun i => Sum (length x) (fun j =>
  (100 * (x#i ^ 2 - x#j) ^ 2 + (1 - x#j) ^ 2) ^ 2 / 4000 - cos (100 * (x#i ^ 2 - x#j) ^ 2 + (1 - x#j) ^ 2) + 1)).
Proof. intros. unfold whitley. rewrite Sum_map. apply Sum_ext. intros i Hi. rewrite Sum_map. reflexivity. Qed.
(** Sigma_{i=2}^D x_i x_{i-1} *)
Theorem C73_trid : forall x, trid x = Sum (length x) (fun i => (x#i - 1) ^ 2) - Sum (length x - 1) (fun i => x#(i + 1) * x#i).
Proof. intros. unfold trid. rewrite Sum_map, (Sum_pairs Rmult). reflexivity. Qed.
(** the formula has no value for x_i = 0; the code leaves these terms out *)
Theorem C73_csendes : forall x, csendes x = Sum (length x) (fun i => if Req_EM_T x#i 0 then 0 else x#i ^ 6 * (2 + sin (1 / x#i))).
Proof.
  intros. unfold csendes. rewrite <- (Sum_map (fun a => if Req_EM_T a 0 then 0 else a ^ 6 * (2 + sin (1 / a)))).
  induction x as [|a x IH]; [reflexivity|]. cbn [filter map]. destruct (Req_EM_T a 0).
  - rewrite IH. unfold rsum. cbn [fold_right]. lra.
  - cbn [map]. unfold rsum in *. cbn [fold_right]. rewrite IH. reflexivity.
Qed.
Theorem C73_quintic : forall x, quintic x = Sum (length x) (fun i => Rabs (x#i ^ 5 - 3 * x#i ^ 4 + 4 * x#i ^ 3 + 2 * x#i ^ 2 - 10 * x#i - 4)).
Proof. intros. apply (Sum_map (fun a => Rabs (a ^ 5 - 3 * a ^ 4 + 4 * a ^ 3 + 2 * a ^ 2 - 10 * a - 4))). Qed.
Theorem C73_alpine2 : forall x, alpine2 x = Prod (length x) (fun i => sqrt x#i * sin x#i).
Proof. intros. apply (Prod_map (fun a => sqrt a * sin a)). Qed.
Theorem C73_cosine_mixture : forall x, cosine_mixture x = - 0.1 * Sum (length x) (fun i => cos (5 * PI * x#i)) - Sum (length x) (fun i => x#i ^ 2).
Proof. intros. unfold cosine_mixture. rewrite !Sum_map. reflexivity. Qed.
Theorem C73_hgbat : forall x, hgbat x =
  sqrt (Rabs (Sum (length x) (fun i => x#i ^ 2) ^ 2 - Sum (length x) (fun i => x#i) ^ 2))
  + (0.5 * Sum (length x) (fun i => x#i ^ 2) + Sum (length x) (fun i => x#i)) / INR (length x) + 0.5.
Proof. intros. unfold hgbat. rewrite !Sum_map, rsum_Sum. do 4 f_equal. f_equal. ring. Qed.
Theorem C73_michalewicz : forall m x, michalewicz m x = - Sum (length x) (fun i => sin x#i * sin (INR i * x#i ^ 2 / PI) ^ (2 * m)).
Proof. intros. unfold michalewicz. rewrite (Sum_map2_r (fun a i => sin a * sin (i * a ^ 2 / PI) ^ (2 * m))). reflexivity. Qed.
Theorem C73_styblinski_tang : forall x, styblinski_tang x = 1 / 2 * Sum (length x) (fun i => x#i ^ 4 - 16 * x#i ^ 2 + 5 * x#i).
Proof. intros. unfold styblinski_tang. rewrite (Sum_map (fun a => a ^ 4 - 16 * a ^ 2 + 5 * a)). f_equal. lra. Qed.
Theorem C73_weierstrass : forall a b kmax x, weierstrass a b kmax x =
  Sum (length x) (fun i => Sum (kmax + 1) (fun k => a ^ (k - 1) * cos (2 * PI * INR b ^ (k - 1) * (x#i + 0.5))))
  - INR (length x) * Sum (kmax + 1) (fun k => a ^ (k - 1) * cos (2 * PI * INR b ^ (k - 1) * 0.5)).
Proof.
  intros. unfold weierstrass. rewrite rsum_sum0 by (apply Forall_forall; intros r Hr; apply in_map_iff in Hr; destruct Hr as (j & <- & _); apply map_length).
  rewrite map_length, seq_length. f_equal.
  - apply Sum_ext. intros i Hi. apply Sum_ext. intros k Hk. rewrite nth_map with (a := 0%nat) by (rewrite seq_length; lia). rewrite seq_nth by lia.
    rewrite nth_map with (a := 0) by lia. reflexivity.
  - f_equal. rewrite rsum_Sum, map_length, seq_length. apply Sum_ext. intros k Hk. unfold comp. rewrite nth_map with (a := 0%nat) by (rewrite seq_length; lia).
    rewrite seq_nth by lia. simpl plus. do 2 f_equal. lra.
Qed.
Lemma last_nth : forall l : list R, last l 0 = nth (length l - 1) l 0.
Proof.
  induction l as [|b l IH]; [reflexivity|]. destruct l as [|c l]; [reflexivity|]. change (last (b :: c :: l) 0) with (last (c :: l) 0). rewrite IH. simpl. rewrite Nat.sub_0_r. reflexivity.
Qed.
(** the cyclic neighbours; x_0 = x_D and x_{D+1} = x_1 *)
Lemma roll1_comp : forall x i, (1 <= i <= length x)%nat -> (roll1 x)#i = if (i =? 1)%nat then x#(length x) else x#(i - 1).
Proof.
  intros x i H. unfold roll1, comp. destruct x as [|a x]; [simpl in H; lia|]. destruct i as [|[|i]]; [lia| |].
  - simpl (1 - 1)%nat. cbn [nth Nat.eqb]. apply last_nth.
  - replace (S (S i) =? 1)%nat with false by reflexivity. replace (S (S i) - 1 - 1)%nat with i by lia. change (S (S i) - 1)%nat with (S i). transitivity (nth i (removelast (a :: x)) 0); [reflexivity|]. apply nth_init. lia.
Qed.
Lemma rollm1_comp : forall x i, (1 <= i <= length x)%nat -> (rollm1 x)#i = if (i =? length x)%nat then x#1 else x#(i + 1).
Proof.
  intros x i H. unfold rollm1, comp. destruct x as [|a x]; [simpl in H; lia|]. simpl length in *. destruct (Nat.eqb_spec i (S (length x))).
  - subst i. rewrite app_nth2 by lia. replace (S (length x) - 1 - length x)%nat with 0%nat by lia. reflexivity.
  - rewrite app_nth1 by lia. replace (i + 1 - 1)%nat with (S (i - 1)) by lia. reflexivity.
Qed.
Lemma roll1_length : forall x, length (roll1 x) = length x.
Proof. destruct x; [reflexivity|]. unfold roll1. cbn [length]. rewrite removelast_length. simpl. lia. Qed.
Lemma rollm1_length : forall x, length (rollm1 x) = length x.
Proof. destruct x; [reflexivity|]. unfold rollm1. rewrite app_length. simpl. lia. Qed.
Definition prev (x : list R) (i : nat) : R := if (i =? 1)%nat then x#(length x) else x#(i - 1).
Definition next (x : list R) (i : nat) : R := if (i =? length x)%nat then x#1 else x#(i + 1).
Theorem C73_pinter : forall x, let A i := prev x i * sin x#i + sin (next x i) in let B i := prev x i ^ 2 - 2 * x#i + 3 * next x i - cos x#i + 1 in
  pinter x = Sum (length x) (fun i => INR i * x#i ^ 2) + Sum (length x) (fun i => 20 * INR i * sin (A i) ^ 2)
    + Sum (length x) (fun i => INR i * log10 (1 + INR i * B i ^ 2)).
Proof.
  intros x A B. unfold pinter. f_equal; [f_equal|].
  - rewrite (Sum_map2_l (fun i t => i * t * t)). apply Sum_ext. intros. ring.
  - rewrite rsum_Sum, !map2_length, map_length, arange_length, roll1_length, rollm1_length, Nat.add_sub, !Nat.min_id. apply Sum_ext. intros i Hi. unfold comp at 1.
    repeat (rewrite nth_map2 with (a := 0) (b := 0); [|rewrite ?map2_length, ?arange_length, ?map_length, ?roll1_length, ?rollm1_length; lia
      |rewrite ?map2_length, ?map_length, ?arange_length, ?roll1_length, ?rollm1_length; lia]).
    rewrite nth_map with (a := 0) by (rewrite rollm1_length; lia). rewrite nth_arange by lia. replace (1 + (i - 1))%nat with i by lia.
    fold (comp (roll1 x) i) (comp x i) (comp (rollm1 x) i). rewrite roll1_comp, rollm1_comp by lia. reflexivity.
  - rewrite rsum_Sum, !map2_length, arange_length, roll1_length, rollm1_length, Nat.add_sub, !Nat.min_id. apply Sum_ext. intros i Hi. unfold comp at 1.
    repeat (rewrite nth_map2 with (a := 0) (b := 0); [|rewrite ?map2_length, ?arange_length, ?roll1_length, ?rollm1_length; lia
      |rewrite ?map2_length, ?arange_length, ?roll1_length, ?rollm1_length; lia]).
    rewrite nth_arange by lia. replace (1 + (i - 1))%nat with i by lia.
    fold (comp (roll1 x) i) (comp x i) (comp (rollm1 x) i). rewrite roll1_comp, rollm1_comp by lia. do 2 f_equal. f_equal. f_equal. f_equal. unfold B, prev, next. ring.
Qed.
(** g(x_D, x_1) + Sigma_{i=2}^D g(x_{i-1}, x_i) *)
Theorem C73_expanded_schaffer : forall x, x <> [] ->
  let g a b := 0.5 + (sin (sqrt (a ^ 2 + b ^ 2)) ^ 2 - 0.5) / (1 + 0.001 * (a ^ 2 + b ^ 2)) ^ 2 in
  expanded_schaffer x = g x#(length x) x#1 + Sum (length x - 1) (fun i => g x#i x#(i + 1)).
Proof.
  intros x Hx g. unfold expanded_schaffer. rewrite map_map2, rsum_Sum, map2_length, rollm1_length, Nat.min_id.
  destruct (length x) as [|n] eqn:L; [destruct x; [congruence|discriminate]|]. cbn [Sum]. rewrite Nat.sub_succ, Nat.sub_0_r, Rplus_comm.
  assert (N : forall i, (1 <= i <= S n)%nat -> (map2 (fun a b => 0.5 + (sin (sqrt (a ^ 2 + b ^ 2)) ^ 2 - 0.5) / (1 + 0.001 * (a ^ 2 + b ^ 2)) ^ 2) x (rollm1 x))#i = g x#i (next x i)).
  { intros i Hi. unfold comp at 1. rewrite nth_map2 with (a := 0) (b := 0); [|lia|rewrite rollm1_length; lia]. fold (comp x i) (comp (rollm1 x) i). rewrite rollm1_comp by lia. reflexivity. }
  f_equal.
  - rewrite N by lia. unfold next. rewrite L, Nat.eqb_refl. reflexivity.
  - apply Sum_ext. intros i Hi. rewrite N by lia. unfold next. destruct (Nat.eqb_spec i (length x)); [lia|reflexivity].
Qed.

(** ** Functions that are not the documented ones *)
Definition differs (f : list R -> option R) (doc : list R -> R) : Prop := exists x v, f x = Some v /\ v <> doc x.
Definition tot (f : list R -> R) : list R -> option R := fun x => Some (f x).

(** discus.py:23: x_1^2 10^6 + Sigma_{i=2}^D x_i^2; the first component is not squared *)
Definition doc_discus (x : list R) : R := x#1 ^ 2 * 10 ^ 6 + Sum (length x - 1) (fun i => x#(i + 1) ^ 2).
Theorem C73_discus_refuted : differs discus doc_discus.
Proof. exists [2], (2 * 1000000 + 0). split; [reflexivity|]. unfold doc_discus, comp. simpl. lra. Qed.
(** dixon_price.py:23: (x_1 - 1)^2 + Sigma_{i=2}^D i (2 x_i^2 - x_{i-1})^2; the code leaves out the term of x_1 and x_2 and starts the weights at 2 for i = 3 *)
Definition doc_dixon_price (x : list R) : R := (x#1 - 1) ^ 2 + Sum (length x - 1) (fun i => INR (i + 1) * (2 * x#(i + 1) ^ 2 - x#i) ^ 2).
Theorem C73_dixon_price_refuted : differs dixon_price doc_dixon_price.
Proof. exists [1; 0], ((1 - 1) ^ 2 + 0). split; [reflexivity|]. unfold doc_dixon_price, comp. simpl. lra. Qed.
(** levy.py:23: sin^2 (pi w_1) + Sigma_{i=1}^{D-1} (w_i - 1)^2 (1 + 10 sin^2 (pi w_i + 1)) + (w_D - 1)^2 (1 + sin^2 (2 pi w_D)); one square is missing *)
Definition doc_levy (x : list R) : R := let w i := 1 + (x#i - 1) / 4 in
  sin (PI * w 1%nat) ^ 2 + Sum (length x - 1) (fun i => (w i - 1) ^ 2 * (1 + 10 * sin (PI * w i + 1) ^ 2)) + (w (length x) - 1) ^ 2 * (1 + sin (2 * PI * w (length x)) ^ 2).
(** a point of the domain [-10, 10]^2 where the code's value is negative *)
Definition levy_x : list R := [11 - 4 / PI; 1].
Lemma PI_3 : 3 < PI.
Proof. assert (H := PI2_3_2). lra. Qed.
Lemma levy_neg : exists v, levy levy_x = Some v /\ v < -30.
Proof.
  unfold levy, levy_x. cbn [map]. eexists. split; [reflexivity|]. cbn [init removelast map last]. unfold rsum. cbn [fold_right].
  assert (P := PI_3). assert (P4 := PI_4). set (w := 1 + (11 - 4 / PI - 1) / 4).
  assert (W : PI * w + 1 = 3 * (PI / 2) + 2 * 1 * PI) by (unfold w; field; lra).
  assert (S1 : sin (PI * w + 1) = -1). { rewrite W. replace (3 * (PI / 2) + 2 * 1 * PI) with (3 * (PI / 2) + 2 * INR 1 * PI) by (simpl; ring). rewrite sin_period. apply sin_3PI2. }
  rewrite S1. assert (S2 : sin (PI * w) ^ 2 <= 1). { assert (H := SIN_bound (PI * w)). nra. }
  assert (I : 1 / PI < 1 / 3). { unfold Rdiv. rewrite !Rmult_1_l. apply Rinv_lt_contravar; lra. }
  assert (W1 : w - 1 = 5 / 2 - 1 / PI) by (unfold w; field; lra). rewrite W1.
  replace (1 + (1 - 1) / 4 - 1) with 0 by field.
  assert ((5 / 2 - 1 / PI) ^ 2 > (13 / 6) ^ 2) by nra. nra.
Qed.
Theorem C73_levy_refuted : differs levy doc_levy.
Proof.
  destruct levy_neg as (v & H & Hv). exists levy_x, v. split; [exact H|]. intros E.
  assert (0 <= doc_levy levy_x); [|lra]. unfold doc_levy. cbv zeta.
  assert (Q : forall a b, 0 <= a ^ 2 * (1 + b)  \/ b < 0) by (intros a b; destruct (Rlt_le_dec b 0); [auto|left; apply Rmult_le_pos; [apply pow2_nonneg|lra]]).
  apply Rplus_le_le_0_compat; [apply Rplus_le_le_0_compat; [apply pow2_nonneg|]|].
  - apply Sum_nonneg. intros i _. destruct (Q (1 + (levy_x#i - 1) / 4 - 1) (10 * sin (PI * (1 + (levy_x#i - 1) / 4) + 1) ^ 2)) as [H0|H0]; [exact H0|].
    assert (H1 := pow2_nonneg (sin (PI * (1 + (levy_x#i - 1) / 4) + 1))). lra.
  - destruct (Q (1 + (levy_x#(length levy_x) - 1) / 4 - 1) (sin (2 * PI * (1 + (levy_x#(length levy_x) - 1) / 4)) ^ 2)) as [H0|H0]; [exact H0|].
    assert (H1 := pow2_nonneg (sin (2 * PI * (1 + (levy_x#(length levy_x) - 1) / 4)))). lra.
Qed.
(** alpine.py:22: Sigma |x_i sin x_i + 0.1 x_i| *)
Definition doc_alpine1 (x : list R) : R := Sum (length x) (fun i => Rabs (x#i * sin x#i + 0.1 * x#i)).
Theorem C73_alpine1_refuted : differs (tot alpine1) doc_alpine1.
Proof.
  exists [PI / 2], (alpine1 [PI / 2]). split; [reflexivity|]. unfold doc_alpine1, alpine1, comp, rsum. simpl. rewrite sin_PI2. assert (P := PI_3).
  rewrite !Rabs_pos_eq by lra. lra.
Qed.
(** happy_cat.py:22: |Sigma x_i^2 - D|^(1/4) + (0.5 Sigma x_i^2 + Sigma x_i) / D + 0.5 *)
Definition doc_happy_cat (x : list R) : R :=
  rpow (Rabs (Sum (length x) (fun i => x#i ^ 2) - INR (length x))) (1 / 4)
  + (0.5 * Sum (length x) (fun i => x#i ^ 2) + Sum (length x) (fun i => x#i)) / INR (length x) + 0.5.
Theorem C73_happy_cat_refuted : differs (tot (happy_cat 0.25)) doc_happy_cat.
Proof.
  exists [1; 1], (happy_cat 0.25 [1; 1]). split; [reflexivity|]. unfold doc_happy_cat, happy_cat, comp, rsum. simpl.
  replace (1 * 1 - (1 + 1)) with (-1) by ring. replace (0 + 1 * (1 * 1) + 1 * (1 * 1) - (1 + 1)) with 0 by ring. rewrite Rabs_R0.
  replace (Rabs (-1)) with 1 by (unfold Rabs; destruct (Rcase_abs (-1)); lra). unfold rpow. destruct (Req_EM_T 0 0); [|lra]. destruct (Req_EM_T 1 0); [lra|].
  unfold Rpower. rewrite ln_1, Rmult_0_r, exp_0. lra.
Qed.
(** katsuura.py:22: Pi (1 + i Sigma_{j=1}^{32} |2^j x_i - round(2^j x_i)| / 2^j) *)
Definition doc_katsuura (x : list R) : R := Prod (length x) (fun i => 1 + INR i * Sum 32 (fun j => Rabs (2 ^ j * x#i - rround (2 ^ j * x#i)) / 2 ^ j)).
Lemma rround_IZR : forall n, rround (IZR n) = IZR n.
Proof.
  intros n. unfold rround. assert (H : Int_part (IZR n) = n). { apply eq_IZR. apply floor_IZR. lra. } rewrite H.
  destruct (Rlt_dec (IZR n - IZR n) (1 / 2)); [reflexivity|lra].
Qed.
Lemma pow2_IZR : forall k, 2 ^ k = IZR (2 ^ Z.of_nat k).
Proof. intros. rewrite <- pow_IZR. reflexivity. Qed.
Lemma rround_pow : forall k n, rround (2 ^ k * IZR n) = 2 ^ k * IZR n.
Proof. intros. rewrite pow2_IZR, <- mult_IZR. apply rround_IZR. Qed.
Lemma katsuura_int : forall n, katsuura [IZR n] = 1 + 32 * IZR n.
Proof.
  intros n. transitivity ((rsum (map (fun k => rround (2 ^ k * IZR n) * / 2 ^ k) (seq 1 32)) * 1 + 1) * 1); [reflexivity|]. rewrite (map_ext _ (fun _ => IZR n)).
  - unfold rsum. cbn [seq map fold_right]. ring.
  - intros k. rewrite rround_pow. field. apply pow_nonzero. lra.
Qed.
Theorem C73_katsuura_refuted : differs (tot katsuura) doc_katsuura.
Proof.
  exists [IZR 1], (katsuura [IZR 1]). split; [reflexivity|]. rewrite katsuura_int. unfold doc_katsuura. cbn [length Prod comp Nat.sub nth].
  rewrite (Sum_ext 32 _ (fun _ => 0)); [rewrite Sum_const; simpl; lra|]. intros i _. rewrite rround_pow. unfold Rminus. rewrite Rplus_opp_r, Rabs_R0. unfold Rdiv. ring.
Qed.
(** perm.py:22: Sigma_i (Sigma_j (j - beta) (x_j^i - 1 / j^i))^2 *)
Definition doc_perm (beta : R) (x : list R) : R := Sum (length x) (fun i => Sum (length x) (fun j => (INR j - beta) * (x#j ^ i - 1 / INR j ^ i)) ^ 2).
Theorem C73_perm_refuted : differs (tot (perm 0.5)) (doc_perm 0.5).
Proof. exists [0], (perm 0.5 [0]). split; [reflexivity|]. unfold perm, doc_perm, comp, rsum. simpl. lra. Qed.
(** what the code of Perm computes: D copies of the same term are added, and i = j *)
Theorem C73_perm_actual : forall beta x, perm beta x =
  Sum (length x) (fun j => (INR (length x) * ((INR j + beta) * (x#j ^ j - (1 / INR j) ^ j))) ^ 2).
Proof.
  intros. unfold perm. set (row := map2 _ _ _). assert (L : length row = length x) by (unfold row; rewrite map2_length, seq_length; apply Nat.min_id).
  assert (F : Forall (fun r => length r = length x) (repeat row (length x))) by (apply Forall_forall; intros r Hr; apply repeat_spec in Hr; subst; auto).
  rewrite Sum_map, sum0_length by auto. apply Sum_ext. intros j Hj. f_equal. unfold comp at 1. rewrite sum0_nth by (auto; lia). rewrite rsum_Sum, map_length, repeat_length.
  rewrite (Sum_ext _ _ (fun _ => nth (j - 1) row 0)).
  - rewrite Sum_const. f_equal. unfold row. rewrite nth_map2 with (a := 0) (b := 0%nat); [|lia|rewrite seq_length; lia]. rewrite seq_nth by lia.
    replace (1 + (j - 1))%nat with j by lia. reflexivity.
  - intros i Hi. unfold comp. rewrite nth_map with (a := row) by (rewrite repeat_length; lia). rewrite nth_repeat. reflexivity.
Qed.
(** stepint.py:22: Sigma x_i^2 *)
Theorem C73_stepint_refuted : differs (tot stepint) (fun x => Sum (length x) (fun i => x#i ^ 2)).
Proof.
  exists [0], (stepint [0]). split; [reflexivity|]. unfold stepint, comp, rsum. simpl. rewrite (floor_IZR 0) by lra. lra.
Qed.
(** griewank.py:92: h(g(x_D, x_1)) + Sigma_{i=2}^D h(g(x_{i-1}, x_i)) *)
Definition doc_griewank_rosenbrock (x : list R) : R :=
  let g a b := 100 * (a ^ 2 - b) ^ 2 + (a - 1) ^ 2 in let h z := z ^ 2 / 4000 - cos (z / sqrt 1) + 1 in
  h (g x#(length x) x#1) + Sum (length x - 1) (fun i => h (g x#i x#(i + 1))).
Theorem C73_griewank_rosenbrock_refuted : differs (tot griewank_rosenbrock) doc_griewank_rosenbrock.
Proof.
  exists [0], (griewank_rosenbrock [0]). split; [reflexivity|]. unfold griewank_rosenbrock, doc_griewank_rosenbrock, comp, rsum. simpl.
  match goal with |- context [cos ?a] => assert (H := COS_bound a) end. lra.
Qed.
(** schwefel.py:215: h(x) = g(x + 420.97) with the cases of g taken at z = x + 420.97; the code takes them at x *)
Definition doc_modified_schwefel (x : list R) : R :=
  let d := INR (length x) in
  let g z := if Rle_dec (Rabs z) 500 then z * sin (sqrt (Rabs z))
    else if Rlt_dec 500 z then (500 - fmod z 500) * sin (sqrt (Rabs (500 - fmod z 500))) - (z - 500) ^ 2 / (10000 * d)
    else (fmod (Rabs z) 500 - 500) * sin (sqrt (Rabs (fmod (Rabs z) 500 - 500))) + (z - 500) ^ 2 / (10000 * d) in
  418.9829 * d - Sum (length x) (fun i => g (x#i + 420.9687462275036)).
Theorem C73_modified_schwefel_refuted : differs (tot modified_schwefel) doc_modified_schwefel.
Proof.
  set (z := (3 * (PI / 2) + 2 * INR 3 * PI) ^ 2).
  exists [z - 420.9687462275036], (modified_schwefel [z - 420.9687462275036]). split; [reflexivity|].
  unfold modified_schwefel, doc_modified_schwefel, comp, rsum. cbn [length map fold_right Sum Nat.sub nth]. change (INR 1) with 1.
  replace (z - 420.9687462275036 + 420.9687462275036) with z by ring.
  assert (P := PI_3). assert (P4 := PI_4). assert (B : 506 < z < 916) by (unfold z; simpl; split; nra).
  destruct (Rlt_dec 500 (z - 420.9687462275036)); [lra|]. destruct (Rlt_dec (z - 420.9687462275036) (-500)); [lra|].
  rewrite (Rabs_pos_eq z) by lra. destruct (Rle_dec z 500); [lra|]. destruct (Rlt_dec 500 z); [|lra].
  replace (sqrt z) with (3 * (PI / 2) + 2 * INR 3 * PI) by (unfold z; rewrite sqrt_pow2; [reflexivity|simpl; lra]). rewrite sin_period, sin_3PI2.
  assert (M : fmod z 500 = z - 500).
  { unfold fmod. destruct (Rle_dec 0 z); [|lra]. rewrite (Rabs_pos_eq z) by lra. fold (floor (z / 500)). rewrite (floor_IZR 1); [ring|]. split; lra. }
  rewrite M. match goal with |- context [sin (sqrt ?a)] => assert (S := SIN_bound (sqrt a)); set (s := sin (sqrt a)) in * end.
  intros E. assert (-1 <= s <= 1) by exact S. nra.
Qed.

(** ** The models at concrete points *)
Example C73_sphere_ex : sphere [1; 2; 3] = 14. Proof. unfold sphere, rsum. simpl. ring. Qed.
Example C73_sphere2_ex : sphere2 [-2; 3] = 31.
Proof. unfold sphere2, rsum. simpl. rewrite (Rabs_left (-2)), (Rabs_pos_eq 3) by lra. ring. Qed.
Example C73_sphere3_ex : sphere3 [1; 2] = 6. Proof. unfold sphere3, rsum, sum0, tril. simpl. ring. Qed.
Example C73_sum_squares_ex : sum_squares [1; 2; 3] = 36. Proof. unfold sum_squares, rsum, arange. simpl. ring. Qed.
Example C73_qing_ex : qing [3; 3] = 113. Proof. unfold qing, rsum, arange. simpl. ring. Qed.
Example C73_bent_cigar_ex : bent_cigar [2; 3; 4] = Some 25000004. Proof. unfold bent_cigar, rsum. simpl. f_equal. unfold Rsqr. ring. Qed.
Example C73_rosenbrock_ex : rosenbrock [2; 3; 5] = 1705. Proof. unfold rosenbrock, rsum. simpl. ring. Qed.
Example C73_trid_ex : trid [3; 4; 5] = -3. Proof. unfold trid, rsum. simpl. ring. Qed.
Example C73_ridge_ex : ridge [1; 2; 3] = 46. Proof. unfold ridge, rsum. simpl. ring. Qed.
Example C73_powell_ex : powell [3; -1; 0; 1] = Some 215. Proof. unfold powell, rsum. simpl. f_equal. ring. Qed.
Example C73_discus_ex : discus [-1; 2] = Some (-999996). Proof. unfold discus, rsum. simpl. f_equal. unfold Rsqr. ring. Qed.
Example C73_dixon_price_ex : dixon_price [2; 3; 4] = Some 1683. Proof. unfold dixon_price, rsum, arange. simpl. f_equal. ring. Qed.
Example C73_dixon_price_doc_ex : doc_dixon_price [2; 3; 4] = 3036. Proof. unfold doc_dixon_price, comp. simpl. ring. Qed.
Example C73_schwefel221_ex : schwefel221 [1; -3; 2] = Some 3.
Proof.
  apply C73_schwefel221. split; [exists 2%nat; split; [simpl; lia|unfold comp; simpl; rewrite Rabs_left; lra]|].
  intros [|[|[|[|i]]]] H; simpl in H; try lia; unfold comp; simpl; [rewrite Rabs_pos_eq|rewrite Rabs_left|rewrite Rabs_pos_eq]; lra.
Qed.

Print Assumptions C73_sphere.
Print Assumptions C73_sphere2.
Print Assumptions C73_sphere3.
Print Assumptions C73_sum_squares.
Print Assumptions C73_schumer_steiglitz.
Print Assumptions C73_chung_reynolds.
Print Assumptions C73_step.
Print Assumptions C73_step2.
Print Assumptions C73_step3.
Print Assumptions C73_schwefel221.
Print Assumptions C73_schwefel222.
Print Assumptions C73_qing.
Print Assumptions C73_bent_cigar.
Print Assumptions C73_powell.
Print Assumptions C73_elliptic.
Print Assumptions C73_rastrigin.
Print Assumptions C73_rosenbrock.
Print Assumptions C73_griewank.
Print Assumptions C73_ackley.
Print Assumptions C73_salomon.
Print Assumptions C73_ridge.
Print Assumptions C73_zakharov.
Print Assumptions C73_whitley.
Print Assumptions C73_trid.
Print Assumptions C73_csendes.
Print Assumptions C73_quintic.
Print Assumptions C73_alpine2.
Print Assumptions C73_cosine_mixture.
Print Assumptions C73_hgbat.
Print Assumptions C73_michalewicz.
Print Assumptions C73_styblinski_tang.
Print Assumptions C73_weierstrass.
Print Assumptions C73_pinter.
Print Assumptions C73_expanded_schaffer.
Print Assumptions C73_discus_refuted.
Print Assumptions C73_dixon_price_refuted.
Print Assumptions C73_levy_refuted.
Print Assumptions C73_alpine1_refuted.
Print Assumptions C73_happy_cat_refuted.
Print Assumptions C73_katsuura_refuted.
Print Assumptions C73_perm_refuted.
Print Assumptions C73_perm_actual.
Print Assumptions C73_stepint_refuted.
Print Assumptions C73_griewank_rosenbrock_refuted.
Print Assumptions C73_modified_schwefel_refuted.
