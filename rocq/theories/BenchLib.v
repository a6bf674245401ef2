(** Sums and products of lists of real numbers. *)
From Coq Require Import Reals ZArith List Bool Arith Lra Lia.
From Verif Require Import Bench.
Import ListNotations.
Open Scope R_scope.

(** Sigma_{i=1}^n f i and Pi_{i=1}^n f i; the component x_i, counted from 1 *)
Fixpoint Sum (n : nat) (f : nat -> R) : R := match n with O => 0 | S k => Sum k f + f (S k) end.
Fixpoint Prod (n : nat) (f : nat -> R) : R := match n with O => 1 | S k => Prod k f * f (S k) end.
Definition comp (x : list R) (i : nat) : R := nth (i - 1) x 0.

Lemma Sum_ext : forall n f g, (forall i, (1 <= i <= n)%nat -> f i = g i) -> Sum n f = Sum n g.
Proof. induction n; intros f g H; [reflexivity|]. cbn [Sum]. rewrite (IHn f g) by (intros; apply H; lia). rewrite (H (S n)) by lia. reflexivity. Qed.
Lemma Prod_ext : forall n f g, (forall i, (1 <= i <= n)%nat -> f i = g i) -> Prod n f = Prod n g.
Proof. induction n; intros f g H; [reflexivity|]. cbn [Prod]. rewrite (IHn f g) by (intros; apply H; lia). rewrite (H (S n)) by lia. reflexivity. Qed.
Lemma Sum_plus : forall n f g, Sum n (fun i => f i + g i) = Sum n f + Sum n g.
Proof. induction n; intros; cbn [Sum]; [lra|rewrite IHn; lra]. Qed.
Lemma Sum_minus : forall n f g, Sum n (fun i => f i - g i) = Sum n f - Sum n g.
Proof. induction n; intros; cbn [Sum]; [lra|rewrite IHn; lra]. Qed.
Lemma Sum_scal : forall n c f, Sum n (fun i => c * f i) = c * Sum n f.
Proof. induction n; intros; cbn [Sum]; [lra|rewrite IHn; lra]. Qed.
Lemma Sum_const : forall n c, Sum n (fun _ => c) = INR n * c.
Proof. induction n; intros; cbn [Sum]; [simpl; lra|rewrite IHn, S_INR; lra]. Qed.
Lemma Sum_le : forall n f g, (forall i, (1 <= i <= n)%nat -> f i <= g i) -> Sum n f <= Sum n g.
Proof. induction n; intros f g H; cbn [Sum]; [lra|]. apply Rplus_le_compat; [apply IHn; intros; apply H; lia|apply H; lia]. Qed.
Lemma Sum_nonneg : forall n f, (forall i, (1 <= i <= n)%nat -> 0 <= f i) -> 0 <= Sum n f.
Proof. intros n f H. replace 0 with (Sum n (fun _ => 0)) by (rewrite Sum_const; lra). apply Sum_le. auto. Qed.
Lemma Sum_head : forall n f, Sum (S n) f = f 1%nat + Sum n (fun i => f (S i)).
Proof. induction n; intros; [cbn; lra|]. replace (Sum (S (S n)) f) with (Sum (S n) f + f (S (S n))) by reflexivity. rewrite IHn. cbn [Sum]. lra. Qed.
Lemma Prod_head : forall n f, Prod (S n) f = f 1%nat * Prod n (fun i => f (S i)).
Proof. induction n; intros; [cbn; lra|]. replace (Prod (S (S n)) f) with (Prod (S n) f * f (S (S n))) by reflexivity. rewrite IHn. cbn [Prod]. ring. Qed.
Lemma Sum_swap : forall n m f, Sum n (fun i => Sum m (f i)) = Sum m (fun j => Sum n (fun i => f i j)).
Proof.
  induction n; intros; cbn [Sum]; [symmetry; induction m; cbn [Sum]; [reflexivity|rewrite IHm; lra]|]. rewrite IHn, Sum_plus. reflexivity.
Qed.

Lemma rsum_Sum : forall l, rsum l = Sum (length l) (comp l).
Proof.
  induction l as [|a l IH]; [reflexivity|]. cbn [length rsum fold_right]. rewrite Sum_head. unfold rsum in IH. rewrite IH. f_equal.
  apply Sum_ext. intros i Hi. unfold comp. replace (S i - 1)%nat with (S (i - 1)) by lia. reflexivity.
Qed.
Lemma rprod_Prod : forall l, rprod l = Prod (length l) (comp l).
Proof.
  induction l as [|a l IH]; [reflexivity|]. cbn [length rprod fold_right]. rewrite Prod_head. unfold rprod in IH. rewrite IH. f_equal.
  apply Prod_ext. intros i Hi. unfold comp. replace (S i - 1)%nat with (S (i - 1)) by lia. reflexivity.
Qed.
Lemma map2_length : forall A B C (f : A -> B -> C) x y, length (map2 f x y) = min (length x) (length y).
Proof. induction x; destruct y; simpl; auto. Qed.
Lemma nth_map2 : forall A B C (f : A -> B -> C) x y i a b c, (i < length x)%nat -> (i < length y)%nat -> nth i (map2 f x y) c = f (nth i x a) (nth i y b).
Proof. induction x; destruct y; intros [|i]; simpl; intros; auto; try lia. apply IHx; lia. Qed.
Lemma nth_map : forall A B (f : A -> B) x i a b, (i < length x)%nat -> nth i (map f x) b = f (nth i x a).
Proof. intros. rewrite nth_indep with (d' := f a) by (rewrite map_length; auto). apply map_nth. Qed.
Lemma arange_length : forall a b, length (arange a b) = (b - a)%nat.
Proof. intros. unfold arange. rewrite map_length, seq_length. reflexivity. Qed.
Lemma nth_arange : forall a b i, (i < b - a)%nat -> nth i (arange a b) 0 = INR (a + i).
Proof. intros. unfold arange. rewrite nth_map with (a := 0%nat) by (rewrite seq_length; auto). rewrite seq_nth; auto. Qed.
Lemma nth_tl : forall A (l : list A) i d, nth i (tl l) d = nth (S i) l d.
Proof. destruct l, i; reflexivity. Qed.
Lemma nth_init : forall A (l : list A) i d, (i < length l - 1)%nat -> nth i (removelast l) d = nth i l d.
Proof.
  induction l as [|a l IH]; intros i d H; [destruct i; reflexivity|]. destruct l as [|b l]; [simpl in H; lia|].
  change (removelast (a :: b :: l)) with (a :: removelast (b :: l)). destruct i; [reflexivity|]. simpl nth at 1. rewrite IH; [reflexivity|simpl in *; lia].
Qed.
Lemma removelast_length : forall A (l : list A), length (removelast l) = (length l - 1)%nat.
Proof. induction l as [|a l IH]; [reflexivity|]. destruct l; [reflexivity|]. change (removelast (a :: a0 :: l)) with (a :: removelast (a0 :: l)). simpl in *. lia. Qed.
Lemma tl_length : forall A (l : list A), length (tl l) = (length l - 1)%nat.
Proof. destruct l; simpl; lia. Qed.

Lemma Sum_map : forall f x, rsum (map f x) = Sum (length x) (fun i => f (comp x i)).
Proof. intros. rewrite rsum_Sum, map_length. apply Sum_ext. intros i H. unfold comp. apply nth_map. lia. Qed.
Lemma Prod_map : forall f x, rprod (map f x) = Prod (length x) (fun i => f (comp x i)).
Proof. intros. rewrite rprod_Prod, map_length. apply Prod_ext. intros i H. unfold comp. apply nth_map. lia. Qed.
(** sums over x and 1..D together *)
Lemma Sum_map2_r : forall (f : R -> R -> R) x, rsum (map2 f x (arange 1 (length x + 1))) = Sum (length x) (fun i => f (comp x i) (INR i)).
Proof.
  intros. rewrite rsum_Sum, map2_length, arange_length, Nat.add_sub, Nat.min_id. apply Sum_ext. intros i H. unfold comp.
  rewrite nth_map2 with (a := 0) (b := 0); [|lia|rewrite arange_length; lia]. rewrite nth_arange by lia. do 2 f_equal. lia.
Qed.
Lemma Prod_map2_r : forall (f : R -> R -> R) x, rprod (map2 f x (arange 1 (length x + 1))) = Prod (length x) (fun i => f (comp x i) (INR i)).
Proof.
  intros. rewrite rprod_Prod, map2_length, arange_length, Nat.add_sub, Nat.min_id. apply Prod_ext. intros i H. unfold comp.
  rewrite nth_map2 with (a := 0) (b := 0); [|lia|rewrite arange_length; lia]. rewrite nth_arange by lia. do 2 f_equal. lia.
Qed.
Lemma map2_swap : forall A B C (f : A -> B -> C) x y, map2 f x y = map2 (fun b a => f a b) y x.
Proof. induction x; destruct y; simpl; auto. f_equal. auto. Qed.
Lemma Sum_map2_l : forall (f : R -> R -> R) x, rsum (map2 f (arange 1 (length x + 1)) x) = Sum (length x) (fun i => f (INR i) (comp x i)).
Proof. intros. rewrite map2_swap. apply (Sum_map2_r (fun b a => f a b)). Qed.
Lemma map_map2 : forall A B C D (g : C -> D) (f : A -> B -> C) x y, map g (map2 f x y) = map2 (fun a b => g (f a b)) x y.
Proof. induction x; destruct y; simpl; auto. f_equal. auto. Qed.
Lemma map2_map_l : forall A A' B C (h : A' -> A) (f : A -> B -> C) x y, map2 f (map h x) y = map2 (fun a b => f (h a) b) x y.
Proof. induction x; destruct y; simpl; auto. f_equal. auto. Qed.
Lemma map2_map_r : forall A B B' C (h : B' -> B) (f : A -> B -> C) x y, map2 f x (map h y) = map2 (fun a b => f a (h b)) x y.
Proof. induction x; destruct y; simpl; auto. f_equal. auto. Qed.
(** sums over neighbours x_{i+1}, x_i *)
Lemma Sum_pairs : forall (f : R -> R -> R) x, rsum (map2 f (tl x) (init x)) = Sum (length x - 1) (fun i => f (comp x (i + 1)) (comp x i)).
Proof.
  intros. unfold init. rewrite rsum_Sum, map2_length, tl_length, removelast_length, Nat.min_id. apply Sum_ext. intros i H. unfold comp.
  rewrite nth_map2 with (a := 0) (b := 0); [|rewrite tl_length; lia|rewrite removelast_length; lia]. rewrite nth_tl, nth_init by lia. do 2 f_equal. lia.
Qed.
Lemma comp_repeat : forall c n i, (1 <= i <= n)%nat -> comp (repeat c n) i = c.
Proof. intros c n i H. unfold comp. rewrite nth_indep with (d' := c) by (rewrite repeat_length; lia). clear H. generalize (i - 1)%nat. induction n; intros [|k]; simpl; auto. Qed.
Lemma sum0_length : forall c m, Forall (fun r => length r = c) m -> length (sum0 c m) = c.
Proof. induction 1; simpl; [apply repeat_length|]. rewrite map2_length, IHForall, H. apply Nat.min_id. Qed.
Lemma sum0_nth : forall c m j, Forall (fun r => length r = c) m -> (j < c)%nat -> nth j (sum0 c m) 0 = rsum (map (fun r => nth j r 0) m).
Proof.
  induction 1; intros Hj; simpl; [apply nth_repeat|].
  rewrite nth_map2 with (a := 0) (b := 0); [|lia|rewrite sum0_length; auto]. rewrite IHForall by auto. reflexivity.
Qed.
(** the sum of all entries of a matrix, first down the columns *)
Lemma rsum_sum0 : forall c m, Forall (fun r => length r = c) m -> rsum (sum0 c m) = Sum c (fun j => Sum (length m) (fun i => nth (j - 1) (nth (i - 1) m []) 0)).
Proof.
  intros c m H. rewrite rsum_Sum, sum0_length by auto. apply Sum_ext. intros j Hj. unfold comp at 1. rewrite sum0_nth by (auto; lia).
  rewrite rsum_Sum, map_length. apply Sum_ext. intros i Hi. unfold comp. rewrite nth_map with (a := []); [reflexivity|]. lia.
Qed.
Lemma rsum_nonneg : forall l, Forall (fun a => 0 <= a) l -> 0 <= rsum l.
Proof. induction 1 as [|a l H _ IH]; [simpl; lra|]. change (rsum (a :: l)) with (a + rsum l). lra. Qed.
Lemma rprod_nonneg : forall l, Forall (fun a => 0 <= a) l -> 0 <= rprod l.
Proof. induction 1 as [|a l H _ IH]; [simpl; lra|]. change (rprod (a :: l)) with (a * rprod l). apply Rmult_le_pos; auto. Qed.
Lemma Prod_bound : forall n f, (forall i, (1 <= i <= n)%nat -> -1 <= f i <= 1) -> -1 <= Prod n f <= 1.
Proof.
  induction n; intros f H; cbn [Prod]; [lra|]. assert (H1 := IHn f (fun i Hi => H i ltac:(lia))). assert (H2 := H (S n) ltac:(lia)). split; nra.
Qed.
Lemma pow2_nonneg : forall a, 0 <= a ^ 2.
Proof. intros. nra. Qed.
Lemma pow4_nonneg : forall a, 0 <= a ^ 4.
Proof. intros. replace (a ^ 4) with ((a ^ 2) ^ 2) by ring. apply pow2_nonneg. Qed.
Lemma pow6_nonneg : forall a, 0 <= a ^ 6.
Proof. intros. replace (a ^ 6) with ((a ^ 3) ^ 2) by ring. apply pow2_nonneg. Qed.

Lemma floor_spec : forall a, floor a <= a < floor a + 1.
Proof. intros a. unfold floor. destruct (base_Int_part a). lra. Qed.
Lemma floor_IZR : forall n a, IZR n <= a < IZR n + 1 -> floor a = IZR n.
Proof.
  intros n a H. destruct (floor_spec a) as [H1 H2]. unfold floor in *. f_equal.
  assert (IZR (Int_part a) < IZR (n + 1)) by (rewrite plus_IZR; lra). assert (IZR n < IZR (Int_part a + 1)) by (rewrite plus_IZR; lra).
  apply lt_IZR in H0. apply lt_IZR in H3. lia.
Qed.
Lemma floor_nonneg : forall a, 0 <= a -> 0 <= floor a.
Proof.
  intros a H. destruct (floor_spec a) as [H1 H2]. unfold floor in *. apply IZR_le. assert (IZR (-1) < IZR (Int_part a)) by (simpl; lra). apply lt_IZR in H0. lia.
Qed.
