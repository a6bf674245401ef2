(** numpy.argsort (AlgPSO.v [sort_by]): a permutation, in order. *)
From Coq Require Import ZArith Lia Bool List Permutation Sorting.Sorted.
From Verif Require Import Num Task GetBest AlgoLib AlgPSO AlgPSOProofs.
Import ListNotations.

Definition key_lt (a b : vec * num) : Prop := key_le (snd a) (snd b) = true.
Lemma insert_by_perm : forall x xs, Permutation (x :: xs) (insert_by x xs).
Proof.
  intros x xs. induction xs as [|y xs IH]; simpl; auto. destruct (key_le _ _); auto.
  eapply perm_trans; [apply perm_swap|]. constructor. exact IH.
Qed.
Lemma sort_by_perm : forall xs, Permutation xs (sort_by xs).
Proof. induction xs as [|x xs IH]; simpl; auto. eapply perm_trans; [|apply insert_by_perm]. constructor. exact IH. Qed.
Lemma insert_by_sorted : forall x xs, StronglySorted key_lt xs -> StronglySorted key_lt (insert_by x xs).
Proof.
  intros x xs H. induction H as [|y xs H IH Hy]; simpl; [repeat constructor|].
  destruct (key_le (snd x) (snd y)) eqn:E.
  - constructor; [constructor; auto|]. constructor; [exact E|]. eapply Forall_impl; [|exact Hy].
    intros z Hz. red. eapply key_le_trans; [exact E|exact Hz].
  - constructor; auto. apply Forall_forall. intros z Hz. apply insert_by_In in Hz. destruct Hz as [->|Hz].
    + apply key_le_total. exact E.
    + rewrite Forall_forall in Hy. apply Hy; auto.
Qed.
Lemma sort_by_sorted : forall xs, StronglySorted key_lt (sort_by xs).
Proof. induction xs; simpl; [constructor|]. apply insert_by_sorted; auto. Qed.
Lemma sorted_nth : forall xs i j a b, StronglySorted key_lt xs -> i < j -> nth_error xs i = Some a -> nth_error xs j = Some b -> key_lt a b.
Proof.
  intros xs i j a b H. revert i j. induction H as [|y xs H IH Hy]; intros i j Hij Ha Hb; [destruct i; discriminate|].
  destruct j as [|j]; [lia|]. destruct i as [|i]; simpl in *.
  - injection Ha as <-. rewrite Forall_forall in Hy. apply Hy. eapply nth_error_In; eauto.
  - apply (IH i j); auto. lia.
Qed.
