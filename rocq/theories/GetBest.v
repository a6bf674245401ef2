(** Model of numpy's argmin/argmax and of Algorithm.get_best
    (/repo/src/niapy/algorithms/algorithm.py:223-244). *)
From Coq Require Import ZArith Lia Bool List.
From Verif Require Import Num Task.
Import ListNotations.

(** np.argmin on a non-empty one-dimensional float array: the index of the first NaN if there is
    one, otherwise of the first minimum.  [argmin_from i b bf l]: [b] is the index of the best so
    far, [bf] its value, [l] the rest, starting at index [i]. *)
Fixpoint argmin_from (i b : nat) (bf : num) (l : list num) : nat :=
  if is_nan bf then b else
  match l with
  | [] => b
  | a :: l' =>
      if is_nan a || fltb a bf then argmin_from (S i) i a l' else argmin_from (S i) b bf l'
  end.
(** None: ValueError on an empty array. *)
Definition argmin (l : list num) : option nat :=
  match l with [] => None | a :: l' => Some (argmin_from 1 0 a l') end.

Fixpoint argmax_from (i b : nat) (bf : num) (l : list num) : nat :=
  if is_nan bf then b else
  match l with
  | [] => b
  | a :: l' =>
      if is_nan a || fltb bf a then argmax_from (S i) i a l' else argmax_from (S i) b bf l'
  end.
Definition argmax (l : list num) : option nat :=
  match l with [] => None | a :: l' => Some (argmax_from 1 0 a l') end.

(** algorithm.py:223-244 with an array of fitness values.  [best_x = None] is Python's None.
    The [.copy()] of line 244 is the identity here (values are immutable); on None it raises
    AttributeError. *)
Definition get_best (pop : list vec) (fit : list num) (best_x : option vec) (best_f : num)
  : outcome (vec * num) :=
  match argmin fit with
  | None => Raise EValue
  | Some ib =>
      match nth_error fit ib with
      | None => Raise EIndex
      | Some f =>
          if fleb f best_f
          then match nth_error pop ib with Some x => Ret (x, f) | None => Raise EIndex end
          else match best_x with Some x => Ret (x, best_f) | None => Raise EAttr end
      end
  end.

(** algorithm.py:240-241: the call with a single point and a scalar fitness. *)
Definition get_best1 (x : vec) (f : num) (best_x : option vec) (best_f : num) : outcome (vec * num) :=
  if fleb f best_f then Ret (x, f)
  else match best_x with Some x' => Ret (x', best_f) | None => Raise EAttr end.

(** ** Facts *)

Lemma argmin_from_range : forall l i b bf, b < i -> argmin_from i b bf l < i + length l.
Proof.
  induction l as [|a l IH]; simpl; intros i b bf H; destruct (is_nan bf); try lia.
  destruct (is_nan a || fltb a bf).
  - specialize (IH (S i) i a). lia.
  - specialize (IH (S i) b bf). lia.
Qed.
Lemma argmin_range : forall l i, argmin l = Some i -> i < length l.
Proof.
  intros [|a l] i H; simpl in *; inversion H. pose proof (argmin_from_range l 1 0 a). lia.
Qed.
Lemma argmax_from_range : forall l i b bf, b < i -> argmax_from i b bf l < i + length l.
Proof.
  induction l as [|a l IH]; simpl; intros i b bf H; destruct (is_nan bf); try lia.
  destruct (is_nan a || fltb bf a).
  - specialize (IH (S i) i a). lia.
  - specialize (IH (S i) b bf). lia.
Qed.
Lemma argmax_range : forall l i, argmax l = Some i -> i < length l.
Proof.
  intros [|a l] i H; simpl in *; inversion H. pose proof (argmax_from_range l 1 0 a). lia.
Qed.

(** specification: [b] is the index of the first minimum of a NaN-free array *)
Definition first_min (l : list num) (b : nat) (m : num) : Prop :=
  nth_error l b = Some m /\ (forall i v, nth_error l i = Some v -> fleb m v = true) /\
  (forall i v, i < b -> nth_error l i = Some v -> fltb m v = true).

Lemma argmin_from_spec : forall l pre bf b, bf <> NaN -> Forall (fun v => v <> NaN) l ->
  first_min pre b bf -> exists m, first_min (pre ++ l) (argmin_from (length pre) b bf l) m.
Proof.
  induction l as [|a l IH]; simpl; intros pre bf b Hb Hl Hm.
  - rewrite app_nil_r. destruct bf; simpl; eauto; congruence.
  - inversion_clear Hl. replace (is_nan bf) with false by (destruct bf; simpl; congruence).
    replace (is_nan a) with false by (destruct a; simpl; congruence). simpl.
    replace (pre ++ a :: l) with ((pre ++ [a]) ++ l) by (rewrite <- app_assoc; auto).
    replace (S (length pre)) with (length (pre ++ [a])) by (rewrite app_length; simpl; lia).
    destruct Hm as (M1 & M2 & M3).
    assert (Hbl : b < length pre) by (apply nth_error_Some; congruence).
    destruct (fltb a bf) eqn:E.
    + apply IH; auto. split; [|split].
      * rewrite nth_error_app2; auto. rewrite Nat.sub_diag; auto.
      * intros i v Hi. destruct (lt_dec i (length pre)) as [L|L].
        -- rewrite nth_error_app1 in Hi; auto. apply fltb_fleb. eapply fltb_fleb_trans; eauto.
        -- rewrite nth_error_app2 in Hi; try lia. destruct (i - length pre) as [|[|]]; simpl in Hi; try discriminate.
           inversion Hi; subst. apply fleb_refl; auto.
      * intros i v L Hi. rewrite nth_error_app1 in Hi; auto. eapply fltb_fleb_trans; eauto.
    + apply IH; auto. split; [|split].
      * rewrite nth_error_app1; auto.
      * intros i v Hi. destruct (lt_dec i (length pre)) as [L|L].
        -- rewrite nth_error_app1 in Hi; auto. eauto.
        -- rewrite nth_error_app2 in Hi; try lia. destruct (i - length pre) as [|[|]]; simpl in Hi; try discriminate.
           inversion Hi; subst. apply fltb_false_fleb; auto.
      * intros i v L Hi. rewrite nth_error_app1 in Hi; eauto. lia.
Qed.

Lemma argmin_spec : forall l, l <> [] -> Forall (fun v => v <> NaN) l ->
  exists b m, argmin l = Some b /\ first_min l b m.
Proof.
  intros [|a l] Hne Hl; [congruence|]. inversion_clear Hl.
  destruct (argmin_from_spec l [a] a 0) as [m Hm]; auto.
  - split; [|split]; auto.
    + intros [|i] v Hi; simpl in Hi. inversion Hi; subst; apply fleb_refl; auto. destruct i; discriminate.
    + intros; lia.
  - exists (argmin_from 1 0 a l), m. simpl in *. auto.
Qed.

(** specification of argmax on NaN-free arrays *)
Definition first_max (l : list num) (b : nat) (m : num) : Prop :=
  nth_error l b = Some m /\ (forall i v, nth_error l i = Some v -> fleb v m = true) /\
  (forall i v, i < b -> nth_error l i = Some v -> fltb v m = true).

Lemma argmax_argmin_from : forall l i b bf,
  argmax_from i b bf l = argmin_from i b (fneg bf) (map fneg l).
Proof.
  induction l as [|a l IH]; simpl; intros.
  - destruct bf; reflexivity.
  - replace (is_nan (fneg bf)) with (is_nan bf) by (destruct bf; reflexivity).
    replace (is_nan (fneg a)) with (is_nan a) by (destruct a; reflexivity).
    rewrite fltb_fneg. rewrite !IH. reflexivity.
Qed.
Lemma argmax_argmin : forall l, argmax l = argmin (map fneg l).
Proof. destruct l; simpl; auto. rewrite argmax_argmin_from. reflexivity. Qed.
Lemma argmax_spec : forall l, l <> [] -> Forall (fun v => v <> NaN) l ->
  exists b m, argmax l = Some b /\ first_max l b m.
Proof.
  intros l Hne Hl. rewrite argmax_argmin.
  destruct (argmin_spec (map fneg l)) as (b & m & E & (M1 & M2 & M3)).
  - destruct l; simpl; congruence.
  - apply Forall_forall. intros v Hv. apply in_map_iff in Hv. destruct Hv as (u & <- & Hu).
    rewrite Forall_forall in Hl. intros Q. apply (proj1 (fneg_NaN u)) in Q. exact (Hl u Hu Q).
  - assert (N : forall i v, nth_error l i = Some v -> nth_error (map fneg l) i = Some (fneg v))
      by (intros; apply map_nth_error; auto).
    assert (X : exists m', nth_error l b = Some m' /\ m = fneg m').
    { rewrite nth_error_map in M1. destruct (nth_error l b); simpl in M1; inversion M1; eauto. }
    destruct X as (m' & X1 & ->).
    exists b, m'. split; auto. split; [auto|split].
    + intros i v Hi. rewrite <- fleb_fneg. eauto.
    + intros i v Hl' Hi. rewrite <- fltb_fneg. eauto.
Qed.

(** ** get_best *)

(** [member pop fit x f]: some individual has coordinates x and fitness f *)
Definition member (pop : list vec) (fit : list num) (x : vec) (f : num) : Prop :=
  exists i, nth_error pop i = Some x /\ nth_error fit i = Some f.

Lemma get_best_spec : forall pop fit bx bf, length pop = length fit -> fit <> [] ->
  Forall (fun v => v <> NaN) fit ->
  exists b m, first_min fit b m /\
  get_best pop fit bx bf =
    (if fleb m bf then match nth_error pop b with Some x => Ret (x, m) | None => Raise EIndex end
     else match bx with Some x => Ret (x, bf) | None => Raise EAttr end) /\
  exists x, nth_error pop b = Some x.
Proof.
  intros pop fit bx bf Hlen Hne Hn. destruct (argmin_spec fit Hne Hn) as (b & m & E & M).
  exists b, m. split; auto. unfold get_best. rewrite E. destruct M as (M1 & _). rewrite M1. split; auto.
  assert (b < length fit) by (apply nth_error_Some; congruence).
  destruct (nth_error pop b) eqn:Ep; eauto. apply nth_error_None in Ep. lia.
Qed.
