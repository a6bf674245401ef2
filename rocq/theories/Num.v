(** Floating point values as they are seen by code that only compares,
    copies and negates them.

    Cited code: everything in /repo/src/niapy that compares fitness values or
    coordinates with <, <=, >, >=, ==, np.argmin, np.clip, or multiplies by
    [OptimizationType.value] (/repo/src/niapy/task.py:29-30).

    [Fin z] is the real number z * 2^-1074.  Every finite binary64 number has
    this form, and the IEEE comparisons are the comparisons of the z's.
    Simplification: -0.0 and 0.0 are the same value (IEEE compares them equal). *)
From Coq Require Import ZArith Lia Bool List.
Import ListNotations.
Local Open Scope Z_scope.

Inductive num : Type := NaN | NInf | Fin (z : Z) | PInf.

(** IEEE [<]: false as soon as one side is NaN. *)
Definition fltb (a b : num) : bool :=
  match a, b with
  | NaN, _ | _, NaN => false
  | NInf, NInf => false
  | NInf, _ => true
  | _, NInf => false
  | Fin x, Fin y => x <? y
  | Fin _, PInf => true
  | PInf, _ => false
  end.

(** IEEE [<=]. *)
Definition fleb (a b : num) : bool :=
  match a, b with
  | NaN, _ | _, NaN => false
  | NInf, _ => true
  | _, NInf => false
  | Fin x, Fin y => x <=? y
  | _, PInf => true
  | PInf, _ => false
  end.

(** IEEE [==]. *)
Definition feqb (a b : num) : bool :=
  match a, b with
  | NInf, NInf => true
  | PInf, PInf => true
  | Fin x, Fin y => x =? y
  | _, _ => false
  end.

(** Multiplication by -1.0. *)
Definition fneg (a : num) : num :=
  match a with NaN => NaN | NInf => PInf | Fin z => Fin (- z) | PInf => NInf end.

Definition is_nan (a : num) : bool := match a with NaN => true | _ => false end.

(** The double with significand [m] and exponent [e], i.e. m * 2^e. *)
Definition dbl (m e : Z) : num := Fin (m * 2 ^ (1074 + e)).

Definition f0 : num := Fin 0.
Definition f1 : num := dbl 1 0.
(** 1 - 2^-53, the largest value of numpy's Generator.random() (a multiple of 2^-53 below 1) *)
Definition rtop : num := dbl (2 ^ 53 - 1) (-53).

(** * Order facts *)

Ltac num_destruct :=
  repeat match goal with
  | x : num |- _ => destruct x
  end.

(** Decides goals about a few [num] variables by case analysis. *)
Ltac numo :=
  intros; num_destruct; simpl in *; subst;
  try solve [ congruence | discriminate | reflexivity | intuition congruence
            | (try rewrite Z.ltb_lt in *; try rewrite Z.leb_le in *;
               try rewrite Z.ltb_ge in *; try rewrite Z.leb_gt in *;
               try rewrite Z.eqb_eq in *; try rewrite Z.eqb_neq in *;
               try f_equal; lia)
            | intuition (try congruence; try lia) ].

Lemma fltb_irrefl : forall a, fltb a a = false.
Proof. destruct a; simpl; auto. apply Z.ltb_irrefl. Qed.

Lemma fleb_refl : forall a, a <> NaN -> fleb a a = true.
Proof. destruct a; simpl; auto; try congruence. intros; apply Z.leb_refl. Qed.

Lemma feqb_refl : forall a, a <> NaN -> feqb a a = true.
Proof. destruct a; simpl; auto; try congruence. intros; apply Z.eqb_refl. Qed.

Lemma feqb_eq : forall a b, feqb a b = true -> a = b.
Proof. intros [| |x|] [| |y|]; simpl; try discriminate; auto.
  intros H; apply Z.eqb_eq in H; subst; auto. Qed.

Lemma fltb_trans : forall a b c, fltb a b = true -> fltb b c = true -> fltb a c = true.
Proof. intros [| |x|] [| |y|] [| |z|]; simpl; try discriminate; auto.
  rewrite !Z.ltb_lt; lia. Qed.

Lemma fleb_trans : forall a b c, fleb a b = true -> fleb b c = true -> fleb a c = true.
Proof. intros [| |x|] [| |y|] [| |z|]; simpl; try discriminate; auto.
  rewrite !Z.leb_le; lia. Qed.

Lemma fltb_fleb_trans : forall a b c, fltb a b = true -> fleb b c = true -> fltb a c = true.
Proof. intros [| |x|] [| |y|] [| |z|]; simpl; try discriminate; auto.
  rewrite !Z.ltb_lt, !Z.leb_le; lia. Qed.

Lemma fleb_fltb_trans : forall a b c, fleb a b = true -> fltb b c = true -> fltb a c = true.
Proof. intros [| |x|] [| |y|] [| |z|]; simpl; try discriminate; auto.
  rewrite !Z.ltb_lt, !Z.leb_le; lia. Qed.

Lemma fltb_fleb : forall a b, fltb a b = true -> fleb a b = true.
Proof. intros [| |x|] [| |y|]; simpl; try discriminate; auto.
  rewrite Z.ltb_lt, Z.leb_le; lia. Qed.

Lemma fltb_nan_l : forall a b, fltb a b = true -> a <> NaN.
Proof. intros [| |x|] [| |y|]; simpl; congruence. Qed.
Lemma fltb_nan_r : forall a b, fltb a b = true -> b <> NaN.
Proof. intros [| |x|] [| |y|]; simpl; congruence. Qed.
Lemma fleb_nan_l : forall a b, fleb a b = true -> a <> NaN.
Proof. intros [| |x|] [| |y|]; simpl; congruence. Qed.
Lemma fleb_nan_r : forall a b, fleb a b = true -> b <> NaN.
Proof. intros [| |x|] [| |y|]; simpl; congruence. Qed.

Lemma fltb_false_fleb : forall a b, a <> NaN -> b <> NaN ->
  fltb a b = false -> fleb b a = true.
Proof. intros [| |x|] [| |y|]; simpl; try congruence.
  rewrite Z.ltb_ge, Z.leb_le; lia. Qed.

Lemma fleb_false_fltb : forall a b, a <> NaN -> b <> NaN ->
  fleb a b = false -> fltb b a = true.
Proof. intros [| |x|] [| |y|]; simpl; try congruence.
  rewrite Z.leb_gt, Z.ltb_lt; lia. Qed.

Lemma fleb_fltb_false : forall a b, fleb a b = true -> fltb b a = false.
Proof. intros [| |x|] [| |y|]; simpl; try congruence.
  rewrite Z.leb_le, Z.ltb_ge; lia. Qed.

Lemma fleb_antisym : forall a b, fleb a b = true -> fleb b a = true -> a = b.
Proof. intros [| |x|] [| |y|]; simpl; try congruence.
  rewrite !Z.leb_le; intros; f_equal; lia. Qed.

Lemma fleb_PInf : forall a, a <> NaN -> fleb a PInf = true.
Proof. destruct a; simpl; congruence. Qed.
Lemma fleb_NInf : forall a, a <> NaN -> fleb NInf a = true.
Proof. destruct a; simpl; congruence. Qed.
Lemma PInf_fleb : forall a, fleb PInf a = true -> a = PInf.
Proof. destruct a; simpl; congruence. Qed.

Lemma fneg_invol : forall a, fneg (fneg a) = a.
Proof. destruct a; simpl; auto. f_equal; lia. Qed.
Lemma fneg_NaN : forall a, fneg a = NaN <-> a = NaN.
Proof. destruct a; simpl; split; congruence. Qed.
Lemma fltb_fneg : forall a b, fltb (fneg a) (fneg b) = fltb b a.
Proof. intros [| |x|] [| |y|]; simpl; auto.
  destruct (y <? x) eqn:H; [apply Z.ltb_lt in H; apply Z.ltb_lt | apply Z.ltb_ge in H; apply Z.ltb_ge]; lia. Qed.
Lemma fleb_fneg : forall a b, fleb (fneg a) (fneg b) = fleb b a.
Proof. intros [| |x|] [| |y|]; simpl; auto.
  destruct (y <=? x) eqn:H; [apply Z.leb_le in H; apply Z.leb_le | apply Z.leb_gt in H; apply Z.leb_gt]; lia. Qed.
Lemma feqb_fneg : forall a b, feqb (fneg a) (fneg b) = feqb a b.
Proof. intros [| |x|] [| |y|]; simpl; auto.
  destruct (x =? y) eqn:H; [apply Z.eqb_eq in H; apply Z.eqb_eq | apply Z.eqb_neq in H; apply Z.eqb_neq]; lia. Qed.

Lemma num_eq_dec : forall a b : num, {a = b} + {a <> b}.
Proof. decide equality. apply Z.eq_dec. Defined.
