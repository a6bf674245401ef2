(** Floating point operations other than comparison, copy and negation.
    Algorithms are modelled over an arbitrary interpretation [F : fops] of these operations;
    theorems that quantify over F hold in particular for IEEE binary64. *)
From Coq Require Import ZArith Lia Bool List.
From Verif Require Import Num Task Prog.
Import ListNotations.

Record fops : Type := FOps {
  fadd : num -> num -> num; fsub : num -> num -> num; fmul : num -> num -> num;
  fdiv : num -> num -> num; fpow : num -> num -> num; fmod : num -> num -> num;
  fexp : num -> num; fln : num -> num; fsqrt : num -> num; fsin : num -> num; fcos : num -> num;
  ftan : num -> num; fabs : num -> num; ffloor : num -> num; fgamma : num -> num; fsign : num -> num;
  flit : Z -> Z -> num;          (* the literal n/d *)
  fint : num -> Z                (* int(x), toward zero *)
}.

Definition fnat (F : fops) (n : nat) : num := flit F (Z.of_nat n) 1.
Definition fz (F : fops) (z : Z) : num := flit F z 1.

(** Python's round(x) and numpy's np.round(x): the integer nearest to x, ties to even.  The value of [Fin z] is z * 2^-1074,
    so that this is an exact operation and no part of [fops]. *)
Definition round_z (z : Z) : Z :=
  let q := Z.shiftr z 1074 in
  match Z.compare (2 * (z - Z.shiftl q 1074)) (2 ^ 1074) with
  | Lt => q | Gt => q + 1 | Eq => if Z.even q then q else q + 1
  end%Z.
Definition fround (x : num) : Z := match x with Fin z => round_z z | _ => 0%Z end.
Lemma round_z_near : forall z, (2 * Z.abs (z - round_z z * 2 ^ 1074) <= 2 ^ 1074)%Z /\
  ((2 * Z.abs (z - round_z z * 2 ^ 1074) = 2 ^ 1074)%Z -> Z.even (round_z z) = true).
Proof.
  intros z. unfold round_z. rewrite Z.shiftl_mul_pow2, Z.shiftr_div_pow2 by lia. set (P := (2 ^ 1074)%Z). assert (HP : (0 < P)%Z) by (apply Z.pow_pos_nonneg; lia).
  clearbody P. assert (H := Z.div_mod z P ltac:(lia)). assert (Hm := Z.mod_pos_bound z P HP). set (q := (z / P)%Z) in *. set (r := (z mod P)%Z) in *. clearbody q r.
  assert (Q1 : (z - q * P = r)%Z) by lia. assert (Q2 : (z - (q + 1) * P = r - P)%Z) by lia. rewrite Q1. cbv zeta. destruct (Z.compare_spec (2 * r) P) as [E|E|E].
  - destruct (Z.even q) eqn:Ev.
    + rewrite Q1. split; [lia|auto].
    + rewrite Q2. split; [lia|]. intros _. rewrite Z.even_add, Ev. reflexivity.
  - rewrite Q1. split; lia.
  - rewrite Q2. split; lia.
Qed.

(** element-wise operations on vectors of the same length (numpy would raise on different
    lengths; the proofs establish equal lengths wherever these are used) *)
Fixpoint map2 {A B C} (f : A -> B -> C) (x : list A) (y : list B) : list C :=
  match x, y with a :: x', b :: y' => f a b :: map2 f x' y' | _, _ => [] end.
Fixpoint map3 {A B C D} (f : A -> B -> C -> D) (x : list A) (y : list B) (z : list C) : list D :=
  match x, y, z with a :: x', b :: y', c :: z' => f a b c :: map3 f x' y' z' | _, _, _ => [] end.
Definition vadd (F : fops) := map2 (fadd F).
Definition vsub (F : fops) := map2 (fsub F).
Definition vmul (F : fops) := map2 (fmul F).
Definition vdiv (F : fops) := map2 (fdiv F).
Definition vscale (F : fops) (c : num) (x : vec) : vec := map (fmul F c) x.     (* c * x *)
Definition vscaler (F : fops) (x : vec) (c : num) : vec := map (fun a => fmul F a c) x. (* x * c *)
Definition vshift (F : fops) (x : vec) (c : num) : vec := map (fun a => fadd F a c) x.  (* x + c *)
(** np.sum *)
Definition vsum (F : fops) (x : vec) : num := fold_left (fadd F) x (flit F 0 1).
Definition vmean (F : fops) (x : vec) : num := fdiv F (vsum F x) (fnat F (length x)).
(** np.minimum/np.maximum/min/max on scalars as used by the algorithms *)
Definition fminb (a b : num) : num := if fltb b a then b else a.   (* Python min(a, b) *)
Definition fmaxb (a b : num) : num := if fltb a b then b else a.   (* Python max(a, b) *)

(** /repo/src/niapy/util/distances.py euclidean *)
Definition euclidean (F : fops) (u v : vec) : num :=
  fsqrt F (vsum F (map (fun a => fmul F a a) (vsub F u v))).

Lemma map2_length : forall A B C (f : A -> B -> C) x y n, length x = n -> length y = n -> length (map2 f x y) = n.
Proof. induction x; destruct y, n; simpl; intros; auto; try discriminate. Qed.
Lemma map3_length : forall A B C D (f : A -> B -> C -> D) x y z n,
  length x = n -> length y = n -> length z = n -> length (map3 f x y z) = n.
Proof. induction x; destruct y, z, n; simpl; intros; auto; try discriminate. Qed.
Lemma map_length_n : forall A B (f : A -> B) x n, length x = n -> length (map f x) = n.
Proof. intros. rewrite map_length; auto. Qed.

(** solves length goals *)
Ltac vlen :=
  unfold vadd, vsub, vmul, vdiv, vscale, vscaler, vshift;
  repeat first [ assumption | apply map2_length | apply map3_length | apply map_length_n
               | apply repeat_length ].

(** /repo/src/niapy/util/random.py levy_flight: random real numbers, scaled; only the draws matter here. *)

(** ** A concrete interpretation, used only in examples and counterexamples: fixed point arithmetic
    (the value of [Fin z] is z * 2^-1074; exact addition, truncating product and quotient; the
    transcendental functions are constants).  Not a model of binary64. *)
Definition fx_scale : Z := (2 ^ 1074)%Z.
Definition fx_lift2 (f : Z -> Z -> num) (a b : num) : num :=
  match a, b with Fin x, Fin y => f x y | _, _ => NaN end.
Definition fx_lift1 (f : Z -> Z) (a : num) : num :=
  match a with Fin x => Fin (f x) | _ => NaN end.
(** quotients to 40 fractional bits *)
Definition fx_div (x y : Z) : num :=
  let y' := Z.shiftr y 1034 in
  if Z.eqb y' 0 then NaN else Fin (Z.shiftl (Z.shiftl (Z.shiftr x 1034) 40 / y') 1034).
Definition fx : fops := {|
  fadd := fx_lift2 (fun x y => Fin (x + y));
  fsub := fx_lift2 (fun x y => Fin (x - y));
  fmul := fx_lift2 (fun x y => Fin (Z.shiftr (x * y) 1074));
  fdiv := fx_lift2 fx_div;
  fpow := fun a b => if feqb b f0 then f1 else a;
  fmod := fx_lift2 (fun x y => if Z.eqb y 0 then NaN else Fin (x mod y));
  fexp := fun _ => f1; fln := fun _ => f0; fsqrt := fun a => a; fsin := fun _ => f0; fcos := fun _ => f1;
  ftan := fun _ => f0; fabs := fx_lift1 Z.abs;
  ffloor := fx_lift1 (fun x => Z.shiftl (Z.shiftr x 1074) 1074);
  fgamma := fun _ => f1; fsign := fx_lift1 (fun x => Z.sgn x * fx_scale)%Z;
  flit := fun n d => Fin (Z.shiftl (Z.shiftl n 40 / d) 1034);
  fint := fun a => match a with Fin x => Z.shiftr x 1074 | _ => 0%Z end
|}.
(** the number n *)
Definition N' (n : Z) : num := Fin (n * fx_scale).
