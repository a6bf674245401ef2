(** Concrete environments for the examples beside the theorems. *)
From Coq Require Import ZArith Lia Bool List.
From Verif Require Import Num Task TaskSpec TaskProofs Prog Run RunSpec AlgoLib Fops Repair.
Import ListNotations.

(** the number n/d (d a power of two) *)
Definition q (n d : Z) : num := Fin (Z.shiftl n (1074 - Z.log2 d)).
(** f(x) = x0 + 2 x1 + 3 x2 + ... (fixed point); infinite elsewhere *)
Fixpoint lin_from (k : Z) (x : vec) : num :=
  match x with
  | [] => Fin 0
  | Fin a :: r => match lin_from (k + 1) r with Fin b => Fin (k * a + b) | c => c end
  | _ => PInf
  end.
Definition lin : problem := fun _ x => Ret (lin_from 1 x).
(** f(x) = x0^2 + x1^2 + ... (fixed point) *)
Fixpoint sq_from (x : vec) : num :=
  match x with
  | [] => Fin 0
  | Fin a :: r => match sq_from r with Fin b => Fin (Z.shiftr (a * a) 1074 + b) | c => c end
  | _ => PInf
  end.
Definition sq : problem := fun _ x => Ret (sq_from x).
(** repair by clipping (util/repair.py limit) *)
Definition clip (C : cfg) : nat -> vec -> vec := fun _ x => limit x (c_lower C) (c_upper C).
(** two streams of random numbers *)
Definition fl8 (p : nat) : num := q (Z.of_nat (p * p + 3 * p + 1) mod 8) 8.
Definition in7 (p : nat) : nat := (5 * p + 2) mod 7.
Definition exenv (C : cfg) (P : problem) : env := Env C P (clip C) fl8 in7.
Definition box (d : nat) (lo hi : Z) (me : lim) : cfg := Cfg Minimization d (repeat (N' lo) d) (repeat (N' hi) d) me LInf NInf.

Lemma lin_no_nan : no_nan lin.
Proof.
  intros h x v H. injection H as <-. generalize 1%Z as k. induction x as [|[] x IH]; simpl; intros k; try discriminate.
  specialize (IH (k + 1)%Z). destruct (lin_from (k + 1) x); congruence.
Qed.
Lemma sq_no_nan : no_nan sq.
Proof.
  intros h x v H. assert (E : v = sq_from x) by (injection H; auto). clear H. subst v. induction x as [|[] x IH]; cbn [sq_from]; try discriminate.
  destruct (sq_from x); try assumption. discriminate.
Qed.
Lemma clip_ok : forall C P fl it, cfg_ok C -> repair_ok (Env C P (clip C) fl it).
Proof.
  intros C P fl it (H1 & H2 & H3) p x Hx. simpl in *. unfold clip, inside. rewrite <- Hx in H1. clear H2 Hx.
  revert x H1. induction H3; intros [|a x'] H1; simpl in *; try discriminate; constructor; auto.
  unfold limit1, in_range. simpl. destruct (fleb x y) eqn:Q; [|discriminate]. clear - Q.
  unfold np_min, np_max. destruct (is_nan a || is_nan x) eqn:E1; simpl; auto.
  destruct (is_nan (if fltb a x then x else a) || is_nan y) eqn:E2; auto. right.
  apply orb_false_iff in E1. destruct E1 as [A1 A2].
  apply orb_false_iff in E2. destruct E2 as [A3 A4].
  destruct a, x, y; simpl in *; try discriminate; auto;
  repeat match goal with |- context [Z.ltb ?m ?n] => destruct (Z.ltb_spec m n); simpl end;
  rewrite ?Z.leb_le in *; repeat split; auto; try (apply Z.leb_le; lia); try lia.
Qed.
Lemma box_ok : forall d lo hi me, (lo <= hi)%Z -> cfg_ok (box d lo hi me).
Proof.
  intros d lo hi me H. unfold cfg_ok, box. cbn [c_lower c_upper c_dim]. rewrite !repeat_length. split; auto. split; auto.
  induction d; cbn [repeat]; constructor; auto. unfold N'. cbn [fleb]. apply Z.leb_le. unfold fx_scale.
  assert (0 <= 2 ^ 1074)%Z by (apply Z.pow_nonneg; lia). apply Z.mul_le_mono_nonneg_r; auto.
Qed.

(** what a run did: the result and the points evaluated (oldest first), in units of 2^-16 *)
Definition scl (x : num) : Z := match x with Fin z => Z.shiftr z 1058 | PInf => 1000000000 | NInf => -1000000000 | NaN => -1 end.
Definition trace (E : env) (A : algo) (n : nat) : outcome (list Z * Z) * list (list Z) :=
  let '(r, w, _) := run_body E A (fun _ => None) n (World (task_init (e_cfg E)) [] 0) in
  (match r with Ret (x, f) => Ret (map scl x, scl f) | Raise e => Raise e end, map (fun a => map scl (fst a)) (rev (w_h w))).

(** a point with a component strictly outside the bounds; a run that evaluated one *)
Definition outside (C : cfg) (x : vec) : bool :=
  existsb (fun b => fltb (snd (fst b)) (snd b) || fltb (snd b) (fst (fst b))) (combine (combine (c_lower C) (c_upper C)) x).
Lemma outside_inside : forall C x, outside C x = true -> ~ inside C x.
Proof.
  intros C x H Hi. unfold outside, inside in *. induction Hi; simpl in *; [discriminate|].
  apply orb_true_iff in H. destruct H as [H|H]; auto. destruct H0 as [->|[H1 H2]].
  - apply orb_true_iff in H. destruct H as [H|H]; [destruct (snd x)|]; simpl in H; discriminate.
  - apply orb_true_iff in H. pose proof (fleb_fltb_false _ _ H1). pose proof (fleb_fltb_false _ _ H2). destruct H; congruence.
Qed.
Definition run_history (E : env) (A : algo) (n : nat) : history :=
  w_h (snd (fst (run_body E A (fun _ => None) n (World (task_init (e_cfg E)) [] 0)))).
Lemma run_outside : forall X E A n, existsb (fun a => outside (e_cfg E) (fst a)) (run_history E A n) = true ->
  (exists r w ev a, run_body E A (fun _ => None) n (World (task_init (e_cfg E)) [] 0) = (r, w, ev) /\ In a (w_h w) /\ ~ inside (e_cfg E) (fst a)) /\
  ~ best_run_x X E A.
Proof.
  intros X E A n H. unfold run_history in H.
  destruct (run_body E A (fun _ => None) n (World (task_init (e_cfg E)) [] 0)) as [[r w] ev] eqn:Q. cbn [fst snd] in H.
  apply existsb_exists in H. destruct H as (a & Ha & Ho). apply outside_inside in Ho. split; [exists r, w, ev, a; auto|].
  intros B. destruct (B _ _ _ _ _ _ Q) as [B1 _]. apply Ho. apply B1. auto.
Qed.

(** fixed point arithmetic as in [fx] in which every unary function moves its argument (used in
    examples only, to see where the functions are applied) *)
Definition fx_aff (k m : Z) : num -> num := fx_lift1 (fun x => Z.shiftr x k + Z.shiftl m 1070)%Z.
Definition fxx : fops := {|
  fadd := fadd fx; fsub := fsub fx; fmul := fmul fx; fdiv := fdiv fx;
  fpow := fun a b => fadd fx a (fmul fx (q 1 8) b);
  fmod := fmod fx;
  fexp := fx_aff 2 5; fln := fx_aff 1 (-3); fsqrt := fx_aff 1 2; fsin := fx_aff 2 (-5); fcos := fx_aff 1 3;
  ftan := fx_aff 1 7; fabs := fabs fx; ffloor := ffloor fx; fgamma := fx_aff 2 9; fsign := fsign fx;
  flit := flit fx; fint := fint fx
|}.

(** the exception a run raised itself (not the problem's, not a callback's) *)
Definition own_exn (E : env) (A : algo) (n : nat) : option exn :=
  let '(r, w, _) := run_body E A (fun _ => None) n (World (task_init (e_cfg E)) [] 0) in
  match r with
  | Ret _ => None
  | Raise e => match w_h w with (_, Raise _) :: _ => None | _ => Some e end
  end.
Lemma run_raises : forall (X : exn -> Prop) E A n e, own_exn E A n = Some e -> e <> EFuel -> ~ X e ->
  (exists w ev, run_body E A (fun _ => None) n (World (task_init (e_cfg E)) [] 0) = (Raise e, w, ev)) /\ ~ best_run_x X E A.
Proof.
  intros X E A n e H Hf HX. unfold own_exn in H.
  destruct (run_body E A (fun _ => None) n (World (task_init (e_cfg E)) [] 0)) as [[r w] ev] eqn:Q.
  destruct r as [a|e']; [discriminate|].
  assert (e' = e /\ forall x, hd_error (w_h w) <> Some (x, Raise e)) as [-> Hh].
  { destruct (w_h w) as [|[y [v|e2]] t]; try discriminate; injection H as ->; split; auto; intros x; simpl; congruence. }
  split; [eauto|]. intros B. destruct (B _ _ _ _ _ _ Q) as (_ & _ & [B1|[B1|[(x & B1)|B1]]]); auto; [|discriminate].
  exact (Hh x B1).
Qed.
