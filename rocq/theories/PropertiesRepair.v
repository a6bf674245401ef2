(** Final theorems about the repair functions and feasibility (C12-C17). *)
From Coq Require Import ZArith Lia Bool List Reals Lra SpecFloat.
From Flocq Require Import Core.
From Verif Require Import Num Task TaskProofs Prog Wp Run RunSpec RunProofs RunProofs2 AlgoLib Repair.
Import ListNotations.

(** the i-th component of the vector, of the bounds and of the result *)
Definition at_i {A} (x lo hi : list A) (i : nat) (a l u : A) : Prop :=
  nth_error x i = Some a /\ nth_error lo i = Some l /\ nth_error hi i = Some u.

Lemma zip3_nth : forall A (f : A -> A -> A -> A) x lo hi i a l u, at_i x lo hi i a l u ->
  nth_error (zip3 f x lo hi) i = Some (f a l u).
Proof.
  induction x as [|b x IH]; intros lo hi i a l u (H1 & H2 & H3); [destruct i; discriminate|].
  destruct lo as [|l0 lo]; [destruct i; discriminate|]. destruct hi as [|u0 hi]; [destruct i; discriminate|].
  destruct i; simpl in *; [congruence|]. apply IH. repeat split; auto.
Qed.
Lemma zip3_length : forall A (f : A -> A -> A -> A) x lo hi, length lo = length x -> length hi = length x ->
  length (zip3 f x lo hi) = length x.
Proof.
  induction x as [|b x IH]; intros [|l0 lo] [|u0 hi] H1 H2; simpl in *; try discriminate; auto.
Qed.
Lemma zip3_inside : forall (f : num -> num -> num -> num) x C, cfg_ok C -> length x = c_dim C ->
  (forall a l u, fleb l u = true -> in_range l u (f a l u)) -> inside C (zip3 f x (c_lower C) (c_upper C)).
Proof.
  intros f x C (H1 & H2 & H3) Hx Hf. unfold inside.
  assert (Hl : length (c_lower C) = length x) by congruence. clear H1 H2 Hx.
  revert x Hl. induction H3; intros [|a x'] Hl; simpl in *; try discriminate; constructor; simpl; auto.
Qed.

(** ** C12 limit *)
Lemma limit1_spec : forall a l u, fleb l u = true -> a <> NaN ->
  fleb l (limit1 a l u) = true /\ fleb (limit1 a l u) u = true /\
  (fleb l a = true -> fleb a u = true -> limit1 a l u = a) /\
  (forall c, fleb l c = true -> fleb c u = true ->
     (fleb a (limit1 a l u) = true /\ fleb (limit1 a l u) c = true) \/
     (fleb c (limit1 a l u) = true /\ fleb (limit1 a l u) a = true)).
Proof.
  intros a l u Hlu Ha. pose proof (fleb_nan_l _ _ Hlu) as Nl. pose proof (fleb_nan_r _ _ Hlu) as Nu.
  unfold limit1, np_max, np_min.
  replace (is_nan a) with false by (destruct a; auto; congruence).
  replace (is_nan l) with false by (destruct l; auto; congruence).
  replace (is_nan u) with false by (destruct u; auto; congruence). simpl.
  destruct (fltb a l) eqn:E1.
  - replace (is_nan l) with false by (destruct l; auto; congruence). simpl.
    rewrite (fleb_fltb_false _ _ Hlu). repeat split; auto.
    + apply fleb_refl; auto.
    + intros H _. apply fleb_fltb_false in H. congruence.
    + intros c H1 H2. left. split; auto. apply fltb_fleb; auto.
  - replace (is_nan a) with false by (destruct a; auto; congruence). simpl.
    assert (Hla : fleb l a = true) by (apply fltb_false_fleb; auto).
    destruct (fltb u a) eqn:E2.
    + repeat split; auto.
      * apply fleb_refl; auto.
      * intros _ H. apply fleb_fltb_false in H. congruence.
      * intros c H1 H2. right. split; auto. apply fltb_fleb; auto.
    + assert (fleb a u = true) by (apply fltb_false_fleb; auto). repeat split; auto.
      intros c H1 H2. destruct (fltb a c) eqn:E3.
      * left. split; [apply fleb_refl; auto|apply fltb_fleb; auto].
      * right. split; [apply fltb_false_fleb; auto; eapply fleb_nan_l; eauto|apply fleb_refl; auto].
Qed.
Lemma limit1_nan : forall l u, limit1 NaN l u = NaN.
Proof. reflexivity. Qed.

(** length kept; NaN stays NaN; any other component lands inside, is unchanged when it was inside, and
    lies between the old value and every admissible value, i.e. is the closest admissible one *)
Theorem C12_limit : forall x lo hi, length lo = length x -> length hi = length x ->
  length (limit x lo hi) = length x /\
  forall i a l u, at_i x lo hi i a l u -> fleb l u = true -> exists b, nth_error (limit x lo hi) i = Some b /\
    (a = NaN -> b = NaN) /\
    (a <> NaN ->
      fleb l b = true /\ fleb b u = true /\ (fleb l a = true -> fleb a u = true -> b = a) /\
      forall c, fleb l c = true -> fleb c u = true ->
        (fleb a b = true /\ fleb b c = true) \/ (fleb c b = true /\ fleb b a = true)).
Proof.
  intros x lo hi Hl Hu. split; [apply zip3_length; auto|]. intros i a l u H Hlu. exists (limit1 a l u).
  split; [apply zip3_nth; auto|]. split; [intros ->; apply limit1_nan|]. apply limit1_spec; auto.
Qed.

Lemma zip3_idem : forall (f : num -> num -> num -> num) x lo hi, length lo = length x -> length hi = length x ->
  Forall2 (fun l u => fleb l u = true) lo hi ->
  (forall a l u, fleb l u = true -> f (f a l u) l u = f a l u) -> zip3 f (zip3 f x lo hi) lo hi = zip3 f x lo hi.
Proof.
  induction x as [|a x IH]; intros [|l lo] [|u hi] H1 H2 H3 Hf; simpl in *; try discriminate; auto.
  inversion H3; subst. f_equal; auto.
Qed.
Theorem C12_idempotent : forall x lo hi, length lo = length x -> length hi = length x ->
  Forall2 (fun l u => fleb l u = true) lo hi -> limit (limit x lo hi) lo hi = limit x lo hi.
Proof.
  intros x lo hi H1 H2 H3. apply zip3_idem; auto. intros a l u H.
  destruct (num_eq_dec a NaN) as [->|Ha]; [reflexivity|].
  destruct (limit1_spec a l u H Ha) as (L & U & _). apply limit1_spec; auto. eapply fleb_nan_r; eauto.
Qed.

(** a task that repairs with limit meets the hypothesis of the run theorems *)
Theorem C12_repair_ok : forall E, cfg_ok (e_cfg E) ->
  (forall p x, e_rep E p x = limit x (c_lower (e_cfg E)) (c_upper (e_cfg E))) -> repair_ok E.
Proof.
  intros E HC Hr p x Hx. rewrite Hr. apply zip3_inside; auto. intros a l u H.
  destruct (num_eq_dec a NaN) as [->|Ha]; [left; reflexivity|right].
  destruct (limit1_spec a l u H Ha) as (L & U & _). auto.
Qed.

(** ** C13 limit_inverse *)
Theorem C13_limit_inverse : forall x lo hi, length lo = length x -> length hi = length x ->
  length (limit_inverse x lo hi) = length x /\
  forall i a l u, at_i x lo hi i a l u -> fleb l u = true -> exists b, nth_error (limit_inverse x lo hi) i = Some b /\
    (a = NaN -> b = NaN) /\ (fleb l a = true -> fleb a u = true -> b = a) /\
    (fltb a l = true -> b = u) /\ (fltb u a = true -> b = l) /\
    (a <> NaN -> fleb l b = true /\ fleb b u = true).
Proof.
  intros x lo hi Hl Hu. split; [apply zip3_length; auto|]. intros i a l u H Hlu. exists (limit_inverse1 a l u).
  split; [apply zip3_nth; auto|].
  pose proof (fleb_nan_l _ _ Hlu) as Nl. pose proof (fleb_nan_r _ _ Hlu) as Nu.
  pose proof (fleb_fltb_false _ _ Hlu) as Hul.
  unfold limit_inverse1. split; [|split; [|split; [|split]]].
  - intros ->. destruct u; auto.
  - intros H1 H2. rewrite (fleb_fltb_false _ _ H1), (fleb_fltb_false _ _ H2). auto.
  - intros ->. rewrite fltb_irrefl. auto.
  - intros H1. assert (fltb a l = false) as ->.
    { destruct (fltb a l) eqn:E; auto. rewrite (fltb_trans _ _ _ H1 E) in Hul. discriminate. }
    rewrite H1. auto.
  - intros Ha. destruct (fltb a l) eqn:E1.
    + rewrite fltb_irrefl. split; auto. apply fleb_refl; auto.
    + destruct (fltb u a) eqn:E2.
      * split; auto. apply fleb_refl; auto.
      * split; apply fltb_false_fleb; auto.
Qed.
Theorem C13_repair_ok : forall E, cfg_ok (e_cfg E) ->
  (forall p x, e_rep E p x = limit_inverse x (c_lower (e_cfg E)) (c_upper (e_cfg E))) -> repair_ok E.
Proof.
  intros E HC Hr p x Hx. rewrite Hr. apply zip3_inside; auto. intros a l u H.
  destruct (C13_limit_inverse [a] [l] [u] eq_refl eq_refl) as (_ & G).
  destruct (G 0 a l u ltac:(repeat split) H) as (b & Hb & H1 & _ & _ & _ & H2). simpl in Hb.
  injection Hb as <-. destruct (num_eq_dec a NaN); [left|right]; auto.
Qed.

(** ** C16 rand *)
Lemma w_rand_pass : forall K viol x lo hi l0, length lo = length x -> length hi = length x ->
  Forall2 (fun l u => fleb l u = true) lo hi ->
  wp K (rand_pass viol x lo hi) (fun y l' => l' = l0 /\ length y = length x /\
    forall i a l u, at_i x lo hi i a l u -> exists b, nth_error y i = Some b /\
      (viol a l u = false -> b = a) /\ (viol a l u = true -> fleb l b = true /\ fleb b u = true)) l0.
Proof.
  induction x as [|a x IH]; intros [|l lo] [|u hi] l0 H1 H2 H3; simpl in *; try discriminate.
  - split; [|split]; auto. intros i a l u (H & _). destruct i; discriminate.
  - inversion H3; subst. injection H1 as H1. injection H2 as H2.
    assert (G : forall b, ((viol a l u = false -> b = a) /\ (viol a l u = true -> fleb l b = true /\ fleb b u = true)) ->
      forall y, (length y = length x /\ forall i a l u, at_i x lo hi i a l u -> exists b, nth_error y i = Some b /\
      (viol a l u = false -> b = a) /\ (viol a l u = true -> fleb l b = true /\ fleb b u = true)) ->
      l0 = l0 /\ length (b :: y) = length (a :: x) /\
      forall i a0 l1 u0, at_i (a :: x) (l :: lo) (u :: hi) i a0 l1 u0 -> exists b0, nth_error (b :: y) i = Some b0 /\
      (viol a0 l1 u0 = false -> b0 = a0) /\ (viol a0 l1 u0 = true -> fleb l1 b0 = true /\ fleb b0 u0 = true)).
    { intros b Hb y (Hy1 & Hy2). split; [|split]; auto. { simpl. congruence. }
      intros [|i] a0 l1 u0 (G1 & G2 & G3); simpl in *.
      - injection G1 as <-. injection G2 as <-. injection G3 as <-. eauto.
      - apply Hy2. repeat split; auto. }
    destruct (viol a l u) eqn:Ev.
    + simpl. intros r Hr. apply wp_bind. eapply wp_conseq0; [apply IH; auto|]. intros y l' (-> & Hy). simpl.
      apply G; auto. split; [discriminate|auto].
    + apply wp_bind. eapply wp_conseq0; [apply IH; auto|]. intros y l' (-> & Hy). simpl.
      apply G; auto. split; [auto|discriminate].
Qed.
Lemma w_rand_repair : forall K x lo hi l0, length lo = length x -> length hi = length x ->
  Forall2 (fun l u => fleb l u = true) lo hi ->
  wp K (rand_repair x lo hi) (fun y l' => l' = l0 /\ length y = length x /\
    forall i a l u, at_i x lo hi i a l u -> exists b, nth_error y i = Some b /\
      (a = NaN -> b = NaN) /\ (fleb l a = true -> fleb a u = true -> b = a) /\
      (a <> NaN -> fleb l b = true /\ fleb b u = true)) l0.
Proof.
  intros K x lo hi l0 H1 H2 H3. unfold rand_repair. apply wp_bind.
  eapply wp_conseq0; [apply w_rand_pass; auto|]. intros y l' (-> & Hy & Hy2).
  eapply wp_conseq0; [apply w_rand_pass; auto; congruence|]. intros z l' (-> & Hz & Hz2).
  split; [auto|]. split; [congruence|]. intros i a l u Hi.
  assert (Hlu : fleb l u = true).
  { destruct Hi as (_ & G1 & G2). exact (Forall2_nth _ _ (fun l u => fleb l u = true) _ _ _ _ _ H3 G1 G2). }
  destruct (Hy2 _ _ _ _ Hi) as (b & Eb & Hb1 & Hb2).
  assert (Hi2 : at_i y lo hi i b l u) by (destruct Hi as (_ & ? & ?); repeat split; auto).
  destruct (Hz2 _ _ _ _ Hi2) as (c & Ec & Hc1 & Hc2). exists c. split; auto.
  pose proof (fleb_nan_l _ _ Hlu) as Nl. pose proof (fleb_nan_r _ _ Hlu) as Nu.
  split; [|split].
  - intros ->. assert (b = NaN) as -> by auto. apply Hc1. destruct u; auto.
  - intros G1 G2. assert (b = a) as -> by (apply Hb1; apply fleb_fltb_false; auto).
    apply Hc1. apply fleb_fltb_false; auto.
  - intros Ha. destruct (fltb a l) eqn:E1.
    + destruct (Hb2 eq_refl) as [G1 G2]. rewrite (Hc1 (fleb_fltb_false _ _ G2)). auto.
    + rewrite (Hb1 eq_refl) in *. destruct (fltb u a) eqn:E2; auto.
      rewrite (Hc1 eq_refl). split; apply fltb_false_fleb; auto.
Qed.
(** for every random stream and every state of the task it raises nothing, evaluates nothing, and
    returns a vector inside the bounds that differs from x only where x was outside *)
Theorem C16_rand : forall E x lo hi w r w', length lo = length x -> length hi = length x ->
  Forall2 (fun l u => fleb l u = true) lo hi ->
  exec E (rand_repair x lo hi) w = (r, w') ->
  w_ts w' = w_ts w /\ w_h w' = w_h w /\ exists y, r = Ret y /\ length y = length x /\
    forall i a l u, at_i x lo hi i a l u -> exists b, nth_error y i = Some b /\
      (a = NaN -> b = NaN) /\ (fleb l a = true -> fleb a u = true -> b = a) /\
      (a <> NaN -> fleb l b = true /\ fleb b u = true).
Proof.
  intros E x lo hi w r w' H1 H2 H3 Ex.
  destruct (pure_sound _ E (rand_repair x lo hi) (fun y => length y = length x /\
    forall i a l u, at_i x lo hi i a l u -> exists b, nth_error y i = Some b /\
      (a = NaN -> b = NaN) /\ (fleb l a = true -> fleb a u = true -> b = a) /\
      (a <> NaN -> fleb l b = true /\ fleb b u = true)) w r w') as ((y & -> & Hy) & T & Hh); auto.
  - intros l. eapply wp_conseq0; [apply w_rand_repair; auto|]. cbn. intros a l' (_ & H). exact H.
  - split; [auto|]. split; [auto|]. exists y. split; auto.
Qed.

(** ** C14 wang *)
Section Wang.
Variable rnd : R -> R.
Local Open Scope R_scope.
(** every monotone rounding for which the bounds and their doubles are representable *)
Theorem C14_wang : (forall x y, x <= y -> rnd x <= rnd y) -> forall a l u, l <= u ->
  rnd l = l -> rnd u = u -> rnd (2 * l) = 2 * l -> rnd (2 * u) = 2 * u ->
  l <= wang1 rnd a l u <= u /\ (l <= a <= u -> wang1 rnd a l u = a).
Proof.
  intros Hm a l u Hlu Hl Hu H2l H2u. unfold wang1.
  destruct (Rlt_dec a l) as [Ha|Ha].
  - rewrite H2l. assert (l <= rnd (2 * l - a)) by (rewrite <- Hl at 1; apply Hm; lra).
    assert (l <= Rmin u (rnd (2 * l - a)) <= u) by (split; [apply Rmin_glb; auto|apply Rmin_l]).
    destruct (Rlt_dec u _); [lra|]. split; auto. intros; lra.
  - destruct (Rlt_dec u a) as [Hb|Hb].
    + rewrite H2u. assert (rnd (2 * u - a) <= u) by (rewrite <- Hu; apply Hm; lra).
      split; [|lra]. split; [apply Rmax_l|apply Rmax_lub; auto].
    + split; auto. lra.
Qed.
End Wang.
(** exact arithmetic *)
Theorem C14_wang_exact : forall a l u : R, (l <= u)%R ->
  (l <= wang1 (fun x => x) a l u <= u)%R /\ ((l <= a <= u)%R -> wang1 (fun x => x) a l u = a).
Proof. intros. apply C14_wang; auto. Qed.
(** binary64 rounding to nearest even (without overflow) *)
Theorem C14_wang_binary64 : forall a l u : R,
  generic_format radix2 (FLT_exp (-1074) 53) l -> generic_format radix2 (FLT_exp (-1074) 53) u -> (l <= u)%R ->
  let rnd := round radix2 (FLT_exp (-1074) 53) ZnearestE in
  (l <= wang1 rnd a l u <= u)%R /\ ((l <= a <= u)%R -> wang1 rnd a l u = a).
Proof.
  intros a l u Fl Fu Hlu rnd.
  assert (D : forall x, generic_format radix2 (FLT_exp (-1074) 53) x -> generic_format radix2 (FLT_exp (-1074) 53) (2 * x)).
  { intros x Fx. apply FLT_format_generic in Fx; [|reflexivity]. destruct Fx as [[m e] E1 E2 E3].
    apply generic_format_FLT. exists (Float radix2 m (e + 1)); simpl in *; auto; try lia.
    rewrite E1. unfold F2R; simpl. rewrite bpow_plus. change (bpow radix2 1) with 2%R. ring. }
  apply C14_wang; auto; try (apply round_generic; auto with typeclass_instances).
  intros x y Hxy. unfold rnd. apply round_le; auto with typeclass_instances. apply FLT_exp_valid. reflexivity.
Qed.

(** *** but with bounds whose doubles overflow the result is outside (here -inf) *)
Definition b64_ok (x : spec_float) : Prop := valid_binary 53 1024 x = true.
Theorem C14_overflow_refuted : exists a l u : b64, b64_ok a /\ b64_ok l /\ b64_ok u /\
  b64_ltb l u = true /\ b64_ltb (b64_wang a l u) l = true.
Proof.
  (* l = -1.7e308 = -0x1.e42d130773b76p+1023, u = 0, a = -1.75e308 *)
  exists (S754_finite true 8768491154567168 971), (S754_finite true 8517962835865190 971), (S754_zero false).
  vm_compute. intuition.
Qed.

(** ** C15 reflect *)
Theorem C15_reflect_exact : forall a l u : R, (l < u)%R ->
  (l <= reflect1 (fun x => x) a l u <= u)%R /\ ((l <= a <= u)%R -> reflect1 (fun x => x) a l u = a).
Proof.
  intros a l u Hlu.
  assert (M : forall b, (l <= l + Rmod b (u - l) < u)%R).
  { intros b. unfold Rmod. pose proof (base_Int_part (b / (u - l))) as [B1 B2].
    set (k := IZR (Int_part (b / (u - l)))) in *.
    assert (E : (b = (u - l) * (b / (u - l)))%R) by (field; lra).
    set (q := (b / (u - l))%R) in *. rewrite E.
    assert (0 <= (u - l) * (q - k))%R by (apply Rmult_le_pos; lra).
    assert ((u - l) * (q - k) < (u - l) * 1)%R by (apply Rmult_lt_compat_l; lra). lra. }
  unfold reflect1. destruct (Rlt_dec u a).
  - specialize (M a). destruct (Rlt_dec _ l); lra.
  - destruct (Rlt_dec a l).
    + specialize (M a). lra.
    + split; lra.
Qed.
(** in binary64 the remainder may round up to the width of the box *)
Theorem C15_binary64_refuted : exists a l u : b64, b64_ok a /\ b64_ok l /\ b64_ok u /\
  b64_ltb l u = true /\ b64_ltb u a = true /\ b64_ltb u (b64_reflect a l u) = true.
Proof.
  (* l = -1, u = -2^-55, a = -2^-56: the result is 0 *)
  exists (S754_finite true 4503599627370496 (-108)), (S754_finite true 4503599627370496 (-52)),
         (S754_finite true 4503599627370496 (-107)).
  vm_compute. intuition.
Qed.

(** ** C17 is_feasible *)
Theorem C17_is_feasible : forall C x, length (c_lower C) = length x -> length (c_upper C) = length x ->
  exists b, is_feasible C x = Some b /\
   (b = true <-> forall i a l u, at_i x (c_lower C) (c_upper C) i a l u -> fleb l a = true /\ fleb a u = true).
Proof.
  intros C x. unfold is_feasible. generalize (c_lower C), (c_upper C).
  induction x as [|a x IH]; intros [|l lo] [|u hi] H1 H2; simpl in *; try discriminate.
  - exists true. split; auto. split; auto. intros _ [|i] a l u (H & _); discriminate.
  - destruct (IH lo hi) as (b & -> & Hb); auto. eexists. split; [reflexivity|].
    rewrite !andb_true_iff, Hb. split.
    + intros ((G1 & G2) & G3) [|i] a0 l0 u0 (E1 & E2 & E3); simpl in *.
      * injection E1 as <-. injection E2 as <-. injection E3 as <-. auto.
      * apply (G3 i). repeat split; auto.
    + intros G. destruct (G 0 a l u) as [G1 G2]; [repeat split|]. split; auto.
      intros i a0 l0 u0 (E1 & E2 & E3). apply (G (S i)). repeat split; auto.
Qed.
(** a point of another length: numpy raises *)
Theorem C17_length : forall C x, cfg_ok C -> length x <> c_dim C -> is_feasible C x = None.
Proof.
  intros C x (H1 & H2 & _) Hx. rewrite <- H1 in Hx, H2. clear H1. unfold is_feasible. revert Hx H2.
  generalize (c_lower C), (c_upper C).
  induction x as [|a x IH]; intros [|l lo] [|u hi] Hx H2; simpl in *; try discriminate; auto; try congruence.
  rewrite IH; auto.
Qed.
(** the default repair makes every NaN-free point feasible *)
Theorem C17_default_repair_feasible : forall C x, cfg_ok C -> length x = c_dim C -> Forall (fun a => a <> NaN) x ->
  is_feasible C (limit x (c_lower C) (c_upper C)) = Some true.
Proof.
  intros C x (H1 & H2 & H3) Hx Hn. assert (L1 : length (c_lower C) = length x) by congruence.
  assert (L2 : length (c_upper C) = length x) by congruence.
  destruct (C12_limit x _ _ L1 L2) as (L & Hsp).
  destruct (C17_is_feasible C (limit x (c_lower C) (c_upper C))) as (b & -> & Hb); try congruence.
  f_equal. apply Hb. intros i b0 l u (E1 & E2 & E3).
  assert (Hi : i < length x) by (rewrite <- L; apply nth_error_Some; congruence).
  destruct (nth_error x i) as [a|] eqn:Ea; [|apply nth_error_None in Ea; lia].
  destruct (Hsp i a l u) as (b1 & Eb & _ & G); [repeat split; auto| |].
  { exact (Forall2_nth _ _ (fun l u => fleb l u = true) _ _ _ _ _ H3 E2 E3). }
  rewrite E1 in Eb. injection Eb as <-. assert (H : a <> NaN) by exact (Forall_nth _ (fun a => a <> NaN) _ _ _ Hn Ea). destruct (G H) as (? & ? & _). auto.
Qed.

(** ** Concrete cases *)
Module ExRepair.
Definition x : vec := [Fin (-7); Fin 3; PInf; NaN].
Definition lo : vec := [Fin (-5); Fin (-5); Fin 0; Fin 0].
Definition hi : vec := [Fin 5; Fin 5; PInf; Fin 1].
Example bounds_ok : Forall2 (fun l u => fleb l u = true) lo hi.
Proof. repeat constructor. Qed.
Example limit_case : limit x lo hi = [Fin (-5); Fin 3; PInf; NaN].
Proof. reflexivity. Qed.
Example limit_inverse_case : limit_inverse x lo hi = [Fin 5; Fin 3; PInf; NaN].
Proof. reflexivity. Qed.
Example rand_case : forall w, fst (exec (Env (Cfg Minimization 4 lo hi LInf LInf NInf) (fun _ _ => Ret f0) (fun _ v => v) (fun n => Fin (Z.of_nat n)) (fun n => n))
   (rand_repair x lo hi) (World w [] 2)) = Ret [Fin 2; Fin 3; PInf; NaN].
Proof. reflexivity. Qed.
(** the premise of the binary64 theorem holds of ordinary bounds: 0.1 is not needed, -5 and 5 are floats *)
Example wang_case : generic_format radix2 (FLT_exp (-1074) 53) 5 /\ (-5 <= 5)%R /\ wang1 (fun x => x) (-7)%R (-5)%R 5%R = (-3)%R.
Proof.
  split; [|split; [lra|]].
  - apply generic_format_FLT. exists (Float radix2 5 0); simpl; try lia. unfold F2R; simpl. lra.
  - unfold wang1. destruct (Rlt_dec (-7) (-5)); [|lra]. rewrite Rmin_right by lra. destruct (Rlt_dec 5 _); lra.
Qed.
Example reflect_case : (-5 < 5)%R /\ reflect1 (fun x => x) 7%R (-5)%R 5%R = 2%R.
Proof.
  split; [lra|]. unfold reflect1, Rmod. destruct (Rlt_dec 5 7); [|lra].
  assert (Int_part (7 / (5 - -5)) = 0%Z) as ->.
  { unfold Int_part. rewrite <- (up_tech (7 / (5 - -5)) 0); simpl; try lra; lia. }
  destruct (Rlt_dec _ (-5)); lra.
Qed.
Example feasible_case : is_feasible (Cfg Minimization 4 lo hi LInf LInf NInf) [Fin 1; Fin 2; PInf; Fin 1] = Some true /\
  is_feasible (Cfg Minimization 4 lo hi LInf LInf NInf) x = Some false.
Proof. split; reflexivity. Qed.
End ExRepair.

Print Assumptions C12_limit.
Print Assumptions C12_idempotent.
Print Assumptions C12_repair_ok.
Print Assumptions C13_limit_inverse.
Print Assumptions C13_repair_ok.
Print Assumptions C14_wang.
Print Assumptions C14_wang_exact.
Print Assumptions C14_wang_binary64.
Print Assumptions C14_overflow_refuted.
Print Assumptions C15_reflect_exact.
Print Assumptions C15_binary64_refuted.
Print Assumptions C16_rand.
Print Assumptions C17_is_feasible.
Print Assumptions C17_length.
Print Assumptions C17_default_repair_feasible.
