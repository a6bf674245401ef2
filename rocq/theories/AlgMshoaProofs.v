(** Proofs about MantisSearchAlgorithm. *)
From Coq Require Import ZArith Lia Bool List.
From Verif Require Import Num Task TaskSpec TaskProofs TaskProofs2 Prog Wp Repair GetBest Run RunSpec RunProofs RunProofs2
  AlgoLib Fops AlgTac StepSpec StepLib Indiv IndivLib AlgBasic AlgSwarm PopLib AlgEvoProofs AlgKh AlgKhProofs Det Late AlgMshoa.
Import ListNotations.

(** ** np.clip and the reflection *)
Lemma zip3_length : forall A (f : A -> A -> A -> A) x lo hi n, length x = n -> length lo = n -> length hi = n -> length (zip3 f x lo hi) = n.
Proof. intros A f x. induction x as [|a x IH]; intros [|l lo] [|u hi] n H1 H2 H3; simpl in *; subst; try discriminate; auto. Qed.
Lemma zip3_nth : forall A (f : A -> A -> A -> A) x lo hi n j d, length x = n -> length lo = n -> length hi = n -> j < n ->
  nth j (zip3 f x lo hi) d = f (nth j x d) (nth j lo d) (nth j hi d).
Proof.
  intros A f x. induction x as [|a x IH]; intros [|l lo] [|u hi] n j d H1 H2 H3 Hj; simpl in *; subst; try discriminate; try lia.
  destruct j as [|j]; auto. apply (IH lo hi (length x)); lia.
Qed.
Lemma limit_inside : forall C x, cfg_ok C -> length x = c_dim C -> inside C (limit x (c_lower C) (c_upper C)).
Proof.
  intros C x (H1 & H2 & H3) Hx. unfold limit, inside. rewrite <- Hx in H1. clear H2 Hx.
  revert x H1. induction H3; intros [|a x'] H1; simpl in *; try discriminate; constructor; auto.
  unfold limit1, in_range. simpl. destruct (fleb x y) eqn:Q; [|discriminate]. clear - Q.
  unfold np_min, np_max. destruct (is_nan a || is_nan x) eqn:E1; simpl; auto.
  destruct (is_nan (if fltb a x then x else a) || is_nan y) eqn:E2; auto. right.
  apply orb_false_iff in E1. destruct E1 as [A1 A2].
  apply orb_false_iff in E2. destruct E2 as [A3 A4].
  destruct a, x, y; simpl in *; try discriminate; auto;
  repeat match goal with |- context [Z.ltb ?m ?n] => destruct (Z.ltb_spec m n); simpl end;
  rewrite ?Z.leb_le in *; repeat split; auto; try (apply Z.leb_le; lia); try lia.
Qed.
Lemma refl_rounds_length : forall F k lo hi x n, length lo = n -> length hi = n -> length x = n -> length (refl_rounds F k lo hi x) = n.
Proof.
  intros F k lo hi. induction k as [|k IH]; intros x n L1 L2 L3; cbn [refl_rounds]; auto. destruct (refl_out x lo hi); auto. apply IH; auto.
  apply zip3_length; auto.
Qed.
Lemma reflect_length : forall F lo hi x n, length lo = n -> length hi = n -> length x = n -> length (reflect_repair F lo hi x) = n.
Proof. intros. unfold reflect_repair, limit. apply zip3_length; auto. apply refl_rounds_length; auto. Qed.
Lemma reflect_inside : forall F C x, cfg_ok C -> length x = c_dim C -> inside C (reflect_repair F (c_lower C) (c_upper C) x).
Proof. intros F C x HC Hx. unfold reflect_repair. apply limit_inside; auto. apply refl_rounds_length; auto; apply HC. Qed.

(** ** Masked assignment *)
Lemma place_length : forall is rows pop, length (place is rows pop) = length pop.
Proof. induction is as [|i is IH]; intros [|r rows] pop; cbn [place]; auto. rewrite IH. apply upd_length. Qed.
Lemma place_other : forall is rows pop i, ~ In i is -> nth i (place is rows pop) [] = nth i pop [].
Proof.
  induction is as [|j is IH]; intros [|r rows] pop i H; cbn [place]; auto. rewrite IH by (intros Q; apply H; right; auto).
  rewrite <- !(nth_default_eq). unfold nth_default. rewrite nth_upd_other; auto. intros ->. apply H. left. auto.
Qed.
Lemma place_at : forall is rows pop i k, NoDup is -> length rows = length is -> (forall j, In j is -> j < length pop) ->
  nth_error is k = Some i -> nth i (place is rows pop) [] = nth k rows [].
Proof.
  induction is as [|j is IH]; intros [|r rows] pop i [|k] Hd Hl Hi Hk; simpl in *; try discriminate; inversion_clear Hd.
  - injection Hk as ->. rewrite place_other by auto. apply nth_error_nth. apply nth_upd_same. auto.
  - apply IH; auto. intros j' Hj. rewrite upd_length. auto.
Qed.
Lemma in_ms_rows : forall n pti t i, In i (ms_rows n pti t) <-> i < n /\ nth i pti 0%Z = t.
Proof. intros n pti t i. unfold ms_rows. rewrite filter_In, in_seq, Z.eqb_eq. intuition lia. Qed.
Lemma ms_rows_nodup : forall n pti t, NoDup (ms_rows n pti t).
Proof. intros. apply NoDup_filter. apply seq_NoDup. Qed.
Lemma ms_rows_pos : forall n pti t i, i < n -> nth i pti 0%Z = t -> exists k, nth_error (ms_rows n pti t) k = Some i /\ k < length (ms_rows n pti t).
Proof. intros n pti t i H1 H2. destruct (In_nth_error (ms_rows n pti t) i) as [k Hk]; [apply in_ms_rows; auto|]. exists k. split; auto. apply nth_error_Some. congruence. Qed.

(** ** The moves *)
Definition between (lo hi c : num) : Prop := fleb lo hi = true -> fleb lo c = true /\ fleb c hi = true.
(** what mantis i becomes before the repair *)
Definition forages (F : fops) (n d : nat) (pop : list vec) (xb : vec) (i : nat) (y : vec) : Prop :=
  exists D r, between (flit F (-1) 1) (flit F 1 1) D /\ r < n /\ (1 < n -> r <> i) /\
    comps d y (fun k c => c = fadd F (fsub F (nth k xb NaN) (fsub F (nth k (nth i pop []) NaN) (nth k xb NaN)))
                                     (fmul F D (fsub F (nth k (nth r pop []) NaN) (nth k (nth i pop []) NaN)))).
Definition attacks (F : fops) (pi : num) (d : nat) (xb y : vec) : Prop :=
  exists t, between pi (fmul F (flit F 2 1) pi) t /\ comps d y (fun k c => c = fmul F (nth k xb NaN) (fcos F t)).
Definition defends (F : fops) (kv : num) (d : nat) (xb y : vec) : Prop :=
  exists s, (s = flit F 1 1 \/ s = flit F (-1) 1) /\ comps d y (fun k c => c = fadd F (nth k xb NaN) (fmul F (fmul F s kv) (nth k xb NaN))).
Definition moves (F : fops) (pi : num) (p : ms_par) (d : nat) (pop : list vec) (xb : vec) (pti : list Z) (i : nat) (y : vec) : Prop :=
  match nth i pti 0%Z with
  | 1%Z => forages F (ms_n p) d pop xb i y
  | 2%Z => attacks F pi d xb y
  | 3%Z => defends F (ms_k p) d xb y
  | _ => y = nth i pop []
  end.
Lemma nth_rep : forall A (a b : A) n k, k < n -> nth k (repeat a n) b = a.
Proof. intros A a b n. induction n; intros [|k] H; simpl; auto; try lia. apply IHn. lia. Qed.
Lemma w_ms_move : forall K F pi p d pop xb pti (Q : list vec -> elog -> Prop) l, 0 < ms_n p -> length pop = ms_n p -> dims d pop -> length xb = d ->
  (forall ys, length ys = ms_n p -> (forall i, i < ms_n p -> moves F pi p d pop xb pti i (nth i ys [])) -> Q ys l) ->
  wp K (ms_move F pi p pop xb pti) Q l.
Proof.
  intros K F pi p d pop xb pti Q l Hn Lp Dp Lx HQ. unfold ms_move. cbv zeta. set (n := ms_n p) in *.
  set (fo := ms_rows n pti 1). set (ta := ms_rows n pti 2). set (de := ms_rows n pti 3).
  apply wp_bind. apply (w_uniform_vec_len _ _ _ (length fo)); rewrite ?repeat_length; auto. intros D [LD HD].
  apply wp_bind. apply (w_mapM_rel _ _ _ (fun i r => r < n /\ (1 < n -> r <> i))).
  { intros i Q' Hi HQ'. apply wp_bind. apply w_integers; auto. intros r Hr. apply w_done. apply HQ'. destruct (Nat.ltb_spec 1 n) as [H1|H1]; cbn [andb].
    - destruct (Nat.eqb_spec r i) as [->|H2]; [|auto]. split; [apply Nat.mod_upper_bound; lia|]. intros _.
      destruct (Nat.eq_dec (i + 1) n) as [H3|H3]; [rewrite H3, Nat.mod_same by lia; lia|]. rewrite Nat.mod_small by lia. lia.
    - split; auto. lia. }
  intros rs Hrs. assert (Lr : length rs = length fo) by (symmetry; eapply Forall2_len; eauto).
  apply wp_bind. apply (w_uniform_vec_len _ _ _ (length ta)); rewrite ?repeat_length; auto. intros th [Lt Ht].
  apply wp_bind. apply w_random_vec. intros us Lu. apply w_done. apply HQ; [rewrite !place_length; auto|].
  intros i Hi. unfold moves.
  assert (B : forall t j, In j (ms_rows n pti t) -> j < length pop) by (intros t j Hj; apply in_ms_rows in Hj; lia).
  assert (Not : forall t, nth i pti 0%Z <> t -> ~ In i (ms_rows n pti t)) by (intros t Ht' Hin; apply in_ms_rows in Hin; tauto).
  assert (Li : length (nth i pop []) = d) by (apply dims_nthd; auto; lia).
  destruct (Z.eq_dec (nth i pti 0%Z) 1) as [E1|E1]; [|destruct (Z.eq_dec (nth i pti 0%Z) 2) as [E2|E2]; [|destruct (Z.eq_dec (nth i pti 0%Z) 3) as [E3|E3]]].
  - rewrite E1. unfold de, ta. rewrite !place_other by (apply Not; lia). destruct (ms_rows_pos n pti 1 i Hi E1) as (k & Ek & Hk). fold fo in Ek, Hk.
    rewrite (place_at _ _ _ _ k); [|apply ms_rows_nodup|apply map2_length; auto; rewrite combine_length; lia|apply B|exact Ek].
    rewrite (nth_map2 _ _ _ _ _ _ _ (length fo) 0 (NaN, 0) []); auto; [|rewrite combine_length; lia]. rewrite combine_nth by lia. cbn [fst snd].
    rewrite (nth_error_nth _ _ 0 Ek). exists (nth k D NaN), (nth k rs 0). assert (Hk' : k < length rs) by lia.
    destruct (Forall2_nth _ _ _ _ _ k _ _ Hrs Ek (nth_error_nth' rs 0 Hk')) as [R1 R2].
    split; [unfold between; specialize (HD k Hk); rewrite !nth_rep in HD by auto; exact HD|]. split; auto. split; auto.
    assert (Lr' : length (nth (nth k rs 0) pop []) = d) by (apply dims_nthd; auto; lia).
    split; [unfold vadd, vsub, vscale; repeat (rewrite ?map_length; try rewrite (map2_length _ _ _ _ _ _ d)); auto; rewrite ?map_length; apply map2_length; auto; apply map2_length; auto|].
    intros j Hj. unfold vadd, vsub, vscale. rewrite (nth_map2 _ _ _ _ _ _ _ d NaN NaN); auto.
    + rewrite (nth_map2 _ _ _ _ _ _ _ d NaN NaN); auto; [|apply map2_length; auto]. rewrite (nth_map2 _ _ _ _ _ _ _ d NaN NaN) by auto. f_equal.
      rewrite (nth_indep _ NaN (fmul F (nth k D NaN) NaN)) by (rewrite map_length, (map2_length _ _ _ _ _ _ d); auto).
      rewrite map_nth. rewrite (nth_map2 _ _ _ _ _ _ _ d NaN NaN) by auto. reflexivity.
    + apply map2_length; auto. apply map2_length; auto.
    + rewrite map_length. apply map2_length; auto.
  - rewrite E2. unfold de. rewrite place_other by (apply Not; lia). destruct (ms_rows_pos n pti 2 i Hi E2) as (k & Ek & Hk). fold ta in Ek, Hk.
    rewrite (place_at _ _ _ _ k); [|apply ms_rows_nodup|rewrite map_length; auto|intros j Hj; rewrite place_length; apply (B _ _ Hj)|exact Ek].
    exists (nth k th NaN). split; [unfold between; specialize (Ht k Hk); rewrite !nth_rep in Ht by auto; exact Ht|].
    rewrite (nth_indep _ [] (vscaler F xb (fcos F NaN))) by (rewrite map_length; lia). rewrite map_nth with (f := fun t => vscaler F xb (fcos F t)).
    unfold vscaler. split; [rewrite map_length; auto|]. intros j Hj.
    rewrite (nth_indep _ NaN (fmul F NaN (fcos F (nth k th NaN)))) by (rewrite map_length; lia). rewrite map_nth with (f := fun a => fmul F a (fcos F (nth k th NaN))). reflexivity.
  - rewrite E3. destruct (ms_rows_pos n pti 3 i Hi E3) as (k & Ek & Hk). fold de in Ek, Hk.
    rewrite (place_at _ _ _ _ k); [|apply ms_rows_nodup|rewrite map_length; auto|intros j Hj; rewrite !place_length; apply (B _ _ Hj)|exact Ek].
    set (g := fun u => vadd F xb (vscale F (fmul F (if fltb u (flit F 1 2) then flit F 1 1 else flit F (-1) 1) (ms_k p)) xb)).
    rewrite (nth_indep _ [] (g NaN)) by (rewrite map_length; lia). rewrite (map_nth g). unfold g, vadd, vscale.
    eexists (if fltb (nth k us NaN) (flit F 1 2) then flit F 1 1 else flit F (-1) 1). split; [destruct (fltb _ _); auto|].
    split; [apply map2_length; auto; rewrite map_length; auto|]. intros j Hj.
    rewrite (nth_map2 _ _ _ _ _ _ _ d NaN NaN); auto; [|rewrite map_length; auto]. f_equal. set (c := fmul F _ _).
    rewrite (nth_indep _ NaN (fmul F c NaN)) by (rewrite map_length; lia). apply map_nth.
  - unfold de, ta, fo. rewrite !place_other by (apply Not; auto). destruct (nth i pti 0%Z) as [|[[]|[]|]|]; try reflexivity; congruence.
Qed.
Lemma moves_dim : forall F pi p d pop xb pti i y, moves F pi p d pop xb pti i y -> length (nth i pop []) = d -> length y = d.
Proof.
  intros F pi p d pop xb pti i y H Hi. unfold moves in H. destruct (nth i pti 0%Z) as [|[[]|[]|]|]; try (subst; auto; fail).
  - destruct H as (s & _ & H & _). auto.
  - destruct H as (s & _ & H & _). auto.
  - destruct H as (D & r & _ & _ & _ & H & _). auto.
Qed.
Lemma moves_dims : forall F pi p d pop xb pti ys, length pop = ms_n p -> dims d pop -> length ys = ms_n p ->
  (forall i, i < ms_n p -> moves F pi p d pop xb pti i (nth i ys [])) -> dims d ys.
Proof.
  intros F pi p d pop xb pti ys L1 D1 L2 H. apply (dims_of_nth _ (ms_n p)); auto. intros i Hi. eapply moves_dim; [apply H; auto|]. apply dims_nthd; auto. lia.
Qed.

(** ** The best of a new population, replaced only by a better one *)
Lemma argmin_best : forall l l' xs fs xb fb (full : Prop),
  xs <> [] -> Evals xs fs l l' -> Seen l xb fb -> fb <> NaN -> (full -> LB l fb) ->
  exists b m x, argmin fs = Some b /\ nth_error fs b = Some m /\ nth_error xs b = Some x /\ first_min fs b m /\ m <> NaN /\
     Seen l' (if fltb m fb then x else xb) (if fltb m fb then m else fb) /\ (if fltb m fb then m else fb) <> NaN /\
     (full -> LB l' (if fltb m fb then m else fb)).
Proof.
  intros l l' xs fs xb fb full Hne He HS Hb HL. assert (Ln := Evals_len _ _ _ _ He). assert (Nn := Evals_nan _ _ _ _ He).
  destruct (argmin_spec fs) as (b & m & Eb & M); auto. { destruct fs, xs; simpl in *; congruence. }
  assert (M' := M). destruct M as (M1 & M2 & M3). assert (Hlt : b < length fs) by (apply nth_error_Some; congruence).
  destruct (nth_error xs b) as [x|] eqn:Ex; [|apply nth_error_None in Ex; lia].
  assert (Sx : Seen l' x m) by (eapply Forall2_nth; [apply (Evals_seen _ _ _ _ He)|eauto|eauto]).
  assert (Hm : m <> NaN) by (rewrite Forall_forall in Nn; apply Nn; eapply nth_error_In; eauto).
  assert (Hext := Evals_ext _ _ _ _ He).
  exists b, m, x. repeat (split; [assumption|]). split; [destruct (fltb m fb); auto; eapply Seen_ext; eauto|]. split; [destruct (fltb m fb); auto|].
  intros Hf. assert (Cv : Cov l' (fs ++ []) fb) by (eapply Cov_Evals; eauto; apply LB_Cov; auto). rewrite app_nil_r in Cv.
  intros y v Hv. destruct (Cv y v Hv) as [H1|(f & H1 & H2)].
  - destruct (fltb m fb) eqn:Q0; auto. eapply fleb_trans; [apply fltb_fleb; exact Q0|exact H1].
  - apply In_nth_error in H1. destruct H1 as [j Hj]. assert (Hmv : fleb m v = true) by (eapply fleb_trans; [apply (M2 _ _ Hj)|exact H2]).
    destruct (fltb m fb) eqn:Q0; auto. eapply fleb_trans; [apply fltb_false_fleb; eauto|exact Hmv].
Qed.

(** ** The invariant; [full] says that nothing logged is below the best *)
Record MsInv (C : cfg) (p : ms_par) (full : Prop) (V : Z -> Prop) (pop : list vec) (fit : list num) (xb : vec) (fxb : num) (pti : list Z) (l : elog) : Prop := {
  mi_pop : length pop = ms_n p; mi_fit : length fit = ms_n p; mi_in : Forall (inside C) pop; mi_seen : Forall2 (Seen l) pop fit;
  mi_xb : length xb = c_dim C; mi_best : Seen l xb fxb; mi_nan : fxb <> NaN; mi_lb : full -> LB l fxb;
  mi_pti : length pti = ms_n p; mi_v : Forall V pti
}.
Lemma polar_range : forall F pi a, polar_type F pi a = 1%Z \/ polar_type F pi a = 2%Z \/ polar_type F pi a = 3%Z.
Proof. intros F pi a. unfold polar_type. destruct (_ || _); auto. destruct (_ || _); auto. destruct (_ && _); auto. Qed.
Definition is_type (t : Z) : Prop := t = 1%Z \/ t = 2%Z \/ t = 3%Z.
Lemma eye_range : forall F pi a b, is_type (ms_eye F pi a b).
Proof. intros. unfold ms_eye. cbv zeta. destruct (fltb _ _); apply polar_range. Qed.
Section Ms.
Variables (F : fops) (C : cfg) (pi : num) (acos : num -> num) (p : ms_par) (X : exn -> Prop).
Hypothesis HC : cfg_ok C.
Hypothesis Hn : 0 < ms_n p.
Hypothesis Hs : ms_norm p = false.
Lemma ms_iter_c : forall (full : Prop) (V : Z -> Prop) pop fit xb fxb pti l, (forall t, is_type t -> V t) -> MsInv C p full V pop fit xb fxb pti l ->
  wp (KBX C X) (ms_iter F C pi acos p pop fit xb fxb pti) (fun a l' => let '(pop', fit', xb', fxb', pti') := a in MsInv C p full V pop' fit' xb' fxb' pti' l' /\ Forall is_type pti') l.
Proof.
  intros full V pop fit xb fxb pti l HV [M1 M2 M3 M4 M5 M6 M7 M8 M9 M10]. unfold ms_iter. rewrite Hs. cbv zeta.
  assert (D1 : dims (c_dim C) pop) by (apply dims_inside; auto).
  apply wp_bind. apply (w_ms_move _ _ _ _ (c_dim C)); auto. intros mv L1 H1. assert (D2 := moves_dims _ _ _ _ _ _ _ _ M1 D1 L1 H1).
  apply wp_bind. apply wp_conseq0 with (Q := fun new l' => l' = l /\ length new = ms_n p /\ Forall (inside C) new).
  { destruct (ms_refl p).
    - apply w_done. split; auto. split; [rewrite map_length; auto|]. apply Forall_map. eapply Forall_impl; [|exact D2]. intros x Hx. apply reflect_inside; auto.
    - apply w_repair_all; auto. { destruct mv; simpl in *; [lia|congruence]. } intros ys Ly Hy. split; auto. split; auto. congruence. }
  intros new l0 (-> & L2 & I2). apply wp_bind. apply w_eval_all; auto. { destruct new; simpl in *; [lia|congruence]. }
  intros fit' l' He. destruct (argmin_best l l' new fit' xb fxb full) as (b & m & x & E1 & E2 & E3 & E4 & E5 & E6 & E7 & E8); auto.
  { destruct new; simpl in *; [lia|congruence]. }
  rewrite E1. cbn [argP bind]. unfold nthP. rewrite E2. cbn [bind]. rewrite E3. cbn [bind].
  destruct (if fltb m fxb then (x, m) else (xb, fxb)) as [xb' fxb'] eqn:Eb.
  assert (Bx : xb' = if fltb m fxb then x else xb) by (destruct (fltb m fxb); injection Eb; auto).
  assert (Bf : fxb' = if fltb m fxb then m else fxb) by (destruct (fltb m fxb); injection Eb; auto).
  apply wp_bind. apply w_random_vec. intros us Lu. apply w_done.
  set (pti' := map2 _ _ _). assert (Lp : length pti' = ms_n p).
  { unfold pti'. apply map2_length; [apply map2_length; auto|rewrite map_length; auto]. }
  assert (Vp : Forall is_type pti').
  { unfold pti'. generalize (map2 (ms_lpa F pi acos) pop new) as aa, (map (fun u => fmul F u pi) us) as bb. clear.
    induction aa as [|a aa IH]; intros [|b bb]; simpl; constructor; auto. apply eye_range. }
  split; auto. constructor; auto.
  - rewrite (Evals_len _ _ _ _ He). auto.
  - eapply Evals_seen; eauto.
  - rewrite Bx. destruct (fltb m fxb); auto. apply inside_len; auto. rewrite Forall_forall in I2. apply I2. eapply nth_error_In; eauto.
  - rewrite Bx, Bf. auto.
  - rewrite Bf. auto.
  - rewrite Bf. auto.
  - eapply Forall_impl; [|exact Vp]. auto.
Qed.
(** the first types *)
Definition start_type (t : Z) : Prop := exists u, in_unit u /\ t = fround (fadd F (flit F 1 1) (fmul F (flit F 2 1) u)).
Lemma start_types : forall us, Forall in_unit us -> Forall start_type (map (fun u => fround (fadd F (flit F 1 1) (fmul F (flit F 2 1) u))) us).
Proof. intros us H. apply Forall_map. eapply Forall_impl; [|exact H]. intros u Hu. exists u. auto. Qed.
Lemma ms_init_c : forall (V : Z -> Prop), (forall t, start_type t -> V t) ->
  init_c (KBX C X) (mshoa F C pi acos p) (fun pop fit xb fxb pti l => MsInv C p False V pop fit xb fxb pti l).
Proof.
  intros V HV. unfold init_c. cbn [a_init a_coords mshoa]. unfold ms_init. rewrite Hs.
  apply wp_bind. apply w_default_numpy_init; auto. intros pop fit0 l1 Lp Ip He0. cbv zeta beta iota.
  assert (Hne : pop <> []) by (destruct pop; simpl in *; [lia|congruence]).
  apply wp_bind. apply w_eval_all; auto. intros fit l2 He. apply wp_bind. apply w_random_vec_u. intros us Lu Uu. apply w_done.
  assert (HS := Evals_seen _ _ _ _ He). assert (Ln := Evals_len _ _ _ _ He).
  destruct (get_best_spec pop fit None PInf) as (b & m & (M1 & M2 & M3) & E & (x & Ex)); auto.
  - destruct fit, pop; simpl in *; congruence.
  - eapply Evals_nan; eauto.
  - rewrite E. cbn [lift]. assert (Hm : m <> NaN) by (assert (Q := Evals_nan _ _ _ _ He); rewrite Forall_forall in Q; apply Q; eapply nth_error_In; eauto).
    assert (Q : fleb m PInf = true) by (apply fleb_PInf; auto). rewrite Q, Ex. cbn [lift]. apply w_done. cbn [fst snd].
    constructor; auto; try tauto; try lia.
    + apply inside_len; auto. rewrite Forall_forall in Ip. apply Ip. eapply nth_error_In; eauto.
    + eapply Forall2_nth; eauto.
    + rewrite map_length. auto.
    + eapply Forall_impl; [|apply start_types; exact Uu]. auto.
Qed.
(** with a problem that is a function and no evaluation refused both evaluations give the same values *)
Lemma ms_init_d : forall (V : Z -> Prop) (g : vec -> num), (forall t, start_type t -> V t) ->
  init_c (KD C (fun _ _ => True) (fun x v => v = g x) (inside C) X) (mshoa F C pi acos p) (fun pop fit xb fxb pti l => MsInv C p True V pop fit xb fxb pti l).
Proof.
  intros V g HV. unfold init_c. cbn [a_init a_coords mshoa]. unfold ms_init, default_numpy_init. rewrite Hs.
  apply wp_bind. apply wp_bind. apply w_uniform_pop; auto. intros pop Lp Ip.
  assert (Hne : pop <> []) by (destruct pop; simpl in *; [lia|congruence]).
  apply wp_bind. apply w_eval_all_d; auto. intros fit0 l1 He0 G0. apply w_done. cbv zeta beta iota.
  apply wp_bind. apply w_eval_all_d; auto. intros fit l2 He G. apply wp_bind. apply w_random_vec_u. intros us Lu Uu. apply w_done.
  assert (Eq : fit0 = fit).
  { clear - G0 G. revert fit0 G0. induction G as [|x v pop fit (_ & Q & _) _ IH]; intros fit0 G0; inversion G0; subst; auto.
    f_equal; [|auto]. match goal with H : _ <> NaN /\ _ /\ _ |- _ => destruct H as (_ & -> & _) end. auto. }
  subst fit0. assert (Ln := Evals_len _ _ _ _ He). assert (HS := Evals_seen _ _ _ _ He).
  assert (Cv : Cov l2 fit PInf).
  { assert (C1 : Cov l1 (fit ++ []) PInf) by (eapply Cov_Evals; eauto; intros y v []). rewrite app_nil_r in C1.
    eapply Cov_incl; [|eapply Cov_Evals; [exact C1|exact He]]. intros a Ha. apply in_app_or in Ha. tauto. }
  apply w_get_best0_cov; auto. { destruct fit, pop; simpl in *; congruence. }
  intros x f (G1 & G2 & G3) Hx. cbn [fst snd]. constructor; auto; try lia.
  - apply inside_len; auto. rewrite Forall_forall in Ip. auto.
  - rewrite map_length. auto.
  - eapply Forall_impl; [|apply start_types; exact Uu]. auto.
Qed.
End Ms.
