(** Proofs about AlgPSO.v. *)
From Coq Require Import ZArith Lia Bool List.
From Verif Require Import Num Task TaskSpec TaskProofs TaskProofs2 Prog Wp GetBest Run RunSpec RunProofs RunProofs2
  AlgoLib Fops AlgTac StepSpec AlgPSO.
Import ListNotations.

(** what is known about a position and its fitness: inside the bounds and evaluated, or only the length *)
Notation rel := (elog -> vec -> num -> Prop).
Definition rows_ok (C : cfg) (R : rel) : Prop :=
  (forall l x f, inside C x -> Seen l x f -> R l x f) /\ (forall l x f, R l x f -> length x = c_dim C) /\
  (forall l l' x f, ext l l' -> R l x f -> R l' x f).
Lemma rows_dims : forall C R l xs fs, rows_ok C R -> Forall2 (R l) xs fs -> dims (c_dim C) xs.
Proof. intros C R l xs fs (_ & H & _) F. induction F; constructor; eauto. Qed.
Lemma rows_ext : forall C R l l' xs fs, rows_ok C R -> ext l l' -> Forall2 (R l) xs fs -> Forall2 (R l') xs fs.
Proof. intros C R l l' xs fs (_ & _ & H) He F. induction F; constructor; eauto. Qed.
(** the shape of the swarm *)
Definition shape (C : cfg) (R : rel) (n : nat) (s : swarm) (l : elog) : Prop :=
  length (sw_pop s) = n /\ Forall2 (R l) (sw_pop s) (sw_fit s) /\ length (sw_fit s) = n /\
  length (sw_pb s) = n /\ dims (c_dim C) (sw_pb s) /\ length (sw_pbf s) = n /\
  length (sw_v s) = n /\ dims (c_dim C) (sw_v s) /\ length (sw_xb s) = c_dim C.
(** the personal bests are evaluated pairs, none better than the best; [f0s]: their values at the start *)
Definition pbest (l : elog) (pb : list vec) (pbf : list num) (fxb : num) : Prop :=
  Forall2 (Seen l) pb pbf /\ Forall (fun f => fleb fxb f = true) pbf.
Definition no_worse (new old : list num) : Prop := Forall2 (fun a b => fleb a b = true) new old.

Definition SwOk (C : cfg) (R : rel) (n : nat) (f0s : list num) (s : swarm) (l : elog) : Prop :=
  shape C R n s l /\ Good l (sw_xb s) (sw_fxb s) /\ pbest l (sw_pb s) (sw_pbf s) (sw_fxb s) /\ no_worse (sw_pbf s) f0s.

Lemma no_worse_refl : forall fs, Forall (fun f => f <> NaN) fs -> no_worse fs fs.
Proof. induction 1; constructor; auto. apply fleb_refl; auto. Qed.
Lemma no_worse_trans : forall a b c, no_worse a b -> no_worse b c -> no_worse a c.
Proof.
  intros a b c H. revert c. induction H; intros c Hc; inversion Hc; subst; constructor; auto.
  - eapply fleb_trans; eauto.
  - apply IHForall2. auto.
Qed.
Lemma no_worse_upd : forall fs gs i f g, no_worse fs gs -> nth_error fs i = Some g -> fleb f g = true -> no_worse (upd fs i f) gs.
Proof.
  intros fs gs i f g H. revert i. induction H; intros [|i] E Hl; simpl in *; try discriminate.
  - injection E as ->. constructor; auto. eapply fleb_trans; eauto.
  - constructor; auto. apply IHForall2; auto.
Qed.
Lemma pbest_ext : forall l l' pb pbf f, ext l l' -> pbest l pb pbf f -> pbest l' pb pbf f.
Proof. intros l l' pb pbf f He [H1 H2]. split; auto. eapply Seen2_ext; eauto. Qed.
Lemma pbest_lower : forall l pb pbf f g, pbest l pb pbf f -> fleb g f = true -> pbest l pb pbf g.
Proof.
  intros l pb pbf f g [H1 H2] Hle. split; auto. eapply Forall_impl; [|exact H2]. intros a Ha. simpl in Ha.
  eapply fleb_trans; eauto.
Qed.
Lemma pbest_upd : forall l pb pbf f i x v, pbest l pb pbf f -> Seen l x v -> fleb f v = true -> pbest l (upd pb i x) (upd pbf i v) f.
Proof. intros l pb pbf f i x v [H1 H2] Hs Hle. split; [apply Forall2_upd; auto|apply Forall_upd; auto]. Qed.

Definition uv_ok (C : cfg) (uv : velocity) : Prop :=
  forall K v x pb gb w lo hi (Q : vec -> elog -> Prop) l,
    length v = c_dim C -> length x = c_dim C -> length pb = c_dim C -> length gb = c_dim C -> length w = c_dim C ->
    length lo = c_dim C -> length hi = c_dim C ->
    (forall v', length v' = c_dim C -> Q v' l) -> wp K (uv v x pb gb w lo hi) Q l.

Definition rep_len (rep : vec -> vec -> vec -> vec) : Prop :=
  forall x lo hi d, length x = d -> length lo = d -> length hi = d -> length (rep x lo hi) = d.
Lemma reflect_len : forall F, rep_len (reflect_v F).
Proof. intros F x lo hi d H1 H2 H3. unfold reflect_v. apply map3_length; auto. Qed.

Lemma update_velocity_ok : forall F C p, rep_len (ps_rep p) -> uv_ok C (update_velocity F C p).
Proof.
  intros F C p Hr K v x pb gb w lo hi Q l H1 H2 H3 H4 H5 H6 H7 HQ. unfold update_velocity.
  ws. apply HQ. apply Hr; dl.
Qed.
Lemma update_velocity_mcu_ok : forall F C p, rep_len (ps_rep p) -> uv_ok C (update_velocity_mcu F C p).
Proof.
  intros F C p Hr K v x pb gb w lo hi Q l H1 H2 H3 H4 H5 H6 H7 HQ. unfold update_velocity_mcu.
  ws. apply HQ. apply Hr; dl.
Qed.

Lemma w_particle : forall C (R : rel) (P : vec -> Prop) X F uv nested n w lo hi f0s s i l,
  cfg_ok C -> rows_ok C R -> (forall x, inside C x -> P x) -> uv_ok C uv ->
  length w = c_dim C -> length lo = c_dim C -> length hi = c_dim C -> i < n ->
  SwOk C R n f0s s l ->
  wp (KPX C P X) (pso_particle F uv nested w lo hi s i) (SwOk C R n f0s) l.
Proof.
  intros C R P X F uv nested n w lo hi f0s s i l HC HR HP Huv Hw Hlo Hhi Hi
    ((S1 & S2 & S3 & S4 & S5 & S6 & S7 & S8 & S9) & HG & HB & HN). assert (S2' := rows_dims _ _ _ _ _ HR S2).
  unfold pso_particle. ws.
  apply Huv; try assumption; try dnth. intros v' Hv'.
  ws. cbv zeta.
  assert (Hx := inside_len _ _ HC H2). assert (He := Evald_ext _ _ _ _ H3).
  assert (Hpf : fleb (sw_fxb s) a2 = true) by (destruct HB as [_ HB]; exact (Forall_nth _ _ _ _ _ HB H4)).
  assert (Hvn := Evald_nan _ _ _ _ H3).
  assert (Hrow : Forall2 (R l') (upd (sw_pop s) i y) (upd (sw_fit s) i v)).
  { apply Forall2_upd. eapply rows_ext; eauto. apply HR; auto. eapply Evald_seen; eauto. }
  assert (Hgn : sw_fxb s <> NaN) by apply HG.
  destruct (fltb v a2) eqn:Eb.
  - ws. simpl orb. rewrite andb_true_r. split; [|split; [|split]]; simpl.
    + unfold shape; simpl; rewrite ?upd_length; do 8 (split; [auto using dims_upd, Forall_upd|]); destruct (fltb v (sw_fxb s)); auto.
    + destruct (fltb v (sw_fxb s)) eqn:Et.
      * eapply Good_take; eauto. apply fltb_fleb; auto.
      * eapply Good_keep; eauto.
    + destruct (fltb v (sw_fxb s)) eqn:Et.
      * apply pbest_upd; [|eapply Evald_seen; eauto|apply fleb_refl; auto].
        eapply pbest_lower; [eapply pbest_ext; eauto|]. apply fltb_fleb; auto.
      * apply pbest_upd; [eapply pbest_ext; eauto|eapply Evald_seen; eauto|apply fltb_false_fleb; auto].
    + eapply no_worse_upd; eauto. apply fltb_fleb; auto.
  - ws. simpl orb.
    assert (Hle : fltb v (sw_fxb s) = false).
    { apply fleb_fltb_false. eapply fleb_trans; eauto. apply fltb_false_fleb; auto. eapply fleb_nan_r; eauto. }
    rewrite Hle. simpl. split; [|split; [|split]]; simpl; auto.
    + unfold shape; simpl; rewrite ?upd_length; do 8 (split; [auto using dims_upd, Forall_upd|]); auto.
    + eapply Good_keep; eauto.
    + eapply pbest_ext; eauto.
Qed.

(** ** The iteration contracts *)
Definition PInv (C : cfg) (R : rel) (n : nat) (pop : list vec) (fit : list num) (xb : vec) (fxb : num) (t : pso_state) (l : elog) : Prop :=
  0 < n /\ SwOk C R n (pt_pbf t) (Swarm pop fit xb fxb (pt_pb t) (pt_pbf t) (pt_v t)) l /\
  length (pt_w t) = c_dim C /\ length (pt_min t) = c_dim C /\ length (pt_max t) = c_dim C.

Notation base := (list vec -> list num -> vec -> num -> pso_state -> prog (list vec * list num * vec * num * pso_state)).
Definition base_ok (C : cfg) (R : rel) (P : vec -> Prop) (X : exn -> Prop) (n : nat) (b : base) : Prop :=
  forall pop fit xb fxb t l, PInv C R n pop fit xb fxb t l ->
  wp (KPX C P X) (b pop fit xb fxb t)
    (fun a l' => let '(pop', fit', xb', fxb', t') := a in
       PInv C R n pop' fit' xb' fxb' t' l' /\ no_worse (pt_pbf t') (pt_pbf t)) l.

Lemma SwOk_restart : forall C R n f0s s l, SwOk C R n f0s s l -> SwOk C R n (sw_pbf s) s l.
Proof.
  intros C R n f0s s l (S & HG & HB & HN). split; auto. split; auto. split; auto. apply no_worse_refl.
  destruct HB as [HB _]. eapply Seen2_not_nan; [|exact HB]. eapply Good_Cov with (fs := []); exact HG.
Qed.

Lemma w_moves : forall C (R : rel) (P : vec -> Prop) X F uv nested n w lo hi f0s s l,
  cfg_ok C -> rows_ok C R -> (forall x, inside C x -> P x) -> uv_ok C uv ->
  length w = c_dim C -> length lo = c_dim C -> length hi = c_dim C ->
  SwOk C R n f0s s l -> wp (KPX C P X) (pso_moves F uv nested w lo hi s) (SwOk C R n f0s) l.
Proof.
  intros. unfold pso_moves. assert (L : length (sw_pop s) = n) by apply H6. rewrite L.
  apply (wp_for_range _ _ n _ (fun _ => SwOk C R n f0s)); auto.
  intros i s' l' Hi HS. apply w_particle; auto.
Qed.

Lemma pso_iter_ok : forall C (R : rel) (P : vec -> Prop) X F uv n, cfg_ok C -> rows_ok C R -> (forall x, inside C x -> P x) -> uv_ok C uv ->
  base_ok C R P X n (pso_iter F uv).
Proof.
  intros C R P X F uv n HC HR HP Huv pop fit xb fxb t l (Hn & HS & Hw & Hlo & Hhi). unfold pso_iter. ws.
  eapply wp_conseq0. apply w_moves; eauto. intros s l' HS'. ws. split; [|apply HS'].
  split; auto. split; auto. simpl. apply SwOk_restart in HS'. destruct s; exact HS'.
Qed.

Lemma fold_vadd_len : forall F d rest x, length x = d -> dims d rest -> length (fold_left (vadd F) rest x) = d.
Proof. intros F d rest. induction rest; simpl; intros x Hx H; auto. inversion_clear H. apply IHrest; auto. dl. Qed.
Lemma centroid_len : forall F d rows, dims d rows -> length (centroid F d rows) = d.
Proof.
  intros F d rows H. unfold centroid. rewrite map_length. destruct rows as [|x rest]; simpl; [apply repeat_length|].
  inversion_clear H. apply fold_vadd_len; auto.
Qed.

(** the new best after one more evaluation *)
Lemma PInv_take : forall C R n pop fit xb fxb t l l' x v, rows_ok C R -> PInv C R n pop fit xb fxb t l -> Evald x v l l' -> length x = c_dim C ->
  fleb v fxb = true -> PInv C R n pop fit x v t l'.
Proof.
  intros C R n pop fit xb fxb t l l' x v HR (Hn & ((S1 & S2 & S3 & S4 & S5 & S6 & S7 & S8 & S9) & HG & HB & HN) & Hr) He Hx Hle.
  assert (S2' := rows_ext _ _ _ _ _ _ HR (Evald_ext _ _ _ _ He) S2).
  simpl in *. split; auto. split; auto. split; [|split; [|split]]; simpl; auto.
  - unfold shape; simpl; do 8 (split; [auto|]); auto.
  - eapply Good_take; eauto.
  - eapply pbest_lower; eauto. eapply pbest_ext; [eapply Evald_ext; eauto|auto].
Qed.
Lemma PInv_keep : forall C R n pop fit xb fxb t l l' x v, rows_ok C R -> PInv C R n pop fit xb fxb t l -> Evald x v l l' ->
  fleb v fxb = false -> PInv C R n pop fit xb fxb t l'.
Proof.
  intros C R n pop fit xb fxb t l l' x v HR (Hn & ((S1 & S2 & S3 & S4 & S5 & S6 & S7 & S8 & S9) & HG & HB & HN) & Hr) He Hle.
  assert (S2' := rows_ext _ _ _ _ _ _ HR (Evald_ext _ _ _ _ He) S2).
  simpl in *. split; auto. split; auto. split; [|split; [|split]]; simpl; auto.
  - unfold shape; simpl; do 8 (split; [auto|]); auto.
  - eapply Good_keep_le; eauto.
  - eapply pbest_ext; [eapply Evald_ext; eauto|auto].
Qed.

Lemma cpso_iter_ok : forall C (R : rel) (P : vec -> Prop) X F uv n, cfg_ok C -> rows_ok C R -> (forall x, inside C x -> P x) -> uv_ok C uv ->
  (forall l pop fit, length pop = n -> Forall2 (R l) pop fit -> P (centroid F (c_dim C) pop)) ->
  base_ok C R P X n (cpso_iter F C uv).
Proof.
  intros C R P X F uv n HC HR HP Huv Hc pop fit xb fxb t l HI. unfold cpso_iter. ws.
  eapply wp_conseq0. eapply pso_iter_ok; eauto. intros [[[[pop1 fit1] xb1] fxb1] t1] l1 [H1 H2]. cbv beta iota.
  assert (Hd : Forall2 (R l1) pop1 fit1) by apply H1. assert (Hl : length pop1 = n) by apply H1. assert (Hn : 0 < n) by apply H1.
  cbv zeta. apply wp_bind. apply w_eval. { eapply Hc; eauto. }
  intros v l2 He. w1. destruct (fleb v fxb1) eqn:Eb; split; auto.
  - eapply PInv_take; eauto. apply centroid_len. eapply rows_dims; eauto.
  - eapply PInv_keep; eauto.
Qed.

Lemma vmax_ret : forall x, x <> [] -> exists m, vmax x = Ret m.
Proof. intros [|a x] H; [congruence|]. simpl. eauto. Qed.
Lemma w_mean_direction : forall K F d v (Q : vec -> elog -> Prop) l, 0 < d -> dims d v -> (forall va, length va = d -> Q va l) ->
  wp K (mean_direction F d v) Q l.
Proof.
  intros K F d v Q l Hd Hv HQ. unfold mean_direction. cbv zeta. ws.
  assert (L := centroid_len F d v Hv).
  destruct (vmax_ret (map (fabs F) (centroid F d v))) as [m ->].
  { intros E. apply (f_equal (@length _)) in E. rewrite map_length, L in E. simpl in E. lia. }
  simpl. apply HQ. dl.
Qed.

Lemma mutated_iter_ok : forall C (R : rel) (P : vec -> Prop) X F k n b, cfg_ok C -> rows_ok C R -> 0 < c_dim C -> (forall x, inside C x -> P x) ->
  base_ok C R P X n b -> base_ok C R P X n (mutated_iter F C k b).
Proof.
  intros C R P X F k n b HC HR Hd HP Hb pop fit xb fxb t l HI. unfold mutated_iter. ws.
  eapply wp_conseq0. apply Hb; eauto. intros [[[[pop1 fit1] xb1] fxb1] t1] l1 [H1 H2]. cbv beta iota. ws.
  apply w_mean_direction; auto. apply H1. intros va Hva. ws. unfold mutations.
  eapply wp_conseq0.
  - apply (wp_for_range _ _ _ _ (fun _ b' l' => PInv C R n pop1 fit1 (fst b') (snd b') t1 l')); [exact H1|].
    intros i [x f] l' _ HI'. simpl fst in *. simpl snd in *. assert (Hx : length x = c_dim C) by apply HI'. ws.
    destruct (fleb _ f) eqn:Eb.
    + eapply PInv_take; eauto. dl.
    + eapply PInv_keep; eauto.
  - intros [x f] l' HI'. ws. auto.
Qed.

Definition par_ok (C : cfg) (p : pso_par) : Prop :=
  0 < ps_n p /\ rep_len (ps_rep p) /\ length (ps_w p) = c_dim C /\ length (ps_vmin p) = c_dim C /\ length (ps_vmax p) = c_dim C.

Lemma pso_init_ok : forall C (R : rel) (P : vec -> Prop) X p l, cfg_ok C -> rows_ok C R -> (forall x, inside C x -> P x) -> par_ok C p ->
  wp (KPX C P X) (pso_init C p) (fun a l' => let '(pop, fit, t) := a in
     Evals pop fit l l' /\ pt_pb t = pop /\ pt_pbf t = fit /\ length pop = ps_n p /\ Forall (inside C) pop /\
     dims (c_dim C) (pt_v t) /\ length (pt_v t) = ps_n p /\
     length (pt_w t) = c_dim C /\ length (pt_min t) = c_dim C /\ length (pt_max t) = c_dim C) l.
Proof.
  intros C R P X p l HC HR HP (Hn & Hr & L1 & L2 & L3). unfold pso_init. ws. apply w_default_numpy_init; auto.
  intros pop fit l' Hl Hi He. ws. simpl. split; auto. split; auto. split; auto. split; auto. split; auto.
  split; [apply dims_repeat, repeat_length|]. split; [apply repeat_length|]. auto.
Qed.

Lemma pso_init_c : forall C (R : rel) (P : vec -> Prop) X p it, cfg_ok C -> rows_ok C R -> (forall x, inside C x -> P x) -> par_ok C p ->
  init_c (KPX C P X) (Algo (list vec) pso_state (fun pop => pop) (pso_init C p) it) (PInv C R (ps_n p)).
Proof.
  intros C R P X p it HC HR HP Hp. unfold init_c. simpl. eapply wp_conseq0. apply (pso_init_ok C R); auto.
  intros [[pop fit] t] l (He & E1 & E2 & Hl & Hi & Hv & Hvl & Hw & Hmn & Hmx).
  assert (Hn : 0 < ps_n p) by apply Hp. assert (Hne : pop <> []) by (intros ->; simpl in Hl; lia).
  apply w_get_best0; auto. intros x f G Hx. split; auto. split; auto.
  rewrite E1, E2. split; [|split; [|split]]; simpl; auto.
  - unfold shape; simpl. assert (Hpd := dims_inside _ _ HC Hi). assert (Hel := Evals_len _ _ _ _ He).
    assert (Hlf : length fit = ps_n p) by congruence.
    assert (HRp : Forall2 (R l) pop fit).
    { assert (Hs := Evals_seen _ _ _ _ He). clear - Hs Hi HR. revert Hi. induction Hs; intros Hi; inversion_clear Hi; constructor; auto.
      apply HR; auto. }
    do 8 (split; [auto|]). eapply dims_In; eauto.
  - split; [eapply Evals_seen; eauto|]. apply Forall_forall. intros g Hg. destruct G as (_ & G2 & G3).
    apply In_nth_error in Hg. destruct Hg as [k Hk]. assert (Hs := Evals_seen _ _ _ _ He).
    assert (Hkl : k < length pop). { rewrite <- (Evals_len _ _ _ _ He). apply nth_error_Some. congruence. }
    destruct (nth_error pop k) as [y|] eqn:Ey; [|apply nth_error_None in Ey; lia].
    destruct (Forall2_nth _ _ _ _ _ _ _ _ Hs Ey Hk) as [->|Hin]; [apply fleb_PInf; auto|eauto].
  - apply no_worse_refl. eapply Evals_nan; eauto.
Qed.

Definition at_eval (C : cfg) (P : vec -> Prop) : rel := fun l x f => P x /\ length x = c_dim C /\ Seen l x f.
Definition at_len (C : cfg) : rel := fun _ x _ => length x = c_dim C.
Lemma eval_rows : forall C (P : vec -> Prop), cfg_ok C -> (forall x, inside C x -> P x) -> rows_ok C (at_eval C P).
Proof.
  intros C P HC HP. split; [|split].
  - intros l x f H1 H2. split; auto. split; auto. apply inside_len; auto.
  - intros l x f H. apply H.
  - intros l l' x f He (H1 & H2 & H3). split; auto. split; auto. eapply Seen_ext; eauto.
Qed.
Lemma length_rows : forall C, cfg_ok C -> rows_ok C (at_len C).
Proof. intros C HC. split; [|split]; unfold at_len; auto. intros l x f Hx _. apply inside_len; auto. Qed.

(** all variants built on the basic loop *)
Lemma pso_like_best : forall (R : rel) (P : vec -> Prop) E p (b : base), let C := e_cfg E in
  cfg_ok C -> no_nan (e_prob E) -> repair_ok E -> par_ok C p -> rows_ok C R -> (forall x, inside C x -> P x) ->
  base_ok C R P (fun _ => False) (ps_n p) b ->
  let A := Algo (list vec) pso_state (fun pop => pop) (pso_init C p) b in
  best_run_p P (fun _ => False) E A /\ sizes_ok (fun n => n = ps_n p) E A.
Proof.
  intros R P E p b C HC Hn Hr Hp HR HP Hb A.
  assert (H1 := pso_init_c C R P (fun _ => False) p b HC HR HP Hp).
  assert (H2 : iter_c (KPX C P (fun _ => False)) A (PInv C R (ps_n p))).
  { intros pop fit xb fxb t l HI. eapply wp_conseq0. apply Hb; eauto.
    intros [[[[pop1 fit1] xb1] fxb1] t1] l1 [G1 G2]. exact G1. }
  split.
  - apply (best_run_c P (fun _ => False) E A (PInv C R (ps_n p))); auto.
    intros pop fit xb fxb par l (_ & (S & G & _) & _). split; auto. apply S.
  - apply (sizes_c P (fun _ => False) _ E A (PInv C R (ps_n p))); auto.
    intros pop fit xb fxb par l (_ & (S & _) & _). apply S.
Qed.

(** ** Opposition learning *)
Lemma insert_by_In : forall x xs y, In y (insert_by x xs) <-> y = x \/ In y xs.
Proof.
  intros x xs y. induction xs as [|z xs IH]; simpl; [intuition auto|].
  destruct (key_le (snd x) (snd z)); simpl; [intuition auto|]. rewrite IH. intuition auto.
Qed.
Lemma sort_by_In : forall xs y, In y (sort_by xs) <-> In y xs.
Proof. induction xs as [|x xs IH]; intros y; simpl; [tauto|]. rewrite insert_by_In, IH. intuition auto. Qed.
Lemma insert_by_len : forall x xs, length (insert_by x xs) = S (length xs).
Proof. induction xs as [|z xs IH]; simpl; auto. destruct (key_le _ _); simpl; auto. Qed.
Lemma sort_by_len : forall xs, length (sort_by xs) = length xs.
Proof. induction xs; simpl; auto. rewrite insert_by_len; auto. Qed.
Lemma key_le_trans : forall a b c, key_le a b = true -> key_le b c = true -> key_le a c = true.
Proof. intros a b c. destruct a, b, c; simpl; intros; auto; try discriminate. apply Z.leb_le in H, H0. apply Z.leb_le. lia. Qed.
Lemma key_le_total : forall a b, key_le a b = false -> key_le b a = true.
Proof. intros a b. destruct a, b; simpl; intros; auto; try discriminate. apply Z.leb_gt in H. apply Z.leb_le. lia. Qed.
Lemma key_le_refl : forall a, key_le a a = true.
Proof. destruct a; simpl; auto. apply Z.leb_refl. Qed.
Lemma key_le_fleb : forall a b, b <> NaN -> key_le a b = true -> fleb a b = true.
Proof. intros a b Hb. destruct a, b; simpl; intros; auto; try discriminate; try congruence. Qed.
(** the first element of the sorted list is a least one *)
Lemma insert_by_hd : forall x xs, exists y r, insert_by x xs = y :: r /\ key_le (snd y) (snd x) = true /\
  (forall z, hd_error xs = Some z -> key_le (snd y) (snd z) = true).
Proof.
  intros x [|z xs]; simpl.
  - exists x, []. split; auto. split; [apply key_le_refl|]. discriminate.
  - destruct (key_le (snd x) (snd z)) eqn:E.
    + exists x, (z :: xs). split; auto. split; [apply key_le_refl|]. intros ? Q; injection Q as <-; auto.
    + exists z, (insert_by x xs). split; auto. split; [apply key_le_total; auto|]. intros ? Q; injection Q as <-; apply key_le_refl.
Qed.
Lemma sort_by_hd : forall xs y r, sort_by xs = y :: r -> forall z, In z xs -> key_le (snd y) (snd z) = true.
Proof.
  induction xs as [|x xs IH]; simpl; intros y r E z Hz; [destruct Hz|].
  destruct (insert_by_hd x (sort_by xs)) as (y' & r' & E' & H1 & H2). rewrite E in E'. injection E' as <- <-.
  destruct Hz as [<-|Hz]; auto. destruct (sort_by xs) as [|w q] eqn:Es.
  - apply (proj2 (sort_by_In xs z)) in Hz. rewrite Es in Hz. destruct Hz.
  - eapply key_le_trans; [apply H2; reflexivity|]. eapply IH; eauto.
Qed.

Lemma in_combine_seen : forall l xs fs p, Forall2 (Seen l) xs fs -> In p (combine xs fs) -> Seen l (fst p) (snd p).
Proof. intros l xs fs p F. induction F; simpl; intros []; subst; auto. Qed.
Lemma combine_split : forall A B (ps : list (A * B)), combine (map fst ps) (map snd ps) = ps.
Proof. induction ps as [|[a b] ps IH]; simpl; auto. rewrite IH; auto. Qed.
Lemma in_combine_fst : forall A B (xs : list A) (ys : list B) p, In p (combine xs ys) -> In (fst p) xs.
Proof. intros A B xs ys [a b] H. apply in_combine_l in H. auto. Qed.
Lemma In_snd_combine : forall A B (xs : list A) (ys : list B) y, length xs = length ys -> In y ys -> exists x, In (x, y) (combine xs ys).
Proof.
  induction xs as [|x xs IH]; destruct ys as [|z ys]; simpl; intros y Hl Hy; try discriminate; [destruct Hy|].
  destruct Hy as [->|Hy]; [eauto|]. destruct (IH ys y) as [a Ha]; eauto.
Qed.

Definition opp_ok (C : cfg) (P : vec -> Prop) (F : fops) : Prop :=
  forall x, P x -> length x = c_dim C -> P (vsub F (vadd F (c_lower C) (c_upper C)) x).

Lemma w_opposite : forall C (P : vec -> Prop) X F pop fit fb l (Q : list (vec * num) -> elog -> Prop), cfg_ok C -> opp_ok C P F ->
  pop <> [] -> Forall2 (at_eval C P l) pop fit -> Cov l fit fb ->
  (forall nb fnb r l', length ((nb, fnb) :: r) = length pop -> Forall (fun p => at_eval C P l' (fst p) (snd p)) ((nb, fnb) :: r) ->
     Forall (fun p => fleb fnb (snd p) = true) ((nb, fnb) :: r) -> Cov l' [fnb] fb -> ext l l' -> Q ((nb, fnb) :: r) l') ->
  wp (KPX C P X) (opposite_learning F C pop fit) Q l.
Proof.
  intros C P X F pop fit fb l Q HC HO Hne HF Hcov HQ. unfold opposite_learning. cbv zeta.
  set (s := map (fun e => vsub F (vadd F (c_lower C) (c_upper C)) e) pop).
  assert (Hs : Forall (fun x => P x /\ length x = c_dim C) s).
  { unfold s. clear - HF HO HC. induction HF as [|x f xs fs (H1 & H2 & _) HF IH]; simpl; constructor; auto.
    split; [apply HO; auto|]. dl. }
  assert (Hsn : s <> []) by (unfold s; destruct pop; simpl; congruence).
  apply wp_bind. replace (mapM eval s) with (eval_all s) by (destruct s; [congruence|reflexivity]).
  apply w_eval_all; auto. { eapply Forall_impl; [|exact Hs]. intros a Ha. apply Ha. }
  intros sf l' He. w1. assert (Hx := Evals_ext _ _ _ _ He). assert (Hsf := Evals_seen _ _ _ _ He).
  assert (Ls : length s = length pop) by apply map_length.
  assert (Lf : length fit = length pop) by (symmetry; eapply Forall2_len; eauto).
  assert (Lsf := Evals_len _ _ _ _ He).
  set (all := combine (pop ++ s) (fit ++ sf)).
  assert (Lall : length all = length pop + length s) by (unfold all; rewrite combine_length, !app_length; lia).
  assert (Hall : forall p, In p all -> at_eval C P l' (fst p) (snd p)).
  { assert (G : Forall2 (at_eval C P l') (pop ++ s) (fit ++ sf)).
    { apply Forall2_app.
      - clear - HF Hx. induction HF as [|x f xs fs (H1 & H2 & H3) HF IH]; constructor; auto. split; auto. split; auto.
        eapply Seen_ext; eauto.
      - clear - Hsf Hs. induction Hsf; inversion_clear Hs; constructor; auto. split; [tauto|split; [tauto|auto]]. }
    intros p Hp. unfold all in Hp. clear - G Hp. induction G; simpl in *; destruct Hp; subst; auto. }
  assert (Hcov' : Cov l' (fit ++ sf) fb).
  { eapply Cov_incl; [|eapply Cov_Evals; eauto]. intros a Ha. apply in_app_or in Ha. apply in_or_app. tauto. }
  assert (Hnn : forall p, In p all -> snd p <> NaN).
  { intros p Hp. eapply Seen_not_nan; [exact Hcov'|]. apply (Hall p Hp). }
  destruct (sort_by all) as [|[nb fnb] r] eqn:Es.
  { apply (f_equal (@length _)) in Es. rewrite sort_by_len, Lall in Es. destruct pop; simpl in *; [congruence|lia]. }
  destruct (length pop) as [|m] eqn:Em; [destruct pop; simpl in *; [congruence|lia]|]. simpl firstn.
  assert (Hin : forall p, In p ((nb, fnb) :: firstn m r) -> In p all).
  { intros p Hp. apply (proj1 (sort_by_In all p)). rewrite Es. destruct Hp as [<-|Hp]; simpl; auto. right. eapply firstn_In; eauto. }
  apply HQ; auto.
  - simpl. rewrite firstn_length. apply (f_equal (@length _)) in Es. rewrite sort_by_len, Lall in Es. simpl in Es. lia.
  - apply Forall_forall. intros p Hp. apply Hall; auto.
  - apply Forall_forall. intros p Hp. apply key_le_fleb; auto. apply (sort_by_hd all _ _ Es p); auto.
  - intros y u Hy. destruct (Hcov' y u Hy) as [Hl|(g & G1 & G2)]; auto. right. exists fnb. simpl. split; auto.
    destruct (In_snd_combine _ _ (pop ++ s) (fit ++ sf) g) as [x Hxg]; auto. { rewrite !app_length; lia. }
    eapply fleb_trans; [|exact G2]. change fnb with (snd (nb, fnb)). change g with (snd (x, g)). apply key_le_fleb; auto.
    eapply sort_by_hd; eauto.
Qed.

Lemma improve_len : forall pb pbf new n, length pb = n -> length pbf = n -> length new = n -> length (improve pb pbf new) = n.
Proof.
  induction pb; intros pbf new n H1 H2 H3; destruct pbf, new as [|[? ?] ?], n; simpl in *; auto; try discriminate.
Qed.
Lemma improve_ok : forall l pb pbf new fb, pbest l pb pbf fb -> length new = length pb ->
  Forall (fun p => Seen l (fst p) (snd p)) new -> Forall (fun p => fleb fb (snd p) = true) new ->
  pbest l (map fst (improve pb pbf new)) (map snd (improve pb pbf new)) fb /\ no_worse (map snd (improve pb pbf new)) pbf.
Proof.
  intros l pb pbf new fb [H1 H2]. revert new. induction H1 as [|x f pb pbf Hx HF IH]; intros new Hl Hs Hb; simpl.
  - split; [split; constructor|constructor].
  - destruct new as [|[y g] new]; [discriminate|]. inversion_clear H2. inversion_clear Hs. inversion_clear Hb. simpl in *.
    destruct (IH H0 new) as [[I1 I2] I3]; auto. destruct (fltb g f) eqn:E; simpl.
    + split; [split; constructor; auto|]. constructor; auto. apply fltb_fleb; auto.
    + split; [split; constructor; auto|]. constructor; auto. apply fleb_refl. eapply fleb_nan_r; eauto.
Qed.
Lemma improve_dims : forall d pb pbf new, dims d pb -> Forall (fun p => length (fst p) = d) new -> dims d (map fst (improve pb pbf new)).
Proof.
  intros d. induction pb; destruct pbf, new as [|[? ?] ?]; simpl; intros H1 H2; try constructor; inversion_clear H1; inversion_clear H2; simpl in *.
  - destruct (fltb _ _); auto.
  - apply IHpb; auto.
Qed.
Lemma pairs_rows : forall C P l (ps : list (vec * num)), Forall (fun p => at_eval C P l (fst p) (snd p)) ps ->
  Forall2 (at_eval C P l) (map fst ps) (map snd ps).
Proof. induction 1; simpl; constructor; auto. Qed.
Lemma rows_fold_len : forall f d rows, rows <> [] -> dims d rows -> exists x, rows_fold f rows = Ret x /\ length x = d.
Proof.
  intros f d [|x r] Hne H; [congruence|]. clear Hne. inversion_clear H. simpl. eexists. split; [reflexivity|].
  revert x H0. induction r as [|y r IH]; simpl; intros x Hx; auto. inversion_clear H1. apply IH; auto. apply map2_length; auto.
Qed.

Definition ov_ok (C : cfg) (p : ov_par) : Prop := par_ok C (ov_pso p).
Lemma ovcpso_ok : forall C (P : vec -> Prop) X F p, cfg_ok C -> (forall x, inside C x -> P x) -> opp_ok C P F -> ov_ok C p ->
  init_c (KPX C P X) (ovcpso F C p) (PInv C (at_eval C P) (ps_n (ov_pso p))) /\
  iter_c (KPX C P X) (ovcpso F C p) (PInv C (at_eval C P) (ps_n (ov_pso p))).
Proof.
  intros C P X F p HC HP HO Hp. assert (HR := eval_rows C P HC HP). assert (Hn : 0 < ps_n (ov_pso p)) by apply Hp. split.
  - unfold init_c. simpl. unfold ovcpso_init. ws. eapply wp_conseq0. eapply (pso_init_ok C (at_eval C P)); eauto.
    intros [[pop fit] t] l (He & E1 & E2 & Hl & Hi & Hv & Hvl & Hw & Hmn & Hmx). ws.
    assert (Hseen := Evals_seen _ _ _ _ He). assert (Hlf := Evals_len _ _ _ _ He).
    assert (Hrow : Forall2 (at_eval C P l) pop fit).
    { clear - Hseen Hi HR. revert Hi. induction Hseen; intros Hi; inversion_clear Hi; constructor; auto. apply HR; auto. }
    assert (Hcov : Cov l fit PInf).
    { assert (G : Cov l (fit ++ []) PInf) by (eapply Cov_Evals; eauto; intros y u []). rewrite app_nil_r in G. auto. }
    assert (Hne : pop <> []) by (intros ->; simpl in Hl; lia).
    eapply (w_opposite C P X F pop fit PInf); eauto. intros nb fnb r l1 Hlen Hat Hmin Hcv Hx1. set (new := (nb, fnb) :: r) in *.
    assert (Hfn : fnb <> NaN). { inversion_clear Hmin. simpl in H. eapply fleb_nan_l; eauto. }
    assert (Hsn : Forall (fun p => Seen l1 (fst p) (snd p)) new) by (eapply Forall_impl; [|exact Hat]; intros a Ha; apply Ha).
    assert (Hpb : pbest l1 pop fit fnb).
    { split; [eapply Seen2_ext; eauto|]. apply Forall_forall. intros g Hg.
      apply In_nth_error in Hg. destruct Hg as [k Hk]. destruct (nth_error pop k) as [y|] eqn:Ey.
      2:{ apply nth_error_None in Ey. assert (k < length fit) by (apply nth_error_Some; congruence). lia. }
      destruct (Forall2_nth _ _ _ _ _ _ _ _ Hseen Ey Hk) as [->|Hin]; [apply fleb_PInf; auto|].
      destruct (Hcv y g) as [Hg|(g' & [<-|[]] & Hg)]; [eapply ext_In; eauto| |auto].
      apply PInf_fleb in Hg. subst. apply fleb_PInf; auto. }
    assert (Hln : length new = ps_n (ov_pso p)) by congruence.
    ws. apply w_get_best0_cov.
    { simpl. congruence. }
    { apply pairs_rows in Hat. clear - Hat. induction Hat; constructor; auto. apply H. }
    { intros y u Hy. destruct (Hcv y u Hy) as [Hg|(g & [<-|[]] & Hg)]; auto. right. exists fnb. simpl; auto. }
    intros x f G Hx. cbn [fst snd].
    assert (Hfle : fleb f fnb = true).
    { destruct G as (_ & G2 & G3). inversion_clear Hsn. simpl in H. destruct H as [->|Hin]; [apply fleb_PInf; auto|eauto]. }
    destruct (improve_ok l1 pop fit new f) as [I1 I2]; auto.
    { eapply pbest_lower; eauto. }
    { eapply Forall_impl; [|exact Hmin]. intros a Ha. simpl in *. eapply fleb_trans; eauto. }
    split; auto. rewrite E1, E2. simpl pt_w. simpl pt_min. simpl pt_max. simpl pt_pbf. simpl pt_v.
    assert (Hil : length (improve pop fit new) = ps_n (ov_pso p)) by (apply improve_len; lia).
    split; [|split; [auto|split; dl]].
    split; [|split; [|split]]; cbn [sw_xb sw_fxb sw_pb sw_pbf pt_pb pt_pbf pt_v].
    + unfold shape; cbn [sw_pop sw_fit sw_pb sw_pbf sw_v sw_xb]. rewrite !map_length. do 4 (split; [auto using pairs_rows|]).
      split; [|do 3 (split; [auto|])].
      * apply improve_dims. apply dims_inside; auto. eapply Forall_impl; [|exact Hat]. intros a Ha. apply Ha.
      * apply pairs_rows in Hat. eapply dims_In; [|exact Hx]. eapply rows_dims; eauto.
    + auto.
    + auto.
    + apply no_worse_refl. destruct I1 as [I1 _]. eapply Seen2_not_nan; [|exact I1]. apply (Good_Cov _ _ _ [] G).
  - intros pop fit xb fxb t l (_ & ((S1 & S2 & S3 & S4 & S5 & S6 & S7 & S8 & S9) & HG & HB & HN) & Hw & Hmn & Hmx).
    simpl in S1, S2, S3, S4, S5, S6, S7, S8, S9, HG, HB, HN. change (a_iter (ovcpso F C p)) with (ovcpso_iter F C p). unfold ovcpso_iter. ws.
    destruct (fltb _ (ov_p0 p)).
    + ws. assert (Hne : pop <> []) by (intros ->; simpl in S1; lia).
      eapply (w_opposite C P X F pop fit fxb); eauto. { eapply Good_Cov; eauto. }
      intros nb fnb r' l1 Hlen Hat Hmin Hcv Hx1. set (new := (nb, fnb) :: r') in *. cbv zeta.
      assert (Hsn : Forall (fun p => Seen l1 (fst p) (snd p)) new) by (eapply Forall_impl; [|exact Hat]; intros a Ha; apply Ha).
      assert (Hfn : fnb <> NaN). { pose proof (Forall_inv Hmin) as Hm0. simpl in Hm0. exact (fleb_nan_l _ _ Hm0). }
      assert (Hseen : Seen l1 nb fnb) by (inversion_clear Hsn; auto).
      assert (Hgn : fxb <> NaN) by apply HG.
      assert (Hfin : forall x f, Good l1 x f -> length x = c_dim C -> fleb f fxb = true -> fleb f fnb = true ->
        PInv C (at_eval C P) (ps_n (ov_pso p)) (map fst new) (map snd new) x f
          (PState (map fst (improve (pt_pb t) (pt_pbf t) new)) (map snd (improve (pt_pb t) (pt_pbf t) new)) (pt_w t) (pt_min t) (pt_max t) (pt_v t)) l1).
      { intros x f G Hx L1 L2. destruct (improve_ok l1 (pt_pb t) (pt_pbf t) new f) as [I1 I2]; auto.
        { eapply pbest_lower; [eapply pbest_ext; [exact Hx1|exact HB]|auto]. } { lia. }
        { eapply Forall_impl; [|exact Hmin]. intros a Ha. simpl in *. eapply fleb_trans; eauto. }
        assert (Hil : length (improve (pt_pb t) (pt_pbf t) new) = ps_n (ov_pso p)) by (apply improve_len; lia).
        split; auto. split; auto. split; [|split; [|split]]; cbn [sw_xb sw_fxb sw_pb sw_pbf pt_pb pt_pbf pt_v]; auto.
        - unfold shape; cbn [sw_pop sw_fit sw_pb sw_pbf sw_v sw_xb pt_pb pt_pbf pt_v]. rewrite !map_length.
          assert (length new = ps_n (ov_pso p)) by lia. do 4 (split; [auto using pairs_rows|]). split; [|auto].
          apply improve_dims; auto. eapply Forall_impl; [|exact Hat]. intros a Ha. apply Ha.
        - apply no_worse_refl. destruct I1 as [I1 _]. eapply Seen2_not_nan; [|exact I1]. apply (Good_Cov _ _ _ [] G). }
      destruct (fltb fnb fxb) eqn:Eb.
      * w1. apply Hfin; auto.
        -- split; auto. split; auto. intros y u Hy. destruct (Hcv y u Hy) as [Hg|(g & [<-|[]] & Hg)]; auto.
           eapply fleb_trans; [|exact Hg]. apply fltb_fleb; auto.
        -- pose proof (Forall_inv Hat) as Hat0. apply Hat0.
        -- apply fltb_fleb; auto.
        -- apply fleb_refl; auto.
      * w1. assert (Hle := fltb_false_fleb _ _ Hfn Hgn Eb). apply Hfin; auto.
        -- split; [eapply Seen_ext; eauto; apply HG|]. split; auto. intros y u Hy.
           destruct (Hcv y u Hy) as [Hg|(g & [<-|[]] & Hg)]; auto. eapply fleb_trans; eauto.
        -- apply fleb_refl; auto.
    + ws. cbv zeta. ws. eapply wp_conseq0.
      * apply (w_moves C (at_eval C P) P X F _ true (ps_n (ov_pso p)) _ _ _ (pt_pbf t)); auto.
        { apply update_velocity_ok. apply Hp. } { dl. }
        split; auto. unfold shape; simpl; do 8 (split; [auto|]); auto.
      * intros s l1 HS. apply SwOk_restart in HS.
        assert (Hd : dims (c_dim C) (sw_pop s)) by (eapply rows_dims; [exact HR|apply HS]).
        assert (Hne : sw_pop s <> []). { intros E. destruct HS as ((L & _) & _). rewrite E in L. simpl in L. lia. }
        destruct (rows_fold_len npmin2 _ _ Hne Hd) as (mn & Em & Lm). destruct (rows_fold_len npmax2 _ _ Hne Hd) as (mx & Ex & Lx).
        ws. rewrite Em. simpl. rewrite Ex. simpl. split; auto. split; [destruct s; exact HS|]. simpl. split; [auto|]. split; dl.
Qed.

(** ** Comprehensive learning *)
Lemma feasible_inside : forall C x, is_feasible C x = Some true -> inside C x.
Proof.
  intros C x. unfold is_feasible, inside. generalize (c_lower C), (c_upper C).
  induction x as [|a x IH]; intros [|l lo] [|u hi] H; simpl in *; try discriminate; [constructor|].
  destruct (is_feasible_l x lo hi) as [b|] eqn:E; [|discriminate]. injection H as H.
  apply andb_true_iff in H. destruct H as [H ->]. apply andb_true_iff in H. destruct H as [H1 H2].
  constructor; [right; auto|]. apply IH; auto.
Qed.
Lemma feasible_some : forall C x, cfg_ok C -> length x = c_dim C -> exists b, is_feasible C x = Some b.
Proof.
  intros C x (H1 & H2 & _) Hx. rewrite <- Hx in H1, H2. clear Hx. unfold is_feasible. revert H1 H2. generalize (c_lower C), (c_upper C).
  induction x as [|a x IH]; intros [|l lo] [|u hi] H1 H2; simpl in *; try discriminate; eauto.
  destruct (IH lo hi) as [b ->]; eauto.
Qed.

(** flooring a scaled draw gives an index (B64Int.v: so it is in binary64) *)
Definition idx_ok (F : fops) (n : nat) : Prop :=
  forall r, in_unit r -> (0 <= fint F (fmul F r (fnat F n)) < Z.of_nat n)%Z /\ (0 <= fint F (fmul F (fnat F n) r) < Z.of_nat n)%Z.
Lemma w_rand_index : forall K F n (Q : nat -> elog -> Prop) l, (forall i, (idx_ok F n -> i < n) -> Q i l) -> wp K (rand_index F n) Q l.
Proof.
  intros K F n Q l H. unfold rand_index. apply wp_bind. apply w_random. intros r H1 H2. apply w_done. apply H. intros Hi.
  destruct (Hi r (conj H1 H2)) as [H3 _]. lia.
Qed.
(** an index that is in range or whose error is allowed *)
Lemma w_nthP_i : forall A C (P : vec -> Prop) (X : exn -> Prop) (xs : list A) i (Q : A -> elog -> Prop) l, i < length xs \/ X EIndex ->
  (forall a, nth_error xs i = Some a -> Q a l) -> wp (KPX C P X) (nthP xs i) Q l.
Proof. intros A C P X xs i Q l [Hi|HX] H; [apply w_nthP; auto|apply w_nthP_x; simpl; auto]. Qed.
Lemma w_exemplar : forall C (P : vec -> Prop) (X : exn -> Prop) F i pc pb pbf (Q : vec -> elog -> Prop) l, idx_ok F (length pb) \/ X EIndex ->
  i < length pb -> dims (c_dim C) pb -> length pbf = length pb -> (forall v, length v = c_dim C -> Q v l) ->
  wp (KPX C P X) (cl_exemplar F i pc pb pbf) Q l.
Proof.
  intros C P X F i pc pb pbf Q l HX Hi Hpb Hpbf HQ. unfold cl_exemplar. ws.
  assert (L := dims_nth _ _ _ _ Hpb H). apply w_mapM_len.
  - intros j R Hj HR. apply in_seq in Hj. ws. destruct (fltb pc r).
    + apply w_nthP; auto; lia.
    + ws. apply w_rand_index. intros r1 I1. ws. apply w_rand_index. intros r2 I2. ws.
      apply w_nthP_i; [rewrite Hpbf; tauto|]. intros f1 _. ws. apply w_nthP_i; [rewrite Hpbf; tauto|]. intros f2 _. ws.
      apply w_nthP_i; [destruct (fltb f1 f2); tauto|]. intros row Hrow. assert (length row = c_dim C) by dnth. apply w_nthP; auto. lia.
  - intros v Hv. apply HQ. rewrite Hv. dl.
Qed.

Definition CLOk (C : cfg) (n : nat) (f0s : list num) (sf : swarm * list nat) (l : elog) : Prop :=
  SwOk C (at_len C) n f0s (fst sf) l /\ length (snd sf) = n.

Lemma w_cl_particle : forall C (P : vec -> Prop) (X : exn -> Prop) F p n w pc lo hi f0s sf i l,
  cfg_ok C -> (forall x, inside C x -> P x) -> idx_ok F n \/ X EIndex -> rep_len (ps_rep (cl_pso p)) ->
  length pc = n -> length lo = c_dim C -> length hi = c_dim C -> i < n ->
  CLOk C n f0s sf l -> wp (KPX C P X) (clpso_particle F C p w pc lo hi sf i) (CLOk C n f0s) l.
Proof.
  intros C P X F p n w pc lo hi f0s [s flag] i l HC HP HX Hrep Hpc Hlo Hhi Hi [HS Hfl]. simpl in HS, Hfl.
  assert (HR := length_rows C HC). unfold clpso_particle. ws.
  assert (Second : forall s1 flag1 l1, SwOk C (at_len C) n f0s s1 l1 -> length flag1 = n ->
    wp (KPX C P X)
     (let* pci := nthP pc i
      in let* ex := cl_exemplar F i pci (sw_pb s1) (sw_pbf s1)
         in let* vi := nthP (sw_v s1) i
            in let* xi := nthP (sw_pop s1) i
               in let* v' := update_velocity_cl F C p vi xi ex w lo hi
                  in let* vs := setP (sw_v s1) i v'
                     in let x' := vadd F xi v' in
                        let* pop := setP (sw_pop s1) i x'
                        in let* ok := feasible C x'
                           in if ok : bool
                              then
                               let* f := eval x'
                               in let* fit := setP (sw_fit s1) i f
                                  in let* pf := nthP (sw_pbf s1) i
                                     in if fltb f pf
                                        then
                                         let* pb := setP (sw_pb s1) i x'
                                         in let* pbf := setP (sw_pbf s1) i f
                                            in let take := fltb f (sw_fxb s1) in
                                               Done (Swarm pop fit (if take then x' else sw_xb s1)
                                                  (if take then f else sw_fxb s1) pb pbf vs, flag1)
                                        else Done (Swarm pop fit (sw_xb s1) (sw_fxb s1) (sw_pb s1) (sw_pbf s1) vs, flag1)
                              else Done (Swarm pop (sw_fit s1) (sw_xb s1) (sw_fxb s1) (sw_pb s1) (sw_pbf s1) vs, flag1))
     (CLOk C n f0s) l1).
  { clear HS Hfl H a flag s. intros s flag l1 HS Hfl. assert (HS0 := HS).
    destruct HS as ((S1 & S2 & S3 & S4 & S5 & S6 & S7 & S8 & S9) & HG & HB & HN).
    assert (S2' := rows_dims _ _ _ _ _ HR S2). ws. assert (Lpb : length (sw_pb s) = n) by assumption. apply w_exemplar; auto; try lia; [rewrite Lpb; auto|]. intros ex Hex. ws.
    unfold update_velocity_cl. ws.
    set (v' := ps_rep (cl_pso p) _ lo hi). assert (Hv' : length v' = c_dim C) by (apply Hrep; dl). cbv zeta. ws.
    set (x' := vadd F _ v'). assert (Hx' : length x' = c_dim C) by (unfold x'; dl).
    unfold feasible. destruct (feasible_some C x' HC Hx') as [b Eb]. rewrite Eb. ws.
    assert (Hmoved : forall g l2, ext l1 l2 -> Forall2 (at_len C l2) (upd (sw_pop s) i x') (upd (sw_fit s) i g)).
    { intros g l2 He. apply Forall2_upd; [eapply rows_ext; eauto|exact Hx']. }
    destruct b.
    - apply feasible_inside in Eb. ws. assert (He := Evald_ext _ _ _ _ H3). assert (Hvn := Evald_nan _ _ _ _ H3).
      assert (Hpf : fleb (sw_fxb s) a2 = true) by (destruct HB as [_ HB]; exact (Forall_nth _ _ _ _ _ HB H4)).
      assert (Hgn : sw_fxb s <> NaN) by apply HG.
      destruct (fltb v0 a2) eqn:Et.
      + ws. split; [|simpl; auto]. simpl fst. split; [|split; [|split]]; simpl.
        * unfold shape; simpl; rewrite ?upd_length; do 8 (split; [auto using dims_upd|]); destruct (fltb v0 (sw_fxb s)); auto.
        * destruct (fltb v0 (sw_fxb s)) eqn:Eg; [eapply Good_take; eauto; apply fltb_fleb; auto|eapply Good_keep; eauto].
        * destruct (fltb v0 (sw_fxb s)) eqn:Eg.
          -- apply pbest_upd; [|eapply Evald_seen; eauto|apply fleb_refl; auto].
             eapply pbest_lower; [eapply pbest_ext; eauto|]. apply fltb_fleb; auto.
          -- apply pbest_upd; [eapply pbest_ext; eauto|eapply Evald_seen; eauto|apply fltb_false_fleb; auto].
        * eapply no_worse_upd; eauto. apply fltb_fleb; auto.
      + ws. split; [|simpl; auto]. simpl fst.
        assert (Hle : fltb v0 (sw_fxb s) = false).
        { apply fleb_fltb_false. eapply fleb_trans; eauto. apply fltb_false_fleb; auto. eapply fleb_nan_r; eauto. }
        split; [|split; [|split]]; simpl; auto.
        * unfold shape; simpl; rewrite ?upd_length; do 8 (split; [auto using dims_upd|]); auto.
        * eapply Good_keep; eauto.
        * eapply pbest_ext; eauto.
    - ws. split; [|simpl; auto]. simpl fst. split; [|split; [|split]]; simpl; auto.
      assert (Hm : Forall2 (at_len C l1) (upd (sw_pop s) i x') (sw_fit s)).
      { clear - S2 Hx'. clearbody x'. revert i. induction S2; intros [|i]; simpl; constructor; auto. }
      unfold shape; simpl; rewrite ?upd_length; do 8 (split; [auto using dims_upd|]); auto. }
  destruct (cl_m p <=? a).
  - ws. eapply wp_conseq0.
    + apply (w_particle C (at_len C) P X F _ true n _ lo hi f0s); auto. apply update_velocity_ok; auto. dl.
    + intros s1 l1 HS1. apply wp_bind. apply w_setP; [lia|]. apply w_done. apply Second; auto. rewrite upd_length; auto.
  - apply w_done. apply Second; auto.
Qed.

Definition CLInv (C : cfg) (n : nat) (pop : list vec) (fit : list num) (xb : vec) (fxb : num) (t : cl_state) (l : elog) : Prop :=
  PInv C (at_len C) n pop fit xb fxb (ct_pso t) l /\ length (ct_flag t) = n /\ length (ct_pc t) = n.

Lemma clpso_ok : forall C (P : vec -> Prop) (X : exn -> Prop) F p, cfg_ok C -> (forall x, inside C x -> P x) -> idx_ok F (ps_n (cl_pso p)) \/ X EIndex ->
  par_ok C (cl_pso p) -> 1 < ps_n (cl_pso p) ->
  init_c (KPX C P X) (clpso F C p) (CLInv C (ps_n (cl_pso p))) /\ iter_c (KPX C P X) (clpso F C p) (CLInv C (ps_n (cl_pso p))).
Proof.
  intros C P X F p HC HP HX Hp Hn1. assert (HR := length_rows C HC). split.
  - unfold init_c. simpl. unfold clpso_init. ws.
    assert (G := pso_init_c C (at_len C) P X (cl_pso p) (fun _ _ _ _ _ => Fail EFuel) HC HR HP Hp).
    unfold init_c in G. simpl in G. eapply wp_conseq0; [exact G|]. intros [[pop fit] t] l H. ws. cbv zeta.
    destruct (ps_n (cl_pso p) =? 1) eqn:E; [apply Nat.eqb_eq in E; lia|]. w1. eapply wp_conseq0; [exact H|].
    intros b l' HI. split; auto. split; simpl; dl.
  - intros pop fit xb fxb t l (HI & Hf & Hpc). assert (HI0 := HI). destruct HI as (Hn & HS & Hw & Hmn & Hmx).
    change (a_iter (clpso F C p)) with (clpso_iter F C p). unfold clpso_iter. ws. cbv zeta. ws.
    assert (Hl : length pop = ps_n (cl_pso p)) by apply HS. rewrite Hl. eapply wp_conseq0.
    + apply (wp_for_range _ _ _ _ (fun _ => CLOk C (ps_n (cl_pso p)) (pt_pbf (ct_pso t)))).
      * split; auto.
      * intros i sf l' Hi HCL. apply w_cl_particle; auto. apply Hp.
    + intros [s flag] l' [HS' Hf']. ws. split; [|simpl in *; auto]. simpl.
      split; auto. split; [|simpl; auto]. simpl. apply SwOk_restart in HS'. destruct s; exact HS'.
Qed.
