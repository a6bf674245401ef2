(** Proofs about AlgMod.v. *)
From Coq Require Import ZArith Lia Bool List Permutation.
From Verif Require Import Num Task TaskSpec TaskProofs TaskProofs2 Prog Wp GetBest Run RunSpec RunProofs RunProofs2
  AlgoLib Fops AlgTac StepSpec StepLib Indiv IndivLib AlgDE DESpec AlgDEProofs AlgPSO AlgPSOProofs SortLib AlgBasic2 AlgBasic2Proofs AlgMod.
Import ListNotations.

Lemma fst_pair_map : forall A B (g : B) (xs : list A), map fst (map (fun a => (a, g)) xs) = xs.
Proof. intros. rewrite map_map. cbn [fst]. apply map_id. Qed.
Lemma snd_pair_map : forall A B (g : B) (xs : list A), Forall (eq g) (map snd (map (fun a => (a, g)) xs)).
Proof. intros. apply Forall_forall. intros b H. rewrite map_map in H. apply in_map_iff in H. destruct H as (a & <- & _). reflexivity. Qed.

(** ** Individuals that carry something of their own *)
Section Deco.
Variables (T : Type) (C : cfg) (n : nat) (W : T -> Prop).
Record Deco (pop : list (ind * T)) (fit : list num) (xb : vec) (fxb : num) (l : elog) : Prop := {
  dc_n : length pop = n; dc_ok : Forall (IOk C l) (map fst pop); dc_fit : fit = map snd (map fst pop);
  dc_xb : length xb = c_dim C; dc_good : Good l xb fxb; dc_w : Forall W (map snd pop)
}.
Definition d_xs (pop : list (ind * T)) : list vec := map fst (map fst pop).
Lemma deco_init : forall X (U : Type) (g : T) (u : U) (it : list (ind * T) -> list num -> vec -> num -> U -> prog (list (ind * T) * list num * vec * num * U))
  (HC : cfg_ok C) (Hn : 0 < n) (Hg : W g),
  init_c (KBX C X) (Algo (list (ind * T)) U d_xs (let* (pop, fit) := default_individual_init C n in Done (map (fun i => (i, g)) pop, fit, u)) it)
    (fun pop fit xb fxb _ l => Deco pop fit xb fxb l).
Proof.
  intros X U g u it HC Hn Hg. unfold init_c. cbn [a_init a_coords a_pop a_par]. apply wp_bind. apply w_default_individual_init; auto. intros pop l Lp Ho Hc. apply w_done.
  unfold d_xs. rewrite fst_pair_map. apply (w_get_best0_i _ C); auto; [nonil|]. intros x f G Hx. cbn [fst snd]. constructor; auto.
  - rewrite map_length; auto.
  - rewrite fst_pair_map; auto.
  - rewrite fst_pair_map; auto.
  - apply inside_len; auto.
  - eapply Forall_impl; [|apply (snd_pair_map _ _ g pop)]. intros a <-. exact Hg.
Qed.
End Deco.

(** ** SelfAdaptiveDifferentialEvolution *)
Lemma j_select_eq : forall K pop new (Q : list jind -> elog -> Prop) l, length new = length pop ->
  Q (map2 (fun e o : jind => if fltb (snd (fst e)) (snd (fst o)) then e else o) new pop) l -> wp K (j_select pop new) Q l.
Proof.
  intros K pop new. revert pop. induction new as [|e new IH]; intros [|o pop] Q l Hl HQ; cbn [j_select map2 length] in *; try discriminate; [exact HQ|].
  apply wp_bind. apply IH; [lia|]. apply w_done. exact HQ.
Qed.
Definition j_choose (e o : jind) : jind := if fltb (snd (fst e)) (snd (fst o)) then e else o.
Lemma j_choose_fst : forall new pop, map fst (map2 j_choose new pop) = map2 de_choose (map fst new) (map fst pop).
Proof.
  induction new as [|e new IH]; intros [|o pop]; cbn [map2 map]; auto. rewrite IH. f_equal. unfold j_choose, de_choose. destruct (fltb _ _); reflexivity.
Qed.
Lemma j_choose_snd : forall (W : num * num -> Prop) new pop, Forall W (map snd new) -> Forall W (map snd pop) -> Forall W (map snd (map2 j_choose new pop)).
Proof.
  intros W. induction new as [|e new IH]; intros [|o pop] H1 H2; cbn [map2 map] in *; auto. inversion H1; inversion H2; subst. constructor; auto.
  unfold j_choose. destruct (fltb _ _); auto.
Qed.
Lemma map2_choose_down : forall new pop, length new = length pop -> Forall (fun f => f <> NaN) (map snd new) -> Forall (fun f => f <> NaN) (map snd pop) ->
  down (map snd (map2 de_choose new pop)) (map snd pop).
Proof.
  induction new as [|e new IH]; intros [|o pop] Hl H1 H2; cbn [map2 map length] in *; try discriminate; [constructor|]. inversion H1; inversion H2; subst. constructor.
  - apply de_choose_le; auto.
  - apply IH; auto.
Qed.

Definition j_evolve_ok (C : cfg) X (W : num * num -> Prop) (evolve : list jind -> vec -> prog (list jind)) : Prop :=
  forall pop xb fb l, 0 < length pop -> Forall (IOk C l) (map fst pop) -> Forall W (map snd pop) -> length xb = c_dim C -> Cov l [] fb ->
  wp (KBX C X) (evolve pop xb) (fun new l' => IAcc C l fb (map fst new) l' /\ length new = length pop /\ Forall W (map snd new)) l.

Lemma jde_iter_r : forall C X n W evolve, cfg_ok C -> 0 < n -> j_evolve_ok C X W evolve ->
  forall (init : prog (list jind * list num * unit)),
  iter_r (KBX C X) (Algo (list jind) unit j_xs init (jde_iteration evolve)) (fun pop fit xb fxb _ l => Deco (num * num) C n W pop fit xb fxb l) no_worse_fit.
Proof.
  intros C X n W evolve HC Hn He init pop fit xb fxb u l [D1 D2 D3 D4 D5 D6]. cbn [a_iter]. unfold jde_iteration.
  apply wp_bind. eapply wp_conseq0; [apply (He pop xb fxb l); auto; [lia|apply LB_Cov; apply D5]|]. intros new l' ((A1 & A2 & A3) & A4 & A5).
  assert (D2' : Forall (IOk C l') (map fst pop)) by (eapply IOks_ext; eauto).
  apply wp_bind. apply j_select_eq; [auto|]. fold j_choose. set (arr := map2 j_choose new pop). unfold j_xs, j_fits.
  assert (La : length arr = n) by (unfold arr; rewrite (map2_length _ _ _ _ _ _ n); auto; lia).
  assert (Lne : map fst arr <> []) by (destruct arr; simpl in *; [lia|congruence]).
  assert (Hi : Forall (IOk C l') (map fst arr)) by (unfold arr; rewrite j_choose_fst; apply map2_choose_ok; auto).
  assert (Hc : Cov l' (map snd (map fst arr)) fxb).
  { unfold arr. rewrite j_choose_fst. eapply map2_choose_cov; eauto. rewrite !map_length; auto. }
  apply wp_bind. apply (w_get_best_i _ C); auto; [eapply Seen_ext; eauto; apply D5|apply D5|]. intros x1 f1 G1 I1.
  apply wp_bind. apply (w_get_best_i _ C); auto; [apply G1|apply G1|apply LB_Cov; apply G1|]. intros x2 f2 G2 I2. apply w_done. split.
  - constructor; auto.
    + assert (L1 : length x1 = c_dim C) by (destruct I1 as [I1|I1]; [apply inside_len; auto|congruence]). destruct I2 as [I2|I2]; [apply inside_len; auto|congruence].
    + unfold arr. apply j_choose_snd; auto.
  - unfold no_worse_fit. cbn [fst snd]. subst fit. unfold arr. rewrite j_choose_fst. apply map2_choose_down.
    + rewrite !map_length. auto.
    + eapply Seen2_not_nan; eauto. eapply IOk_seen2; eauto.
    + eapply Seen2_not_nan; eauto. eapply IOk_seen2; eauto.
Qed.

(** the parameters an individual can have *)
Definition j_param (F : fops) (p : jde_par) (w : num * num) : Prop :=
  (fst w = flit F 2 1 \/ exists u, in_unit u /\ fst w = fadd F (jd_lo p) (fmul F u (fsub F (jd_up p) (jd_lo p)))) /\ (snd w = flit F 1 2 \/ in_unit (snd w)).

Lemma w_adaptive_gen : forall K F p e (Q : jind -> elog -> Prop) l, j_param F p (snd e) ->
  (forall w, j_param F p w -> Q (fst (fst e), PInf, w) l) -> wp K (adaptive_gen F p e) Q l.
Proof.
  intros K F p [x [f cr]] Q l [H1 H2] HQ. cbn [fst snd] in *. unfold adaptive_gen. cbn [fst snd]. apply wp_bind. apply w_random_u. intros r1 U1. apply wp_bind.
  apply wp_conseq0 with (Q := fun f' l' => l' = l /\ (f' = flit F 2 1 \/ exists u, in_unit u /\ f' = fadd F (jd_lo p) (fmul F u (fsub F (jd_up p) (jd_lo p))))).
  { destruct (fltb r1 _); [|apply w_done; auto]. apply wp_bind. apply w_random_u. intros u Hu. apply w_done. split; auto. right. eauto. }
  intros f' l' [-> Hf]. apply wp_bind. apply w_random_u. intros r2 U2. apply wp_bind.
  apply wp_conseq0 with (Q := fun c l' => l' = l /\ (c = flit F 1 2 \/ in_unit c)).
  { destruct (fltb r2 _); [|apply w_done; auto]. apply w_random_u. auto. }
  intros c l' [-> Hc]. apply w_done. apply HQ. split; auto.
Qed.
Lemma w_jde_mutate : forall K F s d new xb (W : num * num -> Prop) (Q : list jind -> elog -> Prop) l, 0 < d -> dims d (j_xs new) -> length xb = d -> Forall W (map snd new) ->
  (forall new1, length new1 = length new -> dims d (j_xs new1) -> Forall W (map snd new1) -> Q new1 l) -> wp K (jde_mutate F s new xb) Q l.
Proof.
  intros K F s d new xb W Q l Hd Hx Hb Hw HQ. unfold jde_mutate.
  apply wp_conseq0 with (Q := fun cur l' => l' = l /\ length cur = length new /\ dims d (j_xs cur) /\ Forall W (map snd cur)).
  - apply wp_for_range with (I := fun _ cur l' => l' = l /\ length cur = length new /\ dims d (j_xs cur) /\ Forall W (map snd cur)); [auto|].
    intros i cur l' Hi (-> & L & D & Hw'). apply wp_bind. apply w_nthP; [lia|]. intros e Ee. apply wp_bind.
    apply (w_cross _ F s _ _ _ _ _ d); auto; [unfold j_xs; rewrite !map_length; lia|]. intros x Lx _. apply w_setP; [lia|]. split; auto. split; [dl|]. unfold j_xs. split.
    + rewrite !map_upd. cbn [fst snd]. apply dims_upd; auto.
    + rewrite map_upd. cbn [snd]. apply Forall_upd; auto. assert (E' : nth_error (map snd cur) i = Some (snd e)) by (rewrite nth_error_map, Ee; auto). exact (Forall_nth _ _ _ _ _ Hw' E').
  - intros cur l' (-> & L & D & Hw'). apply HQ; auto.
Qed.
Lemma w_jde_evaluate : forall C X l fb new (W : num * num -> Prop), cfg_ok C -> dims (c_dim C) (j_xs new) -> Forall W (map snd new) -> Cov l [] fb ->
  wp (KBX C X) (jde_evaluate new) (fun bs l' => IAcc C l fb (map fst bs) l' /\ length bs = length new /\ Forall W (map snd bs)) l.
Proof.
  intros C X l fb new W HC Hd Hw Hc. unfold jde_evaluate.
  apply wp_conseq0 with (Q := fun bs l' => (IAcc C l fb (map fst bs) l' /\ Forall W (map snd bs)) /\ length bs = length new); [|intros bs l' [[? ?] ?]; auto].
  apply (wp_mapM_acc _ _ _ _ (fun bs l' => IAcc C l fb (map fst bs) l' /\ Forall W (map snd bs))).
  - split; [apply IAcc_nil; auto|constructor].
  - intros pre e post bs l' E Hb [HA HW]. apply wp_bind. assert (In e new) by (rewrite E; apply in_or_app; simpl; auto).
    assert (Lx : length (fst (fst e)) = c_dim C) by (apply (dims_In _ (j_xs new)); auto; unfold j_xs; apply in_map; apply in_map; auto).
    apply (w_new_ind C X); auto. intros y v l1 Hy Hv. apply w_done. rewrite !map_app. cbn [map fst snd]. split; [eapply IAcc_step; eauto|]. apply Forall_app. split; auto.
    constructor; auto. rewrite Forall_forall in Hw. apply Hw. apply in_map; auto.
Qed.
Lemma jde_evolve_ok : forall C X F p, cfg_ok C -> 0 < c_dim C -> j_evolve_ok C X (j_param F p) (jde_evolve F p).
Proof.
  intros C X F p HC Hd pop xb fb l Hn Hi Hw Hx Hc. unfold jde_evolve. apply wp_bind.
  apply wp_conseq0 with (Q := fun new l' => (l' = l /\ Forall (j_param F p) (map snd new) /\ dims (c_dim C) (j_xs new)) /\ length new = length pop).
  { apply (wp_mapM_acc _ _ _ _ (fun bs l' => l' = l /\ Forall (j_param F p) (map snd bs) /\ dims (c_dim C) (j_xs bs))); [split; auto; split; constructor|].
    intros pre e post bs l' E _ (-> & H1 & H2). assert (In e pop) by (rewrite E; apply in_or_app; simpl; auto).
    apply (w_adaptive_gen _ F p); [rewrite Forall_forall in Hw; apply Hw; apply in_map; auto|]. intros w Hp. split; auto. unfold j_xs. rewrite !map_app. cbn [map fst snd]. split.
    - apply Forall_app. auto.
    - apply dims_app; auto. constructor; [|constructor]. apply inside_len; auto. rewrite Forall_forall in Hi. apply Hi. apply in_map; auto. }
  intros new l' ((-> & H1 & H2) & L). apply wp_bind. apply (w_jde_mutate _ F _ (c_dim C) new xb (j_param F p)); auto. intros new1 L1 D1 W1.
  eapply wp_conseq0; [apply (w_jde_evaluate C X l fb new1 (j_param F p)); auto|]. intros bs l' (A & B & D). split; auto. split; auto. congruence.
Qed.

(** ** Evolution strategies *)
Section ES.
Variables (F : fops) (C : cfg) (p : es_par) (X : exn -> Prop) (W : num -> Prop).
Hypothesis HC : cfg_ok C.
(** standard deviations stay ones that numpy accepts *)
Hypothesis HW : (forall r, W r -> fltb r f0 = false) \/ X EValue.
Hypothesis W1 : W (flit F 1 1).

Lemma w_es_mutate : forall x r (Q : vec -> elog -> Prop) l, W r -> (forall y, length y = length x -> Q y l) -> wp (KBX C X) (es_mutate F x r) Q l.
Proof.
  intros x r Q l Hw HQ. unfold es_mutate. destruct (fltb r f0) eqn:E.
  - destruct HW as [H|H]; [rewrite (H r Hw) in E; discriminate|]. right. exact H.
  - apply wp_bind. apply w_rnd_f_vec. intros g Lg. apply w_done. apply HQ. dl.
Qed.

(** (1 + 1) and (mu + 1) *)
Lemma w_mapM_eval : forall xs (Q : list num -> elog -> Prop) l, Forall (inside C) xs ->
  (forall fs l', Evals xs fs l l' -> Q fs l') -> wp (KBX C X) (mapM eval xs) Q l.
Proof.
  intros xs Q l H HQ. destruct xs as [|x xs]; [apply HQ; constructor|]. change (mapM eval (x :: xs)) with (eval_all (x :: xs)). apply w_eval_all; auto. discriminate.
Qed.
Lemma es_init_c : init_c (KBX C X) (es F C p) (fun pop fit xb fxb _ l => Deco num C 1 W pop fit xb fxb l).
Proof.
  unfold init_c. cbn [es a_init a_coords a_pop a_par]. unfold es_init. apply wp_bind. apply w_rand_ind; auto. intros y v l Hy Hv. apply w_done. unfold es_xs. cbn [map fst snd].
  assert (Ho : IOk C l (y, v)) by (split; [exact Hy|eapply Evald_seen; eauto]).
  change [y] with (map fst [(y, v)]). change [v] with (map snd [(y, v)]). apply (w_get_best0_i _ C); [discriminate|constructor; [exact Ho|constructor]| |].
  - cbn [map]. apply (Cov_Evald y v [] l [] PInf); auto. intros a b [].
  - intros x f G Hx. cbn [fst snd]. constructor; auto.
    + cbn [map fst]. constructor; [exact Ho|constructor].
    + apply inside_len; auto.
    + constructor; [exact W1|constructor].
Qed.
Lemma w_es_due : forall it (Q : bool -> elog -> Prop) l, (0 < es_k p \/ X EZeroDiv) -> (forall b, Q b l) -> wp (KBX C X) (lift (es_due p it)) Q l.
Proof.
  intros it Q l Hk HQ. unfold es_due. destruct (es_k p); [destruct Hk as [Hk|Hk]; [lia|right; exact Hk]|]. apply w_done. apply HQ.
Qed.
Lemma es_iter_c : (0 < es_k p \/ X EZeroDiv) -> (0 < es_mu p \/ X EValue) -> (forall r ki, W r -> W (es_rho F p r ki)) ->
  iter_r (KBX C X) (es F C p) (fun pop fit xb fxb _ l => Deco num C 1 W pop fit xb fxb l) no_worse_fit.
Proof.
  intros Hk Hmu Hrho pop fit xb fxb ki l [D1 D2 D3 D4 D5 D6]. cbn [es a_iter]. unfold es_iter. apply wp_bind. apply w_view. intros v.
  destruct pop as [|[[x f] rho0] [|? ?]]; try discriminate D1. cbn [nthP nth_error]. apply wp_bind. apply w_done. cbn beta iota.
  inversion D2 as [|? ? Io _]; subst. cbn [map fst snd] in *. destruct Io as [Ix Sx]. cbn [fst snd] in *. assert (Lx := inside_len _ _ HC Ix).
  assert (Wr : W rho0) by (inversion D6; auto).
  apply wp_bind. apply w_es_due; auto. intros due. cbv zeta. set (rho := if due then es_rho F p rho0 ki else rho0). set (ki0 := if due then 0 else ki).
  assert (Wrho : W rho) by (unfold rho; destruct due; auto). clearbody rho ki0.
  apply wp_bind. apply wp_conseq0 with (Q := fun cn l' => (l' = l /\ Forall (inside C) cn) /\ length cn = es_mu p).
  { apply (wp_repeatM _ _ _ (fun cn l' => l' = l /\ Forall (inside C) cn)); [auto|]. intros bs l' _ [-> Hb]. apply wp_bind. apply w_es_mutate; auto. intros y Ly.
    apply w_repair; [congruence|]. intros z Hz. split; auto. apply Forall_app; auto. }
  intros cn l0 [[-> Hcn] Lcn]. apply wp_bind. apply w_mapM_eval; auto. intros cf l' Hev. assert (Lcf := Evals_len _ _ _ _ Hev).
  destruct cf as [|c0 cf0].
  { cbn [argmin]. destruct Hmu as [Hmu|Hmu]; [simpl in Lcf; lia|right; exact Hmu]. }
  set (cf := c0 :: cf0) in *. assert (Hne : cf <> []) by discriminate. clearbody cf. clear c0 cf0.
  assert (HS := Evals_seen _ _ _ _ Hev). assert (Hc0 : Cov l [] fxb) by (apply LB_Cov; apply D5). assert (Hcov := Cov_Evals _ _ _ _ _ _ Hc0 Hev). rewrite app_nil_r in Hcov.
  assert (Hnan := Seen2_not_nan _ _ _ _ _ Hcov HS).
  destruct (argmin_spec cf Hne Hnan) as (b & m & Eb & (M1 & M2 & M3)). rewrite Eb.
  assert (Hb : b < length cn) by (rewrite <- Lcf; apply nth_error_Some; congruence).
  apply wp_bind. apply w_nthP; auto. intros y Ey. apply wp_bind. unfold nthP. rewrite M1. apply w_done.
  assert (Iy : inside C y) by exact (Forall_nth _ _ _ _ _ Hcn Ey). assert (Sy : Seen l' y m) by exact (Forall2_nth _ _ _ _ _ _ _ _ HS Ey M1).
  assert (Nm : m <> NaN) by exact (Forall_nth _ _ _ _ _ Hnan M1).
  assert (Hext := Evals_ext _ _ _ _ Hev). assert (Lf : fleb fxb f = true) by (eapply good_le; eauto). assert (Nf := fleb_nan_r _ _ Lf).
  assert (Min : forall g, In g cf -> fleb m g = true) by (intros g Hg; apply In_nth_error in Hg; destruct Hg; eauto).
  assert (Hkeep : fltb m fxb = false -> Good l' xb fxb).
  { intros Q. apply (Good_take_best l' cf fxb xb fxb); auto; [eapply Seen_ext; eauto; apply D5|apply D5|apply fleb_refl; apply D5|].
    intros g Hg. eapply fleb_trans; [|apply Min; exact Hg]. apply fltb_false_fleb; auto. apply D5. }
  destruct (fltb m f) eqn:Q1.
  - apply wp_bind. apply wp_conseq0 with (Q := fun a l2 => l2 = l' /\ length (fst a) = c_dim C /\ Good l' (fst a) (snd a)).
    { destruct (fltb m fxb) eqn:Q2; [|apply w_done; split; auto]. unfold get_best1. rewrite (fltb_fleb _ _ Q2). apply w_done. cbn [fst snd]. split; auto. split; [apply inside_len; auto|].
      apply (Good_take_best l' cf fxb y m); auto. apply fltb_fleb; auto. }
    intros [xb' fxb'] l2 (-> & L' & G'). apply w_done. split.
    + constructor; auto; cbn [map fst snd]; (constructor; [solve [auto | split; auto]|constructor]).
    + unfold no_worse_fit. cbn [fst snd]. repeat constructor. apply fltb_fleb; auto.
  - apply w_done. split.
    + constructor; auto; cbn [map fst snd].
      * constructor; [|constructor]. split; [exact Ix|]. eapply Seen_ext; eauto.
      * apply Hkeep. apply fleb_fltb_false. eapply fleb_trans; [exact Lf|]. apply fltb_false_fleb; auto.
      * constructor; [exact Wrho|constructor].
    + unfold no_worse_fit. cbn [fst snd]. repeat constructor. apply fleb_refl; auto.
Qed.

(** (mu + lambda) and (mu, lambda) *)
Lemma w_es_child : forall l0 fb pop bs l (Hmu : 0 < es_mu p), length pop = es_mu p -> dims (c_dim C) (es_xs pop) -> Forall W (map snd pop) ->
  IAcc C l0 fb (map fst bs) l /\ Forall W (map snd bs) ->
  wp (KBX C X) (es_child F p pop) (fun b l' => IAcc C l0 fb (map fst (bs ++ [b])) l' /\ Forall W (map snd (bs ++ [b]))) l.
Proof.
  intros l0 fb pop bs l Hmu Lp Hd Hw [HA HB]. unfold es_child. apply wp_bind. apply w_integers; auto. intros i Hi. apply wp_bind. apply w_nthP; [lia|]. intros e Ee.
  assert (In e pop) by (eapply nth_error_In; eauto).
  assert (Le : length (fst (fst e)) = c_dim C) by (apply (dims_In _ (es_xs pop)); auto; unfold es_xs; apply in_map; apply in_map; auto).
  apply wp_bind. apply w_es_mutate; [rewrite Forall_forall in Hw; apply Hw; apply in_map; auto|]. intros y Ly. apply wp_bind. apply w_repair; [congruence|]. intros z Hz.
  apply wp_bind. apply w_new_ind; [apply inside_len; auto|]. intros a v l1 Ha Hv. apply w_done. rewrite !map_app. cbn [map fst snd]. split; [eapply IAcc_step; eauto|]. apply Forall_app. auto.
Qed.
Lemma w_es_children : forall fb pop l (Hmu : 0 < es_mu p), length pop = es_mu p -> dims (c_dim C) (es_xs pop) -> Forall W (map snd pop) -> Cov l [] fb ->
  wp (KBX C X) (repeatM (es_lam p) (es_child F p pop)) (fun ch l' => (IAcc C l fb (map fst ch) l' /\ Forall W (map snd ch)) /\ length ch = es_lam p) l.
Proof.
  intros fb pop l Hmu Lp Hd Hw Hc. apply (wp_repeatM _ _ _ (fun ch l' => IAcc C l fb (map fst ch) l' /\ Forall W (map snd ch))).
  - split; [apply IAcc_nil; auto|constructor].
  - intros bs l' _ HA. apply w_es_child; auto.
Qed.
Lemma sort_on_best : forall A (key : A -> num) xs m a, 0 < m -> In a xs -> exists b, In b (firstn m (sort_on key xs)) /\ key_le (key b) (key a) = true.
Proof.
  intros A key xs m a Hm Ha. apply (sort_on_In _ key) in Ha. rewrite <- (firstn_skipn m (sort_on key xs)) in Ha. apply in_app_or in Ha. destruct Ha as [Ha|Ha].
  - exists a. split; auto. apply key_le_refl.
  - destruct (firstn m (sort_on key xs)) as [|b r] eqn:E.
    + destruct (sort_on key xs); [rewrite skipn_nil in Ha; destruct Ha|]. destruct m; [lia|]. discriminate.
    + exists b. split; [left; auto|]. eapply sort_on_split; [|exact Ha]. rewrite E. left; auto.
Qed.
Lemma mpl_rho_fst : forall pop ki, map fst (mpl_rho F p pop ki) = map fst pop.
Proof. intros. unfold mpl_rho. destruct (fltb _ _); [rewrite map_map; reflexivity|]. destruct (fltb _ _); [rewrite map_map|]; reflexivity. Qed.
Lemma mpl_rho_w : forall pop ki, (forall r, W r -> W (fmul F (es_cr p) r) /\ W (fmul F (es_ca p) r)) -> Forall W (map snd pop) -> Forall W (map snd (mpl_rho F p pop ki)).
Proof.
  intros pop ki H Hw. unfold mpl_rho. destruct (fltb _ _); [|destruct (fltb _ _); auto]; rewrite map_map; cbn [snd]; apply Forall_forall; intros r Hr;
    apply in_map_iff in Hr; destruct Hr as (e & <- & He); apply H; rewrite Forall_forall in Hw; apply Hw; apply in_map; auto.
Qed.
Lemma mpl_iter_c : (0 < es_k p \/ X EZeroDiv) -> 0 < es_mu p -> (forall r, W r -> W (fmul F (es_cr p) r) /\ W (fmul F (es_ca p) r)) ->
  iter_c (KBX C X) (es_mpl F C p) (fun pop fit xb fxb _ l => Deco num C (es_mu p) W pop fit xb fxb l).
Proof.
  intros Hk Hmu Hr pop0 fit xb fxb ki l [D1 D2 D3 D4 D5 D6]. cbn [es_mpl a_iter]. unfold mpl_iter. apply wp_bind. apply w_view. intros v.
  apply wp_bind. apply w_es_due; auto. intros due. cbv zeta. set (pop := if due then mpl_rho F p pop0 ki else pop0). set (ki0 := if due then 0 else ki).
  assert (Ef : map fst pop = map fst pop0) by (unfold pop; destruct due; auto using mpl_rho_fst).
  assert (Ew : Forall W (map snd pop)) by (unfold pop; destruct due; auto using mpl_rho_w).
  assert (Lp : length pop = es_mu p) by (rewrite <- (map_length fst pop), Ef, map_length; auto). clearbody pop ki0. rewrite <- Ef in *.
  assert (Dp : dims (c_dim C) (es_xs pop)) by (apply Forall_len_inside; auto; eapply IOk_inside; eauto).
  apply wp_bind. eapply wp_conseq0; [apply (w_es_children fxb pop l); auto; apply LB_Cov; apply D5|]. intros ch l' (((A1 & A2 & A3) & A4) & A5).
  set (key := fun e : eind * bool => snd (fst (fst e))). set (all := map (fun e => (e, false)) ch ++ map (fun e => (e, true)) pop).
  set (cn := firstn (es_mu p) (sort_on key all)). unfold es_xs, es_fits.
  assert (Lcn : length cn = es_mu p). { unfold cn. rewrite firstn_length, sort_on_length. unfold all. rewrite app_length, !map_length. lia. }
  assert (Hin : forall e, In e cn -> In (fst e) ch \/ In (fst e) pop).
  { intros e He. apply firstn_In in He. apply sort_on_In in He. unfold all in He. apply in_app_or in He. destruct He as [He|He]; apply in_map_iff in He; destruct He as (a & <- & Ha); auto. }
  assert (Ho : Forall (IOk C l') (map fst (map fst cn))).
  { apply Forall_forall. intros a Ha. apply in_map_iff in Ha. destruct Ha as (b & <- & Hb). apply in_map_iff in Hb. destruct Hb as (e & <- & He). rewrite Forall_forall in A2.
    assert (D2' := IOks_ext _ _ _ _ A1 D2). rewrite Forall_forall in D2'. destruct (Hin e He); [apply A2|apply D2']; apply in_map; auto. }
  assert (Hw : Forall W (map snd (map fst cn))).
  { apply Forall_forall. intros a Ha. apply in_map_iff in Ha. destruct Ha as (b & <- & Hb). apply in_map_iff in Hb. destruct Hb as (e & <- & He). rewrite Forall_forall in A4, Ew.
    destruct (Hin e He); [apply A4|apply Ew]; apply in_map; auto. }
  assert (Hc : Cov l' (map snd (map fst (map fst cn))) fxb).
  { eapply Cov_dom; [exact A3|]. intros g Hg Ng. apply in_map_iff in Hg. destruct Hg as (a & <- & Ha). apply in_map_iff in Ha. destruct Ha as (e & <- & He).
    destruct (sort_on_best _ key all (es_mu p) (e, false) Hmu) as (b & B1 & B2). { unfold all. apply in_or_app. left. apply in_map_iff. eauto. }
    exists (snd (fst (fst b))). split; [apply in_map; apply in_map; apply in_map; exact B1|]. apply key_le_fleb; auto. }
  apply wp_bind. apply (w_get_best_i _ C); auto; [destruct cn; simpl in *; [lia|congruence]|eapply Seen_ext; eauto; apply D5|apply D5|].
  intros x f G Hx. apply w_done. constructor; auto.
  - rewrite map_length; auto.
  - destruct Hx as [Hx|Hx]; [apply inside_len; auto|congruence].
Qed.
Lemma cyc_blocks : forall (ch : list eind) lam mu blk, length ch = lam -> 0 < lam -> (forall i, blk i = firstn (if lam <=? mu - i * lam then lam else mu - i * lam) ch) ->
  forall k s, s * lam <= mu + lam - 1 -> k = (mu - s * lam + lam - 1) / lam ->
  length (concat (map blk (seq s k))) = mu - s * lam /\ forall j, j < mu - s * lam -> nth_error (concat (map blk (seq s k))) j = nth_error ch (j mod lam).
Proof.
  intros ch lam mu blk Lc Hl Hblk. induction k as [|k IH]; intros s Hs Hk; cbn [seq map concat].
  - assert (mu - s * lam = 0). { destruct (mu - s * lam) eqn:E; auto. symmetry in Hk. apply Nat.div_small_iff in Hk; lia. } split; [simpl; lia|]. intros j Hj. lia.
  - assert (Hpos : 0 < mu - s * lam). { destruct (mu - s * lam) eqn:E; [|lia]. rewrite Nat.div_small in Hk; lia. }
    rewrite Hblk. destruct (Nat.leb_spec lam (mu - s * lam)) as [Q|Q].
    + assert (Ek : k = (mu - S s * lam + lam - 1) / lam).
      { replace (mu - s * lam + lam - 1) with (mu - S s * lam + lam - 1 + 1 * lam) in Hk by (cbn [Nat.mul]; lia). rewrite Nat.div_add in Hk by lia. lia. }
      destruct (IH (S s) ltac:(cbn [Nat.mul]; lia) Ek) as [I1 I2]. assert (E : firstn lam ch = ch) by (apply firstn_all2; lia). rewrite E. split.
      * rewrite app_length, I1. cbn [Nat.mul]. lia.
      * intros j Hj. destruct (lt_dec j lam) as [Lt|Ge].
        -- rewrite nth_error_app1 by lia. rewrite Nat.mod_small; auto.
        -- rewrite nth_error_app2 by lia. rewrite I2 by (cbn [Nat.mul]; lia). f_equal. rewrite Lc. replace j with (j - lam + 1 * lam) at 2 by lia. rewrite Nat.mod_add by lia. reflexivity.
    + assert (Ek : k = 0). { assert (X1 : (mu - s * lam + lam - 1) / lam < 2) by (apply Nat.div_lt_upper_bound; lia). lia. } subst k. cbn [seq map concat]. rewrite app_nil_r. split.
      * rewrite firstn_length. lia.
      * intros j Hj. rewrite Nat.mod_small by lia. rewrite <- (firstn_skipn (mu - s * lam) ch) at 2. rewrite nth_error_app1; auto. rewrite firstn_length. lia.
Qed.
(** the population that replaces the old one: the best of the children, or all of them over and over in the order of their birth *)
Definition ml_next (ch new : list eind) : Prop :=
  length new = es_mu p /\
  ((es_mu p < es_lam p /\ new = firstn (es_mu p) (sort_on (fun e : eind => snd (fst e)) ch)) \/
   (es_lam p <= es_mu p /\ forall j, j < es_mu p -> nth_error new j = nth_error ch (j mod es_lam p))).
Lemma w_ml_new_pop : forall K ch (Q : list eind -> elog -> Prop) l, length ch = es_lam p -> (0 < es_lam p \/ K_exn K EZeroDiv) ->
  (0 < es_lam p -> forall new, ml_next ch new -> Q new l) -> wp K (ml_new_pop p ch) Q l.
Proof.
  intros K ch Q l Lc Hl HQ. unfold ml_new_pop. destruct (Nat.ltb_spec (es_mu p) (es_lam p)) as [Lt|Ge].
  - apply w_done. apply HQ; [lia|]. split; auto. rewrite firstn_length, sort_on_length. lia.
  - destruct (Nat.eqb_spec (es_lam p) 0) as [E|E]; [destruct Hl as [Hl|Hl]; [lia|exact Hl]|]. apply w_done. apply HQ; [lia|].
    destruct (cyc_blocks ch (es_lam p) (es_mu p) _ Lc ltac:(lia) (fun i => eq_refl) ((es_mu p + es_lam p - 1) / es_lam p) 0 ltac:(lia)) as [B1 B2]; [f_equal; lia|]. cbn [Nat.mul] in B1, B2.
    split; [rewrite B1; lia|]. right. split; auto. intros j Hj. rewrite B2; [reflexivity|lia].
Qed.
Lemma ml_iter_c : (0 < es_lam p \/ X EZeroDiv) -> 0 < es_mu p ->
  iter_c (KBX C X) (es_ml F C p) (fun pop fit xb fxb _ l => Deco num C (es_mu p) W pop fit xb fxb l).
Proof.
  intros Hl Hmu pop fit xb fxb ki l [D1 D2 D3 D4 D5 D6]. cbn [es_ml a_iter]. unfold ml_iter.
  assert (Dp : dims (c_dim C) (es_xs pop)) by (apply Forall_len_inside; auto; eapply IOk_inside; eauto).
  apply wp_bind. eapply wp_conseq0; [apply (w_es_children fxb pop l); auto; apply LB_Cov; apply D5|]. intros ch l' (((A1 & A2 & A3) & A4) & A5).
  apply wp_bind. apply w_ml_new_pop; auto; [destruct Hl as [Hl|Hl]; [auto|right; right; exact Hl]|]. intros Hpos new [N1 N2].
  assert (Hin : forall e, In e new -> In e ch).
  { intros e He. destruct N2 as [[_ ->]|[_ N2]]; [apply firstn_In in He; apply sort_on_In in He; auto|]. apply In_nth_error in He. destruct He as (j & Hj).
    assert (j < es_mu p) by (rewrite <- N1; apply nth_error_Some; congruence). rewrite N2 in Hj; auto. eapply nth_error_In; eauto. }
  assert (Hdom : forall e, In e ch -> exists b, In b new /\ key_le (snd (fst b)) (snd (fst e)) = true).
  { intros e He. destruct N2 as [[Lt ->]|[Ge N2]]; [apply (sort_on_best _ (fun e : eind => snd (fst e)) ch (es_mu p) e); auto|]. apply In_nth_error in He. destruct He as (j & Hj).
    assert (j < es_lam p) by (rewrite <- A5; apply nth_error_Some; congruence). exists e. split; [|apply key_le_refl]. apply (nth_error_In new j). rewrite N2 by lia. rewrite Nat.mod_small; auto. }
  unfold es_xs, es_fits.
  assert (Ho : Forall (IOk C l') (map fst new)).
  { apply Forall_forall. intros a Ha. apply in_map_iff in Ha. destruct Ha as (e & <- & He). rewrite Forall_forall in A2. apply A2. apply in_map. auto. }
  assert (Hw : Forall W (map snd new)).
  { apply Forall_forall. intros a Ha. apply in_map_iff in Ha. destruct Ha as (e & <- & He). rewrite Forall_forall in A4. apply A4. apply in_map. auto. }
  assert (Hc : Cov l' (map snd (map fst new)) fxb).
  { eapply Cov_dom; [exact A3|]. intros g Hg Ng. apply in_map_iff in Hg. destruct Hg as (a & <- & Ha). apply in_map_iff in Ha. destruct Ha as (e & <- & He).
    destruct (Hdom e He) as (b & B1 & B2). exists (snd (fst b)). split; [apply in_map; apply in_map; exact B1|]. apply key_le_fleb; auto. }
  apply wp_bind. apply (w_get_best_i _ C); auto; [destruct new; simpl in *; [lia|congruence]|eapply Seen_ext; eauto; apply D5|apply D5|].
  intros x f G Hx. apply w_done. constructor; auto. destruct Hx as [Hx|Hx]; [apply inside_len; auto|congruence].
Qed.
End ES.
