(** Final theorems about FireworksAlgorithm (C51), EnhancedFireworksAlgorithm (C68) and the dynamic variants (C69). *)
From Coq Require Import ZArith Lia Bool List Sorting.Sorted.
From Verif Require Import Num Task TaskSpec TaskProofs TaskProofs2 Prog Wp GetBest Run RunSpec RunProofs RunProofs2
  AlgoLib Fops AlgTac StepSpec StepLib Indiv IndivLib AlgDE AlgPSO AlgSwarm PopLib AlgSwarmProofs Reach SortLib AlgBasic AlgBasicProofs
  AlgEvo AlgEvoProofs Repair PropertiesRepair AlgFwa AlgFwaProofs B64 ExLib ExLib2.
Import ListNotations.

(** ** C51: FireworksAlgorithm: the returned pair was evaluated; a run raises nothing of its own but ValueError and OverflowError *)
Theorem C51_fwa_partial : forall F E tol p, let C := e_cfg E in
  cfg_ok C -> no_nan (e_prob E) -> repair_ok E -> 0 < fw_n p ->
  sound_run_p (fun x => length x = c_dim C) fwx E (fwa F C tol p) /\ sizes_ok (fun k => k = fw_n p) E (fwa F C tol p).
Proof.
  intros F E tol p C HC Hn Hr Hp. set (P := fun x : vec => length x = c_dim C).
  assert (PR : forall x f z, P x -> P (reflect F C (on_dims f z x))).
  { intros x f z Hx. unfold P, reflect. destruct HC as (H1 & H2 & _). apply map3_length; auto. rewrite on_dims_len. auto. }
  assert (PI : forall x, inside C x -> P x) by (intros; apply inside_len; auto).
  set (J := fun pop fit xb fxb (_ : unit) l => FwInv P (fw_n p) pop fit xb fxb l).
  assert (H1 : init_c (KPX C P fwx) (fwa F C tol p) J).
  { eapply wp_conseq0; [apply (fw_init_ok C P fwx (fw_n p) unit (plain_init C (fw_n p)) (fwa_iter F C tol p) (fun _ _ _ => True)); auto|].
    - intros Q HQ. apply w_plain_init; auto.
    - intros a l H. destruct a as [[pop fit] par]. eapply wp_conseq0; [exact H|]. intros [xb fxb] l' (H' & _). exact H'. }
  assert (H2 : iter_c (KPX C P fwx) (fwa F C tol p) J).
  { intros pop fit xb fxb t l HI. eapply wp_conseq0; [apply (w_fwa_iter F C P fwx); auto|]. intros [[[[a b] c] d] e] l' H. exact H. }
  split.
  - apply (sound_run_c P fwx E (fwa F C tol p) J); auto. intros pop fit xb fxb par l [I1 I2 I3 I4 I5]. auto.
  - apply (sizes_c P fwx _ E (fwa F C tol p) J); auto. intros pop fit xb fxb par l [I1 I2 I3 I4 I5]. apply Forall2_len in I3. lia.
Qed.
(** with a mapping that reaches the bounds (C15) every evaluated point lies inside them *)
Definition reflect_ok (F : fops) (C : cfg) : Prop :=
  Forall2 (fun l u => forall a, in_range l u (reflect_c F a l u)) (c_lower C) (c_upper C).
Lemma reflect_inside : forall F C x, cfg_ok C -> reflect_ok F C -> length x = c_dim C -> inside C (reflect F C x).
Proof.
  intros F C x (H1 & H2 & _) H Hx. unfold reflect, inside, reflect_ok in *. rewrite <- Hx in H1. clear H2 Hx. revert x H1.
  induction H as [|l u lo hi H H' IH]; intros [|a x] Hl; simpl in *; try discriminate; constructor; auto; apply H.
Qed.
Lemma init_imp : forall K A (I J : a_pop A -> list num -> vec -> num -> a_par A -> elog -> Prop), init_c K A I ->
  (forall pop fit xb fxb par l, I pop fit xb fxb par l -> J pop fit xb fxb par l) -> init_c K A J.
Proof.
  intros K A I J H HJ. eapply wp_conseq0; [exact H|]. intros [[pop fit] par] l H'. eapply wp_conseq0; [exact H'|]. intros b l' Hb. auto.
Qed.
Theorem C51_fwa_inside_partial : forall F E tol p, let C := e_cfg E in
  cfg_ok C -> no_nan (e_prob E) -> repair_ok E -> 0 < fw_n p -> reflect_ok F C -> sound_run_x fwx E (fwa F C tol p).
Proof.
  intros F E tol p C HC Hn Hr Hp HR. unfold sound_run_x. fold C.
  assert (PR : forall x f z, inside C x -> inside C (reflect F C (on_dims f z x))).
  { intros x f z Hx. apply reflect_inside; auto. rewrite on_dims_len. apply inside_len; auto. }
  set (J := fun pop fit xb fxb (_ : unit) l => FwInv (inside C) (fw_n p) pop fit xb fxb l).
  apply (sound_run_c (inside C) fwx E (fwa F C tol p) J); auto.
  - eapply init_imp; [apply (fw_init_ok C (inside C) fwx (fw_n p) unit (plain_init C (fw_n p)) (fwa_iter F C tol p) (fun _ _ _ => True)); auto|].
    + intros Q HQ. apply w_plain_init; auto.
    + intros pop fit xb fxb par l (H & _). exact H.
  - intros pop fit xb fxb t l HI. eapply wp_conseq0; [apply (w_fwa_iter F C (inside C) fwx); auto|]. intros [[[[a b] c] d] e] l' H. exact H.
  - intros pop fit xb fxb par l [I1 I2 I3 I4 I5]. split; auto. apply inside_len; auto.
Qed.

(** number of sparks: m (f_max - f + eps) / (sum + eps), at least round(a m), at most round(b m) when a < b < 1 *)
Definition is_amax (xs : list num) (v : num) : Prop := exists i, argmax xs = Some i /\ nth_error xs i = Some v.
Definition is_amin (xs : list num) (v : num) : Prop := exists i, argmin xs = Some i /\ nth_error xs i = Some v.
Lemma is_amax_max : forall xs v, Forall (fun x => x <> NaN) xs -> is_amax xs v -> In v xs /\ forall x, In x xs -> fleb x v = true.
Proof.
  intros xs v Hn (i & E1 & E2). split; [eapply nth_error_In; eauto|]. intros x Hx.
  destruct (argmax_spec xs) as (b & m & Eb & M1 & M2); [destruct xs; [destruct Hx|discriminate]|auto|].
  rewrite E1 in Eb. injection Eb as <-. rewrite E2 in M1. injection M1 as <-. apply In_nth_error in Hx. destruct Hx as [k Hk]. eapply M2; eauto.
Qed.
Definition count_eq (F : fops) (p : fw_par) (s : num) (c : Z) : Prop :=
  let m := fnat F (fw_num p) in
  (fltb s (fmul F (fw_a p) m) = true /\ c = fround (fmul F (fw_a p) m)) \/
  (fltb s (fmul F (fw_a p) m) = false /\ fltb (fmul F (fw_b p) m) s = true /\ fltb (fw_a p) (fw_b p) = true /\ fltb (fw_b p) (flit F 1 1) = true /\
     c = fround (fmul F (fw_b p) m)) \/
  (fltb s (fmul F (fw_a p) m) = false /\ (fltb (fmul F (fw_b p) m) s = false \/ fltb (fw_a p) (fw_b p) = false \/ fltb (fw_b p) (flit F 1 1) = false) /\
     c = match s with Fin _ => fround s | _ => (-1)%Z end).
Theorem C51_counts : forall F E p fit cs wd wd',
  exec E (fw_counts F p fit) wd = (Ret cs, wd') ->
  exists worst, is_amax fit worst /\
    Forall2 (fun f c => count_eq F p (fdiv F (fmul F (fnat F (fw_num p)) (fadd F (fsub F worst f) (fw_eps p)))
       (fadd F (vsum F (map (fun g => fsub F worst g) fit)) (fw_eps p))) c) fit cs.
Proof.
  intros F E p fit cs wd wd' Ex.
  pose (S0 := fun (cs : list Z) (l' : elog) => exists worst, is_amax fit worst /\
    Forall2 (fun f c => count_eq F p (fdiv F (fmul F (fnat F (fw_num p)) (fadd F (fsub F worst f) (fw_eps p)))
       (fadd F (vsum F (map (fun g => fsub F worst g) fit)) (fw_eps p))) c) fit cs).
  apply (tr_sound _ E _ S0 _ _ _) in Ex; [exact Ex|]. unfold fw_counts, amax. apply wp_bind.
  destruct (argmax fit) as [i|] eqn:Ei; [|exact I]. apply w_nthP_tr. intros worst Ew.
  apply wp_bind. apply (w_py_round (K_tr E)); [exact I|exact I|]. intros y _. apply wp_bind. apply (w_py_round (K_tr E)); [exact I|exact I|]. intros y' _. apply w_done.
  exists worst. split; [exists i; auto|]. set (tot := fadd F _ _). clearbody tot. clear. induction fit as [|f fit IH]; simpl; constructor; auto.
  unfold fw_count, count_eq. set (s := fdiv F _ _). cbv zeta. destruct (fltb s (fmul F (fw_a p) (fnat F (fw_num p)))); auto.
  destruct (fltb (fmul F (fw_b p) (fnat F (fw_num p))) s); [|right; right; auto].
  destruct (fltb (fw_a p) (fw_b p)); [|right; right; auto]. destruct (fltb (fw_b p) (flit F 1 1)); right; [left|right]; auto 10.
Qed.
(** amplitude: max_amplitude (f - f_min + eps) / (sum + eps) *)
Theorem C51_amplitudes : forall F E p fit am wd wd',
  exec E (fw_amplitudes F p fit) wd = (Ret am, wd') ->
  exists best, is_amin fit best /\
    am = map (fun f => fdiv F (fmul F (fw_max p) (fadd F (fsub F f best) (fw_eps p))) (fadd F (vsum F (map (fun g => fsub F g best) fit)) (fw_eps p))) fit.
Proof.
  intros F E p fit am wd wd' Ex.
  pose (S0 := fun (am : list num) (l' : elog) => exists best, is_amin fit best /\
    am = map (fun f => fdiv F (fmul F (fw_max p) (fadd F (fsub F f best) (fw_eps p))) (fadd F (vsum F (map (fun g => fsub F g best) fit)) (fw_eps p))) fit).
  apply (tr_sound _ E _ S0 _ _ _) in Ex; [exact Ex|]. unfold fw_amplitudes, amin. apply wp_bind.
  destruct (argmin fit) as [i|] eqn:Ei; [|exact I]. apply w_nthP_tr. intros best Eb. apply w_done. exists best. split; [exists i; auto|reflexivity].
Qed.

(** a spark: fewer than all dimensions, all moved by the same amount *)
Definition some_dims (d : nat) (z : list nat) : Prop := length z < d /\ NoDup z /\ forall j, In j z -> j < d.
Lemma existsb_In : forall j z, existsb (Nat.eqb j) z = true <-> In j z.
Proof.
  intros j z. rewrite existsb_exists. split; [intros (k & H1 & H2); apply Nat.eqb_eq in H2; subst; auto|intros H; exists j; split; auto; apply Nat.eqb_refl].
Qed.
Lemma nth_map3 : forall (f : num -> num -> num -> num) x y z j n, length x = n -> length y = n -> length z = n -> j < n ->
  nth j (map3 f x y z) NaN = f (nth j x NaN) (nth j y NaN) (nth j z NaN).
Proof.
  intros f x. induction x; intros [|b y] [|c z] [|j] n H1 H2 H3 Hj; simpl in *; subst n; try discriminate; try lia; auto.
  apply (IHx y z j (length x)); lia.
Qed.
Lemma on_dims_nth : forall f z x d j, length x = d -> j < d ->
  (In j z -> nth j (on_dims f z x) NaN = f j (nth j x NaN)) /\ (~ In j z -> nth j (on_dims f z x) NaN = nth j x NaN).
Proof.
  intros f z x d j Hx Hj. unfold on_dims. rewrite (nth_map2 _ _ _ _ _ _ _ d 0 NaN NaN); [|rewrite seq_length; auto|auto|auto]. rewrite seq_nth by lia. simpl.
  destruct (existsb (Nat.eqb j) z) eqn:E.
  - apply existsb_In in E. split; auto. intros H. contradiction.
  - split; auto. intros H. apply existsb_In in H. congruence.
Qed.
Theorem C51_spark : forall F E x amp y wd wd', let C := e_cfg E in let d := c_dim C in cfg_ok C -> length x = d ->
  exec E (fw_spark F C x amp) wd = (Ret y, wd') ->
  exists z u, some_dims d z /\ (fleb (flit F (-1) 1) (flit F 1 1) = true -> fleb (flit F (-1) 1) u = true /\ fleb u (flit F 1 1) = true) /\
    comps d y (fun j c => exists a, c = reflect_c F a (nth j (c_lower C) NaN) (nth j (c_upper C) NaN) /\
      (In j z -> a = fadd F (nth j x NaN) (fmul F amp u)) /\ (~ In j z -> a = nth j x NaN)).
Proof.
  intros F E x amp y wd wd' C d HC Hx Ex.
  pose (S0 := fun (y : vec) (l' : elog) => exists z u, some_dims d z /\ (fleb (flit F (-1) 1) (flit F 1 1) = true -> fleb (flit F (-1) 1) u = true /\ fleb u (flit F 1 1) = true) /\
    comps d y (fun j c => exists a, c = reflect_c F a (nth j (c_lower C) NaN) (nth j (c_upper C) NaN) /\
      (In j z -> a = fadd F (nth j x NaN) (fmul F amp u)) /\ (~ In j z -> a = nth j x NaN))).
  apply (tr_sound _ E _ S0 _ _ _) in Ex; [exact Ex|]. unfold fw_spark. apply wp_bind. apply (w_fw_dims (K_tr E) I). intros z Z1 Z2 Z3.
  apply wp_bind. apply w_uniform. intros u Hu. apply w_done. exists z, u. split; [repeat split; auto|]. split; [exact Hu|].
  destruct HC as (L1 & L2 & _). unfold reflect. split; [apply map3_length; auto; rewrite on_dims_len; auto|].
  intros j Hj. rewrite (nth_map3 _ _ _ _ _ d); auto; [|rewrite on_dims_len; auto]. destruct (on_dims_nth (fun _ c => fadd F c (fmul F amp u)) z x d j Hx Hj) as [G1 G2]. eauto.
Qed.
(** a Gaussian spark: the chosen dimensions are scaled by the same factor *)
Theorem C51_gaussian : forall F E x y wd wd', let C := e_cfg E in let d := c_dim C in cfg_ok C -> length x = d ->
  exec E (fw_gspark F C x) wd = (Ret y, wd') ->
  exists z g, some_dims d z /\
    comps d y (fun j c => exists a, c = reflect_c F a (nth j (c_lower C) NaN) (nth j (c_upper C) NaN) /\
      (In j z -> a = fmul F (nth j x NaN) g) /\ (~ In j z -> a = nth j x NaN)).
Proof.
  intros F E x y wd wd' C d HC Hx Ex.
  pose (S0 := fun (y : vec) (l' : elog) => exists z g, some_dims d z /\
    comps d y (fun j c => exists a, c = reflect_c F a (nth j (c_lower C) NaN) (nth j (c_upper C) NaN) /\
      (In j z -> a = fmul F (nth j x NaN) g) /\ (~ In j z -> a = nth j x NaN))).
  apply (tr_sound _ E _ S0 _ _ _) in Ex; [exact Ex|]. unfold fw_gspark. apply wp_bind. apply (w_fw_dims (K_tr E) I). intros z Z1 Z2 Z3.
  apply wp_bind. apply w_rnd_f. intros g. apply w_done. exists z, g. split; [repeat split; auto|].
  destruct HC as (L1 & L2 & _). unfold reflect. split; [apply map3_length; auto; rewrite on_dims_len; auto|].
  intros j Hj. rewrite (nth_map3 _ _ _ _ _ d); auto; [|rewrite on_dims_len; auto]. destruct (on_dims_nth (fun _ c => fmul F c g) z x d j Hx Hj) as [G1 G2]. eauto.
Qed.
(** all fireworks and sparks of an iteration: firework i contributes as many sparks as counted, in order *)
Theorem C51_explode : forall E spark pop counts amps all wd wd' (R : vec -> num -> vec -> Prop),
  (forall x a w y w', exec E (spark x a) w = (Ret y, w') -> R x a y) ->
  exec E (fw_explode spark (length pop) pop counts amps) wd = (Ret all, wd') ->
  exists groups, all = pop ++ concat groups /\ length groups = length pop /\
    forall i x s a g, nth_error pop i = Some x -> nth_error counts i = Some s -> nth_error amps i = Some a -> nth_error groups i = Some g ->
      Z.of_nat (length g) = s /\ Forall (R x a) g.
Proof.
  intros E spark pop counts amps all wd wd' R HR Ex. unfold fw_explode, for_range in Ex.
  assert (G : forall k st all0 wd0 all wd', exec E (foldM (fun all i =>
      let* s := nthP counts i in let* a := nthP amps i in let* x := nthP pop i in
      if (s <? 0)%Z then Fail EValue else let* sp := repeatM (Z.to_nat s) (spark x a) in Done (all ++ sp)) (seq st k) all0) wd0 = (Ret all, wd') ->
    exists groups, all = all0 ++ concat groups /\ length groups = k /\
    forall i x s a g, nth_error pop (st + i) = Some x -> nth_error counts (st + i) = Some s -> nth_error amps (st + i) = Some a -> nth_error groups i = Some g ->
      Z.of_nat (length g) = s /\ Forall (R x a) g).
  { clear - HR. induction k as [|k IH]; intros st all0 wd0 all wd' Ex; cbn [seq foldM] in Ex.
    - cbn in Ex. injection Ex as <- _. exists []. rewrite app_nil_r. split; auto. split; auto. intros i x s a g _ _ _ Hg. destruct i; discriminate.
    - rewrite exec_bind in Ex. unfold nthP in Ex.
      destruct (nth_error counts st) as [s|] eqn:E1; [|cbn in Ex; discriminate]. cbn [bind] in Ex.
      destruct (nth_error amps st) as [a|] eqn:E2; [|cbn in Ex; discriminate]. cbn [bind] in Ex.
      destruct (nth_error pop st) as [x|] eqn:E3; [|cbn in Ex; discriminate]. cbn [bind] in Ex.
      destruct (s <? 0)%Z eqn:Es; [cbn in Ex; discriminate|]. apply Z.ltb_ge in Es. rewrite exec_bind in Ex.
      destruct (exec E (repeatM (Z.to_nat s) (spark x a)) wd0) as [[sp|e] w1] eqn:Er; [|discriminate]. cbn [exec] in Ex.
      apply IH in Ex. destruct Ex as (gs & -> & Lg & Hg). exists (sp :: gs). split; [simpl; rewrite app_assoc; auto|]. split; [simpl; auto|].
      assert (HSP : length sp = Z.to_nat s /\ Forall (R x a) sp).
      { clear - HR Er. revert sp wd0 w1 Er. induction (Z.to_nat s) as [|m IHm]; intros sp w0 w1 Er; cbn [repeatM] in Er.
        - cbn in Er. injection Er as <- _. auto.
        - rewrite exec_bind in Er. destruct (exec E (spark x a) w0) as [[y|e] w2] eqn:Ey; [|discriminate]. rewrite exec_bind in Er.
          destruct (exec E (repeatM m (spark x a)) w2) as [[ys|e] w3] eqn:Eys; [|discriminate]. cbn in Er. injection Er as <- _.
          destruct (IHm _ _ _ Eys) as [A1 A2]. split; [simpl; auto|constructor; eauto]. }
      intros [|i] x' s' a' g F1 F2 F3 F4.
      + rewrite Nat.add_0_r in *. cbn in F4. destruct HSP as [A1 A2]. replace s' with s by congruence. replace x' with x by congruence. replace a' with a by congruence.
        injection F4 as <-. split; auto. rewrite A1. lia.
      + apply (Hg i x' s' a' g); auto; rewrite Nat.add_succ_comm; auto. }
  destruct (G _ _ _ _ _ _ Ex) as (gs & -> & Lg & Hg). exists gs. auto.
Qed.
(** selection: everything is evaluated again; the first best becomes the first firework and the reported best, the others are
    different remaining ones, with their values *)
Theorem C51_select : forall F E tol n sparks pop fit xb fxb wd wd', let C := e_cfg E in
  exec E (fw_selection F tol n sparks) wd = (Ret (pop, fit, xb, fxb), wd') ->
  exists sf b sel xs fs, evaluated_all sparks sf (log_of (c_opt C) (w_h wd)) (log_of (c_opt C) (w_h wd')) /\
    argmin sf = Some b /\ nth_error sparks b = Some xb /\ nth_error sf b = Some fxb /\ pop = xb :: xs /\ fit = fxb :: fs /\
    length sel = n - 1 /\ NoDup sel /\ Forall2 (fun i x => nth_error (remove_at sparks b) i = Some x) sel xs /\
    Forall2 (fun i f => nth_error (remove_at sf b) i = Some f) sel fs.
Proof.
  intros F E tol n sparks pop fit xb fxb wd wd' C Ex. set (l := log_of (c_opt C) (w_h wd)).
  pose (S0 := fun (s' : list vec * list num * vec * num) (l' : elog) => let '(pop, fit, xb, fxb) := s' in
    exists sf b sel xs fs, evaluated_all sparks sf l l' /\
    argmin sf = Some b /\ nth_error sparks b = Some xb /\ nth_error sf b = Some fxb /\ pop = xb :: xs /\ fit = fxb :: fs /\
    length sel = n - 1 /\ NoDup sel /\ Forall2 (fun i x => nth_error (remove_at sparks b) i = Some x) sel xs /\
    Forall2 (fun i f => nth_error (remove_at sf b) i = Some f) sel fs).
  apply (tr_sound _ E _ S0 _ _ _) in Ex; [exact Ex|]. fold C l. unfold fw_selection. apply wp_bind. apply w_eval_all_tr. intros sf l' He.
  destruct (argmin sf) as [b|] eqn:Eb; [|exact I]. apply wp_bind. apply w_nthP_tr. intros bx Ebx. apply wp_bind. apply w_nthP_tr. intros bf Ebf.
  apply wp_bind. apply (w_choice_p (K_tr E) I). intros sel S1 S2 S3.
  assert (R : forall A (xs : list A) is (Q : list A -> elog -> Prop) l, (forall ys, Forall2 (fun i y => nth_error xs i = Some y) is ys -> Q ys l) -> wp (K_tr E) (mapM (nthP xs) is) Q l).
  { intros A xs is. induction is as [|i is IH]; intros Q l0 HQ; cbn [mapM]; [apply w_done; auto|].
    apply wp_bind. apply w_nthP_tr. intros a Ea. apply wp_bind. apply IH. intros ys Hy. apply w_done. auto. }
  apply wp_bind. apply R. intros xs Hxs. apply wp_bind. apply R. intros fs Hfs. apply w_done. exists sf, b, sel, xs, fs. auto 20.
Qed.

(** ** C68: EnhancedFireworksAlgorithm: evaluated points inside the bounds, the returned pair was evaluated, no firework's fitness gets worse *)
Definition kept_or_better (s s' : snap) : Prop := Forall2 (fun old new => old = new \/ fltb new old = true) (fst (fst s)) (fst (fst s')).
Theorem C68_efwa_partial : forall F E p, let C := e_cfg E in let A := efwa F C p in
  cfg_ok C -> no_nan (e_prob E) -> repair_ok E -> 0 < fw_n (ef_fw p) ->
  sound_run_x fwx E A /\ sizes_ok (fun k => k = fw_n (ef_fw p)) E A /\ steps_ok kept_or_better E A.
Proof.
  intros F E p C A HC Hn Hr Hp. unfold sound_run_x. fold C. set (n := fw_n (ef_fw p)).
  set (J := fun pop fit xb fxb (_ : unit) l => FwInv (inside C) n pop fit xb fxb l).
  assert (H1 : init_c (KPX C (inside C) fwx) A J).
  { eapply init_imp; [apply (fw_init_ok C (inside C) fwx n unit (plain_init C n) (efwa_iter F C p) (fun _ _ _ => True)); auto|].
    - intros Q HQ. apply w_plain_init; auto.
    - intros pop fit xb fxb par l (H & _). exact H. }
  assert (H2 : iter_r (KPX C (inside C) fwx) A J kept_or_better).
  { intros pop fit xb fxb t l HI. eapply wp_conseq0; [apply (w_efwa_iter F C fwx); auto|]. intros [[[[a b] c] d] e] l' H. exact H. }
  split; [|split].
  - apply (sound_run_c (inside C) fwx E A J); auto; [apply (iter_r_c _ _ _ _ H2)|]. intros pop fit xb fxb par l [I1 I2 I3 I4 I5]. split; auto. apply inside_len; auto.
  - apply (sizes_c (inside C) fwx _ E A J); auto; [apply (iter_r_c _ _ _ _ H2)|]. intros pop fit xb fxb par l [I1 I2 I3 I4 I5]. apply Forall2_len in I3. fold n. lia.
  - apply (steps_c (inside C) fwx _ E A J); auto.
Qed.
(** the amplitude is at least A_init - (A_init - A_final) sqrt(e (2 m - e)) / m after e of m evaluations *)
Theorem C68_amplitudes : forall F E p fit am wd wd', let C := e_cfg E in
  exec E (ef_amplitudes F C p fit) wd = (Ret am, wd') ->
  exists best, is_amin fit best /\ let e := fnat F (t_evals (w_ts wd)) in let m := flim F (c_max_evals C) in
    let least := fsub F (ef_init p) (fdiv F (fmul F (fsqrt F (fmul F e (fsub F (fmul F (flit F 2 1) m) e))) (fsub F (ef_init p) (ef_final p))) m) in
    Forall2 (fun f a => let b := fdiv F (fmul F (fw_max (ef_fw p)) (fadd F (fsub F f best) (fw_eps (ef_fw p))))
       (fadd F (vsum F (map (fun g => fsub F g best) fit)) (fw_eps (ef_fw p))) in a = if fltb b least then least else b) fit am.
Proof.
  intros F E p fit am wd wd' C Ex. unfold ef_amplitudes in Ex. rewrite exec_bind in Ex.
  destruct (exec E (fw_amplitudes F (ef_fw p) fit) wd) as [[a0|e] w1] eqn:E1; [|discriminate].
  destruct (C51_amplitudes _ _ _ _ _ _ _ E1) as (best & Hb & ->). rewrite exec_view in Ex. cbn in Ex. injection Ex as <- _.
  assert (w1 = wd) as ->.
  { unfold fw_amplitudes, amin, nthP in E1. destruct (argmin fit) as [i|]; [|discriminate]. destruct (nth_error fit i); cbn in E1; congruence. }
  exists best. split; auto. cbv zeta. set (tot := fadd F _ _). clearbody tot. clear. rewrite map_map. unfold ef_amin. cbv zeta.
  induction fit as [|f fit IH]; simpl; constructor; auto.
Qed.
(** replacing coordinates outside the bounds by random ones inside them *)
Definition randomised (C : cfg) (m y : vec) : Prop :=
  comps (c_dim C) y (fun j c => let a := nth j m NaN in let lo := nth j (c_lower C) NaN in let hi := nth j (c_upper C) NaN in
    (a = NaN -> c = NaN) /\ (a <> NaN -> fleb lo c = true /\ fleb c hi = true) /\ (fleb lo a = true -> fleb a hi = true -> c = a)).
Lemma w_rand_tr : forall K C m (Q : vec -> elog -> Prop) l, cfg_ok C -> length m = c_dim C ->
  (forall y, randomised C m y -> Q y l) -> wp K (rand_repair m (c_lower C) (c_upper C)) Q l.
Proof.
  intros K C m Q l (H1 & H2 & H3) Hm HQ. eapply wp_conseq0; [apply w_rand_repair; auto; lia|]. intros y l' (-> & Hl & Hy). apply HQ.
  split; [lia|]. intros j Hj a lo hi.
  destruct (Hy j a lo hi) as (b & Eb & B1 & B2 & B3).
  { repeat split; apply nth_error_nth'; lia. }
  rewrite (nth_error_nth _ _ NaN Eb). auto.
Qed.
(** a spark: each chosen dimension moved by its amplitude times its own draw *)
Definition moved (F : fops) (d : nat) (x amp : vec) (z : list nat) (us : list num) (m : vec) : Prop :=
  comps d m (fun j c => (forall k, nth_error z k = Some j -> exists u, nth_error us k = Some u /\ c = fadd F (nth j x NaN) (fmul F (nth j amp NaN) u)) /\
    (~ In j z -> c = nth j x NaN)).
Lemma fold_upd_nth : forall (g : nat -> num -> num) z us (x : vec) d, length us = length z -> length x = d -> NoDup z -> (forall j, In j z -> j < d) ->
  forall j, j < d -> let y := fold_left (fun y ju => upd y (fst ju) (g (fst ju) (snd ju))) (combine z us) x in
  (forall k, nth_error z k = Some j -> exists u, nth_error us k = Some u /\ nth j y NaN = g j u) /\ (~ In j z -> nth j y NaN = nth j x NaN).
Proof.
  intros g z. induction z as [|i z IH]; intros [|u us] x d Hl Hx Hn Hz j Hj; simpl in Hl; try discriminate; cbn [combine fold_left].
  - simpl. split; auto. intros k Hk. destruct k; discriminate.
  - inversion_clear Hn. assert (Hz' : forall j, In j z -> j < d) by (intros; apply Hz; simpl; auto).
    destruct (IH us (upd x i (g i u)) d ltac:(lia) ltac:(rewrite upd_length; auto) H0 Hz' j Hj) as [A1 A2]. cbn [fst snd]. cbv zeta in *. split.
    + intros [|k] Hk; simpl in Hk.
      * injection Hk as <-. exists u. split; auto. rewrite A2; auto. apply nth_error_nth. apply nth_upd_same. lia.
      * apply A1; auto.
    + intros Hi. rewrite A2 by (intros Q; apply Hi; simpl; auto). assert (i <> j) by (intros ->; apply Hi; simpl; auto).
      assert (E := nth_upd_other _ x i j (g i u) H1).
      destruct (nth_error x j) as [c|] eqn:Ec; [|apply nth_error_None in Ec; lia]. rewrite (nth_error_nth _ _ NaN E), (nth_error_nth _ _ NaN Ec). auto.
Qed.
Lemma w_ef_spark_v_tr : forall F E x amp (Q : vec -> elog -> Prop) l, let C := e_cfg E in let d := c_dim C in cfg_ok C -> length x = d ->
  (forall y, (exists z us m, some_dims d z /\ length us = length z /\
    (fleb (flit F (-1) 1) (flit F 1 1) = true -> Forall (fun u => fleb (flit F (-1) 1) u = true /\ fleb u (flit F 1 1) = true) us) /\
    moved F d x amp z us m /\ randomised C m y) -> Q y l) -> wp (K_tr E) (ef_spark_v F C x amp) Q l.
Proof.
  intros F E x amp Q l C d HC Hx HQ. unfold ef_spark_v. apply wp_bind. apply (w_fw_dims (K_tr E) I). intros z Z1 Z2 Z3.
  apply wp_bind. unfold ef_move. apply wp_bind. apply (w_mapM_P (K_tr E) _ _ (fun _ => True) (fun _ u => fleb (flit F (-1) 1) (flit F 1 1) = true -> fleb (flit F (-1) 1) u = true /\ fleb u (flit F 1 1) = true)).
  - apply Forall_forall. auto.
  - intros a T _ HT. apply w_uniform. auto.
  - intros us Hus. apply w_done. assert (Lu := Forall2_len _ _ _ _ _ Hus).
    apply w_rand_tr; auto; [rewrite fold_upd_len; auto|]. intros y Hy. apply HQ. exists z, us. eexists. split; [repeat split; auto|]. split; [auto|]. split; [|split; [|exact Hy]].
    + intros H. clear - Hus H. induction Hus; constructor; auto.
    + split; [rewrite fold_upd_len; auto|]. intros j Hj.
      apply (fold_upd_nth (fun j u => fadd F (nth j x NaN) (fmul F (nth j amp NaN) u)) z us x d); auto.
Qed.
Theorem C68_spark : forall F E x amp y wd wd', let C := e_cfg E in let d := c_dim C in cfg_ok C -> length x = d ->
  exec E (ef_spark F C x amp) wd = (Ret y, wd') ->
  exists z us m, some_dims d z /\ length us = length z /\
    (fleb (flit F (-1) 1) (flit F 1 1) = true -> Forall (fun u => fleb (flit F (-1) 1) u = true /\ fleb u (flit F 1 1) = true) us) /\
    moved F d x (repeat amp d) z us m /\ randomised C m y.
Proof.
  intros F E x amp y wd wd' C d HC Hx Ex.
  pose (S0 := fun (y : vec) (l' : elog) => exists z us m, some_dims d z /\ length us = length z /\
    (fleb (flit F (-1) 1) (flit F 1 1) = true -> Forall (fun u => fleb (flit F (-1) 1) u = true /\ fleb u (flit F 1 1) = true) us) /\
    moved F d x (repeat amp d) z us m /\ randomised C m y).
  apply (tr_sound _ E _ S0 _ _ _) in Ex; [exact Ex|]. unfold ef_spark. apply w_ef_spark_v_tr; auto.
Qed.
(** a Gaussian spark: the chosen dimensions move towards (or past) the best point by the same factor *)
Theorem C68_gaussian : forall F E best x y wd wd', let C := e_cfg E in let d := c_dim C in cfg_ok C -> length x = d ->
  exec E (ef_gspark F C best x) wd = (Ret y, wd') ->
  exists z e m, some_dims d z /\
    comps d m (fun j c => (In j z -> c = fadd F (nth j x NaN) (fmul F (fsub F (nth j best NaN) (nth j x NaN)) e)) /\ (~ In j z -> c = nth j x NaN)) /\
    randomised C m y.
Proof.
  intros F E best x y wd wd' C d HC Hx Ex.
  pose (S0 := fun (y : vec) (l' : elog) => exists z e m, some_dims d z /\
    comps d m (fun j c => (In j z -> c = fadd F (nth j x NaN) (fmul F (fsub F (nth j best NaN) (nth j x NaN)) e)) /\ (~ In j z -> c = nth j x NaN)) /\
    randomised C m y).
  apply (tr_sound _ E _ S0 _ _ _) in Ex; [exact Ex|]. unfold ef_gspark. apply wp_bind. apply (w_fw_dims (K_tr E) I). intros z Z1 Z2 Z3.
  apply wp_bind. apply w_rnd_f. intros e. fold C. apply w_rand_tr; auto; [rewrite on_dims_len; auto|]. intros y' Hy. exists z, e. eexists.
  split; [repeat split; auto|]. split; [|exact Hy]. split; [rewrite on_dims_len; auto|]. intros j Hj.
  apply (on_dims_nth (fun j c => fadd F c (fmul F (fsub F (nth j best NaN) c) e)) z x d j); auto.
Qed.
(** a firework competes with one random spark *)
Theorem C68_replace : forall E sparks sf pop fit i pop' fit' wd wd', length sf = length sparks ->
  exec E (ef_replace sparks sf (pop, fit) i) wd = (Ret (pop', fit'), wd') ->
  exists r x fr fi, nth_error sparks r = Some x /\ nth_error sf r = Some fr /\ nth_error fit i = Some fi /\
    (if fltb fr fi then row_set pop pop' i x /\ row_set fit fit' i fr else pop' = pop /\ fit' = fit).
Proof.
  intros E sparks sf pop fit i pop' fit' wd wd' HL Ex.
  pose (S0 := fun (s' : list vec * list num) (l' : elog) => exists r x fr fi, nth_error sparks r = Some x /\ nth_error sf r = Some fr /\ nth_error fit i = Some fi /\
    (if fltb fr fi then row_set pop (fst s') i x /\ row_set fit (snd s') i fr else fst s' = pop /\ snd s' = fit)).
  apply (tr_sound _ E _ S0 _ _ _) in Ex; [exact Ex|]. unfold ef_replace. cbn [fst snd]. apply wp_bind. apply (w_integers_v (K_tr E) I). intros r Hr.
  apply wp_bind. apply w_nthP_tr. intros fr Efr. apply wp_bind. apply w_nthP_tr. intros fi Efi.
  destruct (nth_error sparks r) as [x|] eqn:Ex'; [|apply nth_error_None in Ex'; lia].
  destruct (fltb fr fi) eqn:Q.
  - apply wp_bind. unfold nthP. rewrite Ex'. apply w_done. apply wp_bind. apply w_setP_tr. intros R1. apply wp_bind. apply w_setP_tr. intros R2. apply w_done.
    exists r, x, fr, fi. rewrite Q. auto.
  - apply w_done. exists r, x, fr, fi. rewrite Q. auto.
Qed.
(** selection: the first best spark is reported as the best, whatever was known before, and becomes the first firework if it is
    better than it; the others compete in turn *)
Theorem C68_select : forall E n pop fit sparks pop' fit' xb fxb wd wd', let C := e_cfg E in
  exec E (ef_selection n pop fit sparks) wd = (Ret (pop', fit', xb, fxb), wd') ->
  exists sf b f_0 s w1, exec E (eval_all sparks) wd = (Ret sf, w1) /\ evaluated_all sparks sf (log_of (c_opt C) (w_h wd)) (log_of (c_opt C) (w_h w1)) /\
    argmin sf = Some b /\ nth_error sparks b = Some xb /\ nth_error sf b = Some fxb /\ nth_error fit 0 = Some f_0 /\
    (if fltb fxb f_0 then row_set pop (fst s) 0 xb /\ row_set fit (snd s) 0 fxb else s = (pop, fit)) /\
    exec E (foldM (ef_replace sparks sf) (seq 1 (n - 1)) s) w1 = (Ret (pop', fit'), wd').
Proof.
  intros E n pop fit sparks pop' fit' xb fxb wd wd' C Ex. unfold ef_selection in Ex. rewrite exec_bind in Ex.
  destruct (exec E (eval_all sparks) wd) as [[sf|e] w1] eqn:E1; [|discriminate].
  assert (HE : evaluated_all sparks sf (log_of (c_opt C) (w_h wd)) (log_of (c_opt C) (w_h w1))).
  { set (l := log_of (c_opt C) (w_h wd)).
    pose (S0 := fun (fs : list num) (l' : elog) => evaluated_all sparks fs l l').
    apply (tr_sound _ E _ S0 _ _ _) in E1; [exact E1|]. apply w_eval_all_tr. auto. }
  destruct (argmin sf) as [b|] eqn:Eb; [|discriminate]. unfold nthP in Ex.
  destruct (nth_error sparks b) as [bx|] eqn:Ebx; [|discriminate]. cbn [bind] in Ex.
  destruct (nth_error sf b) as [bf|] eqn:Ebf; [|discriminate]. cbn [bind] in Ex.
  destruct (nth_error fit 0) as [f_0|] eqn:Ef; [|discriminate]. cbn [bind] in Ex. rewrite exec_bind in Ex. unfold setP in Ex.
  destruct (fltb bf f_0) eqn:Q.
  - destruct (0 <? length pop) eqn:Lp; [|discriminate]. destruct (0 <? length fit) eqn:Lf; [|discriminate].
    apply Nat.ltb_lt in Lp, Lf. cbn [bind exec] in Ex. rewrite exec_bind in Ex.
    destruct (exec E (foldM (ef_replace sparks sf) _ _) w1) as [[s2|e] w2] eqn:E2; [|discriminate]. destruct s2 as [p2 g2]. cbn in Ex. injection Ex as <- <- <- <- <-.
    exists sf, b, f_0, (upd pop 0 bx, upd fit 0 bf), w1. cbn [fst snd]. rewrite Q. split; [reflexivity|]. split; [exact HE|].
    split; auto. split; auto. split; auto. split; auto. split; [split; apply row_set_upd; auto|exact E2].
  - cbn [bind exec] in Ex. rewrite exec_bind in Ex.
    destruct (exec E (foldM (ef_replace sparks sf) _ _) w1) as [[s2|e] w2] eqn:E2; [|discriminate]. destruct s2 as [p2 g2]. cbn in Ex. injection Ex as <- <- <- <- <-.
    exists sf, b, f_0, (pop, fit), w1. rewrite Q. auto 10.
Qed.

(** ** C69: DynamicFireworksAlgorithmGauss, DynamicFireworksAlgorithm: the returned value is the best value evaluated, the points
    evaluated are inside the bounds, the reported value never gets worse *)
Definition value_run_x (X : exn -> Prop) (E : env) (A : algo) : Prop :=
  forall cb n pos r w' ev,
    run_body E A cb n (World (task_init (e_cfg E)) [] pos) = (r, w', ev) ->
    (forall p, In p (w_h w') -> inside (e_cfg E) (fst p)) /\
    StronglySorted (fun newer older => fleb newer older = true) (reported ev) /\
    match r with
    | Ret (x, v) => inside (e_cfg E) x /\ v = t_xf (w_ts w') /\ best_of (c_opt (e_cfg E)) (returned (w_h w')) v
    | Raise e => X e \/ e = EFuel \/ (exists x, hd_error (w_h w') = Some (x, Raise e)) \/ (cb ev = Some e)
    end.
Theorem value_run_c : forall X E A (I : a_pop A -> list num -> vec -> num -> a_par A -> elog -> Prop), let C := e_cfg E in
  cfg_ok C -> no_nan (e_prob E) -> repair_ok E -> init_c (KPX C (inside C) X) A I -> iter_c (KPX C (inside C) X) A I ->
  (forall pop fit xb fxb par l, I pop fit xb fxb par l -> inside C xb /\ value_ok l fxb) -> value_run_x X E A.
Proof.
  intros X E A I C HC Hn Hr H1 H2 HI cb n pos r w' ev H.
  assert (HA := algo_ok_c _ _ _ H1 H2).
  destruct (run_inv _ _ _ _ cb n pos (env_ok_KB (inside C) X E Hn Hr) HA (fun a b => fleb a b = true)) with (r := r) (w' := w') (ev := ev)
    as (P1 & P2 & P3 & P4); auto.
  - intros s l s' l' I1 I2 He. destruct (HI _ _ _ _ _ _ I1) as (_ & (y & S1) & L1 & N1). destruct (HI _ _ _ _ _ _ I2) as (_ & (y' & S2) & L2 & N2).
    destruct S1 as [->|S1]; [apply fleb_PInf; auto|]. eapply L2. eapply ext_In; eauto.
  - intros a b c. apply fleb_trans.
  - split; [|split; auto].
    + intros p Hp. rewrite Forall_forall in P1. apply P1; auto.
    + destruct r as [[x v]|e].
      * destruct P4 as (s & I1 & -> & ->). destruct (HI _ _ _ _ _ _ I1) as (Hl & (y & S1) & L1 & N1).
        destruct (Good_best_of _ _ _ _ (conj S1 (conj L1 N1))) as [B1 B2]. split; auto. split; auto.
        eapply best_of_unique; eauto. apply P2.
      * destruct P4 as [[P4|P4]|[P4|[P4|P4]]]; auto.
Qed.
Theorem C69_dynfwa_partial : forall F E p gauss, let C := e_cfg E in let A := dynfwa F C p gauss in
  cfg_ok C -> no_nan (e_prob E) -> repair_ok E -> 0 < fw_n (dy_fw p) ->
  value_run_x fwx E A /\ sizes_ok (fun k => k = fw_n (dy_fw p)) E A.
Proof.
  intros F E p gauss C A HC Hn Hr Hp. set (n := fw_n (dy_fw p)).
  set (J := fun pop fit xb fxb t l => DyInv C n pop fit xb fxb t l).
  assert (H1 : init_c (KPX C (inside C) fwx) A J).
  { eapply init_imp; [apply (fw_init_ok C (inside C) fwx n dy_state (dy_init F C n) (dy_iter F C p gauss)
      (fun _ _ t => dy_alias t = false /\ length (dy_cf t) = c_dim C)); auto|].
    - intros Q HQ. unfold dy_init. apply wp_bind. apply w_default_numpy_init; auto. intros pop fit l I1 I2 I3. apply w_done. apply HQ; auto.
      split; [reflexivity|]. cbn [dy_cf]. destruct HC as (L1 & L2 & _). unfold vsub. apply map2_length; auto.
    - intros pop fit xb fxb t l ([I1 I2 I3 I4 I5] & (G1 & G2 & G3) & I6 & I7). constructor; auto; [split; [exists xb; auto|auto]|]. rewrite I6. discriminate. }
  assert (H2 : iter_c (KPX C (inside C) fwx) A J).
  { intros pop fit xb fxb t l HI. eapply wp_conseq0; [apply (w_dy_iter F C fwx); auto|]. intros [[[[a b] c] d] e] l' [H _]. exact H. }
  split.
  - apply (value_run_c fwx E A J); auto. intros pop fit xb fxb t l [I1 I2 I3 I4 I5 I6 I7 I8]. auto.
  - apply (sizes_c (inside C) fwx _ E A J); auto. intros pop fit xb fxb t l [I1 I2 I3 I4 I5 I6 I7 I8]. apply Forall2_len in I3. fold n. lia.
Qed.
(** the core firework: the best of its sparks replaces the best point if no worse; then, if the best of the other sparks is no worse than that,
    it becomes the best point and the amplitude grows, otherwise it shrinks *)
Theorem C69_update : forall F E p cf xcb fcb xb fxb t xb' fxb' t' wd wd', let C := e_cfg E in
  exec E (dy_update F p cf xcb fcb xb fxb t) wd = (Ret (xb', fxb', t'), wd') ->
  exists sf b sx sb x1 f1, evaluated_all cf sf (log_of (c_opt C) (w_h wd)) (log_of (c_opt C) (w_h wd')) /\
    argmin sf = Some b /\ nth_error cf b = Some sx /\ nth_error sf b = Some sb /\
    (if fleb sb fxb then x1 = sx /\ f1 = sb else x1 = xb /\ f1 = fxb) /\
    (if fleb fcb f1 then xb' = xcb /\ fxb' = fcb /\ dy_cf t' = map (fun a => fmul F a (dy_amp p)) (dy_cf t)
     else xb' = x1 /\ fxb' = f1 /\ dy_cf t' = map (fun a => fmul F a (dy_red p)) (dy_cf t)).
Proof.
  intros F E p cf xcb fcb xb fxb t xb' fxb' t' wd wd' C Ex. set (l := log_of (c_opt C) (w_h wd)).
  pose (S0 := fun (s' : vec * num * dy_state) (l' : elog) => let '(xb', fxb', t') := s' in
    exists sf b sx sb x1 f1, evaluated_all cf sf l l' /\
    argmin sf = Some b /\ nth_error cf b = Some sx /\ nth_error sf b = Some sb /\
    (if fleb sb fxb then x1 = sx /\ f1 = sb else x1 = xb /\ f1 = fxb) /\
    (if fleb fcb f1 then xb' = xcb /\ fxb' = fcb /\ dy_cf t' = map (fun a => fmul F a (dy_amp p)) (dy_cf t)
     else xb' = x1 /\ fxb' = f1 /\ dy_cf t' = map (fun a => fmul F a (dy_red p)) (dy_cf t))).
  apply (tr_sound _ E _ S0 _ _ _) in Ex; [exact Ex|]. fold C l. unfold dy_update. apply wp_bind. apply w_eval_all_tr. intros sf l' He.
  destruct (argmin sf) as [b|] eqn:Eb; [|exact I]. apply wp_bind. apply w_nthP_tr. intros sx Esx. apply wp_bind. apply w_nthP_tr. intros sb Esb.
  destruct (fleb sb fxb) eqn:Q1.
  - destruct (fleb fcb sb) eqn:Q2; apply w_done; exists sf, b, sx, sb, sx, sb; rewrite Q1, Q2; auto 20.
  - destruct (fleb fcb fxb) eqn:Q2; apply w_done; exists sf, b, sx, sb, xb, fxb; rewrite Q1, Q2; auto 20.
Qed.
(** the number of sparks of the core firework *)
Theorem C69_core_count : forall F E p fit fxb z wd wd',
  exec E (dy_cf_num F p fit fxb) wd = (Ret z, wd') ->
  exists worst md, is_amax fit worst /\ is_amax (map (fun f => fsub F f fxb) fit) md /\
    count_eq F p (fdiv F (fmul F (fnat F (fw_num p)) (fadd F (fsub F worst fxb) (fw_eps p))) (fadd F md (fw_eps p))) z.
Proof.
  intros F E p fit fxb z wd wd' Ex.
  pose (S0 := fun (z : Z) (l' : elog) => exists worst md, is_amax fit worst /\ is_amax (map (fun f => fsub F f fxb) fit) md /\
    count_eq F p (fdiv F (fmul F (fnat F (fw_num p)) (fadd F (fsub F worst fxb) (fw_eps p))) (fadd F md (fw_eps p))) z).
  apply (tr_sound _ E _ S0 _ _ _) in Ex; [exact Ex|]. unfold dy_cf_num, amax. apply wp_bind.
  destruct (argmax fit) as [i|] eqn:Ei; [|exact I]. apply w_nthP_tr. intros worst Ew. apply wp_bind.
  destruct (argmax (map _ fit)) as [j|] eqn:Ej; [|exact I]. apply w_nthP_tr. intros md Emd.
  assert (A1 : is_amax fit worst) by (exists i; auto). assert (A2 : is_amax (map (fun f => fsub F f fxb) fit) md) by (exists j; auto).
  cbv zeta. set (c := fdiv F _ _).
  assert (G : forall zz, count_eq F p c zz -> S0 zz (log_of (c_opt (e_cfg E)) (w_h wd))) by (intros zz Hz; exists worst, md; auto).
  destruct (fltb c _) eqn:Q1; [apply (w_py_round (K_tr E)); [exact I|exact I|]; intros y _; apply G; left; auto|].
  destruct (fltb (fmul F (fw_b p) (fnat F (fw_num p))) c) eqn:Q2; cbn [andb].
  - destruct (fltb (fw_a p) (fw_b p)) eqn:Q3; cbn [andb]; [destruct (fltb (fw_b p) (flit F 1 1)) eqn:Q4|]; (apply (w_py_round (K_tr E)); [exact I|exact I|]); intros y Hy; apply G; unfold count_eq; cbv zeta.
    + right. left. auto 10.
    + right. right. split; [exact Q1|]. split; [auto|]. rewrite Hy. reflexivity.
    + right. right. split; [exact Q1|]. split; [auto|]. rewrite Hy. reflexivity.
  - apply (w_py_round (K_tr E)); [exact I|exact I|]. intros y Hy. apply G. unfold count_eq. cbv zeta. right. right. split; [exact Q1|]. split; [auto|]. rewrite Hy. reflexivity.
Qed.
(** selection: every firework competes with one random spark, then the best spark becomes the first firework *)
Theorem C69_select : forall E pop fit sparks pop' fit' wd wd', let C := e_cfg E in
  exec E (dy_selection pop fit sparks) wd = (Ret (pop', fit'), wd') ->
  exists sf b bx bf s w1, exec E (eval_all sparks) wd = (Ret sf, w1) /\ evaluated_all sparks sf (log_of (c_opt C) (w_h wd)) (log_of (c_opt C) (w_h w1)) /\
    argmin sf = Some b /\ nth_error sparks b = Some bx /\ nth_error sf b = Some bf /\
    exec E (foldM (ef_replace sparks sf) (seq 0 (length fit)) (pop, fit)) w1 = (Ret s, wd') /\
    row_set (fst s) pop' 0 bx /\ row_set (snd s) fit' 0 bf.
Proof.
  intros E pop fit sparks pop' fit' wd wd' C Ex. unfold dy_selection in Ex. rewrite exec_bind in Ex.
  destruct (exec E (eval_all sparks) wd) as [[sf|e] w1] eqn:E1; [|discriminate].
  assert (HE : evaluated_all sparks sf (log_of (c_opt C) (w_h wd)) (log_of (c_opt C) (w_h w1))).
  { set (l := log_of (c_opt C) (w_h wd)).
    pose (S0 := fun (fs : list num) (l' : elog) => evaluated_all sparks fs l l').
    apply (tr_sound _ E _ S0 _ _ _) in E1; [exact E1|]. apply w_eval_all_tr. auto. }
  destruct (argmin sf) as [b|] eqn:Eb; [|discriminate]. rewrite exec_bind in Ex. unfold dy_replace in Ex.
  destruct (exec E (foldM (ef_replace sparks sf) _ _) w1) as [[s2|e] w2] eqn:E2; [|discriminate]. destruct s2 as [p2 g2]. unfold nthP in Ex.
  destruct (nth_error sparks b) as [bx|] eqn:Ebx; [|discriminate]. cbn [bind] in Ex.
  destruct (nth_error sf b) as [bf|] eqn:Ebf; [|discriminate]. cbn [bind] in Ex. unfold setP in Ex.
  destruct (0 <? length p2) eqn:Lp; [|discriminate]. destruct (0 <? length g2) eqn:Lf; [|discriminate]. apply Nat.ltb_lt in Lp, Lf.
  cbn in Ex. injection Ex as <- <- <-. exists sf, b, bx, bf, (p2, g2), w1. cbn [fst snd]. split; [reflexivity|]. split; [exact HE|].
  split; auto. split; auto. split; auto. split; [exact E2|]. split; apply row_set_upd; auto.
Qed.

Module ExFwa.
  Definition C := Cfg Minimization 2 [N' 0; N' 0] [N' 1; N' 1] (LFin 30) (LFin 4) NInf.
  Definition E := Env C lin (clip C) (fun p => q (Z.of_nat (7 * (p * p) + 3 * p + 1) mod 16) 16) (fun p => (5 * p + 2 + p / 3) mod 7).
  Definition fw := FWPar 2 6 (q 1 4) (q 3 4) (q 1 2) 1 (q 1 1024).
  Definition ef := EFPar fw (q 1 4) (q 1 8).
  Definition dy := DYPar fw (q 3 2) (q 1 2).
  Definition tol := q 1 1024.
  Lemma C_ok : cfg_ok C.
  Proof. split; [reflexivity|]. split; [reflexivity|]. repeat constructor. Qed.
  Lemma mod_range : forall l u a, (l < u)%Z -> (l <= l + a mod (u - l) /\ l + a mod (u - l) <= u)%Z.
  Proof. intros l u a H. assert (B := Z.mod_pos_bound a (u - l) ltac:(lia)). lia. Qed.
  Lemma reflect_Fin : forall l u a, (l <= u)%Z -> in_range (Fin l) (Fin u) (reflect_c fxx a (Fin l) (Fin u)).
  Proof.
    intros l u a H. unfold reflect_c, in_range. destruct a as [| |a|]; cbn [fltb fadd fmod fsub fxx fx fx_lift2]; auto.
    destruct (Z.ltb_spec u a) as [H1|H1].
    - destruct (Z.eqb_spec (u - l) 0) as [H2|H2]; cbn [fltb fadd fmod fsub fxx fx fx_lift2]; auto. destruct (mod_range l u a ltac:(lia)) as [M1 M2].
      rewrite (proj2 (Z.ltb_ge _ _) M1). right. cbn [fleb]. split; apply Z.leb_le; assumption.
    - cbn [fltb]. destruct (Z.ltb_spec a l) as [H3|H3].
      + cbn [fx_lift2]. destruct (Z.eqb_spec (u - l) 0) as [H2|H2]; auto. destruct (mod_range l u a ltac:(lia)) as [M1 M2]. right. cbn [fleb]. split; apply Z.leb_le; assumption.
      + right. cbn [fleb]. split; apply Z.leb_le; lia.
  Qed.
  Example hyps : cfg_ok C /\ no_nan (e_prob E) /\ repair_ok E /\ reflect_ok fxx C /\ 0 < fw_n fw /\ 0 < fw_n (ef_fw ef) /\ 0 < fw_n (dy_fw dy).
  Proof.
    split; [exact C_ok|]. split; [apply lin_no_nan|]. split; [exact (clip_ok C lin _ _ C_ok)|]. split; [|simpl; lia].
    assert (H : (0 * fx_scale <= 1 * fx_scale)%Z) by (apply Z.leb_le; vm_compute; reflexivity).
    constructor; [|constructor; [|constructor]]; intros a; apply reflect_Fin; exact H.
  Qed.
  Example fwa_trace : trace E (fwa fxx C tol fw) 9 =
    (Ret ([4096; 3200], 10496), [[4096; 45056]; [12288; 36864]; [4096; 45056]; [12288; 36864]; [4096; 45056];
    [4096; 45056]; [12288; 36864]; [12288; 36864]; [12288; 36975]; [12288; 37038]; [4096; 42240]; [12288;
    36864]; [4096; 45056]; [12335; 36864]; [12288; 36864]; [12288; 36864]; [12303; 36864]; [4096; 63488];
    [4096; 10240]; [12288; 25344]; [4096; 10240]; [12288; 36864]; [4110; 10240]; [4096; 10240]; [4096; 10240];
    [4127; 10240]; [12288; 55296]; [12288; 38912]; [4096; 3200]; [4096; 3200]])%Z.
  Proof. vm_compute. reflexivity. Qed.
  Example efwa_trace : trace E (efwa fxx C ef) 9 =
    (Ret ([12288; 36864], 86016), [[4096; 45056]; [12288; 36864]; [4096; 45056]; [12288; 36864]; [4096;
    45056]; [4096; 45056]; [12288; 36864]; [12288; 36864]; [12288; 36864]; [12320; 36864]; [6656; 45056];
    [12288; 36864]; [12288; 36864]; [30720; 36864]; [43008; 36864]; [18432; 36864]; [12288; 36864]; [12288;
    36864]; [12288; 36864]; [12288; 36864]; [14336; 36864]; [18048; 36864]; [12288; 36864]; [12288; 36864];
    [30720; 36864]; [14336; 36864]; [26624; 36864]; [12288; 36864]; [12288; 36864]; [12288; 36864]])%Z.
  Proof. vm_compute. reflexivity. Qed.
  Example dynfwag_trace : trace E (dynfwa fxx C dy true) 9 =
    (Ret ([12288; 28672], 69632), [[4096; 45056]; [12288; 36864]; [4096; 45056]; [12288; 36864]; [4096;
    45056]; [4096; 45056]; [12288; 36864]; [12288; 36864]; [12288; 36864]; [12303; 36864]; [6656; 45056];
    [12288; 49152]; [12288; 61440]; [24576; 36864]; [12288; 36864]; [12288; 36864]; [12288; 36864]; [12288;
    36864]; [14336; 36864]; [12288; 55296]; [12288; 53248]; [12288; 59392]; [12288; 36864]; [26624; 36864];
    [12288; 36864]; [12288; 59392]; [61440; 36864]; [30720; 36864]; [12288; 28672]; [18432; 36864]])%Z.
  Proof. vm_compute. reflexivity. Qed.
  Example dynfwa_trace : trace E (dynfwa fxx C dy false) 9 =
    (Ret ([12288; 12288], 36864), [[4096; 45056]; [12288; 36864]; [4096; 45056]; [12288; 36864]; [4096;
    45056]; [4096; 45056]; [12288; 36864]; [12288; 36864]; [12288; 36864]; [12303; 36864]; [12288; 65536];
    [12288; 12288]; [12288; 61440]; [24576; 36864]; [12288; 36864]; [12288; 36864]; [12288; 36864]; [12288;
    36864]; [14336; 36864]; [12288; 55296]; [12288; 53248]; [12288; 59392]; [12288; 36864]; [26624; 36864];
    [12288; 12288]; [12288; 12288]; [12288; 12288]; [12288; 12288]; [12288; 36864]; [12288; 36864]])%Z.
  Proof. vm_compute. reflexivity. Qed.
  (** the step theorems are about steps that return: a step of each kind *)
  Definition pop := [[q 1 2; q 1 4]; [q 1 1; q 0 1]; [q 0 1; q 1 8]].
  Definition fit := [q 1 1; q 3 4; q 1 8].
  Definition w0 := World (task_init C) [] 0.
  Definition returns {A} (r : outcome A * world) : bool := match fst r with Ret _ => true | Raise _ => false end.
  Example steps_return : [returns (exec E (fw_counts fxx fw fit) w0); returns (exec E (fw_amplitudes fxx fw fit) w0);
     returns (exec E (fw_spark fxx C (nth 0 pop []) (q 3 2)) w0); returns (exec E (fw_gspark fxx C (nth 0 pop [])) w0);
     returns (exec E (fw_explode (fw_spark fxx C) 3 pop [1; 0; 2]%Z fit) w0); returns (exec E (fw_selection fxx tol 2 pop) w0);
     returns (exec E (ef_amplitudes fxx C ef fit) w0); returns (exec E (ef_spark fxx C (nth 0 pop []) (q 3 2)) w0);
     returns (exec E (ef_gspark fxx C (nth 1 pop []) (nth 0 pop [])) w0); returns (exec E (ef_replace pop fit (pop, fit) 1) w0);
     returns (exec E (ef_selection 3 pop fit pop) w0); returns (exec E (dy_selection pop fit pop) w0); returns (exec E (dy_cf_num fxx fw fit (q 1 8)) w0);
     returns (exec E (dy_update fxx dy pop (nth 1 pop []) (q 1 4) (nth 2 pop []) (q 1 8) (DYState [q 1 1; q 1 1] false)) w0)] = repeat true 14.
  Proof. vm_compute. reflexivity. Qed.
  (** what the deterministic ones computed, in units of 2^-16 *)
  Definition show {A B} (f : A -> B) (r : outcome A * world) : option B := match fst r with Ret a => Some (f a) | Raise _ => None end.
  Example counts_case : show (fun z => z) (exec E (fw_counts fxx fw fit) w0) =
    Some [2; 2; 4]%Z.
  Proof. vm_compute. reflexivity. Qed.
  Example amplitudes_case : show (map scl) (exec E (fw_amplitudes fxx fw fit) w0) =
    Some [19123; 13665; 21]%Z.
  Proof. vm_compute. reflexivity. Qed.
  Example ef_amplitudes_case : show (map scl) (exec E (ef_amplitudes fxx C ef fit) w0) =
    Some [19123; 16349; 16349]%Z.
  Proof. vm_compute. reflexivity. Qed.
  Example spark_case : show (map scl) (exec E (fw_spark fxx C (nth 0 pop []) (q 3 2)) w0) =
    Some [32768; 16384]%Z.
  Proof. vm_compute. reflexivity. Qed.
  Example core_count_case : show (fun z => z) (exec E (dy_cf_num fxx fw fit (q 1 8)) w0) =
    Some 4%Z.
  Proof. vm_compute. reflexivity. Qed.
End ExFwa.

(** C51 and C68, refuted parts: the whole population is evaluated again in every iteration and the best of that is reported, whatever was known: when the
    budget runs out in between (or the problem is noisy) the best evaluated point is lost (binary64) *)
Definition short_C : cfg := Cfg Minimization 2 [N' 0; N' 0] [N' 1; N' 1] (LFin 3) (LFin 3) NInf.
Definition short_p : fw_par := FWPar 2 4 (q 1 4) (q 3 4) (q 1 2) 1 (q 1 1024).
Lemma short_ok : cfg_ok short_C /\ no_nan lin /\ repair_ok (exenv short_C lin).
Proof.
  assert (HC : cfg_ok short_C) by (split; [reflexivity|]; split; [reflexivity|]; repeat constructor).
  split; [exact HC|]. split; [apply lin_no_nan|]. exact (clip_ok short_C lin _ _ HC).
Qed.
Theorem C51_fwa_refuted : exists E tol p k, let C := e_cfg E in
  cfg_ok C /\ no_nan (e_prob E) /\ repair_ok E /\ 0 < fw_n p /\
  (exists x v wd ev y u, run_body E (fwa b64ops C tol p) (fun _ => None) k (World (task_init C) [] 0) = (Ret (x, v), wd, ev) /\
     In (y, Ret u) (w_h wd) /\ better (c_opt C) u v = true) /\ ~ best_run_x fwx E (fwa b64ops C tol p).
Proof.
  exists (exenv short_C lin), (q 1 8), short_p, 9. cbv zeta. destruct short_ok as (H1 & H2 & H3).
  split; [exact H1|]. split; [exact H2|]. split; [exact H3|]. split; [simpl; lia|]. apply run_lost_best. vm_compute. reflexivity.
Qed.
Theorem C68_efwa_refuted : exists E p k, let C := e_cfg E in
  cfg_ok C /\ no_nan (e_prob E) /\ repair_ok E /\ 0 < fw_n (ef_fw p) /\
  (exists x v wd ev y u, run_body E (efwa b64ops C p) (fun _ => None) k (World (task_init C) [] 0) = (Ret (x, v), wd, ev) /\
     In (y, Ret u) (w_h wd) /\ better (c_opt C) u v = true) /\ ~ best_run_x fwx E (efwa b64ops C p).
Proof.
  exists (exenv short_C lin), (EFPar short_p (q 1 4) (q 1 8)), 9. cbv zeta. destruct short_ok as (H1 & H2 & H3).
  split; [exact H1|]. split; [exact H2|]. split; [exact H3|]. split; [simpl; lia|]. apply run_lost_best. vm_compute. reflexivity.
Qed.
(** C69, refuted part: best_x may be the row population[0] itself, which the next selection overwrites; on a noisy problem the returned point
    then never had the returned value (binary64) *)
Definition noisy : problem := fun h _ => Ret (q (Z.of_nat (length h * length h + 17 * length h + 3) mod 17) 16).
Definition alias_C : cfg := Cfg Minimization 2 [N' 0; N' 0] [N' 1; N' 1] (LFin 20) (LFin 3) NInf.
Theorem C69_pair_refuted : forall gauss, exists E p k, let C := e_cfg E in
  cfg_ok C /\ no_nan (e_prob E) /\ repair_ok E /\ 0 < fw_n (dy_fw p) /\
  (exists x v wd ev, run_body E (dynfwa b64ops C p gauss) (fun _ => None) k (World (task_init C) [] 0) = (Ret (x, v), wd, ev) /\
     v <> worst (c_opt C) /\ ~ In (x, Ret v) (w_h wd)) /\ ~ best_run_x fwx E (dynfwa b64ops C p gauss).
Proof.
  intros gauss. exists (exenv alias_C noisy), (DYPar short_p (q 3 2) (q 1 2)), 9. cbv zeta.
  assert (HC : cfg_ok alias_C) by (split; [reflexivity|]; split; [reflexivity|]; repeat constructor).
  split; [exact HC|]. split; [intros h x v H; unfold noisy in H; injection H as <-; unfold q; discriminate|]. split; [exact (clip_ok alias_C noisy _ _ HC)|].
  split; [simpl; lia|]. apply run_bad_pair. destruct gauss; vm_compute; reflexivity.
Qed.

Print Assumptions C51_fwa_partial.
Print Assumptions C51_fwa_inside_partial.
Print Assumptions C51_counts.
Print Assumptions C51_amplitudes.
Print Assumptions C51_spark.
Print Assumptions C51_gaussian.
Print Assumptions C51_explode.
Print Assumptions C51_select.
Print Assumptions C51_fwa_refuted.
Print Assumptions C68_efwa_partial.
Print Assumptions C68_amplitudes.
Print Assumptions C68_spark.
Print Assumptions C68_gaussian.
Print Assumptions C68_replace.
Print Assumptions C68_select.
Print Assumptions C68_efwa_refuted.
Print Assumptions C69_dynfwa_partial.
Print Assumptions C69_update.
Print Assumptions C69_core_count.
Print Assumptions C69_select.
Print Assumptions C69_pair_refuted.
