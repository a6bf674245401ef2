(** Final theorems about MultipleTrajectorySearch, MultipleTrajectorySearchV1 and the local searches of mts.py (C94-C98). *)
From Coq Require Import ZArith Lia Bool List Permutation Sorting.Sorted.
From Verif Require Import Num Task TaskSpec TaskProofs TaskProofs2 Prog Wp GetBest Run RunSpec RunProofs RunProofs2
  AlgoLib Fops AlgTac StepSpec StepLib Indiv AlgDE AlgPSO AlgPSOProofs Reach AlgBasic AlgBasic2 AlgBasic2Proofs Repair B64 ExLib ExLib2
  PropertiesBasic2 Progress PropertiesProgress PropertiesProgress2 Endless KeepLib AlgMts AlgMtsProofs.
Import ListNotations.

(** ** Repairs that leave components within the bounds alone *)
Lemma zip3_keeps : forall C f x, cfg_ok C -> length x = c_dim C -> (forall a l u, fleb l u = true -> in_range l u a -> f a l u = a) -> keeps C x (zip3 f x (c_lower C) (c_upper C)).
Proof.
  intros C f x (L1 & L2 & L3) Hx Hf. intros i a l u. assert (L4 : length x = length (c_lower C)) by congruence. clear Hx L1 L2. revert x L4 i.
  induction L3 as [|l0 u0 lo hi H L3 IH]; intros [|a0 x] L4 i Ea El Eu Hr; simpl in *; try discriminate; [destruct i; discriminate|].
  destruct i as [|i]; simpl in *; [|apply IH; auto]. injection Ea as ->. injection El as ->. injection Eu as ->. f_equal. auto.
Qed.
Lemma limit1_keeps : forall a l u, fleb l u = true -> in_range l u a -> limit1 a l u = a.
Proof.
  intros a l u H [->|[H1 H2]]; [reflexivity|]. unfold limit1, np_max, np_min.
  assert (Na := fleb_nan_r _ _ H1). assert (Nl := fleb_nan_l _ _ H1). assert (Nu := fleb_nan_r _ _ H2).
  rewrite (fleb_fltb_false _ _ H1). destruct a; try congruence; destruct l; try congruence; destruct u; try congruence; simpl in *; try discriminate; auto;
    apply Z.leb_le in H2; rewrite (proj2 (Z.ltb_ge _ _)) by lia; reflexivity.
Qed.
Lemma limit_inverse1_keeps : forall a l u, fleb l u = true -> in_range l u a -> limit_inverse1 a l u = a.
Proof.
  intros a l u H [->|[H1 H2]]; unfold limit_inverse1; [destruct l, u; reflexivity|]. rewrite (fleb_fltb_false _ _ H1), (fleb_fltb_false _ _ H2). reflexivity.
Qed.
(** limit, limit_inverse and rand of util/repair.py *)
Theorem C94_keeps_limit : forall C x, cfg_ok C -> length x = c_dim C -> keeps C x (limit x (c_lower C) (c_upper C)).
Proof. intros. apply zip3_keeps; auto. apply limit1_keeps. Qed.
Theorem C94_keeps_limit_inverse : forall C x, cfg_ok C -> length x = c_dim C -> keeps C x (limit_inverse x (c_lower C) (c_upper C)).
Proof. intros. apply zip3_keeps; auto. apply limit_inverse1_keeps. Qed.
Lemma rand_pass_keeps : forall viol E x lo hi w y w', exec E (rand_pass viol x lo hi) w = (Ret y, w') ->
  forall i a l u, nth_error x i = Some a -> nth_error lo i = Some l -> nth_error hi i = Some u -> viol a l u = false -> nth_error y i = Some a.
Proof.
  intros viol E x. induction x as [|a0 x IH]; intros [|l0 lo] [|u0 hi] w y w' Ex i a l u Ea El Eu Hv; try (destruct i; discriminate).
  cbn [rand_pass] in Ex. destruct i as [|i]; cbn [nth_error] in *.
  - injection Ea as ->. injection El as ->. injection Eu as ->. rewrite Hv in Ex. rewrite exec_bind in Ex. destruct (exec E (rand_pass viol x lo hi) w) as [[ys|e] w1]; [|discriminate].
    cbn [exec] in Ex. injection Ex as <- <-. reflexivity.
  - destruct (viol a0 l0 u0).
    + cbn [uniform bind exec] in Ex. rewrite exec_bind in Ex. destruct (exec E (rand_pass viol x lo hi) _) as [[ys|e] w1] eqn:E1; [|discriminate].
      cbn [exec] in Ex. injection Ex as <- <-. cbn [nth_error]. eapply IH; eauto.
    + rewrite exec_bind in Ex. destruct (exec E (rand_pass viol x lo hi) _) as [[ys|e] w1] eqn:E1; [|discriminate].
      cbn [exec] in Ex. injection Ex as <- <-. cbn [nth_error]. eapply IH; eauto.
Qed.
Theorem C94_keeps_rand : forall E x w y w', let C := e_cfg E in exec E (rand_repair x (c_lower C) (c_upper C)) w = (Ret y, w') -> keeps C x y.
Proof.
  intros E x w y w' C Ex i a l u Ea El Eu Hr. unfold rand_repair in Ex. rewrite exec_bind in Ex.
  destruct (exec E (rand_pass (fun a l _ => fltb a l) x (c_lower C) (c_upper C)) w) as [[z|e] w1] eqn:E1; [|discriminate].
  assert (V1 : fltb a l = false) by (destruct Hr as [->|[H1 H2]]; [reflexivity|apply fleb_fltb_false; auto]).
  assert (V2 : fltb u a = false) by (destruct Hr as [->|[H1 H2]]; [destruct u; reflexivity|apply fleb_fltb_false; auto]).
  eapply rand_pass_keeps; [exact Ex| |exact El|exact Eu|exact V2]. eapply rand_pass_keeps; [exact E1|exact Ea|exact El|exact Eu|exact V1].
Qed.

(** ** C94: runs *)
Section Run.
Variables (F : fops) (E : env) (p : mts_par).
Let C := e_cfg E.
Let K := KRX C (fun x y => repair_keeps E -> length x = c_dim C -> keeps C x y) (inside C) (fun _ => False).
Hypothesis HC : cfg_ok C.
Hypothesis Hn : no_nan (e_prob E).
Hypothesis Hr : repair_ok E.
Hypothesis Hp : 0 < mt_n p.
Hypothesis Hls : mt_ls p <> [].
Hypothesis H3 : length (mt_ls p) <= 3 \/ mt_tests p = 0.
Hypothesis Hk : mt_best p = 0 \/ repair_keeps E.
Lemma HR : forall q x, repair_keeps E -> length x = c_dim C -> keeps C x (e_rep E q x).
Proof. intros q x H Hx. apply H; auto. Qed.
Lemma Hfalse : false = true -> repair_keeps E /\ forallb honest (mt_ls p) = true.
Proof. discriminate. Qed.
Let RK (x y : vec) : Prop := repair_keeps E -> length x = c_dim C -> keeps C x y.
Let HI := mts_init_ok F C (repair_keeps E) (fun _ => False) HC p H3 false Hp.
Let HS := mts_iter_ok F C (repair_keeps E) (fun _ => False) HC p Hls H3 false Hfalse Hk.
Lemma mts_best : best_run_x (fun _ => False) E (mts F C p).
Proof.
  apply (best_run_kr RK (inside C) (fun _ => False) E (mts F C p) (Inv C p false) Hn Hr HR HI HS). intros pop fit xb fxb par l (_ & _ & _ & _ & I1 & I2). split; [apply inside_len; auto|exact I2].
Qed.
Lemma mts_sizes : sizes_ok (fun n => n = mt_n p) E (mts F C p).
Proof. apply (sizes_kr RK (inside C) (fun _ => False) E (mts F C p) (Inv C p false) Hn Hr HR HI _ HS). intros pop fit xb fxb par l (_ & L & _). exact L. Qed.
Lemma mts_reach : forall s w, reached E (mts F C p) s w -> Inv C p false (r_pop s) (r_fit s) (r_xb s) (r_fxb s) (r_par s) (log_of (c_opt C) (w_h w)).
Proof. intros s w H. exact (reach_kr RK (inside C) (fun _ => False) E (mts F C p) (Inv C p false) Hn Hr HR HI HS s w H). Qed.
End Run.
(** whatever the arithmetic.  A repair that changes components inside the bounds breaks the searches around the best solution. *)
Theorem C94_mts : forall F E p, let C := e_cfg E in
  cfg_ok C -> no_nan (e_prob E) -> repair_ok E -> (mt_best p = 0 \/ repair_keeps E) ->
  0 < mt_n p -> mt_ls p <> [] -> (length (mt_ls p) <= 3 \/ mt_tests p = 0) ->
  best_run_x (fun _ => False) E (mts F C p) /\ sizes_ok (fun n => n = mt_n p) E (mts F C p).
Proof. intros. split; [apply mts_best|apply mts_sizes]; auto. Qed.
(** MultipleTrajectorySearchV1, with any repair *)
Theorem C94_v1 : forall F E n tests searches enabled b1 b2, let C := e_cfg E in
  cfg_ok C -> no_nan (e_prob E) -> repair_ok E -> 0 < n ->
  best_run_x (fun _ => False) E (mts F C (mts_v1 n tests searches enabled b1 b2)) /\ sizes_ok (fun m => m = n) E (mts F C (mts_v1 n tests searches enabled b1 b2)).
Proof. intros. apply C94_mts; auto; cbn; try (left; lia); try lia; discriminate. Qed.

(** ** C95: the local searches *)
(** what is proved from an assumed log holds with those entries below the new ones *)
Lemma wp_base : forall A K (p : prog A) Q d l, wp K p Q d -> wp K p (fun a l' => exists n, l' = n ++ l /\ Q a (n ++ d)) l.
Proof.
  intros A K p Q d l. assert (G : forall Q n, wp K p Q (n ++ d) -> wp K p (fun a l' => exists m, l' = m ++ l /\ Q a (m ++ d)) (n ++ l)).
  { clear Q. induction p as [a|e|x k IH|x k IH|lo hi k IH|k IH|n k IH|k IH]; intros Q n0 H; cbn [wp] in *; eauto.
    destruct H as (G1 & G2 & G3). split; [auto|]. split; [|destruct (K_ref K); auto]. intros v Hv. apply (IH v Q ((x, v) :: n0)). apply G2. auto. }
  apply (G Q []).
Qed.
(** a search is started from x with value f and the best solution bx with value bf <= f, and evaluates the points [d] *)
Definition ls_ok (C : cfg) (k : lsearch) (f : num) (bx : vec) (bf : num) (imp : bool) (d : elog) (r : lsr) : Prop :=
  Forall (fun e => inside C (fst e)) d /\ inside C (l_x r) /\ inside C (l_best r) /\ length (l_sr r) = c_dim C /\
  fleb (l_f r) f = true /\ fleb (l_bf r) bf = true /\ fleb (l_bf r) (l_f r) = true /\
  (forall y v, In (y, v) d -> fleb (l_bf r) v = true) /\
  (l_bf r = PInf \/ (l_best r = bx /\ l_bf r = bf) \/ In (l_best r, l_bf r) d) /\
  match k with LS1 | LS1v1 | LS2 => l_imp r = fltb (l_f r) f | LS3 => True | LS3v1 => l_imp r = imp || fltb (l_f r) f end.
Lemma moved_imp : forall f i f' i', f <> NaN -> moved f i f' i' -> i' = i || fltb f' f.
Proof. intros f i f' i' H [[-> ->]|[H1 ->]]; [rewrite fltb_irrefl|rewrite H1]; destruct i; reflexivity. Qed.
Lemma wp_pre : forall A K (p : prog A) Q l, wp K p Q l -> wp K p (fun a l' => Q a l' /\ exists d, l' = d ++ l /\ Forall (fun e => K_pre K (fst e)) d) l.
Proof.
  intros A K p Q l H. assert (G : forall n, Forall (fun e => K_pre K (fst e)) n -> wp K p Q (n ++ l) -> wp K p (fun a l' => Q a l' /\ exists d, l' = d ++ l /\ Forall (fun e => K_pre K (fst e)) d) (n ++ l)).
  { clear H. induction p as [a|e|x k IH|x k IH|lo hi k IH|k IH|n k IH|k IH]; intros n0 Hn H; cbn [wp] in *; eauto.
    destruct H as (G1 & G2 & G3). split; [auto|]. split; [|destruct (K_ref K); auto]. intros v Hv. apply (IH v ((x, v) :: n0)); [constructor; auto|]. apply G2. auto. }
  apply (G []); auto.
Qed.
Lemma app_same : forall (a b l : elog), a ++ l = b ++ l -> a = b.
Proof. intros a b l H. apply app_inv_tail in H. exact H. Qed.
Lemma ls_exec : forall F E fuel k b1 b2 x f bx bf imp sr r wd wd' h, let C := e_cfg E in
  cfg_ok C -> no_nan (e_prob E) -> repair_ok E -> inside C x -> inside C bx -> fleb bf f = true -> length sr = c_dim C ->
  exec E (run_ls F C fuel k b1 b2 x f (Some bx) bf imp sr) wd = (Ret r, wd') -> (h = true -> repair_keeps E) ->
  exists d, log_of (c_opt C) (w_h wd') = d ++ log_of (c_opt C) (w_h wd) /\ Forall (fun e => inside C (fst e)) d /\
    let d' := d ++ (bx, bf) :: if h then [(x, f)] else [] in
    J C (h && honest k) d' (l_x r) (l_f r) (l_b r) (l_bf r) /\ fleb (l_f r) f = true /\ length (l_sr r) = c_dim C /\
    match k with LS1 | LS1v1 | LS2 => moved f false (l_f r) (l_imp r) | LS3 => True | LS3v1 => moved f imp (l_f r) (l_imp r) end.
Proof.
  intros F E fuel k b1 b2 x f bx bf imp sr r wd wd' h C HC Hn Hr Hx Hb Hle Ls Ex Hh.
  assert (Nf := fleb_nan_r _ _ Hle). assert (Nb := fleb_nan_l _ _ Hle).
  set (K := KRX C (fun x y => repair_keeps E -> length x = c_dim C -> keeps C x y) (inside C) (fun _ => False)).
  assert (HE : env_ok K E) by (apply env_ok_KR; auto; intros q z H Hz; apply H; auto).
  set (d0 := (bx, bf) :: if h then [(x, f)] else []).
  assert (J0 : J C h d0 x f (Some bx) bf).
  { split; [auto|]. split; [intros Q; right; unfold d0; rewrite Q; right; left; reflexivity|]. split; [exact Hb|]. split; [|split; [auto|discriminate]]. cbn [bv].
    split; [right; left; reflexivity|]. split; [|auto]. intros y v [Q|Q]; [injection Q as <- <-; apply fleb_refl; auto|].
    destruct h; [|destruct Q]. destruct Q as [Q|[]]. injection Q as <- <-. exact Hle. }
  assert (W := w_run_ls F C (repair_keeps E) (fun _ => False) HC fuel k b1 b2 h x f (Some bx) bf imp sr d0 Hh Ls ltac:(discriminate) J0). fold K in W.
  apply (wp_base _ _ _ _ _ (log_of (c_opt C) (w_h wd))) in W. apply wp_pre in W.
  destruct (wp_sound _ K E _ _ wd _ _ HE W Ex) as [_ ((n & En & G) & (d & Ed & Hd))].
  rewrite Ed in En. apply app_inv_tail in En. subst n. exists d. split; [exact Ed|]. split; [exact Hd|]. cbv zeta. destruct G as (G1 & G2 & _ & G4 & G5). auto.
Qed.
Theorem C95_search : forall F E fuel k b1 b2 x f bx bf imp sr r wd wd', let C := e_cfg E in
  cfg_ok C -> no_nan (e_prob E) -> repair_ok E -> inside C x -> inside C bx -> fleb bf f = true -> length sr = c_dim C ->
  exec E (run_ls F C fuel k b1 b2 x f (Some bx) bf imp sr) wd = (Ret r, wd') ->
  exists d, log_of (c_opt C) (w_h wd') = d ++ log_of (c_opt C) (w_h wd) /\ ls_ok C k f bx bf imp d r.
Proof.
  intros F E fuel k b1 b2 x f bx bf imp sr r wd wd' C HC Hn Hr Hx Hb Hle Ls Ex. assert (Nf := fleb_nan_r _ _ Hle).
  destruct (ls_exec F E fuel k b1 b2 x f bx bf imp sr r wd wd' false HC Hn Hr Hx Hb Hle Ls Ex ltac:(discriminate)) as (d & Ed & Hd & (J1 & _ & (J3 & (S1 & S2 & S3) & J4 & J5)) & G2 & G4 & G5).
  cbn [andb] in *. assert (El : bv (l_x r) (l_b r) = l_best r) by reflexivity. rewrite El in *. exists d. split; [exact Ed|].
  split; [exact Hd|]. split; [auto|]. split; [auto|]. split; [auto|]. split; [auto|].
  split; [apply (S2 bx); apply in_or_app; right; left; auto|]. split; [auto|]. split; [intros y v Q; apply (S2 y); apply in_or_app; auto|].
  split; [|destruct k; auto; apply moved_imp in G5; auto].
  destruct S1 as [S1|S1]; auto. apply in_app_or in S1. destruct S1 as [S1|[S1|[]]]; [auto|]. injection S1 as -> ->. auto.
Qed.
(** mts_ls1, mts_ls2 and mts_ls3v1 end at a point with the value it was evaluated to, if they were started at one *)
Theorem C95_pair : forall F E fuel k b1 b2 x f bx bf imp sr r wd wd', let C := e_cfg E in
  cfg_ok C -> no_nan (e_prob E) -> repair_ok E -> repair_keeps E -> inside C x -> inside C bx -> fleb bf f = true -> length sr = c_dim C ->
  (k = LS1 \/ k = LS2 \/ k = LS3v1) -> exec E (run_ls F C fuel k b1 b2 x f (Some bx) bf imp sr) wd = (Ret r, wd') ->
  exists d, log_of (c_opt C) (w_h wd') = d ++ log_of (c_opt C) (w_h wd) /\
    (l_f r = PInf \/ (l_x r = x /\ l_f r = f) \/ (l_x r = bx /\ l_f r = bf) \/ In (l_x r, l_f r) d).
Proof.
  intros F E fuel k b1 b2 x f bx bf imp sr r wd wd' C HC Hn Hr HK Hx Hb Hle Ls Hk Ex.
  destruct (ls_exec F E fuel k b1 b2 x f bx bf imp sr r wd wd' true HC Hn Hr Hx Hb Hle Ls Ex ltac:(auto)) as (d & Ed & Hd & (J1 & J2 & _) & _).
  exists d. split; [exact Ed|]. assert (Q : true && honest k = true) by (destruct Hk as [->|[->| ->]]; reflexivity).
  destruct (J2 Q) as [S|S]; [auto|]. apply in_app_or in S. destruct S as [S|[S|[S|[]]]]; [auto|injection S as -> ->; auto|injection S as -> ->; auto].
Qed.
(** the search range: kept after an improvement; otherwise halved, and where the half falls below 1e-15 set to 0.4 of the width *)
Definition range_step (F : fops) (C : cfg) (sr sr' : vec) : Prop := length sr' = min (length sr) (min (length (c_upper C)) (length (c_lower C))) /\
  forall i s u l, nth_error sr i = Some s -> nth_error (c_upper C) i = Some u -> nth_error (c_lower C) i = Some l ->
  exists s', nth_error sr' i = Some s' /\
    if fltb (fdiv F s (flit F 2 1)) (flit F 1 1000000000000000) then s' = fmul F (fsub F u l) (flit F 2 5) else s' = fdiv F s (flit F 2 1).
Lemma nth_map2_m : forall A B D (f : A -> B -> D) xs ys i a b, nth_error xs i = Some a -> nth_error ys i = Some b -> nth_error (map2 f xs ys) i = Some (f a b).
Proof. intros A B D f xs. induction xs as [|x xs IH]; intros [|y ys] [|i] a b H1 H2; simpl in *; try discriminate; [congruence|]. apply IH; auto. Qed.
Lemma map2_len_min : forall A B D (f : A -> B -> D) xs ys, length (map2 f xs ys) = min (length xs) (length ys).
Proof. intros A B D f xs. induction xs as [|x xs IH]; intros [|y ys]; simpl; auto. Qed.
Lemma shrink_step : forall F C sr, range_step F C sr (shrink F C false sr).
Proof.
  intros F C sr. split; [unfold shrink, trange, vsub; rewrite !map2_len_min; reflexivity|]. intros i s u l E1 E2 E3.
  exists (shrink1 F s (fsub F u l)). split; [apply nth_map2_m; auto; apply nth_map2_m; auto|]. unfold shrink1. destruct (fltb _ _); reflexivity.
Qed.
Theorem C95_range : forall F E fuel k b1 b2 x f b bf imp sr r wd wd', let C := e_cfg E in
  exec E (run_ls F C fuel k b1 b2 x f b bf imp sr) wd = (Ret r, wd') ->
  match k with LS1 | LS1v1 | LS2 => if imp then l_sr r = sr else range_step F C sr (l_sr r) | LS3 | LS3v1 => l_sr r = sr end.
Proof.
  intros F E fuel k b1 b2 x f b bf imp sr r wd wd' C Ex.
  assert (G : rets (run_ls F C fuel k b1 b2 x f b bf imp sr) (fun r => l_sr r = match k with LS1 | LS1v1 | LS2 => shrink F C imp sr | _ => sr end)).
  { destruct k; cbn [run_ls]; unfold mts_ls1, mts_ls1v1, mts_ls2, mts_ls3, mts_ls3v1; cbv zeta; repeat (apply rets_skip; intros ?).
    - destruct a as [[[[[? ?] ?] ?] ?] ?]. reflexivity.
    - destruct a0 as [[[[[? ?] ?] ?] ?] ?]. reflexivity.
    - destruct a as [[[[[? ?] ?] ?] ?] ?]. reflexivity.
    - destruct a as [[[[[[? ?] ?] ?] ?] ?] ?]. reflexivity.
    - destruct a as [[[[[? ?] ?] ?] ?] ?]. reflexivity. }
  apply (rets_exec _ _ _ _ _ _ _ G) in Ex. destruct k; try exact Ex; destruct imp; try exact Ex; rewrite Ex; apply shrink_step.
Qed.

(** ** C96: a step of the population *)
Lemma argsort_perm : forall gs, Permutation (seq 0 (length gs)) (argsort gs).
Proof.
  intros gs. unfold argsort. eapply perm_trans; [|apply Permutation_map; apply sort_on_perm]. rewrite combine_fst; [apply Permutation_refl|symmetry; apply seq_length].
Qed.
Lemma enable_nth : forall k es i e, nth_error (enable_lowest k es) i = Some e -> exists e0, nth_error es i = Some e0 /\ flagged e0 e /\
  m_en e = existsb (Nat.eqb i) (firstn k (argsort (map m_gr es))) || m_en e0.
Proof.
  intros k es i e. unfold enable_lowest. generalize (firstn k (argsort (map m_gr es))) as idx. intros idx H. rewrite nth_error_map in H.
  destruct (nth_error (combine (seq 0 (length es)) es) i) as [[j e0]|] eqn:Q; [|discriminate]. cbn [option_map] in H.
  assert (Q2 : nth_error es i = Some e0 /\ j = i).
  { clear H. change i with (0 + i) at 2. revert Q. generalize 0 as s. revert i. induction es as [|e1 es IH]; intros [|i] s Q; simpl in *; try discriminate; [injection Q as <- <-; split; [auto|lia]|].
    destruct (IH _ _ Q) as [Q1 Q2]. split; [auto|lia]. }
  destruct Q2 as [Q1 ->]. exists e0. split; [auto|]. injection H as <-. cbn [fst snd]. destruct (existsb _ idx); [split; [unfold flagged; auto|auto]|split; [unfold flagged; auto|auto]].
Qed.
Lemma existsb_In : forall i idx, existsb (Nat.eqb i) idx = true <-> In i idx.
Proof. intros i idx. rewrite existsb_exists. split; [intros (j & Hj & Q); apply Nat.eqb_eq in Q; congruence|intros H; exists i; split; auto; apply Nat.eqb_refl]. Qed.
Lemma NoDup_l : forall A (xs ys : list A), NoDup (xs ++ ys) -> NoDup xs.
Proof. intros A xs ys. induction xs as [|x xs IH]; intros H; [constructor|]. inversion H; subst. constructor; [|auto]. intros Q. apply H2. apply in_or_app; auto. Qed.
Lemma enable_count : forall k es, Forall (fun e => m_en e = false) es -> length (filter m_en (enable_lowest k es)) = min k (length es).
Proof.
  intros k es He. unfold enable_lowest. assert (P := argsort_perm (map m_gr es)). rewrite map_length in P. set (idx := firstn k (argsort (map m_gr es))).
  assert (Nd : NoDup idx).
  { assert (N : NoDup (argsort (map m_gr es))) by (eapply Permutation_NoDup; [exact P|apply seq_NoDup]). unfold idx. rewrite <- (firstn_skipn k (argsort _)) in N. apply NoDup_l in N. exact N. }
  assert (Lx : length idx = min k (length es)) by (unfold idx; rewrite firstn_length, <- (Permutation_length P), seq_length; reflexivity).
  rewrite <- Lx. transitivity (length (filter (fun i => existsb (Nat.eqb i) idx) (seq 0 (length es)))).
  - clearbody idx. clear - He. generalize 0 as s. induction He as [|e es H He IH]; intros s; simpl; auto. destruct (existsb (Nat.eqb s) idx); simpl; [f_equal; apply IH|rewrite H; apply IH].
  - apply Permutation_length. apply NoDup_Permutation; [apply NoDup_filter; apply seq_NoDup|exact Nd|]. intros i. rewrite filter_In, existsb_In. split; [tauto|]. intros Hi. split; [|auto].
    eapply Permutation_in; [apply Permutation_sym; exact P|]. unfold idx in Hi. eapply firstn_In; eauto.
Qed.
Lemma enable_lower : forall k es i j e e', Forall (fun e => m_en e = false) es -> nth_error (enable_lowest k es) i = Some e -> nth_error (enable_lowest k es) j = Some e' ->
  m_en e = true -> m_en e' = false -> key_le (m_gr e) (m_gr e') = true.
Proof.
  intros k es i j e e' He Hi Hj Ei Ej. destruct (enable_nth _ _ _ _ Hi) as (e0 & N0 & (_ & _ & G0) & M0). destruct (enable_nth _ _ _ _ Hj) as (e1 & N1 & (_ & _ & G1) & M1).
  rewrite Ei in M0. rewrite Ej in M1. rewrite Forall_forall in He. rewrite (He e0) in M0 by (eapply nth_error_In; eauto). rewrite orb_false_r in M0. symmetry in M0. apply existsb_In in M0.
  symmetry in M1. apply orb_false_iff in M1. destruct M1 as [M1 _].
  unfold argsort in M0, M1. rewrite firstn_map in M0, M1. set (ps := combine (seq 0 (length (map m_gr es))) (map m_gr es)) in *.
  assert (Hps : forall a b, nth_error es a = Some b -> forall q, In q ps -> fst q = a -> snd q = m_gr b).
  { intros a b Ha [a' g] Hq Hf. cbn [fst snd] in *. subst a'. unfold ps in Hq. apply In_nth_error in Hq. destruct Hq as [t Ht].
    assert (T : nth_error (map m_gr es) t = Some g /\ a = t).
    { clear - Ht. change t with (0 + t) at 2. revert Ht. generalize 0 as s. generalize (map m_gr es) as gs. intros gs. revert t. induction gs as [|g0 gs IH]; intros [|t] s Ht; simpl in *; try discriminate; [injection Ht as <- <-; split; [auto|lia]|].
      destruct (IH _ _ Ht) as [Q1 Q2]. split; [auto|lia]. }
    destruct T as [T ->]. rewrite nth_error_map, Ha in T. injection T as <-. reflexivity. }
  apply in_map_iff in M0. destruct M0 as (q0 & Q0 & I0).
  assert (L1 : exists q1, In q1 ps /\ fst q1 = j).
  { assert (Lj : j < length es) by (apply nth_error_Some; congruence). exists (j, m_gr e1). split; [|reflexivity]. unfold ps. apply (nth_error_In _ j).
    rewrite map_length. clear - N1. change j with (0 + j) at 2. generalize 0 as s. revert j N1. induction es as [|e2 es IH]; intros [|j] N1 s; simpl in *; try discriminate; [injection N1 as ->; rewrite Nat.add_0_r; reflexivity|].
    replace (s + S j) with (S s + j) by lia. apply IH; auto. }
  destruct L1 as (q1 & I1 & Q1). rewrite G0, G1. assert (I0' : In q0 ps) by (apply (sort_on_In _ snd); eapply firstn_In; eauto).
  rewrite <- (Hps _ _ N0 _ I0' Q0), <- (Hps _ _ N1 _ I1 Q1). eapply (sort_on_split _ snd ps k); [exact I0|].
  apply (sort_on_In _ snd) in I1. rewrite <- (firstn_skipn k (sort_on snd ps)) in I1. apply in_app_or in I1. destruct I1 as [I1|I1]; auto.
  exfalso. assert (Z : existsb (Nat.eqb j) (map fst (firstn k (sort_on snd ps))) = true) by (apply existsb_In; apply in_map_iff; eauto). congruence.
Qed.
(** Members that are not enabled keep solution, value, range and grade.  The others get no worse.  After the iteration
    min(num_enabled, n) members are enabled, and no member that is not enabled has a lower grade than one that is. *)
Definition mts_step (p : mts_par) (pop : list vec) (fit : list num) (par : list mext) (pop' : list vec) (fit' : list num) (par' : list mext) : Prop :=
  length pop' = length pop /\ length fit' = length pop /\ length par' = length pop /\
  (forall i x f e, nth_error pop i = Some x -> nth_error fit i = Some f -> nth_error par i = Some e ->
     exists x' f' e', nth_error pop' i = Some x' /\ nth_error fit' i = Some f' /\ nth_error par' i = Some e' /\ fleb f' f = true /\
       (m_en e = false -> x' = x /\ f' = f /\ m_sr e' = m_sr e /\ m_gr e' = m_gr e /\ m_im e' = m_im e)) /\
  length (filter m_en par') = min (mt_enabled p) (length par) /\
  (forall i j e e', nth_error par' i = Some e -> nth_error par' j = Some e' -> m_en e = true -> m_en e' = false -> key_le (m_gr e) (m_gr e') = true).
Lemma comb_nth : forall A B (xs : list A) (ys : list B) i a b, nth_error xs i = Some a -> nth_error ys i = Some b -> nth_error (combine xs ys) i = Some (a, b).
Proof. intros A B xs. induction xs as [|x xs IH]; intros [|y ys] [|i] a b H1 H2; simpl in *; try discriminate; [congruence|]. apply IH; auto. Qed.
Lemma comb_nth_inv : forall A B (xs : list A) (ys : list B) i q, nth_error (combine xs ys) i = Some q -> nth_error xs i = Some (fst q) /\ nth_error ys i = Some (snd q).
Proof. intros A B xs. induction xs as [|x xs IH]; intros [|y ys] [|i] q H; simpl in *; try discriminate; [injection H as <-; auto|]. apply IH; auto. Qed.
Lemma F2_nth : forall A B (R : A -> B -> Prop) xs ys i a, Forall2 R xs ys -> nth_error xs i = Some a -> exists b, nth_error ys i = Some b /\ R a b.
Proof. intros A B R xs ys i a H. revert i. induction H; intros [|i] Hi; simpl in *; try discriminate; [injection Hi as <-; eauto|eauto]. Qed.
Lemma F2_nth_r : forall A B (R : A -> B -> Prop) xs ys i b, Forall2 R xs ys -> nth_error ys i = Some b -> exists a, nth_error xs i = Some a /\ R a b.
Proof. intros A B R xs ys i b H. revert i. induction H; intros [|i] Hi; simpl in *; try discriminate; [injection Hi as <-; eauto|eauto]. Qed.
Lemma rel_step : forall p pop fit xb fxb par pop' fit' xb' fxb' par', length fit = length pop -> length par = length pop -> length pop' = length pop -> length fit' = length pop ->
  mts_rel p pop fit xb fxb par pop' fit' xb' fxb' par' -> mts_step p pop fit par pop' fit' par'.
Proof.
  intros p pop fit xb fxb par pop' fit' xb' fxb' par' L1 L2 L3 L4 (par1 & HT & Lp & -> & _).
  assert (D1 : Forall (fun e => m_en e = false) par1).
  { apply Forall_forall. intros e He. apply In_nth_error in He. destruct He as [i Hi]. assert (Li : i < length par1) by (apply nth_error_Some; congruence).
    destruct (nth_error pop' i) as [x'|] eqn:Ex; [|apply nth_error_None in Ex; lia]. destruct (nth_error fit' i) as [f'|] eqn:Ef; [|apply nth_error_None in Ef; lia].
    destruct (F2_nth_r _ _ _ _ _ i _ HT (comb_nth _ _ _ _ _ _ _ (comb_nth _ _ _ _ _ _ _ Ex Ef) Hi)) as (r & _ & T & _). cbn [snd] in T.
    destruct (m_en (snd r)) eqn:En; [auto|]. subst r. exact En. }
  split; [auto|]. split; [auto|]. split; [rewrite enable_length; lia|]. split; [|split; [rewrite enable_count by auto; f_equal; auto|intros; eapply enable_lower; eauto]].
  intros i x f e Ex Ef Ee. destruct (F2_nth _ _ _ _ _ i _ HT (comb_nth _ _ _ _ _ _ _ (comb_nth _ _ _ _ _ _ _ Ex Ef) Ee)) as (r & Hr & T1 & T2). cbn [fst snd] in T1, T2.
  destruct (comb_nth_inv _ _ _ _ _ _ Hr) as [R1 R2]. destruct (comb_nth_inv _ _ _ _ _ _ R1) as [R3 R4]. destruct r as [[x' f'] e1]. cbn [fst snd] in *.
  destruct (nth_error (enable_lowest (mt_enabled p) par1) i) as [e'|] eqn:Ee'.
  2:{ apply nth_error_None in Ee'. rewrite enable_length in Ee'. assert (i < length par) by (apply nth_error_Some; congruence). lia. }
  destruct (enable_nth _ _ _ _ Ee') as (e2 & N2 & (G1 & G2 & G3) & _). rewrite R2 in N2. injection N2 as <-.
  exists x', f', e'. split; [auto|]. split; [auto|]. split; [auto|]. split; [auto|]. intros En. rewrite En in T1. injection T1 as -> -> ->. auto.
Qed.
Theorem C96_step : forall F E p s wd pop' fit' xb' fxb' par' wd', let C := e_cfg E in
  cfg_ok C -> no_nan (e_prob E) -> repair_ok E -> (mt_best p = 0 \/ repair_keeps E) -> 0 < mt_n p -> mt_ls p <> [] -> (length (mt_ls p) <= 3 \/ mt_tests p = 0) ->
  reached E (mts F C p) s wd ->
  exec E (a_iter (mts F C p) (r_pop s) (r_fit s) (r_xb s) (r_fxb s) (r_par s)) wd = (Ret (pop', fit', xb', fxb', par'), wd') ->
  mts_step p (r_pop s : list vec) (r_fit s) (r_par s : list mext) pop' fit' par' /\ fleb fxb' (r_fxb s) = true.
Proof.
  intros F E p s wd pop' fit' xb' fxb' par' wd' C HC Hn Hr Hk Hp Hls H3 Hre Ex.
  assert (HI := mts_reach F E p HC Hn Hr Hp Hls H3 Hk s wd Hre).
  assert (HE : env_ok (KRX C (fun x y => repair_keeps E -> length x = c_dim C -> keeps C x y) (inside C) (fun _ => False)) E) by (apply env_ok_KR; auto; intros q z H Hz; apply H; auto).
  assert (W := mts_iter_r F C (repair_keeps E) (fun _ => False) HC p Hls H3 false ltac:(discriminate) Hk _ _ _ _ _ _ HI).
  destruct (wp_sound _ _ E _ _ wd _ _ HE W Ex) as [_ [I2 R]]. destruct HI as (L1 & L2 & L3 & _). destruct I2 as (M1 & M2 & M3 & _).
  split; [eapply rel_step; [| | | |exact R]|]; try congruence. destruct R as (_ & _ & _ & _ & R). exact R.
Qed.

(** ** C97: the pairs of the population *)
Lemma ent_rows : forall C l fxb pop fit par, length fit = length pop -> length par = length pop -> Forall (ent_ok C true l fxb) (combine (combine pop fit) par) ->
  Forall2 (fun x f => inside C x /\ (f = PInf \/ In (x, f) l)) pop fit.
Proof.
  intros C l fxb pop. induction pop as [|x pop IH]; intros [|f fit] [|e par] L2 L3 HE; simpl in *; try discriminate; constructor; inversion HE as [|? ? (G1 & G2 & _) HE']; subst.
  - split; [exact G1|]. apply G2. reflexivity.
  - apply (IH fit par); auto.
Qed.
Theorem C97_pairs : forall F E p s wd, let C := e_cfg E in
  cfg_ok C -> no_nan (e_prob E) -> repair_ok E -> repair_keeps E -> 0 < mt_n p -> mt_ls p <> [] -> (length (mt_ls p) <= 3 \/ mt_tests p = 0) ->
  (forall k, In k (mt_ls p) -> k = LS1 \/ k = LS2 \/ k = LS3v1) -> reached E (mts F C p) s wd ->
  Forall2 (fun x f => inside C x /\ (f = PInf \/ In (x, f) (log_of (c_opt C) (w_h wd)))) (r_pop s : list vec) (r_fit s).
Proof.
  intros F E p s wd C HC Hn Hr HK Hp Hls H3 Hh Hre.
  assert (Hk : true = true -> repair_keeps E /\ forallb honest (mt_ls p) = true).
  { intros _. split; [auto|]. apply forallb_forall. intros k Hi. destruct (Hh k Hi) as [->|[->| ->]]; reflexivity. }
  assert (HR' : forall q x, repair_keeps E -> length x = c_dim C -> keeps C x (e_rep E q x)) by (intros q x H Hx; apply H; auto).
  destruct (reach_kr (fun x y => repair_keeps E -> length x = c_dim C -> keeps C x y) (inside C) (fun _ => False) E (mts F C p) (Inv C p true) Hn Hr HR' (mts_init_ok F C (repair_keeps E) (fun _ => False) HC p H3 true Hp)
    (mts_iter_ok F C (repair_keeps E) (fun _ => False) HC p Hls H3 true Hk (or_intror HK)) s wd Hre) as (L1 & L2 & L3 & HE & _).
  exact (ent_rows C _ _ _ _ _ (eq_trans L2 (eq_sym L1)) (eq_trans L3 (eq_sym L1)) HE).
Qed.

(** ** C98: when runs end *)
Definition loopless (k : lsearch) : bool := match k with LS3v1 => false | _ => true end.
Lemma nf_ls1_step : forall F b1 b2 sr s i, nf (ls1_step F b1 b2 sr s i).
Proof. intros F b1 b2 sr [[[[[x f] b] bf] imp] g] i. unfold ls1_step. nfs. Qed.
Lemma nf_ls1v1_step : forall F b1 b2 sr d s i, nf (ls1v1_step F b1 b2 sr d s i).
Proof. intros F b1 b2 sr d [[[[[x f] b] bf] imp] g] i. unfold ls1v1_step. nfs. Qed.
Lemma nf_ls2_step : forall F b1 b2 sr s i, nf (ls2_step F b1 b2 sr s i).
Proof. intros F b1 b2 sr [[[[[x f] b] bf] imp] g] i. unfold ls2_step. nfs. Qed.
Lemma nf_ls3_step : forall F b1 b2 s i, nf (ls3_step F b1 b2 s i).
Proof. intros F b1 b2 [[[[[[x c] f] b] bf] imp] g] i. unfold ls3_step. nfs. Qed.
#[local] Hint Resolve nf_ls1_step nf_ls1v1_step nf_ls2_step nf_ls3_step : nf.
Lemma nf_run_ls : forall F C fuel k b1 b2 x f b bf imp sr, loopless k = true -> nf (run_ls F C fuel k b1 b2 x f b bf imp sr).
Proof. intros F C fuel k b1 b2 x f b bf imp sr Hk. destruct k; try discriminate; cbn [run_ls]; unfold mts_ls1, mts_ls1v1, mts_ls2, mts_ls3; cbv zeta; nfs. Qed.
Lemma me_ls1_step : forall F b1 b2 sr s i, me (ls1_step F b1 b2 sr s i).
Proof.
  intros F b1 b2 sr [[[[[x f] b] bf] imp] g] i. unfold ls1_step. apply me_right; [nfs|intros old]. apply me_right; [nfs|intros si]. apply me_right; [nfs|intros x1].
  apply me_left; [auto with nf|]. intros v. nfs.
Qed.
Lemma me_ls1v1_step : forall F b1 b2 sr d s i, me (ls1v1_step F b1 b2 sr d s i).
Proof.
  intros F b1 b2 sr d [[[[[x f] b] bf] imp] g] i. unfold ls1v1_step. apply me_right; [nfs|intros old]. apply me_right; [nfs|intros si]. apply me_right; [nfs|intros di]. apply me_right; [nfs|intros x1].
  apply me_left; [auto with nf|]. intros v. nfs.
Qed.
Lemma me_ls2_step : forall F b1 b2 sr s i, me (ls2_step F b1 b2 sr s i).
Proof.
  intros F b1 b2 sr [[[[[x f] b] bf] imp] g] i. unfold ls2_step. apply me_right; [nfs|intros u]. apply me_right; [nfs|intros r]. apply me_right; [nfs|intros x1].
  apply me_left; [auto with nf|]. intros v. nfs.
Qed.
Lemma me_ls3_step : forall F b1 b2 s i, me (ls3_step F b1 b2 s i).
Proof.
  intros F b1 b2 [[[[[[x c] f] b] bf] imp] g] i. unfold ls3_step. apply me_right; [nfs|intros a]. apply me_right; [nfs|intros x1]. apply me_right; [nfs|intros x2]. apply me_right; [nfs|intros x3].
  apply me_left; [auto with nf|]. intros v. nfs.
Qed.
Lemma me_run_ls : forall F C fuel k b1 b2 x f b bf imp sr, loopless k = true -> 0 < length x -> me (run_ls F C fuel k b1 b2 x f b bf imp sr).
Proof.
  intros F C fuel k b1 b2 x f b bf imp sr Hk Hx. destruct k; try discriminate; cbn [run_ls]; unfold mts_ls1, mts_ls1v1, mts_ls2, mts_ls3; cbv zeta.
  - apply me_left; [apply me_for_range; auto using me_ls1_step|]. intros [[[[[? ?] ?] ?] ?] ?]. simpl; auto.
  - apply me_right; [nfs|intros d]. apply me_left; [apply me_for_range; auto using me_ls1v1_step|]. intros [[[[[? ?] ?] ?] ?] ?]. simpl; auto.
  - apply me_left; [apply me_for_range; auto using me_ls2_step|]. intros [[[[[? ?] ?] ?] ?] ?]. simpl; auto.
  - apply me_left; [apply me_for_range; auto using me_ls3_step|]. intros [[[[[[? ?] ?] ?] ?] ?] ?]. simpl; auto.
Qed.
Lemma nf_one_ls : forall F C fuel k b1 b2 t, loopless k = true -> nf (one_ls F C fuel k b1 b2 t).
Proof. intros. unfold one_ls. apply nf_bind; [apply nf_run_ls; auto|]. intros; simpl; auto. Qed.
Lemma me_one_ls : forall F C fuel k b1 b2 t, loopless k = true -> 0 < length (t_x t) -> me (one_ls F C fuel k b1 b2 t).
Proof. intros. unfold one_ls. apply me_left; [apply me_run_ls; auto|]. intros; simpl; auto. Qed.
Section Ends.
Variables (F : fops) (C : cfg) (p : mts_par).
Hypothesis Hl : forallb loopless (mt_ls p) = true.
Hypothesis Hls : mt_ls p <> [].
Lemma nf_foldM_in : forall A S (f : S -> A -> prog S) l s, (forall s a, In a l -> nf (f s a)) -> nf (foldM f l s).
Proof. intros A S f l. induction l; intros s H; simpl; auto. apply nf_bind; [apply H; left; auto|]. intros; apply IHl. intros; apply H; right; auto. Qed.
Lemma loopless_in : forall k, In k (mt_ls p) -> loopless k = true.
Proof. rewrite forallb_forall in Hl. auto. Qed.
Lemma nf_grading : forall t, nf (grading_run F C p t).
Proof.
  intros t. assert (LI := loopless_in). unfold grading_run. destruct (mt_ls p) as [|k0 ks] eqn:El; [congruence|]. rewrite <- El in *. apply nf_foldM_in. intros s [i k] Hk. apply nf_for_range. intros s2 j.
  apply nf_bind; [apply nf_one_ls; apply LI; eapply in_combine_r; eauto|]. intros r. cbn [fst]. destruct (i <? 3); simpl; auto. discriminate.
Qed.
Lemma nf_local : forall k t g, In k (mt_ls p) -> nf (run_local_search F C p k t g).
Proof. intros. unfold run_local_search. apply nf_for_range. intros s j. apply nf_bind; [apply nf_one_ls; apply loopless_in; auto|]. intros; simpl; auto. Qed.
Lemma nf_member : forall x f e xb fxb, nf (mts_member F C p x f e xb fxb).
Proof. intros. unfold mts_member. apply nf_bind; [apply nf_grading|]. intros t. apply nf_local. apply last_In; auto. Qed.
Lemma nf_members : forall rows xb fxb, nf (mts_members F C p rows xb fxb).
Proof.
  induction rows as [|[[x f] e] rows IH]; intros xb fxb; cbn [mts_members]; [simpl; auto|]. destruct (m_en e).
  - apply nf_bind; [apply nf_member|]. intros r. cbv zeta. apply nf_bind; [apply IH|]. intros; simpl; auto.
  - apply nf_bind; [apply IH|]. intros; simpl; auto.
Qed.
Lemma nf_polish : forall xb fxb, nf (mts_polish F C p xb fxb).
Proof. intros. unfold mts_polish. apply nf_for_range. intros s j. apply nf_bind; [exact (nf_run_ls F C 0 LS1 _ _ _ _ _ _ _ _ eq_refl)|]. intros; simpl; auto. Qed.
Lemma grading_none : mt_tests p = 0 -> forall t, grading_run F C p t = Done t.
Proof.
  intros Z t. unfold grading_run. destruct (mt_ls p) as [|k0 ks]; [congruence|]. rewrite Z.
  generalize (combine (seq 0 (length (k0 :: ks))) (k0 :: ks)) as qs. induction qs; [reflexivity|]. exact IHqs.
Qed.
Lemma me_member : forall x f e xb fxb, 0 < mt_tests p \/ 0 < mt_searches p -> 0 < length x -> me (mts_member F C p x f e xb fxb).
Proof.
  intros x f e xb fxb Ht Hx. assert (LL := loopless_in _ (last_In _ Hls)). unfold mts_member. destruct (Nat.eq_dec (mt_tests p) 0) as [Z|Z].
  - rewrite grading_none by auto. cbn [bind t_x t_f t_b t_bf t_sr]. unfold run_local_search. destruct (mt_searches p) as [|n]; [lia|]. unfold for_range. cbn [seq foldM]. apply me_left.
    + apply me_left; [|intros; simpl; auto]. apply me_one_ls; [exact LL|exact Hx].
    + intros s. apply nf_foldM. intros s2 j. apply nf_bind; [apply nf_one_ls; exact LL|]. intros; simpl; auto.
  - apply me_left; [|intros t; apply nf_local; apply last_In; auto]. assert (LI := loopless_in). unfold grading_run. destruct (mt_ls p) as [|k0 ks] eqn:El; [congruence|]. cbn [length seq combine foldM].
    destruct (mt_tests p) as [|n]; [lia|]. apply me_left.
    + unfold for_range. cbn [seq foldM fst snd]. apply me_left.
      * apply me_left; [apply me_one_ls; [apply LI; left; auto|exact Hx]|]. intros r. simpl. auto.
      * intros s. apply nf_foldM. intros s2 j. apply nf_bind; [apply nf_one_ls; apply LI; left; auto|]. intros r. simpl. auto.
    + intros s. apply nf_foldM_in. intros s2 [i k] Hk. apply nf_for_range. intros s3 j. apply nf_bind; [apply nf_one_ls; apply LI; right; eapply in_combine_r; eauto|].
      intros r. cbn [fst]. destruct (i <? 3); simpl; auto. discriminate.
Qed.
Lemma me_members : forall rows xb fxb, 0 < mt_tests p \/ 0 < mt_searches p -> existsb (fun r : vec * num * mext => m_en (snd r)) rows = true ->
  Forall (fun r : vec * num * mext => 0 < length (fst (fst r))) rows -> me (mts_members F C p rows xb fxb).
Proof.
  induction rows as [|[[x f] e] rows IH]; intros xb fxb Ht He Hx; cbn [mts_members existsb snd] in *; [discriminate|]. inversion Hx; subst. destruct (m_en e).
  - apply me_left; [apply me_member; auto|]. intros r. cbv zeta. apply nf_bind; [apply nf_members|]. intros; simpl; auto.
  - apply me_left; [apply IH; auto|]. intros; simpl; auto.
Qed.
Lemma me_polish : forall xb fxb, 0 < mt_best p -> 0 < length xb -> me (mts_polish F C p xb fxb).
Proof.
  intros xb fxb Hb Hx. unfold mts_polish. destruct (mt_best p) as [|n]; [lia|]. unfold for_range. cbn [seq foldM fst snd]. apply me_left.
  - apply me_left; [|intros; simpl; auto]. exact (me_run_ls F C 0 LS1 _ _ _ _ _ _ _ _ eq_refl Hx).
  - intros s. apply nf_foldM. intros s2 j. apply nf_bind; [exact (nf_run_ls F C 0 LS1 _ _ _ _ _ _ _ _ eq_refl)|]. intros; simpl; auto.
Qed.
(** nothing to do for the members *)
Lemma quiet_members : forall rows xb fxb, existsb (fun r : vec * num * mext => m_en (snd r)) rows = false -> mts_members F C p rows xb fxb = Done (rows, xb, fxb).
Proof.
  induction rows as [|[[x f] e] rows IH]; intros xb fxb He; cbn [mts_members existsb snd] in *; [reflexivity|]. destruct (m_en e); [discriminate|]. cbn [orb] in He. rewrite IH by auto. reflexivity.
Qed.
End Ends.
Lemma count_exists : forall A (f : A -> bool) l, 0 < length (filter f l) -> existsb f l = true.
Proof. intros A f l. induction l as [|a l IH]; simpl; [lia|]. destruct (f a); simpl; auto. Qed.
Lemma rows_exists : forall (pf : list (vec * num)) (par : list mext), length pf = length par -> existsb (fun r => m_en (snd r)) (combine pf par) = existsb m_en par.
Proof. intros pf. induction pf as [|a pf IH]; intros [|e par] H; simpl in *; try discriminate; auto. rewrite IH; auto. Qed.
(** every iteration evaluates when there are searches and members are enabled; mts_ls3v1, which has a while loop, is excluded *)
Theorem C98_terminates : forall F E p, let C := e_cfg E in
  cfg_ok C -> 0 < c_dim C -> no_nan (e_prob E) -> repair_ok E -> (mt_best p = 0 \/ repair_keeps E) ->
  0 < mt_n p -> mt_ls p <> [] -> (length (mt_ls p) <= 3 \/ mt_tests p = 0) -> ~ In LS3v1 (mt_ls p) ->
  0 < mt_enabled p -> (0 < mt_tests p \/ 0 < mt_searches p) -> terminates (mts F C p) E.
Proof.
  intros F E p C HC Hd Hn Hr Hk Hp Hls H3 Hl Hen Ht.
  assert (Hl' : forallb loopless (mt_ls p) = true) by (apply forallb_forall; intros k Hi; destruct k; auto; contradiction).
  apply ends; [cbn [a_init mts]; unfold mts_init; nfs|]. intros s w HR _.
  assert (HI := mts_reach F E p HC Hn Hr Hp Hls H3 Hk s w HR).
  assert (He : existsb m_en (r_par s : list mext) = true).
  { clear HI. revert HR. induction 1 as [pos pop fit par w xb fxb Ex G|s w pop fit xb fxb par w' HR IH Ex].
    - cbn [a_init mts] in Ex. assert (Q : rets (mts_init F C p) (fun r => existsb m_en (snd r) = true)).
      { unfold mts_init. apply rets_skip. intros a. simpl. destruct (mt_n p); [lia|reflexivity]. }
      apply (rets_exec _ _ _ _ _ _ _ Q) in Ex. exact Ex.
    - assert (HI := mts_reach F E p HC Hn Hr Hp Hls H3 Hk s w HR). destruct HI as (_ & _ & L3 & _).
      destruct (C96_step F E p s w pop fit xb fxb par w' HC Hn Hr Hk Hp Hls H3 HR Ex) as [(_ & _ & _ & _ & Q & _) _].
      cbn [r_par]. apply count_exists. assert (Q4 : length (filter m_en par) = min (mt_enabled p) (mt_n p)) by exact (eq_trans Q (f_equal (min (mt_enabled p)) L3)). lia. }
  destruct HI as (L1 & L2 & L3 & HE & _). cbn [a_iter mts]. unfold mts_iter. apply me_left; [|intros a; apply nf_bind; [apply nf_polish|intros; simpl; auto]].
  apply me_members; auto.
  - exact (eq_trans (rows_exists _ _ (eq_trans (combine_length _ _) (eq_trans (f_equal2 min L1 L2) (eq_trans (Nat.min_id _) (eq_sym L3))))) He).
  - eapply Forall_impl; [|exact HE]. intros r (G & _). fold C in G. rewrite (inside_len _ _ HC G). exact Hd.
Qed.
(** without enabled members and without searches around the best solution nothing is evaluated any more *)
Theorem C98_endless : forall F E p k, let C := e_cfg E in let A := mts F C p in mt_enabled p = 0 -> mt_best p = 0 -> c_max_iters C = LInf -> going E A k = true ->
  match state_after E A k with Some (s, w) => existsb m_en (r_par s : list mext) = false /\ stopping_condition C (w_ts w) = false | None => False end -> never_ends E A.
Proof.
  intros F E p k C A H0 Hb Hi G H.
  apply (endless E A (fun s w => existsb m_en (r_par s : list mext) = false /\ stopping_condition C (w_ts w) = false)) with (k := k); auto.
  clear H G. intros s w [P1 P2]. split; [exact P2|].
  assert (Qt : quiet (a_iter A (r_pop s) (r_fit s) (r_xb s) (r_fxb s) (r_par s)) (fun r => let '(pop, fit, xb, fxb, par) := r in existsb m_en par = false)).
  { cbn [a_iter mts A]. unfold mts_iter. rewrite quiet_members.
    2:{ destruct (existsb _ (combine _ _)) eqn:Q; auto. apply existsb_exists in Q. destruct Q as ([q e] & Q1 & Q2). cbn [snd] in Q2. apply in_combine_r in Q1.
        rewrite <- P1. symmetry. apply existsb_exists. exists e. auto. }
    cbn [bind fst snd]. unfold mts_polish. rewrite Hb, H0. unfold for_range. cbn [seq foldM bind quiet].
    set (rows := map snd _). assert (R : existsb m_en rows = false).
    { destruct (existsb m_en rows) eqn:Q; auto. apply existsb_exists in Q. destruct Q as (e & Q1 & Q2). unfold rows in Q1. apply in_map_iff in Q1. destruct Q1 as ([q e'] & Q1 & Q3). cbn [snd] in Q1. subst e'.
      apply in_combine_r in Q3. rewrite <- P1. symmetry. apply existsb_exists. exists e. auto. }
    clearbody rows. unfold enable_lowest. cbn [firstn existsb]. generalize 0 as t. revert R. induction rows as [|e rows IH]; intros R t; simpl in *; auto.
    apply orb_false_iff in R. destruct R as [-> R]. cbn [orb]. apply IH; auto. }
  apply (quiet_exec E _ _ _ w) in Qt. destruct Qt as ([[[[pop fit] xb] fxb] par] & n & Ex & Q). exists pop, fit, xb, fxb, par. eexists. split; [exact Ex|]. split; [exact Q|].
  cbn [w_ts]. rewrite <- P2. unfold stopping_condition. rewrite Hi. reflexivity.
Qed.

(** ** The hypotheses are met, and the models at work *)
Module ExMts.
  Definition C1 := box 2 (-2) 2 (LFin 60).
  Definition E1 := exenv C1 lin.
  Lemma ok1 : cfg_ok C1. Proof. apply box_ok. lia. Qed.
  Lemma keeps1 : repair_keeps E1. Proof. intros q x Hx. apply C94_keeps_limit; [exact ok1|exact Hx]. Qed.
  Lemma hyps1 : cfg_ok (e_cfg E1) /\ no_nan (e_prob E1) /\ repair_ok E1 /\ repair_keeps E1.
  Proof. split; [exact ok1|]. split; [apply lin_no_nan|]. split; [apply clip_ok; exact ok1|exact keeps1]. Qed.
  (** the searches of the class, and the defaults of the bonuses *)
  Definition p1 := MTSPar 3 1 1 2 1 (N' 10) (N' 1) [LS1; LS2; LS3] 0.
  Definition pv := mts_v1 3 1 1 2 (N' 10) (N' 1).
  (** only searches that keep pairs *)
  Definition p2 := MTSPar 3 1 1 2 1 (N' 10) (N' 1) [LS1; LS2] 0.
  (** runs *)
  Example run1 : trace (exenv (box 2 (-2) 2 (LFin 14)) lin) (mts b64ops (box 2 (-2) 2 (LFin 14)) p2) 9 =
    (Ret ([(-122880); (-122880)], (-368640)), [[8192; 40960]; [24576; 24576]; [40960; 8192]; [(-122880);
    40960]; [(-122880); (-90112)]; [(-122880); (-90112)]; [(-24576); (-90112)]; [(-131072); (-90112)];
    [(-122880); (-122880)]; [(-122880); (-122880)]; [(-106496); 24576]; [(-106496); (-106496)]; [(-106496);
    (-8192)]; [(-106496); (-131072)]])%Z.
  Proof. vm_compute. reflexivity. Qed.
  Example ran1 : (ran E1 (mts b64ops C1 p1) 9, ran E1 (mts b64ops C1 pv) 9, ran E1 (mts b64ops C1 p2) 9) =
    (Some (1, 60), Some (4, 60), Some (4, 60)).
  Proof. vm_compute. reflexivity. Qed.
  Example best1 : best_run_x (fun _ => False) E1 (mts b64ops C1 p1) /\ sizes_ok (fun n => n = 3) E1 (mts b64ops C1 p1).
  Proof. destruct hyps1 as (H1 & H2 & H3 & H4). apply (C94_mts b64ops E1 p1); auto; cbn; try lia; discriminate. Qed.
  Example ends1 : terminates (mts b64ops C1 p1) E1.
  Proof. destruct hyps1 as (H1 & H2 & H3 & H4). apply (C98_terminates b64ops E1 p1); auto; cbn; try lia; try discriminate. intros [H|[H|[H|[]]]]; discriminate. Qed.
  (** each search, started from (1, 1) with value 3, the best being (0, 0): value, best value, improve, evaluations *)
  Definition try (k : lsearch) : outcome (list Z * Z * list Z * Z * bool * list Z * nat) :=
    match exec E1 (run_ls b64ops C1 9 k (N' 10) (N' 1) [N' 1; N' 1] (N' 3) (Some [N' 0; N' 0]) (N' 0) false [N' 2; N' 2]) (World (task_init C1) [] 0) with
    | (Ret r, w) => Ret (map scl (l_x r), scl (l_f r), map scl (l_best r), scl (l_bf r), l_imp r, map scl (l_sr r), length (w_h w))
    | (Raise e, _) => Raise e
    end.
  Example tries : map try [LS1; LS1v1; LS2; LS3; LS3v1] =
    [Ret ([0; 0], 0, [0; 0], 0, true, [65536; 65536], 2%nat); Ret ([57344; 24576], 106496, [0; 0], 0, true, [65536; 65536], 2%nat);
     Ret ([65536; 16384], 98304, [0; 0], 0, true, [65536; 65536], 2%nat); Ret ([65536; 65536], 196608, [0; 0], 0, true, [131072; 131072], 8%nat);
     Ret ([65536; 65536], 196608, [0; 0], 0, false, [131072; 131072], 21%nat)]%Z.
  Proof. vm_compute. reflexivity. Qed.
  Lemma inside11 : inside C1 [N' 1; N' 1] /\ inside C1 [N' 0; N' 0] /\ fleb (N' 0) (N' 3) = true.
  Proof. split; [|split; [|reflexivity]]; repeat constructor; right; split; vm_compute; reflexivity. Qed.
  (** grades and flags after an iteration *)
  Example flags1 : match state_after E1 (mts b64ops C1 pv) 1 with Some (s, w) => map (fun e => (m_en e, scl (m_gr e))) (r_par s : list mext) | None => [] end =
    [(true, 131072); (true, 0); (false, 720896)]%Z.
  Proof. vm_compute. reflexivity. Qed.
  (** a repair that moves every point *)
  Definition E3 := Env C1 lin (fun q _ => repeat (fl8 q) 2) fl8 in7.
  Lemma ok3 : repair_ok E3.
  Proof.
    intros q x _. assert (G : in_range (N' (-2)) (N' 2) (fl8 q)).
    { right. unfold fl8. assert (M := Z.mod_pos_bound (Z.of_nat (q * q + 3 * q + 1)) 8 ltac:(lia)). set (z := (Z.of_nat (q * q + 3 * q + 1) mod 8)%Z) in *. clearbody z. unfold ExLib.q. cbn [Z.log2 Pos.size].
      rewrite Z.shiftl_mul_pow2 by lia. unfold N', fx_scale. cbn [fleb]. change (2 ^ 1074)%Z with (8 * 2 ^ 1071)%Z. assert (0 < 2 ^ 1071)%Z by (apply Z.pow_pos_nonneg; lia).
      change (1074 - 3)%Z with 1071%Z. split; apply Z.leb_le; nia. }
    unfold inside. cbn [E3 e_cfg C1 box c_lower c_upper combine repeat e_rep]. constructor; [exact G|constructor; [exact G|constructor]].
  Qed.
  Definition CE := Cfg Minimization 2 [N' (-2); N' (-2)] [N' 2; N' 2] (LFin 60) LInf NInf.
  Definition EE := exenv CE lin.
  Definition CS := box 2 (-2) 2 (LFin 200).
  Definition ES := exenv CS sq.
  Definition CV := box 1 (-2) 2 (LFin 200).
  Definition EV := exenv CV lin.
End ExMts.
(** ** Refutations *)
(** the class asks nothing of the repair function, but a repair that changes components within the bounds lets mts_ls1 return a pair that was never evaluated *)
Theorem C94_repair_refuted : exists E p, let C := e_cfg E in cfg_ok C /\ no_nan (e_prob E) /\ repair_ok E /\ 0 < mt_n p /\ mt_ls p <> [] /\ length (mt_ls p) <= 3 /\
  bad_pair E (mts b64ops C p) 9 = true /\ ~ best_run_x (fun _ => True) E (mts b64ops C p).
Proof.
  exists ExMts.E3, ExMts.p2. cbv zeta. split; [exact ExMts.ok1|]. split; [apply lin_no_nan|]. split; [exact ExMts.ok3|]. split; [cbn; lia|]. split; [discriminate|]. split; [cbn; lia|].
  assert (Q : bad_pair ExMts.E3 (mts b64ops (e_cfg ExMts.E3) ExMts.p2) 9 = true) by (vm_compute; reflexivity).
  split; [exact Q|]. apply (run_bad_pair _ _ _ _ Q).
Qed.
(** grading_run has room for three searches, and none is no good either *)
Theorem C94_searches_refuted : exists E p p', let C := e_cfg E in cfg_ok C /\ no_nan (e_prob E) /\ repair_ok E /\ repair_keeps E /\ 0 < mt_n p /\ 0 < mt_n p' /\
  length (mt_ls p) = 4 /\ mt_ls p' = [] /\ own_exn E (mts b64ops C p) 9 = Some EIndex /\ ~ best_run_x (fun _ => False) E (mts b64ops C p) /\
  own_exn E (mts b64ops C p') 9 = Some EValue /\ ~ best_run_x (fun _ => False) E (mts b64ops C p').
Proof.
  exists ExMts.E1, (MTSPar 3 1 1 2 1 (N' 10) (N' 1) [LS1; LS2; LS3; LS1] 0), (MTSPar 3 1 1 2 1 (N' 10) (N' 1) [] 0). cbv zeta. destruct ExMts.hyps1 as (H1 & H2 & H3 & H4).
  split; [exact H1|]. split; [exact H2|]. split; [exact H3|]. split; [exact H4|]. split; [cbn; lia|]. split; [cbn; lia|]. split; [reflexivity|]. split; [reflexivity|].
  assert (G : forall A e, own_exn ExMts.E1 A 9 = Some e -> e <> EFuel -> own_exn ExMts.E1 A 9 = Some e /\ ~ best_run_x (fun _ => False) ExMts.E1 A).
  { intros A e H He. split; [exact H|]. apply (run_raises (fun _ => False) _ _ _ _ H); [exact He|exact (fun x => x)]. }
  rewrite <- and_assoc. split; apply G; try discriminate; vm_compute; reflexivity.
Qed.
(** "Number of best solution for testing" (mts.py:336): a member with the smaller grade is enabled and one with the larger grade is not *)
Theorem C96_best_refuted : exists E p s w i j e e', let C := e_cfg E in cfg_ok C /\ no_nan (e_prob E) /\ repair_ok E /\ repair_keeps E /\ 0 < mt_n p /\
  reached E (mts b64ops C p) s w /\ nth_error (r_par s : list mext) i = Some e /\ nth_error (r_par s : list mext) j = Some e' /\
  m_en e = true /\ m_en e' = false /\ fltb (m_gr e) (m_gr e') = true.
Proof.
  destruct (state_check ExMts.E1 (mts b64ops ExMts.C1 ExMts.pv) 1 (fun s w => match nth_error (r_par s : list mext) 0, nth_error (r_par s : list mext) 2 with
    | Some e, Some e' => m_en e && negb (m_en e') && fltb (m_gr e) (m_gr e') | _, _ => false end)) as (s & w & HR & Q); [vm_compute; reflexivity|].
  destruct (nth_error (r_par s : list mext) 0) as [e|] eqn:N0; [|discriminate]. destruct (nth_error (r_par s : list mext) 2) as [e'|] eqn:N2; [|discriminate].
  apply andb_true_iff in Q. destruct Q as [Q Q3]. apply andb_true_iff in Q. destruct Q as [Q1 Q2]. apply negb_true_iff in Q2.
  destruct ExMts.hyps1 as (H1 & H2 & H3 & H4). exists ExMts.E1, ExMts.pv, s, w, 0, 2, e, e'. cbv zeta. do 4 (split; [assumption|]). split; [cbn; lia|]. auto 10.
Qed.
(** mts_ls1v1 and mts_ls3 leave members with a value that their solution does not have *)
Definition stale_rows (E : env) (A : algo) (xs : a_pop A -> list vec) (s : rstate A) (w : world) : bool :=
  existsb (fun q => negb (num_eqb (snd q) PInf) && negb (existsb (fun e => vec_eqb (fst q) (fst e) && num_eqb (snd q) (snd e)) (log_of (c_opt (e_cfg E)) (w_h w)))) (combine (xs (r_pop s)) (r_fit s)).
Lemma stale_spec : forall E A xs s w, stale_rows E A xs s w = true -> exists x f, In (x, f) (combine (xs (r_pop s)) (r_fit s)) /\ f <> PInf /\ ~ In (x, f) (log_of (c_opt (e_cfg E)) (w_h w)).
Proof.
  intros E A xs s w H. apply existsb_exists in H. destruct H as ([x f] & H1 & H2). apply andb_true_iff in H2. destruct H2 as [H2 H3]. apply negb_true_iff in H2, H3. cbn [fst snd] in *.
  exists x, f. split; [auto|]. split; [intros ->; discriminate|]. intros Hi. enough (T : true = false) by discriminate T. rewrite <- H3. symmetry. apply existsb_exists. exists (x, f). split; [auto|]. cbn [fst snd].
  rewrite (proj2 (vec_eqb_spec x x) eq_refl), (proj2 (num_eqb_spec f f) eq_refl). reflexivity.
Qed.
Theorem C97_default_refuted : exists E p s w x f, let C := e_cfg E in cfg_ok C /\ no_nan (e_prob E) /\ repair_ok E /\ repair_keeps E /\ 0 < mt_n p /\ mt_ls p = [LS1; LS2; LS3] /\
  reached E (mts b64ops C p) s w /\ In (x, f) (combine (r_pop s : list vec) (r_fit s)) /\ f <> PInf /\ ~ In (x, f) (log_of (c_opt C) (w_h w)).
Proof.
  pose (p := MTSPar 3 1 1 0 2 (N' 10) (N' 1) [LS1; LS2; LS3] 0).
  destruct (state_check ExMts.ES (mts b64ops ExMts.CS p) 1 (stale_rows ExMts.ES (mts b64ops ExMts.CS p) (fun q => q))) as (s & w & HR & Q); [vm_compute; reflexivity|].
  apply stale_spec in Q. destruct Q as (x & f & Q1 & Q2 & Q3). assert (H1 : cfg_ok ExMts.CS) by (apply box_ok; lia).
  exists ExMts.ES, p, s, w, x, f. cbv zeta. split; [exact H1|]. split; [apply sq_no_nan|]. split; [apply clip_ok; exact H1|]. split; [intros r y Hy; apply C94_keeps_limit; auto|]. split; [cbn; lia|]. split; [reflexivity|]. auto.
Qed.
Theorem C97_v1_refuted : exists E n tests searches enabled s w x f, let C := e_cfg E in let p := mts_v1 n tests searches enabled (N' 10) (N' 1) in
  cfg_ok C /\ no_nan (e_prob E) /\ repair_ok E /\ repair_keeps E /\ 0 < n /\
  reached E (mts b64ops C p) s w /\ In (x, f) (combine (r_pop s : list vec) (r_fit s)) /\ f <> PInf /\ ~ In (x, f) (log_of (c_opt C) (w_h w)).
Proof.
  pose (p := mts_v1 3 1 0 2 (N' 10) (N' 1)).
  destruct (state_check ExMts.EV (mts b64ops ExMts.CV p) 1 (stale_rows ExMts.EV (mts b64ops ExMts.CV p) (fun q => q))) as (s & w & HR & Q); [vm_compute; reflexivity|].
  apply stale_spec in Q. destruct Q as (x & f & Q1 & Q2 & Q3). assert (H1 : cfg_ok ExMts.CV) by (apply box_ok; lia).
  exists ExMts.EV, 3, 1, 0, 2, s, w, x, f. cbv zeta. split; [exact H1|]. split; [apply lin_no_nan|]. split; [apply clip_ok; exact H1|]. split; [intros r y Hy; apply C94_keeps_limit; auto|]. split; [lia|]. auto.
Qed.
(** MultipleTrajectorySearchV1 with num_enabled = 0 *)
Theorem C98_endless_refuted : exists E n tests searches k, let C := e_cfg E in cfg_ok C /\ no_nan (e_prob E) /\ repair_ok E /\ repair_keeps E /\ 0 < n /\ 0 < tests /\ 0 < searches /\
  c_max_evals C = LFin k /\ never_ends E (mts b64ops C (mts_v1 n tests searches 0 (N' 10) (N' 1))).
Proof.
  assert (H1 : cfg_ok ExMts.CE) by (split; [reflexivity|split; [reflexivity|repeat constructor]]).
  exists ExMts.EE, 3, 1, 1, 60%Z. cbv zeta. split; [exact H1|]. split; [apply lin_no_nan|]. split; [apply clip_ok; exact H1|]. split; [intros r y Hy; apply C94_keeps_limit; auto|].
  split; [lia|]. split; [lia|]. split; [lia|]. split; [reflexivity|]. apply (C98_endless b64ops ExMts.EE (mts_v1 3 1 1 0 (N' 10) (N' 1)) 1); [reflexivity|reflexivity|reflexivity|vm_compute; reflexivity|vm_compute; auto].
Qed.
Example C98_hyps : sane ExMts.E1 /\ c_max_evals ExMts.C1 = LFin 60.
Proof. split; [intros h x H; discriminate|reflexivity]. Qed.

Print Assumptions C94_keeps_limit.
Print Assumptions C94_keeps_limit_inverse.
Print Assumptions C94_keeps_rand.
Print Assumptions C94_mts.
Print Assumptions C94_v1.
Print Assumptions C95_search.
Print Assumptions C95_pair.
Print Assumptions C95_range.
Print Assumptions C96_step.
Print Assumptions C97_pairs.
Print Assumptions C98_terminates.
Print Assumptions C98_endless.
Print Assumptions C94_repair_refuted.
Print Assumptions C94_searches_refuted.
Print Assumptions C96_best_refuted.
Print Assumptions C97_default_refuted.
Print Assumptions C97_v1_refuted.
Print Assumptions C98_endless_refuted.
