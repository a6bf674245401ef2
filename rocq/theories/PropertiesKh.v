(** Final theorems about KrillHerd (kh.py) (C105-C108). *)
From Coq Require Import ZArith Lia Lra Reals Bool List Sorted Floats.SpecFloat.
From Flocq Require Import Core BinarySingleNaN.
From Verif Require Import Num Task TaskSpec TaskProofs TaskProofs2 Prog Wp GetBest Run RunSpec RunProofs RunProofs2
  AlgoLib Fops AlgTac StepSpec StepLib Indiv IndivLib Reach AlgBasic AlgSwarm PopLib AlgEvoProofs Repair B64 B64Spec B64Int B64Mag ExLib ExLib2
  PropertiesShade Progress PropertiesProgress PropertiesCa AlgKh AlgKhProofs.
Import ListNotations.
Open Scope nat_scope.
Notation fabs := Fops.fabs.

(** * C105 *)
(** the shape of a herd: population_size rows inside the box, a fitness value and two speeds for each of them *)
Record herd (C : cfg) (p : kh_par) (pop : list vec) (fit : list num) (st : kh_state) : Prop := Herd {
  hd_pop : length pop = kh_n p; hd_fit : length fit = kh_n p; hd_in : Forall (inside C) pop; hd_nan : Forall (fun v => v <> NaN) fit;
  hd_ind : length (kh_ind st) = kh_n p; hd_frg : length (kh_frg st) = kh_n p;
  hd_di : Forall (fun v => length v = c_dim C) (kh_ind st); hd_df : Forall (fun v => length v = c_dim C) (kh_frg st)
}.
Definition kh_ok (C : cfg) (p : kh_par) : Prop := 0 < kh_n p /\ length (kh_wn p) = c_dim C /\ length (kh_wf p) = c_dim C.
Theorem C105_best : forall F E p, let C := e_cfg E in cfg_ok C -> no_nan (e_prob E) -> repair_ok E -> kh_ok C p ->
  best_run E (kh F C p) /\ sizes_ok (fun n => n = kh_n p) E (kh F C p).
Proof.
  intros F E p C HC Hn Hr (K1 & K2 & K3).
  apply (pop_all2 (fun _ => False) E (kh_n p) kh_state (kh_init F C p) (kh_iter F C p) (KhInv C p)); auto.
  - intros Q HQ. apply kh_in; auto.
  - intros pop fit xb fxb st l H1 H2. apply kh_it; auto.
Qed.
Theorem C105_herd : forall F E p s w, let C := e_cfg E in cfg_ok C -> no_nan (e_prob E) -> repair_ok E -> kh_ok C p ->
  reached E (kh F C p) s w -> herd C p (r_pop s) (r_fit s) (r_par s).
Proof.
  intros F E p s w C HC Hn Hr (K1 & K2 & K3) H.
  assert (G : PopInv C (kh_n p) (r_pop s) (r_fit s) (r_xb s) (r_fxb s) (log_of (c_opt C) (w_h w)) /\ KhInv C p (r_pop s) (r_fit s) (r_par s)).
  { apply (reach_c (inside C) (fun _ => False) E (kh F C p) (fun pop fit xb fxb st l => PopInv C (kh_n p) pop fit xb fxb l /\ KhInv C p pop fit st)); auto.
    - apply (init_pop C (fun _ => False)); auto. intros Q HQ. apply kh_in; auto.
    - intros pop fit xb fxb st l [H1 H2]. apply kh_it; auto. }
  destruct G as [G (S1 & S2 & S3 & S4)]. constructor; auto; try apply G. eapply pi_nan; eauto.
Qed.

(** * C106: one iteration *)
Section Step.
Variables (F : fops) (E : env) (p : kh_par).
Let C := e_cfg E.
Let n := kh_n p.
Let d := c_dim C.
Let eps := flit F 1 (2 ^ 52).
Let one := flit F 1 1.
Let two := flit F 2 1.
(** the worst and the best fitness of the herd are fw and fb *)
Definition gain (fb fw a b : num) : num := fdiv F (fadd F (fsub F a b) eps) (fadd F (fsub F fw fb) eps).
(** component j of the direction from x to y *)
Definition pull (x y : vec) (j : nat) : num := fdiv F (fadd F (fsub F (nth j y NaN) (nth j x NaN)) eps) (fadd F (euclidean F y x) eps).
(** the krill nearer than the sensing distance, in increasing order; a random one if there are none *)
Definition senses (pop : list vec) (i j : nat) : Prop :=
  j < n /\ j <> i /\ fltb (euclidean F (nth i pop []) (nth j pop []))
    (fdiv F (vsum F (map (fun k => euclidean F (nth i pop []) (nth k pop [])) (seq 0 n))) (fmul F (kh_nn p) (fnat F n))) = true.
Definition neighbours (pop : list vec) (i : nat) (js : list nat) : Prop :=
  ((exists j, j < n /\ js = [j]) /\ forall j, ~ senses pop i j) \/
  (js <> [] /\ StronglySorted lt js /\ forall j, In j js <-> senses pop i j).
(** the share of the iterations that is over after this one *)
Definition elapsed (it : nat) : num := fdiv F (fnat F (S it)) (flim F (c_max_iters C)).
Definition induced_by (it : nat) (pop : list vec) (fit : list num) (fb fw : num) (i : nat) (old new : vec) : Prop :=
  exists js r, neighbours pop i js /\ in_unit r /\
  comps d new (fun j a => a = fadd F (fmul F (kh_nmax p) (fadd F
      (vsum F (flat_map (fun k => map (fun j => fmul F (gain fb fw (nth i fit NaN) (nth k fit NaN)) (pull (nth i pop []) (nth k pop []) j)) (seq 0 d)) js))
      (fmul F two (fadd F one (fdiv F (fmul F r (fnat F (S it))) (flim F (c_max_iters C)))))))
    (fmul F (nth j (kh_wn p) NaN) (nth j old NaN))).
Definition foraging_by (it : nat) (pop : list vec) (fit : list num) (fb fw : num) (b : nat) (food : vec) (ff : num) (i : nat) (old new : vec) : Prop :=
  comps d new (fun j a => a = fadd F (fmul F (kh_vf p) (fadd F
      (if fltb fb (nth i fit NaN) then fmul F (fmul F (fmul F two (fsub F one (elapsed it))) (gain fb fw (nth i fit NaN) ff)) (pull (nth i pop []) food j) else flit F 0 1)
      (fmul F (gain fb fw (nth i fit NaN) fb) (pull (nth i pop []) (nth b pop []) j))))
    (fmul F (nth j (kh_wf p) NaN) (nth j old NaN))).
(** the new position before the repair: N and Fo are the two speeds *)
Definition moved_by (it : nat) (pop : list vec) (fit : list num) (fb fw : num) (b i : nat) (N Fo new : vec) : Prop :=
  comps d new (fun j a => exists u r1 r2, in_unit r1 /\ in_unit r2 /\
    (fleb (flit F (-1) 1) one = true -> fleb (flit F (-1) 1) u = true /\ fleb u one = true) /\
    let x := nth j (nth i pop []) NaN in
    let k := gain fb fw (nth i fit NaN) fb in
    let y := if fltb r1 (fmul F (kh_cr p) k) then x
             else fadd F x (fmul F (fmul F (kh_ct p) (vsum F (map2 (fsub F) (c_upper C) (c_lower C))))
                    (fadd F (fadd F (nth j N NaN) (nth j Fo NaN)) (fmul F (fmul F (kh_dmax p) (fsub F one (elapsed it))) u))) in
    if fltb r2 (fdiv F (kh_mr p) (fadd F k (kh_tiny p))) then a = y else exists s, in_unit s /\ a = fadd F (nth j (nth b pop []) NaN) s).
(** the food: the mean of the herd weighted with the reciprocals of the fitness values *)
Definition food_of (pop : list vec) (fit : list num) (food : vec) : Prop :=
  exists g, comps d g (fun j a => a = fdiv F (vsum F (map (fun i => fdiv F (nth j (nth i pop []) NaN) (nth i fit NaN)) (seq 0 n)))
                                             (vsum F (map (fun i => fdiv F one (nth i fit NaN)) (seq 0 n)))) /\ repaired E g food.
Definition herded (it : nat) (pop : list vec) (fit : list num) (xb : vec) (fxb : num) (st : kh_state) (l : elog)
  (pop' : list vec) (fit' : list num) (xb' : vec) (fxb' : num) (st' : kh_state) (l' : elog) : Prop :=
  exists b w fb fw food ff l1 out,
    first_min fit b fb /\ first_max fit w fw /\ food_of pop fit food /\ evaluated food ff l l1 /\
    length (kh_ind st') = n /\ (forall i, i < n -> induced_by it pop fit fb fw i (nth i (kh_ind st) []) (nth i (kh_ind st') [])) /\
    length (kh_frg st') = n /\ (forall i, i < n -> foraging_by it pop fit fb fw b food ff i (nth i (kh_frg st) []) (nth i (kh_frg st') [])) /\
    length out = n /\ (forall i, i < n -> moved_by it pop fit fb fw b i (nth i (kh_ind st') []) (nth i (kh_frg st') []) (nth i out [])) /\
    renewed E out (if fltb ff fxb then food else xb) (if fltb ff fxb then ff else fxb) l1 pop' fit' xb' fxb' l'.
End Step.

Lemma vec_seq : forall d (x : vec) (f : nat -> num), comps d x (fun j a => a = f j) -> x = map f (seq 0 d).
Proof.
  intros d x f [L H]. apply (nth_ext _ _ NaN NaN); [rewrite map_length, seq_length; exact L|]. intros j Hj. rewrite L in Hj. rewrite nth_map_seq by auto. apply H; auto.
Qed.
Lemma map_row : forall A (f : vec -> A) (pop : list vec), map f pop = map (fun i => f (nth i pop [])) (seq 0 (length pop)).
Proof. intros A f pop. induction pop as [|x pop IH]; [reflexivity|]. cbn [map length seq nth]. f_equal. rewrite <- seq_shift, map_map. exact IH. Qed.
Lemma map_fit : forall A (f : num -> A) (fs : list num), map f fs = map (fun i => f (nth i fs NaN)) (seq 0 (length fs)).
Proof. intros A f fs. induction fs as [|x fs IH]; [reflexivity|]. cbn [map length seq nth]. f_equal. rewrite <- seq_shift, map_map. exact IH. Qed.
Lemma map2_seq : forall (f : num -> num -> num) (x y : vec) m, length x = m -> length y = m -> map2 f x y = map (fun i => f (nth i x NaN) (nth i y NaN)) (seq 0 m).
Proof.
  intros f x. induction x as [|a x IH]; intros [|b y] m L1 L2; cbn [length] in *; subst m; try discriminate; [reflexivity|]. cbn [map2 seq map nth]. f_equal.
  rewrite <- seq_shift, map_map. apply IH; auto.
Qed.
Lemma seq_sorted : forall k n, StronglySorted lt (seq k n).
Proof. intros k n. revert k. induction n; intros k; cbn [seq]; constructor; auto. apply Forall_forall. intros j Hj. apply in_seq in Hj. lia. Qed.
Lemma filter_sorted : forall A (R : A -> A -> Prop) f xs, StronglySorted R xs -> StronglySorted R (filter f xs).
Proof.
  intros A R f xs H. induction H as [|a xs H IH G]; cbn [filter]; [constructor|]. destruct (f a); auto. constructor; auto.
  apply Forall_forall. intros b Hb. apply filter_In in Hb. rewrite Forall_forall in G. apply G. tauto.
Qed.
Lemma w_neigh_spec : forall F E p pop i (Q : list nat -> elog -> Prop) l, (forall js, neighbours F p pop i js -> Forall (fun j => j < kh_n p) js -> Q js l) -> 0 < kh_n p ->
  wp (K_tr E) (kh_neighbours F p pop i) Q l.
Proof.
  intros F E p pop i Q l HQ Hn. assert (G : forall j, In j (kh_near F p pop i) <-> senses F p pop i j).
  { intros j. unfold kh_near, senses, sense_range, krow. rewrite filter_In, in_seq, andb_true_iff, negb_true_iff, Nat.eqb_neq. intuition lia. }
  unfold kh_neighbours. destruct (kh_near F p pop i) as [|j js] eqn:Q0.
  - apply wp_bind. apply w_integers; auto. intros r Hr. apply w_done. apply HQ; auto. left. split; [eauto|]. intros j Hj. apply G in Hj. exact Hj.
  - apply w_done. apply HQ.
    + right. split; [discriminate|]. split; [rewrite <- Q0; apply filter_sorted; apply seq_sorted|exact G].
    + apply Forall_forall. intros a Ha. apply G in Ha. apply Ha.
Qed.
Lemma pull_nth : forall F d x y j, length x = d -> length y = d -> j < d -> nth j (kh_x F x y) NaN = pull F x y j.
Proof. intros F d x y j Lx Ly Hj. unfold kh_x, pull. nths d. reflexivity. Qed.

Theorem C106_step : forall F E p pop fit xb fxb st pop' fit' xb' fxb' st' wd wd', let C := e_cfg E in cfg_ok C -> repair_ok E -> kh_ok C p -> herd C p pop fit st ->
  exec E (a_iter (kh F C p) pop fit xb fxb st) wd = (Ret (pop', fit', xb', fxb', st'), wd') ->
  herded F E p (t_iters (w_ts wd)) pop fit xb fxb st (log_of (c_opt C) (w_h wd)) pop' fit' xb' fxb' st' (log_of (c_opt C) (w_h wd')).
Proof.
  intros F E p pop fit xb fxb st pop' fit' xb' fxb' st' wd wd' C HC Hr (K1 & K2 & K3) [H1 H2 H3 H4 H5 H6 H7 H8] Ex. set (l := log_of (c_opt C) (w_h wd)).
  cbn [a_iter kh] in Ex. unfold kh_iter in Ex. rewrite exec_view in Ex. cbn [v_iters] in Ex. set (it := t_iters (w_ts wd)) in *.
  apply (tr_sound _ E _ (fun s l' => let '(pop', fit', xb', fxb', st') := s in herded F E p it pop fit xb fxb st l pop' fit' xb' fxb' st' l') _ _ _) in Ex; [exact Ex|].
  fold C l. clear Ex pop' fit' xb' fxb' st' wd'. clearbody it l. clear wd. set (d := c_dim C) in *. set (n := kh_n p) in *.
  assert (Ne : fit <> []) by (intros Q; rewrite Q in H2; simpl in H2; unfold n in H2; lia).
  destruct (argmin_spec fit Ne H4) as (b & fb & Eb & Mb). destruct (argmax_spec fit Ne H4) as (w & fw & Ew & Mw). rewrite Eb, Ew. cbn [argP]. do 2 (apply wp_bind; apply w_done).
  assert (Lb := argmin_range _ _ Eb). rewrite H2 in Lb.
  assert (Vb : kfit fit b = fb) by (unfold kfit; apply nth_error_nth; apply Mb). assert (Vw : kfit fit w = fw) by (unfold kfit; apply nth_error_nth; apply Mw).
  assert (D : dims d pop) by (apply dims_inside; auto).
  assert (Rl : forall i, i < n -> length (krow pop i) = d) by (intros i Hi; apply dims_nthd; auto; lia).
  assert (Ri : forall i, i < n -> length (krow (kh_ind st) i) = d) by (intros i Hi; apply dims_nthd; auto; lia).
  assert (Rf : forall i, i < n -> length (krow (kh_frg st) i) = d) by (intros i Hi; apply dims_nthd; auto; lia).
  apply wp_bind. apply w_repair_tr. intros food Hfd.
  assert (Lg : length (kh_food F C pop fit) = d) by (unfold kh_food; dl).
  assert (Lfood : length food = d) by (destruct Hfd as [q ->]; apply inside_len; auto; apply Hr; auto).
  apply wp_bind. apply w_eval_tr. intros ff l1 Hff.
  replace (if fltb ff fxb then (food, ff) else (xb, fxb)) with (if fltb ff fxb then food else xb, if fltb ff fxb then ff else fxb) by (destruct (fltb ff fxb); reflexivity). cbn beta iota.
  rewrite Vb, Vw. apply wp_bind.
  apply (w_mapM_seq _ _ (fun i x => induced_by F E p it pop fit fb fw i (nth i (kh_ind st) []) x) _ _ []).
  { intros i Q' Hi HQ. unfold kh_induced. apply wp_bind. apply w_neigh_spec; auto. intros js Hjs Hlt. apply wp_bind. apply w_random_u. intros r Hrr. cbv zeta. apply w_done. apply HQ.
    exists js, r. split; [exact Hjs|]. split; [exact Hrr|]. assert (G := Ri i Hi). fold (krow (kh_ind st) i). fold d. split; [dl|]. intros j Hj. nths d. f_equal. f_equal. f_equal. unfold kh_alpha. f_equal.
    rewrite flat_map_concat_map. f_equal. apply map_ext_in. intros k Hk. rewrite Forall_forall in Hlt. specialize (Hlt _ Hk). fold n in Hlt.
    apply vec_seq. assert (G1 := kh_x_len F C _ _ (Rl i Hi) (Rl k Hlt)). split; [dl|]. intros j' Hj'. nths d. rewrite (pull_nth F d) by auto. reflexivity. }
  intros ind Li Di. cbv zeta. set (frg := map (kh_foraging F C p it pop fit b w food ff (kh_frg st)) (seq 0 n)).
  assert (Lf : length frg = n) by (unfold frg; dl).
  assert (Df : forall i, i < n -> foraging_by F E p it pop fit fb fw b food ff i (nth i (kh_frg st) []) (nth i frg [])).
  { intros i Hi. unfold frg. rewrite nth_map_seq by auto. split; [apply kh_forage_len; auto|]. intros j Hj. fold C d in Hj. unfold kh_foraging. cbv zeta. rewrite Vb, Vw. unfold kfit.
    assert (G := Rf i Hi). assert (G1 := Rl i Hi). assert (G2 := Rl b Lb). assert (G3 := kh_x_len F C _ _ G1 Lfood). assert (G4 := kh_x_len F C _ _ G1 G2). fold d in G3, G4.
    destruct (fltb fb (nth i fit NaN)); nths d; rewrite ?(pull_nth F d) by auto; reflexivity. }
  apply wp_bind. apply (w_mapM_seq _ _ (fun i x => exists u, comps d u (fun j c => fleb (flit F (-1) 1) (flit F 1 1) = true -> fleb (flit F (-1) 1) c = true /\ fleb c (flit F 1 1) = true) /\
      x = vscale F (fmul F (kh_dmax p) (fsub F (flit F 1 1) (kh_time F C it))) u) _ _ []).
  { intros i Q' Hi HQ. unfold kh_diffusion. apply wp_bind. apply (w_uniform_vec_len _ _ _ d); [apply repeat_length|apply repeat_length|]. intros u [Lu Hu]. apply w_done. apply HQ.
    exists u. split; [|reflexivity]. split; [exact Lu|]. intros j Hj. specialize (Hu j Hj). fold d in Hu. rewrite !nth_rep in Hu by auto. exact Hu. }
  intros dif Ld Dd. set (new1 := map _ (seq 0 n)).
  assert (Ln : forall i, i < n -> comps d (krow new1 i) (fun j a => exists u, (fleb (flit F (-1) 1) (flit F 1 1) = true -> fleb (flit F (-1) 1) u = true /\ fleb u (flit F 1 1) = true) /\
     a = fadd F (nth j (nth i pop []) NaN) (fmul F (fmul F (kh_ct p) (vsum F (map2 (fsub F) (c_upper C) (c_lower C))))
                    (fadd F (fadd F (nth j (nth i ind []) NaN) (nth j (nth i frg []) NaN)) (fmul F (fmul F (kh_dmax p) (fsub F (flit F 1 1) (elapsed F E it))) u))))).
  { intros i Hi. unfold new1, krow at 1. rewrite nth_map_seq by auto. destruct (Dd i Hi) as (u & [Lu Hu] & Ed). assert (G := Rl i Hi).
    assert (G1 : length (krow ind i) = d) by (destruct (Di i Hi) as (? & ? & _ & _ & [? _]); auto). assert (G2 : length (krow frg i) = d) by apply (Df i Hi).
    assert (G3 : length (krow dif i) = d) by (unfold krow; rewrite Ed; dl). split; [dl|]. intros j Hj. fold d in Hj. exists (nth j u NaN). split; [exact (Hu j Hj)|].
    nths d. unfold krow at 4. rewrite Ed. nths d. reflexivity. }
  clearbody new1. apply wp_bind.
  apply (w_mapM_seq _ _ (fun i x => comps d x (fun j a => exists r, in_unit r /\ a = if fltb r (kh_crate F p (kfit fit i) fb fb fw) then nth j (nth i pop []) NaN else nth j (nth i new1 []) NaN)) _ _ []).
  { intros i Q' Hi HQ. unfold kh_crossover. destruct (Ln i Hi) as [L1 _]. assert (L2 := Rl i Hi).
    assert (Lc : length (combine (krow new1 i) (krow pop i)) = d) by (rewrite combine_length; lia).
    apply (w_mapM_vec _ _ (fun a v => exists r, in_unit r /\ v = if fltb r (kh_crate F p (kfit fit i) fb fb fw) then snd a else fst a) _ _ (NaN, NaN)).
    - intros a R _ HR. apply wp_bind. apply w_random_u. intros r Hrr. apply w_done. apply HR. eauto.
    - intros ys Ly Gy. apply HQ. rewrite Lc in *. split; [exact Ly|]. intros j Hj. destruct (Gy j Hj) as (r & R1 & R2). rewrite combine_nth in R2 by lia. exists r. split; auto. }
  intros new2 L2 D2. apply wp_bind.
  apply (w_mapM_seq _ _ (fun i x => moved_by F E p it pop fit fb fw b i (nth i ind []) (nth i frg []) x) _ _ []).
  { intros i Q' Hi HQ. unfold kh_mutate. destruct (D2 i Hi) as [L3 G3]. assert (L4 := Rl b Lb).
    assert (Lc : length (combine (krow new2 i) (krow pop b)) = d) by (rewrite combine_length; unfold krow at 1; lia).
    apply (w_mapM_vec _ _ (fun a v => exists r, in_unit r /\ if fltb r (kh_mrate F p (kfit fit i) fb fb fw) then v = fst a else exists s, in_unit s /\ v = fadd F (snd a) s) _ _ (NaN, NaN)).
    - intros a R _ HR. apply wp_bind. apply w_random_u. intros r Hrr. destruct (fltb r _) eqn:Qr; [apply w_done; apply HR; exists r; rewrite Qr; auto|].
      apply wp_bind. apply w_random_u. intros s Hs. apply w_done. apply HR. exists r. rewrite Qr. split; [exact Hrr|eauto].
    - intros ys Ly Gy. apply HQ. rewrite Lc in *. split; [exact Ly|]. intros j Hj. fold C d in Hj. destruct (Gy j Hj) as (r2 & R1 & R2). rewrite combine_nth in R2 by (unfold krow at 1; lia).
      cbn [fst snd] in R2. destruct (G3 j Hj) as (r1 & R3 & R4). destruct (Ln i Hi) as [_ G5]. destruct (G5 j Hj) as (u & U1 & U2). exists u, r1, r2.
      split; [exact R3|]. split; [exact R1|]. split; [exact U1|]. cbv zeta. unfold kh_mrate, kh_crate, kfit in *. unfold krow at 1 in R2. rewrite R4 in R2. unfold krow at 1 in U2. rewrite U2 in R2. exact R2. }
  intros out Lo Do. apply w_renewed_tr. intros pop' fit' xb' fxb' l' Hrn. exists b, w, fb, fw, food, ff, l1, out.
  split; [exact Mb|]. split; [exact Mw|]. split.
  { exists (kh_food F C pop fit). split; [|exact Hfd]. split; [exact Lg|]. intros j Hj. fold C d in Hj. unfold kh_food. rewrite nth_map_seq by auto. f_equal; f_equal.
    - rewrite (map2_seq _ _ _ n) by (rewrite ?map_length; auto). apply map_ext_in. intros i Hi. apply in_seq in Hi. rewrite (nth_mapn _ _ _ _ _ n [] NaN) by (auto; lia). reflexivity.
    - rewrite map_fit, H2. reflexivity. }
  split; [exact Hff|]. split; [exact Li|]. split; [exact Di|]. split; [exact Lf|]. split; [exact Df|]. split; [exact Lo|]. split; [exact Do|]. exact Hrn.
Qed.

(** * C107 *)
Theorem C107_ends : forall F E p, terminates (kh F (e_cfg E) p) E.
Proof.
  intros F E p. apply ends; [cbn [a_init kh]; unfold kh_init; nfs|]. intros s w _ _. cbn [a_iter kh]. unfold kh_iter. apply me_right; [nfs|]. intros v.
  apply me_right; [unfold argP; nfs|]. intros b. apply me_right; [unfold argP; nfs|]. intros wi. apply me_right; [nfs|]. intros food. apply me_left; [apply me_eval|]. intros ff. destruct (fltb ff _); nfs.
Qed.
Lemma evaluated_all_len : forall pop fs l l', evaluated_all pop fs l l' -> length l' <= length l + length pop.
Proof. intros pop fs l l' H. induction H as [|x f xs fs l l1 l2 H _ IH]; [cbn; lia|]. destruct H as [[_ ->]| ->]; cbn [length] in *; lia. Qed.
(** one evaluation for the food and one for every krill *)
Theorem C107_evals : forall F E p pop fit xb fxb st pop' fit' xb' fxb' st' wd wd', let C := e_cfg E in cfg_ok C -> repair_ok E -> kh_ok C p -> herd C p pop fit st ->
  exec E (a_iter (kh F C p) pop fit xb fxb st) wd = (Ret (pop', fit', xb', fxb', st'), wd') ->
  length (log_of (c_opt C) (w_h wd')) <= length (log_of (c_opt C) (w_h wd)) + kh_n p + 1.
Proof.
  intros F E p pop fit xb fxb st pop' fit' xb' fxb' st' wd wd' C HC Hr Hk Hh Ex.
  destruct (C106_step F E p pop fit xb fxb st pop' fit' xb' fxb' st' wd wd' HC Hr Hk Hh Ex) as (b & w & fb & fw & food & ff & l1 & out & _ & _ & _ & H1 & _ & _ & _ & _ & L & _ & (R1 & R2 & _)).
  apply evaluated_all_len in R2. assert (Q := Forall2_len _ _ _ _ _ R1). fold C in R2, H1. destruct H1 as [[_ ->]| ->]; cbn [length] in *; lia.
Qed.

(** * C108: a fitness value of zero *)
Lemma nan_add_l : forall b, fadd b64ops NaN b = NaN. Proof. intros b. cbn [fadd b64ops]. unfold sf2. destruct (to_sf b); reflexivity. Qed.
Lemma nan_add_r : forall a, fadd b64ops a NaN = NaN. Proof. intros a. cbn [fadd b64ops]. unfold sf2. destruct (to_sf a); reflexivity. Qed.
Lemma nan_sub_l : forall b, fsub b64ops NaN b = NaN. Proof. intros b. cbn [fsub b64ops]. unfold sf2. destruct (to_sf b); reflexivity. Qed.
Lemma nan_mul_r : forall a, fmul b64ops a NaN = NaN. Proof. intros a. cbn [fmul b64ops]. unfold sf2. destruct (to_sf a); reflexivity. Qed.
Lemma nan_div_l : forall b, fdiv b64ops NaN b = NaN. Proof. intros b. cbn [fdiv b64ops]. unfold sf2. destruct (to_sf b); reflexivity. Qed.
Lemma nonfin_add_l : forall a b, nonfin a -> nonfin (fadd b64ops a b).
Proof.
  intros a b H. cbn [fadd b64ops]. unfold sf2. apply of_nonfin in H; destruct H as [-> |[s ->]].
  - destruct (to_sf b); exact I.
  - destruct (to_sf b) as [|s'| |]; cbn; try (destruct s; exact I); try exact I. destruct (Bool.eqb s s'); [destruct s|]; exact I.
Qed.
Lemma div_zero : forall a, nonfin (fdiv b64ops a f0).
Proof. intros a. cbn [fdiv b64ops]. unfold sf2. change (to_sf f0) with (S754_zero false). destruct (to_sf a) as [s|s| |s m e]; cbn; try exact I; destruct s; exact I. Qed.
Lemma nonfin_nan : forall a b, nonfin a -> nonfin b -> fdiv b64ops a b = NaN.
Proof. intros a b Ha Hb. cbn [fdiv b64ops]. unfold sf2. apply of_nonfin in Ha, Hb. destruct Ha as [-> |[s ->]], Hb as [-> |[s' ->]]; reflexivity. Qed.
Lemma nonfin_fold : forall xs a, nonfin a \/ (exists x, In x xs /\ nonfin x) -> nonfin (fold_left (fadd b64ops) xs a).
Proof.
  intros xs. induction xs as [|x xs IH]; intros a [H|(y & Hy & Hn)]; cbn [fold_left]; auto; [destruct Hy|apply IH; left; apply nonfin_add_l; auto|].
  apply IH. destruct Hy as [<-|Hy]; [left; apply nonfin_add; auto|right; eauto].
Qed.
Lemma nonfin_vsum : forall F xs, arith64 F -> (exists x, In x xs /\ nonfin x) -> nonfin (vsum F xs).
Proof. intros F xs (F1 & _) H. unfold vsum. rewrite F1. apply nonfin_fold. auto. Qed.
Section Zero.
Variables (F : fops) (E : env) (p : kh_par).
Let C := e_cfg E.
Hypothesis HF : arith64 F.
(** In binary64 the mean of the herd is NaN in every component *)
Lemma food_nan : forall pop fit food, length fit = kh_n p -> In f0 fit -> food_of F E p pop fit food -> exists q, food = e_rep E q (repeat NaN (c_dim C)).
Proof.
  intros pop fit food L Hz (g & [Lg Hg] & (q & ->)). exists q. f_equal. assert (F4 : fdiv F = fdiv b64ops) by apply HF.
  apply (nth_ext _ _ NaN NaN); [rewrite repeat_length; exact Lg|]. intros j Hj. rewrite Lg in Hj. rewrite nth_rep by exact Hj. rewrite (Hg j Hj). clear Hg.
  apply (In_nth _ _ NaN) in Hz. destruct Hz as (i & Hi & Ei). rewrite L in Hi. rewrite F4. apply nonfin_nan.
  - apply nonfin_vsum; auto. exists (fdiv b64ops (nth j (nth i pop []) NaN) (nth i fit NaN)). split; [|rewrite Ei; apply div_zero]. apply in_map_iff. exists i. split; auto. apply in_seq. lia.
  - apply nonfin_vsum; auto. exists (fdiv b64ops (flit F 1 1) (nth i fit NaN)). split; [|rewrite Ei; apply div_zero]. apply in_map_iff. exists i. split; auto. apply in_seq. lia.
Qed.
(** the direction to a point of NaN *)
Lemma pull_nan : forall x y j, nth j y NaN = NaN -> pull F x y j = NaN.
Proof. intros x y j H. unfold pull. destruct HF as (F1 & F2 & _ & F4 & _). rewrite H, F2, nan_sub_l, F1, nan_add_l, F4, nan_div_l. reflexivity. Qed.
Lemma forage_nan : forall it pop fit fb fw b food ff i old new, (forall j, nth j food NaN = NaN) -> fltb fb (nth i fit NaN) = true ->
  foraging_by F E p it pop fit fb fw b food ff i old new -> new = repeat NaN (c_dim C).
Proof.
  intros it pop fit fb fw b food ff i old new Hf Hi [L H]. apply (nth_ext _ _ NaN NaN); [rewrite repeat_length; exact L|]. intros j Hj. rewrite L in Hj. rewrite nth_rep by exact Hj. rewrite (H j Hj).
  rewrite Hi, pull_nan by auto. destruct HF as (F1 & F2 & F3 & F4 & _). rewrite F3, nan_mul_r, F1, nan_add_l, nan_mul_r, nan_add_l. reflexivity.
Qed.
Lemma forage_stays_nan : forall it pop fit fb fw b food ff i new, foraging_by F E p it pop fit fb fw b food ff i (repeat NaN (c_dim C)) new -> new = repeat NaN (c_dim C).
Proof.
  intros it pop fit fb fw b food ff i new [L H]. apply (nth_ext _ _ NaN NaN); [rewrite repeat_length; exact L|]. intros j Hj. rewrite L in Hj. rewrite nth_rep by exact Hj. rewrite (H j Hj).
  destruct HF as (F1 & F2 & F3 & F4 & _). fold C in Hj |- *. rewrite nth_rep by exact Hj. rewrite F3, nan_mul_r, F1, nan_add_r. reflexivity.
Qed.
End Zero.
(** When a krill has fitness 0 the food is NaN in every component, and the repair and the problem get that point.
    The foraging speed of every krill worse than the best becomes NaN. *)
Theorem C108_zero : forall F E p pop fit xb fxb st pop' fit' xb' fxb' st' wd wd', let C := e_cfg E in let nans := repeat NaN (c_dim C) in
  arith64 F -> cfg_ok C -> repair_ok E -> kh_ok C p -> herd C p pop fit st ->
  exec E (a_iter (kh F C p) pop fit xb fxb st) wd = (Ret (pop', fit', xb', fxb', st'), wd') ->
  In f0 fit -> (forall q, e_rep E q nans = nans) ->
  (exists ff l1, evaluated nans ff (log_of (c_opt C) (w_h wd)) l1 /\ evaluated_all pop' fit' l1 (log_of (c_opt C) (w_h wd'))) /\
  forall i f g, nth_error fit i = Some f -> In g fit -> fltb g f = true -> nth_error (kh_frg st') i = Some nans.
Proof.
  intros F E p pop fit xb fxb st pop' fit' xb' fxb' st' wd wd' C nans HF HC Hr Hk Hh Ex Hz Hq.
  destruct (C106_step F E p pop fit xb fxb st pop' fit' xb' fxb' st' wd wd' HC Hr Hk Hh Ex)
    as (b & w & fb & fw & food & ff & l1 & out & (M1 & M2 & M3) & _ & Hfd & H1 & _ & _ & Lf & Df & _ & _ & (_ & R2 & _)).
  apply (food_nan F E p HF) in Hfd; [|apply Hh|exact Hz]. destruct Hfd as (q & Efd). fold C in Efd. fold nans in Efd. rewrite Hq in Efd. subst food. split; [eauto|].
  intros i f g Hi Hg Hl. assert (Li : i < kh_n p) by (rewrite <- (hd_fit _ _ _ _ _ Hh); apply nth_error_Some; congruence).
  assert (Ei : nth i (kh_frg st') [] = nans).
  { apply (forage_nan F E p HF (t_iters (w_ts wd)) pop fit fb fw b nans ff i (nth i (kh_frg st) [])); [| |apply Df; exact Li].
    - intros j. unfold nans. destruct (Nat.lt_ge_cases j (c_dim C)) as [Hj|Hj]; [apply nth_rep; exact Hj|apply nth_overflow; rewrite repeat_length; exact Hj].
    - apply In_nth_error in Hg. destruct Hg as [k Hg]. rewrite (nth_error_nth _ _ NaN Hi). eapply fleb_fltb_trans; [eapply M2; exact Hg|exact Hl]. }
  rewrite <- Ei. apply nth_error_nth'. lia.
Qed.
(** A foraging speed of NaN stays *)
Theorem C108_stays : forall F E p pop fit xb fxb st pop' fit' xb' fxb' st' wd wd', let C := e_cfg E in let nans := repeat NaN (c_dim C) in
  arith64 F -> cfg_ok C -> repair_ok E -> kh_ok C p -> herd C p pop fit st ->
  exec E (a_iter (kh F C p) pop fit xb fxb st) wd = (Ret (pop', fit', xb', fxb', st'), wd') ->
  forall i, nth_error (kh_frg st) i = Some nans -> nth_error (kh_frg st') i = Some nans.
Proof.
  intros F E p pop fit xb fxb st pop' fit' xb' fxb' st' wd wd' C nans HF HC Hr Hk Hh Ex i Hi.
  destruct (C106_step F E p pop fit xb fxb st pop' fit' xb' fxb' st' wd wd' HC Hr Hk Hh Ex)
    as (b & w & fb & fw & food & ff & l1 & out & _ & _ & _ & _ & _ & _ & Lf & Df & _).
  assert (Li : i < kh_n p) by (rewrite <- (hd_frg _ _ _ _ _ Hh); apply nth_error_Some; congruence).
  assert (G := Df i Li). rewrite (nth_error_nth _ _ [] Hi) in G. apply (forage_stays_nan F E p HF) in G. fold C in G. fold nans in G. rewrite <- G. apply nth_error_nth'. lia.
Qed.

(** ** The hypotheses are met, and the model at work *)
Module ExKh.
  Definition C1 := Cfg Minimization 2 [N' (-2); N' (-2)] [N' 2; N' 2] (LFin 30) (LFin 3) NInf.
  Definition P1 : problem := fun _ x => Ret (match sq_from x with Fin a => Fin (a + 2 ^ 1074) | c => c end).
  Lemma P1_no_nan : no_nan P1.
  Proof. intros h x v H. injection H as <-. destruct (sq_from x) eqn:Q; try discriminate. exfalso. exact (sq_no_nan [] x NaN (f_equal Ret Q) eq_refl). Qed.
  Definition E1 := exenv C1 P1.
  Definition pk (n : nat) := KHPar n (q 1 64) (q 1 32) (q 1 128) (q 15 16) [q 1 2; q 1 4] [q 1 8; q 3 8] (N' 2) (q 1 4) (q 1 2) (Fin (2 ^ 970)).
  Definition p1 := pk 3.
  Lemma ok1 : cfg_ok C1. Proof. split; [reflexivity|]. split; [reflexivity|]. repeat constructor. Qed.
  Example hyps : arith64 b64ops /\ cfg_ok (e_cfg E1) /\ no_nan (e_prob E1) /\ repair_ok E1 /\ kh_ok C1 p1.
  Proof. split; [repeat split|]. split; [exact ok1|]. split; [apply P1_no_nan|]. split; [exact (clip_ok C1 P1 fl8 in7 ok1)|]. split; [cbn; lia|split; reflexivity]. Qed.
  Example best1 : best_run E1 (kh b64ops C1 p1).
  Proof. destruct hyps as (H1 & H2 & H3 & H4 & H5). apply (C105_best b64ops E1 p1); auto. Qed.
  Example trace1 : trace E1 (kh b64ops C1 p1) 9 =
    (Ret ([24575; 24576], 83967), [[8192; 40960]; [24576; 24576]; [40960; 8192]; [24575; 24576]; [49152;
    33857]; [44096; 42176]; [81920; 8192]; [55955; 30116]; [83809; 51843]; [77423; 70904]; [90842; 8192];
    [84460; 41582]; [125928; 51843]; [99034; 65536]; [116970; 37694]])%Z.
  Proof. vm_compute. reflexivity. Qed.
  Example trace1x : trace E1 (kh fxx C1 p1) 9 =
    (Ret ([24575; 24575], 83967), [[8192; 40960]; [24576; 24576]; [40960; 8192]; [24575; 24575]; [49152;
    11413]; [32768; 81920]; [13333; 49152]; [31628; 41657]; [73728; 52373]; [32768; 68757]; [38913; 93951];
    [47729; 70405]; [96171; 82368]; [57344; 76949]; [90112; 81279]])%Z.
  Proof. vm_compute. reflexivity. Qed.
  (** the speeds after two iterations *)
  Example speeds1 : match state_after E1 (kh b64ops C1 p1) 2 with Some (s, w) => (map (map scl) (kh_ind (r_par s)), map (map scl) (kh_frg (r_par s))) | None => ([], []) end =
    ([[4134; 3601]; [4377; 3801]; [3963; 3345]], [[422; (-1268)]; [(-41); 7]; [(-2924); 3280]])%Z.
  Proof. vm_compute. reflexivity. Qed.
  (** a problem with minimum 0 *)
  Definition E0 := Env C1 sq (clip C1) (fun k => nth k [f0; f0; f1; f1; q 1 2; q 1 4] (q 1 8)) in7.
  Example trace0 : trace E0 (kh b64ops C1 p1) 9 =
    (Ret ([0; 0], 0), [[0; 0]; [65536; 65536]; [32768; 16384]; [(-1); (-1)]; [14710; 14710]; [65536; 65536];
    [(-1); (-1)]; [(-1); (-1)]; [(-1); (-1)]; [(-1); (-1)]; [22902; 22902]; [(-1); (-1)]; [31094; 31094];
    [31094; 31094]; [(-1); (-1)]])%Z.
  Proof. vm_compute. reflexivity. Qed.
  Lemma clip_nans : forall C P fl it k d, length (c_lower C) = d -> length (c_upper C) = d -> e_rep (Env C P (clip C) fl it) k (repeat NaN d) = repeat NaN d.
  Proof.
    intros C P fl it k d L1 L2. cbn [e_rep]. unfold clip. revert d L1 L2. generalize (c_lower C) (c_upper C). clear. intros lo. induction lo as [|a lo IH]; intros [|b hi] d L1 L2; cbn [length] in *; subst d; try discriminate; [reflexivity|].
    cbn [repeat]. unfold limit in *. cbn [zip3]. f_equal. apply IH; auto.
  Qed.
  (** the hypotheses of C108_zero, in the state after the initialization *)
  Example hyps0 : arith64 b64ops /\ cfg_ok (e_cfg E0) /\ repair_ok E0 /\ kh_ok C1 p1 /\ (forall k, e_rep E0 k (repeat NaN 2) = repeat NaN 2) /\
    exists s w pop' fit' xb' fxb' st' wd', reached E0 (kh b64ops C1 p1) s w /\ herd C1 p1 (r_pop s) (r_fit s) (r_par s) /\ In f0 (r_fit s) /\
      exec E0 (a_iter (kh b64ops C1 p1) (r_pop s) (r_fit s) (r_xb s) (r_fxb s) (r_par s)) w = (Ret (pop', fit', xb', fxb', st'), wd').
  Proof.
    assert (R : repair_ok E0) by exact (clip_ok C1 sq _ in7 ok1). assert (K : kh_ok C1 p1) by (split; [cbn; lia|split; reflexivity]).
    split; [repeat split|]. split; [exact ok1|]. split; [exact R|]. split; [exact K|]. split; [intros k; apply clip_nans; auto|].
    assert (Q : match state_after E0 (kh b64ops C1 p1) 0 with Some (s, w) => existsb (num_eqb f0) (r_fit s) &&
      match exec E0 (a_iter (kh b64ops C1 p1) (r_pop s) (r_fit s) (r_xb s) (r_fxb s) (r_par s)) w with (Ret _, _) => true | _ => false end | None => false end = true) by (vm_compute; reflexivity).
    destruct (state_after E0 (kh b64ops C1 p1) 0) as [[s w]|] eqn:S0; [|discriminate]. apply andb_true_iff in Q. destruct Q as [Q1 Q2].
    destruct (exec E0 _ w) as [[[[[[pop' fit'] xb'] fxb'] st']|] wd'] eqn:Ex; [|discriminate]. assert (Rc := state_reached _ _ _ _ _ S0).
    exists s, w, pop', fit', xb', fxb', st', wd'. split; [exact Rc|]. split; [exact (C105_herd b64ops E0 p1 s w ok1 sq_no_nan R K Rc)|]. split; [|exact Ex].
    apply existsb_exists in Q1. destruct Q1 as (a & Ha & Ea). apply num_eqb_spec in Ea. subst a. exact Ha.
  Qed.
End ExKh.

Lemma run_evaluates : forall E A n x, existsb (fun a => vec_eqb x (fst a)) (run_history E A n) = true ->
  exists r w ev, run_body E A (fun _ => None) n (World (task_init (e_cfg E)) [] 0) = (r, w, ev) /\ exists v, In (x, v) (w_h w).
Proof.
  intros E A n x Q. unfold run_history in Q. destruct (run_body E A _ n _) as [[r w] ev]. cbn [fst snd] in Q. exists r, w, ev. split; [reflexivity|].
  apply existsb_exists in Q. destruct Q as ([y v] & Hy & Ey). cbn [fst] in Ey. apply vec_eqb_spec in Ey. subst y. exists v. exact Hy.
Qed.
(** The claim that only points with numbers as components are evaluated is false: the herd of a problem with minimum 0 that has
    found the minimum evaluates points of NaN. *)
Theorem C108_nan_refuted : exists E p, let C := e_cfg E in cfg_ok C /\ no_nan (e_prob E) /\ repair_ok E /\ kh_ok C p /\
  exists r w ev, run_body E (kh b64ops C p) (fun _ => None) 9 (World (task_init C) [] 0) = (r, w, ev) /\ exists v, In (repeat NaN (c_dim C), v) (w_h w).
Proof.
  exists ExKh.E0, ExKh.p1. cbv zeta. destruct ExKh.hyps0 as (_ & H2 & H3 & H4 & _). split; [exact H2|]. split; [apply sq_no_nan|]. split; [exact H3|]. split; [exact H4|].
  apply run_evaluates. vm_compute. reflexivity.
Qed.

Print Assumptions C105_best.
Print Assumptions C105_herd.
Print Assumptions C106_step.
Print Assumptions C107_ends.
Print Assumptions C107_evals.
Print Assumptions C108_zero.
Print Assumptions C108_stays.
Print Assumptions C108_nan_refuted.
