(** Final theorems about GeneticAlgorithm (C48), BeesAlgorithm (C49), ClonalSelectionAlgorithm (C50) and
    BareBonesFireworksAlgorithm (C67). *)
From Coq Require Import ZArith Lia Bool List Permutation Sorting.Sorted.
From Verif Require Import Num Task TaskSpec TaskProofs TaskProofs2 Prog Wp GetBest Run RunSpec RunProofs RunProofs2
  AlgoLib Fops AlgTac StepSpec StepLib Indiv IndivLib AlgPSO AlgSwarm PopLib AlgSwarmProofs Reach SortLib AlgBasic AlgBasicProofs
  AlgEvo AlgEvoProofs Repair B64 ExLib ExLib2.
Import ListNotations.

(** ** C48: GeneticAlgorithm, every selection, crossover and mutation of ga.py *)
Theorem C48_ga : forall F E p, let C := e_cfg E in
  cfg_ok C -> no_nan (e_prob E) -> repair_ok E -> 0 < c_dim C ->
  0 < ga_n p -> (forall ts, ga_s p = STournament ts -> 1 <= ts <= ga_n p) ->
  best_run E (ga F C p) /\ sizes_ok (fun k => k = ga_n p) E (ga F C p).
Proof.
  intros F E p C HC Hn Hr Hd Hp Ht. assert (OK : ga_ok p) by (split; auto; destruct (ga_s p) eqn:Q; auto).
  apply (all2_c (inside C) (fun _ => False) (fun k => k = ga_n p) E (ga F C p) (fun pop fit xb fxb _ l => IPop C (ga_n p) pop fit xb fxb l)); auto.
  - apply ga_init_ok; auto.
  - intros pop fit xb fxb t l HI. apply w_ga_iter; auto.
  - intros pop fit xb fxb t l [P1 P2 P3 P4 P5]. split; auto. split; auto. subst fit. rewrite map_length. auto.
Qed.
(** the child is a mutation of member i (of a random member for creep mutation) whatever was selected and crossed:
    selection and crossover have no effect; it is repaired and evaluated and becomes the best if strictly better *)
Theorem C48_step : forall F E p pop new xb fxb i new' xb' fxb' wd wd', let C := e_cfg E in
  cfg_ok C -> 0 < c_dim C -> i < length pop -> Forall (fun a => length (fst a) = c_dim C) pop ->
  (forall ts, ga_s p = STournament ts -> 1 <= ts <= length pop) ->
  exec E (ga_step F C p pop (new, xb, fxb) i) wd = (Ret (new', xb', fxb'), wd') ->
  exists y x f, mut_eq C (ga_m p) (map fst pop) i y /\ repaired E y x /\
    evaluated x f (log_of (c_opt C) (w_h wd)) (log_of (c_opt C) (w_h wd')) /\ new' = new ++ [(x, f)] /\
    (if fltb f fxb then xb' = x /\ fxb' = f else xb' = xb /\ fxb' = fxb).
Proof.
  intros F E p pop new xb fxb i new' xb' fxb' wd wd' C HC Hd Hi D Ht Ex. set (l := log_of (c_opt C) (w_h wd)).
  pose (S0 := fun (s' : list ind * vec * num) (l' : elog) => let '(new', xb', fxb') := s' in
    exists y x f, mut_eq C (ga_m p) (map fst pop) i y /\ repaired E y x /\ evaluated x f l l' /\ new' = new ++ [(x, f)] /\
    (if fltb f fxb then xb' = x /\ fxb' = f else xb' = xb /\ fxb' = fxb)).
  apply (tr_sound _ E _ S0 _ _ _) in Ex; [exact Ex|]. fold C l. unfold ga_step.
  assert (D' : dims (c_dim C) (map fst pop)) by (clear - D; induction D; constructor; auto).
  apply wp_bind. apply w_ga_select; auto; [destruct (ga_s p) eqn:Q; auto|]. intros _.
  apply wp_bind. apply (w_ga_crossover _ _ _ _ (c_dim C)); auto. intros _. apply wp_bind. apply w_ga_mutate; auto. intros y Hy.
  apply wp_bind. unfold ind_evaluate. apply wp_bind. apply w_repair_tr. intros x Hx. apply wp_bind. apply w_eval_tr. intros f l' He. apply w_done. cbn [fst snd].
  destruct (fltb f fxb) eqn:Q.
  - unfold get_best1. rewrite (fltb_fleb _ _ Q). apply wp_bind. apply w_done. apply w_done. exists y, x, f. rewrite Q. auto 10.
  - apply w_done. exists y, x, f. rewrite Q. auto 10.
Qed.

(** ** C49: BeesAlgorithm with 1 <= m, e <= m <= n *)
Theorem C49_bea : forall F E p, let C := e_cfg E in
  cfg_ok C -> no_nan (e_prob E) -> repair_ok E -> 0 < c_dim C -> 1 <= be_m p -> be_e p <= be_m p -> be_m p <= be_n p ->
  best_run E (bea F C p) /\ sizes_ok (fun k => k = be_n p) E (bea F C p).
Proof.
  intros F E p C HC Hn Hr Hd H1 H2 H3. assert (OK : bea_ok p) by (split; auto).
  apply (all2_c (inside C) (fun _ => False) (fun k => k = be_n p) E (bea F C p) (fun pop fit xb fxb _ l => BeaInv C (be_n p) pop fit xb fxb l)); auto.
  - apply bea_init_ok; auto.
  - intros pop fit xb fxb t l HI. apply w_bea_iter; auto.
  - intros pop fit xb fxb t l [[P1 P2 P3 P4 P5 P6] _]. auto.
Qed.
(** k dances around row i: one random component moved by at most ngh; the first best dance replaces the row if strictly better *)
Lemma evaluated_snoc : forall xs fs l l1 x f l2, evaluated_all xs fs l l1 -> evaluated x f l1 l2 -> evaluated_all (xs ++ [x]) (fs ++ [f]) l l2.
Proof.
  intros xs fs l l1 x f l2 H. induction H as [l|y g xs fs l la lb H0 H IH]; intros He; simpl.
  - econstructor; [exact He|constructor].
  - econstructor; [exact H0|auto].
Qed.
Theorem C49_site : forall F E ngh k pop fit i pop' fit' wd wd', let C := e_cfg E in
  Forall (fun x => length x = c_dim C) pop -> 0 < c_dim C ->
  exec E (bea_site F C ngh k (pop, fit) i) wd = (Ret (pop', fit'), wd') ->
  exists ds fi, nth_error fit i = Some fi /\ length ds = k /\
    Forall (fun d => exists x z, nth_error pop i = Some x /\ dance_eq F C ngh x z /\ repaired E z (fst d)) ds /\
    evaluated_all (map fst ds) (map snd ds) (log_of (c_opt C) (w_h wd)) (log_of (c_opt C) (w_h wd')) /\
    ((exists y f, In (y, f) ds /\ fltb f fi = true /\ (forall d, In d ds -> fltb (snd d) f = false) /\ row_set pop pop' i y /\ row_set fit fit' i f) \/
     ((forall d, In d ds -> fltb (snd d) fi = false) /\ pop' = pop /\ fit' = fit)).
Proof.
  intros F E ngh k pop fit i pop' fit' wd wd' C D Hd Ex. set (l := log_of (c_opt C) (w_h wd)).
  pose (S0 := fun (s' : list vec * list num) (l' : elog) => let '(pop', fit') := s' in
    exists ds fi, nth_error fit i = Some fi /\ length ds = k /\
    Forall (fun d => exists x z, nth_error pop i = Some x /\ dance_eq F C ngh x z /\ repaired E z (fst d)) ds /\
    evaluated_all (map fst ds) (map snd ds) l l' /\
    ((exists y f, In (y, f) ds /\ fltb f fi = true /\ (forall d, In d ds -> fltb (snd d) f = false) /\ row_set pop pop' i y /\ row_set fit fit' i f) \/
     ((forall d, In d ds -> fltb (snd d) fi = false) /\ pop' = pop /\ fit' = fit))).
  apply (tr_sound _ E _ S0 _ _ _) in Ex; [exact Ex|]. fold C l. unfold bea_site. cbn [fst snd]. apply wp_bind. eapply wp_conseq0.
  - apply (wp_for_range _ _ _ _ (fun j (b : option vec * num) l' => exists ds, length ds = j /\
      Forall (fun d => exists x z, nth_error pop i = Some x /\ dance_eq F C ngh x z /\ repaired E z (fst d)) ds /\
      evaluated_all (map fst ds) (map snd ds) l l' /\ (forall d, In d ds -> fltb (snd d) (snd b) = false) /\ snd b <> NaN /\
      match fst b with Some y => In (y, snd b) ds | None => snd b = PInf end)).
    + exists []. split; auto. split; auto. split; [constructor|]. split; [intros d []|]. split; [discriminate|reflexivity].
    + intros j [bp bc] l' Hj (ds & A1 & A2 & A3 & A4 & A6 & A5). cbn [fst snd] in *. apply wp_bind. apply w_nthP_tr. intros x Ex'.
      assert (Lx : length x = c_dim C) by exact (Forall_nth _ _ _ _ _ D Ex').
      apply wp_bind. unfold bee_dance. apply wp_bind. apply w_integers; auto. intros c Hc. apply wp_bind. apply w_nthP_tr. intros a Ea.
      apply wp_bind. apply w_uniform. intros r Hr. apply wp_bind. apply w_repair_tr. intros y Hy. apply wp_bind. apply w_eval_tr. intros f l1 He. apply w_done. apply w_done.
      exists (ds ++ [(y, f)]). rewrite app_length, !map_app. split; [simpl; lia|]. split.
      { apply Forall_app. split; auto. constructor; auto. exists x. eexists. split; [exact Ex'|]. split; [|exact Hy].
        exists c, r. rewrite (nth_error_nth _ _ NaN Ea). auto. }
      split; [simpl; eapply evaluated_snoc; eauto|]. destruct (fltb f bc) eqn:Q; cbn [fst snd].
      * split; [|split; [destruct f; discriminate|apply in_or_app; right; simpl; auto]]. intros d Hd'. apply in_app_or in Hd'. destruct Hd' as [Hd'|[<-|[]]]; cbn [snd].
        -- destruct (fltb (snd d) f) eqn:Q2; auto. rewrite <- (A4 d Hd'). symmetry. eapply fltb_trans; eauto.
        -- apply fltb_irrefl.
      * split; [|split; [exact A6|]].
        -- intros d Hd'. apply in_app_or in Hd'. destruct Hd' as [Hd'|[<-|[]]]; auto.
        -- destruct bp; auto. apply in_or_app. auto.
  - intros [bp bc] l' (ds & A1 & A2 & A3 & A4 & A6 & A5). cbn [fst snd] in *. apply wp_bind. apply w_nthP_tr. intros fi Ei.
    destruct (fltb bc fi) eqn:Q.
    + destruct bp as [y|]; [|exact I]. apply wp_bind. apply w_setP_tr. intros R1. apply wp_bind. apply w_setP_tr. intros R2. apply w_done.
      exists ds, fi. split; auto. split; auto. split; auto. split; auto. left. exists y, bc. auto.
    + apply w_done. exists ds, fi. split; auto. split; auto. split; auto. split; auto. right. split; auto. intros d Hd'.
      destruct (fltb (snd d) fi) eqn:Q2; auto. specialize (A4 d Hd').
      assert (Nf : fi <> NaN) by (destruct (snd d), fi; discriminate). rewrite <- A4. symmetry. eapply fltb_fleb_trans; [exact Q2|]. apply fltb_false_fleb; auto.
Qed.
(** a scout: row i is drawn anew within the bounds, without repair *)
Theorem C49_scout : forall E pop fit i pop' fit' wd wd', let C := e_cfg E in cfg_ok C ->
  exec E (bea_scout C (pop, fit) i) wd = (Ret (pop', fit'), wd') ->
  exists x f, inside C x /\ evaluated x f (log_of (c_opt C) (w_h wd)) (log_of (c_opt C) (w_h wd')) /\ row_set pop pop' i x /\ row_set fit fit' i f.
Proof.
  intros E pop fit i pop' fit' wd wd' C HC Ex. set (l := log_of (c_opt C) (w_h wd)).
  pose (S0 := fun (s' : list vec * list num) (l' : elog) => exists x f, inside C x /\ evaluated x f l l' /\ row_set pop (fst s') i x /\ row_set fit (snd s') i f).
  apply (tr_sound _ E _ S0 _ _ _) in Ex; [exact Ex|]. fold C l. unfold bea_scout. cbn [fst snd].
  apply wp_bind. apply w_uniform_pt; auto. intros x Hx. apply wp_bind. apply w_setP_tr. intros R1. apply wp_bind. apply w_eval_tr. intros f l' He.
  apply wp_bind. apply w_setP_tr. intros R2. apply w_done. exists x, f. auto.
Qed.
(** an iteration: e sites with nep dances, m - e sites with nsp, n - m scouts, then everything is sorted; the best
    row is reported and the neighbourhood shrinks by 0.95 *)
Theorem C49_iter : forall F E p pop fit xb fxb ngh pop' fit' xb' fxb' ngh' wd wd', let C := e_cfg E in
  exec E (bea_iter F C p pop fit xb fxb ngh) wd = (Ret (pop', fit', xb', fxb', ngh'), wd') ->
  exists s1 w1 s2 w2 s3 so,
    exec E (foldM (bea_site F C ngh (be_nep p)) (seq 0 (be_e p)) (pop, fit)) wd = (Ret s1, w1) /\
    exec E (foldM (bea_site F C ngh (be_nsp p)) (seq (be_e p) (be_m p - be_e p)) s1) w1 = (Ret s2, w2) /\
    exec E (foldM (bea_scout C) (seq (be_m p) (be_n p - be_m p)) s2) w2 = (Ret s3, wd') /\
    Permutation (combine (fst s3) (snd s3)) so /\ StronglySorted (fun a b => key_le (snd a) (snd b) = true) so /\
    pop' = map fst so /\ fit' = map snd so /\ nth_error so 0 = Some (xb', fxb') /\ ngh' = fmul F ngh (flit F 95 100).
Proof.
  intros F E p pop fit xb fxb ngh pop' fit' xb' fxb' ngh' wd wd' C Ex. unfold bea_iter in Ex. rewrite exec_bind in Ex.
  destruct (exec E (foldM (bea_site F C ngh (be_nep p)) _ _) wd) as [[s1|e] w1] eqn:E1; [|discriminate]. rewrite exec_bind in Ex.
  destruct (exec E (foldM (bea_site F C ngh (be_nsp p)) _ _) w1) as [[s2|e] w2] eqn:E2; [|discriminate]. rewrite exec_bind in Ex.
  destruct (exec E (foldM (bea_scout C) _ _) w2) as [[s3|e] w3] eqn:E3; [|discriminate].
  exists s1, w1, s2, w2, s3, (sort_by (combine (fst s3) (snd s3))). split; auto. split; auto. split; [|split; [|split; [apply sort_by_sorted|]]].
  - rewrite E3. f_equal. unfold nthP in Ex. destruct (nth_error (sort_by (combine (fst s3) (snd s3))) 0) as [b|] in Ex; cbn in Ex; [|discriminate]. congruence.
  - apply sort_by_perm.
  - unfold nthP in Ex. destruct (nth_error (sort_by (combine (fst s3) (snd s3))) 0) as [b|]; cbn in Ex; [|discriminate].
    injection Ex as <- <- <- <- <- <-. destruct b. auto.
Qed.

(** ** C50: ClonalSelectionAlgorithm, when decoding stays within the bounds *)
Theorem C50_clonalg : forall F E p, let C := e_cfg E in
  cfg_ok C -> no_nan (e_prob E) -> repair_ok E -> decode_ok F C (cl_bits p) ->
  0 < cl_n p -> (0 < fint F (fmul F (fnat F (cl_n p)) (cl_factor p)))%Z ->
  best_run E (clonalg F C p) /\ sizes_ok (fun k => k = cl_n p) E (clonalg F C p).
Proof.
  intros F E p C HC Hn Hr HD H1 H2. assert (OK : cl_ok F p) by (split; auto; unfold cl_clones; lia).
  apply (all2_c (inside C) (fun _ => False) (fun k => k = cl_n p) E (clonalg F C p) (fun s fit xb fxb _ l => ClInv F C p s fit xb fxb l)); auto.
  - apply cl_init_ok; auto.
  - intros pop fit xb fxb t l HI. apply w_cl_iter; auto.
  - intros pop fit xb fxb t l [P1 P2 P3 P4 P5]. split; auto. split; auto. subst fit. rewrite map_length. auto.
Qed.
(** the point of a bit string: lower + (upper - lower) value / (2^b - 1), most significant bit first *)
Fixpoint msb_value (bs : list bool) : Z := match bs with [] => 0 | b :: r => ((if b then 2 ^ Z.of_nat (length r) else 0) + msb_value r)%Z end.
Lemma bin_val_msb : forall bs z, fold_left (fun z (b : bool) => (2 * z + (if b then 1 else 0))%Z) bs z = (z * 2 ^ Z.of_nat (length bs) + msb_value bs)%Z.
Proof.
  induction bs as [|b bs IH]; intros z; cbn [fold_left msb_value length]; [change (2 ^ Z.of_nat 0)%Z with 1%Z; lia|].
  rewrite IH, Nat2Z.inj_succ, Z.pow_succ_r by lia. destruct b; lia.
Qed.
Theorem C50_decode : forall F C b m, cfg_ok C -> length m = c_dim C ->
  comps (c_dim C) (cl_decode F C b m) (fun k c => let lo := nth k (c_lower C) NaN in let hi := nth k (c_upper C) NaN in
    c = fadd F lo (fdiv F (fmul F (fsub F hi lo) (fz F (msb_value (nth k m [])))) (fz F (2 ^ Z.of_nat b - 1)))).
Proof.
  intros F C b m HC Lm. assert (L1 := cfg_lower_len C HC). assert (L2 := cfg_upper_len C HC). unfold cl_decode.
  revert L1 L2 Lm. generalize (c_lower C), (c_upper C). clear HC. generalize (c_dim C). intros d lo. revert d m.
  induction lo as [|a lo IH]; intros d [|bs m] [|u hi] L1 L2 Lm; simpl in *; subst d; try discriminate.
  - split; auto. intros j Hj. lia.
  - destruct (IH (length lo) m hi) as [A1 A2]; auto; try lia. split; [simpl; lia|]. intros [|j] Hj; simpl; [|apply A2; lia].
    unfold bin_val. rewrite (bin_val_msb bs 0). reflexivity.
Qed.
(** hypermutation: each member is cloned, bit by bit flipped where a draw is above e^(-rate * fitness); clones are decoded and
    evaluated, and the n best of members and clones survive *)
Definition clone_of (F : fops) (C : cfg) (p : cl_par) (a b : clm) : Prop :=
  Forall2 (Forall2 (fun x y => exists r, in_unit r /\ y = if fltb (fexp F (fmul F (fneg (cl_mut p)) (cl_fit a))) r then negb x else x)) (cl_bs a) (cl_bs b) /\
  cl_pt b = cl_decode F C (cl_bits p) (cl_bs b).
Definition best_of (n : nat) (all s : list clm) : Prop :=
  exists so, Permutation all so /\ StronglySorted (fun a b => key_le (cl_fit a) (cl_fit b) = true) so /\ s = firstn n so.
Lemma w_cl_evaluate_tr : forall F E b ms (Q : list clm -> elog -> Prop) l,
  (forall new l', map cl_bs new = ms -> Forall (fun a => cl_pt a = cl_decode F (e_cfg E) b (cl_bs a)) new ->
     evaluated_all (map cl_pt new) (map cl_fit new) l l' -> Q new l') -> wp (K_tr E) (cl_evaluate F (e_cfg E) b ms) Q l.
Proof.
  intros F E b ms Q l HQ. unfold cl_evaluate. destruct ms as [|m0 ms0]; [exact I|]. set (ms := m0 :: ms0) in *. clearbody ms. clear m0 ms0.
  revert Q l HQ. induction ms as [|m ms IH]; intros Q l HQ; cbn [mapM].
  - apply w_done. apply HQ; auto. constructor.
  - cbv zeta. apply wp_bind. apply wp_bind. apply w_eval_tr. intros f l1 He. apply w_done. apply wp_bind. apply IH. intros new l2 A1 A2 A3. apply w_done.
    apply HQ; simpl; [f_equal; auto|constructor; auto|econstructor; [exact He|auto]].
Qed.
Theorem C50_hyper : forall F E p s s' wd wd', let C := e_cfg E in let k := Z.to_nat (fint F (fmul F (fnat F (cl_n p)) (cl_factor p))) in
  exec E (cl_hyper F C p s) wd = (Ret s', wd') ->
  exists new, Forall2 (clone_of F C p) (flat_map (fun a => repeat a k) s) new /\
    evaluated_all (map cl_pt new) (map cl_fit new) (log_of (c_opt C) (w_h wd)) (log_of (c_opt C) (w_h wd')) /\
    best_of (cl_n p) (s ++ new) s'.
Proof.
  intros F E p s s' wd wd' C k Ex. set (l := log_of (c_opt C) (w_h wd)). set (cs := flat_map (fun a => repeat a k) s).
  pose (S0 := fun (s' : list clm) (l' : elog) => exists new, Forall2 (clone_of F C p) cs new /\
    evaluated_all (map cl_pt new) (map cl_fit new) l l' /\ best_of (cl_n p) (s ++ new) s').
  apply (tr_sound _ E _ S0 _ _ _) in Ex; [exact Ex|]. fold C l. unfold cl_hyper. apply wp_bind.
  apply (w_mapM_pure _ _ _ _ (fun (a : clm) (m : bits) => Forall2 (Forall2 (fun x y => exists r, in_unit r /\
    y = if fltb (fexp F (fmul F (fneg (cl_mut p)) (cl_fit a))) r then negb x else x)) (cl_bs a) m)).
  { intros a P Ha HP. unfold cl_mutate. apply (w_mapM_pure _ _ _ _ (Forall2 (fun x y => exists r, in_unit r /\
      y = if fltb (fexp F (fmul F (fneg (cl_mut p)) (cl_fit a))) r then negb x else x))); auto.
    intros bs P' _ HP'. apply (w_mapM_pure _ _ _ _ (fun x y => exists r, in_unit r /\
      y = if fltb (fexp F (fmul F (fneg (cl_mut p)) (cl_fit a))) r then negb x else x)); auto.
    intros x P'' _ HP''. apply wp_bind. apply w_random_u. intros r Hr. apply w_done. apply HP''. exists r. auto. }
  intros ms Hms. apply wp_bind. apply w_cl_evaluate_tr. intros new l' A1 A2 A3. apply w_done. exists new.
  split; [|split; [exact A3|exists (cl_sort (s ++ new)); split; [apply cl_sort_perm|split; [apply cl_sort_sorted|reflexivity]]]].
  change (flat_map (fun a => repeat a (cl_clones F p)) s) with cs in Hms. clear A3 S0. clearbody cs. subst ms. revert cs Hms.
  induction A2 as [|b new Hb A2 IH]; intros cs Hms; simpl in Hms; inversion Hms; subst; constructor; auto. split; auto.
Qed.
(** insertion: random bit strings compete with the members *)
Theorem C50_insertion : forall F E p s s' wd wd', let C := e_cfg E in
  exec E (cl_insertion F C p s) wd = (Ret s', wd') ->
  (cl_rand p = 0 /\ s' = s /\ log_of (c_opt C) (w_h wd') = log_of (c_opt C) (w_h wd)) \/
  exists new, length new = cl_rand p /\
    Forall (fun a => length (cl_bs a) = c_dim C /\ Forall (fun bs => length bs = cl_bits p) (cl_bs a) /\ cl_pt a = cl_decode F C (cl_bits p) (cl_bs a)) new /\
    evaluated_all (map cl_pt new) (map cl_fit new) (log_of (c_opt C) (w_h wd)) (log_of (c_opt C) (w_h wd')) /\
    best_of (cl_n p) (s ++ new) s'.
Proof.
  intros F E p s s' wd wd' C Ex. set (l := log_of (c_opt C) (w_h wd)).
  pose (S0 := fun (s' : list clm) (l' : elog) => (cl_rand p = 0 /\ s' = s /\ l' = l) \/ exists new, length new = cl_rand p /\
    Forall (fun a => length (cl_bs a) = c_dim C /\ Forall (fun bs => length bs = cl_bits p) (cl_bs a) /\ cl_pt a = cl_decode F C (cl_bits p) (cl_bs a)) new /\
    evaluated_all (map cl_pt new) (map cl_fit new) l l' /\ best_of (cl_n p) (s ++ new) s').
  apply (tr_sound _ E _ S0 _ _ _) in Ex; [exact Ex|]. fold C l. unfold cl_insertion. destruct (cl_rand p =? 0) eqn:Z0.
  - apply Nat.eqb_eq in Z0. apply w_done. left. auto.
  - apply wp_bind. apply w_cl_random. intros ms Lm Bm. apply wp_bind. apply w_cl_evaluate_tr. intros new l' A1 A2 A3. apply w_done. right. exists new.
    split; [rewrite <- Lm, <- A1, map_length; auto|]. split; [|split; [exact A3|exists (cl_sort (s ++ new)); split; [apply cl_sort_perm|split; [apply cl_sort_sorted|reflexivity]]]].
    clear - A1 A2 Bm. subst ms. induction A2 as [|b new Hb A2 IH]; simpl in Bm; inversion_clear Bm; constructor; auto. destruct H. auto.
Qed.

(** ** C67: BareBonesFireworksAlgorithm *)
Theorem C67_bbfwa : forall F E p, let C := e_cfg E in
  cfg_ok C -> no_nan (e_prob E) -> repair_ok E -> 0 < bb_num p ->
  best_run E (bbfwa F C p) /\ sizes_ok (fun k => k = 1) E (bbfwa F C p) /\ steps_ok no_worse_fit E (bbfwa F C p).
Proof.
  intros F E p C HC Hn Hr Hp.
  apply (all_c (inside C) (fun _ => False) (fun k => k = 1) no_worse_fit E (bbfwa F C p) (BbInv C)); auto.
  - apply bb_init_ok; auto.
  - intros pop fit xb fxb t l HI. apply w_bb_iter; auto.
  - intros pop fit xb fxb t l (-> & -> & P3 & P4 & P5). split; [apply inside_len; auto|]. auto.
Qed.
(** sparks are uniform within the amplitude of the firework; the best one replaces it if strictly better, and then the amplitude grows by
    C_a, otherwise it shrinks by C_r *)
Definition spark_of (F : fops) (d : nat) (x a y : vec) : Prop :=
  comps d y (fun k c => let lo := fsub F (nth k x NaN) (nth k a NaN) in let hi := fadd F (nth k x NaN) (nth k a NaN) in
    fleb lo hi = true -> fleb lo c = true /\ fleb c hi = true).
Theorem C67_step : forall F E p x fx xb fxb t pop' fit' xb' fxb' t' wd wd', let C := e_cfg E in
  length x = c_dim C -> length (bb_amp t) = c_dim C ->
  exec E (bb_iter F C p [x] [fx] xb fxb t) wd = (Ret (pop', fit', xb', fxb', t'), wd') ->
  exists ys sparks fs b fb, length ys = bb_num p /\ Forall (spark_of F (c_dim C) x (bb_amp t)) ys /\ Forall2 (repaired E) ys sparks /\
    evaluated_all sparks fs (log_of (c_opt C) (w_h wd)) (log_of (c_opt C) (w_h wd')) /\
    argmin fs = Some b /\ nth_error fs b = Some fb /\ pop' = [xb'] /\ fit' = [fxb'] /\
    (if fltb fb fx then nth_error sparks b = Some xb' /\ fxb' = fb /\ bb_amp t' = map (fmul F (bb_ca p)) (bb_amp t)
     else xb' = x /\ fxb' = fx /\ bb_amp t' = map (fmul F (bb_cr p)) (bb_amp t)).
Proof.
  intros F E p x fx xb fxb t pop' fit' xb' fxb' t' wd wd' C Lx La Ex. set (l := log_of (c_opt C) (w_h wd)).
  pose (S0 := fun (s' : list vec * list num * vec * num * bb_state) (l' : elog) => let '(pop', fit', xb', fxb', t') := s' in
    exists ys sparks fs b fb, length ys = bb_num p /\ Forall (spark_of F (c_dim C) x (bb_amp t)) ys /\ Forall2 (repaired E) ys sparks /\
    evaluated_all sparks fs l l' /\
    argmin fs = Some b /\ nth_error fs b = Some fb /\ pop' = [xb'] /\ fit' = [fxb'] /\
    (if fltb fb fx then nth_error sparks b = Some xb' /\ fxb' = fb /\ bb_amp t' = map (fmul F (bb_ca p)) (bb_amp t)
     else xb' = x /\ fxb' = fx /\ bb_amp t' = map (fmul F (bb_cr p)) (bb_amp t))).
  apply (tr_sound _ E _ S0 _ _ _) in Ex; [exact Ex|]. fold C l. unfold bb_iter. apply wp_bind. apply w_done. apply wp_bind. apply w_done. apply wp_bind.
  apply (w_repeatM_pure _ _ _ (spark_of F (c_dim C) x (bb_amp t))).
  { intros P HP. apply (w_uniform_vec_len _ _ _ (c_dim C)); [dl|dl|]. intros v [Lv Hv]. apply HP. split; auto. intros k Hk lo hi.
    specialize (Hv k Hk). revert Hv. nths (c_dim C). auto. }
  intros ys Ly Hy. apply wp_bind. apply w_repair_all_tr. intros sp Hs. apply wp_bind. apply w_eval_all_tr. intros fs l' He.
  destruct (argmin fs) as [b|] eqn:Eb; [|exact I]. apply wp_bind. apply w_nthP_tr. intros sb Esb. apply wp_bind. apply w_nthP_tr. intros fb Efb.
  destruct (fltb fb fx) eqn:Q; apply w_done; exists ys, sp, fs, b, fb; rewrite Q; auto 20.
Qed.

Module ExEvo.
  Definition C := Cfg Minimization 2 [N' 0; N' 0] [N' 1; N' 1] (LFin 21) (LFin 4) NInf.
  Definition E := exenv C lin.
  Definition g1 := GAPar 3 (STournament 2) XTwoPoint (MUniform (q 1 4)).
  Definition g2 := GAPar 3 SRoulette (XUniform (q 1 2)) (MCreep (q 1 4)).
  Definition g3 := GAPar 3 (STournament 2) (XUros (q 1 2)) (MUros (q 1 4)).
  Definition g4 := GAPar 3 SRoulette (XMultiPoint 2) (MUniform (q 1 8)).
  Definition be := BEAPar 4 2 1 (q 1 2) 3 2.
  Definition cl := CLPar 2 (q 1 1) (q 1 8) 1 3.
  Definition bb := BBPar 2 (q 3 2) (q 1 2).
  Lemma C_ok : cfg_ok C.
  Proof. split; [reflexivity|]. split; [reflexivity|]. repeat constructor. Qed.
  (** every bit string of length b decodes within the bounds of each component *)
  Fixpoint strings (b : nat) : list (list bool) := match b with O => [[]] | S b' => map (cons true) (strings b') ++ map (cons false) (strings b') end.
  Lemma strings_all : forall b bs, length bs = b -> In bs (strings b).
  Proof.
    induction b as [|b IH]; intros [|a bs] H; simpl in *; try discriminate; auto. apply in_or_app. injection H as H.
    destruct a; [left|right]; apply in_map; auto.
  Qed.
  Lemma decode_chk : forall F C b, cfg_ok C ->
    Forall (fun a => forallb (fun bs => let c := fadd F (fst a) (fdiv F (fmul F (fsub F (snd a) (fst a)) (fz F (bin_val bs))) (fz F (2 ^ Z.of_nat b - 1))) in
       fleb (fst a) c && fleb c (snd a)) (strings b) = true) (combine (c_lower C) (c_upper C)) -> decode_ok F C b.
  Proof.
    intros F C0 b (H1 & H2 & _) H m Lm HB. unfold inside, cl_decode. revert H1 H2 H Lm. generalize (c_lower C0), (c_upper C0), (c_dim C0).
    intros lo hi d. revert m d hi HB. induction lo as [|a lo IH]; intros [|bs m] d [|u hi] HB H1 H2 H Lm; simpl in *; subst d; try discriminate; constructor.
    - inversion_clear H. inversion_clear HB. rewrite forallb_forall in H0. specialize (H0 bs (strings_all _ _ H)). cbn [fst snd] in *.
      apply andb_true_iff in H0. right. auto.
    - inversion_clear H. inversion_clear HB. apply (IH m (length lo) hi); auto.
  Qed.
  Example hyps : cfg_ok C /\ no_nan (e_prob E) /\ repair_ok E /\ 0 < c_dim C /\ (0 < ga_n g1 /\ forall ts, ga_s g1 = STournament ts -> 1 <= ts <= ga_n g1) /\
    (1 <= be_m be /\ be_e be <= be_m be /\ be_m be <= be_n be) /\
    (decode_ok fxx C (cl_bits cl) /\ 0 < cl_n cl /\ (0 < fint fxx (fmul fxx (fnat fxx (cl_n cl)) (cl_factor cl)))%Z) /\ 0 < bb_num bb.
  Proof.
    split; [exact C_ok|]. split; [apply lin_no_nan|]. split; [exact (clip_ok C lin fl8 in7 C_ok)|]. split; [simpl; lia|].
    split; [split; [simpl; lia|intros ts H; injection H as <-; simpl; lia]|]. split; [simpl; lia|]. split; [|simpl; lia].
    split; [|split; [simpl; lia|apply Z.ltb_lt; vm_compute; reflexivity]]. apply decode_chk; [exact C_ok|]. repeat constructor; vm_compute; reflexivity.
  Qed.
  Example ga1_trace : trace E (ga fxx C g1) 9 =
    (Ret ([57344; 8192], 73728), [[8192; 40960]; [24576; 40960]; [57344; 57344]; [57344; 40960]; [40960;
    24576]; [24576; 57344]; [40960; 57344]; [57344; 8192]; [8192; 57344]; [40960; 57344]; [57344; 24576];
    [24576; 57344]; [40960; 57344]; [57344; 8192]; [8192; 57344]])%Z.
  Proof. vm_compute. reflexivity. Qed.
  Example ga2_trace : trace E (ga fxx C g2) 9 =
    (Ret ([40960; 8192], 57344), [[8192; 40960]; [24576; 40960]; [57344; 57344]; [8192; 40960]; [57344;
    24576]; [40960; 57344]; [40960; 8192]; [40960; 40960]; [8192; 40960]; [8192; 40960]; [57344; 40960];
    [24576; 40960]; [40960; 57344]; [57344; 40960]; [8192; 24576]])%Z.
  Proof. vm_compute. reflexivity. Qed.
  Example ga3_trace : trace E (ga fxx C g3) 9 =
    (Ret ([40960; 8192], 57344), [[8192; 40960]; [24576; 40960]; [57344; 57344]; [8192; 57344]; [40960; 8192];
    [24576; 40960]; [24576; 24576]; [40960; 24576]; [8192; 40960]; [57344; 8192]; [57344; 57344]; [8192;
    57344]; [40960; 8192]; [24576; 40960]; [24576; 24576]])%Z.
  Proof. vm_compute. reflexivity. Qed.
  Example ga4_trace : trace E (ga fxx C g4) 9 =
    (Ret ([8192; 8192], 24576), [[8192; 40960]; [24576; 40960]; [57344; 57344]; [8192; 40960]; [24576; 24576];
    [40960; 57344]; [8192; 57344]; [8192; 24576]; [24576; 57344]; [8192; 8192]; [57344; 24576]; [24576;
    40960]; [24576; 8192]; [57344; 8192]; [57344; 40960]])%Z.
  Proof. vm_compute. reflexivity. Qed.
  Example bea_trace : trace E (bea fxx C be) 9 =
    (Ret ([8192; 0], 8192), [[8192; 40960]; [24576; 24576]; [40960; 8192]; [57344; 57344]; [8192; 8192];
    [40960; 0]; [8192; 8192]; [24576; 49152]; [32768; 24576]; [57344; 8192]; [40960; 24576]; [0; 8192]; [8192;
    0]; [32768; 8192]; [32768; 24576]; [24576; 32768]; [24576; 24576]; [40960; 8192]; [8192; 0]; [32768; 0];
    [8192; 8192]])%Z.
  Proof. vm_compute. reflexivity. Qed.
  Example clonalg_trace : trace E (clonalg fxx C cl) 9 =
    (Ret ([18724; 18724], 56173), [[18724; 18724]; [56173; 37449]; [65536; 65536]; [46811; 9362]; [46811;
    18724]; [0; 28086]; [46811; 46811]; [46811; 9362]; [9362; 37449]; [56173; 37449]; [46811; 56173]; [9362;
    28086]; [9362; 37449]; [37449; 46811]; [46811; 56173]; [65536; 0]; [18724; 18724]; [37449; 46811]; [65536;
    65536]; [65536; 0]; [28086; 46811]])%Z.
  Proof. vm_compute. reflexivity. Qed.
  Example bbfwa_trace : trace E (bbfwa fxx C bb) 9 =
    (Ret ([40960; 8192], 57344), [[8192; 40960]; [24576; 24576]; [40960; 8192]; [8192; 40960]; [24576; 24576];
    [57344; 57344]; [8192; 40960]; [40960; 8192]; [57344; 0]])%Z.
  Proof. vm_compute. reflexivity. Qed.
  (** states for the step theorems *)
  Definition pop := [[q 1 2; q 1 4]; [q 1 1; q 0 1]; [q 0 1; q 0 1]].
  Definition fit := [q 1 1; q 3 4; q 1 8].
  Example step_hyps : Forall (fun a : ind => length (fst a) = c_dim C) (combine pop fit) /\ Forall (fun x => length x = c_dim C) pop /\
    length (bb_amp (BBState [q 1 2; q 1 8] false)) = c_dim C /\ length (nth 0 pop []) = c_dim C /\ length [[true; false; true]; [false; false; true]] = c_dim C.
  Proof. repeat split; repeat constructor. Qed.
  (** the step theorems are about steps that return: the world after a step of each kind *)
  Definition w0 := World (task_init C) [] 0.
  Definition returns {A} (r : outcome A * world) : bool := match fst r with Ret _ => negb (length (w_h (snd r)) =? 0) | Raise _ => false end.
  Example steps_return : map (fun b => b)
    [returns (exec E (ga_step fxx C g1 (combine pop fit) ([], nth 2 pop [], q 1 8) 1) w0); returns (exec E (bea_site fxx C (q 1 2) 3 (pop, fit) 1) w0);
     returns (exec E (bea_scout C (pop, fit) 1) w0); returns (exec E (bea_iter fxx C be (pop ++ pop) (fit ++ fit) [] PInf (q 1 2)) w0);
     returns (exec E (cl_hyper fxx C cl [([[true; false; true]; [false; false; true]], nth 0 pop [], q 1 1)]) w0);
     returns (exec E (cl_insertion fxx C cl []) w0);
     returns (exec E (bb_iter fxx C bb [nth 0 pop []] [q 1 1] [] PInf (BBState [q 1 2; q 1 8] false)) w0)] = repeat true 7.
  Proof. vm_compute. reflexivity. Qed.
End ExEvo.

(** C48, refuted part: a tournament larger than the population raises ValueError *)
Theorem C48_tournament_refuted : exists E p k, let C := e_cfg E in
  cfg_ok C /\ no_nan (e_prob E) /\ repair_ok E /\ 0 < c_dim C /\ 0 < ga_n p /\
  (exists wd ev, run_body E (ga fxx C p) (fun _ => None) k (World (task_init C) [] 0) = (Raise EValue, wd, ev)) /\ ~ best_run E (ga fxx C p).
Proof.
  exists ExEvo.E, (GAPar 3 (STournament 4) XTwoPoint (MUniform (q 1 4))), 9. cbv zeta. destruct ExEvo.hyps as (H1 & H2 & H3 & H4 & _).
  split; [exact H1|]. split; [exact H2|]. split; [exact H3|]. split; [exact H4|]. split; [simpl; lia|].
  apply (run_raises (fun _ => False)); [vm_compute; reflexivity|discriminate|exact (fun x => x)].
Qed.
(** C49, refuted parts: with no selected site (m = 0), or more elite than selected sites (e > m), scouts overwrite
    the best row and the best point is lost; with m > n a run raises IndexError *)
Theorem C49_no_site_refuted : exists E p k, let C := e_cfg E in
  cfg_ok C /\ no_nan (e_prob E) /\ repair_ok E /\ 0 < c_dim C /\ be_m p = 0 /\ 0 < be_n p /\
  (exists x v wd ev y u, run_body E (bea fxx C p) (fun _ => None) k (World (task_init C) [] 0) = (Ret (x, v), wd, ev) /\
     In (y, Ret u) (w_h wd) /\ better (c_opt C) u v = true) /\ ~ best_run E (bea fxx C p).
Proof.
  exists ExEvo.E, (BEAPar 2 0 0 (q 1 2) 1 1), 9. cbv zeta. destruct ExEvo.hyps as (H1 & H2 & H3 & H4 & _).
  split; [exact H1|]. split; [exact H2|]. split; [exact H3|]. split; [exact H4|]. split; [reflexivity|]. split; [simpl; lia|].
  apply (run_lost_best (fun _ => False)). vm_compute. reflexivity.
Qed.
Definition elite_C : cfg := Cfg Minimization 2 [N' 0; N' 0] [N' 1; N' 1] LInf (LFin 1) NInf.
Definition elite_E : env := Env elite_C lin (clip elite_C) (fun p => q (Z.of_nat (7 * (p * p) + 3 * p + 1) mod 16) 16) (fun p => (5 * p + 2 + p / 3) mod 7).
Theorem C49_elite_refuted : exists E p k, let C := e_cfg E in
  cfg_ok C /\ no_nan (e_prob E) /\ repair_ok E /\ 0 < c_dim C /\ 1 <= be_m p <= be_n p /\ be_m p < be_e p <= be_n p /\
  (exists x v wd ev y u, run_body E (bea fxx C p) (fun _ => None) k (World (task_init C) [] 0) = (Ret (x, v), wd, ev) /\
     In (y, Ret u) (w_h wd) /\ better (c_opt C) u v = true) /\ ~ best_run E (bea fxx C p).
Proof.
  exists elite_E, (BEAPar 3 1 2 (q 1 2) 1 1), 9. cbv zeta. destruct ExEvo.hyps as (H1 & H2 & _ & H4 & _).
  split; [exact H1|]. split; [exact H2|]. split; [exact (clip_ok elite_C lin _ _ H1)|]. split; [exact H4|]. split; [simpl; lia|]. split; [simpl; lia|].
  apply (run_lost_best (fun _ => False)). vm_compute. reflexivity.
Qed.
Theorem C49_many_sites_refuted : exists E p k, let C := e_cfg E in
  cfg_ok C /\ no_nan (e_prob E) /\ repair_ok E /\ 0 < c_dim C /\ be_e p <= be_n p /\
  (exists wd ev, run_body E (bea fxx C p) (fun _ => None) k (World (task_init C) [] 0) = (Raise EIndex, wd, ev)) /\ ~ best_run E (bea fxx C p).
Proof.
  exists ExEvo.E, (BEAPar 3 4 1 (q 1 2) 1 1), 9. cbv zeta. destruct ExEvo.hyps as (H1 & H2 & H3 & H4 & _).
  split; [exact H1|]. split; [exact H2|]. split; [exact H3|]. split; [exact H4|]. split; [simpl; lia|].
  apply (run_raises (fun _ => False)); [vm_compute; reflexivity|discriminate|exact (fun x => x)].
Qed.
(** C50, refuted parts: in binary64 with bounds [-1.5, 0.3] and the default 16 bits, the string of ones decodes above the
    upper bound and is evaluated there (there is no repair); with fewer than one clone a run raises ValueError *)
Definition cl_E : env := let C := Cfg Minimization 1 [b64_lit (-3) 2] [b64_lit 3 10] LInf (LFin 1) NInf in Env C lin (clip C) (fun _ => q 7 8) in7.
Theorem C50_decode_refuted : exists E p k, let C := e_cfg E in
  cfg_ok C /\ no_nan (e_prob E) /\ repair_ok E /\ 0 < cl_n p /\ (0 < fint b64ops (fmul b64ops (fnat b64ops (cl_n p)) (cl_factor p)))%Z /\ cl_bits p = 16 /\
  (exists r wd ev a, run_body E (clonalg b64ops C p) (fun _ => None) k (World (task_init C) [] 0) = (r, wd, ev) /\ In a (w_h wd) /\ ~ inside C (fst a)) /\
  ~ best_run E (clonalg b64ops C p).
Proof.
  exists cl_E, (CLPar 2 (q 1 1) (q 1 8) 1 16), 0. cbv zeta.
  assert (HC : cfg_ok (e_cfg cl_E)) by (split; [reflexivity|]; split; [reflexivity|]; constructor; [vm_compute; reflexivity|constructor]).
  split; [exact HC|]. split; [apply lin_no_nan|]. split; [exact (clip_ok _ lin _ in7 HC)|]. split; [simpl; lia|].
  split; [apply Z.ltb_lt; vm_compute; reflexivity|]. split; [reflexivity|]. apply (run_outside (fun _ => False)). vm_compute. reflexivity.
Qed.
Theorem C50_no_clone_refuted : exists E p k, let C := e_cfg E in
  cfg_ok C /\ no_nan (e_prob E) /\ repair_ok E /\ decode_ok fxx C (cl_bits p) /\ 0 < cl_n p /\
  (exists wd ev, run_body E (clonalg fxx C p) (fun _ => None) k (World (task_init C) [] 0) = (Raise EValue, wd, ev)) /\ ~ best_run E (clonalg fxx C p).
Proof.
  exists ExEvo.E, (CLPar 2 (q 1 8) (q 1 8) 1 3), 9. cbv zeta. destruct ExEvo.hyps as (H1 & H2 & H3 & H4 & _ & _ & (H5 & _) & _).
  split; [exact H1|]. split; [exact H2|]. split; [exact H3|]. split; [exact H5|]. split; [simpl; lia|].
  apply (run_raises (fun _ => False)); [vm_compute; reflexivity|discriminate|exact (fun x => x)].
Qed.
(** C67, refuted part: the returned x need not be a vector: if no spark was ever better, [population] is still the
    1 x d matrix of the initialisation when the run stops (fwa.py:157, 159) *)
Theorem C67_shape_refuted : exists E p, let C := e_cfg E in
  cfg_ok C /\ no_nan (e_prob E) /\ repair_ok E /\ 0 < bb_num p /\
  exists s wd, reached E (bbfwa fxx C p) s wd /\ stopping_condition C (w_ts wd) = true /\ 0 < t_iters (w_ts wd) /\ bb_flat (r_par s : bb_state) = false.
Proof.
  exists (Env ExEvo.C lin (clip ExEvo.C) (fun _ => q 1 2) in7), ExEvo.bb. cbv zeta. destruct ExEvo.hyps as (H1 & H2 & _).
  split; [exact H1|]. split; [exact H2|]. split; [exact (clip_ok ExEvo.C lin _ in7 H1)|]. split; [simpl; lia|].
  pose (chk := fun (s : rstate (bbfwa fxx ExEvo.C ExEvo.bb)) (w : world) =>
    stopping_condition ExEvo.C (w_ts w) && (0 <? t_iters (w_ts w)) && negb (bb_flat (r_par s : bb_state))).
  destruct (state_check (Env ExEvo.C lin (clip ExEvo.C) (fun _ => q 1 2) in7) (bbfwa fxx ExEvo.C ExEvo.bb) 4 chk) as (s & w & Hs & Hc); [vm_compute; reflexivity|].
  unfold chk in Hc. apply andb_true_iff in Hc. destruct Hc as [Hc H3]. apply andb_true_iff in Hc. destruct Hc as [Hc H4].
  exists s, w. split; [exact Hs|]. split; [exact Hc|]. split; [apply Nat.ltb_lt; exact H4|apply negb_true_iff; exact H3].
Qed.

Print Assumptions C48_ga.
Print Assumptions C48_step.
Print Assumptions C48_tournament_refuted.
Print Assumptions C49_bea.
Print Assumptions C49_site.
Print Assumptions C49_scout.
Print Assumptions C49_iter.
Print Assumptions C49_no_site_refuted.
Print Assumptions C49_elite_refuted.
Print Assumptions C49_many_sites_refuted.
Print Assumptions C50_clonalg.
Print Assumptions C50_decode.
Print Assumptions C50_hyper.
Print Assumptions C50_insertion.
Print Assumptions C50_decode_refuted.
Print Assumptions C50_no_clone_refuted.
Print Assumptions C67_bbfwa.
Print Assumptions C67_step.
Print Assumptions C67_shape_refuted.
