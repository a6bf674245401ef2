(** Proofs about AlgBasic3.v. *)
From Coq Require Import ZArith Lia Bool List Permutation.
From Verif Require Import Num Task TaskSpec TaskProofs TaskProofs2 Prog Wp GetBest Run RunSpec RunProofs RunProofs2
  AlgoLib Fops AlgTac StepSpec StepLib Indiv IndivLib Repair AlgPSO AlgPSOProofs AlgSwarm PopLib AlgSwarmProofs SortLib AlgBasic AlgBasic2 AlgBasic2Proofs AlgOther AlgOtherProofs
  AlgBasic3.
Import ListNotations.

(** ** BacterialForagingOptimization *)
Section BFO.
Variables (F : fops) (C : cfg) (p : bfo_par) (X : exn -> Prop).
Hypothesis HC : cfg_ok C.
Let P := drawn_or_inside F C.
(** m cells *)
Record BfoInv (m : nat) (s : bfo_cur) (l : elog) : Prop := {
  bi_pop : length (bc_pop s) = m; bi_fit : length (bc_fit s) = m; bi_cost : length (bc_cost s) = m; bi_health : length (bc_health s) = m;
  bi_in : Forall P (bc_pop s); bi_seen : Forall2 (Seen l) (bc_pop s) (bc_fit s);
  bi_xb : length (fst (bc_best s)) = c_dim C; bi_good : Good l (fst (bc_best s)) (snd (bc_best s))
}.
Lemma bfo_better : forall x f b l l', length x = c_dim C -> length (fst b) = c_dim C -> Good l (fst b) (snd b) -> Evald x f l l' ->
  length (fst (if_better x f b)) = c_dim C /\ Good l' (fst (if_better x f b)) (snd (if_better x f b)).
Proof.
  intros x f b l l' Lx Lb G He. unfold if_better. destruct (fltb f (snd b)) eqn:Q; cbn [fst snd]; split; auto.
  - eapply Good_take; eauto. apply fltb_fleb; auto.
  - eapply Good_keep; eauto.
Qed.
Lemma bfo_set : forall m s l i x f l' cost health, BfoInv m s l -> P x -> Evald x f l l' -> length cost = m -> length health = m ->
  BfoInv m (BFOCur (upd (bc_pop s) i x) (upd (bc_fit s) i f) cost health (if_better x f (bc_best s))) l'.
Proof.
  intros m s l i x f l' cost health [B1 B2 B3 B4 B5 B6 B7 B8] Hx He L1 L2. assert (Hext := Evald_ext _ _ _ _ He).
  destruct (bfo_better x f (bc_best s) l l') as [G1 G2]; auto. { eapply doi_len; eauto. }
  constructor; cbn [bc_pop bc_fit bc_cost bc_health bc_best]; rewrite ?upd_length; auto.
  - apply Forall_upd; auto.
  - apply Forall2_upd; [eapply Seen2_ext; eauto|eapply Evald_seen; eauto].
Qed.
Lemma w_bfo_swim : forall m i dir jlast left s l, BfoInv m s l -> i < m -> length dir = c_dim C ->
  wp (KPX C P X) (bfo_swim F p i dir jlast left s) (BfoInv m) l.
Proof.
  intros m i dir jlast left. induction left as [|left IH]; intros s l H Hi Hd; cbn [bfo_swim];
    (apply wp_bind; apply w_nthP; [rewrite (bi_pop _ _ _ H); auto|]; intros x Ex;
     assert (Lx : length x = c_dim C) by (eapply doi_len; eauto; exact (Forall_nth _ _ _ _ _ (bi_in _ _ _ H) Ex));
     apply wp_bind; apply w_repair; [dl|]; intros y Hy; apply wp_bind; apply w_setP; [rewrite (bi_pop _ _ _ H); auto|];
     apply wp_bind; apply w_eval; [right; exact Hy|]; intros f l' He; apply wp_bind; apply w_setP; [rewrite (bi_fit _ _ _ H); auto|];
     cbv zeta; apply wp_bind; apply w_setP; [rewrite (bi_cost _ _ _ H); auto|]; apply wp_bind; apply w_nthP; [rewrite (bi_health _ _ _ H); auto|]; intros h Eh;
     apply wp_bind; apply w_setP; [rewrite (bi_health _ _ _ H); auto|];
     match goal with |- wp _ _ _ _ => idtac end).
  - apply w_done. apply (bfo_set m s l i y f l'); auto; [right; auto| |]; rewrite upd_length; apply H.
  - assert (G := bfo_set m s l i y f l' (upd (bc_cost s) i (fadd F f (bfo_interaction F p y (upd (bc_pop s) i y)))) (upd (bc_health s) i (fadd F h (fadd F f (bfo_interaction F p y (upd (bc_pop s) i y))))) H
      (or_intror Hy) He ltac:(rewrite upd_length; apply H) ltac:(rewrite upd_length; apply H)).
    destruct (fleb jlast _); [apply w_done; exact G|]. apply IH; auto.
Qed.
Lemma w_bfo_direction : forall K d (Q : vec -> elog -> Prop) l, (forall v, length v = d -> Q v l) -> wp K (bfo_direction F d) Q l.
Proof.
  intros K d Q l HQ. unfold bfo_direction. apply wp_bind. apply (AlgEvoProofs.w_uniform_vec_len _ _ _ d); [apply repeat_length|apply repeat_length|]. intros v [Lv _]. apply w_done. apply HQ. rewrite map_length. auto.
Qed.
Lemma w_bfo_cell : forall m s l i, BfoInv m s l -> i < m -> wp (KPX C P X) (bfo_cell F C p s i) (BfoInv m) l.
Proof.
  intros m s l i H Hi. unfold bfo_cell. apply wp_bind. apply w_nthP; [rewrite (bi_fit _ _ _ H); auto|]. intros f Ef. apply wp_bind. apply w_nthP; [rewrite (bi_pop _ _ _ H); auto|]. intros x Ex. cbv zeta.
  apply wp_bind. apply w_setP; [rewrite (bi_cost _ _ _ H); auto|]. apply wp_bind. apply w_bfo_direction. intros dir Ld. apply w_bfo_swim; auto.
  destruct H as [B1 B2 B3 B4 B5 B6 B7 B8]. constructor; cbn [bc_pop bc_fit bc_cost bc_health bc_best]; rewrite ?upd_length; auto.
Qed.
Lemma zip4_length : forall a b c d m, length a = m -> length b = m -> length c = m -> length d = m -> length (zip4 a b c d) = m.
Proof.
  induction a as [|x a IH]; intros [|y b] [|z c] [|t d] [|m] H1 H2 H3 H4; cbn [zip4 length] in *; try discriminate; auto.
Qed.
Lemma zip4_seen : forall (R : vec -> num -> Prop) a b c d, Forall2 R a b -> Forall (fun r : bfo_row => R (fst (fst (fst r))) (snd (fst (fst r)))) (zip4 a b c d).
Proof. intros R a b c d H. revert c d. induction H; intros [|? ?] [|? ?]; cbn [zip4]; constructor; auto. Qed.
Lemma zip4_in : forall (R : vec -> Prop) a b c d, Forall R a -> Forall (fun r : bfo_row => R (fst (fst (fst r)))) (zip4 a b c d).
Proof. intros R a b c d H. revert b c d. induction H; intros [|? ?] [|? ?] [|? ?]; cbn [zip4]; constructor; auto. Qed.
Lemma Forall_twice : forall A (R : A -> Prop) xs, Forall R xs -> Forall R (twice xs).
Proof. intros. unfold twice. apply Forall_app; auto. Qed.
Lemma twice_len : forall A (xs : list A) h, length xs = h -> length (twice xs) = 2 * h.
Proof. intros A xs h <-. unfold twice. rewrite app_length. lia. Qed.
Lemma twice_map_len : forall A B (f : A -> B) (xs : list A) h, length xs = h -> length (twice (map f xs)) = 2 * h.
Proof. intros A B f xs h H. apply twice_len. rewrite map_length. exact H. Qed.
Lemma Forall2_map_rows : forall A (R : vec -> num -> Prop) (f : A -> vec) (g : A -> num) rows, Forall (fun r => R (f r) (g r)) rows -> Forall2 R (map f rows) (map g rows).
Proof. induction 1; simpl; constructor; auto. Qed.
Lemma Forall_sub : forall A (R : A -> Prop) xs ys, (forall a, In a ys -> In a xs) -> Forall R xs -> Forall R ys.
Proof. intros A R xs ys H G. apply Forall_forall. intros a Ha. rewrite Forall_forall in G. auto. Qed.
Lemma bfo_reproduce_inv : forall m s l, BfoInv m s l -> BfoInv (2 * Nat.min (bf_n p / 2) m) (bfo_reproduce F p s) l.
Proof.
  intros m s l [B1 B2 B3 B4 B5 B6 B7 B8]. unfold bfo_reproduce. set (rows := firstn _ _).
  assert (Lr : length rows = Nat.min (bf_n p / 2) m). { unfold rows. rewrite firstn_length, sort_on_length, (zip4_length _ _ _ _ m); auto. }
  assert (Hin : forall r, In r rows -> In r (zip4 (bc_pop s) (bc_fit s) (bc_cost s) (bc_health s))).
  { intros r Hr. unfold rows in Hr. apply firstn_In in Hr. apply sort_on_In in Hr. exact Hr. }
  clearbody rows. revert Lr. generalize (Nat.min (bf_n p / 2) m). intros h Lr.
  constructor; cbn [bc_pop bc_fit bc_cost bc_health bc_best]; auto; try (apply twice_map_len; exact Lr); try (rewrite repeat_length; apply twice_len; exact Lr).
  - apply Forall_twice. apply Forall_map. eapply Forall_sub; [exact Hin|]. apply zip4_in; auto.
  - apply Forall2_app; apply (Forall2_map_rows bfo_row (Seen l)); (eapply Forall_sub; [exact Hin|]; apply zip4_seen; auto).
Qed.
Lemma w_bfo_disperse : forall m s l i, BfoInv m s l -> i < m -> wp (KPX C P X) (bfo_disperse F C p s i) (BfoInv m) l.
Proof.
  intros m s l i H Hi. unfold bfo_disperse. apply wp_bind. apply w_random. intros u _ _. destruct (fltb u (bf_prob p)); [|apply w_done; auto].
  apply wp_bind. apply w_random_vec_u. intros r Lr Ur. cbv zeta. apply wp_bind. apply w_setP; [rewrite (bi_pop _ _ _ H); auto|]. apply wp_bind.
  assert (Px : P (vadd F (c_lower C) (vmul F r (vsub F (c_upper C) (c_lower C))))) by (left; exists r; auto).
  apply w_eval; [exact Px|]. intros f l' He. apply wp_bind. apply w_setP; [rewrite (bi_fit _ _ _ H); auto|]. apply w_done. apply (bfo_set m s l); auto; apply H.
Qed.
(** the population has its first size, or twice half of it *)
Definition bfo_size (m : nat) : Prop := m = bf_n p \/ m = 2 * (bf_n p / 2).
Definition bfo_I (pop : list vec) (fit : list num) (xb : vec) (fxb : num) (st : bfo_st) (l : elog) : Prop :=
  exists m, bfo_size m /\ BfoInv m (BFOCur pop fit (bs_cost st) (bs_health st) (xb, fxb)) l.
Lemma half_min : forall m, bfo_size m -> 2 * Nat.min (bf_n p / 2) m = 2 * (bf_n p / 2).
Proof. intros m [->| ->]; assert (bf_n p / 2 <= bf_n p) by (apply Nat.div_le_upper_bound; lia); lia. Qed.
Lemma bfo_iter_c : forall k0 j0, iter_c (KPX C P X) (bfo F C p k0 j0) bfo_I.
Proof.
  intros k0 j0 pop fit xb fxb st l (m & Hm & H). cbn [bfo a_iter]. unfold bfo_iter. assert (Lp := bi_pop _ _ _ H). cbn [bc_pop] in Lp. apply wp_bind.
  apply wp_conseq0 with (Q := BfoInv m).
  { rewrite Lp. apply wp_for_range with (I := fun _ => BfoInv m); auto. intros i s l' Hi Hs. apply w_bfo_cell; auto. }
  intros s1 l1 H1. cbv zeta. set (repr := bf_chem p <=? S (bs_k st)).
  assert (H2 : exists m2, bfo_size m2 /\ BfoInv m2 (if repr then bfo_reproduce F p s1 else s1) l1).
  { destruct repr; [|eauto]. exists (2 * (bf_n p / 2)). split; [right; auto|]. rewrite <- (half_min m Hm). apply bfo_reproduce_inv; auto. }
  destruct H2 as (m2 & Hm2 & H2). set (s2 := if repr then bfo_reproduce F p s1 else s1) in *. clearbody s2 repr.
  apply wp_bind. apply wp_conseq0 with (Q := BfoInv m2).
  { destruct (_ <=? _); [|apply w_done; auto]. rewrite (bi_pop _ _ _ H2). apply wp_for_range with (I := fun _ => BfoInv m2); auto. intros i s l' Hi Hs. apply w_bfo_disperse; auto. }
  intros s3 l3 H3. apply w_done. exists m2. split; auto. destruct H3 as [B1 B2 B3 B4 B5 B6 B7 B8]. constructor; auto.
Qed.
Lemma bfo_init_c : forall k0 j0, 0 < bf_n p -> init_c (KPX C P X) (bfo F C p k0 j0) bfo_I.
Proof.
  intros k0 j0 Hn. unfold init_c. cbn [bfo a_init a_coords]. unfold bfo_init. apply wp_bind. apply w_default_numpy_init; auto; [intros; right; auto|].
  intros pop fit l H1 H2 H3. apply w_done. apply (pi_first C _ (bf_n p)); auto. intros x f [P1 P2 P3 P4 P5 P6]. exists (bf_n p). split; [left; auto|].
  constructor; cbn [bc_pop bc_fit bc_cost bc_health bc_best bs_cost bs_health]; rewrite ?repeat_length; auto. eapply Forall_impl; [|exact P3]. intros; right; auto.
Qed.
End BFO.

(** ** GlowwormSwarmOptimization *)
Section GSO.
Variables (F : fops) (C : cfg) (pi : num) (p : gso_par) (X : exn -> Prop).
Hypothesis HC : cfg_ok C.
Hypothesis Hn : 0 < gw_n p.
Definition gso_I (pop : list vec) (fit : list num) (xb : vec) (fxb : num) (st : gso_st) (l : elog) : Prop :=
  PopInv C (gw_n p) pop fit xb fxb l /\ length (gl_luc st) = gw_n p.
Lemma nbs_length : forall i r pop luc, length (gso_neighbors p i r pop luc) = length pop.
Proof. intros. unfold gso_neighbors. apply map2_length; auto. apply seq_length. Qed.
Lemma roulette_range : forall pi0 r js bu j, gso_roulette F pi0 r bu js = Some j -> In j js.
Proof. induction js as [|a js IH]; cbn [gso_roulette]; intros bu j H; [discriminate|]. destruct (_ && _); [injection H as ->; left; auto|right; eauto]. Qed.
Lemma w_gso_select : forall K pb i (Q : nat -> elog -> Prop) l, i < length pb -> (forall j, j < gw_n p -> Q j l) -> wp K (gso_select F p pb i) Q l.
Proof.
  intros K pb i Q l Hi HQ. unfold gso_select. apply wp_bind. apply w_random. intros r _ _. apply wp_bind. apply w_nthP; auto. intros q _.
  destruct (gso_roulette _ _ _ _ _) as [j|] eqn:E; [|apply w_integers; auto]. apply w_done. apply HQ. apply roulette_range in E. apply in_seq in E. lia.
Qed.
Lemma gso_iter_c : iter_c (KBX C X) (gso F C pi p) gso_I.
Proof.
  intros pop fit xb fxb st l [H Hl]. cbn [gso a_iter]. unfold gso_iter. cbv zeta.
  set (luc := map2 (gso_luciferin F p) (gl_luc st) fit). set (nbs := map (fun i => gso_neighbors p i (nth i (gl_ranges st) NaN) pop luc) (seq 0 (gw_n p))). set (pbs := map (fun i => gso_probabilities F i (nth i nbs []) luc) (seq 0 (gw_n p))).
  assert (L1 : length luc = gw_n p) by (unfold luc; apply map2_length; auto; apply H).
  assert (L2 : forall i pb, nth_error pbs i = Some pb -> length pb = gw_n p).
  { intros i pb E. unfold pbs in E. rewrite nth_error_map in E. destruct (nth_error (seq 0 (gw_n p)) i) as [k|] eqn:Ek; [|discriminate]. cbn [option_map] in E. injection E as <-.
    unfold gso_probabilities. apply map2_length; auto. assert (Hk : k < gw_n p) by (apply nth_error_In in Ek; apply in_seq in Ek; lia).
    unfold nbs. rewrite (nth_indep _ [] (gso_neighbors p 0 (nth 0 (gl_ranges st) NaN) pop luc)) by (rewrite map_length, seq_length; auto).
    rewrite (map_nth (fun i => gso_neighbors p i (nth i (gl_ranges st) NaN) pop luc)). rewrite nbs_length. apply H. }
  assert (L3 : length pbs = gw_n p) by (unfold pbs; rewrite map_length, seq_length; auto). clearbody pbs.
  apply wp_bind. apply wp_conseq0 with (Q := fun js l' => (l' = l /\ Forall (fun j => j < gw_n p) js) /\ length js = length (seq 0 (gw_n p))).
  { apply (wp_mapM_acc _ _ _ _ (fun js l' => l' = l /\ Forall (fun j => j < gw_n p) js)); [auto|]. intros pre i post js l' E _ [-> Hj].
    assert (i < gw_n p) by (assert (In i (seq 0 (gw_n p))) by (rewrite E; apply in_or_app; simpl; auto); apply in_seq in H0; lia).
    apply wp_bind. apply w_nthP; [lia|]. intros pb Epb. apply w_gso_select; [rewrite (L2 _ _ Epb); auto|]. intros j Hj'. split; auto. apply Forall_app; auto. }
  intros js l' [[-> Hj] Lj]. rewrite seq_length in Lj. assert (Hd := pi_dims _ _ _ _ _ _ _ HC H). assert (Lp := pi_pop _ _ _ _ _ _ _ H).
  apply wp_bind. apply wp_conseq0 with (Q := fun pop' l' => (l' = l /\ Forall (inside C) pop') /\ length pop' = length (combine (seq 0 (gw_n p)) js)).
  { apply (wp_mapM_acc _ _ _ _ (fun pop' l' => l' = l /\ Forall (inside C) pop')); [auto|]. intros pre [i j] post pop' l' E _ [-> Hp]. cbn [fst snd].
    assert (Hij : In (i, j) (combine (seq 0 (gw_n p)) js)) by (rewrite E; apply in_or_app; simpl; auto).
    assert (Hi : i < gw_n p) by (apply in_combine_l in Hij; apply in_seq in Hij; lia). assert (Hj' : j < gw_n p) by (apply in_combine_r in Hij; rewrite Forall_forall in Hj; auto).
    unfold gso_move. apply wp_bind. apply w_nthP; [lia|]. intros x Ex. apply wp_bind. apply w_nthP; [lia|]. intros y Ey.
    assert (length x = c_dim C) by dnth. assert (length y = c_dim C) by dnth. apply w_repair; [dl|]. intros z Hz. split; auto. apply Forall_app; auto. }
  intros pop' l' [[-> Hin] Lp']. rewrite combine_length, seq_length, Lj, Nat.min_id in Lp'. apply wp_bind. apply w_eval_all; auto; [nonil|]. intros fit' l' He. apply wp_bind.
  eapply w_best_evals; eauto. intros x f HI. apply w_done. split; auto.
Qed.
Lemma gso_init_c : init_c (KBX C X) (gso F C pi p) gso_I.
Proof.
  unfold init_c. cbn [gso a_init a_coords]. unfold gso_init. apply wp_bind. apply w_default_numpy_init; auto.
  intros pop fit l H1 H2 H3. apply w_done. apply (pi_first C _ (gw_n p)); auto. intros x f HI. split; auto. cbn [gl_luc]. apply repeat_length.
Qed.
End GSO.

(** ** MonkeyKingEvolution, versions 1 and 2 *)
Section MKE.
Variables (F : fops) (C : cfg) (p : mke_par) (v2 : bool) (X : exn -> Prop).
Hypothesis HC : cfg_ok C.
Hypothesis Hn : 0 < mk_n p.
(** int(population_rate * population_size) *)
Definition mke_z : Z := fint F (fmul F (mk_rate p) (fnat F (mk_n p))).
Hypothesis Hk : (0 <= mke_z <= Z.of_nat (mk_n p))%Z \/ X EValue.
Hypothesis Hc : (if v2 then mk_c p = 0 \/ 2 <= mk_n p else 0 < mk_c p * c_dim C) \/ X EValue.
Definition mok (l : elog) (m : monkey) : Prop :=
  IOk C l (mo_i m) /\ IOk C l (mo_pb m) /\ fleb (snd (mo_pb m)) (snd (mo_i m)) = true.
Definition kings (pop : list monkey) : nat := length (filter mo_king pop).
Record MkeInv (pop : list monkey) (fit : list num) (xb : vec) (fxb : num) (l : elog) : Prop := {
  mi_n : length pop = mk_n p; mi_ok : Forall (mok l) pop; mi_fit : fit = mo_fits pop;
  mi_xb : length xb = c_dim C; mi_good : Good l xb fxb; mi_kings : kings pop = Z.to_nat mke_z
}.
Lemma mok_ext : forall l l' m, ext l l' -> mok l m -> mok l' m.
Proof. intros l l' m He (H1 & H2 & H3). split; [|split]; eauto using IOk_ext. Qed.
Lemma moks_ext : forall l l' pop, ext l l' -> Forall (mok l) pop -> Forall (mok l') pop.
Proof. intros. eapply Forall_impl; [|eauto]. intros; eapply mok_ext; eauto. Qed.
Lemma mke_dims : forall l pop, Forall (mok l) pop -> dims (c_dim C) (mo_xs pop).
Proof. intros l pop H. unfold mo_xs. apply Forall_map. eapply Forall_impl; [|exact H]. intros m ((Hi & _) & _). apply inside_len; auto. Qed.
Lemma mo_seen2 : forall l pop, Forall (mok l) pop -> Forall2 (Seen l) (mo_xs pop) (mo_fits pop).
Proof. induction 1 as [|m pop ((H1 & H2) & _) _ IH]; simpl; constructor; auto. Qed.
Lemma kings_upd : forall pop i m m', nth_error pop i = Some m -> mo_king m = false -> mo_king m' = true -> kings (upd pop i m') = S (kings pop).
Proof.
  unfold kings. induction pop as [|a pop IH]; intros [|i] m m' E H1 H2; simpl in *; try discriminate.
  - injection E as ->. rewrite H1, H2. reflexivity.
  - destruct (mo_king a); simpl; rewrite (IH i m m'); auto.
Qed.
Definition crown_I (pop : list monkey) (l : elog) (r : list nat) (pop' : list monkey) (l' : elog) : Prop :=
  l' = l /\ length pop' = mk_n p /\ map mo_i pop' = map mo_i pop /\ map mo_pb pop' = map mo_pb pop /\ kings pop' + length r = Z.to_nat mke_z /\
  NoDup r /\ (forall i, In i r -> exists m, nth_error pop' i = Some m /\ mo_king m = false).
Lemma upd_same : forall A (xs : list A) i a, nth_error xs i = Some a -> upd xs i a = xs.
Proof. induction xs as [|b xs IH]; intros [|i] a E; simpl in *; try discriminate; [congruence|]. rewrite IH; auto. Qed.
Lemma w_mke_crown : forall pop (Q : list monkey -> elog -> Prop) l, length pop = mk_n p -> Forall (fun m => mo_king m = false) pop ->
  (forall pop', length pop' = mk_n p -> map mo_i pop' = map mo_i pop -> map mo_pb pop' = map mo_pb pop -> kings pop' = Z.to_nat mke_z -> Q pop' l) ->
  wp (KBX C X) (mke_crown F p pop) Q l.
Proof.
  intros pop Q l Lp Hf HQ. unfold mke_crown. rewrite Lp. fold mke_z. cbv zeta. destruct (mke_z <? 0)%Z eqn:Q1.
  { destruct Hk as [H|H]; [apply Z.ltb_lt in Q1; lia|right; exact H]. }
  assert (G : forall idx, length idx = Z.to_nat mke_z -> NoDup idx -> (forall r, In r idx -> r < mk_n p) ->
    wp (KBX C X) (foldM (fun pop i => let* m := nthP pop i in setP pop i (Monkey (mo_i m) (mo_pb m) true)) idx pop) Q l).
  { intros idx L1 Hnd Hr. apply wp_conseq0 with (Q := crown_I pop l []).
    - apply (wp_foldM _ _ _ _ (crown_I pop l)).
      + repeat (split; [solve [auto]|]). assert (K0 : kings pop = 0).
        { clear - Hf. unfold kings. induction Hf as [|m pop H _ IH]; simpl; auto. rewrite H. exact IH. }
        split; [rewrite K0; auto|]. split; auto. intros i Hi. destruct (nth_error pop i) as [m|] eqn:E; [|apply nth_error_None in E; specialize (Hr i Hi); lia].
        exists m. split; auto. exact (Forall_nth _ _ _ _ _ Hf E).
      + intros a r pop' l' _ (-> & I1 & I2 & I3 & I4 & I5 & I6). destruct (I6 a (or_introl eq_refl)) as (m & Em & Km).
        apply wp_bind. unfold nthP. rewrite Em. apply w_done. apply w_setP; [apply nth_error_Some; congruence|]. inversion I5; subst.
        split; auto. rewrite upd_length. split; auto. rewrite !map_upd. cbn [mo_i mo_pb]. split.
        { rewrite (upd_same _ (map mo_i pop')); auto. rewrite nth_error_map, Em. reflexivity. }
        split. { rewrite (upd_same _ (map mo_pb pop')); auto. rewrite nth_error_map, Em. reflexivity. }
        split. { rewrite (kings_upd pop' a m); auto. simpl in I4. lia. }
        split; auto. intros i Hi. rewrite nth_upd_other; [apply I6; right; auto|]. intros ->. contradiction.
    - intros pop' l' (-> & I1 & I2 & I3 & I4 & _). apply HQ; auto. simpl in I4. lia. }
  destruct (Compare_dec.le_lt_dec (Z.to_nat mke_z) (mk_n p)) as [Hle|Hlt].
  - apply wp_bind. apply w_choice; auto.
  - destruct Hk as [H|H]; [lia|]. apply wp_bind. apply (AlgFwaProofs.w_choice_v (KBX C X) (or_intror H)). auto.
Qed.
Lemma mke_personal_ok : forall l m, IOk C l (mo_i m) -> IOk C l (mo_pb m) -> snd (mo_i m) <> NaN -> snd (mo_pb m) <> NaN -> mok l (mke_personal m).
Proof.
  intros l m H1 H2 N1 N2. unfold mke_personal. destruct (fltb (snd (mo_i m)) (snd (mo_pb m))) eqn:Q; (split; [|split]); cbn [mo_i mo_pb]; auto.
  - apply fleb_refl; auto.
  - apply fltb_false_fleb; auto.
Qed.
Lemma personal_val : forall m, mo_i (mke_personal m) = mo_i m /\ mo_king (mke_personal m) = mo_king m.
Proof. intros m. unfold mke_personal. destruct (fltb _ _); auto. Qed.
(** a monkey that moved: everything evaluated is covered by its new value *)
Definition moved (l : elog) (fs : list num) (fb : num) (pb : vec * num) (m : monkey) (l' : elog) : Prop :=
  ext l l' /\ IOk C l' (mo_i m) /\ snd (mo_i m) <> NaN /\ mo_pb m = pb /\ mo_king m = false /\ Cov l' (snd (mo_i m) :: fs) fb.
Lemma w_mke_particle : forall m xb fs fb l, mok l m -> mo_king m = false -> length xb = c_dim C -> Cov l fs fb ->
  wp (KBX C X) (mke_particle F C p m xb) (moved l fs fb (mo_pb m)) l.
Proof.
  intros m xb fs fb l (H1 & H2 & H3) Hking Lb Hcov. unfold mke_particle. assert (L1 := inside_len _ _ HC (proj1 H1)). assert (L2 := inside_len _ _ HC (proj1 H2)).
  apply wp_bind. apply w_random_vec. intros r Lr. apply wp_bind. apply w_ind_evaluate; [dl|]. intros y v l' Hy Hv. apply w_done. cbn [mo_i mo_pb mo_king fst snd].
  split; [eapply Evald_ext; eauto|]. split; [split; auto; eapply Evald_seen; eauto|]. split; [eapply Evald_nan; eauto|]. split; auto. split; auto. eapply Cov_Evald; eauto.
Qed.
Lemma w_mke_king1 : forall m fs fb l, v2 = false -> mok l m -> Cov l fs fb ->
  wp (KBX C X) (mke_king1 F C p m) (moved l fs fb (mo_pb m)) l.
Proof.
  intros m fs fb l Hv (H1 & _ & _) Hcov. unfold mke_king1. cbv zeta. assert (L1 := inside_len _ _ HC (proj1 H1)). rewrite Hv in Hc.
  apply wp_bind. apply wp_conseq0 with (Q := fun rs l' => (l' = l /\ dims (c_dim C) rs) /\ length rs = mk_c p * c_dim C).
  { apply (wp_repeatM _ _ _ (fun rs l' => l' = l /\ dims (c_dim C) rs)); [split; auto; constructor|]. intros bs l' _ [-> Hb]. apply w_random_vec. intros r Lr. split; auto. apply dims_app; auto. constructor; auto. }
  intros rs l0 [[-> Hd] Lr]. apply wp_bind. destruct rs as [|r0 rs0].
  { cbn [map repair_all]. destruct Hc as [H|H]; [simpl in Lr; lia|right; exact H]. }
  set (rs := r0 :: rs0) in *. assert (Hne : rs <> []) by discriminate. clearbody rs. clear r0 rs0.
  apply w_repair_all; [destruct rs; [congruence|discriminate]| |].
  { apply Forall_map. eapply Forall_impl; [|exact Hd]. intros r Hr. cbv beta in *. dl. }
  intros a La Ia. rewrite map_length in La. apply wp_bind. apply w_eval_all; auto; [destruct a, rs; simpl in *; congruence|]. intros f l' He.
  assert (Lf := Evals_len _ _ _ _ He). assert (Hnan := Evals_nan _ _ _ _ He). assert (Hfne : f <> []) by (destruct f, a, rs; simpl in *; congruence).
  destruct (argmin_spec f Hfne Hnan) as (b & g & Eb & (M1 & M2 & M3)). rewrite Eb.
  assert (Hb : b < length a) by (rewrite <- Lf; apply nth_error_Some; congruence). apply wp_bind. apply w_nthP; auto. intros y Ey. apply wp_bind. unfold nthP. rewrite M1. apply w_done. apply w_done.
  cbn [mo_i mo_pb mo_king fst snd]. split; [eapply Evals_ext; eauto|]. split.
  { split; [exact (Forall_nth _ _ _ _ _ Ia Ey)|exact (Forall2_nth _ _ _ _ _ _ _ _ (Evals_seen _ _ _ _ He) Ey M1)]. }
  split; [exact (Forall_nth _ _ _ _ _ Hnan M1)|]. split; auto. split; auto. eapply Cov_dom; [eapply Cov_Evals; eauto|]. intros h Hh Nh. apply in_app_or in Hh. destruct Hh as [Hh|Hh].
  - exists g. split; [left; auto|]. apply In_nth_error in Hh. destruct Hh as (k & Hk'). eauto.
  - exists h. split; [right; auto|]. apply fleb_refl; auto.
Qed.
Lemma w_mke_king2 : forall pop m fs fb l, v2 = true -> length pop = mk_n p -> dims (c_dim C) (mo_xs pop) -> mok l m -> snd (mo_i m) <> NaN -> Cov l fs fb ->
  wp (KBX C X) (mke_king2 F p pop m) (moved l fs fb (mo_pb m)) l.
Proof.
  intros pop m fs fb l Hv Lp Hd (H1 & _ & _) Nm Hcov. unfold mke_king2. rewrite Hv in Hc. assert (L1 := inside_len _ _ HC (proj1 H1)).
  apply wp_bind. apply wp_conseq0 with (Q := fun b l' => ext l l' /\ IOk C l' b /\ snd b <> NaN /\ Cov l' (snd b :: fs) fb).
  - apply wp_for_range with (I := fun _ b l' => ext l l' /\ IOk C l' b /\ snd b <> NaN /\ Cov l' (snd b :: fs) fb).
    { split; auto. split; auto. split; auto. eapply Cov_incl; [|exact Hcov]. intros a Ha. right. auto. }
    intros i b l' Hi (B1 & B2 & B3 & B4). apply wp_bind.
    assert (G : forall r, length r = 2 -> (forall j, In j r -> j < mk_n p) ->
      wp (KBX C X) (let* r0 := nthP r 0 in let* r1 := nthP r 1 in let* m0 := nthP pop r0 in let* m1 := nthP pop r1 in
        let* a := repair (vsub F (fst (mo_i m)) (vscale F (mk_fc p) (vsub F (fst (mo_i m0)) (fst (mo_i m1))))) in
        let* f := eval a in Done (if fltb f (snd b) then (a, f) else b)) (fun b l'0 => ext l l'0 /\ IOk C l'0 b /\ snd b <> NaN /\ Cov l'0 (snd b :: fs) fb) l').
    { intros [|r0 [|r1 [|? ?]]] Lr Hr; try discriminate. cbn [nthP nth_error bind].
      assert (R0 : r0 < length pop) by (rewrite Lp; apply Hr; simpl; auto). assert (R1 : r1 < length pop) by (rewrite Lp; apply Hr; simpl; auto).
      apply wp_bind. apply w_nthP; auto. intros m0 E0. apply wp_bind. apply w_nthP; auto. intros m1 E1.
      assert (length (fst (mo_i m0)) = c_dim C) by (apply (dims_In _ (mo_xs pop)); auto; unfold mo_xs; apply (in_map (fun m => fst (mo_i m))); eapply nth_error_In; eauto).
      assert (length (fst (mo_i m1)) = c_dim C) by (apply (dims_In _ (mo_xs pop)); auto; unfold mo_xs; apply (in_map (fun m => fst (mo_i m))); eapply nth_error_In; eauto).
      apply wp_bind. apply w_repair; [dl|]. intros a Ha. apply wp_bind. apply w_eval; auto. intros f l2 He. apply w_done. assert (Hx := Evald_ext _ _ _ _ He). assert (Nf := Evald_nan _ _ _ _ He).
      split; [eapply ext_trans; eauto|]. assert (B5 := Cov_Evald _ _ _ _ _ _ B4 He). destruct (fltb f (snd b)) eqn:Q1; cbn [fst snd].
      - split; [split; auto; eapply Evald_seen; eauto|]. split; auto. eapply Cov_dom; [exact B5|]. intros g [<-|[<-|Hg]] Ng.
        + exists f. split; [left; auto|apply fleb_refl; auto].
        + exists f. split; [left; auto|apply fltb_fleb; auto].
        + exists g. split; [right; auto|apply fleb_refl; auto].
      - split; [eapply IOk_ext; eauto|]. split; auto. eapply Cov_dom; [exact B5|]. intros g [<-|Hg] Ng.
        + exists (snd b). split; [left; auto|]. apply fltb_false_fleb; auto.
        + exists g. split; auto. apply fleb_refl; auto. }
    destruct Hc as [[Hc0|Hc2]|HX].
    + rewrite Hc0 in Hi. simpl in Hi. lia.
    + apply w_choice; auto.
    + apply (AlgFwaProofs.w_choice_v (KBX C X) (or_intror HX)). auto.
  - intros b l' (B1 & B2 & B3 & B4). apply w_done. cbn [mo_i mo_pb mo_king]. repeat (split; [assumption|]). split; auto.
Qed.
Lemma mok_nan : forall l xb fxb m, Good l xb fxb -> mok l m -> snd (mo_i m) <> NaN /\ snd (mo_pb m) <> NaN.
Proof. intros l xb fxb m G (_ & _ & H). split; [eapply fleb_nan_r; eauto|eapply fleb_nan_l; eauto]. Qed.
(** one monkey after another *)
Definition step_I (xb : vec) (fxb : num) (i : nat) (pop : list monkey) (l : elog) : Prop :=
  length pop = mk_n p /\ Forall (mok l) pop /\ Cov l (mo_fits (firstn i pop)) fxb /\ (forall j m, j < i -> nth_error pop j = Some m -> mo_king m = false).
Lemma w_mke_step : forall xb fxb i pop l, step_I xb fxb i pop l -> i < mk_n p -> length xb = c_dim C -> wp (KBX C X) (mke_step F C p v2 xb pop i) (step_I xb fxb (i + 1)) l.
Proof.
  intros xb fxb i pop l (S1 & S2 & S3 & S4) Hi Lb. unfold mke_step. apply wp_bind. apply w_nthP; [lia|]. intros m Em. assert (Hm : mok l m) by exact (Forall_nth _ _ _ _ _ S2 Em).
  assert (Nm : snd (mo_i m) <> NaN /\ snd (mo_pb m) <> NaN) by (destruct Hm as (_ & _ & H); split; [eapply fleb_nan_r; eauto|eapply fleb_nan_l; eauto]). destruct Nm as [N1 N2].
  apply wp_bind. apply wp_conseq0 with (Q := moved l (mo_fits (firstn i pop)) fxb (mo_pb m)).
  { destruct (mo_king m) eqn:Ek; [|apply w_mke_particle; auto]. assert (Ev : v2 = true \/ v2 = false) by (destruct v2; auto).
    assert (Dp : dims (c_dim C) (mo_xs pop)) by (eapply mke_dims; eauto).
    destruct Ev as [Ev|Ev]; [generalize (w_mke_king2 pop m (mo_fits (firstn i pop)) fxb l Ev S1 Dp Hm N1 S3)|generalize (w_mke_king1 m (mo_fits (firstn i pop)) fxb l Ev Hm S3)]; rewrite Ev; auto. }
  intros m' l' (V1 & V2 & V3 & V4 & V5 & V6). apply w_setP; [lia|]. destruct (personal_val m') as [W1 W2].
  split; [rewrite upd_length; auto|]. split.
  { apply Forall_upd; [eapply moks_ext; eauto|]. apply mke_personal_ok; auto; rewrite V4; [eapply IOk_ext; eauto; apply Hm|auto]. }
  split.
  - rewrite (firstn_S_nth _ _ i (mke_personal m')) by (apply nth_upd_same; lia). rewrite firstn_upd. unfold mo_fits. rewrite map_app. cbn [map]. rewrite W1.
    eapply Cov_incl; [|exact V6]. intros a [<-|Ha]; apply in_or_app; [right; left; auto|left; auto].
  - intros j m0 Hj E. destruct (Nat.eq_dec j i) as [->|Hne].
    + rewrite nth_upd_same in E by lia. injection E as <-. congruence.
    + rewrite nth_upd_other in E by auto. apply (S4 j); auto. lia.
Qed.
Lemma mo_eq : forall l pop pop', map mo_i pop' = map mo_i pop -> map mo_pb pop' = map mo_pb pop -> Forall (mok l) pop -> Forall (mok l) pop' /\ mo_xs pop' = mo_xs pop /\ mo_fits pop' = mo_fits pop.
Proof.
  intros l pop pop' E1 E2 H. split; [|split].
  - revert pop' E1 E2. induction H as [|m pop Hm _ IH]; intros [|m' pop'] E1 E2; simpl in *; try discriminate; constructor.
    + unfold mok. injection E1 as -> _. injection E2 as -> _. exact Hm.
    + apply IH; congruence.
  - unfold mo_xs. rewrite <- !(map_map mo_i fst), E1. reflexivity.
  - unfold mo_fits. rewrite <- !(map_map mo_i snd), E1. reflexivity.
Qed.
Lemma mke_iter_c : iter_c (KBX C X) (mke12 F C p v2) (fun pop fit xb fxb _ l => MkeInv pop fit xb fxb l).
Proof.
  intros pop fit xb fxb u l [M1 M2 M3 M4 M5 M6]. cbn [mke12 a_iter]. unfold mke_iter. rewrite M1. apply wp_bind.
  apply wp_conseq0 with (Q := fun pop1 l' => ext l l' /\ step_I xb fxb (mk_n p) pop1 l').
  { apply wp_conseq with (Q := step_I xb fxb (mk_n p)); [|auto]. apply wp_for_range with (I := step_I xb fxb).
    - split; auto. split; auto. split; [cbn [firstn mo_fits map]; apply LB_Cov; apply M5|]. intros j m Hj. lia.
    - intros i s l' Hi Hs. apply w_mke_step; auto. }
  intros pop1 l1 (He & S1 & S2 & S3 & S4). rewrite <- S1, firstn_all in S3. apply wp_bind. apply w_mke_crown; auto.
  { apply Forall_forall. intros m Hm. apply In_nth_error in Hm. destruct Hm as (j & Ej). apply (S4 j m); auto. rewrite <- S1. apply nth_error_Some. congruence. }
  intros pop2 L2 E1 E2 K2. destruct (mo_eq l1 pop1 pop2 E1 E2 S2) as (G1 & G2 & G3).
  apply wp_bind. apply w_get_best; auto.
  - intros Q. apply map_eq_nil in Q. rewrite Q in L2. simpl in L2. lia.
  - apply mo_seen2; auto.
  - eapply Seen_ext; eauto. apply M5.
  - apply M5.
  - rewrite G3. exact S3.
  - intros x f G Hx. apply w_done. constructor; auto. destruct Hx as [Hx| ->]; auto. apply (dims_In _ (mo_xs pop2)); auto. eapply mke_dims; eauto.
Qed.
Lemma mke_init_c : init_c (KBX C X) (mke12 F C p v2) (fun pop fit xb fxb _ l => MkeInv pop fit xb fxb l).
Proof.
  unfold init_c. cbn [mke12 a_init a_coords]. unfold mke_init. apply wp_bind. apply w_default_individual_init; auto. intros pop l Lp Ho Hcov. apply wp_bind.
  assert (Hm : Forall (mok l) (map (fun a => Monkey a a false) pop)).
  { apply Forall_map. apply Forall_forall. intros a Ha. rewrite Forall_forall in Ho. assert (Oa := Ho _ Ha). split; [|split]; cbn [mo_i mo_pb]; auto.
    apply fleb_refl. assert (HN := Seen2_not_nan _ _ _ _ _ Hcov (IOk_seen2 _ _ _ (proj2 (Forall_forall _ _) Ho))). rewrite Forall_forall in HN. apply HN. apply in_map. auto. }
  assert (E0 : map mo_i (map (fun a => Monkey a a false) pop) = pop) by (rewrite map_map; cbn [mo_i]; apply map_id).
  apply w_mke_crown; [rewrite map_length; auto|apply Forall_map; apply Forall_forall; auto|]. intros pop' L1 E1 E2 K1. destruct (mo_eq l _ pop' E1 E2 Hm) as (G1 & G2 & G3).
  assert (Ex : mo_xs pop' = map fst pop) by (unfold mo_xs; rewrite <- (map_map mo_i fst), E1, E0; reflexivity).
  assert (Ef : mo_fits pop' = map snd pop) by (unfold mo_fits; rewrite <- (map_map mo_i snd), E1, E0; reflexivity).
  apply w_done. rewrite Ex. apply (w_get_best0_i _ C); auto; [nonil|]. intros x f G Hx. constructor; auto. apply inside_len; auto.
Qed.
End MKE.

(** ** MonkeyKingEvolution, version 3 *)
Section MKE3.
Variables (F : fops) (C : cfg) (p : mke_par) (X : exn -> Prop).
Hypothesis HC : cfg_ok C.
Hypothesis Hn : 0 < mk_n p.
Hypothesis Hc : 0 < mk_c p * c_dim C \/ X EValue.
Lemma w_shuffle : forall K row (Q : vec -> elog -> Prop) l, (forall v, length v = length row -> Forall (fun a => In a row) v -> Q v l) -> wp K (shuffle row) Q l.
Proof.
  intros K row Q l HQ. unfold shuffle. apply wp_bind. apply w_permutation. intros rs L1 _ Hr.
  apply wp_conseq0 with (Q := fun v l' => (l' = l /\ Forall (fun a => In a row) v) /\ length v = length rs).
  - apply (wp_mapM_acc _ _ _ _ (fun v l' => l' = l /\ Forall (fun a => In a row) v)); [auto|]. intros pre k post v l' E _ [-> Hv]. apply w_nthP; [apply Hr; rewrite E; apply in_or_app; simpl; auto|].
    intros a Ea. split; auto. apply Forall_app. split; auto. constructor; auto. eapply nth_error_In; eauto.
  - intros v l' [[-> Hv] Lv]. apply HQ; auto. congruence.
Qed.
Lemma w_is : forall K n m (Q : list nat -> elog -> Prop) l, 0 < n -> (forall is, length is = m -> Forall (fun i => i < n) is -> Q is l) -> wp K (repeatM m (integers n)) Q l.
Proof.
  intros K n m Q l Hp HQ. apply wp_conseq0 with (Q := fun is l' => (l' = l /\ Forall (fun i => i < n) is) /\ length is = m).
  { apply (wp_repeatM _ _ _ (fun is l' => l' = l /\ Forall (fun i => i < n) is)); [auto|]. intros bs l' _ [-> Hb]. apply w_integers; auto. intros r Hr. split; auto. apply Forall_app; auto. }
  intros is l' [[-> Hi] Li]. auto.
Qed.
Lemma w_rows : forall K (pop : list vec) is (Q : list vec -> elog -> Prop) l, Forall (fun i => i < length pop) is -> dims (c_dim C) pop ->
  (forall rows, length rows = length is -> dims (c_dim C) rows -> Q rows l) -> wp K (mapM (fun i => nthP pop i) is) Q l.
Proof.
  intros K pop is Q l Hi Hd HQ.
  apply wp_conseq0 with (Q := fun rows l' => (l' = l /\ dims (c_dim C) rows) /\ length rows = length is).
  { apply (wp_mapM_acc _ _ _ _ (fun rows l' => l' = l /\ dims (c_dim C) rows)); [split; auto; constructor|]. intros pre i post rows l' E _ [-> Hr].
    assert (In i is) by (rewrite E; apply in_or_app; simpl; auto). rewrite Forall_forall in Hi. apply w_nthP; auto. intros a Ea. split; auto. apply dims_app; auto. constructor; [dnth|constructor]. }
  intros rows l' [[-> Hr] Lr]. apply HQ; auto.
Qed.
Lemma dims_map2 : forall A B (g : A -> B -> vec) d (Ra : A -> Prop) (Rb : B -> Prop) xs ys, (forall a b, Ra a -> Rb b -> length (g a b) = d) -> Forall Ra xs -> Forall Rb ys -> dims d (map2 g xs ys).
Proof. intros A B g d Ra Rb xs ys H H1. revert ys. induction H1; intros [|b ys] H2; simpl; constructor; inversion H2; subst; auto. apply IHForall; auto. Qed.
Lemma mke3_iter_c : iter_c (KBX C X) (mke3 F C p) (fun pop fit xb fxb _ l => PopInv C (mk_n p) pop fit xb fxb l).
Proof.
  intros pop fit xb fxb u l H. cbn [mke3 a_iter]. unfold mke3_iter. cbv zeta. assert (Lp := pi_pop _ _ _ _ _ _ _ H). assert (Hd := pi_dims _ _ _ _ _ _ _ HC H). assert (Lb := pi_xb _ _ _ _ _ _ _ H).
  apply wp_bind. apply w_is; [lia|]. intros i1 L1 H1. apply wp_bind. apply w_rows; auto. intros rows1 R1 D1.
  apply wp_bind. apply w_is; [lia|]. intros i2 L2 H2. apply wp_bind. apply w_rows; auto. intros rows2 R2 D2.
  set (m := mk_c p * c_dim C) in *.
  set (cand := map2 (fun a b => vsub F (vadd F xb (vscale F (mk_fc p) a)) b) rows1 rows2).
  assert (Lc : length cand = m) by (unfold cand; apply map2_length; congruence).
  assert (Dc : dims (c_dim C) cand).
  { apply (dims_map2 _ _ _ _ (fun a => length a = c_dim C) (fun a => length a = c_dim C)); auto. intros a b Ha Hb. dl. }
  clearbody cand. apply wp_bind. destruct cand as [|c0 cs]; [cbn [repair_all]; destruct Hc as [H0|H0]; [simpl in Lc; unfold m in Lc; lia|right; exact H0]|].
  apply w_repair_all; [discriminate|auto|]. intros gb Lg Ig. assert (Hgb : gb <> []) by (destruct gb; simpl in *; congruence).
  apply wp_bind. apply w_eval_all; auto. intros gf l1 He1. assert (X1 := Evals_ext _ _ _ _ He1). assert (Lgf := Evals_len _ _ _ _ He1). assert (Ngf := Evals_nan _ _ _ _ He1).
  apply wp_bind. apply w_get_best_evals with (l0 := l); auto; [apply H|].
  intros xb1 fxb1 G1 B1. assert (Lb1 : length xb1 = c_dim C).
  { destruct B1 as [B1| ->]; auto. apply (inside_len C); auto. rewrite Forall_forall in Ig. auto. }
  apply wp_bind. apply wp_conseq0 with (Q := fun ms l' => (l' = l1 /\ dims (c_dim C) ms) /\ length ms = length (seq 0 (mk_n p))).
  { apply (wp_mapM_acc _ _ _ _ (fun ms l' => l' = l1 /\ dims (c_dim C) ms)); [split; auto; constructor|]. intros pre i post ms l' E _ [-> Hm]. apply w_shuffle. intros v Lv _. split; auto.
    apply dims_app; auto. constructor; auto. rewrite Lv. unfold mke_mask. rewrite map_length, seq_length. auto. }
  intros ms l2 [[-> Dm] Lm]. rewrite seq_length in Lm.
  set (cand := map2 (fun m x => vadd F (vmul F m x) (vmul F (map (mke_neg F) m) xb1)) ms pop).
  assert (Lc2 : length cand = mk_n p) by (unfold cand; apply map2_length; congruence).
  assert (Dc2 : dims (c_dim C) cand).
  { apply (dims_map2 _ _ _ _ (fun a => length a = c_dim C) (fun a => length a = c_dim C)); auto. intros a b Ha Hb. dl. }
  clearbody cand. apply wp_bind. apply w_repair_all; auto; [destruct cand; [simpl in Lc2; lia|discriminate]|]. intros pop1 Lp1 Ip1.
  assert (Hp1 : pop1 <> []) by (destruct pop1; [simpl in *; lia|discriminate]).
  apply wp_bind. apply w_eval_all; auto. intros fit1 l2 He2. assert (Lf1 := Evals_len _ _ _ _ He2). assert (Nf1 := Evals_nan _ _ _ _ He2).
  apply wp_bind. apply w_get_best_evals with (l0 := l1); auto. intros xb2 fxb2 G2 B2.
  assert (P2 : PopInv C (mk_n p) pop1 fit1 xb2 fxb2 l2).
  { constructor; auto; try congruence; [eapply Evals_seen; eauto|]. destruct B2 as [B2| ->]; auto. apply (inside_len C); auto. rewrite Forall_forall in Ip1. auto. }
  assert (Hf1 : fit1 <> []) by (destruct fit1, pop1; simpl in *; congruence). assert (Hgf : gf <> []) by (destruct gf, gb; simpl in *; congruence).
  destruct (argmax_spec fit1 Hf1 Nf1) as (iw & fw & Eiw & (W1 & W2 & W3)). destruct (argmin_spec gf Hgf Ngf) as (ib & g & Eib & (A1 & A2 & A3)). rewrite Eiw, Eib.
  assert (Hw : iw < length fit1) by (apply nth_error_Some; congruence). assert (Hb : ib < length gf) by (apply nth_error_Some; congruence).
  apply wp_bind. unfold nthP at 1. rewrite W1. apply w_done. apply wp_bind. unfold nthP at 1. rewrite A1. apply w_done. apply wp_bind. apply w_nthP; [lia|]. intros y Ey.
  destruct (fleb g fw); [|apply w_done; exact P2]. apply wp_bind. apply w_setP; [lia|]. apply wp_bind. apply w_setP; [lia|]. apply w_done. destruct P2 as [Q1 Q2 Q3 Q4 Q5 Q6].
  constructor; rewrite ?upd_length; auto.
  - apply Forall_upd; auto. exact (Forall_nth _ _ _ _ _ Ig Ey).
  - apply Forall2_upd; auto. eapply Seen_ext; [eapply Evals_ext; eauto|]. exact (Forall2_nth _ _ _ _ _ _ _ _ (Evals_seen _ _ _ _ He1) Ey A1).
Qed.
End MKE3.

(** ** FishSchoolSearch *)
Section FSS.
Variables (F : fops) (C : cfg) (p : fss_par) (X : exn -> Prop).
Hypothesis HC : cfg_ok C.
Hypothesis Hn : 0 < fs_n p.
Record FssInv (pop : list fish) (fit : list num) (xb : vec) (fxb : num) (st : fss_st) (l : elog) : Prop := {
  fi_n : length pop = fs_n p; fi_fit : fit = fi_fits pop; fi_ok : Forall (fun a => IOk C l (fi_i a)) pop;
  fi_le : Forall (fun a => fleb fxb (snd (fi_i a)) = true) pop;
  fi_xb : length xb = c_dim C; fi_good : Good l xb fxb; fi_st1 : length (st_ind st) = c_dim C; fi_st2 : length (st_vol st) = c_dim C
}.
Definition foks (l : elog) (s : list fish) : Prop := Forall (fun a => IOk C l (fi_i a)) s.
Lemma foks_ext : forall l l' s, ext l l' -> foks l s -> foks l' s.
Proof. intros l l' s He H. eapply Forall_impl; [|exact H]. intros a Ha. eapply IOk_ext; eauto. Qed.
Lemma fle_trans : forall a b s, fleb a b = true -> Forall (fun x => fleb b (snd (fi_i x)) = true) s -> Forall (fun x => fleb a (snd (fi_i x)) = true) s.
Proof. intros a b s H. apply Forall_impl. intros x Hx. exact (fleb_trans _ _ _ H Hx). Qed.
(** after the individual moves of the first i fish *)
Definition fi1 (i : nat) (s : list fish * (vec * num)) (l : elog) : Prop :=
  length (fst s) = fs_n p /\ foks l (fst s) /\ Forall (fun a => fleb (snd (snd s)) (snd (fi_i a)) = true) (fst s) /\
  length (fst (snd s)) = c_dim C /\ Good l (fst (snd s)) (snd (snd s)) /\ (forall j a, j < i -> nth_error (fst s) j = Some a -> length (fi_dpos a) = c_dim C).
Lemma w_fss_individual : forall step i s l, length step = c_dim C -> i < fs_n p -> fi1 i s l -> wp (KBX C X) (fss_individual F C step s i) (fi1 (i + 1)) l.
Proof.
  intros step i [s [xb fxb]] l Ls Hi (F1 & F2 & F3 & F4 & F5 & F6). cbn [fst snd] in *. unfold fss_individual. cbv zeta. cbn [fst snd].
  apply wp_bind. apply w_nthP; [lia|]. intros a Ea. assert (Oa : IOk C l (fi_i a)) by exact (Forall_nth _ _ _ _ _ F2 Ea). assert (La := inside_len _ _ HC (proj1 Oa)).
  assert (Fa : fleb fxb (snd (fi_i a)) = true) by exact (Forall_nth _ _ _ _ _ F3 Ea).
  apply wp_bind. apply AlgEvoProofs.w_uniform_vec_len with (n := c_dim C); try apply repeat_length. intros u [Lu _]. apply wp_bind. apply w_repair; [dl|]. intros y Hy. apply wp_bind. apply w_eval; auto.
  intros f l' He. assert (Hx := Evald_ext _ _ _ _ He). assert (Nf := Evald_nan _ _ _ _ He). assert (Ly := inside_len _ _ HC Hy).
  destruct (fltb f (snd (fi_i a))) eqn:Q1.
  - apply wp_bind. unfold get_best1. destruct (fleb f fxb) eqn:Q2.
    + cbn [lift]. apply w_done. apply wp_bind. apply w_setP; [lia|]. apply w_done. unfold fi1. cbn [fst snd fi_dpos]. rewrite upd_length. split; auto. split.
      { apply Forall_upd; [eapply foks_ext; eauto|]. cbn [fi_i]. split; auto. eapply Evald_seen; eauto. }
      split. { apply Forall_upd; [exact (fle_trans _ _ _ Q2 F3)|]. cbn [fi_i snd]. apply fleb_refl; auto. }
      split; auto. split; [eapply Good_take; eauto|]. intros j b Hj E. destruct (Nat.eq_dec j i) as [->|Hne].
      { rewrite nth_upd_same in E by lia. injection E as <-. cbn [fi_dpos]. dl. }
      rewrite nth_upd_other in E by auto. apply (F6 j); auto. lia.
    + cbn [lift]. apply w_done. apply wp_bind. apply w_setP; [lia|]. apply w_done. unfold fi1. cbn [fst snd fi_dpos]. rewrite upd_length. split; auto.
      assert (Q3 : fleb fxb f = true) by (apply fltb_fleb; apply fleb_false_fltb; auto; apply F5).
      split. { apply Forall_upd; [eapply foks_ext; eauto|]. cbn [fi_i]. split; auto. eapply Evald_seen; eauto. }
      split. { apply Forall_upd; auto. }
      split; auto. split; [eapply Good_keep_le; eauto|]. intros j b Hj E. destruct (Nat.eq_dec j i) as [->|Hne].
      { rewrite nth_upd_same in E by lia. injection E as <-. cbn [fi_dpos]. dl. }
      rewrite nth_upd_other in E by auto. apply (F6 j); auto. lia.
  - apply wp_bind. apply w_setP; [lia|]. apply w_done. unfold fi1. cbn [fst snd]. rewrite upd_length. split; auto.
    assert (Na : snd (fi_i a) <> NaN) by (eapply fleb_nan_r; eauto).
    assert (Q3 : fleb fxb f = true) by (eapply fleb_trans; [exact Fa|]; apply fltb_false_fleb; auto).
    split. { apply Forall_upd; [eapply foks_ext; eauto|]. cbn [fi_i]. eapply IOk_ext; eauto. }
    split. { apply Forall_upd; auto. }
    split; auto. split; [eapply Good_keep; [exact F5|exact He|apply fleb_fltb_false; exact Q3]|]. intros j b Hj E. destruct (Nat.eq_dec j i) as [->|Hne].
    { rewrite nth_upd_same in E by lia. injection E as <-. cbn [fi_dpos]. apply repeat_length. }
    rewrite nth_upd_other in E by auto. apply (F6 j); auto. lia.
Qed.
Lemma fss_feed_ok : forall (Q : list fish -> elog -> Prop) s l, s <> [] ->
  (forall s', map fi_i s' = map fi_i s -> map fi_dpos s' = map fi_dpos s -> Q s' l) -> wp (KBX C X) (fss_feed F p s) Q l.
Proof.
  intros Q s l Hs HQ. unfold fss_feed. destruct (py_max (map fi_dcost s)) as [m|] eqn:E; [|destruct s; [congruence|discriminate]].
  apply w_done. apply HQ; rewrite map_map; reflexivity.
Qed.
Lemma vsums_len : forall d l, dims d l -> length (vsums F d l) = d.
Proof.
  intros d l. unfold vsums. assert (G : forall acc, length acc = d -> dims d l -> length (fold_left (vadd F) l acc) = d); [|apply G; apply repeat_length].
  induction l as [|v l IH]; intros acc La Hd; simpl; auto. inversion Hd; subst. apply IH; auto. unfold vadd. apply map2_length; auto.
Qed.
(** the fish still to be moved lie inside the domain, those already moved have the value of their position *)
Definition fi3 (i : nat) (s : list fish * (vec * num)) (l : elog) : Prop :=
  length (fst s) = fs_n p /\ Forall (fun a => inside C (fst (fi_i a))) (fst s) /\ length (fst (snd s)) = c_dim C /\ Good l (fst (snd s)) (snd (snd s)) /\
  (forall j a, j < i -> nth_error (fst s) j = Some a -> IOk C l (fi_i a) /\ fleb (snd (snd s)) (snd (fi_i a)) = true).
Lemma w_fss_volitive : forall step center h i s l, length step = c_dim C -> length center = c_dim C -> i < fs_n p -> fi3 i s l ->
  wp (KBX C X) (fss_volitive F C step center h s i) (fi3 (i + 1)) l.
Proof.
  intros step center h i [s [xb fxb]] l Ls Lc Hi (F1 & F2 & F4 & F5 & F6). cbn [fst snd] in *. unfold fss_volitive. cbv zeta. cbn [fst snd].
  apply wp_bind. apply w_nthP; [lia|]. intros a Ea. assert (Oa : inside C (fst (fi_i a))) by exact (Forall_nth _ _ _ _ _ F2 Ea). assert (La := inside_len _ _ HC Oa).
  apply wp_bind. apply AlgEvoProofs.w_uniform_vec_len with (n := c_dim C); try apply repeat_length. intros u [Lu _]. apply wp_bind. apply w_ind_evaluate; [destruct h; dl|].
  intros y f l' Hy He. assert (Hx := Evald_ext _ _ _ _ He). assert (Nf := Evald_nan _ _ _ _ He). assert (Ly := inside_len _ _ HC Hy).
  apply wp_bind. apply w_setP; [lia|]. apply wp_bind. cbn [fst snd]. unfold get_best1.
  assert (G : forall x v, length x = c_dim C -> Good l' x v -> fleb v fxb = true -> fleb v f = true ->
    fi3 (i + 1) (upd s i (Fish (y, f) (fi_w a) (fi_dpos a) (fi_dcost a)), (x, v)) l').
  { intros x v Lx G1 G2 G3. unfold fi3. cbn [fst snd]. rewrite upd_length. split; auto. split; [apply Forall_upd; auto|]. split; auto. split; auto.
    intros j b Hj E. destruct (Nat.eq_dec j i) as [->|Hne].
    - rewrite nth_upd_same in E by lia. injection E as <-. cbn [fi_i]. split; auto. split; auto. eapply Evald_seen; eauto.
    - rewrite nth_upd_other in E by auto. destruct (F6 j b) as [G4 G5]; auto; [lia|]. split; [eapply IOk_ext; eauto|exact (fleb_trans _ _ _ G2 G5)]. }
  destruct (fleb f fxb) eqn:Q2; cbn [lift]; apply w_done; apply w_done; apply G; auto.
  - eapply Good_take; eauto.
  - apply fleb_refl; auto.
  - eapply Good_keep_le; eauto.
  - apply fleb_refl. apply F5.
  - apply fltb_fleb. apply fleb_false_fltb; auto. apply F5.
Qed.
Lemma fss_iter_c : iter_c (KBX C X) (fss F C p) FssInv.
Proof.
  intros pop fit xb fxb st l [H1 H2 H3 H4 H5 H6 H7 H8]. cbn [fss a_iter]. unfold fss_iter. cbv zeta. rewrite H1. apply wp_bind.
  apply wp_conseq0 with (Q := fun s l' => fi1 (fs_n p) s l').
  { apply wp_for_range with (I := fi1); [unfold fi1; cbn [fst snd]; repeat (split; [assumption|]); intros j a Hj; lia|]. intros i s l' Hi Hs. apply w_fss_individual; auto. }
  intros [s1 [x1 f1]] l1 (A1 & A2 & A3 & A4 & A5 & A6). cbn [fst snd] in *. apply wp_bind. apply fss_feed_ok; [intros ->; simpl in A1; lia|]. intros s2 E1 E2.
  assert (L2 : length s2 = fs_n p) by (rewrite <- (map_length fi_i), E1, map_length; auto).
  assert (D2 : dims (c_dim C) (map fi_dpos s2)).
  { rewrite E2. apply Forall_map. apply Forall_forall. intros a Ha. apply In_nth_error in Ha. destruct Ha as (j & Ej). apply (A6 j); auto. rewrite <- A1. apply nth_error_Some. congruence. }
  assert (I2 : Forall (fun a => inside C (fst (fi_i a))) s2).
  { apply Forall_forall. intros a Ha. apply (in_map fi_i) in Ha. rewrite E1 in Ha. apply in_map_iff in Ha. destruct Ha as (b & <- & Hb). unfold foks in A2. rewrite Forall_forall in A2. apply A2. auto. }
  assert (Le : length (fss_drift F (c_dim C) s2) = c_dim C).
  { unfold fss_drift. cbv zeta. set (e := vsums F (c_dim C) _). assert (length e = c_dim C).
    { apply vsums_len. apply Forall_map. apply Forall_forall. intros a Ha. unfold dims in D2. rewrite Forall_forall in D2. assert (length (fi_dpos a) = c_dim C) by (apply D2; apply in_map; auto). dl. }
    destruct (feqb _ _); [auto|rewrite map_length; auto]. }
  apply wp_bind. unfold fss_instinctive. cbv zeta. apply wp_conseq0 with (Q := fun s3 l' => (l' = l1 /\ Forall (fun a => inside C (fst (fi_i a))) s3) /\ length s3 = length s2).
  { apply (wp_mapM_acc _ _ _ _ (fun s3 l' => l' = l1 /\ Forall (fun a => inside C (fst (fi_i a))) s3)); [auto|]. intros pre a post bs l' E _ [-> Hb].
    assert (Ha : In a s2) by (rewrite E; apply in_or_app; simpl; auto). rewrite Forall_forall in I2. assert (La := inside_len _ _ HC (I2 _ Ha)).
    apply wp_bind. apply w_repair; [dl|]. intros y Hy. apply w_done. split; auto. apply Forall_app. split; auto. }
  intros s3 l2 [[-> I3] L3]. apply wp_bind. assert (Lc : length (fss_center F (c_dim C) s3) = c_dim C).
  { unfold fss_center. rewrite map_length. apply vsums_len. apply Forall_map. eapply Forall_impl; [|exact I3]. intros a Ha. cbv beta in *. assert (La := inside_len _ _ HC Ha). dl. }
  set (h := fltb (st_weight st) (fss_weight F s3)). clearbody h. rewrite L3, L2. apply wp_conseq0 with (Q := fun s l' => fi3 (fs_n p) s l').
  { apply wp_for_range with (I := fi3). - unfold fi3; cbn [fst snd]. split; [congruence|]. repeat (split; [assumption|]). intros j a Hj; lia.
    - intros i s l' Hi Hs. apply w_fss_volitive; auto. }
  intros [s4 [x4 f4]] l4 (B1 & B2 & B3 & B4 & B5). cbn [fst snd] in *. apply wp_bind. apply w_view. intros v. apply w_done. cbn [fst snd].
  assert (B6 : Forall (fun a => IOk C l4 (fi_i a) /\ fleb f4 (snd (fi_i a)) = true) s4).
  { apply Forall_forall. intros a Ha. apply In_nth_error in Ha. destruct Ha as (j & Ej). apply (B5 j); auto. rewrite <- B1. apply nth_error_Some. congruence. }
  constructor; auto; try (eapply Forall_impl; [|exact B6]; intros a [Ha Hb]; auto); unfold fss_steps; cbn [st_ind st_vol]; apply repeat_length.
Qed.
Lemma fss_init_c : init_c (KBX C X) (fss F C p) FssInv.
Proof.
  unfold init_c. cbn [fss a_init a_coords]. unfold fss_init. apply wp_bind. apply w_default_individual_init; auto. intros pop l Lp Ho Hcov. apply w_done.
  set (w := fdiv F (fs_wscale p) (flit F 2 1)). assert (Ex : fi_xs (map (fun a => Fish a w [] NaN) pop) = map fst pop) by (unfold fi_xs; rewrite map_map; reflexivity).
  assert (Ef : fi_fits (map (fun a => Fish a w [] NaN) pop) = map snd pop) by (unfold fi_fits; rewrite map_map; reflexivity).
  rewrite Ex. apply (w_get_best0_i _ C); auto; [nonil|]. intros x f G Hx. constructor; auto.
  - rewrite map_length; auto.
  - apply Forall_map. exact Ho.
  - apply Forall_map. eapply Forall_impl; [|exact Ho]. intros a Ha. cbn [fi_i]. eapply good_le; eauto. apply Ha.
  - apply inside_len; auto.
  - cbn [st_ind]. destruct HC as (? & ? & ?). dl.
  - cbn [st_vol]. destruct HC as (? & ? & ?). dl.
Qed.
End FSS.
