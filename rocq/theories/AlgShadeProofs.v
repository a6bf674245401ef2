(** Proofs about AlgShade.v. *)
From Coq Require Import ZArith Lia Bool List Permutation.
From Verif Require Import Num Task TaskSpec TaskProofs TaskProofs2 Prog Wp GetBest Run RunSpec RunProofs RunProofs2
  AlgoLib Fops AlgTac StepSpec StepLib Indiv IndivLib AlgDE DESpec AlgDEProofs AlgPSO AlgPSOProofs SortLib AlgBasic AlgBasic2 AlgBasic2Proofs AlgFwaProofs
  Repair PropertiesRepair AlgMod AlgModProofs Guard AlgShade.
Import ListNotations.

(** ** Partial operations *)
Lemma w_nthP_x : forall A K (xs : list A) i (Q : A -> elog -> Prop) l, (i < length xs \/ K_exn K EIndex) -> (forall a, nth_error xs i = Some a -> Q a l) -> wp K (nthP xs i) Q l.
Proof.
  intros A K xs i Q l H HQ. unfold nthP. destruct (nth_error xs i) eqn:E; [apply w_done; auto|]. destruct H as [H|H]; [|exact H]. apply nth_error_None in E. lia.
Qed.
Lemma w_setP_x : forall A K (xs : list A) i a (Q : list A -> elog -> Prop) l, (i < length xs \/ K_exn K EIndex) -> (i < length xs -> Q (upd xs i a) l) -> wp K (setP xs i a) Q l.
Proof.
  intros A K xs i a Q l H HQ. unfold setP. destruct (Nat.ltb_spec i (length xs)) as [L|L]; [apply w_done; auto|]. destruct H as [H|H]; [lia|exact H].
Qed.
Lemma w_integers_x : forall K n (Q : nat -> elog -> Prop) l, (0 < n \/ K_exn K EValue) -> (forall r, r < n -> Q r l) -> wp K (integers n) Q l.
Proof. intros K n Q l H HQ. destruct n; [destruct H as [H|H]; [lia|exact H]|]. apply w_integers; [lia|auto]. Qed.
Lemma w_lift_x : forall A K (o : outcome A) (Q : A -> elog -> Prop) l, (forall e, o = Raise e -> K_exn K e) -> (forall a, o = Ret a -> Q a l) -> wp K (lift o) Q l.
Proof. intros A K [a|e] Q l H HQ; cbn [lift]; [apply w_done; auto|apply H; auto]. Qed.

(** ** The numbers drawn for a new individual *)
Definition cauchy_at (F : fops) (pi loc r : num) : num := fadd F loc (fmul F (flit F 1 10) (ftan F (fmul F pi (fsub F r (flit F 1 2))))).
Lemma w_cauchy : forall K F pi depth loc (Q : num -> elog -> Prop) l, K_exn K ERecursion ->
  (forall r, in_unit r -> fltb f0 (cauchy_at F pi loc r) = true -> Q (cauchy_at F pi loc r) l) -> wp K (cauchy F pi depth loc (flit F 1 10)) Q l.
Proof.
  intros K F pi depth loc Q l KR HQ. induction depth as [|n IH]; cbn [cauchy]; [exact KR|]. apply wp_bind. apply w_random_u. intros r Hr. cbv zeta.
  fold (cauchy_at F pi loc r). destruct (fltb f0 _) eqn:E; [apply w_done; auto|exact IH].
Qed.
(** entry mi of the memory, as the algorithm sees it *)
Definition remembered (F : fops) (p : sh_par) (st : sh_st) (mi : nat) (a b : num) : Prop :=
  match sh_kd p with
  | ILSHADE => (S mi = sh_h p /\ a = flit F 9 10 /\ b = flit F 9 10) \/ (S mi <> sh_h p /\ nth_error (st_cr st) mi = Some a /\ nth_error (st_f st) mi = Some b)
  | _ => nth_error (st_cr st) mi = Some a /\ nth_error (st_f st) mi = Some b
  end.
(** the terminal value of the crossover probability *)
Definition terminal (p : sh_par) (a : num) : bool := match sh_kd p with ILSHADE => negb (fleb f0 a) | _ => feqb a (fneg f1) end.
Definition sh_drawn (F : fops) (pi : num) (C : cfg) (p : sh_par) (st : sh_st) (nfe : nat) (w : num * num) : Prop :=
  exists mi a b g r, mi < sh_h p /\ remembered F p st mi a b /\ in_unit r /\
    let c := cauchy_at F pi b r in
    let cr := clip01 (if terminal p a then f0 else fadd F a (fmul F (flit F 1 10) g)) in
    fltb f0 c = true /\ w = match sh_kd p with ILSHADE => (il_f F C nfe (clip01 c), il_cr F C nfe cr) | _ => (clip01 c, cr) end.
Lemma w_gen_params : forall K F pi C p nfe st (Q : num * num -> elog -> Prop) l, K_exn K ERecursion -> (0 < sh_h p \/ K_exn K EValue) ->
  length (st_cr st) = sh_h p -> length (st_f st) = sh_h p -> (forall w, sh_drawn F pi C p st nfe w -> Q w l) -> wp K (gen_params F pi C p nfe st) Q l.
Proof.
  intros K F pi C p nfe st Q l KR Hh L1 L2 HQ. assert (Hn : forall loc scale (R : num -> elog -> Prop), (forall g, R (fadd F loc (fmul F scale g)) l) -> wp K (normal1 F loc scale) R l).
  { intros loc scale R HR. unfold normal1. apply wp_bind. apply w_rnd_f. intros g. apply w_done. auto. }
  assert (HS : sh_kd p <> ILSHADE -> wp K (sh_params F pi p st) Q l).
  { intros Hk. unfold sh_params. apply wp_bind. apply w_integers_x; auto. intros mi Hmi. apply wp_bind. apply w_nthP; [lia|]. intros a Ea. apply wp_bind. apply w_nthP; [lia|]. intros b Eb.
    assert (G : forall g cr, cr = (if terminal p a then f0 else fadd F a (fmul F (flit F 1 10) g)) -> wp K (let* f := cauchy F pi (sh_depth p) b (flit F 1 10) in Done (clip01 f, clip01 cr)) Q l).
    { intros g cr ->. apply wp_bind. apply w_cauchy; auto. intros r Hr Hc. apply w_done. apply HQ. exists mi, a, b, g, r. unfold remembered. destruct (sh_kd p); try congruence; auto 8. }
    apply wp_bind. assert (T : terminal p a = feqb a (fneg f1)) by (unfold terminal; destruct (sh_kd p); congruence). rewrite T in G.
    destruct (feqb a (fneg f1)); [apply w_done; apply (G f0); reflexivity|]. apply Hn. intros g. apply (G g). reflexivity. }
  unfold gen_params. destruct (sh_kd p) eqn:Ek; try (apply HS; congruence). clear HS. unfold il_params. apply wp_bind. apply w_integers_x; auto. intros mi Hmi. apply wp_bind.
  apply wp_conseq0 with (Q := fun m l' => l' = l /\ remembered F p st mi (fst m) (snd m)).
  { unfold remembered. rewrite Ek. destruct (Nat.eqb_spec mi (sh_h p - 1)) as [E|E].
    - apply w_done. split; auto. left. split; [lia|auto].
    - apply wp_bind. apply w_nthP; [lia|]. intros a Ea. apply wp_bind. apply w_nthP; [lia|]. intros b Eb. apply w_done. split; auto. right. split; [lia|auto]. }
  intros [a b] l' [-> Hm]. cbn [fst snd] in *.
  assert (G : forall g cr, cr = (if terminal p a then f0 else fadd F a (fmul F (flit F 1 10) g)) ->
    wp K (let* f := cauchy F pi (sh_depth p) b (flit F 1 10) in Done (il_f F C nfe (clip01 f), il_cr F C nfe (clip01 cr))) Q l).
  { intros g cr ->. apply wp_bind. apply w_cauchy; auto. intros r Hr Hc. apply w_done. apply HQ. exists mi, a, b, g, r. rewrite Ek. auto 8. }
  apply wp_bind. assert (T : terminal p a = negb (fleb f0 a)) by (unfold terminal; rewrite Ek; reflexivity). rewrite T in G.
  destruct (fleb f0 a); cbn [negb] in G; [|apply w_done; apply (G f0); reflexivity]. apply Hn. intros g. apply (G g). reflexivity.
Qed.

(** ** Trial points *)
Lemma w_pick : forall K ks (Q : nat -> elog -> Prop) l, (ks <> [] \/ K_exn K EValue) -> (forall i, In i ks -> Q i l) -> wp K (pick ks) Q l.
Proof.
  intros K ks Q l H HQ. unfold pick. apply wp_bind. apply w_integers_x; [destruct H as [H|H]; [left; destruct ks; [congruence|simpl; lia]|auto]|].
  intros i Hi. apply w_nthP; auto. intros a Ha. apply HQ. eapply nth_error_In; eauto.
Qed.
Lemma others2_spec : forall n a b k, In k (others2 n a b) <-> k < n /\ k <> a /\ k <> b.
Proof. intros n a b k. unfold others2. rewrite filter_In, in_seq, andb_true_iff, !negb_true_iff, !Nat.eqb_neq. lia. Qed.
Lemma others2_some : forall n a b, 3 <= n -> others2 n a b <> [].
Proof.
  intros n a b Hn E. assert (H : exists k, k < 3 /\ k <> a /\ k <> b).
  { destruct a as [|[|a]], b as [|[|b]]; solve [exists 0; lia|exists 1; lia|exists 2; lia]. }
  destruct H as (k & H1 & H2). assert (G : In k (others2 n a b)) by (apply others2_spec; lia). rewrite E in G. destruct G.
Qed.
(** component i of row k *)
Definition at2 (rows : list vec) (k i : nat) (a : num) : Prop := exists row, nth_error rows k = Some row /\ nth_error row i = Some a.
(** a component outside the bounds goes halfway between the parent and the bound *)
Definition mid_rule (F : fops) (v c l u y : num) : Prop :=
  exists m, (fltb v l = true /\ m = fdiv F (fadd F l c) (flit F 2 1) \/ fltb v l = false /\ m = v) /\
            (fltb u m = true /\ y = fdiv F (fadd F u c) (flit F 2 1) \/ fltb u m = false /\ y = m).
Lemma medium_rule : forall F v c l u, mid_rule F v c l u (medium F v c l u).
Proof.
  intros. unfold mid_rule, medium. destruct (fltb v l) eqn:E1; cbv zeta.
  - exists (fdiv F (fadd F l c) (flit F 2 1)). split; [left; auto|]. destruct (fltb u _) eqn:E2; [left|right]; auto.
  - exists v. split; [right; auto|]. destruct (fltb u v) eqn:E2; [left|right]; auto.
Qed.
(** component i of a trial: [pool] is the population followed by the archive *)
Definition trial_comp (F : fops) (xs pool : list vec) (ic xp r1 r2 j : nat) (f cr : num) (i : nat) (v : num) : Prop :=
  (exists c b a1 a2, at2 xs ic i c /\ at2 xs xp i b /\ at2 xs r1 i a1 /\ at2 pool r2 i a2 /\
     (i = j \/ exists u, in_unit u /\ fltb u cr = true) /\ v = fadd F (fadd F c (fmul F f (fsub F b c))) (fmul F f (fsub F a1 a2))) \/
  (i <> j /\ (exists u, in_unit u /\ fltb u cr = false) /\ at2 xs ic i v).
Definition pbest_trial (F : fops) (C : cfg) (xs pool : list vec) (ic : nat) (f cr : num) (p_num : Z) (y : vec) : Prop :=
  exists xp r1 r2 j, (Z.of_nat xp < p_num)%Z /\ r1 < length xs /\ r1 <> ic /\ r2 < length pool /\ r2 <> ic /\ r2 <> r1 /\ j < c_dim C /\ length y = c_dim C /\
    forall i, i < c_dim C -> exists v c lo up, trial_comp F xs pool ic xp r1 r2 j f cr i v /\ at2 xs ic i c /\
      nth_error (c_lower C) i = Some lo /\ nth_error (c_upper C) i = Some up /\ exists a, nth_error y i = Some a /\ mid_rule F v c lo up a.
Lemma nth_error_seq0 : forall d i, i < d -> nth_error (seq 0 d) i = Some i.
Proof. intros d i H. rewrite (nth_error_nth' _ 0) by (rewrite seq_length; auto). rewrite seq_nth; auto. Qed.
Lemma some_nth : forall A (xs : list A) i, i < length xs -> exists a, nth_error xs i = Some a.
Proof. intros A xs i H. destruct (nth_error xs i) eqn:E; eauto. apply nth_error_None in E. lia. Qed.
Lemma nth_map2_e : forall A B D (f : A -> B -> D) xs ys i a b, nth_error xs i = Some a -> nth_error ys i = Some b -> nth_error (map2 f xs ys) i = Some (f a b).
Proof.
  intros A B D f xs. induction xs as [|x xs IH]; intros [|y ys] [|i] a b H1 H2; cbn [map2 nth_error] in *; try discriminate.
  - injection H1 as <-. injection H2 as <-. reflexivity.
  - auto.
Qed.
Lemma nth_combine_e : forall A B (xs : list A) (ys : list B) i a b, nth_error xs i = Some a -> nth_error ys i = Some b -> nth_error (combine xs ys) i = Some (a, b).
Proof.
  intros A B xs. induction xs as [|x xs IH]; intros [|y ys] [|i] a b H1 H2; cbn [combine nth_error] in *; try discriminate.
  - injection H1 as <-. injection H2 as <-. reflexivity.
  - auto.
Qed.
Lemma w_cross_pbest : forall K F C xs ic f cr p_num arc cnt (Q : vec -> elog -> Prop) l, cfg_ok C -> dims (c_dim C) xs -> dims (c_dim C) arc -> ic < length xs -> cnt <= length arc ->
  (0 < p_num)%Z -> ((p_num <= Z.of_nat (length xs))%Z \/ K_exn K EIndex) -> (3 <= length xs \/ K_exn K EValue) -> (0 < c_dim C \/ K_exn K EValue) ->
  (forall y, pbest_trial F C xs (xs ++ firstn cnt arc) ic f cr p_num y -> Q y l) -> wp K (cross_pbest F C xs ic f cr p_num arc cnt) Q l.
Proof.
  intros K F C xs ic f cr p_num arc cnt Q l HC Hx Ha Hic Hcnt Hp Hp2 H3 Hd HQ. unfold cross_pbest.
  apply wp_bind. apply w_integers_x; [left; lia|]. intros xp Hxp. destruct (others_spec (length xs) ic Hic) as (_ & Lo & So).
  apply wp_bind. apply w_pick; [destruct H3 as [H3|H3]; [left; intros E; rewrite E in Lo; simpl in Lo; lia|auto]|]. intros r1 Hr1. apply So in Hr1.
  apply wp_bind. apply w_pick; [destruct H3 as [H3|H3]; [left; apply others2_some; lia|auto]|]. intros r2 Hr2. apply others2_spec in Hr2.
  apply wp_bind. apply w_integers_x; auto. intros j Hj. apply wp_bind. apply w_nthP; auto. intros parent Ep.
  assert (Lp : length parent = c_dim C) by exact (Forall_nth _ _ _ _ _ Hx Ep).
  set (pool := xs ++ firstn cnt arc) in *. assert (Lpool : length pool = length xs + cnt) by (unfold pool; rewrite app_length, firstn_length; lia).
  apply wp_bind. apply (w_mapM_P K _ _ (fun i => i < c_dim C) (trial_comp F xs pool ic xp r1 r2 j f cr)).
  { apply Forall_forall. intros i Hi. apply in_seq in Hi. lia. }
  { intros i T Hi HT. apply wp_bind. apply w_random_u. intros u Hu. destruct (fltb u cr || (i =? j)) eqn:E.
    - apply wp_bind. apply w_nthP; [lia|]. intros c Ec. apply wp_bind. apply w_nthP_x; [destruct Hp2; [left; lia|auto]|]. intros best Eb.
      assert (Lb : length best = c_dim C) by exact (Forall_nth _ _ _ _ _ Hx Eb). apply wp_bind. apply w_nthP; [lia|]. intros b Ebi.
      apply wp_bind. apply w_nthP; [lia|]. intros row1 E1. assert (L1 : length row1 = c_dim C) by exact (Forall_nth _ _ _ _ _ Hx E1). apply wp_bind. apply w_nthP; [lia|]. intros a1 Ea1.
      apply wp_bind. apply wp_conseq0 with (Q := fun row2 l' => l' = l /\ nth_error pool r2 = Some row2 /\ length row2 = c_dim C).
      { destruct (Nat.leb_spec (length xs) r2) as [L|L].
        - apply w_nthP; [lia|]. intros row2 E2. split; auto. split; [|exact (Forall_nth _ _ _ _ _ Ha E2)]. unfold pool. rewrite nth_error_app2 by lia. rewrite <- E2.
          rewrite <- (firstn_skipn cnt arc) at 2. rewrite nth_error_app1; auto. rewrite firstn_length. lia.
        - apply w_nthP; [lia|]. intros row2 E2. split; auto. split; [|exact (Forall_nth _ _ _ _ _ Hx E2)]. unfold pool. rewrite nth_error_app1 by lia. auto. }
      intros row2 l' (-> & E2 & L2). apply wp_bind. apply w_nthP; [lia|]. intros a2 Ea2. apply w_done. apply HT. left. exists c, b, a1, a2. unfold at2.
      repeat (split; [solve [eauto]|]). split; auto. apply orb_true_iff in E. destruct E as [E|E]; [right; eauto|left; apply Nat.eqb_eq; auto].
    - apply orb_false_iff in E. destruct E as [E E']. apply Nat.eqb_neq in E'. apply w_nthP; [lia|]. intros c Ec. apply HT. right. split; auto. split; [eauto|]. exists parent. auto. }
  intros v Hv. apply w_done. apply HQ. assert (Lv : length v = c_dim C) by (apply Forall2_len in Hv; rewrite seq_length in Hv; auto).
  destruct HC as (Hlo & Hup & _).
  exists xp, r1, r2, j. split; [lia|]. split; [lia|]. split; [tauto|]. split; [lia|]. split; [tauto|]. split; [tauto|]. split; auto. split.
  { unfold parent_medium. apply map2_length; rewrite combine_length; lia. }
  intros i Hi. destruct (some_nth _ v i) as [a Ea]; [lia|]. destruct (some_nth _ parent i) as [c Ec]; [lia|]. destruct (some_nth _ (c_lower C) i) as [lo El]; [lia|]. destruct (some_nth _ (c_upper C) i) as [up Eu]; [lia|].
  exists a, c, lo, up. split; [exact (Forall2_nth _ _ _ _ _ _ _ _ Hv (nth_error_seq0 _ _ Hi) Ea)|]. split; [exists parent; auto|]. split; auto. split; auto.
  exists (medium F a c lo up). split; [|apply medium_rule]. unfold parent_medium. rewrite (nth_map2_e _ _ _ _ _ _ _ (a, c) (lo, up)); auto using nth_combine_e.
Qed.

(** ** One generation of trials *)
Definition sh_k (F : fops) (p : sh_par) (n : nat) (st : sh_st) : outcome Z := py_round (fmul F (fnat F n) (match sh_kd p with ILSHADE => st_pb st | _ => sh_pb p end)).
Definition sh_trials (F : fops) (pi : num) (C : cfg) (p : sh_par) (pop : list jind) (st : sh_st) (nfe : nat) (xs : list vec) (ws : list (num * num)) : Prop :=
  length xs = length pop /\ length ws = length pop /\ Forall (sh_drawn F pi C p st nfe) ws /\
  exists k, sh_k F p (length pop) st = Ret k /\
  forall i x w, nth_error xs i = Some x -> nth_error ws i = Some w ->
    pbest_trial F C (j_xs pop) (j_xs pop ++ firstn (st_cnt st) (st_arc st)) i (fst w) (snd w) (Z.max 2 k) x.
Lemma w_sh_evolve : forall K F pi C p pop st nfe (Q : list jind -> elog -> Prop) l, cfg_ok C -> dims (c_dim C) (j_xs pop) -> dims (c_dim C) (st_arc st) -> 0 < length pop -> st_cnt st <= length (st_arc st) ->
  length (st_cr st) = sh_h p -> length (st_f st) = sh_h p -> K_exn K ERecursion -> (0 < sh_h p \/ K_exn K EValue) ->
  (forall e, sh_k F p (length pop) st = Raise e -> K_exn K e) -> (forall k, sh_k F p (length pop) st = Ret k -> (Z.max 2 k <= Z.of_nat (length pop))%Z \/ K_exn K EIndex) ->
  (3 <= length pop \/ K_exn K EValue) -> (0 < c_dim C \/ K_exn K EValue) ->
  (forall xs ws, sh_trials F pi C p pop st nfe xs ws -> wp K (mapM (fun xw => let* a := ind_evaluate (fst xw) in Done (a, snd xw)) (combine xs ws)) Q l) ->
  wp K (sh_evolve_at F pi C p pop st nfe) Q l.
Proof.
  intros K F pi C p pop st nfe Q l HC Hx Ha H0 Hc L1 L2 KR Hh Hk1 Hk2 H3 Hd HQ. unfold sh_evolve_at.
  assert (Lx : length (j_xs pop) = length pop) by (unfold j_xs; rewrite !map_length; auto).
  apply wp_bind. apply (w_mapM_P K _ _ (fun _ => True) (fun _ w => sh_drawn F pi C p st nfe w)); [apply Forall_forall; auto|intros; apply w_gen_params; auto|]. intros ws Hws.
  assert (Lw : length ws = length pop) by (symmetry; eapply Forall2_len; eauto).
  apply wp_bind. fold (sh_k F p (length pop) st). apply w_lift_x; auto. intros k Ek. cbv zeta. apply wp_bind.
  apply (w_mapM_P K _ _ (fun iw => fst iw < length pop) (fun iw x => pbest_trial F C (j_xs pop) (j_xs pop ++ firstn (st_cnt st) (st_arc st)) (fst iw) (fst (snd iw)) (snd (snd iw)) (Z.max 2 k) x)).
  { apply Forall_forall. intros [i w] Hi. apply in_combine_l in Hi. apply in_seq in Hi. cbn [fst]. lia. }
  { intros [i w] T Hi HT. cbn [fst snd] in *. apply w_cross_pbest; auto; rewrite ?Lx; auto; try lia. }
  intros xs Hxs. apply HQ. assert (Ls : length xs = length pop) by (apply Forall2_len in Hxs; rewrite combine_length, seq_length in Hxs; lia).
  split; auto. split; auto. split.
  { clear - Hws. induction Hws; constructor; auto. }
  exists k. split; auto. intros i x w E1 E2. assert (Hi : i < length pop) by (rewrite <- Ls; apply nth_error_Some; congruence).
  exact (Forall2_nth _ _ _ _ _ _ _ _ Hxs (nth_combine_e _ _ _ _ _ _ _ (nth_error_seq0 _ _ Hi) E2) E1).
Qed.

(** ** Selection *)
Definition archived (asz : Z) (x : vec) (arc : list vec) (cnt : nat) (arc' : list vec) (cnt' : nat) : Prop :=
  ((asz <= 1)%Z /\ arc' = arc /\ cnt' = cnt) \/
  ((1 < asz)%Z /\ (Z.of_nat cnt < asz)%Z /\ row_set arc arc' cnt x /\ cnt' = S cnt) \/
  ((1 < asz)%Z /\ (asz <= Z.of_nat cnt)%Z /\ (exists r, (Z.of_nat r < asz)%Z /\ row_set arc arc' r x) /\ cnt' = cnt).
Inductive sh_selected (F : fops) (asz : Z) : list jind -> list jind -> list vec -> nat -> list jind -> list vec -> nat -> list (num * (num * num)) -> Prop :=
| ss_nil : forall arc cnt, sh_selected F asz [] [] arc cnt [] arc cnt []
| ss_same : forall xo fo wo x f w pop new arc cnt arr arc' cnt' ss, feqb f fo = true -> sh_selected F asz pop new arc cnt arr arc' cnt' ss ->
    sh_selected F asz ((xo, fo, wo) :: pop) ((x, f, w) :: new) arc cnt ((x, f, w) :: arr) arc' cnt' ss
| ss_better : forall xo fo wo x f w pop new arc cnt arc1 cnt1 arr arc' cnt' ss, fltb f fo = true -> archived asz xo arc cnt arc1 cnt1 ->
    sh_selected F asz pop new arc1 cnt1 arr arc' cnt' ss ->
    sh_selected F asz ((xo, fo, wo) :: pop) ((x, f, w) :: new) arc cnt ((x, f, w) :: arr) arc' cnt' ((fabs F (fsub F fo f), w) :: ss)
| ss_worse : forall xo fo wo x f w pop new arc cnt arr arc' cnt' ss, feqb f fo = false -> fltb f fo = false -> sh_selected F asz pop new arc cnt arr arc' cnt' ss ->
    sh_selected F asz ((xo, fo, wo) :: pop) ((x, f, w) :: new) arc cnt ((xo, fo, wo) :: arr) arc' cnt' ss.
Lemma w_sh_archive : forall K asz x arc cnt (Q : list vec * nat -> elog -> Prop) l, ((asz <= Z.of_nat (length arc))%Z \/ K_exn K EIndex) ->
  (forall arc' cnt', archived asz x arc cnt arc' cnt' -> Q (arc', cnt') l) -> wp K (sh_archive asz x arc cnt) Q l.
Proof.
  intros K asz x arc cnt Q l Ha HQ. unfold sh_archive. destruct (Z.ltb_spec 1 asz) as [L|L]; [|apply w_done; apply HQ; left; auto].
  destruct (Z.ltb_spec (Z.of_nat cnt) asz) as [L2|L2].
  - apply wp_bind. apply w_setP_x; [destruct Ha; [left; lia|auto]|]. intros Hc. apply w_done. apply HQ. right. left. repeat (split; [solve [auto]|]). split; [apply row_set_upd; auto|auto].
  - apply wp_bind. apply w_integers; [lia|]. intros r Hr. apply wp_bind. apply w_setP_x; [destruct Ha; [left; lia|auto]|]. intros Hc. apply w_done. apply HQ. right. right. split; auto. split; auto. split; auto.
    exists r. split; [lia|apply row_set_upd; auto].
Qed.
Lemma archived_inv : forall asz x arc cnt arc' cnt' d, archived asz x arc cnt arc' cnt' -> dims d arc -> length x = d -> cnt <= length arc -> length arc' = length arc /\ dims d arc' /\ cnt' <= length arc'.
Proof.
  intros asz x arc cnt arc' cnt' d H Hd Hx Hc. assert (G : forall r, row_set arc arc' r x -> length arc' = length arc /\ dims d arc' /\ r < length arc).
  { intros r (R1 & R2 & R3). split; auto. assert (Hr : r < length arc) by (rewrite <- R1; apply nth_error_Some; congruence). split; auto. apply Forall_forall. intros y Hy. apply In_nth_error in Hy. destruct Hy as (j & Hj).
    destruct (Nat.eq_dec j r) as [->|N]; [congruence|]. rewrite R3 in Hj; auto. exact (Forall_nth _ _ _ _ _ Hd Hj). }
  destruct H as [(_ & -> & ->)|[(_ & _ & H & ->)|(_ & _ & (r & _ & H) & ->)]]; auto; destruct (G _ H) as (G1 & G2 & G3); split; auto; split; auto; lia.
Qed.
Lemma w_sh_select : forall K F asz d new pop arc cnt (Q : list jind * (list vec * nat) * list (num * (num * num)) -> elog -> Prop) l, length new = length pop -> dims d (j_xs pop) -> dims d arc -> cnt <= length arc ->
  ((asz <= Z.of_nat (length arc))%Z \/ K_exn K EIndex) ->
  (forall arr arc' cnt' ss, sh_selected F asz pop new arc cnt arr arc' cnt' ss -> length arc' = length arc -> dims d arc' -> cnt' <= length arc' -> Q (arr, (arc', cnt'), ss) l) ->
  wp K (sh_select F asz pop new arc cnt) Q l.
Proof.
  intros K F asz d. induction new as [|[[x f] w] new IH]; intros [|[[xo fo] wo] pop] arc cnt Q l Hl Hp Ha Hc Hs HQ; cbn [length] in *; try discriminate; cbn [sh_select fst snd].
  - apply w_done. apply HQ; auto. constructor.
  - inversion Hp as [|? ? P1 P2]; subst. cbn [fst] in *. destruct (feqb f fo) eqn:E1; [|destruct (fltb f fo) eqn:E2].
    + apply wp_bind. apply IH; auto. intros arr arc' cnt' ss H1 H2 H3 H4. cbn [fst snd]. apply w_done. apply HQ; auto. constructor; auto.
    + apply wp_bind. apply w_sh_archive; auto. intros arc1 cnt1 A. destruct (archived_inv _ _ _ _ _ _ _ A Ha eq_refl Hc) as (A1 & A2 & A3). cbn [fst snd]. apply wp_bind. apply IH; auto; [rewrite A1; auto|].
      intros arr arc' cnt' ss H1 H2 H3 H4. cbn [fst snd]. apply w_done. apply HQ; auto; [|lia]. eapply ss_better; eauto.
    + apply wp_bind. apply IH; auto. intros arr arc' cnt' ss H1 H2 H3 H4. cbn [fst snd]. apply w_done. apply HQ; auto. apply ss_worse; auto.
Qed.
Definition sh_choose (e o : jind) : jind := if feqb (snd (fst e)) (snd (fst o)) then e else if fltb (snd (fst e)) (snd (fst o)) then e else o.
Lemma selected_choose : forall F asz pop new arc cnt arr arc' cnt' ss, sh_selected F asz pop new arc cnt arr arc' cnt' ss -> arr = map2 sh_choose new pop.
Proof.
  induction 1; cbn [map2]; auto; unfold sh_choose at 1; cbn [fst snd]; f_equal; auto; rewrite ?H, ?H0; auto. destruct (feqb f fo); auto.
Qed.
Lemma feqb_fleb : forall a b, feqb a b = true -> fleb a b = true /\ fleb b a = true.
Proof.
  intros [| |x|] [| |y|] H; cbn in H; try discriminate; try (split; reflexivity). apply Z.eqb_eq in H. subst. split; apply Z.leb_refl.
Qed.
Lemma sh_choose_le : forall e o, snd (fst e) <> NaN -> snd (fst o) <> NaN -> fleb (snd (fst (sh_choose e o))) (snd (fst e)) = true /\ fleb (snd (fst (sh_choose e o))) (snd (fst o)) = true.
Proof.
  intros e o N1 N2. unfold sh_choose. destruct (feqb _ _) eqn:E1; [split; [apply fleb_refl; auto|exact (proj1 (feqb_fleb _ _ E1))]|]. destruct (fltb _ _) eqn:E2.
  - split; [apply fleb_refl; auto|apply fltb_fleb; auto].
  - split; [apply fltb_false_fleb; auto|apply fleb_refl; auto].
Qed.
Lemma sh_choose_In : forall new pop e, In e (map2 sh_choose new pop) -> In e new \/ In e pop.
Proof.
  induction new as [|a new IH]; intros [|b pop] e H; cbn [map2] in H; try contradiction. destruct H as [<-|H].
  - unfold sh_choose. destruct (feqb _ _); [left; left; auto|]. destruct (fltb _ _); [left|right]; left; auto.
  - destruct (IH _ _ H); [left|right]; right; auto.
Qed.
Lemma sh_choose_dom : forall new pop, length new = length pop -> Forall (fun f => f <> NaN) (j_fits new) -> Forall (fun f => f <> NaN) (j_fits pop) ->
  (forall e, In e new -> exists a, In a (map2 sh_choose new pop) /\ fleb (snd (fst a)) (snd (fst e)) = true) /\ down (j_fits (map2 sh_choose new pop)) (j_fits pop).
Proof.
  induction new as [|e new IH]; intros [|o pop] Hl H1 H2; cbn [length] in Hl; try discriminate; [split; [intros ? []|constructor]|].
  cbn [j_fits map] in H1, H2. inversion H1; inversion H2; subst. destruct (IH pop) as [I1 I2]; auto. destruct (sh_choose_le e o) as [L1 L2]; auto. cbn [map2]. split.
  - intros e' [<-|H']; [exists (sh_choose e o); split; [left; auto|auto]|]. destruct (I1 e' H') as (a & A1 & A2). exists a. split; [right; auto|auto].
  - constructor; auto.
Qed.

(** ** The memory *)
Definition mem_step (F : fops) (p : sh_par) (ss : list (num * (num * num))) (st st' : sh_st) : Prop :=
  let total := vsum F (map fst ss) in
  let sum g := fold_left (fadd F) (map g ss) f0 in
  let wt (s : num * (num * num)) := fdiv F (fst s) total in
  let sf := sum (fun s => fmul F (wt s) (fst (snd s))) in let sff := sum (fun s => fmul F (fmul F (wt s) (fst (snd s))) (fst (snd s))) in
  let sc := sum (fun s => fmul F (wt s) (snd (snd s))) in let scc := sum (fun s => fmul F (fmul F (wt s) (snd (snd s))) (snd (snd s))) in
  (ss = [] /\ st' = st) \/
  (ss <> [] /\ exists of oc, nth_error (st_f st) (st_k st) = Some of /\ nth_error (st_cr st) (st_k st) = Some oc /\
    (let mf := fdiv F sff sf in let mc := if feqb sc f0 || feqb oc (fneg f1) then fneg f1 else fdiv F scc sc in
     let half a b := fdiv F (fadd F a b) (flit F 2 1) in
     row_set (st_f st) (st_f st') (st_k st) (match sh_kd p with ILSHADE => half mf of | _ => mf end) /\
     row_set (st_cr st) (st_cr st') (st_k st) (match sh_kd p with ILSHADE => half mc oc | _ => mc end)) /\
    st_k st' = (S (st_k st)) mod (sh_h p) /\ st_arc st' = st_arc st /\ st_cnt st' = st_cnt st /\ st_pb st' = st_pb st).
Lemma sums_eq : forall F ss, let total := vsum F (map fst ss) in
  let sum g := fold_left (fadd F) (map g ss) f0 in
  let wt (s : num * (num * num)) := fdiv F (fst s) total in
  sh_sums F ss = ((sum (fun s => fmul F (fmul F (wt s) (fst (snd s))) (fst (snd s))), sum (fun s => fmul F (wt s) (fst (snd s)))),
                  (sum (fun s => fmul F (fmul F (wt s) (snd (snd s))) (snd (snd s))), sum (fun s => fmul F (wt s) (snd (snd s))))).
Proof.
  intros F ss. cbv zeta. unfold sh_sums. generalize (vsum F (map fst ss)). intros total.
  assert (G : forall a b c d, fold_left (fun acc s => let w := fdiv F (fst s) total in let f := fst (snd s) in let cr := snd (snd s) in
      ((fadd F (fst (fst acc)) (fmul F (fmul F w f) f), fadd F (snd (fst acc)) (fmul F w f)), (fadd F (fst (snd acc)) (fmul F (fmul F w cr) cr), fadd F (snd (snd acc)) (fmul F w cr)))) ss ((a, b), (c, d)) =
    ((fold_left (fadd F) (map (fun s => fmul F (fmul F (fdiv F (fst s) total) (fst (snd s))) (fst (snd s))) ss) a, fold_left (fadd F) (map (fun s => fmul F (fdiv F (fst s) total) (fst (snd s))) ss) b),
     (fold_left (fadd F) (map (fun s => fmul F (fmul F (fdiv F (fst s) total) (snd (snd s))) (snd (snd s))) ss) c, fold_left (fadd F) (map (fun s => fmul F (fdiv F (fst s) total) (snd (snd s))) ss) d))).
  { induction ss as [|s ss IH]; intros a b c d; [reflexivity|]. cbn [fold_left map fst snd]. rewrite IH. reflexivity. }
  apply G.
Qed.
Lemma w_sh_memory : forall K F p ss st (Q : sh_st -> elog -> Prop) l, length (st_f st) = sh_h p -> length (st_cr st) = sh_h p -> st_k st < sh_h p ->
  (forall st', mem_step F p ss st st' -> Q st' l) -> wp K (sh_memory F p ss st) Q l.
Proof.
  intros K F p ss st Q l L1 L2 Hk HQ. unfold sh_memory. destruct ss as [|s0 ss0]; [apply w_done; apply HQ; left; auto|]. rewrite sums_eq. set (ss := s0 :: ss0) in *. cbn zeta. cbn [fst snd].
  apply wp_bind. apply w_nthP; [lia|]. intros of Eo. apply wp_bind. apply w_nthP; [lia|]. intros oc Ec. apply wp_bind. apply w_setP; [lia|]. apply wp_bind. apply w_setP; [lia|]. apply w_done. apply HQ.
  right. split; [discriminate|]. exists of, oc. split; auto. split; auto. cbn [st_f st_cr st_k st_arc st_cnt st_pb]. split; [split; apply row_set_upd; lia|]. split; auto.
  destruct (Nat.leb_spec (sh_h p) (S (st_k st))) as [L|L].
  - replace (S (st_k st)) with (sh_h p) by lia. rewrite Nat.mod_same; lia.
  - rewrite Nat.mod_small; lia.
Qed.

(** ** Removing the worst *)
Inductive dropped : nat -> list jind -> list jind -> Prop :=
| dr_0 : forall pop, dropped 0 pop pop
| dr_S : forall k a e b pop', (forall x, In x a -> fltb (snd (fst x)) (snd (fst e)) = true) -> (forall x, In x b -> fleb (snd (fst x)) (snd (fst e)) = true) ->
    dropped k (a ++ b) pop' -> dropped (S k) (a ++ e :: b) pop'.
Lemma worst_first : forall fs f fs0, fs = f :: fs0 -> Forall (fun v => v <> NaN) fs -> exists a m b, fs = a ++ m :: b /\ worst_of fs = length a /\
  (forall x, In x a -> fltb x m = true) /\ (forall x, In x b -> fleb x m = true).
Proof.
  intros fs f fs0 E HN. assert (Ew : worst_of fs = fst (fold_left (fun w jf => if fltb (snd w) (snd jf) then jf else w) (combine (seq 0 (length fs)) fs) (0, f))) by (rewrite E; reflexivity). rewrite Ew. clear Ew.
  assert (G : forall rest pre a m b, fs = pre ++ rest -> pre = a ++ m :: b -> (forall x, In x a -> fltb x m = true) -> (forall x, In x b -> fleb x m = true) ->
    exists a' m' b', fs = a' ++ m' :: b' /\ fold_left (fun w jf => if fltb (snd w) (snd jf) then jf else w) (combine (seq (length pre) (length rest)) rest) (length a, m) = (length a', m') /\
      (forall x, In x a' -> fltb x m' = true) /\ (forall x, In x b' -> fleb x m' = true)).
  { induction rest as [|r rest IH]; intros pre a m b E1 E2 H1 H2; cbn [length seq combine fold_left snd].
    - exists a, m, b. rewrite app_nil_r in E1. subst. auto.
    - assert (Nm : m <> NaN) by (rewrite Forall_forall in HN; apply HN; rewrite E1, E2; apply in_or_app; left; apply in_or_app; right; left; auto).
      assert (Nr : r <> NaN) by (rewrite Forall_forall in HN; apply HN; rewrite E1; apply in_or_app; right; left; auto).
      replace (S (length pre)) with (length (pre ++ [r])) by (rewrite app_length; simpl; lia).
      destruct (fltb m r) eqn:Q.
      + apply (IH (pre ++ [r]) pre r []); [rewrite <- app_assoc; auto|auto| |intros ? []].
        intros x Hx. rewrite E2 in Hx. apply in_app_or in Hx. destruct Hx as [Hx|[<-|Hx]]; [eapply fltb_trans; eauto|auto|eapply fleb_fltb_trans; eauto].
      + apply (IH (pre ++ [r]) a m (b ++ [r])); [rewrite <- app_assoc; auto|rewrite E2, <- app_assoc; auto|auto|].
        intros x Hx. apply in_app_or in Hx. destruct Hx as [Hx|[<-|[]]]; auto. apply fltb_false_fleb; auto. }
  assert (Nf : f <> NaN) by (subst fs; inversion HN; auto).
  assert (Ec : combine (seq 0 (length fs)) fs = (0, f) :: combine (seq 1 (length fs0)) fs0) by (rewrite E; reflexivity). rewrite Ec. cbn [fold_left snd]. assert (Q : fltb f f = false) by (apply fleb_fltb_false; apply fleb_refl; auto). rewrite Q.
  destruct (G fs0 [f] [] f [] E eq_refl) as (a & m & b & E1 & E2 & E3 & E4); [intros ? []|intros ? []|]. cbn [length] in E2. rewrite E2. exists a, m, b. auto.
Qed.
Lemma remove_at_app : forall A (a : list A) e b, remove_at (a ++ e :: b) (length a) = a ++ b.
Proof. induction a as [|x a IH]; intros e b; cbn [app length remove_at]; [reflexivity|]. rewrite IH. reflexivity. Qed.
Lemma drop_worst_spec : forall k pop, k <= length pop -> Forall (fun v => v <> NaN) (j_fits pop) -> dropped k pop (drop_worst k pop).
Proof.
  induction k as [|k IH]; intros pop Hk HN; cbn [drop_worst]; [constructor|]. destruct pop as [|e0 pop0]; [simpl in Hk; lia|]. remember (e0 :: pop0) as pop.
  destruct (worst_first (j_fits pop) (snd (fst e0)) (j_fits pop0)) as (a & m & b & E1 & E2 & E3 & E4); [subst; reflexivity|auto|].
  unfold j_fits in E1. rewrite map_map in E1. apply map_eq_app in E1. destruct E1 as (pa & pb & -> & Ea & Eb). destruct pb as [|e pb]; [discriminate|]. cbn [map] in Eb. injection Eb as Em Eb. subst a b m.
  rewrite E2, map_length, remove_at_app. constructor.
  - intros x Hx. apply E3. apply in_map_iff. eauto.
  - intros x Hx. apply E4. apply in_map_iff. eauto.
  - apply IH; [rewrite app_length in *; simpl in *; lia|]. unfold j_fits in *. rewrite !map_app in HN. cbn [map] in HN. apply Forall_app in HN. destruct HN as [N1 N2]. inversion N2; subst. rewrite !map_app. apply Forall_app. auto.
Qed.
Lemma dropped_In : forall k pop pop', dropped k pop pop' -> forall e, In e pop' -> In e pop.
Proof. induction 1 as [|k a e b pop' H1 H2 H IH]; intros x Hx; auto. apply IH in Hx. apply in_app_or in Hx. apply in_or_app. destruct Hx; [auto|right; right; auto]. Qed.
Lemma dropped_length : forall k pop pop', dropped k pop pop' -> length pop = k + length pop'.
Proof. induction 1 as [|k a e b pop' H1 H2 H IH]; auto. rewrite !app_length in *. cbn [length]. lia. Qed.

(** ** The invariant *)
Record ShInv (C : cfg) (p : sh_par) (asz0 : nat) (PB : num -> Prop) (W : num * num -> Prop) (pop : list jind) (fit : list num) (xb : vec) (fxb : num) (st : sh_st) (l : elog) : Prop := {
  si_lo : min (sh_n p) 4 <= length pop; si_hi : length pop <= sh_n p; si_ok : Forall (IOk C l) (map fst pop); si_fit : fit = j_fits pop;
  si_xb : length xb = c_dim C; si_good : Good l xb fxb; si_w : Forall W (map snd pop);
  si_cr : length (st_cr st) = sh_h p; si_f : length (st_f st) = sh_h p; si_k : 0 < sh_h p -> st_k st < sh_h p;
  si_arc : dims (c_dim C) (st_arc st); si_asz : length (st_arc st) = asz0; si_cnt : st_cnt st <= asz0; si_pb : PB (st_pb st) }.

Section Run.
Variables (F : fops) (pi : num) (C : cfg) (p : sh_par) (X : exn -> Prop) (PB : num -> Prop) (W : num * num -> Prop).
Definition sh_asz0 : nat := Z.to_nat (fround (fmul F (fnat F (sh_n p)) (sh_rate p))).
Definition sh_pb_of (st : sh_st) : num := match sh_kd p with ILSHADE => st_pb st | _ => sh_pb p end.
Hypothesis HC : cfg_ok C.
Hypothesis Hn : 0 < sh_n p.
Hypothesis XR : X ERecursion.
Hypothesis Hh : 0 < sh_h p \/ X EValue.
Hypothesis Hd : 0 < c_dim C \/ X EValue.
Hypothesis H3 : 3 <= sh_n p \/ X EValue.
Hypothesis HPB0 : PB (sh_pb p).
Hypothesis Hk1 : forall n pb e, min (sh_n p) 4 <= n -> n <= sh_n p -> PB pb -> py_round (fmul F (fnat F n) pb) = Raise e -> X e.
Hypothesis Hk2 : forall n pb k, min (sh_n p) 4 <= n -> n <= sh_n p -> PB pb -> py_round (fmul F (fnat F n) pb) = Ret k -> (Z.max 2 k <= Z.of_nat n)%Z \/ X EIndex.
Hypothesis Ha1 : forall n e, min (sh_n p) 4 <= n -> n <= sh_n p -> py_round (fmul F (fnat F n) (sh_rate p)) = Raise e -> X e.
Hypothesis Ha2 : forall n k, min (sh_n p) 4 <= n -> n <= sh_n p -> py_round (fmul F (fnat F n) (sh_rate p)) = Ret k -> (k <= Z.of_nat sh_asz0)%Z \/ X EIndex.
Hypothesis Ha0 : (0 <= fround (fmul F (fnat F (sh_n p)) (sh_rate p)))%Z \/ X EValue.
Hypothesis Hs1 : sh_kd p <> SHADE -> forall nfe e, within C nfe = true -> next_size F C (sh_n p) nfe = Raise e -> X e.
Hypothesis Hs2 : sh_kd p <> SHADE -> forall n e, 4 <= n -> n <= sh_n p -> py_int F (fmul F (fnat F n) (sh_rate p)) = Raise e -> X e.
Hypothesis Hs3 : sh_kd p = ILSHADE -> forall nfe, within C nfe = true ->
  PB (fadd F (fmul F (fdiv F (fsub F (sh_end p) (sh_pb p)) (flim F (c_max_evals C))) (fnat F nfe)) (sh_pb p)).
Hypothesis HW0 : W (flit F 1 2, match sh_kd p with ILSHADE => flit F 4 5 | _ => flit F 1 2 end).
Hypothesis HW : forall st nfe w, sh_drawn F pi C p st nfe w -> W w.

Lemma KF : K_exn (KBX C X) EFuel.
Proof. left. reflexivity. Qed.
Lemma w_shade_init : init_c (KBX C X) (guarded C (shade F pi C p)) (ShInv C p sh_asz0 PB W).
Proof.
  unfold init_c. cbn [guarded shade a_init a_coords a_pop a_par]. unfold sh_init. apply g_of_wp; [apply KF|]. apply wp_bind. apply w_default_individual_init; auto. intros pop l Lp Ho Hc.
  cbn beta iota zeta. apply wp_bind. apply w_lift_x; [intros e Er; right; eapply Ha1; [| |exact Er]; lia|]. intros asz Ea.
  assert (Easz : asz = fround (fmul F (fnat F (sh_n p)) (sh_rate p))) by (revert Ea; destruct (fmul F (fnat F (sh_n p)) (sh_rate p)); cbn [py_round]; congruence).
  destruct (Z.ltb_spec asz 0) as [L|L].
  { right. destruct Ha0 as [G|G]; auto. lia. }
  apply w_done. unfold j_xs. rewrite fst_pair_map. apply (w_get_best0_i _ C); auto; [nonil|]. intros x f G Hx. cbn [fst snd].
  constructor; cbn [st_cr st_f st_k st_arc st_cnt st_pb]; auto.
  - rewrite map_length. lia.
  - rewrite map_length. lia.
  - rewrite fst_pair_map; auto.
  - unfold j_fits. rewrite fst_pair_map; auto.
  - apply inside_len; auto.
  - eapply Forall_impl; [|apply (snd_pair_map _ _ _ pop)]. intros a <-. exact HW0.
  - apply repeat_length.
  - apply repeat_length.
  - apply Forall_forall. intros y Hy. apply repeat_spec in Hy. subst y. apply repeat_length.
  - rewrite repeat_length. unfold sh_asz0. congruence.
  - lia.
Qed.
Lemma w_sh_evaluate : forall l fb xs ws, length xs = length ws -> dims (c_dim C) xs -> Forall W ws -> Cov l [] fb ->
  wp (KBX C X) (mapM (fun xw => let* a := ind_evaluate (fst xw) in Done (a, snd xw)) (combine xs ws))
    (fun bs l' => IAcc C l fb (map fst bs) l' /\ length bs = length xs /\ Forall W (map snd bs)) l.
Proof.
  intros l fb xs ws Hl Hx Hw Hc.
  apply wp_conseq0 with (Q := fun bs l' => (IAcc C l fb (map fst bs) l' /\ Forall W (map snd bs)) /\ length bs = length (combine xs ws)).
  2: { intros bs l' [[A B] L]. split; auto. split; auto. rewrite combine_length in L. lia. }
  apply (wp_mapM_acc _ _ _ _ (fun bs l' => IAcc C l fb (map fst bs) l' /\ Forall W (map snd bs))).
  - split; [apply IAcc_nil; auto|constructor].
  - intros pre [x w] post bs l' E Hb [A B]. cbn [fst snd]. apply wp_bind. assert (Hi : In (x, w) (combine xs ws)) by (rewrite E; apply in_or_app; right; left; auto).
    apply (w_new_ind C X); [apply (dims_In _ xs); auto; eapply in_combine_l; eauto|]. intros y v l1 Hy Hv. apply w_done. rewrite !map_app. cbn [map fst snd]. split; [eapply IAcc_step; eauto|].
    apply Forall_app. split; auto. constructor; auto. rewrite Forall_forall in Hw. apply Hw. eapply in_combine_r; eauto.
Qed.
Lemma trials_dims : forall pop st nfe xs ws, sh_trials F pi C p pop st nfe xs ws -> dims (c_dim C) xs.
Proof.
  intros pop st nfe xs ws (L1 & L2 & _ & k & _ & H). apply Forall_forall. intros x Hx. apply In_nth_error in Hx. destruct Hx as (i & Hi).
  assert (i < length xs) by (apply nth_error_Some; congruence). destruct (some_nth _ ws i) as [w Ew]; [lia|]. destruct (H _ _ _ Hi Ew) as (xp & r1 & r2 & j & _ & _ & _ & _ & _ & _ & _ & L & _). exact L.
Qed.
Lemma down_exists : forall fs gs, down fs gs -> forall g, In g gs -> exists f, In f fs /\ fleb f g = true.
Proof. induction 1 as [|f g fs gs H0 H IH]; intros x Hx; [destruct Hx|]. destruct Hx as [<-|Hx]; [exists f; split; [left; auto|auto]|]. destruct (IH x Hx) as (f' & A & B). exists f'. split; [right; auto|auto]. Qed.
Lemma sh_sorted : forall pop0 fit, fit = j_fits pop0 -> exists pop, map fst (sort_on (fun e : jind * num => snd e) (combine pop0 fit)) = pop /\ Permutation pop0 pop.
Proof.
  intros pop0 fit ->. eexists. split; [reflexivity|]. eapply Permutation_trans; [|apply Permutation_map; apply sort_on_perm].
  assert (E : map fst (combine pop0 (j_fits pop0)) = pop0); [|rewrite E; apply Permutation_refl].
  unfold j_fits. assert (Hf : length (map snd (map fst pop0)) = length pop0) by (rewrite !map_length; auto). revert Hf. generalize (map snd (map fst pop0)).
  induction pop0 as [|a pop0 IH]; intros [|f fs] Hf; cbn in *; try discriminate; auto. f_equal. auto.
Qed.
Lemma w_shade_iter : iter_c (KBX C X) (guarded C (shade F pi C p)) (ShInv C p sh_asz0 PB W).
Proof.
  intros pop0 fit xb fxb st l [I1 I2 I3 I4 I5 I6 I7 I8 I9 I10 I11 I12 I13 I14]. cbn [guarded shade a_iter]. unfold sh_iter.
  destruct (sh_sorted pop0 fit I4) as (pop & Ep & Pp). rewrite Ep. clear Ep. assert (KF' := KF).
  assert (Lp : length pop = length pop0) by (symmetry; apply Permutation_length; auto).
  assert (Op : Forall (IOk C l) (map fst pop)) by (eapply Permutation_Forall; [apply Permutation_map; exact Pp|auto]).
  assert (Wp : Forall W (map snd pop)) by (eapply Permutation_Forall; [apply Permutation_map; exact Pp|auto]).
  assert (Dp : dims (c_dim C) (j_xs pop)) by (apply Forall_len_inside; auto; eapply IOk_inside; eauto).
  assert (Hc0 : Cov l [] fxb) by (apply LB_Cov; apply I6).
  apply g_step; auto. unfold sh_evolve. apply wp_bind. apply w_view. intros v.
  assert (Hpb : PB (sh_pb_of st)) by (unfold sh_pb_of; destruct (sh_kd p); auto).
  apply w_sh_evolve; auto; try lia; try (right; auto; fail).
  - destruct Hh; [left|right; right]; auto.
  - intros e Er. right. eapply (Hk1 (length pop)); [lia|lia|exact Hpb|exact Er].
  - intros k Ek. destruct (Hk2 (length pop) (sh_pb_of st) k) as [G|G]; auto; try lia. right. right. exact G.
  - destruct H3; [left; lia|right; right; auto].
  - destruct Hd; [left|right; right]; auto.
  - intros xs ws Ht. assert (Dx := trials_dims _ _ _ _ _ Ht). destruct Ht as (L1 & L2 & Hw & _). assert (Hws : Forall W ws) by (eapply Forall_impl; [|exact Hw]; intros w0; apply HW).
    assert (Hpos : 0 < sh_h p). { destruct ws as [|w ws]; [simpl in L2; lia|]. inversion Hw as [|? ? (mi & _ & _ & _ & _ & Hmi & _)]. lia. }
    eapply wp_conseq0; [apply (w_sh_evaluate l fxb xs ws); auto; congruence|]. intros new l' ((A1 & A2 & A3) & A4 & A5).
    assert (Op' : Forall (IOk C l') (map fst pop)) by (eapply IOks_ext; eauto). assert (Ln : length new = length pop) by congruence.
    apply g_step; auto. apply w_lift_x; [intros e Er; right; eapply Ha1; [| |exact Er]; lia|]. intros asz Ea.
    apply g_step; auto. apply (w_sh_select _ F asz (c_dim C)); auto; [lia|destruct (Ha2 (length pop) asz ltac:(lia) ltac:(lia) Ea); [left; lia|right; right; auto]|].
    intros arr arc' cnt' ss Hsel La Da Hcnt. assert (Earr := selected_choose _ _ _ _ _ _ _ _ _ _ Hsel).
    assert (Nn : Forall (fun f => f <> NaN) (j_fits new)) by (unfold j_fits; eapply Seen2_not_nan; [exact A3|eapply IOk_seen2; eauto]).
    assert (Np : Forall (fun f => f <> NaN) (j_fits pop)) by (unfold j_fits; eapply Seen2_not_nan; [exact A3|eapply IOk_seen2; eauto]).
    destruct (sh_choose_dom new pop Ln Nn Np) as [D1 D2]. rewrite <- Earr in D1, D2.
    assert (Larr : length arr = length pop) by (rewrite Earr; apply map2_length; auto).
    assert (Oarr : Forall (IOk C l') (map fst arr)).
    { apply Forall_forall. intros a Ha. apply in_map_iff in Ha. destruct Ha as (e & <- & He). rewrite Earr in He. apply sh_choose_In in He. rewrite Forall_forall in A2, Op'. destruct He; [apply A2|apply Op']; apply in_map; auto. }
    assert (Warr : Forall W (map snd arr)).
    { apply Forall_forall. intros a Ha. apply in_map_iff in Ha. destruct Ha as (e & <- & He). rewrite Earr in He. apply sh_choose_In in He. rewrite Forall_forall in A5, Wp. destruct He; [apply A5|apply Wp]; apply in_map; auto. }
    assert (Hcov : Cov l' (j_fits arr) fxb).
    { eapply Cov_dom; [exact A3|]. intros g Hg Ng. unfold j_fits in *. rewrite map_map in Hg. apply in_map_iff in Hg. destruct Hg as (e & <- & He). destruct (D1 e He) as (a & B1 & B2). exists (snd (fst a)). split; auto.
      apply in_map. apply in_map. auto. }
    cbn beta iota. apply g_step; auto. apply (w_get_best_i _ C); auto; [destruct arr; simpl in *; [lia|congruence]|eapply Seen_ext; eauto; apply I6|apply I6|].
    intros x1 f1 G1 J1. assert (Lx1 : length x1 = c_dim C) by (destruct J1 as [J1|J1]; [apply inside_len; auto|congruence]).
    cbn beta iota. cbn [fst snd]. apply g_step; auto. apply w_sh_memory; cbn [st_f st_cr st_k]; auto. intros st1 Hst.
    assert (S1 : length (st_cr st1) = sh_h p /\ length (st_f st1) = sh_h p /\ st_k st1 < sh_h p /\ st_arc st1 = arc' /\ st_cnt st1 = cnt' /\ st_pb st1 = st_pb st).
    { destruct Hst as [(_ & ->)|(_ & o1 & o2 & E1 & E2 & (R1 & R2) & E3 & E4 & E5 & E6)]; cbn [st_f st_cr st_k st_arc st_cnt st_pb] in *; [repeat split; auto|].
      destruct R1 as [R1 _]. destruct R2 as [R2 _]. split; [congruence|]. split; [congruence|]. split; [rewrite E3; apply Nat.mod_upper_bound; lia|auto]. }
    destruct S1 as (S1 & S2 & S3 & S4 & S5 & S6).
    assert (Fin : forall pop' st2, dropped (length arr - length pop') arr pop' -> min (sh_n p) 4 <= length pop' -> length pop' <= length arr ->
        length (st_cr st2) = sh_h p -> length (st_f st2) = sh_h p -> st_k st2 < sh_h p -> st_arc st2 = arc' -> st_cnt st2 <= sh_asz0 -> PB (st_pb st2) ->
        wp (KBX C X) (guard C (let* (xb2, fxb2) := lift (get_best (j_xs pop') (j_fits pop') (Some x1) f1) in Done (pop', j_fits pop', xb2, fxb2, st2)))
          (fun a l'0 => let '(pop1, fit1, xb1, fxb1, st3) := a in ShInv C p sh_asz0 PB W pop1 fit1 xb1 fxb1 st3 l'0) l').
    { intros pop' st2 Dr B1 B2 B3 B4 B5 B6 B7 B8. assert (Hin := dropped_In _ _ _ Dr).
      assert (Oq : Forall (IOk C l') (map fst pop')) by (apply Forall_forall; intros a Ha; apply in_map_iff in Ha; destruct Ha as (e & <- & He); rewrite Forall_forall in Oarr; apply Oarr; apply in_map; auto).
      apply g_step; auto. apply (w_get_best_i _ C); auto; [destruct pop'; simpl in *; [lia|congruence]|apply G1|apply G1|apply LB_Cov; apply G1|].
      intros x2 f2 G2 J2. cbn [guard]. apply w_done. constructor; auto; try lia.
      - destruct J2 as [J2|J2]; [apply inside_len; auto|congruence].
      - apply Forall_forall; intros a Ha; apply in_map_iff in Ha; destruct Ha as (e & <- & He). rewrite Forall_forall in Warr. apply Warr. apply in_map. auto.
      - rewrite B6. auto.
      - rewrite B6. lia. }
    assert (Narr : Forall (fun f => f <> NaN) (j_fits arr)) by (unfold j_fits; eapply Seen2_not_nan; [exact A3|eapply IOk_seen2; eauto]).
    assert (Keep : wp (KBX C X) (guard C (let* (xb2, fxb2) := lift (get_best (j_xs arr) (j_fits arr) (Some x1) f1) in Done (arr, j_fits arr, xb2, fxb2, st1)))
          (fun a l'0 => let '(pop1, fit1, xb1, fxb1, st3) := a in ShInv C p sh_asz0 PB W pop1 fit1 xb1 fxb1 st3 l'0) l').
    { apply Fin; auto; try lia; try congruence. rewrite Nat.sub_diag. constructor. }
    apply g_bind. unfold sh_post. assert (Red : sh_kd p <> SHADE -> wp (KBX C X) (guard C (let* v := view in
      let* z := lift (next_size F C (sh_n p) (v_evals v)) in
      let next := Z.to_nat (Z.max 4 z) in
      if next <? length arr then
        let* a := lift (py_int F (fmul F (fnat F next) (sh_rate p))) in
        let cnt := if (a <? Z.of_nat (st_cnt st1))%Z then Z.to_nat a else st_cnt st1 in
        let pb := match sh_kd p with
                  | ILSHADE => fadd F (fmul F (fdiv F (fsub F (sh_end p) (sh_pb p)) (flim F (c_max_evals C))) (fnat F (v_evals v))) (sh_pb p)
                  | _ => st_pb st1 end in
        Done (drop_worst (length arr - next) arr, SHSt (st_cr st1) (st_f st1) (st_k st1) (st_arc st1) cnt pb)
      else Done (arr, st1)))
      (fun (a : list jind * sh_st) l'0 => wp (KBX C X) (guard C (let (pop', st2) := a in let* (xb2, fxb2) := lift (get_best (j_xs pop') (j_fits pop') (Some x1) f1) in Done (pop', j_fits pop', xb2, fxb2, st2)))
         (fun a l'0 => let '(pop1, fit1, xb1, fxb1, st3) := a in ShInv C p sh_asz0 PB W pop1 fit1 xb1 fxb1 st3 l'0) l'0) l').
    { intros Hkd. apply g_view; auto. intros v2 Hv2. apply g_step; auto. apply w_lift_x; [intros e Er; right; eapply Hs1; eauto|]. intros z Ez. cbv zeta.
      set (next := Z.to_nat (Z.max 4 z)). assert (N4 : 4 <= next) by (unfold next; lia). destruct (Nat.ltb_spec next (length arr)) as [L|L]; [|cbn [guard]; apply w_done; exact Keep].
      apply g_step; auto. apply w_lift_x; [intros e Er; right; eapply (Hs2 Hkd next); [exact N4|lia|exact Er]|]. intros a Ea2. cbn [guard]. apply w_done.
      assert (Dr := drop_worst_spec (length arr - next) arr ltac:(lia) Narr). assert (Ld := dropped_length _ _ _ Dr).
      apply Fin; cbn [st_cr st_f st_k st_arc st_cnt st_pb]; auto; try lia.
      - replace (length arr - length (drop_worst (length arr - next) arr)) with (length arr - next) by lia. exact Dr.
      - destruct (Z.ltb_spec a (Z.of_nat (st_cnt st1))); lia.
      - destruct (sh_kd p) eqn:Ek; [congruence|congruence|]. apply Hs3; auto. }
    destruct (sh_kd p) eqn:Ek; [cbn [guard]; apply w_done; exact Keep|apply Red; discriminate|apply Red; discriminate].
Qed.
Lemma shade_all : forall E, e_cfg E = C -> no_nan (e_prob E) -> repair_ok E ->
  best_run_x X E (shade F pi C p) /\ sizes_ok (fun n => min (sh_n p) 4 <= n <= sh_n p) E (shade F pi C p).
Proof.
  intros E EC HN HR. assert (J0 := w_shade_init). assert (J1 := w_shade_iter). assert (J2 := HC). revert J0 J1 J2. generalize sh_asz0. rewrite <- EC. clear - HN HR. intros asz0 J0 J1 J2. destruct (all2_c (inside (e_cfg E)) X (fun n => min (sh_n p) 4 <= n <= sh_n p) E (guarded (e_cfg E) (shade F pi (e_cfg E) p)) (ShInv (e_cfg E) p asz0 PB W)) as [B1 B2]; auto.
  - intros pop fit xb fxb st l [I1 I2 I3 I4 I5 I6 I7 I8 I9 I10 I11 I12 I13 I14]. split; auto. split; auto. subst fit. unfold j_fits. rewrite !map_length. auto.
  - split; [apply guard_best; auto|apply guard_sizes; auto].
Qed.
End Run.
