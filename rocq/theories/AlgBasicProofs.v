(** Proofs about AlgBasic.v. *)
From Coq Require Import ZArith Lia Bool List Permutation Sorting.Sorted.
From Verif Require Import Num Task TaskSpec TaskProofs TaskProofs2 Prog Wp GetBest Run RunSpec RunProofs RunProofs2
  AlgoLib Fops AlgTac StepSpec StepLib Indiv IndivLib AlgPSO AlgPSOProofs AlgSwarm PopLib AlgSwarmProofs Reach SortLib AlgBasic.
Import ListNotations.

Lemma Evals_snoc : forall xs fs l l1 x f l2, Evals xs fs l l1 -> Evald x f l1 l2 -> Evals (xs ++ [x]) (fs ++ [f]) l l2.
Proof. intros xs fs l l1 x f l2 H. induction H; intros He; simpl; econstructor; eauto; constructor. Qed.
Lemma firstn_upd : forall A (xs : list A) i y, i < length xs -> firstn (S i) (upd xs i y) = firstn i xs ++ [y].
Proof. induction xs as [|x xs IH]; intros [|i] y H; simpl in *; auto; try lia. rewrite <- IH by lia. destruct (upd xs i y); auto. Qed.

(** ** GreyWolfOptimizer *)
Definition ordered (t : wolves) : Prop := fleb (gw_fa t) (gw_fb t) = true /\ fleb (gw_fb t) (gw_fd t) = true.
Record Leaders (C : cfg) (t : wolves) (l : elog) : Prop := {
  ld_a : length (gw_a t) = c_dim C; ld_b : length (gw_b t) = c_dim C; ld_d : length (gw_d t) = c_dim C;
  ld_good : Good l (gw_a t) (gw_fa t); ld_sb : Seen l (gw_b t) (gw_fb t); ld_sd : Seen l (gw_d t) (gw_fd t);
  ld_ord : ordered t
}.
Lemma lead_ok : forall C t x f l l', cfg_ok C -> Leaders C t l -> inside C x -> Evald x f l l' -> Leaders C (gwo_lead t x f) l'.
Proof.
  intros C t x f l l' HC [H1 H2 H3 H4 H5 H6 [H7 H8]] Hx He. assert (L := inside_len _ _ HC Hx).
  assert (Ex := Evald_ext _ _ _ _ He). assert (Sx := Evald_seen _ _ _ _ He). assert (Nf := Evald_nan _ _ _ _ He).
  assert (S5 := Seen_ext _ _ _ _ Ex H5). assert (S6 := Seen_ext _ _ _ _ Ex H6).
  unfold gwo_lead. destruct (fltb f (gw_fa t)) eqn:Q1.
  - constructor; cbn [gw_a gw_fa gw_b gw_fb gw_d gw_fd]; auto.
    + eapply Good_take; eauto. apply fltb_fleb; auto.
    + split; auto. cbn [gw_a gw_fa gw_b gw_fb gw_d gw_fd]. apply fltb_fleb in Q1. eapply fleb_trans; eauto.
  - assert (G := Good_keep _ _ _ _ _ _ H4 He Q1). destruct (fltb (gw_fa t) f && fltb f (gw_fb t)) eqn:Q2.
    + apply andb_true_iff in Q2. destruct Q2 as [Q2 Q3]. apply fltb_fleb in Q2, Q3.
      constructor; cbn [gw_a gw_fa gw_b gw_fb gw_d gw_fd]; auto. split; cbn [gw_a gw_fa gw_b gw_fb gw_d gw_fd]; auto.
      eapply fleb_trans; eauto.
    + destruct (fltb (gw_fb t) f && fltb f (gw_fd t)) eqn:Q4.
      * apply andb_true_iff in Q4. destruct Q4 as [Q4 Q5]. apply fltb_fleb in Q4, Q5.
        constructor; cbn [gw_a gw_fa gw_b gw_fb gw_d gw_fd]; auto. split; auto.
      * constructor; auto. split; auto.
Qed.
Lemma leads_ok : forall C pop fit t l l', cfg_ok C -> Evals pop fit l l' -> Forall (inside C) pop -> Leaders C t l -> Leaders C (gwo_leads t pop fit) l'.
Proof.
  intros C pop fit t l l' HC H. revert t. induction H; intros t Hin Ht; simpl; auto. inversion_clear Hin.
  apply IHEvals; auto. eapply lead_ok; eauto.
Qed.

(** x_k = leader_k - ((2 a) r_k - a) |2 s_k leader_k - w_k| *)
Definition towards_eq (F : fops) (a : num) (leader w r s : vec) (k : nat) : num :=
  fsub F (nth k leader NaN) (fmul F (fsub F (fmul F (fmul F (flit F 2 1) a) (nth k r NaN)) a)
    (fabs F (fsub F (fmul F (fmul F (flit F 2 1) (nth k s NaN)) (nth k leader NaN)) (nth k w NaN)))).
Lemma w_gwo_towards : forall K F C a leader w (Q : vec -> elog -> Prop) l, length leader = c_dim C -> length w = c_dim C ->
  (forall x r s, length r = c_dim C -> Forall in_unit r -> length s = c_dim C -> Forall in_unit s ->
     comps (c_dim C) x (fun k c => c = towards_eq F a leader w r s k) -> Q x l) ->
  wp K (gwo_towards F C a leader w) Q l.
Proof.
  intros K F C a leader w Q l L1 L2 HQ. unfold gwo_towards. apply wp_bind. apply w_random_vec_u. intros r Lr Ur.
  apply wp_bind. apply w_random_vec_u. intros s Ls Us. cbv zeta. apply w_done. apply (HQ _ r s); auto.
  split; [dl|]. intros k Hk. unfold towards_eq. nths (c_dim C). reflexivity.
Qed.

Lemma w_gwo_step : forall F C X a t s i l0 l, cfg_ok C -> Leaders C t l0 -> i < length (fst s) -> length (snd s) = length (fst s) ->
  Forall (inside C) (fst s) -> Evals (firstn i (fst s)) (firstn i (snd s)) l0 l ->
  wp (KBX C X) (gwo_step F C a t s i) (fun s' l' => length (fst s') = length (fst s) /\ length (snd s') = length (fst s) /\
    Forall (inside C) (fst s') /\ Evals (firstn (S i) (fst s')) (firstn (S i) (snd s')) l0 l') l.
Proof.
  intros F C X a t [pop fit] i l0 l HC [H1 H2 H3 _ _ _ _] Hi Lf Hin He. cbn [fst snd] in *. assert (D := dims_inside _ _ HC Hin).
  unfold gwo_step. cbn [fst snd]. apply wp_bind. apply w_nthP; auto. intros w Ew. assert (Lw : length w = c_dim C) by dnth.
  apply wp_bind. apply w_gwo_towards; auto. intros x1 r1 s1 _ _ _ _ [L1 _].
  apply wp_bind. apply w_gwo_towards; auto. intros x2 r2 s2 _ _ _ _ [L2 _].
  apply wp_bind. apply w_gwo_towards; auto. intros x3 r3 s3 _ _ _ _ [L3 _].
  apply wp_bind. apply w_repair; [dl|]. intros y Hy. apply wp_bind. apply w_setP; auto.
  apply wp_bind. apply w_eval; auto. intros f l' Hf. apply wp_bind. apply w_setP; [lia|]. apply w_done. cbn [fst snd].
  rewrite !upd_length. split; auto. split; auto. split; [apply Forall_upd; auto|].
  rewrite !firstn_upd by lia. eapply Evals_snoc; eauto.
Qed.

Definition GwoInv (C : cfg) (n : nat) (pop : list vec) (fit : list num) (xb : vec) (fxb : num) (t : wolves) (l : elog) : Prop :=
  PopInv C n pop fit xb fxb l /\ Leaders C t l.
Lemma w_gwo_iter : forall F C X n pop fit xb fxb t l, cfg_ok C -> GwoInv C n pop fit xb fxb t l ->
  wp (KBX C X) (gwo_iter F C n pop fit xb fxb t) (fun a l' => let '(pop', fit', xb', fxb', t') := a in GwoInv C n pop' fit' xb' fxb' t' l') l.
Proof.
  intros F C X n pop fit xb fxb t l HC [[P1 P2 P3 P4 P5 P6] HL]. unfold gwo_iter. apply wp_bind. apply w_view. intros v. apply wp_bind.
  eapply wp_conseq.
  - apply (wp_for_range _ _ _ _ (fun i s l' => length (fst s) = n /\ length (snd s) = n /\ Forall (inside C) (fst s) /\
      Evals (firstn i (fst s)) (firstn i (snd s)) l l')).
    + cbn [fst snd]. split; auto. split; auto. split; auto. constructor.
    + intros i s l' Hi (A1 & A2 & A3 & A4). eapply wp_conseq0; [apply w_gwo_step; eauto; lia|].
      intros s' l'' (B1 & B2 & B3 & B4). rewrite B1, B2. replace (i + 1) with (S i) by lia. auto.
  - intros [pop' fit'] l' Hx (A1 & A2 & A3 & A4). cbn [fst snd] in *. rewrite !firstn_all2 in A4 by lia.
    assert (HL' := leads_ok _ _ _ _ _ _ HC A4 A3 HL). set (t' := gwo_leads t pop' fit') in *. cbv zeta.
    apply wp_bind. unfold get_best1.
    assert (Inv : forall x f, length x = c_dim C -> Good l' x f -> GwoInv C n pop' fit' x f t' l').
    { intros x f Lx G. split; auto. constructor; auto. eapply Evals_seen; eauto. }
    destruct (fleb (gw_fa t') fxb) eqn:Q; cbn [lift]; apply w_done; apply w_done; apply Inv; auto; try apply HL'.
    destruct P6 as (G1 & G2 & G3). destruct HL' as [_ _ _ (L1 & L2 & L3) _ _ _].
    split; [eapply Seen_ext; [eapply Evals_ext; eauto|auto]|]. split; auto. intros x v' Hv.
    assert (Q' := fleb_false_fltb _ _ L3 G3 Q). apply fltb_fleb in Q'. eapply fleb_trans; [exact Q'|eapply L2; eauto].
Qed.
Lemma gwo_init_ok : forall F C X n, cfg_ok C -> 3 <= n -> init_c (KBX C X) (gwo F C n) (GwoInv C n).
Proof.
  intros F C X n HC Hn. unfold init_c. cbn [a_init a_coords gwo]. unfold gwo_init. apply wp_bind.
  apply w_default_numpy_init; auto; try lia. intros pop fit l Lp Hin He. cbv zeta.
  set (s := sort_by (combine pop fit)). assert (Lf := Evals_len _ _ _ _ He).
  assert (Ls : length s = n) by (unfold s; rewrite sort_by_len, combine_length; lia).
  assert (Sn := Evals_seen _ _ _ _ He). assert (Nf := Evals_nan _ _ _ _ He).
  assert (Hs : forall p, In p s -> Seen l (fst p) (snd p) /\ length (fst p) = c_dim C /\ snd p <> NaN).
  { intros p Hp. unfold s in Hp. apply (proj1 (sort_by_In _ _)) in Hp. split; [eapply in_combine_seen; eauto|].
    split; [apply inside_len; auto; rewrite Forall_forall in Hin; apply Hin; eapply in_combine_fst; eauto|].
    rewrite Forall_forall in Nf. apply Nf. destruct p as [u v]. apply in_combine_r in Hp. auto. }
  apply wp_bind. apply w_nthP; [lia|]. intros a Ea. apply wp_bind. apply w_nthP; [lia|]. intros b Eb. apply wp_bind. apply w_nthP; [lia|]. intros d Ed.
  apply w_done. assert (Ia := nth_error_In _ _ Ea). assert (Ib := nth_error_In _ _ Eb). assert (Id := nth_error_In _ _ Ed).
  destruct (Hs a Ia) as (A1 & A2 & A3). destruct (Hs b Ib) as (B1 & B2 & B3). destruct (Hs d Id) as (D1 & D2 & D3).
  apply (w_get_best0 _ l); auto. { destruct pop; simpl in *; [lia|congruence]. }
  intros x f HG Hx. cbn [fst snd]. split.
  - constructor; auto; try lia. apply inside_len; auto. rewrite Forall_forall in Hin. auto.
  - assert (So := sort_by_sorted (combine pop fit)). fold s in So. constructor; cbn [gw_a gw_fa gw_b gw_fb gw_d gw_fd]; auto.
    + split; auto. split; auto. intros y v Hy.
      assert (C0 : Cov l fit PInf).
      { eapply Cov_incl; [|eapply (Cov_Evals pop fit [] l [] PInf); eauto; intros ? ? []]. rewrite app_nil_r. apply incl_refl. }
      assert (M : forall g, In g fit -> fleb (snd a) g = true).
      { intros g Hg. destruct (In_snd_combine _ _ pop fit g (eq_sym Lf) Hg) as (z & Hz).
        destruct s as [|a' s'] eqn:Es; [discriminate|]. injection Ea as <-.
        apply key_le_fleb; [rewrite Forall_forall in Nf; auto|]. exact (sort_by_hd _ _ _ Es _ Hz). }
      destruct (C0 y v Hy) as [C1|(g & G1 & G2)]; [|eapply fleb_trans; [apply M; exact G1|exact G2]].
      assert (v = PInf) by (destruct v; simpl in C1; congruence). subst v. destruct (snd a); simpl; auto; congruence.
    + split; cbn [gw_a gw_fa gw_b gw_fb gw_d gw_fd]; apply key_le_fleb; auto.
      * exact (sorted_nth s 0 1 a b So ltac:(lia) Ea Eb).
      * exact (sorted_nth s 1 2 b d So ltac:(lia) Eb Ed).
Qed.

(** programs that draw but do not evaluate, mapped over a list *)
Lemma w_mapM_pure : forall A B K (f : A -> prog B) (R : A -> B -> Prop) xs (Q : list B -> elog -> Prop) l,
  (forall a (P : B -> elog -> Prop), In a xs -> (forall b, R a b -> P b l) -> wp K (f a) P l) ->
  (forall bs, Forall2 R xs bs -> Q bs l) -> wp K (mapM f xs) Q l.
Proof.
  intros A B K f R xs. induction xs as [|a xs IH]; intros Q l Hf HQ; cbn [mapM]; [apply w_done; auto|].
  apply wp_bind. apply Hf; [simpl; auto|]. intros b Hb. apply wp_bind. apply IH; [intros; apply Hf; simpl; auto|].
  intros bs Hbs. apply w_done. auto.
Qed.
Lemma Forall2_seq : forall B (R : nat -> B -> Prop) n bs d, Forall2 R (seq 0 n) bs -> length bs = n /\ forall i, i < n -> R i (nth i bs d).
Proof.
  intros B R n bs d H. assert (L := Forall2_len _ _ _ _ _ H). rewrite seq_length in L. split; auto. intros i Hi.
  assert (E1 : nth_error (seq 0 n) i = Some i).
  { rewrite (nth_error_nth' (seq 0 n) 0) by (rewrite seq_length; auto). rewrite seq_nth; auto. }
  assert (E2 : nth_error bs i = Some (nth i bs d)) by (apply nth_error_nth'; lia).
  exact (Forall2_nth _ _ _ _ _ _ _ _ H E1 E2).
Qed.
(** whole new population evaluated *)
Lemma w_pop_tail : forall C X n pop0 fit0 pop1 xb fxb l (T : Type) (u : T) (R : T -> Prop), cfg_ok C -> 0 < n -> PopInv C n pop0 fit0 xb fxb l ->
  length pop1 = n -> dims (c_dim C) pop1 -> R u ->
  wp (KBX C X) (let* pop' := repair_all pop1 in let* fit' := eval_all pop' in
     let* (xb', fxb') := lift (get_best pop' fit' (Some xb) fxb) in Done (pop', fit', xb', fxb', u))
   (fun a l' => let '(pop', fit', xb', fxb', u') := a in PopInv C n pop' fit' xb' fxb' l' /\ R u') l.
Proof.
  intros C X n pop0 fit0 pop1 xb fxb l T u R HC Hn HI L1 D1 HR.
  assert (N1 : forall xs : list vec, length xs = n -> xs <> []) by (intros [|? ?]; simpl; [lia|congruence]).
  apply wp_bind. apply w_repair_all; auto. intros ys Ly Hy. rewrite L1 in Ly.
  apply wp_bind. apply w_eval_all; auto. intros fs l' He. apply wp_bind.
  apply (w_best_evals C _ n ys fs fit0 xb fxb pop0 l l'); auto. intros x f HP. apply w_done. auto.
Qed.

(** ** MothFlameOptimizer *)
Definition mfo_flame_ok (F : fops) (C : cfg) (n : nat) : Prop :=
  forall it, below (c_max_iters C) it = true -> (- Z.of_nat n <= mfo_flame F C n it)%Z.
(** the row used as flame by moth i *)
Definition flame_index (n i : nat) (flame : Z) : nat :=
  if (Z.of_nat i <=? flame)%Z then i else if (flame <? 0)%Z then Z.to_nat (Z.of_nat n + flame) else Z.to_nat flame.
Definition moth_eq (F : fops) (C : cfg) (pi a : num) (sorted : list vec) (flame : Z) (i : nat) (x y : vec) : Prop :=
  flame_index (length sorted) i flame < length sorted /\ (Z.of_nat i <= flame \/ - Z.of_nat (length sorted) <= flame)%Z /\
  comps (c_dim C) y (fun k c => exists r, in_unit r /\ let t := fadd F (fmul F (fsub F a (flit F 1 1)) r) (flit F 1 1) in
    c = fadd F (fmul F (fmul F (fabs F (fsub F (nth k (nth i sorted []) NaN) (nth k x NaN))) (fexp F (fmul F (flit F 1 1) t)))
                       (fcos F (fmul F (fmul F (flit F 2 1) pi) t)))
               (nth k (nth (flame_index (length sorted) i flame) sorted []) NaN)).
Lemma w_mfo_row : forall K F C pi sorted flame a i x (Q : vec -> elog -> Prop) l, i < length sorted ->
  (K_exn K EIndex \/ (- Z.of_nat (length sorted) <= flame)%Z) ->
  (forall y, moth_eq F C pi a sorted flame i x y -> Q y l) -> wp K (mfo_row F C pi sorted flame a i x) Q l.
Proof.
  intros K F C pi sorted flame a i x Q l Hi HX HQ. unfold mfo_row. apply wp_bind. apply w_nthP; auto. intros s Es.
  assert (Es' : nth i sorted [] = s) by (apply nth_error_nth; auto). apply wp_bind.
  assert (Fin : forall fl, flame_index (length sorted) i flame < length sorted -> (Z.of_nat i <= flame \/ - Z.of_nat (length sorted) <= flame)%Z -> fl = nth (flame_index (length sorted) i flame) sorted [] ->
    wp K (mapM (fun k => mfo_comp F pi a (nth k x NaN) (nth k s NaN) (nth k fl NaN)) (seq 0 (c_dim C))) Q l).
  { intros fl Hfl Hfr Efl. apply (w_mapM_pure _ _ _ _ (fun k c => exists r, in_unit r /\ let t := fadd F (fmul F (fsub F a (flit F 1 1)) r) (flit F 1 1) in
      c = fadd F (fmul F (fmul F (fabs F (fsub F (nth k s NaN) (nth k x NaN))) (fexp F (fmul F (flit F 1 1) t)))
                       (fcos F (fmul F (fmul F (flit F 2 1) pi) t))) (nth k fl NaN))).
    - intros k P _ HP. unfold mfo_comp. apply wp_bind. apply w_random_u. intros r Hr. apply w_done. apply HP. exists r. auto.
    - intros bs Hbs. apply HQ. destruct (Forall2_seq _ _ _ _ NaN Hbs) as [L H]. split; [exact Hfl|]. split; [exact Hfr|]. split; auto. intros k Hk. rewrite Es', <- Efl. auto. }
  unfold flame_index in Fin. destruct (Z.of_nat i <=? flame)%Z eqn:Q1.
  - apply w_done. apply Fin; [lia|left; apply Z.leb_le; auto|]. symmetry; auto.
  - apply Z.leb_gt in Q1. unfold nthZ. destruct (flame <? 0)%Z eqn:Q2.
    + apply Z.ltb_lt in Q2. destruct (Z.of_nat (length sorted) + flame <? 0)%Z eqn:Q3.
      * apply Z.ltb_lt in Q3. destruct HX as [HX|HX]; [exact HX|lia].
      * apply Z.ltb_ge in Q3. apply w_nthP; [lia|]. intros fl Ef. apply Fin; [lia|lia|]. symmetry. apply nth_error_nth. auto.
    + apply Z.ltb_ge in Q2. apply w_nthP; [lia|]. intros fl Ef. apply Fin; [lia|lia|]. symmetry. apply nth_error_nth. auto.
Qed.
Definition moths_eq (F : fops) (C : cfg) (pi : num) (n iters : nat) (pop : list vec) (fit : list num) (moved : list vec) : Prop :=
  length moved = n /\ exists sorted, Permutation (combine pop fit) sorted /\ StronglySorted (fun a b => key_le (snd a) (snd b) = true) sorted /\
  forall i, i < n -> moth_eq F C pi (mfo_a F C iters) (map fst sorted) (mfo_flame F C n iters) i (nth i pop []) (nth i moved []).
Lemma w_mfo_moths : forall K F C pi n it pop fit (Q : list vec -> elog -> Prop) l, length pop = n -> length fit = n ->
  (K_exn K EIndex \/ (- Z.of_nat n <= mfo_flame F C n it)%Z) ->
  (forall moved, moths_eq F C pi n it pop fit moved -> Q moved l) -> wp K (mfo_moths F C pi n it pop fit) Q l.
Proof.
  intros K F C pi n it pop fit Q l L1 L2 HX HQ. unfold mfo_moths. cbv zeta. set (so := sort_by (combine pop fit)).
  assert (Ls : length (map fst so) = n) by (unfold so; rewrite map_length, sort_by_len, combine_length; lia).
  apply (w_mapM_pure _ _ _ _ (fun i y => moth_eq F C pi (mfo_a F C it) (map fst so) (mfo_flame F C n it) i (nth i pop []) y)).
  - intros i P Hi HP. apply in_seq in Hi. apply wp_bind. apply w_nthP; [lia|]. intros x Ex.
    apply w_mfo_row; [lia|rewrite Ls; exact HX|]. intros y Hy. apply HP. rewrite (nth_error_nth _ _ [] Ex). exact Hy.
  - intros bs Hbs. destruct (Forall2_seq _ _ _ _ [] Hbs) as [L H]. apply HQ. split; auto. exists so.
    split; [apply sort_by_perm|]. split; [apply sort_by_sorted|]. exact H.
Qed.
Lemma moths_dims : forall F C pi n it pop fit moved, moths_eq F C pi n it pop fit moved -> dims (c_dim C) moved.
Proof.
  intros F C pi n it pop fit moved [L (so & _ & _ & H)]. apply Forall_forall. intros x Hx. apply (In_nth _ _ []) in Hx. destruct Hx as (i & Hi & <-).
  apply (H i). lia.
Qed.
Lemma w_mfo_body : forall F C X pi n v pop fit xb fxb u l, cfg_ok C -> 0 < n -> PopInv C n pop fit xb fxb l ->
  (X EIndex \/ (- Z.of_nat n <= mfo_flame F C n (v_iters v))%Z) ->
  wp (KBX C X) (mfo_body F C pi n v pop fit xb fxb u) (fun a l' => let '(pop', fit', xb', fxb', u') := a in PopInv C n pop' fit' xb' fxb' l' /\ True) l.
Proof.
  intros F C X pi n v pop fit xb fxb u l HC Hn HI HX. unfold mfo_body. apply wp_bind. apply w_mfo_moths; try apply HI.
  { destruct HX; [left; simpl; auto|right; auto]. }
  intros moved Hm. assert (D := moths_dims _ _ _ _ _ _ _ _ Hm). destruct Hm as [Lm _].
  apply (w_pop_tail C X n pop fit moved xb fxb l unit u (fun _ => True)); auto.
Qed.

(** ** SineCosineAlgorithm *)
Definition sca_eq (F : fops) (C : cfg) (xb : vec) (r1 r2 r3 r4 : num) (x y : vec) : Prop :=
  comps (c_dim C) y (fun k c => c = fadd F (nth k x NaN)
    (fmul F (fmul F r1 (if fltb r4 (flit F 1 2) then fsin F r2 else fcos F r2)) (fabs F (fsub F (fmul F r3 (nth k xb NaN)) (nth k x NaN))))).
Lemma sca_pos_eq : forall F C x xb r1 r2 r3 r4, length x = c_dim C -> length xb = c_dim C ->
  sca_eq F C xb r1 r2 r3 r4 x (sca_pos F x xb r1 r2 r3 r4).
Proof.
  intros F C x xb r1 r2 r3 r4 L1 L2. unfold sca_pos, sca_eq. rewrite L1. split; [dl|]. intros k Hk. nths (c_dim C). reflexivity.
Qed.
Lemma w_sca_iter : forall F C X pi p pop fit xb fxb u l, cfg_ok C -> 0 < sc_n p -> PopInv C (sc_n p) pop fit xb fxb l ->
  wp (KBX C X) (sca_iter F C pi p pop fit xb fxb u) (fun a l' => let '(pop', fit', xb', fxb', u') := a in PopInv C (sc_n p) pop' fit' xb' fxb' l' /\ True) l.
Proof.
  intros F C X pi p pop fit xb fxb u l HC Hn HI. assert (D := pi_dims _ _ _ _ _ _ _ HC HI). unfold sca_iter.
  apply wp_bind. apply w_view. intros v. cbv zeta. apply wp_bind. apply w_uniform. intros r2 _. apply wp_bind. apply w_uniform. intros r3 _.
  apply wp_bind. apply w_random_u. intros r4 _.
  apply (w_pop_tail C X (sc_n p) pop fit _ xb fxb l unit u (fun _ => True)); auto.
  - rewrite map_length. apply HI.
  - apply dims_mapv. intros x Hx. apply (sca_pos_eq F C); [exact (dims_In _ _ _ D Hx)|apply HI].
Qed.

(** ** GravitationalSearchAlgorithm *)
Lemma fold_vadd_len : forall F d xs a, length a = d -> dims d xs -> length (fold_left (vadd F) xs a) = d.
Proof. intros F d xs. induction xs as [|x xs IH]; simpl; intros a L D; auto. inversion D; subst. apply IH; auto. apply map2_length; auto. Qed.
Lemma dims_map3 : forall A B D d (f : A -> B -> D -> vec) xs ys zs, (forall x y z, In x xs -> In z zs -> length (f x y z) = d) -> dims d (map3 f xs ys zs).
Proof.
  intros A B D d f xs. induction xs as [|x xs IH]; intros [|y ys] [|z zs] H; simpl; try constructor.
  - apply H; simpl; auto.
  - apply IH. intros; apply H; simpl; auto.
Qed.
Lemma gsa_acc_len : forall F C p it m pop r mi xi, dims (c_dim C) pop -> dims (c_dim C) r -> length xi = c_dim C -> length (gsa_acc F C p it m pop r mi xi) = c_dim C.
Proof.
  intros F C p it m pop r mi xi D1 D2 L. unfold gsa_acc. cbv zeta. rewrite map_length. apply fold_vadd_len; [apply repeat_length|].
  apply dims_map3. intros x y z Hx Hz. unfold gsa_force. cbv zeta. assert (length x = c_dim C) by dnth. assert (length z = c_dim C) by dnth. dl.
Qed.
Lemma w_gsa_mass : forall K F fit (Q : list num -> elog -> Prop) l, fit <> [] ->
  (forall m, length m = length fit -> Q m l) -> wp K (gsa_mass F fit) Q l.
Proof.
  intros K F fit Q l Hne HQ. unfold gsa_mass. destruct (argmin fit) as [ib|] eqn:E1; [|destruct fit; [congruence|discriminate]].
  destruct (argmax fit) as [iw|] eqn:E2; [|destruct fit; [congruence|discriminate]].
  apply wp_bind. apply w_nthP; [apply argmin_range; auto|]. intros fb _. apply wp_bind. apply w_nthP; [apply argmax_range; auto|]. intros fw _.
  cbv zeta. apply w_done. apply HQ. rewrite !map_length. auto.
Qed.
Lemma dims_gsa : forall F C p it m pop r, dims (c_dim C) pop -> dims (c_dim C) r -> dims (c_dim C) (map2 (gsa_acc F C p it m pop r) m pop).
Proof. intros F C p it m pop r D1 D2. apply dims_map2; auto. intros mi xi _ L. apply gsa_acc_len; auto. Qed.
Lemma w_gsa_iter : forall F C X p pop fit xb fxb vs l, cfg_ok C -> 0 < gs_n p -> PopInv C (gs_n p) pop fit xb fxb l ->
  length vs = gs_n p /\ dims (c_dim C) vs ->
  wp (KBX C X) (gsa_iter F C p pop fit xb fxb vs) (fun a l' => let '(pop', fit', xb', fxb', vs') := a in
    PopInv C (gs_n p) pop' fit' xb' fxb' l' /\ length vs' = gs_n p /\ dims (c_dim C) vs') l.
Proof.
  intros F C X p pop fit xb fxb vs l HC Hn HI [Lv Dv]. assert (D := pi_dims _ _ _ _ _ _ _ HC HI). assert (HI' := HI). destruct HI' as [P1 P2 _ _ _ _].
  unfold gsa_iter. apply wp_bind. apply w_gsa_mass. { destruct fit; simpl in *; [lia|congruence]. } intros m Lm. rewrite P2 in Lm.
  apply wp_bind. apply w_view. intros v. apply wp_bind. apply w_random_mat. intros r Lr Dr _. cbv zeta.
  apply wp_bind. apply w_random_mat. intros s Ls Ds _.
  set (acc := map2 (gsa_acc F C p (v_iters v) m pop r) m pop).
  assert (La : length acc = gs_n p) by (apply map2_length; auto).
  assert (Da : dims (c_dim C) acc) by (apply dims_gsa; auto).
  assert (L1 := map2_length _ _ _ (vmul F) s vs _ Ls Lv). assert (D1 := dims_map2v _ (fmul F) _ _ Ds Dv).
  assert (L2 := map2_length _ _ _ (vadd F) _ acc _ L1 La). assert (D2 := dims_map2v _ (fadd F) _ _ D1 Da).
  assert (L3 := map2_length _ _ _ (vadd F) pop _ _ P1 L2). assert (D3 := dims_map2v _ (fadd F) _ _ D D2).
  apply (w_pop_tail C X (gs_n p) pop fit _ xb fxb l _ _ (fun vs' => length vs' = gs_n p /\ dims (c_dim C) vs')); auto.
Qed.

(** components of the total force *)
Lemma fold_vadd_nth : forall F d k rows a, length a = d -> dims d rows -> k < d ->
  nth k (fold_left (vadd F) rows a) NaN = fold_left (fun t row => fadd F t (nth k row NaN)) rows (nth k a NaN).
Proof.
  intros F d k rows. induction rows as [|r rows IH]; simpl; intros a La D Hk; auto. inversion D; subst.
  rewrite IH; auto; [|apply map2_length; auto]. f_equal. apply (nth_map2 _ _ _ _ _ _ _ (length a)); auto.
Qed.
Lemma map3_seq : forall A B D T (f : A -> B -> D -> T) n xs ys zs da db dd, length xs = n -> length ys = n -> length zs = n ->
  map3 f xs ys zs = map (fun j => f (nth j xs da) (nth j ys db) (nth j zs dd)) (seq 0 n).
Proof.
  intros A B D T f n. induction n as [|n IH]; intros [|x xs] [|y ys] [|z zs] da db dd L1 L2 L3; try discriminate; auto.
  simpl in *. f_equal. rewrite <- seq_shift, map_map. apply IH; lia.
Qed.
Lemma fold_left_map : forall A B T (f : T -> B -> T) (g : A -> B) xs a, fold_left f (map g xs) a = fold_left (fun t x => f t (g x)) xs a.
Proof. induction xs; simpl; intros; auto. Qed.
Lemma fold_left_ext_in : forall A B (f g : A -> B -> A) xs a, (forall t x, In x xs -> f t x = g t x) -> fold_left f xs a = fold_left g xs a.
Proof. induction xs as [|x xs IH]; simpl; intros a H; auto. rewrite H by auto. apply IH. intros; apply H; auto. Qed.
Lemma gsa_acc_nth : forall F C p it m pop r n k mi xi, length pop = n -> length m = n -> length r = n -> dims (c_dim C) pop -> dims (c_dim C) r ->
  length xi = c_dim C -> k < c_dim C ->
  nth k (gsa_acc F C p it m pop r mi xi) NaN =
  fdiv F (fold_left (fun t j => fadd F t (fmul F (nth k (nth j r []) NaN)
      (fmul F (fmul F (fdiv F (gs_g0 p) (fnat F (S it)))
                 (fdiv F (fmul F mi (nth j m NaN)) (fadd F (euclidean F xi (nth j pop [])) (gs_eps p))))
         (fsub F (nth k (nth j pop []) NaN) (nth k xi NaN))))) (seq 0 n) (flit F 0 1)) (fadd F mi (gs_eps p)).
Proof.
  intros F C p it m pop r n k mi xi L1 L2 L3 D1 D2 Lx Hk. unfold gsa_acc. cbv zeta.
  assert (DD : dims (c_dim C) (map3 (fun rj mj xj => vmul F rj (gsa_force F p it mi mj xi xj)) r m pop)).
  { apply dims_map3. intros x y z Hx Hz. unfold gsa_force. cbv zeta. assert (length x = c_dim C) by dnth. assert (length z = c_dim C) by dnth. dl. }
  rewrite (nth_mapn _ _ _ _ k (c_dim C) NaN); auto; [|apply fold_vadd_len; auto; apply repeat_length].
  f_equal. rewrite (fold_vadd_nth F (c_dim C)); auto; [|apply repeat_length].
  rewrite nth_rep by auto. rewrite (map3_seq _ _ _ _ _ n _ _ _ [] NaN []); auto. rewrite fold_left_map.
  apply fold_left_ext_in. intros t j Hj. apply in_seq in Hj. f_equal.
  assert (length (nth j r []) = c_dim C) by (apply dims_nthd; auto; lia). assert (length (nth j pop []) = c_dim C) by (apply dims_nthd; auto; lia).
  unfold gsa_force. cbv zeta. nths (c_dim C). reflexivity.
Qed.
Definition masses (F : fops) (fit m : list num) : Prop :=
  exists fb fw, In fb fit /\ In fw fit /\ (forall f, In f fit -> fleb fb f = true /\ fleb f fw = true) /\
  let q := map (fun f => fdiv F (fsub F f fw) (fsub F fb fw)) fit in m = map (fun a => fdiv F a (vsum F q)) q.
Lemma w_gsa_mass_eq : forall K F fit (Q : list num -> elog -> Prop) l, fit <> [] -> Forall (fun f => f <> NaN) fit ->
  (forall m, masses F fit m -> Q m l) -> wp K (gsa_mass F fit) Q l.
Proof.
  intros K F fit Q l Hne Hf HQ. unfold gsa_mass. destruct (argmin_spec fit Hne Hf) as (ib & fb & E1 & (A1 & A2 & _)).
  destruct (argmax_spec fit Hne Hf) as (iw & fw & E2 & (B1 & B2 & _)). rewrite E1, E2.
  apply wp_bind. unfold nthP. rewrite A1. apply w_done. apply wp_bind. rewrite B1. apply w_done. cbv zeta. apply w_done. apply HQ.
  exists fb, fw. split; [eapply nth_error_In; eauto|]. split; [eapply nth_error_In; eauto|]. split; [|reflexivity].
  intros f Hin. apply In_nth_error in Hin. destruct Hin as [i Hi]. split; [eapply A2|eapply B2]; eauto.
Qed.

(** ** HarmonySearch *)
Definition pure_draw (p : prog num) (R : num -> Prop) : Prop := forall K (Q : num -> elog -> Prop) l, (forall b, R b -> Q b l) -> wp K p Q l.
Lemma pure_hs : forall F br, fleb (flit F (-1) 1) (flit F 1 1) = true ->
  pure_draw (hs_bw F br) (fun b => exists r, fleb (flit F (-1) 1) r = true /\ fleb r (flit F 1 1) = true /\ b = fmul F r br).
Proof. intros F br H K Q l HQ. unfold hs_bw. apply wp_bind. apply w_uniform. intros r Hr. apply w_done. apply HQ. exists r. destruct (Hr H). auto. Qed.
Lemma pure_hs_any : forall F br, pure_draw (hs_bw F br) (fun _ => True).
Proof. intros F br K Q l HQ. unfold hs_bw. apply wp_bind. apply w_uniform. intros r Hr. apply w_done. auto. Qed.
Definition hs1_bw_eq (F : fops) (C : cfg) (bmin bmax : num) (it : nat) : num :=
  fmul F bmin (fexp F (fdiv F (fmul F (fln F (fdiv F bmin bmax)) (fnat F (S it))) (flim F (c_max_iters C)))).
Lemma pure_hs1 : forall F C bmin bmax, pure_draw (hs1_bw F C bmin bmax) (fun b => exists it, b = hs1_bw_eq F C bmin bmax it).
Proof. intros F C bmin bmax K Q l HQ. unfold hs1_bw. apply wp_bind. apply w_view. intros v. apply w_done. apply HQ. exists (v_iters v). reflexivity. Qed.
(** component i of the new harmony: memory consideration, pitch adjustment or a random note *)
Definition note (F : fops) (C : cfg) (p : hs_par) (R : num -> Prop) (pop : list vec) (i : nat) (c : num) : Prop :=
  exists r j, in_unit r /\ j < hs_n p /\
  if fltb (hs_accept p) r then c = nth i (nth j pop []) NaN
  else if fltb (hs_pa p) r then exists b, R b /\ c = fadd F (nth i (nth j pop []) NaN) b
  else in_range (nth i (c_lower C) NaN) (nth i (c_upper C) NaN) c.
Lemma w_hs_comp : forall K F C p bw R pop i (Q : num -> elog -> Prop) l, cfg_ok C -> 0 < hs_n p -> length pop = hs_n p -> dims (c_dim C) pop -> pure_draw bw R ->
  i < c_dim C -> (forall c, note F C p R pop i c -> Q c l) -> wp K (hs_comp F C p bw pop i) Q l.
Proof.
  intros K F C p bw R pop i Q l HC Hn L D HB Hi HQ. unfold hs_comp. apply wp_bind. apply w_random_u. intros r Hr.
  apply wp_bind. apply w_integers; auto. intros j Hj. unfold note in HQ.
  destruct (fltb (hs_accept p) r) eqn:Q1; [|destruct (fltb (hs_pa p) r) eqn:Q2].
  - apply wp_bind. apply w_nthP; [lia|]. intros x Ex. assert (length x = c_dim C) by dnth. apply w_nthP; [lia|]. intros c Ec.
    apply HQ. exists r, j. split; auto. split; auto. rewrite Q1. rewrite (nth_error_nth _ _ [] Ex). symmetry. apply nth_error_nth. auto.
  - apply wp_bind. apply w_nthP; [lia|]. intros x Ex. assert (length x = c_dim C) by dnth. apply wp_bind. apply w_nthP; [lia|]. intros c Ec.
    apply wp_bind. apply HB. intros b Hb. apply w_done. apply HQ. exists r, j. split; auto. split; auto. rewrite Q1, Q2. exists b. split; auto.
    rewrite (nth_error_nth _ _ [] Ex), (nth_error_nth _ _ NaN Ec). auto.
  - apply wp_bind. apply w_nthP; [rewrite cfg_lower_len; auto|]. intros lo Elo. apply wp_bind. apply w_nthP; [rewrite cfg_upper_len; auto|]. intros hi Ehi.
    apply w_uniform. intros c Hc. apply HQ. exists r, j. split; auto. split; auto. rewrite Q1, Q2.
    rewrite (nth_error_nth _ _ NaN Elo), (nth_error_nth _ _ NaN Ehi). right. apply Hc.
    destruct HC as (_ & _ & HC). exact (Forall2_nth _ _ _ _ _ _ _ _ HC Elo Ehi).
Qed.
Definition harmony (F : fops) (C : cfg) (p : hs_par) (R : num -> Prop) (pop : list vec) (h : vec) : Prop := comps (c_dim C) h (note F C p R pop).
Lemma w_harmony : forall K F C p bw R pop (Q : vec -> elog -> Prop) l, cfg_ok C -> 0 < hs_n p -> length pop = hs_n p -> dims (c_dim C) pop -> pure_draw bw R ->
  (forall h, harmony F C p R pop h -> Q h l) -> wp K (mapM (hs_comp F C p bw pop) (seq 0 (c_dim C))) Q l.
Proof.
  intros K F C p bw R pop Q l HC Hn L D HB HQ. apply (w_mapM_pure _ _ _ _ (note F C p R pop)).
  - intros i P Hi HP. apply in_seq in Hi. apply (w_hs_comp _ _ _ _ _ R); auto. lia.
  - intros bs Hbs. apply HQ. destruct (Forall2_seq _ _ _ _ NaN Hbs) as [Lb H]. split; auto.
Qed.
Lemma w_hs_iter : forall F C X p bw R pop fit xb fxb u l, cfg_ok C -> 0 < hs_n p -> pure_draw bw R -> PopInv C (hs_n p) pop fit xb fxb l ->
  wp (KBX C X) (hs_iter F C true p bw pop fit xb fxb u) (fun a l' => let '(pop', fit', xb', fxb', u') := a in
    (PopInv C (hs_n p) pop' fit' xb' fxb' l' /\ True) /\ no_worse_fit (fit, xb, fxb) (fit', xb', fxb')) l.
Proof.
  intros F C X p bw R pop fit xb fxb u l HC Hn HB HI. assert (D := pi_dims _ _ _ _ _ _ _ HC HI). assert (Nf := pi_nan _ _ _ _ _ _ _ HI).
  assert (HI' := HI). destruct HI' as [P1 P2 _ _ _ _].
  unfold hs_iter. apply wp_bind. apply (w_harmony _ _ _ _ _ R); auto. intros h [Lh _].
  apply wp_bind. apply w_repair; auto. intros y Hy. apply wp_bind. apply w_eval; auto. intros f l' He. cbv zeta. cbn [negb].
  destruct (argmax fit) as [iw|] eqn:E1; [|destruct fit; simpl in *; [lia|discriminate]].
  assert (Hiw := argmax_range _ _ E1). apply wp_bind. apply w_nthP; auto. intros fw Ew.
  assert (T : forall pop' fit', (PopInv C (hs_n p) pop' fit' (if fleb f fxb then y else xb) (if fleb f fxb then f else fxb) l') ->
    no_worse_fit (fit, xb, fxb) (fit', (if fleb f fxb then y else xb), (if fleb f fxb then f else fxb)) ->
    wp (KBX C X) (let* (xb', fxb') := lift (get_best1 y f (Some xb) fxb) in Done (pop', fit', xb', fxb', u))
      (fun a l' => let '(pop', fit', xb', fxb', u') := a in (PopInv C (hs_n p) pop' fit' xb' fxb' l' /\ True) /\ no_worse_fit (fit, xb, fxb) (fit', xb', fxb')) l').
  { intros pop' fit' H1 H2. apply wp_bind. unfold get_best1. destruct (fleb f fxb); cbn [lift]; apply w_done; apply w_done; auto. }
  destruct (fleb f fw) eqn:Q.
  - apply wp_bind. apply w_setP; [lia|]. apply wp_bind. apply w_setP; auto. apply T.
    + apply pi_set_row with l; auto.
    + unfold no_worse_fit. cbn [fst]. apply (down_upd fit fit iw f fw); auto. apply down_refl; auto.
  - apply wp_bind. apply w_done. apply wp_bind. apply w_done. apply T.
    + apply pi_keep_row with l; auto.
    + unfold no_worse_fit. cbn [fst]. apply down_refl; auto.
Qed.
