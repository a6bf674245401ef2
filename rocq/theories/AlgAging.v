(** Proofs about AgingNpDifferentialEvolution (AlgDE.v, last part). *)
From Coq Require Import ZArith Lia Bool List.
From Verif Require Import Num Task TaskSpec TaskProofs TaskProofs2 Prog Wp GetBest Run RunSpec RunProofs
  AlgoLib Fops Indiv IndivLib AlgDE DESpec AlgDEProofs.
Import ListNotations.

Notation aind := (vec * num * nat)%type (only parsing).

(** exceptions of its own: round() of a lifetime that is not finite (de.py:753) *)
Definition aging_exn (e : exn) : Prop := e = EValue \/ e = EOverflow.

Definition AOks C l (pop : list aind) := Forall (IOk C l) (map fst pop).

Lemma ag_select_map : forall K pop new (Q : list aind -> elog -> Prop) l, length new = length pop ->
  Q (map2 ag_choose new pop) l -> wp K (ag_select pop new) Q l.
Proof.
  intros K pop new. revert pop. induction new as [|e new IH]; intros [|p pop] Q l Hl HQ; simpl in *; auto; try discriminate.
  apply wp_bind. apply IH; auto.
Qed.
Lemma map2_ag : forall new pop, map fst (map2 ag_choose new pop) = map2 de_choose (map fst new) (map fst pop).
Proof.
  induction new as [|e new IH]; intros [|p pop]; simpl; auto. rewrite IH. f_equal. unfold ag_choose, de_choose.
  destruct (fltb _ _); auto.
Qed.
Lemma map_age0 : forall (l : list ind) (a : nat), map fst (map (fun i => (i, a)) l) = l.
Proof. induction l; simpl; intros; f_equal; auto. Qed.

Lemma w_repeat_rand : forall C X n fb (Q : list ind -> elog -> Prop) l0 bs l, cfg_ok C -> IAcc C l0 fb bs l ->
  (forall cs l', length cs = n -> IAcc C l0 fb (bs ++ cs) l' -> ext l l' -> Q cs l') ->
  wp (KBX C X) (repeatM n (rand_ind C)) Q l.
Proof.
  intros C X n fb Q l0 bs l HC HI HQ. eapply wp_conseq.
  - apply (wp_repeatM _ _ _ (fun cs l' => IAcc C l0 fb (bs ++ cs) l')).
    + rewrite app_nil_r; auto.
    + intros cs l' _ H. apply w_rand_ind; auto. intros y v l1 Hy He. rewrite app_assoc. eapply IAcc_step; eauto.
  - intros cs l' He [H1 H2]. auto.
Qed.

Lemma w_aging : forall F C p pop (Q : list aind -> elog -> Prop) l xb fb, cfg_ok C -> pop <> [] -> 0 < de_n (ag_de p) ->
  AOks C l pop -> Good l xb fb ->
  (forall pop' l', AOks C l' pop' -> pop' <> [] -> ext l l' ->
      ((l' = l) \/ (length pop' = de_n (ag_de p) /\ Cov l' (ag_fits pop') fb)) -> Q pop' l') ->
  wp (KBX C aging_exn) (aging F C p pop) Q l.
Proof.
  intros F C p pop Q l xb fb HC Hne Hn HI HG HQ. unfold aging. cbv zeta.
  assert (Hf : map (fun i : aind => snd (fst i)) pop = map snd (map fst pop)) by (rewrite map_map; auto).
  rewrite Hf. set (fp := map snd (map fst pop)).
  assert (Nf : Forall (fun v => v <> NaN) fp) by (eapply (Seen2_not_nan l _ _ []); [eapply Good_Cov; eauto|eapply IOk_seen2; eauto]).
  assert (Hfe : fp <> []) by (unfold fp; destruct pop; simpl; congruence).
  destruct (argmin_spec fp Hfe Nf) as (ib & m & -> & (M1 & _)).
  destruct (argmax_spec fp Hfe Nf) as (iw & m' & -> & (M2 & _)).
  apply wp_bind. apply w_nthP. apply nth_error_Some; congruence. intros x_b _.
  apply wp_bind. apply w_nthP. apply nth_error_Some; congruence. intros x_w _.
  apply wp_bind. eapply wp_conseq0.
  - apply (wp_foldM _ _ _ _ (fun _ acc l' => l' = l /\ AOks C l acc)).
    + split; auto. constructor.
    + intros a r acc l' [pre Ep] [-> Ha]. apply wp_bind. unfold py_round.
      destruct (lifetime F p (snd (fst a)) _ x_w x_b); simpl; unfold aging_exn; auto.
      split; auto. destruct (Z.leb _ _); auto. unfold AOks. rewrite map_app. apply Forall_app. split; auto.
      simpl. constructor; auto. unfold AOks in HI. rewrite Forall_forall in HI. apply HI. apply in_map. rewrite Ep. apply in_or_app; simpl; auto.
  - intros kept l' [-> Hk]. destruct kept as [|k0 kept].
    + apply wp_bind. apply (w_repeat_rand C _ _ fb _ l []); auto.
      * apply IAcc_nil. apply LB_Cov. apply HG.
      * intros cs l' Hl (A1 & A2 & A3) He. simpl. simpl in A2, A3.
        assert (Hm : map fst (map (fun i : ind => (i, 0)) cs) = cs) by apply map_age0.
        apply HQ; auto.
        -- unfold AOks. rewrite Hm. auto.
        -- destruct cs; simpl in *; [lia|congruence].
        -- right. split. rewrite map_length; auto. unfold ag_fits. rewrite Hm. auto.
    + simpl. apply HQ; auto. congruence.
Qed.

Lemma w_decrement : forall K F C p pop (Q : list aind -> elog -> Prop) l, pop <> [] -> AOks C l pop ->
  (forall pop', AOks C l pop' -> pop' <> [] -> Q pop' l) -> wp K (decrement_population F p pop) Q l.
Proof.
  intros K F C p pop Q l Hne HI HQ. unfold decrement_population. apply wp_bind. apply w_view. intros v. cbv zeta.
  set (d := delta_pop F p (fcos F) (S (v_iters v))). destruct (length pop <=? d) eqn:E; [simpl; auto|].
  apply Nat.leb_gt in E. apply wp_bind. apply w_choice; [lia|]. intros ni N1 N2 N3.
  (* someone is not in ni *)
  assert (Hx : exists k, k < length pop /\ ~ In k ni).
  { destruct (Exists_dec (fun k => ~ In k ni) (seq 0 (length pop))) as [H|H].
    - intros k. destruct (in_dec Nat.eq_dec k ni); [right|left]; auto.
    - apply Exists_exists in H. destruct H as (k & K1 & K2). apply in_seq in K1. exists k. split; auto. lia.
    - exfalso. assert (incl (seq 0 (length pop)) ni).
      { intros k Hk. destruct (in_dec Nat.eq_dec k ni); auto. exfalso. apply H. apply Exists_exists. eauto. }
      apply NoDup_incl_length in H0; [|apply seq_NoDup]. rewrite seq_length in H0. lia. }
  destruct Hx as (k & K1 & K2).
  eapply wp_conseq0.
  - apply (wp_foldM _ _ _ _ (fun rest acc l' => l' = l /\ AOks C l acc /\ (acc <> [] \/ exists e, In (k, e) rest))).
    + split; auto. split; [constructor|]. right.
      destruct (nth_error pop k) as [e|] eqn:Ek. 2:{ apply nth_error_None in Ek. lia. }
      exists e. assert (X : nth_error (combine (seq 0 (length pop)) pop) k = Some (k, e)).
      { clear - Ek K1. rewrite <- (Nat.add_0_l k) at 2. revert Ek K1. generalize 0. revert k.
        induction pop as [|a pop IH]; intros [|k] s Ek K1; simpl in *; try discriminate.
        - rewrite Nat.add_0_r. inversion Ek; auto.
        - rewrite <- plus_n_Sm. rewrite <- plus_Sn_m. apply IH; auto. lia. }
      eapply nth_error_In; eauto.
    + intros [i e] r acc l' [pre Ep] (-> & Ha & Hd).
      assert (He : AOks C l (acc ++ [e])).
      { unfold AOks. rewrite map_app. apply Forall_app. split; auto. simpl. constructor; auto.
        assert (Hin : In (i, e) (combine (seq 0 (length pop)) pop)) by (rewrite Ep; apply in_or_app; simpl; auto).
        apply in_combine_r in Hin. unfold AOks in HI. rewrite Forall_forall in HI. apply HI. apply in_map; auto. }
      cbn [fst snd]. destruct (existsb (Nat.eqb i) ni) eqn:Ei.
      * apply wp_bind. apply w_random. intros u _ _. simpl. split; auto. split.
        -- destruct (fleb (ag_omega p) u); auto.
        -- destruct Hd as [Hd|(e0 & [Q0|Hd])].
           ++ left. destruct (fleb (ag_omega p) u); auto. destruct acc; simpl; congruence.
           ++ exfalso. inversion Q0; subst. apply existsb_exists in Ei. destruct Ei as (j & J1 & J2). apply Nat.eqb_eq in J2. subst. auto.
           ++ right. eauto.
      * simpl. split; auto. split; auto. left. destruct acc; simpl; congruence.
  - intros pop' l' (-> & H1 & [H2|(e & [])]). auto.
Qed.

Definition AInv (C : cfg) (pop : list aind) (fit : list num) (xb : vec) (fxb : num) (l : elog) : Prop :=
  pop <> [] /\ AOks C l pop /\ fit = ag_fits pop /\ length xb = c_dim C /\ Good l xb fxb.

Lemma aging_ok : forall F C p, cfg_ok C -> 0 < c_dim C -> 0 < de_n (ag_de p) ->
  exists Inv : rstate (aging_de F C p) -> elog -> Prop, algo_ok (KBX C aging_exn) (aging_de F C p) Inv /\
    (forall s l, Inv s l -> length (r_xb s) = c_dim C /\ Good l (r_xb s) (r_fxb s)).
Proof.
  intros F C p HC Hd Hn.
  exists (fun (s : rstate (aging_de F C p)) l => AInv C (r_pop s) (r_fit s) (r_xb s) (r_fxb s) l). split.
  2:{ intros s l (_ & _ & _ & H1 & H2). auto. }
  constructor.
  - unfold init_prog. simpl. apply wp_bind. apply wp_bind. apply w_default_individual_init; auto. intros pop l Hl HI Hc.
    simpl. apply wp_bind. unfold ag_xs. rewrite map_age0. apply (w_get_best0_i _ C); auto.
    + destruct pop; simpl in *; [lia|congruence].
    + intros x f G Hx. simpl. unfold AInv; simpl. split; [destruct pop; simpl in *; [lia|congruence]|].
      unfold AOks, ag_fits. rewrite map_age0. split; auto. split; auto. split; auto. apply inside_len; auto.
  - intros [pop fit xb fxb par] l (I1 & I2 & I3 & I4 & I5). simpl in *. unfold iter_prog. simpl.
    apply wp_bind. unfold aging_iteration. apply wp_bind. eapply wp_conseq.
    { apply (de_evolve_ok aging_exn F C (ag_de p) HC Hd (map fst pop) xb fxb l); auto.
      - rewrite map_length. destruct pop; simpl; [congruence|lia].
      - apply LB_Cov. apply I5. }
    intros new l1 Ex1 [(A1 & A2 & A3) A4]. rewrite map_length in A4. cbv beta zeta.
    apply wp_bind. apply ag_select_map. { rewrite map_length; auto. }
    set (arr := map2 ag_choose (map (fun i : ind => (i, 0)) new) pop).
    assert (Ha : map fst arr = map2 de_choose new (map fst pop)) by (unfold arr; rewrite map2_ag, map_age0; auto).
    assert (HI1 : Forall (IOk C l1) (map fst pop)) by (eapply IOks_ext; eauto).
    assert (HIa : Forall (IOk C l1) (map fst arr)) by (rewrite Ha; apply map2_choose_ok; auto).
    assert (Hca : Cov l1 (map snd (map fst arr)) fxb).
    { rewrite Ha. eapply map2_choose_cov; eauto. rewrite map_length; auto. }
    assert (Hla : length arr = length pop) by (unfold arr; apply map2_length; auto; rewrite map_length; auto).
    assert (Hna : map fst arr <> []) by (destruct arr, pop; simpl in *; congruence).
    apply wp_bind. unfold ag_xs, ag_fits. apply (w_get_best_i _ C); auto.
    { eapply Seen_ext; eauto. apply I5. } { apply I5. }
    intros xb1 fb1 G1 Hx1.
    assert (L1 : length xb1 = c_dim C) by (destruct Hx1 as [Hx1| ->]; auto; apply inside_len; auto).
    apply wp_bind. unfold increment_population. apply wp_bind. apply w_view. intros v. apply wp_bind.
    apply (w_repeat_rand C _ _ fb1 _ l1 []); auto. { apply IAcc_nil. apply LB_Cov. apply G1. }
    intros extra l2 He (B1 & B2 & B3) Ex2. simpl in B2, B3. simpl.
    assert (HIb : Forall (IOk C l2) (map fst (arr ++ map (fun i : ind => (i, 0)) extra))).
    { rewrite map_app, map_age0. apply Forall_app. split; auto. eapply IOks_ext; eauto. }
    apply wp_bind. apply (w_get_best_i _ C); auto.
    { rewrite map_app. destruct (map fst arr); simpl; congruence. }
    { eapply Seen_ext; eauto. apply G1. } { apply G1. }
    { eapply Cov_incl; [|exact B3]. rewrite map_app, map_age0, map_app. intros a Hi. apply in_or_app; auto. }
    intros xb2 fb2 G2 Hx2.
    assert (L2 : length xb2 = c_dim C) by (destruct Hx2 as [Hx2| ->]; auto; apply inside_len; auto).
    apply wp_bind. apply (w_aging F C p _ _ l2 xb2 fb2); auto.
    { intros Q0. apply (f_equal (map fst)) in Q0. rewrite map_app in Q0. destruct (map fst arr); simpl in Q0; congruence. }
    intros aged l3 D1 D2 D3 D4. cbv beta. apply wp_bind.
    assert (Fin : forall pop', AOks C l3 pop' -> pop' <> [] -> Cov l3 (ag_fits pop') fb2 ->
      wp (KBX C aging_exn)
        (let* (xb3, fxb3) := lift (get_best (map fst (map fst pop')) (map snd (map fst pop')) (Some xb2) fb2)
         in Done (pop', map snd (map fst pop'), xb3, fxb3, tt))
        (fun (a : list aind * list num * vec * num * unit) l' =>
          wp (KBX C aging_exn) (let (p0, par0) := a in let (p1, fxb0) := p0 in let (p2, xb0) := p1 in let (pop0, fit0) := p2 in
            Done (RState (A := aging_de F C p) pop0 fit0 xb0 fxb0 par0))
            (fun s l0 => AInv C (r_pop s) (r_fit s) (r_xb s) (r_fxb s) l0) l') l3).
    { intros pop' P1 P2 P3. apply wp_bind. apply (w_get_best_i _ C); auto.
      - destruct pop'; simpl; congruence.
      - eapply Seen_ext; eauto. apply G2.
      - apply G2.
      - intros x f G Hx. simpl. unfold AInv; simpl. split; auto. split; auto. split; auto. split; auto.
        destruct Hx as [Hx| ->]; auto. apply inside_len; auto. }
    destruct (de_n (ag_de p) <? length aged) eqn:E.
    + apply Nat.ltb_lt in E. destruct D4 as [->|[D4 _]]; [|lia].
      apply (w_decrement _ F C); auto. intros pop' P1 P2. apply Fin; auto. apply LB_Cov. apply G2.
    + apply w_done. apply Fin; auto. destruct D4 as [->|[_ D4]]; auto. apply LB_Cov. apply G2.
Qed.
