(** Proofs about AlgDE.v. *)
From Coq Require Import ZArith Lia Bool List.
From Verif Require Import Num Task TaskSpec TaskProofs TaskProofs2 Prog Wp GetBest Run RunSpec RunProofs
  AlgoLib Fops Indiv IndivLib AlgDE DESpec.
Import ListNotations.

Lemma others_spec : forall n ic, ic < n -> NoDup (others n ic) /\ length (others n ic) = n - 1 /\
  forall k, In k (others n ic) <-> k < n /\ k <> ic.
Proof.
  intros n ic Hic. assert (N : NoDup (others n ic)) by (apply NoDup_filter, seq_NoDup). split; auto.
  assert (M : forall k, In k (others n ic) <-> k < n /\ k <> ic).
  { intros k. unfold others. rewrite filter_In, in_seq. rewrite negb_true_iff, Nat.eqb_neq. lia. }
  split; auto.
  assert (X : length (seq 0 n) = length (ic :: others n ic)).
  { apply Nat.le_antisymm; apply NoDup_incl_length.
    - apply seq_NoDup.
    - intros k Hk. apply in_seq in Hk. simpl. destruct (Nat.eq_dec ic k); auto. right. apply M. lia.
    - constructor; auto. rewrite M. lia.
    - intros k [<-|Hk]; apply in_seq; [lia|]. apply M in Hk. lia. }
  rewrite seq_length in X. simpl in X. lia.
Qed.

Lemma w_draw_indices : forall K n ic k (Q : list nat -> elog -> Prop) l, ic < n ->
  (forall r, length r = k -> (forall j, In j r -> j < n) -> (k < n -> NoDup r /\ ~ In ic r) -> Q r l) ->
  wp K (draw_indices n ic k) Q l.
Proof.
  intros K n ic k Q l Hic HQ. unfold draw_indices. destruct (k <? n) eqn:E1.
  - apply Nat.ltb_lt in E1. destruct (others_spec n ic Hic) as (N & Ln & M).
    apply w_choice_from; auto. lia. intros rs H1 H2 H3. apply HQ; auto.
    + intros j Hj. apply H3, M in Hj. lia.
    + intros _. split; auto. intros Hi. apply H3, M in Hi. lia.
  - apply Nat.ltb_ge in E1. destruct (k =? n) eqn:E2.
    + apply Nat.eqb_eq in E2. apply w_choice; [lia|]. intros rs H1 H2 H3. apply HQ; auto. lia.
    + eapply wp_conseq0.
      * apply (wp_mapM_acc _ _ _ _ (fun bs l' => l' = l /\ forall j, In j bs -> j < n)); auto.
        { split; auto. intros j []. }
        intros pre a post bs l' _ _ [-> Hb]. apply w_integers; [lia|]. intros r Hr. split; auto.
        intros j Hj. apply in_app_or in Hj. destruct Hj as [Hj|[<-|[]]]; auto.
      * intros bs l' [[-> Hb] Hl]. rewrite seq_length in Hl. apply HQ; auto. lia.
Qed.

Lemma w_lookup : forall A K (pop : list A) r (Q : list A -> elog -> Prop) l, (forall j, In j r -> j < length pop) ->
  (forall rows, Forall2 (fun k row => nth_error pop k = Some row) r rows -> Q rows l) ->
  wp K (mapM (fun k => nthP pop k) r) Q l.
Proof.
  intros A K pop r. induction r as [|k r IH]; intros Q l Hr HQ; cbn [mapM].
  - simpl. apply HQ. constructor.
  - apply wp_bind. apply w_nthP. apply Hr; simpl; auto. intros row Hrow. apply wp_bind. apply IH.
    + intros j Hj. apply Hr; simpl; auto.
    + intros rows HF. simpl. apply HQ. constructor; auto.
Qed.
Lemma w_column : forall K (rows : list vec) i (Q : list num -> elog -> Prop) l, (forall row, In row rows -> i < length row) ->
  (forall a, Forall2 (fun row v => nth_error row i = Some v) rows a -> Q a l) ->
  wp K (mapM (fun row => nthP row i) rows) Q l.
Proof.
  intros K rows i. induction rows as [|row rows IH]; intros Q l Hr HQ; cbn [mapM].
  - simpl. apply HQ. constructor.
  - apply wp_bind. apply w_nthP. apply Hr; simpl; auto. intros v Hv. apply wp_bind. apply IH.
    + intros j Hj. apply Hr; simpl; auto.
    + intros a HF. simpl. apply HQ. constructor; auto.
Qed.

Lemma formula_value : forall F s f c b a, length a = n_draws s ->
  exists v, formula F s f c b a = Some v /\ mutant_value F s f c b a v.
Proof.
  intros F s f c b a Hl.
  destruct s; simpl in Hl; repeat (destruct a as [|? a]; simpl in Hl; try discriminate);
    simpl; eexists; split; try reflexivity; repeat eexists.
Qed.

Lemma Forall2_compose : forall A B D (P : A -> B -> Prop) (R : B -> D -> Prop) xs ys zs,
  Forall2 P xs ys -> Forall2 R ys zs -> Forall2 (fun x z => exists y, P x y /\ R y z) xs zs.
Proof.
  intros A B D P R xs ys zs H. revert zs. induction H; intros zs Hz; inversion Hz; subst; constructor; eauto.
Qed.

Lemma w_mutant : forall K F s f pop parent xb r rows i d (Q : num -> elog -> Prop) l,
  length parent = d -> length xb = d -> Forall (fun row => length row = d) rows -> i < d ->
  length r = n_draws s -> Forall2 (fun k row => nth_error pop k = Some row) r rows ->
  (forall v, mutant_comp F s f pop parent xb r i v -> Q v l) ->
  wp K (mutant F s f parent xb rows i) Q l.
Proof.
  intros K F s f pop parent xb r rows i d Q l Hp Hx Hrows Hi Hr HF HQ. unfold mutant.
  apply wp_bind. apply w_nthP; [lia|]. intros c Hc. apply wp_bind.
  assert (G : forall b, (uses_best s -> nth_error xb i = Some b) ->
     wp K (let* a := mapM (fun row => nthP row i) rows in
           match formula F s f c b a with Some v => Done v | None => Fail EIndex end) Q l).
  { intros b Hb. apply wp_bind. apply w_column.
    - intros row Hrow. rewrite Forall_forall in Hrows. rewrite Hrows; auto.
    - intros a Ha. destruct (formula_value F s f c b a) as (v & E & M).
      + apply Forall2_len in Ha. apply Forall2_len in HF. lia.
      + rewrite E. simpl. apply HQ. exists c, b, a. repeat split; auto.
        eapply Forall2_compose; eauto. }
  destruct s; try (apply w_done; apply G; intros []); (apply w_nthP; [lia|]; intros b Hb; apply G; auto).
Qed.

Lemma w_cross : forall K F s pop ic f cr xb d (Q : vec -> elog -> Prop) l,
  0 < d -> Forall (fun x => length x = d) pop -> ic < length pop -> length xb = d ->
  (forall x, length x = d -> crossed F s f cr pop ic xb x -> Q x l) ->
  wp K (cross F s pop ic f cr xb) Q l.
Proof.
  intros K F s pop ic f cr xb d Q l Hd Hpop Hic Hxb HQ. unfold cross.
  apply wp_bind. apply w_nthP; auto. intros parent Hpar.
  assert (Hlen : length parent = d) by (eapply Forall_nth in Hpar; [|exact Hpop]; auto).
  apply wp_bind. apply w_integers; [lia|]. intros j Hj.
  apply wp_bind. apply w_draw_indices; auto. intros r Hr1 Hr2 Hr3.
  apply wp_bind. apply w_lookup; auto. intros rows HF.
  assert (Hrows : Forall (fun row => length row = d) rows).
  { apply Forall_forall. intros row Hrow. apply In_nth_error in Hrow. destruct Hrow as [k Hk].
    destruct (nth_error r k) as [q|] eqn:Eq.
    - pose proof (Forall2_nth _ _ _ _ _ _ _ _ HF Eq Hk) as E. eapply Forall_nth in E; [|exact Hpop]; auto.
    - apply nth_error_None in Eq. apply Forall2_len in HF. assert (k < length rows). { apply nth_error_Some.
      rewrite Hk; discriminate. } lia. }
  set (Pc := fun (us : list num) (x : vec) => length us = length x /\
       Forall (fun u => fleb f0 u = true /\ fleb u rtop = true) us /\
       forall i u v, nth_error us i = Some u -> nth_error x i = Some v ->
       ((i = j \/ fltb u cr = true) -> mutant_comp F s f pop parent xb r i v) /\
       (i <> j -> fltb u cr = false -> nth_error parent i = Some v)).
  eapply wp_conseq0.
  - apply (wp_mapM_acc _ _ _ _ (fun x l' => l' = l /\ exists us, Pc us x)).
    + split; auto. exists []. split; auto. split; auto. intros [|i] u v Hu; discriminate.
    + intros pre a post bs l' Epp Hbs [-> (us & U1 & U2 & U3)].
      assert (Ha : a = length pre /\ a < length parent).
      { assert (X : nth_error (seq 0 (length parent)) (length pre) = Some a)
          by (rewrite Epp, nth_error_app2, Nat.sub_diag; auto).
        apply nth_error_seq in X. lia. }
      destruct Ha as [Ea Hal].
      apply wp_bind. apply w_random. intros u Hu1 Hu2.
      assert (Step : forall v,
        ((a = j \/ fltb u cr = true) -> mutant_comp F s f pop parent xb r a v) ->
        (a <> j -> fltb u cr = false -> nth_error parent a = Some v) -> exists us, Pc us (bs ++ [v])).
      { intros v H1 H2. exists (us ++ [u]). split; [rewrite !app_length; simpl; lia|]. split; [apply Forall_app; auto|].
        intros i u' v' Hu Hv. destruct (lt_dec i (length bs)) as [L|L].
        - rewrite nth_error_app1 in Hu, Hv; try lia. eapply U3; eauto.
        - rewrite nth_error_app2 in Hu, Hv; try lia. destruct (i - length bs) as [|q] eqn:Eq.
          + rewrite U1, Eq in Hu. simpl in Hu, Hv. inversion Hu; inversion Hv; subst. replace i with (length pre) by lia. auto.
          + simpl in Hv. destruct q; discriminate. }
      destruct (fltb u cr || (a =? j)) eqn:Eu.
      * eapply w_mutant; eauto; try lia. intros v Hv. split; auto. apply Step; auto.
        intros N1 N2. rewrite N2 in Eu. simpl in Eu. apply Nat.eqb_eq in Eu. contradiction.
      * apply orb_false_iff in Eu. destruct Eu as [Eu1 Eu2]. apply Nat.eqb_neq in Eu2.
        apply w_nthP; auto. intros v Hv. split; auto. apply Step; auto.
        intros [?|?]; [contradiction|congruence].
  - intros x l' [[-> (us & U1 & U2 & U3)] Hlx]. rewrite seq_length in Hlx. apply HQ; [lia|].
    exists parent, r, j, us. split; auto. split; [lia|]. split; auto. split; auto. split; auto. split; auto.
    split; [lia|]. split; auto.
Qed.

(** ** The invariant *)


Definition DInv (C : cfg) (P : nat -> Prop) (pop : list ind) (fit : list num) (xb : vec) (fxb : num) (l : elog) : Prop :=
  P (length pop) /\ 0 < length pop /\ Forall (IOk C l) pop /\ fit = map snd pop /\
  length xb = c_dim C /\ Good l xb fxb.

Lemma Forall_len_inside : forall C pop, cfg_ok C -> Forall (inside C) pop -> Forall (fun x => length x = c_dim C) pop.
Proof. intros C pop HC H. eapply Forall_impl; [|exact H]. intros x. apply inside_len; auto. Qed.

(** evolve: as many evaluated individuals as the population has *)
Definition evolve_ok (C : cfg) X (evolve : list ind -> vec -> prog (list ind)) : Prop :=
  forall pop xb fb l, 0 < length pop -> Forall (IOk C l) pop -> length xb = c_dim C -> Cov l [] fb ->
  wp (KBX C X) (evolve pop xb) (fun new l' => IAcc C l fb new l' /\ length new = length pop) l.

Lemma de_evolve_ok : forall X F C p, cfg_ok C -> 0 < c_dim C -> evolve_ok C X (de_evolve F p).
Proof.
  intros X F C p HC Hd pop xb fb l Hn HI Hx Hc. unfold de_evolve. eapply wp_conseq0.
  - apply (wp_mapM_acc _ _ _ _ (IAcc C l fb)).
    + apply IAcc_nil; auto.
    + intros pre a post bs l' Epp Hbs HA.
      assert (X0 : nth_error (seq 0 (length pop)) (length pre) = Some a) by (rewrite Epp, nth_error_app2, Nat.sub_diag; auto).
      apply nth_error_seq in X0.
      apply wp_bind. apply (w_cross _ F _ _ _ _ _ _ (c_dim C)); auto.
      * apply Forall_len_inside; auto. eapply IOk_inside; eauto.
      * rewrite map_length. lia.
      * intros x Hlx _. apply w_new_ind; auto. intros y v l1 Hy He. eapply IAcc_step; eauto.
  - intros new l' [H1 H2]. rewrite seq_length in H2. auto.
Qed.

Lemma argmin_member : forall (cand : list ind), cand <> [] -> Forall (fun v => v <> NaN) (map snd cand) ->
  exists k i, argmin (map snd cand) = Some k /\ nth_error cand k = Some i /\
    (forall j, In j cand -> fleb (snd i) (snd j) = true).
Proof.
  intros cand Hne Hn. destruct (argmin_spec (map snd cand)) as (b & m & E & (M1 & M2 & M3)); auto.
  { destruct cand; simpl; congruence. }
  rewrite nth_error_map in M1. destruct (nth_error cand b) as [i|] eqn:Ei; simpl in M1; inversion M1; subst.
  exists b, i. split; auto. split; auto. intros j Hj. apply In_nth_error in Hj. destruct Hj as [q Hq].
  apply (M2 q). rewrite nth_error_map, Hq. reflexivity.
Qed.

Lemma ms_evolve_ok : forall X F C p ss, cfg_ok C -> 0 < c_dim C -> ss <> [] -> evolve_ok C X (ms_evolve F p ss).
Proof.
  intros X F C p ss HC Hd Hss pop xb fb l Hn HI Hx Hc. unfold ms_evolve. eapply wp_conseq0.
  - apply (wp_mapM_acc _ _ _ _ (IAcc C l fb)).
    + apply IAcc_nil; auto.
    + intros pre a post bs l' Epp Hbs (HA1 & HA2 & HA3).
      assert (X0 : nth_error (seq 0 (length pop)) (length pre) = Some a) by (rewrite Epp, nth_error_app2, Nat.sub_diag; auto).
      apply nth_error_seq in X0. unfold multi_mutations. apply wp_bind. eapply wp_conseq0.
      * apply (wp_mapM_acc _ _ _ _ (fun cs l1 => IAcc C l fb (bs ++ cs) l1)).
        { rewrite app_nil_r. split; auto. }
        intros pre1 s post1 cs l1 _ _ HA. apply wp_bind. apply (w_cross _ F _ _ _ _ _ _ (c_dim C)); auto.
        -- apply Forall_len_inside; auto. eapply IOk_inside; eauto.
        -- rewrite map_length. lia.
        -- intros x Hlx _. apply w_new_ind; auto. intros y v l2 Hy He. rewrite app_assoc. eapply IAcc_step; eauto.
      * intros cand l1 [(B1 & B2 & B3) Hlc]. apply Forall_app in B2. destruct B2 as [B2 B2'].
        destruct (argmin_member cand) as (k & i & E1 & E2 & E3).
        -- destruct cand, ss; simpl in *; congruence.
        -- eapply Seen2_not_nan; eauto. eapply IOk_seen2; eauto.
        -- rewrite E1. apply w_nthP. apply nth_error_Some; congruence.
           intros i' E2'. rewrite E2 in E2'. inversion E2'; subst i'. split; [|split]; auto.
           ++ apply Forall_app. split; auto. constructor; auto. eapply Forall_nth; eauto.
           ++ intros y v Hy. destruct (B3 y v Hy) as [?|(g & G1 & G2)]; auto. right.
              rewrite map_app in *. apply in_app_or in G1. destruct G1 as [G1|G1].
              ** exists g. split; auto. apply in_or_app; auto.
              ** apply in_map_iff in G1. destruct G1 as (j & <- & Hj). exists (snd i). split.
                 apply in_or_app; simpl; auto. eapply fleb_trans; eauto.
  - intros new l' [H1 H2]. rewrite seq_length in H2. auto.
Qed.

(** selection keeps the better one at each position *)
Lemma de_choose_le : forall e p, snd e <> NaN -> snd p <> NaN ->
  fleb (snd (de_choose e p)) (snd e) = true /\ fleb (snd (de_choose e p)) (snd p) = true.
Proof.
  intros e p He Hp. unfold de_choose. destruct (fltb (snd e) (snd p)) eqn:E.
  - split; [apply fleb_refl; auto|apply fltb_fleb; auto].
  - split; [apply fltb_false_fleb; auto|apply fleb_refl; auto].
Qed.
Lemma w_de_select : forall K pop new (Q : list ind -> elog -> Prop) l, length new = length pop ->
  (Q (map2 de_choose new pop) l) -> wp K (de_select pop new) Q l.
Proof.
  intros K pop new. revert pop. induction new as [|e new IH]; intros [|p pop] Q l Hl HQ; simpl in *; auto; try discriminate.
  apply wp_bind. apply IH; auto.
Qed.
Lemma map2_choose_ok : forall C l new pop, Forall (IOk C l) new -> Forall (IOk C l) pop -> Forall (IOk C l) (map2 de_choose new pop).
Proof.
  intros C l new pop H. revert pop. induction H; intros pop Hp; simpl; auto. inversion Hp; subst; auto.
  constructor; auto. unfold de_choose. destruct (fltb _ _); auto.
Qed.
Lemma map2_choose_cov : forall C l new pop fb, length new = length pop -> Forall (IOk C l) new -> Forall (IOk C l) pop ->
  Cov l (map snd new) fb -> Cov l (map snd (map2 de_choose new pop)) fb.
Proof.
  intros C l new pop fb Hl Hn Hp Hc x v Hi.
  assert (Nn := Seen2_not_nan _ _ _ _ _ Hc (IOk_seen2 _ _ _ Hn)).
  assert (Np := Seen2_not_nan _ _ _ _ _ Hc (IOk_seen2 _ _ _ Hp)).
  destruct (Hc x v Hi) as [?|(g & G1 & G2)]; auto. right.
  apply in_map_iff in G1. destruct G1 as (e & <- & He).
  assert (G : exists c, In c (map2 de_choose new pop) /\ fleb (snd c) (snd e) = true).
  { clear - Hl Nn Np He. revert pop Hl Np. induction new as [|e' new IH]; intros [|p pop] Hl Np; simpl in *; try discriminate; try contradiction.
    inversion Nn; inversion Np; subst. destruct He as [->|He].
    - exists (de_choose e p). split; auto. apply de_choose_le; auto.
    - destruct (IH H2 He pop) as (c & C1 & C2); auto. exists c; auto. }
  destruct G as (c & C1 & C2). exists (snd c). split. apply in_map; auto. eapply fleb_trans; eauto.
Qed.

Definition selection_ok (C : cfg) X (P : nat -> Prop) (sel : list ind -> list ind -> vec -> num -> prog (list ind * vec * num)) : Prop :=
  forall pop new xb fb l, P (length pop) -> 0 < length pop -> length new = length pop ->
  Forall (IOk C l) pop -> Forall (IOk C l) new -> Cov l (map snd new) fb -> Seen l xb fb -> fb <> NaN -> length xb = c_dim C ->
  wp (KBX C X) (sel pop new xb fb)
     (fun r l' => match r with (arr, xb', fb') =>
        P (length arr) /\ 0 < length arr /\ Forall (IOk C l') arr /\ Good l' xb' fb' /\ length xb' = c_dim C end) l.

Lemma de_selection_ok : forall C X P, cfg_ok C -> selection_ok C X P de_selection.
Proof.
  intros C X P HC pop new xb fb l HP Hn Hl HI1 HI2 Hc Hs Hnan Hx. unfold de_selection.
  apply wp_bind. apply w_de_select; auto. apply wp_bind.
  assert (La : length (map2 de_choose new pop) = length pop) by (apply map2_length; auto).
  apply (w_get_best_i _ C); auto.
  - destruct (map2 de_choose new pop); simpl in *; [lia|congruence].
  - apply map2_choose_ok; auto.
  - eapply map2_choose_cov; eauto.
  - intros x f G Hin. simpl. rewrite La. split; [auto|split; [auto|split; [apply map2_choose_ok; auto|split; auto]]].
    destruct Hin as [Hin| ->]; auto. apply inside_len; auto.
Qed.

Definition post_ok (C : cfg) X (P : nat -> Prop) (post : list ind -> prog (list ind)) : Prop :=
  forall pop l, P (length pop) -> 0 < length pop -> Forall (IOk C l) pop ->
  wp (KBX C X) (post pop) (fun pop' l' => l' = l /\ P (length pop') /\ 0 < length pop' /\ Forall (IOk C l) pop') l.

Lemma de_like_ok : forall C X (P : nat -> Prop) evolve sel post n, cfg_ok C ->
  0 < n -> P n -> evolve_ok C X evolve -> selection_ok C X P sel -> post_ok C X P post ->
  exists Inv : rstate (de_like C n evolve sel post) -> elog -> Prop,
    algo_ok (KBX C X) (de_like C n evolve sel post) Inv /\
    (forall s l, Inv s l -> length (r_xb s) = c_dim C /\ Good l (r_xb s) (r_fxb s)) /\
    (forall s l, Inv s l -> P (length (r_fit s)) /\ length (r_fit s) = length (r_pop s : list ind)).
Proof.
  intros C X P evolve sel post n HC Hn HP He Hs Hp.
  exists (fun (s : rstate (de_like C n evolve sel post)) l =>
            DInv C P (r_pop s) (r_fit s) (r_xb s) (r_fxb s) l). split; [|split].
  - constructor.
    + unfold init_prog. simpl. apply wp_bind. unfold ind_init. apply wp_bind.
      apply w_default_individual_init; auto. intros pop l Hlen HI Hc. simpl. apply wp_bind.
      apply (w_get_best0_i _ C); auto.
      * destruct pop; simpl in *; [lia|congruence].
      * intros x f G Hx. simpl. split; [rewrite Hlen; auto|split; [simpl; lia|]]. split; auto. split; auto. split; auto.
        simpl. apply inside_len; auto.
    + intros [pop fit xb fxb par] l (I1 & I2 & I3 & I4 & I5 & I6). simpl in *. unfold iter_prog. simpl.
      apply wp_bind. unfold de_iteration. apply wp_bind. eapply wp_conseq. apply (He pop xb fxb l); auto.
      { apply LB_Cov. apply I6. }
      intros new l1 Ex1 [(A1 & A2 & A3) A4]. cbv beta. apply wp_bind. eapply wp_conseq0.
      { apply (Hs pop new xb fxb l1); auto. eapply IOks_ext; eauto. eapply Seen_ext; eauto. apply I6. apply I6. }
      intros [[arr xb1] fb1] l2 (B1 & B2 & B3 & B4 & B5). apply wp_bind. eapply wp_conseq0. apply (Hp arr l2); auto.
      intros pop' l3 (-> & D1 & D2 & D3). apply wp_bind. apply (w_get_best_i _ C); auto.
      * destruct pop'; simpl in *; [lia|congruence].
      * apply B4.
      * apply B4.
      * apply LB_Cov. apply B4.
      * intros x f G Hx. simpl. split; [auto|split; [simpl; lia|]]. split; auto. split; auto. split; auto.
        simpl. destruct Hx as [Hx| ->]; auto. apply inside_len; auto.
  - intros s l (I1 & I2 & I3 & I4 & I5 & I6). auto.
  - intros s l (I1 & I2 & I3 & I4 & I5). rewrite I4, map_length. auto.
Qed.

Lemma post_id_ok : forall C X P, post_ok C X P (fun pop => Done pop).
Proof. intros C X P pop l H1 H2 H3. simpl. auto. Qed.

Lemma w_halve : forall K C pop (Q : list ind -> elog -> Prop) l, Forall (IOk C l) pop ->
  (forall pop', length pop' = length pop / 2 -> Forall (IOk C l) pop' -> Q pop' l) -> wp K (halve pop) Q l.
Proof.
  intros K C pop Q l HI HQ. unfold halve. eapply wp_conseq0.
  - apply (wp_mapM_acc _ _ _ _ (fun bs l' => l' = l /\ Forall (IOk C l) bs)); auto.
    intros pre a post bs l' Epp _ [-> Hb].
    assert (X0 : nth_error (seq 0 (length pop / 2)) (length pre) = Some a) by (rewrite Epp, nth_error_app2, Nat.sub_diag; auto).
    apply nth_error_seq in X0. pose proof (Nat.mul_div_le (length pop) 2).
    apply wp_bind. apply w_nthP; [lia|]. intros x Hx. apply wp_bind. apply w_nthP; [lia|]. intros y Hy. simpl. split; auto.
    apply Forall_app. split; auto. constructor; auto. destruct (fltb _ _); [exact (Forall_nth _ _ _ _ _ HI Hx)|exact (Forall_nth _ _ _ _ _ HI Hy)].
  - intros bs l' [[-> Hb] Hl]. rewrite seq_length in Hl. auto.
Qed.
Lemma dynnp_post_ok : forall C X p_max rp (P : nat -> Prop), (forall n, P n -> 3 < n -> P (n / 2)) ->
  (p_max <> 0)%Z -> post_ok C X P (dynnp_post C p_max rp).
Proof.
  intros C X p_max rp P HP Hz pop l H1 H2 H3. unfold dynnp_post. apply wp_bind. apply w_view. intros v.
  destruct (c_max_evals C) as [|m]; [simpl; auto|]. cbv zeta.
  destruct (Z.eqb (p_max * Z.of_nat (length pop)) 0) eqn:Ez.
  { apply Z.eqb_eq in Ez. apply Zmult_integral in Ez. lia. }
  destruct (Z.eqb (Z.of_nat (v_iters v) + 1) (m / (p_max * Z.of_nat (length pop)) + rp) && (3 <? length pop)) eqn:Eg; [|simpl; auto].
  apply andb_true_iff in Eg. destruct Eg as [_ Eg]. apply Nat.ltb_lt in Eg.
  apply (w_halve _ C); auto. intros pop' Hl HI. rewrite Hl. repeat split; auto.
  pose proof (Nat.div_le_lower_bound (length pop) 2 1). lia.
Qed.
