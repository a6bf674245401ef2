(** Proofs about AlgEvo.v. *)
From Coq Require Import ZArith Lia Bool List Permutation Sorting.Sorted.
From Verif Require Import Num Task TaskSpec TaskProofs TaskProofs2 Prog Wp GetBest Run RunSpec RunProofs RunProofs2
  AlgoLib Fops AlgTac StepSpec StepLib Indiv IndivLib AlgPSO AlgPSOProofs AlgSwarm PopLib AlgSwarmProofs Reach SortLib AlgBasic AlgBasicProofs AlgEvo.
Import ListNotations.

(** draws whose value is not used *)
Lemma w_repeat_integers : forall K n d (Q : list nat -> elog -> Prop) l, 0 < d -> (forall v, Q v l) -> wp K (repeatM n (integers d)) Q l.
Proof.
  intros K n d Q l Hd HQ. eapply wp_conseq0.
  - apply (wp_repeatM _ K _ (fun _ l' => l' = l) n l); auto. intros bs l' _ ->. apply w_integers; auto.
  - intros v l' [-> _]. auto.
Qed.
Lemma choice_from_len : forall A K (xs : list A) k (Q : list A -> elog -> Prop) l, k <= length xs ->
  (forall ys, length ys = k -> (forall y, In y ys -> In y xs) -> Q ys l) -> wp K (choice_from xs k) Q l.
Proof.
  intros A K xs k. revert xs. induction k as [|k IH]; intros xs Q l Hk HQ; cbn [choice_from].
  - apply w_done. apply HQ; auto. intros y [].
  - destruct xs as [|x xs]; [simpl in Hk; lia|]. set (zs := x :: xs) in *. apply wp_bind. apply w_integers; [unfold zs; simpl; lia|]. intros i Hi.
    apply wp_bind. apply w_nthP; auto. intros a Ha.
    assert (R : forall (B : Type) (l0 : list B) j, j < length l0 -> length (remove_at l0 j) = length l0 - 1 /\ forall y, In y (remove_at l0 j) -> In y l0).
    { clear. intros B l0. induction l0 as [|b l0 IH]; intros j Hj; [simpl in Hj; lia|]. destruct j as [|j]; cbn [remove_at length] in *.
      - split; [lia|]. simpl. auto.
      - destruct (IH j) as [I1 I2]; [lia|]. split; [lia|]. intros y [->|Hy]; simpl; auto. }
    destruct (R _ zs i Hi) as [R1 R2]. apply wp_bind. apply IH; [lia|]. intros ys L HI. apply w_done. apply HQ; [simpl; lia|].
    intros y [<-|Hy]; auto. eapply nth_error_In; eauto.
Qed.

(** ** GeneticAlgorithm *)
Record IPop (C : cfg) (n : nat) (pop : list ind) (fit : list num) (xb : vec) (fxb : num) (l : elog) : Prop := {
  ip_pop : length pop = n; ip_fit : fit = map snd pop; ip_ok : Forall (IOk C l) pop; ip_xb : length xb = c_dim C; ip_good : Good l xb fxb
}.
Definition ga_ok (p : ga_par) : Prop :=
  0 < ga_n p /\ match ga_s p with STournament ts => 1 <= ts <= ga_n p | SRoulette => True end.
Lemma w_ga_select : forall K F s pop i xb (Q : vec -> elog -> Prop) l, i < length pop ->
  match s with STournament ts => 1 <= ts <= length pop | SRoulette => True end ->
  (forall v, Q v l) -> wp K (ga_select F s pop i xb) Q l.
Proof.
  intros K F [ts|] pop i xb Q l Hi Hs HQ; unfold ga_select.
  - apply wp_bind. apply choice_from_len; [rewrite seq_length; lia|]. intros is L HI. apply wp_bind.
    apply (w_mapM_pure _ _ _ _ (fun _ _ => True)).
    + intros a P Ha HP. apply w_nthP; [|auto]. apply HI in Ha. apply in_seq in Ha. lia.
    + intros cs Hc. apply Forall2_len in Hc. assert (N : map snd cs <> []) by (destruct cs; simpl in *; [lia|discriminate]).
      destruct (argmin (map snd cs)) as [k|] eqn:E; [|destruct (map snd cs); [congruence|discriminate]].
      apply argmin_range in E. rewrite map_length in E. apply wp_bind. apply w_nthP; auto. intros c _. apply w_done. auto.
  - cbv zeta. apply wp_bind. apply w_nthP; auto. intros x _. apply wp_bind. apply w_random_u. intros r _. apply w_done. auto.
Qed.
Lemma w_ga_crossover : forall K F x pop d i (Q : vec -> elog -> Prop) l, i < length pop -> dims d (map fst pop) -> 0 < d ->
  (forall v, Q v l) -> wp K (ga_crossover F x pop i) Q l.
Proof.
  intros K F x pop d i Q l Hi D Hd HQ. unfold ga_crossover. apply wp_bind. apply w_nthP; auto. intros a Ea. cbv zeta.
  assert (La : length (fst a) = d) by (eapply dims_nth; [exact D|apply map_nth_error; exact Ea]). rewrite La.
  destruct x as [|k|cr|cr].
  - apply wp_bind. apply w_repeat_integers; auto. intros v. apply w_done. auto.
  - apply wp_bind. apply w_repeat_integers; auto. intros v. apply w_done. auto.
  - apply wp_bind. apply w_integers; auto. intros j Hj. apply w_mapM_len; auto.
    intros k R Hk HR. apply in_seq in Hk. apply wp_bind. apply w_random_u. intros r _. destruct (fltb r cr || (k =? j)); apply w_nthP; auto; lia.
  - apply wp_bind. apply w_random_vec_u. intros rs _ _. apply w_done. auto.
Qed.
(** component k of a mutated point: a fresh draw if the draw r is below the rate or k = j, the parent's otherwise *)
Definition mut_comp (C : cfg) (mr : num) (x : vec) (j k : nat) (c : num) : Prop :=
  exists r, in_unit r /\
    if fltb r mr || (k =? j) then fleb (nth k (c_lower C) NaN) c = true /\ fleb c (nth k (c_upper C) NaN) = true else c = nth k x NaN.
Definition mut_eq (C : cfg) (m : ga_mut) (pop : list vec) (i : nat) (y : vec) : Prop :=
  match m with
  | MUniform mr => exists j, j < c_dim C /\ comps (c_dim C) y (mut_comp C mr (nth i pop []) j)
  | MUros _ => comps (c_dim C) y (fun k c => fleb (nth k (c_lower C) NaN) c = true /\ fleb c (nth k (c_upper C) NaN) = true)
  | MCreep mr => exists k j, k < length pop /\ j < c_dim C /\ comps (c_dim C) y (mut_comp C mr (nth k pop []) j)
  end.
Lemma cfg_le : forall C k lo hi, cfg_ok C -> nth_error (c_lower C) k = Some lo -> nth_error (c_upper C) k = Some hi -> fleb lo hi = true.
Proof. intros C k lo hi (_ & _ & H) E1 E2. exact (Forall2_nth _ _ _ _ _ _ _ _ H E1 E2). Qed.
Lemma np_clip : forall lo hi v, fleb lo hi = true -> fleb lo (np_fmin (np_fmax v lo) hi) = true /\ fleb (np_fmin (np_fmax v lo) hi) hi = true.
Proof.
  intros lo hi v H. unfold np_fmin, np_fmax. destruct lo as [| |a|], hi as [| |b|], v as [| |c|]; simpl in *; try discriminate; auto;
  repeat match goal with |- context [Z.ltb ?m ?n] => destruct (Z.ltb_spec m n); simpl end; rewrite ?Z.leb_le in *; split; auto; try lia; apply Z.leb_le; lia.
Qed.
Lemma w_mut_comps : forall K C mr x j (Q : vec -> elog -> Prop) l, cfg_ok C -> length x = c_dim C ->
  (forall y, comps (c_dim C) y (mut_comp C mr x j) -> Q y l) ->
  wp K (mapM (ga_mut_comp C mr x j) (seq 0 (c_dim C))) Q l.
Proof.
  intros K C mr x j Q l HC Lx HQ. apply (w_mapM_pure _ _ _ _ (mut_comp C mr x j)).
  - intros k P Hk HP. apply in_seq in Hk. unfold ga_mut_comp. apply wp_bind. apply w_random_u. intros r Hr.
    destruct (fltb r mr || (k =? j)) eqn:B.
    + apply wp_bind. apply w_nthP; [rewrite cfg_lower_len by auto; lia|]. intros lo El. apply wp_bind. apply w_nthP; [rewrite cfg_upper_len by auto; lia|]. intros hi Eh.
      apply w_uniform. intros c Hc. apply HP. exists r. rewrite B. split; auto. rewrite (nth_error_nth _ _ NaN El), (nth_error_nth _ _ NaN Eh).
      apply Hc. eapply cfg_le; eauto.
    + apply w_nthP; [lia|]. intros c Ec. apply HP. exists r. rewrite B. split; auto. symmetry. apply nth_error_nth; auto.
  - intros bs Hb. apply HQ. destruct (Forall2_seq _ _ _ _ NaN Hb) as [L H]. split; auto.
Qed.
Lemma w_ga_mutate : forall K F C m pop i (Q : vec -> elog -> Prop) l, cfg_ok C -> 0 < c_dim C -> i < length pop -> dims (c_dim C) (map fst pop) ->
  (forall y, mut_eq C m (map fst pop) i y -> Q y l) -> wp K (ga_mutate F C m pop i) Q l.
Proof.
  intros K F C m pop i Q l HC Hd Hi D HQ. unfold ga_mutate, mut_eq in *.
  assert (Row : forall k a, nth_error pop k = Some a -> length (fst a) = c_dim C /\ nth k (map fst pop) [] = fst a).
  { intros k a E. assert (E' := map_nth_error fst _ _ E). split; [eapply dims_nth; eauto|]. apply nth_error_nth; auto. }
  destruct m as [mr|mr|mr].
  - apply wp_bind. apply w_integers; auto. intros j Hj. apply wp_bind. apply w_nthP; auto. intros a Ea. destruct (Row _ _ Ea) as [R1 R2].
    apply w_mut_comps; auto. intros y Hy. apply HQ. exists j. rewrite R2. auto.
  - apply wp_bind. apply w_nthP; auto. intros a Ea. destruct (Row _ _ Ea) as [R1 R2]. apply wp_bind. apply w_rnd_f_vec. intros y Ly.
    apply w_done. apply HQ. assert (Ll := cfg_lower_len C HC). assert (Lu := cfg_upper_len C HC). split; [dl|]. intros k Hk. nths (c_dim C). apply np_clip.
    destruct (nth_error (c_lower C) k) as [lo|] eqn:El; [|apply nth_error_None in El; lia].
    destruct (nth_error (c_upper C) k) as [hi|] eqn:Eh; [|apply nth_error_None in Eh; lia].
    rewrite (nth_error_nth _ _ NaN El), (nth_error_nth _ _ NaN Eh). eapply cfg_le; eauto.
  - apply wp_bind. apply w_integers; [lia|]. intros k Hk. apply wp_bind. apply w_integers; auto. intros j Hj. apply wp_bind. apply w_nthP; auto. intros a Ea.
    destruct (Row _ _ Ea) as [R1 R2]. apply w_mut_comps; auto. intros y Hy. apply HQ. exists k, j. rewrite map_length, R2. auto.
Qed.
Lemma mut_len : forall C m pop i y, mut_eq C m pop i y -> length y = c_dim C.
Proof. intros C [mr|mr|mr] pop i y H; simpl in H; [destruct H as (j & _ & H & _)|destruct H as [H _]|destruct H as (k & j & _ & _ & H & _)]; auto. Qed.
Lemma w_ga_iter : forall F C X p pop fit xb fxb u l, cfg_ok C -> 0 < c_dim C -> ga_ok p -> IPop C (ga_n p) pop fit xb fxb l ->
  wp (KBX C X) (ga_iter F C p pop fit xb fxb u) (fun a l' => let '(pop', fit', xb', fxb', u') := a in IPop C (ga_n p) pop' fit' xb' fxb' l') l.
Proof.
  intros F C X p pop fit xb fxb u l HC Hd [Hn Hs] [P1 P2 P3 P4 P5]. unfold ga_iter. apply wp_bind.
  assert (D : dims (c_dim C) (map fst pop)) by (apply dims_inside; auto; eapply IOk_inside; eauto).
  eapply wp_conseq0.
  - apply (wp_for_range _ _ _ _ (fun i (s : list ind * vec * num) l' => let '(new, xb', fxb') := s in
      length new = i /\ Forall (IOk C l') new /\ length xb' = c_dim C /\ Good l' xb' fxb')).
    + auto.
    + intros i [[new xb'] fxb'] l' Hi (A1 & A2 & A3 & A4). unfold ga_step. apply wp_bind. apply w_ga_select; [lia|rewrite P1; exact Hs|]. intros _.
      apply wp_bind. apply (w_ga_crossover _ _ _ _ (c_dim C)); auto; [lia|]. intros _.
      apply wp_bind. apply w_ga_mutate; auto; [lia|]. intros y Hy. apply mut_len in Hy. apply wp_bind. apply (w_new_ind C X y); auto. intros z f l1 Hz He.
      cbn [fst snd]. assert (N : Forall (IOk C l1) (new ++ [(z, f)]) /\ length (new ++ [(z, f)]) = i + 1).
      { split; [|rewrite app_length; simpl; lia]. apply Forall_app. split; [eapply IOks_ext; [eapply Evald_ext; eauto|auto]|].
        constructor; auto. split; auto. eapply Evald_seen; eauto. }
      destruct N as [N1 N2]. destruct (fltb f fxb') eqn:B.
      * apply fltb_fleb in B. unfold get_best1. rewrite B. cbn [lift]. apply wp_bind. apply w_done. apply w_done. split; auto. split; auto. split; [apply inside_len; auto|].
        eapply Good_take; eauto.
      * apply w_done. split; auto. split; auto. split; auto. eapply Good_keep; eauto.
  - intros [[new xb'] fxb'] l' (A1 & A2 & A3 & A4). apply w_done. constructor; auto.
Qed.
Lemma ga_init_ok : forall F C X p, cfg_ok C -> ga_ok p ->
  init_c (KBX C X) (ga F C p) (fun pop fit xb fxb _ l => IPop C (ga_n p) pop fit xb fxb l).
Proof.
  intros F C X p HC [Hn _]. unfold init_c. cbn [a_init a_coords ga]. unfold ga_init. apply wp_bind. apply w_default_individual_init; auto.
  intros pop l Hl HI Hc. apply w_done. apply (w_get_best0_i _ C); auto. { destruct pop; simpl in *; [lia|congruence]. }
  intros x f G Hx. cbn [fst snd]. constructor; auto. apply inside_len; auto.
Qed.

(** ** Sorted populations *)
Lemma sorted_good : forall C l pop fit p ps, cfg_ok C -> Forall (inside C) pop -> Forall2 (Seen l) pop fit -> Cov l fit PInf ->
  sort_by (combine pop fit) = p :: ps -> length (fst p) = c_dim C /\ Good l (fst p) (snd p).
Proof.
  intros C l pop fit p ps HC Hin Hs Hc E. assert (Nf := Seen2_not_nan _ _ _ _ _ Hc Hs). assert (Lf := Forall2_len _ _ _ _ _ Hs).
  assert (Ip : In p (combine pop fit)) by (apply sort_by_In; rewrite E; simpl; auto).
  assert (Np : snd p <> NaN). { rewrite Forall_forall in Nf. apply Nf. destruct p. eapply in_combine_r; eauto. }
  split; [apply inside_len; auto; rewrite Forall_forall in Hin; apply Hin; eapply in_combine_fst; eauto|].
  split; [eapply in_combine_seen; eauto|]. split; auto. intros y v Hy.
  destruct (Hc y v Hy) as [C1|(g & G1 & G2)].
  - assert (v = PInf) by (destruct v; simpl in C1; congruence). subst v. destruct (snd p); simpl; auto; congruence.
  - destruct (In_snd_combine _ _ pop fit g Lf G1) as (z & Hz). eapply fleb_trans; [|exact G2].
    apply key_le_fleb; [rewrite Forall_forall in Nf; auto|]. exact (sort_by_hd _ _ _ E _ Hz).
Qed.
Lemma sorted_rows : forall C l pop fit, Forall (inside C) pop -> Forall2 (Seen l) pop fit ->
  let so := sort_by (combine pop fit) in Forall (inside C) (map fst so) /\ Forall2 (Seen l) (map fst so) (map snd so) /\ length so = length pop.
Proof.
  intros C l pop fit Hin Hs so. assert (Lf := Forall2_len _ _ _ _ _ Hs). split; [|split].
  - apply Forall_forall. intros x Hx. apply in_map_iff in Hx. destruct Hx as (p & <- & Hp). apply (proj1 (sort_by_In _ _)) in Hp.
    rewrite Forall_forall in Hin. apply Hin. eapply in_combine_fst; eauto.
  - assert (H : Forall (fun p => Seen l (fst p) (snd p)) so).
    { apply Forall_forall. intros p Hp. apply (proj1 (sort_by_In _ _)) in Hp. eapply in_combine_seen; eauto. }
    clearbody so. induction H; simpl; constructor; auto.
  - unfold so. rewrite sort_by_len, combine_length. lia.
Qed.

(** ** BeesAlgorithm *)
Definition bea_ok (p : bea_par) : Prop := 1 <= be_m p /\ be_e p <= be_m p /\ be_m p <= be_n p.
(** rows are evaluated points; everything evaluated is at least one of the first k values *)
Record BeeSt (C : cfg) (n k : nat) (s : list vec * list num) (l : elog) : Prop := {
  bs_pop : length (fst s) = n; bs_in : Forall (inside C) (fst s); bs_seen : Forall2 (Seen l) (fst s) (snd s);
  bs_cov : Cov l (firstn k (snd s)) PInf
}.
Lemma bs_fit : forall C n k s l, BeeSt C n k s l -> length (snd s) = n.
Proof. intros C n k s l [H1 _ H3 _]. apply Forall2_len in H3. lia. Qed.
Definition dance_eq (F : fops) (C : cfg) (ngh : num) (x y : vec) : Prop :=
  exists k r, k < c_dim C /\ (fleb (fneg ngh) ngh = true -> fleb (fneg ngh) r = true /\ fleb r ngh = true) /\
  y = upd x k (fadd F (nth k x NaN) r).
Lemma w_bee_dance : forall F C X ngh x (Q : vec * num -> elog -> Prop) l, length x = c_dim C -> 0 < c_dim C ->
  (forall y f l', inside C y -> Evald y f l l' -> Q (y, f) l') -> wp (KBX C X) (bee_dance F C ngh x) Q l.
Proof.
  intros F C X ngh x Q l Lx Hd HQ. unfold bee_dance. apply wp_bind. apply w_integers; auto. intros k Hk. apply wp_bind. apply w_nthP; [lia|]. intros a Ea.
  apply wp_bind. apply w_uniform. intros r Hr. apply wp_bind. apply w_repair; [rewrite upd_length; auto|]. intros y Hy.
  apply wp_bind. apply w_eval; auto. intros f l' He. apply w_done. auto.
Qed.
Lemma firstn_upd_In : forall (fs : list num) k i v g, i < k -> i < length fs -> fleb v (nth i fs NaN) = true ->
  In g (firstn k fs) -> exists g', In g' (firstn k (upd fs i v)) /\ (g' = g \/ (g' = v /\ g = nth i fs NaN)).
Proof.
  induction fs as [|f fs IH]; intros [|k] [|i] v g Hk Hi Hv Hg; simpl in *; try lia; try contradiction.
  - destruct Hg as [<-|Hg]; [exists v|exists g]; auto.
  - destruct Hg as [<-|Hg]; [exists f; auto|]. destruct (IH k i v g) as (g' & G1 & G2); auto; try lia. eauto.
Qed.
Lemma In_firstn_upd : forall (fs : list num) k i v, i < k -> i < length fs -> In v (firstn k (upd fs i v)).
Proof. induction fs as [|f fs IH]; intros [|k] [|i] v H1 H2; simpl in *; try lia; auto. right. apply IH; lia. Qed.
Lemma w_bea_site : forall F C X ngh m n k s i l, cfg_ok C -> 0 < c_dim C -> i < m -> m <= n -> BeeSt C n m s l ->
  wp (KBX C X) (bea_site F C ngh k s i) (fun s' l' => BeeSt C n m s' l') l.
Proof.
  intros F C X ngh m n k [pop fit] i l HC Hd Hi Hm HB. assert (Lf := bs_fit _ _ _ _ _ HB). destruct HB as [B1 B2 B3 B4]. cbn [fst snd] in *.
  unfold bea_site. cbn [fst snd]. apply wp_bind. eapply wp_conseq.
  - apply (wp_for_range _ _ _ _ (fun _ (b : option vec * num) l' => ext l l' /\ Cov l' (snd b :: firstn m fit) PInf /\
      match fst b with Some y => inside C y /\ Seen l' y (snd b) | None => snd b = PInf end)).
    + split; [apply ext_refl|]. split; [|reflexivity]. eapply Cov_incl; [|exact B4]. intros a Ha. simpl. auto.
    + intros j [bp bc] l' Hj (A1 & A2 & A3). cbn [fst snd] in *. apply wp_bind. apply w_nthP; [lia|]. intros x Ex.
      assert (Lx : length x = c_dim C) by (apply inside_len; auto; exact (Forall_nth _ _ _ _ _ B2 Ex)).
      apply wp_bind. apply w_bee_dance; auto. intros y f l1 Hy He. apply w_done. assert (Ex1 := Evald_ext _ _ _ _ He). assert (Nf := Evald_nan _ _ _ _ He).
      split; [eapply ext_trans; eauto|]. assert (C1 := Cov_Evald _ _ _ _ _ _ A2 He).
      destruct (fltb f bc) eqn:Q; cbn [fst snd].
      * split; [|split; [exact Hy|eapply Evald_seen; eauto]]. eapply Cov_dom; [exact C1|]. intros g [<-|[<-|Hg]] Ng.
        -- exists f. split; [simpl; auto|apply fleb_refl; auto].
        -- exists f. split; [simpl; auto|apply fltb_fleb; auto].
        -- exists g. split; [simpl; auto|apply fleb_refl; auto].
      * split; [|destruct bp as [z|]; [destruct A3; split; [auto|eapply Seen_ext; eauto]|auto]].
        eapply Cov_dom; [exact C1|]. intros g [<-|[<-|Hg]] Ng.
        -- exists bc. split; [simpl; auto|]. apply fltb_false_fleb; auto. destruct bp as [z|]; [|subst bc; discriminate].
           destruct A3 as [_ A3]. exact (Seen_not_nan _ _ _ _ _ A2 A3).
        -- exists bc. split; [simpl; auto|apply fleb_refl; auto].
        -- exists g. split; [simpl; auto|apply fleb_refl; auto].
  - intros [bp bc] l' _ (A1 & A2 & A3). cbn [fst snd] in *. apply wp_bind. apply w_nthP; [lia|]. intros fi Ei.
    assert (S' := Seen2_ext _ _ _ _ A1 B3). assert (Nf := Seen2_not_nan _ _ _ _ _ A2 S').
    assert (Ni : fi <> NaN) by (exact (Forall_nth _ _ _ _ _ Nf Ei)). assert (Ei' := nth_error_nth _ _ NaN Ei).
    destruct (fltb bc fi) eqn:Q.
    + destruct bp as [y|]; [|subst bc; destruct fi; discriminate]. destruct A3 as [Hy Sy].
      apply wp_bind. apply w_setP; [lia|]. apply wp_bind. apply w_setP; [lia|]. apply w_done. constructor; cbn [fst snd].
      * rewrite upd_length; auto.
      * apply Forall_upd; auto.
      * apply Forall2_upd; auto.
      * eapply Cov_dom; [exact A2|]. assert (Nb : bc <> NaN) by (eapply Seen_not_nan; eauto). intros g [<-|Hg] Ng.
        -- exists bc. split; [apply In_firstn_upd; lia|apply fleb_refl; auto].
        -- apply fltb_fleb in Q. destruct (firstn_upd_In fit m i bc g) as (g' & G1 & [->|[-> ->]]); auto; try lia; try congruence.
           ++ exists g. split; auto. apply fleb_refl; auto.
           ++ exists bc. split; auto. congruence.
    + apply w_done. constructor; cbn [fst snd]; auto. eapply Cov_dom; [exact A2|]. intros g [<-|Hg] Ng.
      * exists fi. split; [|apply fltb_false_fleb; auto]. rewrite <- Ei'. clear - Hi Lf Hm. revert m i n Hi Hm Lf.
        induction fit as [|f fit IH]; intros [|m] [|i] n Hi Hm Lf; simpl in *; try lia; auto. right. apply (IH m i (n - 1)); lia.
      * exists g. split; auto. apply fleb_refl; auto.
Qed.
Lemma firstn_S_upd : forall (fs : list num) i v, i < length fs -> firstn (S i) (upd fs i v) = firstn i fs ++ [v].
Proof. exact (firstn_upd num). Qed.
Lemma w_bea_scout : forall C X n s i l, cfg_ok C -> i < n -> BeeSt C n i s l ->
  wp (KBX C X) (bea_scout C s i) (fun s' l' => BeeSt C n (S i) s' l') l.
Proof.
  intros C X n [pop fit] i l HC Hi HB. assert (Lf := bs_fit _ _ _ _ _ HB). destruct HB as [B1 B2 B3 B4]. cbn [fst snd] in *.
  unfold bea_scout. cbn [fst snd]. apply wp_bind. apply w_uniform_pt; auto. intros x Hx. apply wp_bind. apply w_setP; [lia|].
  apply wp_bind. apply w_eval; auto. intros f l' He. apply wp_bind. apply w_setP; [lia|]. apply w_done. constructor; cbn [fst snd].
  - rewrite upd_length; auto.
  - apply Forall_upd; auto.
  - apply Forall2_upd; [eapply Seen2_ext; [eapply Evald_ext; eauto|auto]|eapply Evald_seen; eauto].
  - rewrite firstn_S_upd by lia. eapply Cov_incl; [|eapply Cov_Evald; eauto]. intros a Ha. apply in_or_app. destruct Ha; simpl; auto.
Qed.
Lemma w_foldM_seq : forall S K (f : S -> nat -> prog S) (I : nat -> S -> elog -> Prop) k a s l,
  I a s l -> (forall i s' l', a <= i < a + k -> I i s' l' -> wp K (f s' i) (fun s'' l'' => I (Datatypes.S i) s'' l'') l') ->
  wp K (foldM f (seq a k) s) (fun s' l' => I (a + k) s' l') l.
Proof.
  intros S K f I k. induction k as [|k IH]; intros a s l H0 Hs; cbn [seq foldM].
  - apply w_done. replace (a + 0) with a by lia. auto.
  - apply wp_bind. eapply wp_conseq0; [apply Hs; [lia|auto]|]. intros s1 l1 H1. replace (a + Datatypes.S k) with (Datatypes.S a + k) by lia.
    apply IH; auto. intros i s' l' Hi HI. apply Hs; auto. lia.
Qed.
Definition BeaInv (C : cfg) (n : nat) (pop : list vec) (fit : list num) (xb : vec) (fxb : num) (l : elog) : Prop :=
  PopInv C n pop fit xb fxb l /\ nth_error fit 0 = Some fxb.
Lemma sorted_inv : forall C n s l, cfg_ok C -> 0 < n -> BeeSt C n n s l ->
  let so := sort_by (combine (fst s) (snd s)) in exists p, nth_error so 0 = Some p /\ BeaInv C n (map fst so) (map snd so) (fst p) (snd p) l.
Proof.
  intros C n [pop fit] l HC Hn HB so. assert (Lf := bs_fit _ _ _ _ _ HB). destruct HB as [B1 B2 B3 B4]. cbn [fst snd] in *.
  rewrite firstn_all2 in B4 by lia. destruct (sorted_rows C l pop fit B2 B3) as (R1 & R2 & R3). fold so in R1, R2, R3.
  destruct so as [|p ps] eqn:E; [simpl in R3; lia|]. exists p. split; auto. destruct (sorted_good C l pop fit p ps HC B2 B3 B4 E) as [G1 G2].
  split; [|reflexivity]. constructor; rewrite ?map_length; auto; lia.
Qed.
Lemma w_bea_iter : forall F C X p pop fit xb fxb ngh l, cfg_ok C -> 0 < c_dim C -> bea_ok p -> BeaInv C (be_n p) pop fit xb fxb l ->
  wp (KBX C X) (bea_iter F C p pop fit xb fxb ngh) (fun a l' => let '(pop', fit', xb', fxb', _) := a in BeaInv C (be_n p) pop' fit' xb' fxb' l') l.
Proof.
  intros F C X p pop fit xb fxb ngh l HC Hd (M1 & M2 & M3) [[P1 P2 P3 P4 P5 P6] Hb]. unfold bea_iter.
  assert (B0 : BeeSt C (be_n p) (be_m p) (pop, fit) l).
  { constructor; auto. cbn [snd]. intros y v Hy. right. exists fxb. split; [|apply P6 in Hy; auto].
    destruct fit as [|f fit]; [discriminate|]. injection Hb as ->. destruct (be_m p); [lia|]. simpl. auto. }
  apply wp_bind. eapply wp_conseq0.
  { apply (w_foldM_seq _ _ _ (fun _ s l' => BeeSt C (be_n p) (be_m p) s l') (be_e p) 0 (pop, fit) l); auto.
    intros i s' l' Hi HB. apply w_bea_site; auto; lia. }
  intros s1 l1 H1. apply wp_bind. eapply wp_conseq0.
  { apply (w_foldM_seq _ _ _ (fun _ s l' => BeeSt C (be_n p) (be_m p) s l') (be_m p - be_e p) (be_e p) s1 l1); auto.
    intros i s' l' Hi HB. apply w_bea_site; auto; lia. }
  intros s2 l2 H2. apply wp_bind. eapply wp_conseq0.
  { apply (w_foldM_seq _ _ _ (fun i s l' => BeeSt C (be_n p) i s l') (be_n p - be_m p) (be_m p) s2 l2); auto.
    intros i s' l' Hi HB. apply w_bea_scout; auto; lia. }
  intros s3 l3 H3. cbv beta in H3. replace (be_m p + (be_n p - be_m p)) with (be_n p) in H3 by lia. cbv zeta.
  destruct (sorted_inv C (be_n p) s3 l3 HC ltac:(lia) H3) as (b & Eb & HI). apply wp_bind. unfold nthP. rewrite Eb. apply w_done. apply w_done. exact HI.
Qed.
Lemma Good_unique : forall l x f y g, Good l x f -> Good l y g -> f = g.
Proof.
  intros l x f y g (S1 & L1 & N1) (S2 & L2 & N2).
  assert (H1 : fleb f g = true) by (destruct S2 as [->|S2]; [destruct f; auto; congruence|eapply L1; eauto]).
  assert (H2 : fleb g f = true) by (destruct S1 as [->|S1]; [destruct g; auto; congruence|eapply L2; eauto]).
  destruct f as [| |a|], g as [| |b|]; simpl in *; try congruence. apply Z.leb_le in H1, H2. f_equal. lia.
Qed.
Lemma bea_init_ok : forall F C X p, cfg_ok C -> bea_ok p -> init_c (KBX C X) (bea F C p) (fun pop fit xb fxb _ l => BeaInv C (be_n p) pop fit xb fxb l).
Proof.
  intros F C X p HC (M1 & M2 & M3). unfold init_c. cbn [a_init a_coords bea]. unfold bea_init. apply wp_bind. apply w_default_numpy_init; auto; try lia.
  intros pop fit l Lp Hin He. cbv zeta. apply w_done.
  assert (C0 : Cov l fit PInf).
  { eapply Cov_incl; [|eapply (Cov_Evals pop fit [] l [] PInf); eauto; intros ? ? []]. rewrite app_nil_r. apply incl_refl. }
  assert (B : BeeSt C (be_n p) (be_n p) (pop, fit) l).
  { assert (Lf := Evals_len _ _ _ _ He). constructor; auto; cbn [fst snd]; [eapply Evals_seen; eauto|]. rewrite firstn_all2 by lia. auto. }
  destruct (sorted_inv C (be_n p) (pop, fit) l HC ltac:(lia) B) as (b & Eb & [[Q1 Q2 Q3 Q4 Q5 Q6] Hb]). cbn [fst snd] in *.
  set (so := sort_by (combine pop fit)) in *.
  assert (Cs : Cov l (map snd so) PInf).
  { eapply Cov_incl; [|exact C0]. intros g Hg. destruct (In_snd_combine _ _ pop fit g (eq_sym (Evals_len _ _ _ _ He)) Hg) as (z & Hz).
    apply in_map_iff. exists (z, g). split; auto. apply sort_by_In. auto. }
  apply w_get_best0_cov; auto.
  { intros E. rewrite E in Hb. discriminate. }
  intros x f G Hx. cbn [fst snd]. assert (U := Good_unique _ _ _ _ _ G Q6). subst f. split; auto. constructor; auto.
  apply inside_len; auto. rewrite Forall_forall in Q3. auto.
Qed.

(** ** ClonalSelectionAlgorithm *)
(** every bit string decodes to a point within the bounds *)
Definition decode_ok (F : fops) (C : cfg) (b : nat) : Prop :=
  forall m, length m = c_dim C -> Forall (fun bs => length bs = b) m -> inside C (cl_decode F C b m).
Definition bits_ok (d b : nat) (m : bits) : Prop := length m = d /\ Forall (fun bs => length bs = b) m.
(** a member: evaluated point decoded from its bit string *)
Definition ClM (F : fops) (C : cfg) (b : nat) (l : elog) (a : clm) : Prop :=
  bits_ok (c_dim C) b (cl_bs a) /\ cl_pt a = cl_decode F C b (cl_bs a) /\ Seen l (cl_pt a) (cl_fit a).
Lemma ClM_ext : forall F C b l l' a, ext l l' -> ClM F C b l a -> ClM F C b l' a.
Proof. intros F C b l l' a He (H1 & H2 & H3). split; auto. split; auto. eapply Seen_ext; eauto. Qed.
Lemma ClMs_ext : forall F C b l l' s, ext l l' -> Forall (ClM F C b l) s -> Forall (ClM F C b l') s.
Proof. intros F C b l l' s He H. eapply Forall_impl; [|exact H]. intros a. apply ClM_ext; auto. Qed.
Lemma ClM_seen : forall F C b l s, Forall (ClM F C b l) s -> Forall2 (Seen l) (map cl_pt s) (map cl_fit s).
Proof. intros F C b l s H. induction H as [|a s Ha H IH]; simpl; constructor; auto. apply Ha. Qed.
Lemma cl_insert_perm : forall x xs, Permutation (x :: xs) (cl_insert x xs).
Proof.
  intros x xs. induction xs as [|y xs IH]; simpl; auto. destruct (key_le (cl_fit x) (cl_fit y)); auto.
  eapply perm_trans; [apply perm_swap|]. auto.
Qed.
Lemma cl_sort_perm : forall xs, Permutation xs (cl_sort xs).
Proof. induction xs as [|x xs IH]; simpl; auto. eapply perm_trans; [|apply cl_insert_perm]. auto. Qed.
Definition cl_lt (a b : clm) : Prop := key_le (cl_fit a) (cl_fit b) = true.
Lemma cl_insert_sorted : forall x xs, StronglySorted cl_lt xs -> StronglySorted cl_lt (cl_insert x xs).
Proof.
  intros x xs H. induction H as [|y xs H IH Hy]; simpl; [repeat constructor|]. destruct (key_le (cl_fit x) (cl_fit y)) eqn:Q.
  - constructor; [constructor; auto|]. constructor; [exact Q|]. eapply Forall_impl; [|exact Hy]. intros z Hz. eapply key_le_trans; [exact Q|exact Hz].
  - constructor; auto. apply Forall_forall. intros z Hz. apply (Permutation_in _ (Permutation_sym (cl_insert_perm x xs))) in Hz.
    destruct Hz as [<-|Hz]; [apply key_le_total; auto|]. rewrite Forall_forall in Hy. apply Hy; auto.
Qed.
Lemma cl_sort_sorted : forall xs, StronglySorted cl_lt (cl_sort xs).
Proof. induction xs; simpl; [constructor|]. apply cl_insert_sorted; auto. Qed.
(** the n best of everything still cover what was evaluated *)
Lemma cl_keep : forall F C b l s n fb, 0 < n -> s <> [] -> Forall (ClM F C b l) s -> Cov l (map cl_fit s) fb ->
  let s' := firstn n (cl_sort s) in
  length s' = Nat.min n (length s) /\ Forall (ClM F C b l) s' /\ Cov l (map cl_fit s') fb.
Proof.
  intros F C b l s n fb Hn Hne HM Hc s'. assert (P := cl_sort_perm s). assert (Ls := Permutation_length P). split; [|split].
  - unfold s'. rewrite firstn_length. lia.
  - apply Forall_firstn. apply Forall_forall. intros a Ha. apply (Permutation_in _ (Permutation_sym P)) in Ha. rewrite Forall_forall in HM. auto.
  - assert (Nn := Seen2_not_nan _ _ _ _ _ Hc (ClM_seen _ _ _ _ _ HM)).
    eapply Cov_dom; [exact Hc|]. intros f Hf Nf. unfold s'. assert (So := cl_sort_sorted s).
    apply in_map_iff in Hf. destruct Hf as (a & <- & Ha). apply (Permutation_in _ P) in Ha.
    destruct (cl_sort s) as [|h t]; [contradiction|]. destruct n; [lia|]. simpl. exists (cl_fit h). split; auto.
    inversion_clear So. destruct Ha as [->|Ha]; [apply fleb_refl; auto|]. rewrite Forall_forall in H0. apply key_le_fleb; auto. apply H0; auto.
Qed.
Lemma w_cl_evaluate : forall F C X b ms fs fb (Q : list clm -> elog -> Prop) l, decode_ok F C b -> ms <> [] -> Forall (bits_ok (c_dim C) b) ms -> Cov l fs fb ->
  (forall new l', ext l l' -> map cl_bs new = ms -> length new = length ms -> Forall (ClM F C b l') new -> Cov l' (fs ++ map cl_fit new) fb -> Q new l') ->
  wp (KBX C X) (cl_evaluate F C b ms) Q l.
Proof.
  intros F C X b ms fs fb Q l HD Hne HB Hc HQ. unfold cl_evaluate. destruct ms as [|m0 ms0]; [congruence|]. set (ms := m0 :: ms0) in *. clearbody ms. clear Hne m0 ms0.
  assert (G : forall pre l0, Cov l0 (fs ++ map cl_fit pre) fb -> Forall (ClM F C b l0) pre -> ext l l0 ->
    wp (KBX C X) (mapM (fun m => let x := cl_decode F C b m in let* f := eval x in Done (m, x, f)) ms)
      (fun new l' => ext l l' /\ map cl_bs new = ms /\ Forall (ClM F C b l') (pre ++ new) /\ Cov l' (fs ++ map cl_fit (pre ++ new)) fb) l0).
  { clear HQ. induction HB as [|m ms Hm HB IH]; intros pre l0 H1 H2 H3; cbn [mapM].
    - apply w_done. rewrite app_nil_r. auto.
    - cbv zeta. apply wp_bind. apply wp_bind. apply w_eval; [apply HD; apply Hm|]. intros f l1 He. apply w_done. apply wp_bind.
      assert (Ex := Evald_ext _ _ _ _ He). eapply wp_conseq0; [apply (IH (pre ++ [(m, cl_decode F C b m, f)]) l1)|].
      + rewrite map_app, app_assoc. eapply Cov_incl; [|eapply Cov_Evald; eauto]. intros a Ha. apply in_or_app. destruct Ha; simpl; auto.
      + apply Forall_app. split; [eapply ClMs_ext; eauto|]. constructor; auto. split; [exact Hm|]. split; [reflexivity|]. eapply Evald_seen; eauto.
      + eapply ext_trans; eauto.
      + intros new l2 (A1 & A2 & A3 & A4). apply w_done. rewrite <- app_assoc in A3, A4. simpl in *. rewrite A2. auto. }
  eapply wp_conseq0; [apply (G [] l); auto|].
  - simpl. rewrite app_nil_r. auto.
  - intros new l' (A1 & A2 & A3 & A4). simpl in *. apply HQ; auto. rewrite <- A2, map_length. auto.
Qed.
Lemma w_cl_mutate : forall K rate d b m (Q : bits -> elog -> Prop) l, bits_ok d b m -> (forall m', bits_ok d b m' -> Q m' l) -> wp K (cl_mutate rate m) Q l.
Proof.
  intros K rate d b m Q l [L HB] HQ. unfold cl_mutate. apply (w_mapM_pure _ _ _ _ (fun x y => length x = length y)).
  - intros bs P _ HP. apply (w_mapM_pure _ _ _ _ (fun _ _ => True)).
    + intros a R _ HR. apply wp_bind. apply w_random_u. intros r _. apply w_done. apply HR. exact I.
    + intros cs Hc. apply HP. eapply Forall2_len; eauto.
  - intros m' Hm. apply HQ. split; [apply Forall2_len in Hm; lia|]. clear - Hm HB. induction Hm; constructor; inversion_clear HB; auto. lia.
Qed.
Lemma w_repeatM_pure : forall A K (p : prog A) (R : A -> Prop) n (Q : list A -> elog -> Prop) l,
  (forall (P : A -> elog -> Prop), (forall a, R a -> P a l) -> wp K p P l) ->
  (forall bs, length bs = n -> Forall R bs -> Q bs l) -> wp K (repeatM n p) Q l.
Proof.
  intros A K p R n Q l Hp HQ. eapply wp_conseq0.
  - apply (wp_repeatM _ K p (fun bs l' => l' = l /\ Forall R bs) n l); auto. intros bs l' _ [-> H]. apply Hp. intros a Ha. split; auto.
    apply Forall_app. auto.
  - intros bs l' [[-> H] L]. auto.
Qed.
Lemma w_cl_random : forall K F n d b (Q : list bits -> elog -> Prop) l, (forall ms, length ms = n -> Forall (bits_ok d b) ms -> Q ms l) -> wp K (cl_random F n d b) Q l.
Proof.
  intros K F n d b Q l HQ. unfold cl_random. apply (w_repeatM_pure _ _ _ (bits_ok d b)); auto. intros P HP.
  apply (w_repeatM_pure _ _ _ (fun bs => length bs = b)); [|intros m L H; apply HP; split; auto]. intros P' HP'.
  apply (w_repeatM_pure _ _ _ (fun _ => True)); [|intros bs L _; apply HP'; auto]. intros P'' HP''.
  apply wp_bind. apply w_random_u. intros r _. apply w_done. auto.
Qed.
Definition cl_ok (F : fops) (p : cl_par) : Prop := 0 < cl_n p /\ 0 < cl_clones F p.
Record ClInv (F : fops) (C : cfg) (p : cl_par) (s : list clm) (fit : list num) (xb : vec) (fxb : num) (l : elog) : Prop := {
  cv_len : length s = cl_n p; cv_fit : fit = map cl_fit s; cv_ok : Forall (ClM F C (cl_bits p) l) s;
  cv_xb : length xb = c_dim C; cv_good : Good l xb fxb
}.
Lemma w_cl_best : forall F C X p s xb fxb l (Q : vec * num -> elog -> Prop), cfg_ok C -> decode_ok F C (cl_bits p) -> 0 < cl_n p ->
  length s = cl_n p -> Forall (ClM F C (cl_bits p) l) s -> Cov l (map cl_fit s) fxb -> Seen l xb fxb -> fxb <> NaN -> length xb = c_dim C ->
  (forall x f, ClInv F C p s (map cl_fit s) x f l -> Q (x, f) l) ->
  wp (KBX C X) (lift (get_best (map cl_pt s) (map cl_fit s) (Some xb) fxb)) Q l.
Proof.
  intros F C X p s xb fxb l Q HC HD Hn Ls HM Hc Sx Nx Lx HQ. apply w_get_best; auto.
  - destruct s; simpl in *; [lia|discriminate].
  - eapply ClM_seen; eauto.
  - intros x f G Hx. apply HQ. constructor; auto. destruct Hx as [Hx| ->]; auto.
    apply in_map_iff in Hx. destruct Hx as (a & <- & Ha). rewrite Forall_forall in HM. destruct (HM a Ha) as (B1 & B2 & _).
    rewrite B2. apply inside_len; auto. apply HD; apply B1.
Qed.
Lemma w_cl_tail : forall F C X p s xb fxb ms l, cfg_ok C -> decode_ok F C (cl_bits p) -> 0 < cl_n p -> ms <> [] -> Forall (bits_ok (c_dim C) (cl_bits p)) ms ->
  ClInv F C p s (map cl_fit s) xb fxb l ->
  wp (KBX C X) (let* new := cl_evaluate F C (cl_bits p) ms in Done (firstn (cl_n p) (cl_sort (s ++ new))))
    (fun s' l' => length s' = cl_n p /\ Forall (ClM F C (cl_bits p) l') s' /\ Cov l' (map cl_fit s') fxb /\ Seen l' xb fxb) l.
Proof.
  intros F C X p s xb fxb ms l HC HD Hn Hne HB [L1 L2 L3 L4 L5]. apply wp_bind.
  apply (w_cl_evaluate F C X (cl_bits p) ms (map cl_fit s) fxb); auto; [eapply Good_Cov; eauto|]. intros new l' Ex _ Ln HM Hc.
  apply w_done. rewrite <- map_app in Hc.
  destruct (cl_keep F C (cl_bits p) l' (s ++ new) (cl_n p) fxb) as (A1 & A2 & A3); auto.
  - destruct s; simpl in *; [lia|discriminate].
  - apply Forall_app. split; auto. eapply ClMs_ext; eauto.
  - rewrite app_length in A1. split; [lia|]. split; auto. split; auto. eapply Seen_ext; eauto. apply L5.
Qed.
Lemma w_cl_iter : forall F C X p s fit xb fxb u l, cfg_ok C -> decode_ok F C (cl_bits p) -> cl_ok F p -> ClInv F C p s fit xb fxb l ->
  wp (KBX C X) (cl_iter F C p s fit xb fxb u) (fun a l' => let '(s', fit', xb', fxb', _) := a in ClInv F C p s' fit' xb' fxb' l') l.
Proof.
  intros F C X p s fit xb fxb u l HC HD [Hn Hk] HI. assert (HI0 := HI). destruct HI0 as [L1 L2 L3 L4 L5]. subst fit. unfold cl_iter.
  apply wp_bind. unfold cl_hyper. apply wp_bind.
  apply (w_mapM_pure _ _ _ _ (fun _ m => bits_ok (c_dim C) (cl_bits p) m)).
  { intros a P Ha HP. apply (w_cl_mutate _ _ (c_dim C) (cl_bits p)); auto. apply in_flat_map in Ha. destruct Ha as (a' & H1 & H2).
    apply repeat_spec in H2. subst a'. rewrite Forall_forall in L3. apply (L3 a H1). }
  intros ms Hms. assert (Lm := Forall2_len _ _ _ _ _ Hms).
  assert (Nm : ms <> []).
  { destruct s as [|a s]; [simpl in L1; lia|]. simpl in Lm. rewrite app_length, repeat_length in Lm. destruct ms; [simpl in Lm; lia|discriminate]. }
  assert (Bm : Forall (bits_ok (c_dim C) (cl_bits p)) ms) by (clear - Hms; induction Hms; constructor; auto).
  eapply wp_conseq0; [apply (w_cl_tail F C X p s xb fxb ms l); auto|]. intros s1 l1 (A1 & A2 & A3 & A4). apply wp_bind.
  apply (w_cl_best F C X p); auto; [apply L5|]. intros x1 f1 HI1. assert (HI1' := HI1). destruct HI1' as [M1 M2 M3 M4 M5]. apply wp_bind. unfold cl_insertion.
  destruct (cl_rand p =? 0) eqn:Z0.
  - apply w_done. apply wp_bind. apply (w_cl_best F C X p); auto; [eapply Good_Cov; eauto|apply M5|apply M5].
  - apply Nat.eqb_neq in Z0. apply wp_bind. apply w_cl_random. intros ms2 L2m B2.
    eapply wp_conseq0; [apply (w_cl_tail F C X p s1 x1 f1 ms2 l1); auto; destruct ms2; simpl in *; [lia|discriminate]|].
    intros s2 l2 (D1 & D2 & D3 & D4). apply wp_bind. apply (w_cl_best F C X p); auto. apply M5.
Qed.
Lemma cl_init_ok : forall F C X p, cfg_ok C -> decode_ok F C (cl_bits p) -> cl_ok F p ->
  init_c (KBX C X) (clonalg F C p) (fun s fit xb fxb _ l => ClInv F C p s fit xb fxb l).
Proof.
  intros F C X p HC HD [Hn _]. unfold init_c. cbn [a_init a_coords clonalg]. unfold cl_init. apply wp_bind. apply w_cl_random. intros ms Lm Bm.
  apply wp_bind. apply (w_cl_evaluate F C X (cl_bits p) ms [] PInf); auto.
  { destruct ms; simpl in *; [lia|discriminate]. }
  { intros ? ? []. }
  intros s l _ _ Ls HM Hc. simpl in Hc. apply w_done. apply w_get_best0_cov; auto.
  - destruct s; simpl in *; [lia|discriminate].
  - eapply ClM_seen; eauto.
  - intros x f G Hx. cbn [fst snd]. constructor; auto; [lia|]. apply in_map_iff in Hx. destruct Hx as (a & <- & Ha).
    rewrite Forall_forall in HM. destruct (HM a Ha) as (B1 & B2 & _). rewrite B2. apply inside_len; auto. apply HD; apply B1.
Qed.

(** ** BareBonesFireworksAlgorithm *)
Definition BbInv (C : cfg) (pop : list vec) (fit : list num) (xb : vec) (fxb : num) (t : bb_state) (l : elog) : Prop :=
  pop = [xb] /\ fit = [fxb] /\ inside C xb /\ length (bb_amp t) = c_dim C /\ Good l xb fxb.
Lemma w_uniform_vec_len : forall K lo hi n (Q : vec -> elog -> Prop) l, length lo = n -> length hi = n ->
  (forall v, comps n v (fun k c => fleb (nth k lo NaN) (nth k hi NaN) = true -> fleb (nth k lo NaN) c = true /\ fleb c (nth k hi NaN) = true) -> Q v l) ->
  wp K (uniform_vec lo hi) Q l.
Proof.
  intros K lo. induction lo as [|a lo IH]; intros [|b hi] n Q l L1 L2 HQ; simpl in L1, L2; subst n; try discriminate; cbn [uniform_vec].
  - apply w_done. apply HQ. split; [reflexivity|]. intros j Hj. simpl in Hj. lia.
  - apply wp_bind. apply w_uniform. intros r Hr. apply wp_bind. apply (IH hi (length lo)); [auto|simpl in L2; lia|]. intros v [Lv Hv]. apply w_done. apply HQ.
    split; [simpl; lia|]. intros [|j] Hj; simpl; auto. apply Hv. lia.
Qed.
Lemma w_bb_iter : forall F C X p pop fit xb fxb t l, cfg_ok C -> 0 < bb_num p -> BbInv C pop fit xb fxb t l ->
  wp (KBX C X) (bb_iter F C p pop fit xb fxb t) (fun a l' => let '(pop', fit', xb', fxb', t') := a in
    BbInv C pop' fit' xb' fxb' t' l' /\ no_worse_fit (fit, xb, fxb) (fit', xb', fxb')) l.
Proof.
  intros F C X p pop fit xb fxb t l HC Hn (-> & -> & Hx & La & G). assert (Lx := inside_len _ _ HC Hx).
  assert (Ng : fxb <> NaN) by apply G.
  unfold bb_iter. apply wp_bind. apply w_done. apply wp_bind. apply w_done. apply wp_bind.
  apply (w_repeatM_pure _ _ _ (fun v => length v = c_dim C)).
  { intros P HP. apply (w_uniform_vec_len _ _ _ (c_dim C)); [dl|dl|]. intros v [Lv _]. auto. }
  intros sp Ls Hs. apply wp_bind. apply w_repair_all; auto. { destruct sp; simpl in *; [lia|congruence]. }
  intros ys Ly Hy. apply wp_bind. apply w_eval_all; auto. { destruct ys, sp; simpl in *; try lia; congruence. }
  intros fs l' He. assert (Lf := Evals_len _ _ _ _ He). assert (Nf := Evals_nan _ _ _ _ He).
  assert (Nn : fs <> []) by (destruct fs; simpl in *; [lia|discriminate]).
  destruct (argmin_spec fs Nn Nf) as (bi & fb & E & (B1 & B2 & _)). rewrite E. apply wp_bind. apply w_nthP; [rewrite <- Lf; apply nth_error_Some; congruence|].
  intros sb Eb. apply wp_bind. unfold nthP. rewrite B1. apply w_done.
  assert (Hc := Cov_Evals _ _ _ _ [] _ (Good_Cov _ _ _ [] G) He). rewrite app_nil_r in Hc. assert (Ex := Evals_ext _ _ _ _ He).
  assert (Nb : fb <> NaN) by exact (Forall_nth _ _ _ _ _ Nf B1).
  assert (Min : forall f, In f fs -> fleb fb f = true) by (intros f Hf; apply In_nth_error in Hf; destruct Hf as [j Hj]; eapply B2; eauto).
  destruct (fltb fb fxb) eqn:Q; apply w_done.
  - split; [|repeat constructor; cbn; apply fltb_fleb; auto]. split; auto. split; auto. split; [exact (Forall_nth _ _ _ _ _ Hy Eb)|].
    split; [cbn [bb_amp]; dl|]. split; [exact (Forall2_nth _ _ _ _ _ _ _ _ (Evals_seen _ _ _ _ He) Eb B1)|]. split; auto.
    intros y v Hv. destruct (Hc y v Hv) as [H1|(f & H1 & H2)].
    + eapply fleb_trans; [apply fltb_fleb; exact Q|exact H1].
    + eapply fleb_trans; [apply Min; exact H1|exact H2].
  - split; [|repeat constructor; cbn; apply fleb_refl; auto]. split; auto. split; auto. split; auto. split; [cbn [bb_amp]; dl|].
    destruct G as (G1 & G2 & G3). split; [eapply Seen_ext; eauto|]. split; auto. intros y v Hv. destruct (Hc y v Hv) as [H1|(f & H1 & H2)]; auto.
    eapply fleb_trans; [|exact H2]. eapply fleb_trans; [|apply Min; exact H1]. apply fltb_false_fleb; auto.
Qed.
Lemma bb_init_ok : forall F C X p, cfg_ok C -> init_c (KBX C X) (bbfwa F C p) (BbInv C).
Proof.
  intros F C X p HC. unfold init_c. cbn [a_init a_coords bbfwa]. unfold bb_init. apply wp_bind. apply w_default_numpy_init; auto; try lia.
  intros pop fit l Lp Hin He. apply w_done. assert (Lf := Evals_len _ _ _ _ He). destruct pop as [|x [|? ?]]; try discriminate. destruct fit as [|f [|? ?]]; try discriminate.
  assert (Hx : inside C x) by (inversion_clear Hin; auto).
  apply (w_get_best0 _ l); auto; [discriminate|]. intros x' f' G [<-|[]]. cbn [fst snd].
  assert (Sx := Evals_seen _ _ _ _ He). inversion_clear Sx. assert (Nf := Evals_nan _ _ _ _ He). inversion_clear Nf.
  assert (G' : Good l x f).
  { split; auto. split; auto. intros y v Hv.
    assert (C0 : Cov l [f] PInf) by (apply (Cov_Evals [x] [f] [] l [] PInf); auto; intros ? ? []).
    destruct (C0 y v Hv) as [C1|(g & [<-|[]] & G2)]; auto. assert (v = PInf) by (destruct v; simpl in C1; congruence). subst v. destruct f; simpl; auto; congruence. }
  rewrite (Good_unique _ _ _ _ _ G G'). split; auto. split; auto. split; auto. split; auto. cbn [bb_amp]. dl.
Qed.
