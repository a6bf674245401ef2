(** Proofs about AlgHde.v. *)
From Coq Require Import ZArith Lia Bool List.
From Verif Require Import Num Task TaskSpec TaskProofs TaskProofs2 Prog Wp GetBest Run RunSpec AlgoLib Fops AlgTac StepSpec StepLib Reach Indiv IndivLib AlgEvoProofs KeepLib
  AlgPSO AlgBasic AlgBasic2 AlgDE AlgDEProofs AlgMod AlgModProofs AlgMts AlgMtsProofs PropertiesMts AlgHde.
Import ListNotations.

Section Hde.
Variables (F : fops) (C : cfg) (kp : Prop) (X : exn -> Prop).
Hypothesis HC : cfg_ok C.
Let K := KRX C (fun x y => kp -> length x = c_dim C -> keeps C x y) (inside C) X.

(** ** mts_ls1v1 again: the solution has the value it was evaluated to, or that value is above the best one *)
Definition true_or_above (l : elog) (x : vec) (f bf : num) : Prop := Seen l x f \/ fltb bf f = true.
Definition lst_up (s : lst) (l : elog) : Prop := let '(x, f, b, bf, _, _) := s in J C false l x f b bf /\ b <> None /\ true_or_above l x f bf.
Lemma up_ext : forall l l' x f bf bf', ext l l' -> fleb bf' bf = true -> true_or_above l x f bf -> true_or_above l' x f bf'.
Proof. intros l l' x f bf bf' He Hb [H|H]; [left; eapply Seen_ext; eauto|right; eapply fleb_fltb_trans; eauto]. Qed.
Lemma w_ls1v1_up : forall b1 b2 sr d x f b bf imp g i l, kp -> length sr = c_dim C -> length d = c_dim C -> i < c_dim C -> lst_up (x, f, b, bf, imp, g) l ->
  wp K (ls1v1_step F b1 b2 sr d (x, f, b, bf, imp, g) i) lst_up l.
Proof.
  intros b1 b2 sr d x f b bf imp g i l Hk Ls Ld Hi ((Hx & HS & HJ) & Hb & HU). unfold ls1v1_step. assert (Lx := inside_len _ _ HC Hx).
  destruct (Jb_nan _ _ _ _ _ _ HJ) as [Nf Nb]. destruct b as [b|]; [|congruence].
  apply wp_bind. apply w_nthP; [lia|]. intros old Eo. apply wp_bind. apply w_nthP; [lia|]. intros si Es. apply wp_bind. apply w_nthP; [lia|]. intros di Ed.
  apply wp_bind. apply w_repair_r; [dl|]. intros x1 I1 K1. assert (L1 := inside_len _ _ HC I1).
  assert (Bk1 : upd x1 i old = x) by (eapply put_back; eauto; apply K1; [exact Hk|dl]).
  apply wp_bind. apply w_eval_r; [auto|]. intros v l1 E1. assert (X1 := Evald_ext _ _ _ _ E1).
  assert (Hbf : fleb bf f = true) by apply HJ.
  assert (B1 := Jb_eval C _ _ _ _ _ _ _ _ HJ I1 E1). assert (Nv := Evald_nan _ _ _ _ E1).
  destruct (fltb v bf) eqn:Q0; cbn [fst snd] in B1; destruct B1 as (J1 & V1 & N1).
  { apply w_done. cbn [lst_up]. split; [|split; [discriminate|right; eapply fltb_fleb_trans; eauto]]. split; [auto|]. split; [discriminate|]. eapply Jb_back; [exact J1|discriminate]. }
  assert (U1 : true_or_above l1 x f bf) by (eapply up_ext; [exact X1|apply fleb_refl; exact Nb|exact HU]).
  destruct (feqb v f) eqn:Q1.
  { apply wp_bind. apply w_setP; [lia|]. apply w_done. rewrite Bk1. cbn [lst_up]. split; [|split; [discriminate|exact U1]]. split; [exact Hx|]. split; [discriminate|exact J1]. }
  destruct (fltb f v) eqn:Q2.
  - apply wp_bind. apply w_setP; [lia|]. apply wp_bind. apply w_repair_r; [dl|]. intros x2 I2 K2. assert (L2 := inside_len _ _ HC I2).
    apply wp_bind. apply w_eval_r; [auto|]. intros w l2 E2. assert (X2 := Evald_ext _ _ _ _ E2).
    assert (B2 := Jb_eval C _ _ _ _ _ _ _ _ J1 I2 E2). assert (Nw := Evald_nan _ _ _ _ E2).
    assert (Bk2 : upd x2 i old = x).
    { assert (Kk : keeps C (upd x1 i (fadd F old (fmul F (flit F 1 2) si))) x2) by (apply K2; [exact Hk|dl]).
      assert (Z : keeps C (upd x i (fadd F old (fmul F (flit F 1 2) si))) x2).
      { intros j a l0 u Ej El Eu Hr. apply (Kk j a l0 u); auto. destruct (Nat.eq_dec i j) as [<-|Hj].
        - rewrite nth_upd_same in * by lia. exact Ej.
        - rewrite nth_upd_other in * by auto. rewrite <- Bk1 in Ej. rewrite nth_upd_other in Ej by auto. exact Ej. }
      eapply put_back; eauto. }
    destruct (fltb w bf) eqn:Q3; cbn [fst snd] in B2; destruct B2 as (J2 & V2 & N2).
    { apply w_done. cbn [lst_up]. split; [|split; [discriminate|right; eapply fltb_fleb_trans; eauto]]. split; [auto|]. split; [discriminate|]. eapply Jb_back; [exact J2|discriminate]. }
    destruct (fleb f w) eqn:Q4.
    + apply wp_bind. apply w_setP; [lia|]. apply w_done. rewrite Bk2. cbn [lst_up]. split; [|split; [discriminate|]]; [split; [exact Hx|split; [discriminate|exact J2]]|].
      eapply up_ext; [exact X2|apply fleb_refl; auto|exact U1].
    + apply w_done. cbn [lst_up]. split; [|split; [discriminate|left; eapply Evald_seen; eauto]]. split; [auto|]. split; [discriminate|]. eapply Jb_move; [eassumption|discriminate|eassumption].
  - apply w_done. cbn [lst_up]. split; [|split; [discriminate|left; eapply Evald_seen; eauto]]. split; [auto|]. split; [discriminate|]. eapply Jb_move; [eassumption|discriminate|eassumption].
Qed.
Lemma w_ls1v1_all : forall b1 b2 x f b bf imp sr l, kp -> length sr = c_dim C -> lst_up (x, f, b, bf, imp, f0) l ->
  wp K (mts_ls1v1 F C b1 b2 x f b bf imp sr) (fun r l' => true_or_above l' (l_x r) (l_f r) (l_bf r)) l.
Proof.
  intros b1 b2 x f b bf imp sr l Hk Ls HU. unfold mts_ls1v1. apply wp_bind. apply (w_uniform_vec_len K _ _ (c_dim C)); [apply repeat_length|apply repeat_length|].
  intros d [Ld _]. assert (Lx : length x = c_dim C) by (destruct HU as (J & _); exact (J_start C HC _ _ _ _ _ _ J)). rewrite Lx. apply wp_bind. eapply wp_conseq0.
  - apply (wp_for_range _ K (c_dim C) _ (fun _ s l' => lst_up s l')); [exact HU|].
    intros i [[[[[x' f'] b'] bf'] imp'] g'] l' Hi HU'. apply w_ls1v1_up; auto. apply shrink_len; auto.
  - intros [[[[[x2 f2] b3] bf2] imp2] g2] l2 (_ & _ & G). apply w_done. exact G.
Qed.

(** ** One search.  [m]: repairs keep what is within the bounds, and mts_ls3 is not used *)
Definition hj (m : bool) (t : trj) (l : elog) : Prop :=
  inside C (t_x t) /\ inside C (t_b t) /\ length (t_sr t) = c_dim C /\ fleb (t_bf t) (t_f t) = true /\
  LB l (t_bf t) /\ (exists y, Seen l y (t_bf t)) /\ (m = true -> Seen l (t_b t) (t_bf t) /\ true_or_above l (t_x t) (t_f t) (t_bf t)).
Definition notls3 (k : lsearch) : bool := match k with LS3 => false | _ => true end.
Lemma Seen_app : forall n d y v, Seen (n ++ d) y v -> Seen n y v \/ In (y, v) d.
Proof. intros n d y v [H|H]; [left; left; auto|]. apply in_app_or in H. destruct H; [left; right; auto|auto]. Qed.
Lemma Seen_l : forall n d y v, Seen n y v -> Seen (n ++ d) y v.
Proof. intros n d y v [H|H]; [left; auto|right; apply in_or_app; auto]. Qed.
Lemma Seen_r : forall n d y v, Seen d y v -> Seen (n ++ d) y v.
Proof. intros n d y v [H|H]; [left; auto|right; apply in_or_app; auto]. Qed.
(** the end of a search that was started with the best pair below the log, and the current pair too when [a] *)
Lemma w_one_base : forall fuel k b1 b2 (a : bool) t l, (a = true -> kp /\ honest k = true) -> inside C (t_x t) -> inside C (t_b t) -> length (t_sr t) = c_dim C -> fleb (t_bf t) (t_f t) = true ->
  let d := (t_b t, t_bf t) :: if a then [(t_x t, t_f t)] else [] in
  wp K (one_ls F C fuel k b1 b2 t) (fun r l' => exists n, l' = n ++ l /\ trj_ok C a (fst r) (n ++ d) /\ fleb (t_f (fst r)) (t_f t) = true) l.
Proof.
  intros fuel k b1 b2 a t l Ha T1 T2 T3 T4 d. apply (wp_base _ _ _ (fun r l' => trj_ok C a (fst r) l' /\ fleb (t_f (fst r)) (t_f t) = true)).
  apply (w_one_ls F C kp X HC); [exact Ha|]. split; [exact T1|]. split; [|split; [exact T2|split; [|split; [exact T4|exact T3]]]].
  - intros ->. right. unfold d. right. left. reflexivity.
  - split; [right; left; reflexivity|]. split; [|eapply fleb_nan_l; exact T4]. intros y v [Q|Q].
    + injection Q as <- <-. apply fleb_refl. eapply fleb_nan_l; exact T4.
    + destruct a; [|destruct Q]. destruct Q as [Q|[]]. injection Q as <- <-. exact T4.
Qed.
Lemma w_one_h : forall fuel k b1 b2 m t l, (m = true -> kp /\ notls3 k = true) -> hj m t l ->
  wp K (one_ls F C fuel k b1 b2 t) (fun r l' => hj m (fst r) l' /\ fleb (t_f (fst r)) (t_f t) = true) l.
Proof.
  intros fuel k b1 b2 m t l Hm (T1 & T2 & T3 & T4 & T5 & (y0 & T6) & T7).
  assert (Nb := fleb_nan_l _ _ T4). assert (Nf := fleb_nan_r _ _ T4).
  set (a := m && honest k). assert (Ha : a = true -> kp /\ honest k = true).
  { unfold a. intros Q. apply andb_true_iff in Q. destruct Q as [Q1 Q2]. split; [apply Hm, Q1|exact Q2]. }
  assert (W := w_one_base fuel k b1 b2 a t l Ha T1 T2 T3 T4). cbv zeta in W.
  assert (W2 : wp K (one_ls F C fuel k b1 b2 t) (fun r l' => m = true -> k = LS1v1 -> true_or_above l' (t_x (fst r)) (t_f (fst r)) (t_bf (fst r))) l).
  { destruct m; [|eapply wp_conseq0; [exact W|]; intros; discriminate].
    destruct k; try (eapply wp_conseq0; [exact W|]; intros; discriminate).
    destruct (Hm eq_refl) as [Hk _]. destruct (T7 eq_refl) as [S1 U1]. unfold one_ls. apply wp_bind. eapply wp_conseq0.
    - cbn [run_ls]. apply w_ls1v1_all; [exact Hk|exact T3|]. cbn [lst_up]. split; [|split; [discriminate|exact U1]]. split; [exact T1|]. split; [discriminate|].
      split; [exact T2|]. split; [|split; [exact T4|discriminate]]. split; [exact S1|split; [exact T5|exact Nb]].
    - intros r l' G. apply w_done. intros _ _. exact G. }
  eapply wp_conseq0; [exact (wp_and _ K _ _ _ l W W2)|]. clear W W2. intros r l' [(n & -> & (G1 & G2 & G3 & (S & L & N) & G5 & G6) & Gf) U]. split; [|exact Gf].
  assert (Lb : fleb (t_bf (fst r)) (t_bf t) = true) by (apply (L (t_b t)); apply in_or_app; right; left; reflexivity).
  split; [exact G1|]. split; [exact G3|]. split; [exact G6|]. split; [exact G5|]. split; [|split].
  - intros y v H. apply in_app_or in H. destruct H as [H|H]; [apply (L y); apply in_or_app; auto|]. eapply fleb_trans; [exact Lb|]. eapply T5; exact H.
  - destruct (Seen_app _ _ _ _ S) as [S'|S']; [exists (t_b (fst r)); apply Seen_l; auto|]. destruct S' as [S'|S'].
    + injection S' as _ E. exists y0. rewrite <- E. apply Seen_r. exact T6.
    + destruct a; [|destruct S']. destruct S' as [S'|[]]. injection S' as _ E. exists y0. apply Seen_r.
      assert (Q : t_bf (fst r) = t_bf t). { rewrite <- E in *. clear -T4 Lb. apply feqb_eq. revert T4 Lb. generalize (t_f t) (t_bf t). intros x y H1 H2. numo. }
      rewrite Q. exact T6.
  - intros Q. destruct (T7 Q) as [S1 U1]. destruct (Hm Q) as [Hk Hk3]. subst m. cbn [andb] in a. assert (Sb : Seen (n ++ l) (t_b (fst r)) (t_bf (fst r))).
    { destruct (Seen_app _ _ _ _ S) as [S'|S']; [apply Seen_l; auto|]. destruct S' as [S'|S'].
      - injection S' as E1 E2. rewrite <- E1, <- E2. apply Seen_r. exact S1.
      - destruct (honest k); [|destruct S']. destruct S' as [S'|[]]. injection S' as E1 E2. apply Seen_r. rewrite <- E1, <- E2 in *.
        destruct U1 as [U1|U1]; [exact U1|]. exfalso. apply (fleb_fltb_false _ _) in Lb. congruence. }
    split; [exact Sb|]. destruct (honest k) eqn:Hh.
    + unfold a in *. destruct (Seen_app _ _ _ _ (G2 eq_refl)) as [S'|S']; [left; apply Seen_l; auto|]. destruct S' as [S'|[S'|[]]]; injection S' as E1 E2.
      * left. rewrite <- E1, <- E2. apply Seen_r. exact S1.
      * rewrite <- E1, <- E2. eapply up_ext; [exists n; reflexivity|exact Lb|exact U1].
    + destruct k; try discriminate. apply U; reflexivity.
Qed.

(** ** The members *)
Variable p : mts_par.
Hypothesis Hls : mt_ls p <> [].
Hypothesis H3 : length (mt_ls p) <= 3 \/ mt_tests p = 0.
Variable m : bool.
Hypothesis Hm : m = true -> kp /\ forallb notls3 (mt_ls p) = true.
Lemma m_In : forall k, In k (mt_ls p) -> m = true -> kp /\ notls3 k = true.
Proof. intros k Hk Q. destruct (Hm Q) as [G1 G2]. split; auto. rewrite forallb_forall in G2. auto. Qed.
Lemma w_grading_h : forall t l, hj m t l -> wp K (grading_run F C p t) (fun t' l' => hj m t' l' /\ fleb (t_f t') (t_f t) = true) l.
Proof.
  intros t l HT. unfold grading_run. assert (MI := m_In). destruct (mt_ls p) as [|k0 ks] eqn:El; [congruence|]. rewrite <- El in *. clear k0 ks El.
  assert (Nf : t_f t <> NaN) by (destruct HT as (_ & _ & _ & T & _); eapply fleb_nan_r; eauto).
  apply (wp_foldM _ _ K _ (fun _ t' l' => hj m t' l' /\ fleb (t_f t') (t_f t) = true)); [split; [auto|apply fleb_refl; auto]|].
  intros [i k] r t1 l1 [pre Hpre] HT1.
  assert (Hik : In (i, k) (combine (seq 0 (length (mt_ls p))) (mt_ls p))) by (rewrite Hpre; apply in_or_app; right; left; auto).
  assert (Hk := in_combine_r _ _ _ _ Hik). assert (Hi := in_combine_l _ _ _ _ Hik). apply in_seq in Hi. cbn [fst snd].
  apply (wp_for_range _ K (mt_tests p) _ (fun _ t' l' => hj m t' l' /\ fleb (t_f t') (t_f t) = true)); [exact HT1|].
  intros j t2 l2 Hj [HT2 Hf2]. apply wp_bind. eapply wp_conseq0; [apply (w_one_h _ k _ _ m); [apply MI; auto|exact HT2]|].
  intros r2 l3 [G1 G2]. destruct (i <? 3) eqn:Q; [|apply Nat.ltb_ge in Q; destruct H3; lia]. apply w_done. split; auto. eapply fleb_trans; eauto.
Qed.
Lemma w_local_h : forall k t g l, In k (mt_ls p) -> hj m t l -> wp K (run_local_search F C p k t g) (fun s l' => hj m (fst s) l' /\ fleb (t_f (fst s)) (t_f t) = true) l.
Proof.
  intros k t g l Hk HT. unfold run_local_search. assert (Nf : t_f t <> NaN) by (destruct HT as (_ & _ & _ & T & _); eapply fleb_nan_r; eauto).
  apply (wp_for_range _ K (mt_searches p) _ (fun _ s l' => hj m (fst s) l' /\ fleb (t_f (fst s)) (t_f t) = true)); [split; [auto|apply fleb_refl; auto]|].
  intros j [t2 g2] l2 Hj [HT2 Hf2]. cbn [fst snd] in *. apply wp_bind. eapply wp_conseq0; [apply (w_one_h _ k _ _ m); [apply m_In; auto|exact HT2]|].
  intros r2 l3 [G1 G2]. apply w_done. cbn [fst]. split; auto. eapply fleb_trans; eauto.
Qed.
(** a member, given the best value *)
Definition ent (l : elog) (bf : num) (r : hind) : Prop :=
  inside C (fst (fst r)) /\ fleb bf (snd (fst r)) = true /\ length (m_sr (snd r)) = c_dim C /\ (m = true -> true_or_above l (fst (fst r)) (snd (fst r)) bf).
(** the best pair *)
Definition bst (l : elog) (xb : vec) (fxb : num) : Prop :=
  inside C xb /\ LB l fxb /\ fxb <> NaN /\ (exists y, Seen l y fxb) /\ (m = true -> Seen l xb fxb).
Lemma ent_ext_h : forall l l' f f' r, ext l l' -> fleb f' f = true -> ent l f r -> ent l' f' r.
Proof.
  intros l l' f f' r He Hf (G1 & G2 & G3 & G4). split; [auto|]. split; [eapply fleb_trans; eauto|]. split; [auto|]. intros Q. eapply up_ext; eauto.
Qed.
Lemma w_member_h : forall x f e xb fxb l, ent l fxb (x, f, e) -> bst l xb fxb ->
  wp K (mts_member F C p x f e xb fxb) (fun s l' => hj m (fst s) l' /\ fleb (t_f (fst s)) f = true) l.
Proof.
  intros x f e xb fxb l (E1 & E2 & E3 & E4) (B1 & B2 & B3 & B4 & B5). cbn [fst snd] in *. unfold mts_member. apply wp_bind. eapply wp_conseq0.
  - apply w_grading_h. split; [exact E1|]. split; [exact B1|]. split; [exact E3|]. split; [exact E2|]. split; [exact B2|]. split; [exact B4|]. intros Q. split; [apply B5, Q|apply E4, Q].
  - intros t l' [T Hf]. cbn [t_f] in Hf. eapply wp_conseq0; [apply w_local_h; [apply last_In; auto|]|].
    + destruct T as (T1 & T2 & T3 & T4 & T5 & T6 & T7). split; [exact T1|]. split; [exact T2|]. split; [exact T3|]. split; [exact T4|]. split; [exact T5|]. split; [exact T6|exact T7].
    + intros s l2 [G1 G2]. split; auto. cbn [t_f] in G2. eapply fleb_trans; eauto.
Qed.
Lemma bst_le : forall l l' y f f', (exists z, Seen l z f) -> ext l l' -> bst l' y f' -> fleb f' f = true.
Proof. intros l l' y f f' (z & S) He (_ & L & N & _). destruct S as [->|S]; [apply fleb_PInf; auto|]. eapply L. eapply ext_In; eauto. Qed.
Lemma w_members_h : forall rows xb fxb l, Forall (ent l fxb) rows -> bst l xb fxb ->
  wp K (mts_members F C p rows xb fxb) (fun q l' => Forall (ent l' (snd q)) (fst (fst q)) /\ Forall2 turn rows (fst (fst q)) /\ bst l' (snd (fst q)) (snd q) /\ fleb (snd q) fxb = true) l.
Proof.
  induction rows as [|[[x f] e] rows IH]; intros xb fxb l HE Hb; cbn [mts_members].
  - apply w_done. cbn [fst snd]. split; [auto|]. split; [auto|]. split; [auto|]. apply fleb_refl. apply Hb.
  - inversion HE as [|? ? HE1 HE2]; subst. destruct (m_en e) eqn:En.
    + apply wp_bind. eapply wp_conseq; [apply w_member_h; eauto|]. intros [t g] l1 Hx1 [(T1 & T2 & T3 & T4 & T5 & T6 & T7) Hf]. cbn [fst snd] in *.
      assert (Hb1 : bst l1 (t_b t) (t_bf t)).
      { split; [exact T2|]. split; [exact T5|]. split; [eapply fleb_nan_l; exact T4|]. split; [exact T6|]. intros Q. apply T7, Q. }
      assert (Hle : fleb (t_bf t) fxb = true) by (eapply bst_le; [apply Hb|exact Hx1|exact Hb1]). apply wp_bind. eapply wp_conseq.
      { apply IH; [|exact Hb1]. eapply Forall_impl; [|exact HE2]. intros r Hr. eapply ent_ext_h; eauto. }
      intros q l2 Hx2 (Q1 & Q2 & Q3 & Q4). apply w_done. cbn [fst snd]. split; [|split; [|split; [exact Q3|eapply fleb_trans; eauto]]].
      * constructor; auto. eapply ent_ext_h; [exact Hx2|exact Q4|]. split; [exact T1|]. split; [exact T4|]. split; [exact T3|]. intros Q. apply T7, Q.
      * constructor; auto. split; [|exact Hf]. cbn [fst snd]. rewrite En. reflexivity.
    + apply wp_bind. eapply wp_conseq; [apply IH; eauto|]. intros q l2 Hx2 (Q1 & Q2 & Q3 & Q4). apply w_done. cbn [fst snd].
      split; [|split; [|split; [exact Q3|exact Q4]]].
      * constructor; auto. eapply ent_ext_h; eauto.
      * constructor; auto. split; [cbn [fst snd]; rewrite En; reflexivity|]. cbn [fst snd]. apply fleb_refl. destruct HE1 as (_ & Z & _). eapply fleb_nan_r; exact Z.
Qed.
(** what goes into get_best: a member whose value is its own, or not below the best one *)
Definition pre (l : elog) (bf : num) (r : hind) : Prop :=
  inside C (fst (fst r)) /\ snd (fst r) <> NaN /\ length (m_sr (snd r)) = c_dim C /\
  (Seen l (fst (fst r)) (snd (fst r)) \/ (fleb bf (snd (fst r)) = true /\ (m = true -> fltb bf (snd (fst r)) = true))).
Lemma ent_pre : forall l bf r, ent l bf r -> pre l bf r.
Proof.
  clear Hm H3 Hls. intros l bf r (G1 & G2 & G3 & G4). split; [auto|]. split; [eapply fleb_nan_r; eauto|]. split; [auto|]. destruct m eqn:Em.
  - destruct (G4 eq_refl) as [S|S]; [left; auto|right; split; auto].
  - right. split; [auto|discriminate].
Qed.
Lemma pre_ext : forall l l' bf r, ext l l' -> pre l bf r -> pre l' bf r.
Proof. intros l l' bf r He (G1 & G2 & G3 & G4). split; [auto|]. split; [auto|]. split; [auto|]. destruct G4 as [S|S]; [left; eapply Seen_ext; eauto|right; auto]. Qed.
Lemma w_get_best_h : forall K' arr xb fxb (Q : vec * num -> elog -> Prop) l, arr <> [] -> Forall (pre l fxb) arr -> inside C xb -> fxb <> NaN -> (exists y, Seen l y fxb) -> (m = true -> Seen l xb fxb) ->
  Cov l (h_fits arr) fxb -> (forall x1 f1, bst l x1 f1 -> Forall (ent l f1) arr -> fleb f1 fxb = true -> Q (x1, f1) l) ->
  wp K' (lift (get_best (h_xs arr) (h_fits arr) (Some xb) fxb)) Q l.
Proof.
  intros K' arr xb fxb Q l Hne HP Hx Hn (y0 & Hw) Hs Hc HQ.
  destruct (get_best_spec (h_xs arr) (h_fits arr) (Some xb) fxb) as (b & v & (M1 & M2 & M3) & E & (x & Ex)).
  - unfold h_xs, h_fits. rewrite !map_length. reflexivity.
  - unfold h_fits. destruct arr; [congruence|discriminate].
  - unfold h_fits. rewrite Forall_map, Forall_map. eapply Forall_impl; [|exact HP]. intros r Hr. apply Hr.
  - assert (Hr : exists r, nth_error arr b = Some r /\ fst (fst r) = x /\ snd (fst r) = v).
    { unfold h_fits, h_xs in *. rewrite !nth_error_map in *. destruct (nth_error arr b) as [r|]; [|discriminate]. exists r. injection M1 as <-. injection Ex as <-. auto. }
    destruct Hr as (r & Er & Rx & Rv). assert (Pr := Forall_nth _ _ _ _ _ HP Er). destruct Pr as (P1 & P2 & P3 & P4). rewrite Rx, Rv in *.
    assert (Hmin : forall r, In r arr -> fleb v (snd (fst r)) = true).
    { intros r' Hr'. apply In_nth_error in Hr'. destruct Hr' as [j Hj]. apply (M2 j). unfold h_fits. rewrite !nth_error_map, Hj. reflexivity. }
    assert (Hcv : forall y w, In (y, w) l -> fleb fxb w = true \/ fleb v w = true).
    { intros y w Hi. destruct (Hc y w Hi) as [?|(g & G1 & G2)]; [auto|]. right. apply In_nth_error in G1. destruct G1 as [j Hj]. eapply fleb_trans; [apply (M2 j g Hj)|exact G2]. }
    rewrite E, Ex. destruct (fleb v fxb) eqn:El; apply w_done; apply HQ.
    + split; [exact P1|]. split; [intros y w Hi; destruct (Hcv y w Hi); auto; eapply fleb_trans; eauto|]. split; [exact P2|]. split.
      * destruct P4 as [S|[S _]]; [eauto|]. exists y0. replace v with fxb; [exact Hw|]. apply feqb_eq. clear -S El. numo.
      * intros Q0. destruct P4 as [S|[_ S]]; [exact S|]. apply S in Q0. apply fleb_fltb_false in El. congruence.
    + rewrite Forall_forall in HP |- *. intros r' Hr'. destruct (HP r' Hr') as (R1 & R2 & R3 & R4). split; [exact R1|]. split; [apply Hmin, Hr'|]. split; [exact R3|].
      intros Q0. destruct R4 as [S|[_ S]]; [left; auto|right]. eapply fleb_fltb_trans; [exact El|apply S, Q0].
    + exact El.
    + assert (El' := El). apply fleb_false_fltb in El'; auto. apply fltb_fleb in El'. split; [exact Hx|]. split; [|split; [exact Hn|split; [eauto|exact Hs]]].
      intros y w Hi. destruct (Hcv y w Hi); auto. eapply fleb_trans; eauto.
    + apply fleb_false_fltb in El; auto. rewrite Forall_forall in HP |- *. intros r' Hr'. destruct (HP r' Hr') as (R1 & R2 & R3 & R4).
      assert (Z : fltb fxb (snd (fst r')) = true) by (eapply fltb_fleb_trans; [exact El|apply Hmin, Hr']).
      split; [exact R1|]. split; [apply fltb_fleb; exact Z|]. split; [exact R3|]. intros _. right. exact Z.
    + apply fleb_refl; auto.
Qed.
End Hde.

(** ** The iteration *)
Section Iter.
Variables (F : fops) (C : cfg) (kp : Prop) (X : exn -> Prop).
Hypothesis HC : cfg_ok C.
Hypothesis Hd : 0 < c_dim C.
Let K := KRX C (fun x y => kp -> length x = c_dim C -> keeps C x y) (inside C) X.
Variable p : hde_par.
Let q := hd_mts p.
Hypothesis Hms : hd_ms p <> Some [].
Hypothesis Hls : mt_ls q <> [].
Hypothesis H3 : length (mt_ls q) <= 3 \/ mt_tests q = 0.
Variable P : nat -> Prop.
Hypothesis Hdyn : forall p_max rp, hd_dyn p = Some (p_max, rp) -> (p_max <> 0)%Z /\ forall n, P n -> 3 < n -> P (n / 2).
Variable m : bool.
Hypothesis Hm : m = true -> kp /\ forallb notls3 (mt_ls q) = true.

Lemma h_new_sr : length (m_sr (h_new F C)) = c_dim C.
Proof. cbn [h_new m_sr]. rewrite map_length. unfold trange. dl. Qed.
Lemma fst_hnew : forall new : list ind, map fst (map (fun i => (i, h_new F C)) new) = new.
Proof. intros. rewrite map_map. cbn [fst]. apply map_id. Qed.
(** evolve looks at the coordinates only *)
Definition bare (pop : list ind) : list ind := map (fun i => (fst i, PInf)) pop.
Lemma bare_fst : forall pop, map fst (bare pop) = map fst pop.
Proof. intros. unfold bare. rewrite map_map. reflexivity. Qed.
Lemma bare_len : forall pop, length (bare pop) = length pop.
Proof. intros. apply map_length. Qed.
Lemma bare_ok : forall l pop, Forall (inside C) (map fst pop) -> Forall (IOk C l) (bare pop).
Proof. intros l pop H. unfold bare. rewrite Forall_map in *. eapply Forall_impl; [|exact H]. intros i Hi. split; [exact Hi|left; reflexivity]. Qed.
Lemma de_evolve_bare : forall pop xb, de_evolve F (hd_de p) pop xb = de_evolve F (hd_de p) (bare pop) xb.
Proof. intros. unfold de_evolve. rewrite bare_fst, bare_len. reflexivity. Qed.
Lemma ms_evolve_bare : forall ss pop xb, ms_evolve F (hd_de p) ss pop xb = ms_evolve F (hd_de p) ss (bare pop) xb.
Proof. intros. unfold ms_evolve, multi_mutations. rewrite bare_fst, bare_len. reflexivity. Qed.
Lemma w_hde_evolve : forall pop xb fb l, 0 < length pop -> Forall (inside C) (h_xs pop) -> length xb = c_dim C -> Cov l [] fb ->
  wp K (hde_evolve F C p pop xb) (fun new l' => ext l l' /\ Forall (IOk C l') (map fst new) /\ Cov l' (h_fits new) fb /\ length new = length pop /\ Forall (fun r => snd r = h_new F C) new) l.
Proof.
  intros pop xb fb l Hn Hi Hx Hc. unfold hde_evolve. apply wp_bind.
  apply wp_conseq0 with (Q := fun new l' => IAcc C l fb new l' /\ length new = length (map fst pop)).
  - apply wp_KPX. destruct (hd_ms p) as [ss|] eqn:Es.
    + rewrite ms_evolve_bare, <- bare_len. apply (ms_evolve_ok X F C (hd_de p) ss HC Hd); auto; [congruence|rewrite bare_len, map_length; auto|apply bare_ok; auto].
    + rewrite de_evolve_bare, <- bare_len. apply (de_evolve_ok X F C (hd_de p) HC Hd); auto; [rewrite bare_len, map_length; auto|apply bare_ok; auto].
  - intros new l' [(A1 & A2 & A3) A4]. apply w_done. unfold h_fits. rewrite fst_hnew. rewrite !map_length in *. split; [auto|]. split; [auto|]. split; [auto|]. split; [auto|].
    apply Forall_map. apply Forall_forall. reflexivity.
Qed.
Lemma w_h_select : forall K' pop new (Q : list hind -> elog -> Prop) l, length new = length pop -> Q (map2 h_choose new pop) l -> wp K' (h_select pop new) Q l.
Proof.
  intros K' pop new. revert pop. induction new as [|e new IH]; intros [|o pop] Q l Hl HQ; cbn [h_select map2 length] in *; try discriminate; [exact HQ|].
  apply wp_bind. apply IH; [lia|]. apply w_done. exact HQ.
Qed.
Lemma h_choose_Forall : forall (R : hind -> Prop) new pop, Forall R new -> Forall R pop -> Forall R (map2 h_choose new pop).
Proof.
  intros R new. induction new as [|e new IH]; intros [|o pop] H1 H2; cbn [map2]; auto. inversion H1; inversion H2; subst. constructor; auto. unfold h_choose. destruct (fltb _ _); auto.
Qed.
Lemma h_choose_le : forall new pop, length new = length pop -> Forall (fun f => f <> NaN) (h_fits new) -> Forall (fun f => f <> NaN) (h_fits pop) ->
  Forall2 (fun a b => fleb (snd (fst a)) (snd (fst b)) = true) (map2 h_choose new pop) new /\ Forall2 (fun a b => fleb (snd (fst a)) (snd (fst b)) = true) (map2 h_choose new pop) pop.
Proof.
  induction new as [|e new IH]; intros [|o pop] Hl H1 H2; cbn [map2 length h_fits map] in *; try discriminate; [split; constructor|]. inversion H1; inversion H2; subst.
  destruct (IH pop) as [I1 I2]; auto. split; constructor; auto; unfold h_choose; destruct (fltb (snd (fst e)) (snd (fst o))) eqn:Q; try (apply fleb_refl; auto).
  - apply fltb_false_fleb; auto.
  - apply fltb_fleb; auto.
Qed.
Lemma w_h_halve : forall K' (R : hind -> Prop) pop (Q : list hind -> elog -> Prop) l, Forall R pop ->
  (forall pop', length pop' = length pop / 2 -> Forall R pop' -> Q pop' l) -> wp K' (h_halve pop) Q l.
Proof.
  intros K' R pop Q l HI HQ. unfold h_halve. eapply wp_conseq0.
  - apply (wp_mapM_acc _ _ _ _ (fun bs l' => l' = l /\ Forall R bs)); auto.
    intros pr a post bs l' Epp _ [-> Hb].
    assert (X0 : nth_error (seq 0 (length pop / 2)) (length pr) = Some a) by (rewrite Epp, nth_error_app2, Nat.sub_diag; auto).
    apply nth_error_seq in X0. pose proof (Nat.mul_div_le (length pop) 2).
    apply wp_bind. apply w_nthP; [lia|]. intros x Hx. apply wp_bind. apply w_nthP; [lia|]. intros y Hy. simpl. split; auto.
    apply Forall_app. split; auto. constructor; auto. destruct (fltb _ _); [exact (Forall_nth _ _ _ _ _ HI Hx)|exact (Forall_nth _ _ _ _ _ HI Hy)].
  - intros bs l' [[-> Hb] Hl]. rewrite seq_length in Hl. auto.
Qed.
Lemma w_h_dynnp : forall K' p_max rp (R : hind -> Prop) arr (Q : list hind -> elog -> Prop) l, (p_max <> 0)%Z -> (forall n, P n -> 3 < n -> P (n / 2)) -> 0 < length arr -> P (length arr) -> Forall R arr ->
  (forall arr', 0 < length arr' -> P (length arr') -> Forall R arr' -> Q arr' l) -> wp K' (h_dynnp C p_max rp arr) Q l.
Proof.
  intros K' p_max rp R arr Q l Hz HP Hn Hp HR HQ. unfold h_dynnp. apply wp_bind. apply w_view. intros v. destruct (c_max_evals C) as [|z]; [apply w_done; auto|].
  assert (Ez : Z.eqb (p_max * Z.of_nat (length arr)) 0 = false) by (apply Z.eqb_neq; intros E; apply Z.mul_eq_0 in E; lia). cbv zeta. rewrite Ez.
  destruct (Z.eqb _ _ && (3 <? length arr)) eqn:B; [|apply w_done; auto]. apply andb_true_iff in B. destruct B as [_ B]. apply Nat.ltb_lt in B.
  apply (w_h_halve _ R); auto. intros pop' L1 L2. apply HQ; auto; rewrite L1; [|apply HP; auto]. assert (2 <= length arr / 2) by (apply Nat.div_le_lower_bound; lia). lia.
Qed.
Definition flag_only (r r' : hind) : Prop := fst r' = fst r /\ m_im (snd r') = m_im (snd r) /\ m_sr (snd r') = m_sr (snd r) /\ m_gr (snd r') = m_gr (snd r).
Lemma h_enable_flags : forall idx pop, Forall2 flag_only pop (h_enable idx pop).
Proof.
  intros idx pop. unfold h_enable. generalize 0. induction pop as [|r pop IH]; intros k; cbn [length seq combine map]; constructor; auto.
  cbn [fst snd]. unfold flag_only. destruct (existsb _ _); cbn [fst snd set_enabled m_im m_sr m_gr]; auto.
Qed.
Lemma ents_enable : forall idx l bf pop, Forall (ent C m l bf) pop -> Forall (ent C m l bf) (h_enable idx pop).
Proof.
  intros idx l bf pop H. assert (HF := h_enable_flags idx pop). revert H. induction HF as [|r r' pop pop' (E1 & E2 & E3 & E4) _ IH]; intros H; [constructor|].
  inversion H as [|? ? (G1 & G2 & G3 & G4) H']; subst. constructor; auto. unfold ent. rewrite E1, E3. auto.
Qed.
Lemma fst_enable : forall idx pop, map fst (h_enable idx pop) = map fst pop.
Proof. intros idx pop. assert (HF := h_enable_flags idx pop). induction HF as [|r r' pop pop' (E1 & _) _ IH]; cbn [map]; congruence. Qed.
Lemma h_enable_len : forall idx pop, length (h_enable idx pop) = length pop.
Proof. intros. unfold h_enable. rewrite map_length, combine_length, seq_length. lia. Qed.

(** the invariant *)
Definition HInv (pop : list hind) (fit : list num) (xb : vec) (fxb : num) (_ : unit) (l : elog) : Prop :=
  P (length pop) /\ 0 < length pop /\ fit = h_fits pop /\ Forall (ent C m l fxb) pop /\ bst C m l xb fxb.
Lemma ents_xs : forall l bf pop, Forall (ent C m l bf) pop -> Forall (inside C) (h_xs pop).
Proof. intros l bf pop H. unfold h_xs. rewrite !Forall_map. eapply Forall_impl; [|exact H]. intros r Hr. apply Hr. Qed.
Lemma pre_fits : forall l bf pop, Forall (pre C m l bf) pop -> Forall (fun f => f <> NaN) (h_fits pop).
Proof. intros l bf pop H. unfold h_fits. rewrite !Forall_map. eapply Forall_impl; [|exact H]. intros r Hr. apply Hr. Qed.
Lemma new_pre : forall l bf new, (forall r, In r new -> snd (fst r) <> NaN) -> Forall (IOk C l) (map fst new) -> Forall (fun r : hind => snd r = h_new F C) new -> Forall (pre C m l bf) new.
Proof.
  intros l bf new Hn H1 H2. rewrite Forall_map in H1. rewrite Forall_forall in *. intros r Hr. destruct (H1 r Hr) as [I1 I2]. split; [exact I1|]. split; [apply Hn, Hr|].
  split; [rewrite (H2 r Hr); apply h_new_sr|left; exact I2].
Qed.
Lemma hde_init_ok : 0 < de_n (hd_de p) -> P (de_n (hd_de p)) -> init_c K (hde F C p) HInv.
Proof.
  intros Hn HP. unfold init_c. cbn [hde a_init a_coords a_pop a_par]. unfold hde_init. apply wp_bind. apply wp_KPX. apply w_default_individual_init; auto.
  intros pop l Lp Ho Hc. apply w_done. unfold h_xs. rewrite fst_hnew.
  apply (w_get_best0_i _ C); auto; [destruct pop; [simpl in Lp; lia|discriminate]|]. intros x f (G1 & G2 & G3) Hx. cbn [fst snd].
  unfold HInv, h_fits. rewrite fst_hnew, map_length, Lp. split; [exact HP|]. split; [exact Hn|]. split; [reflexivity|]. split.
  - rewrite Forall_map. eapply Forall_impl; [|exact Ho]. intros i [I1 I2]. split; [exact I1|]. cbn [fst snd]. split; [destruct I2 as [->|I2]; [apply fleb_PInf; auto|eapply G2; exact I2]|].
    split; [apply h_new_sr|]. intros _. left. exact I2.
  - split; [exact Hx|]. split; [exact G2|]. split; [exact G3|]. split; [eauto|auto].
Qed.
Definition h_rel (s s' : snap) : Prop := hd_dyn p = None -> no_worse_fit s s'.
(** one member before and after an iteration *)
Definition h_member (r r' : hind) : Prop := fleb (snd (fst r')) (snd (fst r)) = true /\ (m_en (snd r) = false -> flag_only r r' \/ fltb (snd (fst r')) (snd (fst r)) = true).
Definition h_step (pop pop' : list hind) : Prop :=
  (hd_dyn p = None -> Forall2 h_member pop pop') /\
  (forall i r', nth_error pop' i = Some r' -> m_en (snd r') = existsb (Nat.eqb i) (firstn (mt_enabled q) (hd_ord p (length pop')))).
Lemma h_enable_en : forall idx pop, Forall (fun r : hind => m_en (snd r) = false) pop -> forall i r', nth_error (h_enable idx pop) i = Some r' -> m_en (snd r') = existsb (Nat.eqb i) idx.
Proof.
  clear. intros idx pop H. unfold h_enable. assert (G : forall k i r', nth_error (map (fun ie : nat * hind => if existsb (Nat.eqb (fst ie)) idx then (fst (snd ie), set_enabled (snd (snd ie))) else snd ie) (combine (seq k (length pop)) pop)) i = Some r' -> m_en (snd r') = existsb (Nat.eqb (k + i)) idx).
  { induction H as [|r pop H1 _ IH]; intros k [|i] r' Hi; cbn [length seq combine map nth_error fst snd] in Hi; try discriminate.
    - injection Hi as <-. rewrite Nat.add_0_r. destruct (existsb _ _); [reflexivity|exact H1].
    - rewrite <- Nat.add_succ_comm. eapply IH. exact Hi. }
  intros i r' Hi. exact (G 0 i r' Hi).
Qed.
Lemma turn_off : forall a b, Forall2 turn a b -> Forall (fun r : hind => m_en (snd r) = false) b.
Proof. clear. induction 1 as [|r r' a b [T _] _ IH]; constructor; auto. destruct (m_en (snd r)) eqn:Q; [exact T|congruence]. Qed.
Lemma choose_kept : forall new pop, length new = length pop -> Forall2 (fun o c => c = o \/ fltb (snd (fst c)) (snd (fst o)) = true) pop (map2 h_choose new pop).
Proof.
  clear. induction new as [|e new IH]; intros [|o pop] Hl; cbn [map2 length] in *; try discriminate; constructor; auto. unfold h_choose. destruct (fltb _ _) eqn:Q; auto.
Qed.
Lemma members_step : forall pop arr rows pop', Forall2 (fun a b => fleb (snd (fst a)) (snd (fst b)) = true) arr pop -> Forall2 (fun o c : hind => c = o \/ fltb (snd (fst c)) (snd (fst o)) = true) pop arr ->
  Forall2 turn arr rows -> Forall2 flag_only rows pop' -> Forall2 h_member pop pop'.
Proof.
  clear. intros pop arr rows pop' H1 H2. revert rows pop'. induction H2 as [|o c pop arr H2 _ IH]; intros rows pop' H3 H4; inversion H3 as [|? r ? rows0 [T1 T2] H3']; subst; inversion H4 as [|? r' ? pop0 F0 H4']; subst; constructor.
  - inversion H1 as [|? ? ? ? G1 G2]; subst. destruct F0 as (E1 & E2 & E3 & E4). split; [rewrite E1; eapply fleb_trans; eauto|]. intros En. destruct H2 as [->|H2].
    + rewrite En in T1. subst r. left. split; auto.
    + right. rewrite E1. eapply fleb_fltb_trans; eauto.
  - inversion H1; subst. eapply IH; eauto.
Qed.
(** the part of the iteration before the local searches *)
Definition en (r : hind) : Prop := m_en (snd r) = true.
Lemma w_hde_front : forall pop fit xb fxb u l (Q : list hind * list num * vec * num * unit -> elog -> Prop), HInv pop fit xb fxb u l ->
  (forall arr' x1 f1 l1, ext l l1 -> 0 < length arr' -> P (length arr') -> Forall (ent C m l1 f1) arr' -> bst C m l1 x1 f1 -> fleb f1 fxb = true -> (Forall en pop -> Forall en arr') ->
     (hd_dyn p = None -> Forall2 (fun a b => fleb (snd (fst a)) (snd (fst b)) = true) arr' pop /\ Forall2 (fun o c : hind => c = o \/ fltb (snd (fst c)) (snd (fst o)) = true) pop arr') ->
     wp K (let* (pop', xb2, fxb2) := hde_post F C p arr' x1 f1 in
           let* (xb3, fxb3) := lift (get_best (h_xs pop') (h_fits pop') (Some xb2) fxb2) in
           Done (pop', h_fits pop', xb3, fxb3, tt)) Q l1) ->
  wp K (hde_iter F C p pop fit xb fxb u) Q l.
Proof.
  intros pop fit xb fxb u l Q0 (I1 & I2 & I3 & I4 & I5) HQ. unfold hde_iter. destruct I5 as (B1 & B2 & B3 & B4 & B5).
  apply wp_bind. eapply wp_conseq0; [apply (w_hde_evolve pop xb fxb l)|].
  { exact I2. } { eapply ents_xs; eauto. } { apply inside_len; auto. } { apply LB_Cov; auto. }
  intros new l1 (E1 & E2 & E3 & E4 & E5). apply wp_bind. apply w_h_select; [exact E4|].
  assert (Nn : Forall (fun f => f <> NaN) (h_fits new)) by (unfold h_fits; eapply Seen2_not_nan; [exact E3|apply IOk_seen2 with (C := C); exact E2]).
  assert (Pn : Forall (pre C m l1 fxb) new).
  { apply new_pre; auto. intros r Hr. rewrite Forall_forall in Nn. apply Nn. unfold h_fits. apply in_map, in_map, Hr. }
  assert (Pp : Forall (pre C m l1 fxb) pop) by (eapply Forall_impl; [|exact I4]; intros r Hr; eapply pre_ext; [exact E1|apply ent_pre; exact Hr]).
  assert (Np := pre_fits _ _ _ Pp). destruct (h_choose_le new pop E4 Nn Np) as [C1 C2].
  set (arr := map2 h_choose new pop) in *. assert (La : length arr = length pop) by (apply (map2_length _ _ _ h_choose); auto).
  assert (Pa : Forall (pre C m l1 fxb) arr) by (apply h_choose_Forall; auto).
  assert (Ca : Cov l1 (h_fits arr) fxb).
  { intros y w Hi. destruct (E3 y w Hi) as [?|(g & G1 & G2)]; [auto|]. right. unfold h_fits in G1. rewrite map_map in G1. apply in_map_iff in G1. destruct G1 as (r & <- & Hr).
    apply In_nth_error in Hr. destruct Hr as [j Hj]. destruct (F2_nth_r _ _ _ _ _ _ _ C1 Hj) as (r' & Hr' & Hle). exists (snd (fst r')). split; [|eapply fleb_trans; eauto].
    unfold h_fits. rewrite map_map. apply nth_error_In in Hr'. apply (in_map (fun r => snd (fst r))) in Hr'. exact Hr'. }
  assert (Ck := choose_kept new pop E4). fold arr in Ck.
  assert (Ee : Forall en pop -> Forall en arr).
  { intros Q. apply h_choose_Forall; [|exact Q]. eapply Forall_impl; [|exact E5]. unfold en; intros r ->; reflexivity. }
  clearbody arr. clear C1.
  apply wp_bind. apply (w_get_best_h C m); [destruct arr; [simpl in La; lia|discriminate]|exact Pa|exact B1|exact B3| | |exact Ca|].
  { destruct B4 as [y S]. exists y. eapply Seen_ext; eauto. } { intros Q. eapply Seen_ext; [exact E1|auto]. }
  intros x1 f1 Hb1 He1 Hf1. apply wp_bind.
  apply wp_conseq0 with (Q := fun arr' l' => l' = l1 /\ 0 < length arr' /\ P (length arr') /\ Forall (ent C m l1 f1) arr' /\ (Forall en pop -> Forall en arr') /\ (hd_dyn p = None -> arr' = arr)).
  { destruct (hd_dyn p) as [[p_max rp]|] eqn:Ed; [|apply w_done; rewrite La; split; [auto|]; split; [auto|]; split; [auto|]; split; [auto|]; split; auto].
    destruct (Hdyn _ _ eq_refl) as [Z1 Z2]. apply (w_h_dynnp _ p_max rp (fun r => ent C m l1 f1 r /\ (Forall en pop -> en r))); auto; [lia|rewrite La; auto| |].
    - apply Forall_forall. intros r Hr. split; [rewrite Forall_forall in He1; auto|]. intros Q. specialize (Ee Q). rewrite Forall_forall in Ee. auto.
    - intros arr' Q1 Q2 Q3. split; [auto|]. split; [auto|]. split; [auto|]. split; [eapply Forall_impl; [|exact Q3]; intros r Hr; apply Hr|]. split; [|discriminate].
      intros Q. eapply Forall_impl; [|exact Q3]. intros r Hr. apply Hr, Q. }
  intros arr' l' (-> & A1 & A2 & A3 & A4 & A5). apply HQ; auto. intros Q. specialize (A5 Q). subst arr'. split; auto.
Qed.
Lemma hde_iter_s : forall pop fit xb fxb u l, HInv pop fit xb fxb u l -> wp K (hde_iter F C p pop fit xb fxb u) (fun a l' => let '(pop', fit', xb', fxb', u') := a in
  HInv pop' fit' xb' fxb' u' l' /\ h_step pop pop' /\ fleb fxb' fxb = true) l.
Proof.
  intros pop fit xb fxb u l HI. apply w_hde_front; [exact HI|].
  intros arr' x1 f1 l1 Hx A1 A2 A3 Hb1 Hf1 _ A4. apply wp_bind. unfold hde_post. apply wp_bind. eapply wp_conseq0; [apply (w_members_h F C kp X HC q Hls H3 m Hm arr' x1 f1 l1 A3 Hb1)|].
  intros [[rows x2] f2] l2 (R1 & R2 & R3 & R4). cbn [fst snd] in *. apply w_done. set (idx := firstn _ _). assert (Lr := Forall2_len _ _ _ _ _ R2).
  assert (Ee := ents_enable idx _ _ _ R1). assert (Fl := h_enable_flags idx rows). assert (Le := h_enable_len idx rows). set (pop' := h_enable idx rows) in *.
  destruct R3 as (D1 & D2 & D3 & D4 & D5). apply wp_bind.
  apply (w_get_best_h C m); [destruct pop'; [simpl in Le; lia|discriminate]|eapply Forall_impl; [|exact Ee]; intros r; apply ent_pre|exact D1|exact D3|exact D4|exact D5|apply LB_Cov; exact D2|].
  intros x3 f3 Hb3 He3 Hf3. apply w_done. split.
  - split; [rewrite Le, <- Lr; exact A2|]. split; [lia|]. split; [reflexivity|]. split; auto.
  - split; [split|].
    + intros Q. destruct (A4 Q). eapply members_step; eauto.
    + rewrite Le. subst pop'. apply h_enable_en. eapply turn_off; eauto.
    + eapply fleb_trans; [exact Hf3|]. eapply fleb_trans; [exact R4|exact Hf1].
Qed.
Lemma hde_iter_r : iter_r K (hde F C p) HInv h_rel.
Proof.
  intros pop fit xb fxb u l HI. cbn [hde a_iter]. eapply wp_conseq0; [apply hde_iter_s; exact HI|]. intros [[[[pop' fit'] xb'] fxb'] u'] l' (I2 & [S _] & _). split; [exact I2|].
  intros Q. specialize (S Q). destruct HI as (_ & _ & -> & _). destruct I2 as (_ & _ & -> & _). unfold no_worse_fit. cbn [fst snd]. unfold h_fits. clear -S. induction S as [|r r' pop pop' [H _] _ IH]; cbn [map]; constructor; auto.
Qed.
Lemma hde_iter_ok : iter_c K (hde F C p) HInv.
Proof. exact (iter_r_c _ _ _ _ hde_iter_r). Qed.
End Iter.
