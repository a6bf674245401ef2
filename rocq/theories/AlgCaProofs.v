(** Proofs about CamelAlgorithm. *)
From Coq Require Import ZArith Lia Bool List.
From Verif Require Import Num Task TaskSpec TaskProofs TaskProofs2 Prog Wp GetBest Run RunSpec RunProofs RunProofs2
  AlgoLib Fops AlgTac StepSpec StepLib Indiv IndivLib AlgPSO AlgPSOProofs AlgBasic AlgBasic2 AlgBasic2Proofs CondLib AlgCa.
Import ListNotations.

Ltac incl_t := intros a Ha; repeat (cbn [map app In] in *; rewrite ?in_app_iff in * ); tauto.
Section Ca.
Variables (F : fops) (C : cfg) (p : ca_par) (X : exn -> Prop).
Hypothesis HC : cfg_ok C.
Hypothesis HX : (feqb (ca_tmax p) f0 = false /\ feqb (ca_e p) f0 = false /\ feqb (ca_s p) f0 = false) \/ X EZeroDiv.
Notation K := (KPX C (inside C) X).
(** a camel dies only when it got no better *)
Definition dies_worse (v : num) : Prop := forall a, fltb a (fmul F (ca_death p) v) = true -> fleb a v = true.
Notation NN := (vals dies_worse).

(** between the steps of an iteration *)
Definition CmW (l : elog) (c : camel) : Prop :=
  inside C (cm_x c) /\ inside C (cm_xp c) /\ Seen l (cm_x c) (cm_f c) /\ Seen l (cm_xp c) (cm_fp c) /\ cm_f c <> NaN /\ cm_fp c <> NaN.
(** at the start of an iteration *)
Definition CmOk (l : elog) (c : camel) : Prop := CmW l c /\ cm_xp c = cm_x c /\ cm_fp c = cm_f c /\ cm_ep c = cm_e c /\ cm_sp c = cm_s c.
Lemma CmW_ext : forall l l' c, ext l l' -> CmW l c -> CmW l' c.
Proof. intros l l' c He (H1 & H2 & H3 & H4 & H5 & H6). repeat split; auto; eapply Seen_ext; eauto. Qed.
Lemma CmOk_ext : forall l l' c, ext l l' -> CmOk l c -> CmOk l' c.
Proof. intros l l' c He (H1 & H2). split; auto. eapply CmW_ext; eauto. Qed.

Lemma w_py_div : forall a b (Q : num -> elog -> Prop) l, (feqb b f0 = false \/ X EZeroDiv) -> (feqb b f0 = false -> Q (fdiv F a b) l) -> wp K (py_div F a b) Q l.
Proof. intros a b Q l H HQ. unfold py_div. destruct (feqb b f0) eqn:Q0; [|apply w_done; auto]. destruct H as [H|H]; [discriminate|]. right. exact H. Qed.
Lemma w_feasible : forall x (Q : bool -> elog -> Prop) l, length x = c_dim C -> (forall b, is_feasible C x = Some b -> (b = true -> inside C x) -> Q b l) -> wp K (feasible C x) Q l.
Proof.
  intros x Q l Hx HQ. unfold feasible. destruct (feasible_some C x HC Hx) as [b Eb]. rewrite Eb. apply w_done. apply HQ; auto.
  intros ->. apply feasible_inside; auto.
Qed.

Lemma w_walk : forall cb c fs fb (Q : camel -> elog -> Prop) l, length cb = c_dim C -> CmOk l c -> (NN l -> Cov l (cm_f c :: fs) fb) ->
  (forall c' l', CmW l' c' -> cm_fp c' = cm_f c -> (NN l' -> Cov l' (cm_f c' :: cm_f c :: fs) fb) -> ext l l' -> Q c' l') ->
  wp K (ca_walk F C p cb c) Q l.
Proof.
  intros cb c fs fb Q l Hb Hc Hv HQ. destruct Hc as ((C1 & C2 & C3 & C4 & C5 & C6) & C7 & C8 & C9 & C10).
  unfold ca_walk. ws. apply w_py_div; [tauto|]. intros N1. ws. apply w_py_div; [tauto|]. intros N2. ws. apply w_py_div; [tauto|]. intros N3. cbv zeta. ws.
  set (x := next_pos F _ _ _ _ _). assert (Lx : length x = c_dim C) by (unfold x, next_pos; dl). apply w_feasible; auto.
  intros b Eb Hi. destruct b.
  - ws. match goal with H : Evald _ _ _ _ |- _ => rename H into He end. assert (Hx := Evald_ext _ _ _ _ He). apply HQ; auto.
    + split; [exact (Hi eq_refl)|]. split; [exact C2|]. split; [exact (Evald_seen _ _ _ _ He)|]. split; [exact (Seen_ext _ _ _ _ Hx C4)|]. split; [exact (Evald_nan _ _ _ _ He)|exact C6].
    + cbn [cm_f]. intros N. apply (Cov_Evald x v l l'); auto. apply Hv. eapply vals_ext; eauto.
  - ws. apply HQ; auto.
    + split; [exact C2|]. split; [exact C2|]. cbn [cm_f cm_xp cm_fp cm_x]. rewrite C7 at 1. split; [exact C3|]. split; [exact C4|]. split; [exact C5|exact C6].
    + cbn [cm_f]. intros N. eapply Cov_incl; [|apply Hv; auto]. intros a Ha. right. exact Ha.
Qed.
Lemma w_walks : forall cb cs fs fb (Q : list camel -> elog -> Prop) l, length cb = c_dim C -> Forall (CmOk l) cs -> (NN l -> Cov l (fs ++ map cm_f cs) fb) ->
  (forall cs' l', Forall (CmW l') cs' -> map cm_fp cs' = map cm_f cs -> (NN l' -> Cov l' (fs ++ map cm_f cs' ++ map cm_f cs) fb) -> ext l l' -> Q cs' l') ->
  wp K (mapM (ca_walk F C p cb) cs) Q l.
Proof.
  intros cb cs. induction cs as [|c cs IH]; intros fs fb Q l Hb Hc Hv HQ; cbn [mapM]; [apply w_done; apply HQ; auto|].
  inversion_clear Hc. apply wp_bind. apply (w_walk cb c (fs ++ map cm_f cs) fb); auto.
  { intros N. eapply Cov_incl; [|apply Hv; auto]. incl_t. }
  intros c' l1 W1 P1 V1 E1. apply wp_bind. apply (IH (cm_f c' :: cm_f c :: fs) fb); auto.
  { eapply Forall_impl; [|eassumption]. intros a Ha. eapply CmOk_ext; eauto. }
  intros cs' l2 W2 P2 V2 E2. apply w_done. apply HQ.
  - constructor; [eapply CmW_ext; eauto|auto].
  - cbn [map]. congruence.
  - intros N. eapply Cov_incl; [|apply V2; auto]. incl_t.
  - eapply ext_trans; eauto.
Qed.
Lemma w_oasis : forall c (Q : camel -> elog -> Prop) l, CmW l c ->
  (forall c', CmW l c' -> cm_f c' = cm_f c -> cm_fp c' = cm_fp c -> Q c' l) -> wp K (ca_oasis F p c) Q l.
Proof. intros c Q l Hc HQ. unfold ca_oasis. ws. destruct (_ && _); apply HQ; auto. Qed.
Lemma w_oases : forall cs (Q : list camel -> elog -> Prop) l, Forall (CmW l) cs ->
  (forall cs', Forall (CmW l) cs' -> map cm_f cs' = map cm_f cs -> map cm_fp cs' = map cm_fp cs -> Q cs' l) -> wp K (mapM (ca_oasis F p) cs) Q l.
Proof.
  intros cs. induction cs as [|c cs IH]; intros Q l Hc HQ; cbn [mapM]; [apply w_done; apply HQ; auto|].
  inversion_clear Hc. apply wp_bind. apply w_oasis; auto. intros c' W1 F1 G1. apply wp_bind. apply IH; auto. intros cs' W2 F2 G2. apply w_done. apply HQ; [auto|cbn [map]; congruence|cbn [map]; congruence].
Qed.
Lemma w_new_camel : forall (Q : camel -> elog -> Prop) l, (forall c l', CmOk l' c -> Evald (cm_x c) (cm_f c) l l' -> Q c l') -> wp K (new_camel C p) Q l.
Proof.
  intros Q l HQ. unfold new_camel. apply wp_bind. apply w_rand_ind; auto. intros y v l' Hy He. apply w_done. apply HQ; [|exact He].
  assert (S := Evald_seen _ _ _ _ He). assert (N := Evald_nan _ _ _ _ He). repeat split; auto.
Qed.
Lemma CmOk_next : forall l c, CmW l c -> CmOk l (ca_next c).
Proof. intros l c (H1 & H2 & H3 & H4 & H5 & H6). repeat split; auto. Qed.
Lemma w_lives : forall cs fs fb (Q : list camel -> elog -> Prop) l, Forall (CmW l) cs -> (NN l -> Forall (fun c => fleb fb (cm_fp c) = true) cs) ->
  (NN l -> Cov l (fs ++ map cm_f cs) fb) ->
  (forall cs' l', Forall (CmOk l') cs' -> length cs' = length cs -> (NN l' -> Cov l' (fs ++ map cm_f cs') fb) -> ext l l' -> Q cs' l') ->
  wp K (mapM (ca_life F C p) cs) Q l.
Proof.
  intros cs. induction cs as [|c cs IH]; intros fs fb Q l Hc Hp Hv HQ; cbn [mapM]; [apply w_done; apply HQ; auto|].
  inversion_clear Hc. apply wp_bind. unfold ca_life. destruct (fltb (cm_fp c) _) eqn:Qd.
  - apply w_new_camel. intros c' l1 O1 E1. assert (X1 := Evald_ext _ _ _ _ E1). apply wp_bind. apply (IH (cm_f c' :: fs) fb).
    + eapply Forall_impl; [|eassumption]. intros a Ha. eapply CmW_ext; eauto.
    + intros N. assert (G := Hp (vals_ext _ _ _ X1 N)). inversion G; auto.
    + intros N. apply (Cov_Evald (cm_x c') (cm_f c') l l1); auto. assert (N' := vals_ext _ _ _ X1 N). assert (G := Hp N'). inversion_clear G.
      intros x v Hi. destruct (Hv N' x v Hi) as [Q1|(f & F1 & F2)]; auto. cbn [map] in F1. apply in_app_or in F1. destruct F1 as [F1|[<-|F1]].
      * right. exists f. split; auto. apply in_or_app; auto.
      * left. eapply fleb_trans; [eassumption|]. eapply fleb_trans; [|exact F2]. assert (D : dies_worse (cm_f c)); [|apply D; exact Qd].
        destruct H as (_ & _ & [S|S] & _); [|exact (N' _ _ S)]. rewrite S. intros a Ha. apply fleb_PInf. eapply fltb_nan_l; eauto.
      * right. exists f. split; auto. apply in_or_app; auto.
    + intros cs' l2 W2 L2 V2 E2. apply w_done. apply HQ; [|cbn [length]; congruence| |eapply ext_trans; eauto].
      * constructor; [eapply CmOk_ext; eauto|auto].
      * intros N. eapply Cov_incl; [|apply V2; auto]. incl_t.
  - apply w_done. apply wp_bind. apply (IH (cm_f c :: fs) fb); auto.
    + intros N. assert (G := Hp N). inversion G; auto.
    + intros N. eapply Cov_incl; [|apply Hv; auto]. incl_t.
    + intros cs' l2 W2 L2 V2 E2. apply w_done. apply HQ; [|cbn [length]; congruence| |auto].
      * constructor; auto. apply CmOk_next. eapply CmW_ext; eauto.
      * intros N. eapply Cov_incl; [|apply V2; auto]. cbn [map ca_next cm_f]. incl_t.
Qed.

Definition CaInv (pop : list camel) (fit : list num) (xb : vec) (fxb : num) (u : unit) (l : elog) : Prop :=
  length pop = ca_n p /\ fit = map cm_f pop /\ Forall (CmOk l) pop /\ inside C xb /\ SeenN l xb fxb /\ (NN l -> LB l fxb).
Lemma CmOk_seen : forall l pop, Forall (CmOk l) pop -> Forall2 (SeenN l) (map cm_x pop) (map cm_f pop).
Proof. intros l pop H. induction H as [|c pop H _ IH]; cbn [map]; constructor; auto. destruct H as ((_ & _ & H3 & _ & H5 & _) & _). split; auto. Qed.
Lemma ca_xs_inside : forall l pop x, Forall (CmOk l) pop -> In x (map cm_x pop) -> inside C x.
Proof. intros l pop x H Hi. apply in_map_iff in Hi. destruct Hi as (c & <- & Hc). rewrite Forall_forall in H. apply (H c Hc). Qed.
Lemma ca_init_c : 0 < ca_n p -> init_c K (ca F C p) CaInv.
Proof.
  intros Hn. unfold init_c. cbn [a_init ca a_coords]. unfold ca_init. apply wp_bind.
  eapply wp_conseq0.
  - apply (wp_repeatM _ _ _ (fun cs l => Forall (CmOk l) cs /\ Cov l (map cm_f cs) PInf)).
    + split; [constructor|intros x v []].
    + intros bs l' _ [H1 H2]. apply w_new_camel. intros c l1 O1 E1. assert (X1 := Evald_ext _ _ _ _ E1). split.
      * apply Forall_app. split; [eapply Forall_impl; [|exact H1]; intros a Ha; eapply CmOk_ext; eauto|auto].
      * rewrite map_app. cbn [map]. eapply Cov_incl; [|eapply Cov_Evald; eauto]. incl_t.
  - intros pop l [[H1 H2] H3]. apply w_done. assert (S := CmOk_seen _ _ H1). apply w_get_best0_cov; auto.
    + intros Q. destruct pop; [simpl in H3; lia|discriminate].
    + clear - S. induction S; constructor; auto. apply H.
    + intros x f (G1 & G2 & G3) Hx. split; auto. split; auto. split; auto. split; [eapply ca_xs_inside; eauto|]. split; [split; auto|auto].
Qed.
Lemma ca_iter_c : 0 < ca_n p -> iter_c K (ca F C p) CaInv.
Proof.
  intros Hn pop fit xb fxb u l (I1 & I2 & I3 & I4 & I5 & I6). cbn [a_iter ca]. unfold ca_iter.
  assert (Fp : NN l -> Forall (fun c => fleb fxb (cm_f c) = true) pop).
  { intros N. apply Forall_forall. intros c Hc. rewrite Forall_forall in I3. destruct (I3 c Hc) as ((_ & _ & [S|S] & _) & _); [rewrite S; apply fleb_PInf; apply I5|exact (I6 N _ _ S)]. }
  apply wp_bind. apply (w_walks xb pop [] fxb); auto; [apply inside_len; auto|intros N; apply LB_Cov; auto|]. intros c1 l1 W1 P1 V1 E1. cbn [app] in V1.
  apply wp_bind. apply w_oases; auto. intros c2 W2 F2 G2. apply wp_bind. apply (w_lives c2 [] fxb); auto.
  { intros N. assert (Q := Fp (vals_ext _ _ _ E1 N)). apply Forall_forall. intros c Hc. assert (Hm : In (cm_fp c) (map cm_f pop)) by (rewrite <- P1, <- G2; apply in_map; auto).
    apply in_map_iff in Hm. destruct Hm as (c0 & <- & Hc0). rewrite Forall_forall in Q. exact (Q _ Hc0). }
  { intros N. cbn [app]. rewrite F2. intros x v Hi. destruct (V1 N x v Hi) as [Q|(f & Q1 & Q2)]; auto. apply in_app_or in Q1. destruct Q1 as [Q1|Q1]; [right; eauto|].
    left. assert (Q := Fp (vals_ext _ _ _ E1 N)). apply in_map_iff in Q1. destruct Q1 as (c0 & <- & Hc0). rewrite Forall_forall in Q. eapply fleb_trans; [exact (Q _ Hc0)|exact Q2]. }
  intros c3 l3 W3 L3 V3 E3. cbn [app] in V3. assert (E := ext_trans _ _ _ E1 E3). apply wp_bind.
  assert (L : length c3 = ca_n p). { rewrite L3. apply (f_equal (@length _)) in F2. apply (f_equal (@length _)) in P1. rewrite !map_length in *. lia. }
  apply w_get_best_seen.
  - intros Q. destruct c3; [simpl in L; lia|discriminate].
  - apply CmOk_seen; auto.
  - destruct I5 as [S N]. split; auto. eapply Seen_ext; eauto.
  - intros x f S Hx Hf Hg. apply w_done. split; auto. split; auto. split; auto. split; [destruct Hx as [Hx| ->]; auto; eapply ca_xs_inside; eauto|]. split; auto.
    intros N y v Hi. destruct (V3 N y v Hi) as [Q|(g & Q1 & Q2)]; [eapply fleb_trans; eauto|]. eapply fleb_trans; [apply Hg; exact Q1|exact Q2].
Qed.
End Ca.
