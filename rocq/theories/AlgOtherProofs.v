(** Proofs about AlgOther.v. *)
From Coq Require Import ZArith Lia Bool List Permutation Sorting.Sorted.
From Verif Require Import Num Task TaskSpec TaskProofs TaskProofs2 Prog Wp GetBest Run RunSpec RunProofs RunProofs2
  AlgoLib Fops AlgTac StepSpec StepLib Indiv IndivLib AlgPSO AlgPSOProofs AlgSwarm PopLib AlgSwarmProofs Reach SortLib AlgBasic AlgBasicProofs AlgEvoProofs AlgFwaProofs AlgOther.
Import ListNotations.

(** ** Contexts that also know something about the values of the problem *)
Definition KVX (C : cfg) (P : vec -> Prop) (V : num -> Prop) (X : exn -> Prop) : wctx :=
  WCtx P (fun x y => length x = c_dim C -> inside C y) (fun v => v <> NaN /\ V v) (fun e => e = EFuel \/ X e).
Lemma env_ok_KV : forall (P : vec -> Prop) (V : num -> Prop) (X : exn -> Prop) E, no_nan (e_prob E) -> (forall h x v, e_prob E h x = Ret v -> V (sgn (c_opt (e_cfg E)) v)) -> repair_ok E ->
  env_ok (KVX (e_cfg E) P V X) E.
Proof.
  intros P V X E Hn HV Hr. split; [|split; [|reflexivity]].
  - intros p x. simpl. apply Hr.
  - intros h x v H. simpl. split; [|eapply HV; eauto]. intros Q. apply (proj1 (sgn_nan _ _)) in Q. eapply Hn; eauto.
Qed.
Definition value_run_p (P : vec -> Prop) (X : exn -> Prop) (E : env) (A : algo) : Prop :=
  forall cb n pos r w' ev,
    run_body E A cb n (World (task_init (e_cfg E)) [] pos) = (r, w', ev) ->
    (forall p, In p (w_h w') -> P (fst p)) /\
    StronglySorted (fun newer older => fleb newer older = true) (reported ev) /\
    match r with
    | Ret (x, v) => P x /\ v = t_xf (w_ts w') /\ best_of (c_opt (e_cfg E)) (returned (w_h w')) v
    | Raise e => X e \/ e = EFuel \/ (exists x, hd_error (w_h w') = Some (x, Raise e)) \/ (cb ev = Some e)
    end.
(** a value that was evaluated (or is infinite) and is not above any evaluated value *)
Definition best_value (l : elog) (f : num) : Prop := (exists y, Seen l y f) /\ LB l f /\ f <> NaN.
Theorem value_run_pc : forall P X E A (I : a_pop A -> list num -> vec -> num -> a_par A -> elog -> Prop), let C := e_cfg E in
  no_nan (e_prob E) -> repair_ok E -> init_c (KPX C P X) A I -> iter_c (KPX C P X) A I ->
  (forall pop fit xb fxb par l, I pop fit xb fxb par l -> P xb /\ best_value l fxb) -> value_run_p P X E A.
Proof.
  intros P X E A I C Hn Hr H1 H2 HI cb n pos r w' ev H. assert (HA := algo_ok_c _ _ _ H1 H2).
  destruct (run_inv _ _ _ _ cb n pos (env_ok_KB P X E Hn Hr) HA (fun a b => fleb a b = true)) with (r := r) (w' := w') (ev := ev)
    as (P1 & P2 & P3 & P4); auto.
  - intros s l s' l' I1 I2 He. destruct (HI _ _ _ _ _ _ I1) as (_ & (y & S1) & L1 & N1). destruct (HI _ _ _ _ _ _ I2) as (_ & (y' & S2) & L2 & N2).
    destruct S1 as [->|S1]; [apply fleb_PInf; auto|]. eapply L2. eapply ext_In; eauto.
  - intros a b c. apply fleb_trans.
  - split; [|split; auto].
    + intros p Hp. rewrite Forall_forall in P1. apply P1; auto.
    + destruct r as [[x v]|e].
      * destruct P4 as (s & I1 & -> & ->). destruct (HI _ _ _ _ _ _ I1) as (Hl & (y & S1) & L1 & N1).
        destruct (Good_best_of _ _ _ _ (conj S1 (conj L1 N1))) as [B1 B2]. split; auto. split; auto.
        eapply best_of_unique; eauto. apply P2.
      * destruct P4 as [[P4|P4]|[P4|[P4|P4]]]; auto.
Qed.
Theorem best_run_vc : forall (P : vec -> Prop) (V : num -> Prop) (X : exn -> Prop) E A (I : a_pop A -> list num -> vec -> num -> a_par A -> elog -> Prop), let C := e_cfg E in
  no_nan (e_prob E) -> (forall h x v, e_prob E h x = Ret v -> V (sgn (c_opt C) v)) -> repair_ok E ->
  init_c (KVX C P V X) A I -> iter_c (KVX C P V X) A I ->
  (forall pop fit xb fxb par l, I pop fit xb fxb par l -> length xb = c_dim C /\ Good l xb fxb) -> best_run_p P X E A.
Proof.
  intros P V X E A I C Hn HV Hr H1 H2 HI cb n pos r w' ev H. assert (HA := algo_ok_c _ _ _ H1 H2).
  destruct (run_inv _ _ _ _ cb n pos (env_ok_KV P V X E Hn HV Hr) HA (fun a b => fleb a b = true)) with (r := r) (w' := w') (ev := ev)
    as (P1 & P2 & P3 & P4); auto.
  - intros s l s' l' I1 I2 He. destruct (HI _ _ _ _ _ _ I1) as (_ & (S1 & L1 & N1)). destruct (HI _ _ _ _ _ _ I2) as (_ & (S2 & L2 & N2)).
    destruct S1 as [->|S1]; [apply fleb_PInf; auto|]. eapply L2. eapply ext_In; eauto.
  - intros a b c. apply fleb_trans.
  - split; [|split; auto].
    + intros p Hp. rewrite Forall_forall in P1. apply P1; auto.
    + destruct r as [[x v]|e].
      * destruct P4 as (s & I1 & -> & ->). destruct (HI _ _ _ _ _ _ I1) as (Hl & G).
        destruct (Good_best_of _ _ _ _ G) as [B1 B2]. split; auto. split; auto.
        eapply best_of_unique; eauto. apply P2.
      * destruct P4 as [[P4|P4]|[P4|[P4|P4]]]; auto.
Qed.
Lemma w_eval_v : forall C (P : vec -> Prop) V X x (Q : num -> elog -> Prop) l, P x ->
  (forall v l', Evald x v l l' -> v = PInf \/ V v -> Q v l') -> wp (KVX C P V X) (eval x) Q l.
Proof.
  intros C P V X x Q l Hx H. simpl. split; auto. split.
  - intros v [Hv HV]. apply H; auto. left; auto.
  - apply H; auto. right; auto.
Qed.
Lemma w_repair_v : forall C (P : vec -> Prop) V X x (Q : vec -> elog -> Prop) l, length x = c_dim C -> (forall y, inside C y -> Q y l) -> wp (KVX C P V X) (repair x) Q l.
Proof. intros C P V X x Q l Hx H. simpl. intros y Hy. apply H. auto. Qed.

(** ** What holds along a run, with the knowledge that iterations start only when the task has not stopped *)
Theorem loop_strong : forall E A cb (J : rstate A -> world -> Prop),
  (forall s w pop fit xb fxb par w1, J s w -> stopping_condition (e_cfg E) (w_ts w) = false ->
     exec E (a_iter A (r_pop s) (r_fit s) (r_xb s) (r_fxb s) (r_par s)) w = (Ret (pop, fit, xb, fxb, par), w1) ->
     J (RState pop fit xb fxb par) (World (next_iter (w_ts w1)) (w_h w1) (w_pos w1))) ->
  forall n s w ev x v w' ev', J s w -> loop E A cb n s w ev = (Ret (x, v), w', ev') -> exists s', J s' w' /\ x = r_xb s' /\ v = r_fxb s'.
Proof.
  intros E A cb J HJ n. induction n as [|n IH]; intros s w ev x v w' ev' Hs H; cbn [loop] in H.
  - destruct (stopping_condition (e_cfg E) (w_ts w)); inversion H; subst. eauto.
  - destruct (stopping_condition (e_cfg E) (w_ts w)) eqn:Q; [inversion H; subst; eauto|].
    destruct (cb _); [discriminate|]. destruct (exec E _ w) as [[[[[[pop fit] xb] fxb] par]|e] w1] eqn:Ex; [|discriminate].
    destruct (cb _); [discriminate|]. eapply IH; [|exact H]. eapply HJ; eauto.
Qed.
Theorem run_strong : forall E A cb (J : rstate A -> world -> Prop),
  (forall pos pop fit par w xb fxb, exec E (a_init A) (World (task_init (e_cfg E)) [] pos) = (Ret (pop, fit, par), w) ->
     get_best (a_coords A pop) fit None PInf = Ret (xb, fxb) -> J (RState pop fit xb fxb par) w) ->
  (forall s w pop fit xb fxb par w1, J s w -> stopping_condition (e_cfg E) (w_ts w) = false ->
     exec E (a_iter A (r_pop s) (r_fit s) (r_xb s) (r_fxb s) (r_par s)) w = (Ret (pop, fit, xb, fxb, par), w1) ->
     J (RState pop fit xb fxb par) (World (next_iter (w_ts w1)) (w_h w1) (w_pos w1))) ->
  forall n pos x v w' ev, run_body E A cb n (World (task_init (e_cfg E)) [] pos) = (Ret (x, v), w', ev) ->
  exists s, J s w' /\ x = r_xb s /\ v = sgn (c_opt (e_cfg E)) (r_fxb s).
Proof.
  intros E A cb J H0 HJ n pos x v w' ev H. unfold run_body in H. destruct (cb [BeforeRun]); [discriminate|].
  destruct (exec E (a_init A) _) as [[[[pop fit] par]|e] w1] eqn:Ex; [|discriminate].
  destruct (get_best (a_coords A pop) fit None PInf) as [[xb fxb]|e] eqn:G; [|discriminate].
  destruct (loop E A cb n _ w1 _) as [[[[y f]|e] w2] ev2] eqn:El; [|discriminate]. destruct (cb _); [discriminate|]. injection H as <- <- <- <-.
  destruct (loop_strong E A cb J HJ _ _ _ _ _ _ _ _ (H0 _ _ _ _ _ _ _ Ex G) El) as (s & H1 & -> & ->). eauto.
Qed.

(** ** Points lower + range * random() *)
Definition drawn (F : fops) (C : cfg) (x : vec) : Prop :=
  exists u, length u = c_dim C /\ Forall in_unit u /\
    (x = vadd F (c_lower C) (vmul F (t_range F C) u) \/ x = vadd F (c_lower C) (vmul F u (t_range F C))).
Definition drawn_or_inside (F : fops) (C : cfg) (x : vec) : Prop := drawn F C x \/ inside C x.
Lemma range_len : forall F C, cfg_ok C -> length (t_range F C) = c_dim C.
Proof. intros F C (H1 & H2 & _). unfold t_range, vsub. apply map2_length; auto. Qed.
Lemma drawn_len : forall F C x, cfg_ok C -> drawn F C x -> length x = c_dim C.
Proof.
  intros F C x HC (u & Lu & _ & [->| ->]); destruct (HC) as (H1 & H2 & _); unfold vadd, vmul; (apply map2_length; auto; apply map2_length; auto; apply range_len; auto).
Qed.
Lemma doi_len : forall F C x, cfg_ok C -> drawn_or_inside F C x -> length x = c_dim C.
Proof. intros F C x HC [H|H]; [eapply drawn_len; eauto|apply inside_len; auto]. Qed.
Lemma w_sample : forall K F C (Q : vec -> elog -> Prop) l, (forall x, drawn F C x -> Q x l) -> wp K (sample F C) Q l.
Proof.
  intros K F C Q l H. unfold sample. apply wp_bind. apply w_random_vec_u. intros u Lu Uu. apply w_done. apply H. exists u. auto.
Qed.

(** get_best with one new point when everything new is covered by it *)
Lemma w_get_best1 : forall K l y f xb fxb (Q : vec * num -> elog -> Prop), Seen l y f -> f <> NaN -> Seen l xb fxb -> fxb <> NaN -> Cov l [f] fxb ->
  (forall x v, Good l x v -> (x = y /\ v = f) \/ (x = xb /\ v = fxb) -> Q (x, v) l) -> wp K (lift (get_best1 y f (Some xb) fxb)) Q l.
Proof.
  intros K l y f xb fxb Q S1 N1 S2 N2 HC HQ. unfold get_best1. destruct (fleb f fxb) eqn:Q1; simpl; apply HQ; auto.
  - split; auto. split; auto. intros x v Hv. destruct (HC x v Hv) as [H|(g & [<-|[]] & H)]; auto. eapply fleb_trans; eauto.
  - split; auto. split; auto. intros x v Hv. destruct (HC x v Hv) as [H|(g & [<-|[]] & H)]; auto.
    assert (fltb fxb f = true) by (apply fleb_false_fltb; auto). eapply fleb_trans; [apply fltb_fleb; eauto|exact H].
Qed.
Lemma w_one_init : forall K x f l (Q : vec * num -> elog -> Prop), Evald x f [] l -> (Good l x f -> Q (x, f) l) ->
  wp K (lift (get_best [x] [f] None PInf)) Q l.
Proof.
  intros K x f l Q He HQ. assert (N := Evald_nan _ _ _ _ He). unfold get_best. cbn [argmin argmin_from nth_error].
  replace (if is_nan f then 0 else 0) with 0 by (destruct (is_nan f); auto). cbn [nth_error]. rewrite (fleb_PInf f) by auto. simpl. apply HQ.
  split; [eapply Evald_seen; eauto|]. split; auto. intros y v Hv. destruct He as [[Hl Hn]|[-> ->]]; [|destruct Hv].
  subst l. destruct Hv as [Hv|[]]. injection Hv as <- <-. apply fleb_refl; auto.
Qed.

(** ** RandomSearch *)
Section RS.
Variables (F : fops) (C : cfg).
Definition fresh (cands : list vec) (x : vec) : Prop := forall a, In a cands -> array_equal a x = false.
(** no candidate equals an earlier one *)
Definition distinct (cands : list vec) : Prop := forall i j a b, i < j -> nth_error cands i = Some a -> nth_error cands j = Some b -> array_equal a b = false.
Lemma distinct_snoc : forall cands x, distinct cands -> fresh cands x -> distinct (cands ++ [x]).
Proof.
  intros cands x H1 H2 i j a b Hij Ha Hb. assert (Lj : j < length (cands ++ [x])) by (apply nth_error_Some; congruence). rewrite app_length in Lj. simpl in Lj.
  rewrite nth_error_app1 in Ha by lia. destruct (Nat.eq_dec j (length cands)) as [->|Hn].
  - rewrite nth_error_app2, Nat.sub_diag in Hb by lia. injection Hb as <-. apply H2. eapply nth_error_In; eauto.
  - rewrite nth_error_app1 in Hb by lia. exact (H1 i j a b Hij Ha Hb).
Qed.
Lemma w_rs_draw : forall P X fuel cands (Q : vec -> elog -> Prop) l, (forall x, drawn F C x -> fresh cands x -> Q x l) ->
  wp (KPX C P X) (rs_draw F C fuel cands) Q l.
Proof.
  intros P X fuel. induction fuel as [|k IH]; intros cands Q l HQ; cbn [rs_draw]; [left; auto|]. apply wp_bind. apply w_sample. intros x Hx.
  destruct (existsb _ cands) eqn:Q1; [apply IH; auto|]. apply w_done. apply HQ; auto. intros a Ha.
  destruct (array_equal a x) eqn:Q2; auto. rewrite (proj2 (existsb_exists (fun a => array_equal a x) cands)) in Q1; [discriminate|]. eauto.
Qed.
Lemma w_rs_candidates : forall P X fuel (Q : list vec -> elog -> Prop) l,
  (forall cands, length cands = rs_total C -> Forall (drawn F C) cands -> distinct cands -> Q cands l) ->
  wp (KPX C P X) (rs_candidates F C fuel) Q l.
Proof.
  intros P X fuel Q l HQ. unfold rs_candidates. eapply wp_conseq0.
  - apply (wp_for_range _ _ _ _ (fun i cands l' => l' = l /\ length cands = i /\ Forall (drawn F C) cands /\ distinct cands)).
    + split; auto. split; auto. split; auto. intros [|i] j a b _ H; discriminate.
    + intros i cands l' Hi (-> & H1 & H2 & H3). apply wp_bind. apply w_rs_draw. intros x Hx Hf. apply w_done. split; auto.
      rewrite app_length, H1. split; auto. split; [apply Forall_app; auto|]. apply distinct_snoc; auto.
  - intros cands l' (-> & H1 & H2 & H3). apply HQ; auto.
Qed.
Definition rs_ok (v : tview) : bool := rs_index C v <? rs_total C.
Lemma rs_guard : forall ts, stopping_condition C ts = false -> 0 < rs_total C -> rs_ok (TView (t_evals ts) (t_iters ts) false) = true.
Proof.
  intros ts H Hp. assert (H1 := below_iters _ _ H). assert (H2 := below_evals _ _ H). unfold rs_ok, rs_index, rs_total in *. unfold below, lim_reached in *.
  cbn [v_iters v_evals]. apply Nat.ltb_lt. destruct (c_max_iters C) as [|k]; [destruct (c_max_evals C) as [|k]; [lia|]|]; apply negb_true_iff in H1, H2;
    rewrite ?Z.leb_gt, ?Z.geb_leb in *; lia.
Qed.
Definition RsInv (pop : list vec) (fit : list num) (xb : vec) (fxb : num) (cands : list vec) (l : elog) : Prop :=
  length cands = rs_total C /\ Forall (drawn F C) cands /\ length fit = 1 /\ drawn F C xb /\ best_value l fxb.
Lemma bv_start : forall x f l, Evald x f [] l -> best_value l f.
Proof.
  intros x f l He. split; [exists x; eapply Evald_seen; eauto|]. split; [|eapply Evald_nan; eauto].
  intros y v Hv. destruct He as [[Hn ->]|[-> ->]]; [|destruct Hv]. destruct Hv as [Hv|[]]. injection Hv as <- <-. apply fleb_refl; auto.
Qed.
Lemma bv_step : forall x f fxb l l', best_value l fxb -> Evald x f l l' -> best_value l' (if fleb f fxb then f else fxb).
Proof.
  intros x f fxb l l' ((y & S1) & L1 & N1) He. assert (Nf := Evald_nan _ _ _ _ He). destruct (fleb f fxb) eqn:Q.
  - split; [exists x; eapply Evald_seen; eauto|]. split; auto. intros z v Hv. destruct He as [[_ ->]|[-> ->]].
    + destruct Hv as [Hv|Hv]; [injection Hv as <- <-; apply fleb_refl; auto|]. eapply fleb_trans; eauto.
    + eapply fleb_trans; eauto.
  - split; [exists y; eapply Seen_ext; [eapply Evald_ext; eauto|auto]|]. split; auto. intros z v Hv. destruct He as [[_ ->]|[-> ->]]; eauto.
    destruct Hv as [Hv|Hv]; eauto. injection Hv as <- <-. apply fltb_fleb. apply fleb_false_fltb; auto.
Qed.
Lemma rs_init_c : forall X fuel it, cfg_ok C -> 0 < rs_total C ->
  init_c (KPX C (drawn F C) X) (Algo (list vec) (list vec) (fun pop => pop) (rs_init F C fuel) it) RsInv.
Proof.
  intros X fuel it HC Hp. unfold init_c. cbn [a_init a_coords]. unfold rs_init. apply wp_bind. apply w_rs_candidates. intros cands L1 D1 _.
  apply wp_bind. unfold nthP at 1. destruct cands as [|c0 cs]; [simpl in L1; lia|]. cbn [nth_error]. apply w_done.
  apply wp_bind. apply w_eval; [inversion D1; auto|]. intros f l He. apply w_done.
  assert (N := Evald_nan _ _ _ _ He). unfold get_best. cbn [argmin argmin_from nth_error].
  replace (if is_nan f then 0 else 0) with 0 by (destruct (is_nan f); auto). cbn [nth_error]. rewrite (fleb_PInf f) by auto. apply w_done.
  split; auto. split; auto. split; auto. split; [|eapply bv_start; eauto].
  rewrite Forall_forall in D1. apply D1. cbn [fst]. assert (G : forall (A : Type) (xs : list A) d, xs <> [] -> In (last xs d) xs).
  { intros A xs d. induction xs as [|a [|b xs] IH]; intros Hn; [destruct Hn; auto|left; auto|]. right. apply IH. discriminate. }
  apply G. discriminate.
Qed.
Lemma rs_iter_c : forall X ini,
  iter_c (KPX C (drawn F C) X) (Algo (list vec) (list vec) (fun pop => pop) ini (view_iter (only_if rs_ok (rs_body C)))) RsInv.
Proof.
  intros X ini pop fit xb fxb cands l (H1 & H2 & H3 & H4 & H5). cbn [a_iter]. unfold view_iter. apply wp_bind. apply w_view. intros v. unfold only_if.
  destruct (rs_ok v) eqn:G; [|left; auto]. unfold rs_ok in G. apply Nat.ltb_lt in G. unfold rs_body. rewrite <- H1 in G.
  apply wp_bind. unfold nthP. destruct (nth_error cands (rs_index C v)) as [x|] eqn:Q; [|apply nth_error_None in Q; lia]. apply w_done.
  assert (Dx : drawn F C x). { rewrite Forall_forall in H2. apply H2. eapply nth_error_In; eauto. }
  apply wp_bind. apply w_eval; auto. intros f l' He. apply wp_bind. assert (B := bv_step _ _ _ _ _ H5 He).
  unfold get_best1. destruct (fleb f fxb) eqn:Q1; cbn [lift]; apply w_done; cbn [wp bind]; (split; [auto|split; [auto|split; [auto|split; auto]]]).
Qed.
End RS.

(** ** HillClimbAlgorithm *)
Section HC.
Variables (F : fops) (C : cfg).
Hypothesis HC : cfg_ok C.
Let P := drawn_or_inside F C.
Lemma w_hc_climb : forall X fuel x xn fn l fxb (Q : vec * num -> elog -> Prop), length x = c_dim C -> P xn -> Seen l xn fn -> fn <> NaN -> Cov l [fn] fxb ->
  (forall y f l', ext l l' -> P y -> Seen l' y f -> f <> NaN -> Cov l' [f] fxb -> Q (y, f) l') ->
  wp (KPX C P X) (hc_climb F C fuel x xn fn) Q l.
Proof.
  intros X fuel. induction fuel as [|k IH]; intros x xn fn l fxb Q Lx Px Sx Nf Cx HQ; cbn [hc_climb]; [left; auto|].
  unfold hc_neighbor. apply wp_bind. apply wp_bind. apply w_rnd_f_vec. intros z Lz. apply wp_bind. apply w_repair.
  { unfold vadd. apply map2_length; auto. }
  intros y Hy. apply wp_bind. apply w_eval; [right; auto|]. intros f l' He. apply w_done.
  assert (Ex := Evald_ext _ _ _ _ He). assert (Nf' := Evald_nan _ _ _ _ He). assert (Cy := Cov_Evald _ _ _ _ _ _ Cx He).
  destruct (fltb f fn) eqn:Q1.
  - apply (IH x y f l' fxb); auto; [right; auto|eapply Evald_seen; eauto| |].
    + eapply Cov_dom; [exact Cy|]. intros g [<-|[<-|[]]] Hg; exists f; split; simpl; auto; [apply fleb_refl; auto|apply fltb_fleb; auto].
    + intros y' f' l'' Ex'. apply HQ. eapply ext_trans; eauto.
  - apply w_done. apply HQ; auto; [eapply Seen_ext; eauto|]. eapply Cov_dom; [exact Cy|].
    intros g [<-|[<-|[]]] Hg; exists fn; split; simpl; auto; [apply fltb_false_fleb; auto|apply fleb_refl; auto].
Qed.
Definition HcInv (pop : list vec) (fit : list num) (xb : vec) (fxb : num) (t : unit) (l : elog) : Prop :=
  length pop = 1 /\ Forall P pop /\ length fit = 1 /\ P xb /\ Good l xb fxb.
Lemma hc_init_c : forall X it, init_c (KPX C P X) (Algo (list vec) unit (fun pop => pop) (hc_init F C) it) HcInv.
Proof.
  intros X it. unfold init_c. cbn [a_init a_coords]. unfold hc_init. apply wp_bind. apply w_random_vec_u. intros u Lu Uu.
  set (x := vadd _ _ _). assert (Px : P x) by (left; exists u; auto). apply wp_bind. apply w_eval; auto. intros f l He. apply w_done.
  apply w_one_init; [exact He|]. intros G. split; [reflexivity|]. split; [constructor; auto|]. split; [reflexivity|]. split; [exact Px|exact G].
Qed.
Lemma hc_iter_c : forall X fuel ini, iter_c (KPX C P X) (Algo (list vec) unit (fun pop => pop) ini (hc_iter F C fuel)) HcInv.
Proof.
  intros X fuel ini pop fit xb fxb t l (H1 & H2 & H3 & H4 & H5). cbn [a_iter]. unfold hc_iter. destruct pop as [|x [|x' pop]]; try discriminate.
  apply wp_bind. unfold nthP. cbn [nth_error]. apply w_done. inversion H2 as [|? ? Px _]; subst.
  apply wp_bind. apply w_sample. intros xn Dn. apply wp_bind. apply w_eval; [left; auto|]. intros fn l1 He. apply wp_bind.
  apply (w_hc_climb X fuel x xn fn l1 fxb); [eapply doi_len; eauto|left; auto|eapply Evald_seen; eauto|eapply Evald_nan; eauto| |].
  - eapply Cov_Evald; [apply (Good_Cov _ _ _ [] H5)|exact He].
  - intros y f l2 Ex Py Sy Ny Cy. apply wp_bind. destruct H5 as (S5 & L5 & N5).
    apply w_get_best1; auto.
    + eapply Seen_ext; [eapply ext_trans; [eapply Evald_ext; eauto|exact Ex]|auto].
    + intros x' v Gx Hx. apply w_done. split; auto. split; auto. split; auto. split; auto. destruct Hx as [[-> ->]|[-> ->]]; auto.
Qed.
End HC.

(** ** SimulatedAnnealing *)
Section SA.
Variables (F : fops) (C : cfg) (p : sa_par) (V : num -> Prop).
Hypothesis HC : cfg_ok C.
(** the difference of two fitness values is negative exactly when the first is smaller *)
Hypothesis V_inf : V PInf.
Hypothesis V_sub : forall a b, V a -> V b -> a <> NaN -> b <> NaN -> fltb (fsub F a b) f0 = fltb a b.
Let P := drawn_or_inside F C.
Definition SaInv (pop : list vec) (fit : list num) (xb : vec) (fxb : num) (t : num) (l : elog) : Prop :=
  exists x fx, pop = [x] /\ fit = [fx] /\ P x /\ V fx /\ Seen l x fx /\ P xb /\ Good l xb fxb.
Lemma sa_init_c : forall X it, init_c (KVX C P V X) (Algo (list vec) num (fun pop => pop) (sa_init F C p) it) SaInv.
Proof.
  intros X it. unfold init_c. cbn [a_init a_coords]. unfold sa_init. apply wp_bind. apply w_sample. intros x Dx.
  apply wp_bind. apply w_eval_v; [left; auto|]. intros f l He HV. apply w_done. apply w_one_init; auto. intros G.
  exists x, f. split; auto. split; auto. split; [left; auto|]. split; [destruct HV as [->|HV]; auto|]. split; [eapply Evald_seen; eauto|]. split; [left; auto|]. exact G.
Qed.
Lemma sa_iter_c : forall X ini, iter_c (KVX C P V X) (Algo (list vec) num (fun pop => pop) ini (sa_iter F C p)) SaInv.
Proof.
  intros X ini pop fit xb fxb t l (x & fx & -> & -> & Px & Vx & Sx & Pb & Gb). cbn [a_iter]. unfold sa_iter, nthP. cbn [nth_error].
  apply wp_bind, w_done, wp_bind, w_done. apply wp_bind. apply w_random_vec_u. intros u Lu Uu. apply wp_bind. apply w_repair_v.
  { unfold vadd, vscaler. apply map2_length; rewrite map_length; auto. eapply doi_len; eauto. }
  intros c Ic. apply wp_bind. apply w_eval_v; [right; auto|]. intros fc l' He HV. apply wp_bind. apply w_random_u. intros r Hr.
  assert (Vc : V fc) by (destruct HV as [->|HV]; auto). assert (Ex := Evald_ext _ _ _ _ He). assert (Nc := Evald_nan _ _ _ _ He).
  assert (Nx : fx <> NaN) by exact (Seen_not_nan l x fx [] fxb (Good_Cov _ _ _ [] Gb) Sx).
  destruct (Gb) as (S5 & L5 & N5). destruct (sa_accept F t fx fc r) eqn:Q; apply wp_bind; apply w_get_best1; auto.
  - eapply Evald_seen; eauto.
  - eapply Seen_ext; eauto.
  - eapply Cov_Evald; [apply (Good_Cov _ _ _ [] Gb)|exact He].
  - intros x' v Gx Hx. apply w_done. exists c, fc. split; auto. split; auto. split; [right; auto|]. split; auto. split; [eapply Evald_seen; eauto|].
    split; auto. destruct Hx as [[-> ->]|[-> ->]]; auto. right; auto.
  - eapply Seen_ext; eauto.
  - eapply Seen_ext; eauto.
  - unfold sa_accept in Q. apply orb_false_iff in Q. destruct Q as [Q _]. rewrite V_sub in Q by auto.
    eapply Cov_dom; [exact (Cov_Evald _ _ _ _ _ _ (Good_Cov _ _ _ [] Gb) He)|].
    intros g [<-|[]] Hg. exists fx. split; simpl; auto. apply fltb_false_fleb; auto.
  - intros x' v Gx Hx. apply w_done. exists x, fx. split; auto. split; auto. split; auto. split; auto. split; [eapply Seen_ext; eauto|].
    split; auto. destruct Hx as [[-> ->]|[-> ->]]; auto.
Qed.
End SA.
(** without any assumption on the arithmetic: the pair is genuine *)
Section SA2.
Variables (F : fops) (C : cfg) (p : sa_par).
Hypothesis HC : cfg_ok C.
Let P := drawn_or_inside F C.
Definition SaInv2 (pop : list vec) (fit : list num) (xb : vec) (fxb : num) (t : num) (l : elog) : Prop :=
  exists x fx, pop = [x] /\ fit = [fx] /\ P x /\ Seen l x fx /\ P xb /\ Seen l xb fxb.
Lemma sa_init_c2 : forall X it, init_c (KPX C P X) (Algo (list vec) num (fun pop => pop) (sa_init F C p) it) SaInv2.
Proof.
  intros X it. unfold init_c. cbn [a_init a_coords]. unfold sa_init. apply wp_bind. apply w_sample. intros x Dx.
  apply wp_bind. apply w_eval; [left; auto|]. intros f l He. apply w_done. apply w_one_init; auto. intros G.
  exists x, f. split; auto. split; auto. split; [left; auto|]. split; [eapply Evald_seen; eauto|]. split; [left; auto|]. apply G.
Qed.
Lemma sa_iter_c2 : forall X ini, iter_c (KPX C P X) (Algo (list vec) num (fun pop => pop) ini (sa_iter F C p)) SaInv2.
Proof.
  intros X ini pop fit xb fxb t l (x & fx & -> & -> & Px & Sx & Pb & Sb). cbn [a_iter]. unfold sa_iter, nthP. cbn [nth_error].
  apply wp_bind, w_done, wp_bind, w_done. apply wp_bind. apply w_random_vec_u. intros u Lu Uu. apply wp_bind. apply w_repair.
  { unfold vadd, vscaler. apply map2_length; rewrite map_length; auto. eapply doi_len; eauto. }
  intros c Ic. apply wp_bind. apply w_eval; [right; auto|]. intros fc l' He. apply wp_bind. apply w_random_u. intros r Hr.
  assert (Ex := Evald_ext _ _ _ _ He). assert (Sc := Evald_seen _ _ _ _ He). assert (Sx' := Seen_ext _ _ _ _ Ex Sx). assert (Sb' := Seen_ext _ _ _ _ Ex Sb).
  assert (Pc : P c) by (right; auto).
  destruct (sa_accept F t fx fc r) eqn:Q; apply wp_bind; unfold get_best1;
    (match goal with |- context [fleb ?a ?b] => destruct (fleb a b) end); cbn [lift]; apply w_done; apply w_done;
    [exists c, fc|exists c, fc|exists x, fx|exists x, fx]; repeat split; auto.
Qed.
End SA2.

(** ** NelderMeadMethod *)
Section NM.
Variables (F : fops) (C : cfg) (p : nm_par).
Hypothesis HC : cfg_ok C.
Definition right_len (x : vec) : Prop := length x = c_dim C.
Record NmInv (n : nat) (pop : list vec) (fit : list num) (xb : vec) (fxb : num) (t : unit) (l : elog) : Prop := {
  nv_len : length pop = n; nv_dims : Forall right_len pop; nv_fit : length fit = n; nv_seen : Forall2 (Seen l) pop fit;
  nv_best : right_len xb; nv_good : Good l xb fxb }.
Lemma fold_vadd_len : forall xs a, length a = c_dim C -> Forall right_len xs -> length (fold_left (vadd F) xs a) = c_dim C.
Proof.
  induction xs as [|x xs IH]; intros a La H; cbn [fold_left]; auto. inversion H; subst. apply IH; auto. unfold vadd. apply map2_length; auto.
Qed.
Lemma center_len : forall pop, Forall right_len pop -> length (nm_center F C pop) = c_dim C.
Proof.
  intros pop H. unfold nm_center. rewrite map_length. apply fold_vadd_len; [apply repeat_length|]. apply Forall_forall. intros x Hx. rewrite Forall_forall in H. apply H.
  rewrite <- (firstn_skipn (length pop - 1) pop). apply in_or_app; auto.
Qed.
Lemma point_len : forall c x0 x, length x0 = c_dim C -> right_len x -> right_len (nm_point F c x0 x).
Proof. intros c x0 x H1 H2. unfold right_len, nm_point, vadd, vscale, vsub. apply map2_length; auto. rewrite map_length. apply map2_length; auto. Qed.
Lemma shrink_len : forall s p0 x, right_len p0 -> right_len x -> right_len (nm_shrink F s p0 x).
Proof. intros s p0 x H1 H2. unfold right_len, nm_shrink, vadd, vscale, vsub. apply map2_length; auto. rewrite map_length. apply map2_length; auto. Qed.
Lemma fit_above : forall l pop fit xb fxb, Forall2 (Seen l) pop fit -> Good l xb fxb -> forall f, In f fit -> fleb fxb f = true.
Proof.
  intros l pop fit xb fxb H (S1 & L1 & N1). induction H as [|x g pop fit H1 H2 IH]; intros f Hf; [destruct Hf|]. destruct Hf as [<-|Hf]; auto.
  destruct H1 as [->|H1]; [apply fleb_PInf; auto|eauto].
Qed.
Lemma Cov_drop : forall l f fs fb, Cov l (f :: fs) fb -> (f <> NaN -> fleb fb f = true) -> Cov l fs fb.
Proof.
  intros l f fs fb H Hf x v Hi. destruct (H x v Hi) as [Q|(g & [<-|G1] & G2)]; auto; [|right; eauto].
  left. eapply fleb_trans; [apply Hf; eapply fleb_nan_l; eauto|exact G2].
Qed.
Lemma w_nm_method : forall X n pop fit xb fxb t l (Q : list vec * list num -> elog -> Prop), 2 <= n -> NmInv n pop fit xb fxb t l ->
  (forall pop' fit' l', ext l l' -> length pop' = n -> Forall right_len pop' -> length fit' = n -> Forall2 (Seen l') pop' fit' -> Cov l' fit' fxb -> Q (pop', fit') l') ->
  wp (KPX C right_len X) (nm_method F C p pop fit) Q l.
Proof.
  intros X n pop fit xb fxb t l Q Hn [P1 P2 P3 P4 P5 P6] HQ. unfold nm_method. set (k := length pop - 1).
  assert (Hk : k < n) by (unfold k; lia). assert (Fx := fit_above _ _ _ _ _ P4 P6). assert (C0 : Cov l [] fxb) by exact (Good_Cov _ _ _ _ P6).
  assert (Nf : Forall (fun f => f <> NaN) fit) by exact (Seen2_not_nan _ _ _ _ _ C0 P4). rewrite Forall_forall in Nf.
  apply wp_bind. unfold nthP at 1. destruct (nth_error pop k) as [xl|] eqn:Ql; [|apply nth_error_None in Ql; lia]. apply w_done.
  assert (Lc := center_len pop P2). assert (Rl : right_len xl) by (rewrite Forall_forall in P2; apply P2; eapply nth_error_In; eauto).
  set (x0 := nm_center F C pop) in *. clearbody x0. assert (Rr := point_len (nm_alpha p) _ _ Lc Rl). assert (Re := point_len (nm_gamma p) _ _ Lc Rl).
  assert (Rc := point_len (nm_rho p) _ _ Lc Rl). apply wp_bind. apply w_eval; auto. intros rs l1 He1.
  assert (E1 := Evald_ext _ _ _ _ He1). assert (S1 := Evald_seen _ _ _ _ He1). assert (N1 := Evald_nan _ _ _ _ He1).
  assert (C1 := Cov_Evald _ _ _ _ _ _ C0 He1).
  apply wp_bind. unfold nthP at 1. destruct (nth_error fit 0) as [f0'|] eqn:Q0; [|apply nth_error_None in Q0; lia]. apply w_done.
  assert (I0 : In f0' fit) by (eapply nth_error_In; eauto).
  (* replacing the last row *)
  assert (G : forall x f l', ext l l' -> right_len x -> Seen l' x f -> Cov l' [f] fxb -> Q (upd pop k x, upd fit k f) l').
  { intros x f l' Ex Rx Sx Cx. apply HQ; rewrite ?upd_length; auto.
    - apply Forall_upd; auto.
    - apply Forall2_upd; auto. eapply Seen2_ext; eauto.
    - eapply Cov_incl; [|exact Cx]. intros g [<-|[]]. eapply nth_error_In. apply nth_upd_same. lia. }
  apply wp_bind. eapply wp_conseq0 with (Q := fun b l' => l' = l1).
  { destruct (fleb rs f0'); [|apply w_done; auto]. apply wp_bind. unfold nthZ. simpl (-2 <? 0)%Z. cbn iota. rewrite P3.
    destruct (Z.of_nat n + -2 <? 0)%Z eqn:Qz; [apply Z.ltb_lt in Qz; lia|]. unfold nthP.
    destruct (nth_error fit (Z.to_nat (Z.of_nat n + -2))) as [g|] eqn:Qg; [|apply nth_error_None in Qg; lia]. apply w_done. apply w_done. auto. }
  intros b l1' ->. destruct b; [apply w_done; apply G; auto|].
  destruct (fltb rs f0') eqn:Q2.
  - apply wp_bind. apply w_eval; auto. intros re l2 He2. assert (E2 := Evald_ext _ _ _ _ He2). assert (S2 := Evald_seen _ _ _ _ He2). assert (N2 := Evald_nan _ _ _ _ He2).
    assert (C2 := Cov_Evald _ _ _ _ _ _ C1 He2). assert (E3 := ext_trans _ _ _ E1 E2).
    destruct (fltb re rs) eqn:Q3; apply w_done; apply G; auto; try exact (Seen_ext _ _ _ _ E2 S1); (eapply Cov_dom; [exact C2|]); intros g [<-|[<-|[]]] Hg;
      (eexists; split; [left; reflexivity|]); first [apply fleb_refl; auto; fail|apply fltb_fleb; auto; fail|apply fltb_false_fleb; auto].
  - assert (C1' : Cov l1 [] fxb). { apply (Cov_drop _ rs); auto. intros _. eapply fleb_trans; [apply Fx; exact I0|apply fltb_false_fleb; auto]. }
    apply wp_bind. apply w_eval; auto. intros rc l2 He2. assert (E2 := Evald_ext _ _ _ _ He2). assert (S2 := Evald_seen _ _ _ _ He2). assert (N2 := Evald_nan _ _ _ _ He2).
    assert (C2 := Cov_Evald _ _ _ _ _ _ C1' He2). assert (E3 := ext_trans _ _ _ E1 E2).
    apply wp_bind. unfold nthP at 1. destruct (nth_error fit k) as [fl|] eqn:Qf; [|apply nth_error_None in Qf; lia]. apply w_done.
    assert (Il : In fl fit) by (eapply nth_error_In; eauto). destruct (fltb rc fl) eqn:Q3; [apply w_done; apply G; auto|].
    assert (C2' : Cov l2 [] fxb). { apply (Cov_drop _ rc); auto. intros _. eapply fleb_trans; [apply Fx; exact Il|apply fltb_false_fleb; auto]. }
    destruct pop as [|p0 pop]; [simpl in P1; lia|]. destruct fit as [|g0 fit]; [discriminate|]. cbn [nth_error] in Q0. injection Q0 as ->.
    apply wp_bind. unfold nthP at 1. cbn [nth_error]. apply w_done. cbn [tl]. inversion P2 as [|? ? R0 R1]; subst. inversion P4 as [|? ? ? ? T0 T1]; subst.
    apply wp_bind. apply w_eval_all.
    { destruct pop; [simpl in Hn; lia|discriminate]. }
    { apply Forall_forall. intros y Hy. apply in_map_iff in Hy. destruct Hy as (x & <- & Hx). rewrite Forall_forall in R1. apply shrink_len; [exact R0|]. apply R1; exact Hx. }
    intros nf l3 He3. assert (E4 := Evals_ext _ _ _ _ He3). apply w_done. assert (Ln := Evals_len _ _ _ _ He3). rewrite map_length in Ln. apply HQ.
    + eapply ext_trans; eauto.
    + simpl. rewrite map_length. reflexivity.
    + constructor; auto. apply Forall_forall. intros y Hy. apply in_map_iff in Hy. destruct Hy as (x & <- & Hx). rewrite Forall_forall in R1. apply shrink_len; [exact R0|]. apply R1; exact Hx.
    + simpl. congruence.
    + constructor; [eapply Seen_ext; [|exact T0]; eapply ext_trans; eauto|]. eapply Evals_seen; eauto.
    + eapply Cov_incl; [|eapply Cov_Evals; [exact C2'|exact He3]]. rewrite app_nil_r. apply incl_tl, incl_refl.
Qed.
Lemma sorted_rows_len : forall l pop fit, Forall right_len pop -> Forall2 (Seen l) pop fit ->
  let so := sort_by (combine pop fit) in Forall right_len (map fst so) /\ Forall2 (Seen l) (map fst so) (map snd so) /\ length so = length pop.
Proof.
  intros l pop fit Hin Hs so. assert (Lf := Forall2_len _ _ _ _ _ Hs). split; [|split].
  - apply Forall_forall. intros x Hx. apply in_map_iff in Hx. destruct Hx as (q & <- & Hp). apply (proj1 (sort_by_In _ _)) in Hp.
    rewrite Forall_forall in Hin. apply Hin. eapply in_combine_fst; eauto.
  - assert (H : Forall (fun p => Seen l (fst p) (snd p)) so).
    { apply Forall_forall. intros q Hp. apply (proj1 (sort_by_In _ _)) in Hp. eapply in_combine_seen; eauto. }
    clearbody so. induction H; simpl; constructor; auto.
  - unfold so. rewrite sort_by_len, combine_length. lia.
Qed.
Lemma nm_init_c : forall X it, 0 < nm_size C p ->
  init_c (KPX C right_len X) (Algo (list vec) unit (fun pop => pop) (nm_init C p) it) (NmInv (nm_size C p)).
Proof.
  intros X it Hn. unfold init_c. cbn [a_init a_coords]. unfold nm_init. apply w_plain_init; auto. { intros x Hx. apply inside_len; auto. }
  intros pop fit par l H1 H2 H3 _. assert (Rp : Forall right_len pop). { eapply Forall_impl; [|exact H2]. intros x Hx. apply inside_len; auto. }
  apply w_get_best0; auto. { destruct pop; simpl in *; [lia|discriminate]. }
  intros x f Gx Hx. cbn [fst snd]. constructor; auto.
  - apply Evals_len in H3. lia.
  - eapply Evals_seen; eauto.
  - rewrite Forall_forall in Rp. apply Rp; auto.
Qed.
Lemma nm_iter_c : forall X n ini, 2 <= n ->
  iter_c (KPX C right_len X) (Algo (list vec) unit (fun pop => pop) ini (nm_iter F C p)) (NmInv n).
Proof.
  intros X n ini Hn pop fit xb fxb t l [P1 P2 P3 P4 P5 P6]. cbn [a_iter]. unfold nm_iter. destruct (sorted_rows_len l pop fit P2 P4) as (R1 & R2 & R3).
  set (so := sort_by (combine pop fit)) in *. clearbody so. apply wp_bind. apply (w_nm_method X n (map fst so) (map snd so) xb fxb t); auto.
  { constructor; auto; rewrite map_length; lia. }
  intros pop' fit' l' Ex Lp Rp Lf Sp Cp. apply wp_bind. destruct P6 as (S6 & L6 & N6). apply w_get_best; auto.
  - destruct fit'; simpl in *; [lia|discriminate].
  - eapply Seen_ext; eauto.
  - intros x f Gx Hx. apply w_done. constructor; auto. destruct Hx as [Hx| ->]; auto. rewrite Forall_forall in Rp. apply Rp; auto.
Qed.
End NM.
