(** Final theorems about the hybrids of differential evolution and multiple trajectory search (hde.py) (C99-C101). *)
From Coq Require Import ZArith Lia Bool List Sorting.Sorted Floats.SpecFloat.
From Verif Require Import Num Task TaskSpec TaskProofs TaskProofs2 Prog Wp GetBest Run RunSpec RunProofs RunProofs2
  AlgoLib Fops AlgTac StepSpec StepLib Indiv IndivLib AlgDE AlgPSO Reach AlgBasic AlgBasic2 Repair B64 ExLib ExLib2
  PropertiesDE PropertiesBasic2 Progress PropertiesProgress PropertiesProgress2 Endless KeepLib AlgMts AlgMtsProofs PropertiesMts AlgHde AlgHdeProofs.
Import ListNotations.

(** the parameters that the constructors accept: some individuals, some strategies, at most three searches (or no tests) and p_max not 0 *)
Definition hde_ok (p : hde_par) : Prop :=
  0 < de_n (hd_de p) /\ hd_ms p <> Some [] /\ mt_ls (hd_mts p) <> [] /\ (length (mt_ls (hd_mts p)) <= 3 \/ mt_tests (hd_mts p) = 0) /\
  (forall p_max rp, hd_dyn p = Some (p_max, rp) -> p_max <> 0%Z).
(** the sizes of the population *)
Definition hde_size (p : hde_par) (n : nat) : Prop := match hd_dyn p with None => n = de_n (hd_de p) | Some _ => halved (de_n (hd_de p)) n end.
(** As [best_run], but the returned point is only said to be inside the bounds, not to have the returned value. *)
Definition value_run (E : env) (A : algo) : Prop :=
  forall cb n pos r w' ev,
    run_body E A cb n (World (task_init (e_cfg E)) [] pos) = (r, w', ev) ->
    (forall p, In p (w_h w') -> inside (e_cfg E) (fst p)) /\
    StronglySorted (fun newer older => fleb newer older = true) (reported ev) /\
    match r with
    | Ret (x, v) => inside (e_cfg E) x /\ v = t_xf (w_ts w') /\ best_of (c_opt (e_cfg E)) (returned (w_h w')) v
    | Raise e => e = EFuel \/ (exists x, hd_error (w_h w') = Some (x, Raise e)) \/ (cb ev = Some e)
    end.

Section Run.
Variables (F : fops) (E : env) (p : hde_par).
Let C := e_cfg E.
Let RK (x y : vec) : Prop := repair_keeps E -> length x = c_dim C -> keeps C x y.
Hypothesis HC : cfg_ok C.
Hypothesis Hd : 0 < c_dim C.
Hypothesis Hn : no_nan (e_prob E).
Hypothesis Hr : repair_ok E.
Hypothesis Hp : hde_ok p.
Variable m : bool.
Hypothesis Hm : m = true -> repair_keeps E /\ forallb notls3 (mt_ls (hd_mts p)) = true.
Let HR : forall q x, RK x (e_rep E q x).
Proof. intros q x H Hx. apply H; auto. Qed.
Lemma hde_dyn : forall p_max rp, hd_dyn p = Some (p_max, rp) -> p_max <> 0%Z /\ forall n, hde_size p n -> 3 < n -> hde_size p (n / 2).
Proof. intros a b Q. destruct Hp as (_ & _ & _ & _ & H). split; [eapply H; eauto|]. unfold hde_size. rewrite Q. intros n. apply halved_S. Qed.
Lemma hde_size0 : hde_size p (de_n (hd_de p)).
Proof. unfold hde_size. destruct (hd_dyn p); [constructor|reflexivity]. Qed.
Lemma hde_ic : init_c (KRX C RK (inside C) (fun _ => False)) (hde F C p) (HInv C (hde_size p) m).
Proof. destruct Hp as (P1 & P2 & P3 & P4 & P5). apply (hde_init_ok F C (repair_keeps E) (fun _ => False) HC Hd p P4 (hde_size p) m P1 hde_size0). Qed.
Lemma hde_ir : iter_r (KRX C RK (inside C) (fun _ => False)) (hde F C p) (HInv C (hde_size p) m) (h_rel p).
Proof. destruct Hp as (P1 & P2 & P3 & P4 & P5). apply (hde_iter_r F C (repair_keeps E) (fun _ => False) HC Hd p P2 P3 P4 (hde_size p) hde_dyn m Hm). Qed.
Lemma hde_reach : forall s w, reached E (hde F C p) s w -> HInv C (hde_size p) m (r_pop s) (r_fit s) (r_xb s) (r_fxb s) (r_par s) (log_of (c_opt C) (w_h w)).
Proof. intros s w H. exact (reach_kr RK (inside C) (fun _ => False) E (hde F C p) _ Hn Hr HR hde_ic (iter_r_c _ _ _ _ hde_ir) s w H). Qed.
Lemma hde_sizes : sizes_ok (hde_size p) E (hde F C p).
Proof.
  apply (sizes_kr RK (inside C) (fun _ => False) E (hde F C p) (HInv C (hde_size p) m) Hn Hr HR hde_ic _ (iter_r_c _ _ _ _ hde_ir)).
  intros pop fit xb fxb par l (L & _ & -> & _). unfold h_fits. rewrite !map_length. exact L.
Qed.
Lemma hde_steps : steps_ok (h_rel p) E (hde F C p).
Proof. exact (steps_kr RK (inside C) (fun _ => False) E (hde F C p) (HInv C (hde_size p) m) Hn Hr HR hde_ic _ hde_ir). Qed.
Lemma hde_value : value_run E (hde F C p).
Proof.
  intros cb n pos r w' ev H. assert (HA := algo_ok_c _ _ _ hde_ic (iter_r_c _ _ _ _ hde_ir)).
  destruct (run_inv _ _ _ _ cb n pos (env_ok_KR RK (inside C) (fun _ => False) E Hn Hr HR) HA (fun a b => fleb a b = true)) with (r := r) (w' := w') (ev := ev)
    as (P1 & P2 & P3 & P4); auto.
  - intros s l s' l' (_ & _ & _ & _ & I1) (_ & _ & _ & _ & I2) He. eapply bst_le; [apply I1|exact He|exact I2].
  - intros a b c. apply fleb_trans.
  - split; [intros q Hq; rewrite Forall_forall in P1; apply P1; auto|]. split; [auto|]. destruct r as [[x v]|e].
    + destruct P4 as (s & I1 & -> & ->). destruct I1 as (_ & _ & _ & _ & (J1 & J2 & J3 & (y & J4) & _)). split; [exact J1|].
      destruct (Good_best_of (c_opt C) (w_h w') y (r_fxb s)) as [B1 B2]; [split; auto|]. split; [|exact B1]. eapply best_of_unique; eauto. apply P2.
    + destruct P4 as [[P4|P4]|[P4|[P4|P4]]]; auto. contradiction.
Qed.
End Run.

(** * C99 *)
(** Every class: the value is the best one, whatever the searches are. *)
Theorem C99_value : forall F E p, let C := e_cfg E in
  cfg_ok C -> 0 < c_dim C -> no_nan (e_prob E) -> repair_ok E -> hde_ok p -> value_run E (hde F C p) /\ sizes_ok (hde_size p) E (hde F C p).
Proof.
  intros F E p C HC Hd Hn Hr Hp. assert (Hm : false = true -> repair_keeps E /\ forallb notls3 (mt_ls (hd_mts p)) = true) by discriminate.
  split; [eapply hde_value; eauto|eapply hde_sizes; eauto].
Qed.
(** Without mts_ls3, and with a repair that leaves components within the bounds alone, the point has the value. *)
Theorem C99_best : forall F E p, let C := e_cfg E in
  cfg_ok C -> 0 < c_dim C -> no_nan (e_prob E) -> repair_ok E -> repair_keeps E -> hde_ok p -> ~ In LS3 (mt_ls (hd_mts p)) ->
  best_run E (hde F C p) /\ sizes_ok (hde_size p) E (hde F C p).
Proof.
  intros F E p C HC Hd Hn Hr Hk Hp H3. assert (Hm : true = true -> repair_keeps E /\ forallb notls3 (mt_ls (hd_mts p)) = true).
  { intros _. split; [exact Hk|]. apply forallb_forall. intros k Hi. destruct k; auto. }
  split; [|eapply hde_sizes; eauto].
  apply (best_run_kr (fun x y => repair_keeps E -> length x = c_dim C -> keeps C x y) (inside C) (fun _ => False) E (hde F C p) (HInv C (hde_size p) true) Hn Hr).
  - intros q x H Hx. apply H; auto.
  - apply hde_ic; auto.
  - apply (iter_r_c _ _ _ _ (hde_ir F E p HC Hd Hp true Hm)).
  - intros pop fit xb fxb par l (_ & _ & _ & _ & (J1 & J2 & J3 & J4 & J5)). split; [apply inside_len; auto|]. split; auto.
Qed.

(** * C100 *)
(** what one iteration does to the members: no member gets a worse value; a member that is not enabled keeps everything but the flag, unless the
    new individual of its position is strictly better; afterwards exactly the members at the first num_enabled positions of the order that
    np.argsort gives for zeros are enabled, whatever their values and grades are *)
Theorem C100_step : forall F E p (s : rstate (hde F (e_cfg E) p)) wd pop' fit' xb' fxb' par' wd', let C := e_cfg E in let pop := r_pop s : list (vec * num * mext) in let pop2 := pop' : list (vec * num * mext) in
  cfg_ok C -> 0 < c_dim C -> no_nan (e_prob E) -> repair_ok E -> hde_ok p ->
  reached E (hde F C p) s wd ->
  exec E (a_iter (hde F C p) (r_pop s) (r_fit s) (r_xb s) (r_fxb s) (r_par s)) wd = (Ret (pop', fit', xb', fxb', par'), wd') ->
  fit' = map (fun r => snd (fst r)) pop2 /\ hde_size p (length pop2) /\ fleb fxb' (r_fxb s) = true /\
  (hd_dyn p = None -> length pop2 = length pop /\
     forall i r r', nth_error pop i = Some r -> nth_error pop2 i = Some r' -> fleb (snd (fst r')) (snd (fst r)) = true /\
       (m_en (snd r) = false -> fltb (snd (fst r')) (snd (fst r)) = true \/
          (fst r' = fst r /\ m_im (snd r') = m_im (snd r) /\ m_sr (snd r') = m_sr (snd r) /\ m_gr (snd r') = m_gr (snd r)))) /\
  (forall i r', nth_error pop2 i = Some r' -> (m_en (snd r') = true <-> In i (firstn (mt_enabled (hd_mts p)) (hd_ord p (length pop2))))).
Proof.
  intros F E p s wd pop' fit' xb' fxb' par' wd' C pop pop2 HC Hd Hn Hr Hp Hre Ex.
  assert (Hm : false = true -> repair_keeps E /\ forallb notls3 (mt_ls (hd_mts p)) = true) by discriminate.
  assert (HI := hde_reach F E p HC Hd Hn Hr Hp false Hm s wd Hre).
  assert (HE : env_ok (KRX C (fun x y => repair_keeps E -> length x = c_dim C -> keeps C x y) (inside C) (fun _ => False)) E) by (apply env_ok_KR; auto; intros q z H Hz; apply H; auto).
  assert (Hp' := Hp). destruct Hp' as (P1 & P2 & P3 & P4 & P5).
  assert (W := hde_iter_s F C (repair_keeps E) (fun _ => False) HC Hd p P2 P3 P4 (hde_size p) (hde_dyn p Hp) false Hm _ _ _ _ _ _ HI).
  destruct (wp_sound _ _ E _ _ wd _ _ HE W Ex) as [_ (I2 & [S1 S2] & Hf)]. destruct I2 as (L1 & L2 & L3 & _).
  split; [rewrite L3; unfold h_fits; rewrite map_map; reflexivity|]. split; [exact L1|]. split; [exact Hf|]. split.
  - intros Q. specialize (S1 Q). split; [symmetry; eapply Forall2_len; exact S1|]. intros i r r' H1 H2.
    destruct (F2_nth _ _ _ _ _ i r S1 H1) as (r2 & H3 & G1 & G2). unfold pop2 in H2. assert (r2 = r') by congruence. subst r2. split; [exact G1|]. intros En. destruct (G2 En) as [G|G]; auto.
  - intros i r' H1. rewrite (S2 i r' H1). rewrite existsb_exists. split.
    + intros (j & J1 & J2). apply Nat.eqb_eq in J2. subst j. exact J1.
    + intros J. exists i. split; [exact J|apply Nat.eqb_refl].
Qed.
(** what the callbacks see: without a dynamic size no fitness gets worse, position by position *)
Theorem C100_fitness : forall F E p, let C := e_cfg E in
  cfg_ok C -> 0 < c_dim C -> no_nan (e_prob E) -> repair_ok E -> hde_ok p -> hd_dyn p = None -> steps_ok no_worse_fit E (hde F C p).
Proof.
  intros F E p C HC Hd Hn Hr Hp Q. assert (Hm : false = true -> repair_keeps E /\ forallb notls3 (mt_ls (hd_mts p)) = true) by discriminate.
  assert (S := hde_steps F E p HC Hd Hn Hr Hp false Hm). unfold h_rel in S. intros cb n pos r w' ev H a b u v He. exact (S cb n pos r w' ev H a b u v He Q).
Qed.

(** * C101 *)
Lemma nf_h_select : forall new pop, nf (h_select pop new).
Proof. induction new as [|e new IH]; intros [|o pop]; cbn [h_select]; try (simpl; auto; discriminate). apply nf_bind; [apply IH|]. intros; simpl; auto. Qed.
Lemma nf_h_dynnp : forall C a b pop, nf (h_dynnp C a b pop).
Proof. intros. unfold h_dynnp, h_halve. nfs. Qed.
(** Without mts_ls3v1 every iteration evaluates something and no search goes on forever, whatever the arithmetic. *)
Theorem C101_terminates : forall F E p, let C := e_cfg E in
  mt_ls (hd_mts p) <> [] -> ~ In LS3v1 (mt_ls (hd_mts p)) -> terminates (hde F C p) E.
Proof.
  intros F E p C Hls Hl. assert (Hl' : forallb loopless (mt_ls (hd_mts p)) = true) by (apply forallb_forall; intros k Hi; destruct k; auto; contradiction).
  apply ends; [cbn [a_init hde]; unfold hde_init, default_individual_init; nfs|]. intros s w HR _. destruct s as [pop fit xb fxb par]. cbn [r_pop r_fit r_xb r_fxb r_par a_iter hde].
  unfold hde_iter. destruct pop as [|r pop].
  - unfold hde_evolve. cbn [map]. destruct (hd_ms p); simpl; discriminate.
  - apply me_left.
    + unfold hde_evolve. apply me_left; [|intros; simpl; auto]. destruct (hd_ms p); [apply me_ms_evolve; discriminate|apply me_de_evolve; discriminate].
    + intros new. apply nf_bind; [apply nf_h_select|]. intros arr. apply nf_bind; [nfs|]. intros [x1 v1]. apply nf_bind; [destruct (hd_dyn p) as [[a b]|]; [apply nf_h_dynnp|simpl; auto]|].
      intros arr'. apply nf_bind; [unfold hde_post; apply nf_bind; [apply nf_members; auto|intros; simpl; auto]|]. intros [[pop' x2] v2]. apply nf_bind; [nfs|]. intros [x3 v3]. simpl; auto.
Qed.
(** ** mts_ls3v1 when the range of a component is infinite (binary64) *)
Section Forever.
Variables (E : env).
Let C := e_cfg E.
Hypothesis HC : cfg_ok C.
Hypothesis Hn : no_nan (e_prob E).
Hypothesis Hr : repair_ok E.
Variable c : nat.
Hypothesis Hc : nth_error (trange b64ops C) c = Some PInf.
Let K := KRX C (fun x y => repair_keeps E -> length x = c_dim C -> keeps C x y) (inside C) (fun _ => True).
Lemma least_In : forall rows b r, least b rows = Some r -> In r rows \/ b = Some r.
Proof.
  induction rows as [|a rows IH]; intros b r H; cbn [least] in H; [auto|]. apply IH in H. destruct H as [H|H]; [left; right; auto|].
  destruct b as [b|]; [destruct (fltb _ _)|]; auto; left; left; congruence.
Qed.
Lemma w_pass_len : forall b1 b2 x f b bf imp g disp l, length disp = c_dim C -> length x = c_dim C ->
  wp K (ls3v1_pass b64ops b1 b2 (x, f, b, bf, imp, g) disp) (fun s _ => length (fst (fst (fst (fst (fst s))))) = c_dim C) l.
Proof.
  intros b1 b2 x f b bf imp g disp l Ld Lx. unfold ls3v1_pass. apply wp_bind. eapply wp_conseq0.
  { apply (wp_repeatM _ K (ls3v1_row b64ops x disp) (fun ys l' => l' = l /\ Forall (fun y => length y = c_dim C) ys)); [auto|].
    intros bs l' _ [-> Hbs]. apply (w_ls3v1_row b64ops C (repair_keeps E) (fun _ => True)); auto. intros y Ly. split; [auto|]. apply Forall_app; auto. }
  intros ys l' [[-> Hys] Lys]. assert (Hne : ys <> []) by (destruct ys; [discriminate|congruence]).
  apply wp_bind. apply w_repair_all_r; auto. intros zs Lz Iz. apply wp_bind. apply w_eval_all_r; auto; [destruct zs; destruct ys; simpl in *; congruence|].
  intros vs l' He. cbv zeta. apply w_done. assert (G : forall t y v, least None (below t (combine zs vs)) = Some (y, v) -> length y = c_dim C).
  { intros t y v Q. apply least_In in Q. destruct Q as [Q|Q]; [|discriminate]. unfold below in Q. apply filter_In in Q. destruct Q as [Q _]. apply in_combine_l in Q. rewrite Forall_forall in Iz. apply inside_len; auto. }
  destruct (least None (below bf (combine zs vs))) as [[y v]|] eqn:Q1; [eapply G; eauto|]. destruct (least None (below f (combine zs vs))) as [[y v]|] eqn:Q2; [eapply G; eauto|exact Lx].
Qed.
Lemma add_inf : forall a, fadd b64ops a PInf = PInf \/ fadd b64ops a PInf = NaN.
Proof. intros a. change (fadd b64ops a PInf) with (of_sf (SFadd 53 1024 (to_sf a) (S754_infinity false))). destruct (to_sf a) as [s|[]| |s m e]; simpl; auto. Qed.
Lemma sub_inf : forall a, fsub b64ops a PInf = NInf \/ fsub b64ops a PInf = NaN.
Proof. intros a. change (fsub b64ops a PInf) with (of_sf (SFsub 53 1024 (to_sf a) (S754_infinity false))). destruct (to_sf a) as [s|[]| |s m e]; simpl; auto. Qed.
Lemma nth_err_map2 : forall A B D (f : A -> B -> D) xs ys i, nth_error (map2 f xs ys) i = match nth_error xs i, nth_error ys i with Some a, Some b => Some (f a b) | _, _ => None end.
Proof. intros A B D f. induction xs as [|a xs IH]; intros [|b ys] [|i]; cbn [map2 nth_error]; auto; destruct (nth_error xs i); auto. Qed.
Lemma disp_inf : forall x disp, length x = c_dim C -> nth_error disp c = Some PInf -> nth_error (ls3v1_disp b64ops C x disp) c = Some PInf.
Proof.
  intros x disp Lx Hd. unfold ls3v1_disp. rewrite nth_error_map, nth_err_map2, !nth_err_map2, nth_error_map, Hd. unfold trange, vsub in Hc. rewrite nth_err_map2 in Hc.
  destruct (nth_error (c_upper C) c) as [u|] eqn:Eu; [|discriminate]. destruct (nth_error (c_lower C) c) as [lo|] eqn:El; [|discriminate]. assert (Hc' : fsub b64ops u lo = PInf) by (injection Hc; auto).
  assert (Hi : c < c_dim C) by (destruct HC as (_ & L & _); fold C in L; rewrite <- L; apply nth_error_Some; congruence).
  destruct (nth_error x c) as [a|] eqn:Ex; [|apply nth_error_None in Ex; lia]. cbn [option_map].
  replace (fmul b64ops (flit b64ops 2 1) PInf) with PInf by (vm_compute; reflexivity).
  assert (N : fleb lo u = true). { destruct HC as (_ & _ & L). fold C in L. destruct (F2_nth _ _ _ _ _ c _ L El) as (u' & U & ?). congruence. }
  assert (Eu' : np_fmin u (fadd b64ops a PInf) = u).
  { destruct (add_inf a) as [->| ->]; [|destruct u; reflexivity]. destruct u; try reflexivity. destruct lo; discriminate. }
  assert (El' : np_fmax lo (fsub b64ops a PInf) = lo).
  { destruct (sub_inf a) as [->| ->]; [|destruct lo; reflexivity]. destruct lo; try reflexivity. discriminate. }
  rewrite Eu', El', Hc'. vm_compute. reflexivity.
Qed.
Lemma loop_forever : forall b1 b2 fuel s disp l, length (fst (fst (fst (fst (fst s))))) = c_dim C -> length disp = c_dim C -> nth_error disp c = Some PInf ->
  wp K (ls3v1_loop b64ops C b1 b2 fuel s disp) (fun _ _ => False) l.
Proof.
  intros b1 b2. induction fuel as [|n IH]; intros s disp l Ls Ld Hd; cbn [ls3v1_loop].
  - assert (Q : existsb (fun d => fltb (flit b64ops 1 1000) d) disp = true) by (apply existsb_exists; exists PInf; split; [eapply nth_error_In; eauto|vm_compute; reflexivity]). rewrite Q.
    left. reflexivity.
  - assert (Q : existsb (fun d => fltb (flit b64ops 1 1000) d) disp = true) by (apply existsb_exists; exists PInf; split; [eapply nth_error_In; eauto|vm_compute; reflexivity]). rewrite Q.
    apply wp_bind. destruct s as [[[[[x f] b] bf] imp] g]. eapply wp_conseq0; [apply w_pass_len; auto|]. intros s' l' G. apply IH; [exact G|apply ls3v1_disp_len; auto|apply disp_inf; auto].
Qed.
Lemma ls3v1_forever : forall fuel b1 b2 x f b bf imp sr l, length x = c_dim C -> wp K (mts_ls3v1 b64ops C fuel b1 b2 x f b bf imp sr) (fun _ _ => False) l.
Proof.
  intros. unfold mts_ls3v1. apply wp_bind. eapply wp_conseq0; [apply loop_forever; [assumption| |]|intros ? ? []].
  - rewrite map_length. unfold trange, vsub. destruct HC as (L1 & L2 & _). apply map2_length; auto.
  - rewrite nth_error_map, Hc. vm_compute. reflexivity.
Qed.
Lemma one_forever : forall fuel b1 b2 t l, length (t_x t) = c_dim C -> wp K (one_ls b64ops C fuel LS3v1 b1 b2 t) (fun _ _ => False) l.
Proof. intros. unfold one_ls. apply wp_bind. eapply wp_conseq0; [apply ls3v1_forever; assumption|intros ? ? []]. Qed.
Section Members.
Variable p : mts_par.
Hypothesis Hls : mt_ls p <> [].
Hypothesis H3 : length (mt_ls p) <= 3 \/ mt_tests p = 0.
Hypothesis Hl : last (mt_ls p) LS1 = LS3v1.
Hypothesis Hs : 0 < mt_searches p.
Let Hm : false = true -> repair_keeps E /\ forallb notls3 (mt_ls p) = true.
Proof. discriminate. Qed.
Lemma member_forever : forall x f e xb fxb l, ent C false l fxb (x, f, e) -> bst C false l xb fxb -> wp K (mts_member b64ops C p x f e xb fxb) (fun _ _ => False) l.
Proof.
  intros x f e xb fxb l (E1 & E2 & E3 & E4) (B1 & B2 & B3 & B4 & B5). cbn [fst snd] in *. unfold mts_member. apply wp_bind. eapply wp_conseq0.
  - apply (w_grading_h b64ops C (repair_keeps E) (fun _ => True) HC p Hls H3 false Hm). split; [exact E1|]. split; [exact B1|]. split; [exact E3|]. split; [exact E2|]. split; [exact B2|]. split; [exact B4|]. discriminate.
  - intros t l' [T _]. unfold run_local_search. rewrite Hl. destruct (mt_searches p) as [|k]; [lia|]. unfold for_range. cbn [seq foldM]. apply wp_bind. apply wp_bind. cbn [fst].
    eapply wp_conseq0; [apply one_forever; cbn [t_x]; apply inside_len; [exact HC|apply T]|intros ? ? []].
Qed.
Lemma members_forever : forall rows xb fxb l, existsb (fun r : vec * num * mext => m_en (snd r)) rows = true -> Forall (ent C false l fxb) rows -> bst C false l xb fxb ->
  wp K (mts_members b64ops C p rows xb fxb) (fun _ _ => False) l.
Proof.
  induction rows as [|[[x f] e] rows IH]; intros xb fxb l Hx HE Hb; [discriminate|]. cbn [mts_members]. inversion HE; subst. cbn [existsb snd] in Hx. destruct (m_en e).
  - apply wp_bind. eapply wp_conseq0; [apply member_forever; auto|intros ? ? []].
  - apply wp_bind. eapply wp_conseq0; [apply IH; auto|intros ? ? []].
Qed.
End Members.
End Forever.

(** The while loop of mts_ls3v1 does not end when upper - lower is infinite, although the bounds are finite: with that search as the last
    one, as in the V1 classes, the first iteration never returns, however many passes one waits for. *)
Theorem C101_forever : forall E p c, let C := e_cfg E in
  cfg_ok C -> 0 < c_dim C -> no_nan (e_prob E) -> repair_ok E -> hde_ok p -> last (mt_ls (hd_mts p)) LS1 = LS3v1 -> 0 < mt_searches (hd_mts p) ->
  nth_error (trange b64ops C) c = Some PInf ->
  forall s w, reached E (hde b64ops C p) s w ->
  forall r w', exec E (a_iter (hde b64ops C p) (r_pop s) (r_fit s) (r_xb s) (r_fxb s) (r_par s)) w <> (Ret r, w').
Proof.
  intros E p c C HC Hd Hn Hr Hp Hl Hs Hc s w HR.
  assert (Hm : false = true -> repair_keeps E /\ forallb notls3 (mt_ls (hd_mts p)) = true) by discriminate.
  assert (HE : env_ok (KRX C (fun x y => repair_keeps E -> length x = c_dim C -> keeps C x y) (inside C) (fun _ => True)) E) by (apply env_ok_KR; auto; intros q z H Hz; apply H; auto).
  assert (Hp' := Hp). destruct Hp' as (P1 & P2 & P3 & P4 & P5).
  assert (G : forall s w, reached E (hde b64ops C p) s w -> Forall en (r_pop s) -> forall r w', exec E (a_iter (hde b64ops C p) (r_pop s) (r_fit s) (r_xb s) (r_fxb s) (r_par s)) w <> (Ret r, w')).
  { clear s w HR. intros s w HR He r w' Ex. assert (HI := hde_reach b64ops E p HC Hd Hn Hr Hp false Hm s w HR).
    assert (W : wp (KRX C (fun x y => repair_keeps E -> length x = c_dim C -> keeps C x y) (inside C) (fun _ => True)) (hde_iter b64ops C p (r_pop s) (r_fit s) (r_xb s) (r_fxb s) (r_par s)) (fun _ _ => False) (log_of (c_opt C) (w_h w))).
    { apply (w_hde_front b64ops C (repair_keeps E) (fun _ => True) HC Hd p P2 P4 (hde_size p) (hde_dyn p Hp) false _ _ _ _ _ _ _ HI).
      intros arr x1 v1 l1 _ A1 A2 A3 A4 _ A5 _. specialize (A5 He). apply wp_bind. unfold hde_post. apply wp_bind.
      eapply wp_conseq0; [apply (members_forever E HC c Hc (hd_mts p) P3 P4 Hl Hs); [|exact A3|exact A4]|intros ? ? []].
      destruct A5 as [|a arr A5 _]; [simpl in A1; lia|]. cbn [existsb]. unfold en in A5. rewrite A5. reflexivity. }
    destruct (wp_sound _ _ E _ _ w _ _ HE W Ex) as [_ []]. }
  apply G; [exact HR|]. induction HR as [pos pop fit par w xb fxb Ex _|s w pop fit xb fxb par w' HR IH Ex]; [|exfalso; exact (G s w HR IH _ _ Ex)].
  cbn [a_init hde] in Ex. assert (Q : rets (hde_init b64ops C p) (fun r => Forall en (fst (fst r)))).
  { unfold hde_init. apply rets_skip. intros [pop0 fit0]. cbn [retsV fst]. apply Forall_map. apply Forall_forall. intros i _. reflexivity. }
  apply (rets_exec _ _ _ _ _ _ _ Q) in Ex. exact Ex.
Qed.

(** * Concrete cases *)
Module ExHde.
  Definition C1 := box 2 (-2) 2 (LFin 60).
  Definition E1 := exenv C1 lin.
  Lemma ok1 : cfg_ok C1. Proof. apply box_ok. lia. Qed.
  Lemma hyps1 : cfg_ok (e_cfg E1) /\ 0 < c_dim (e_cfg E1) /\ no_nan (e_prob E1) /\ repair_ok E1 /\ repair_keeps E1.
  Proof. split; [exact ok1|]. split; [cbn; lia|]. split; [apply lin_no_nan|]. split; [apply clip_ok; exact ok1|]. intros r x Hx. apply C94_keeps_limit; [exact ok1|exact Hx]. Qed.
  (** np.argsort of at most sixteen zeros *)
  Definition ord (n : nat) : list nat := seq 0 n.
  Definition hp (ms : option (list strategy)) (dyn : option (Z * Z)) (ls : list lsearch) (fuel : nat) : hde_par :=
    HDEPar (DEPar 4 (N' 1) (q 3 4) Rand1) ms dyn (MTSPar 4 1 1 0 2 (N' 10) (N' 1) ls fuel) ord.
  (** the searches of the classes (hde.py:78 and 176), with and without several strategies and a dynamic size *)
  Definition p1 := hp None None [LS1; LS2; LS3] 0.
  Definition pv := hp None None [LS1v1; LS2; LS3v1] 40.
  Definition pd := hp (Some [Rand1; Best1]) (Some (1%Z, 0%Z)) [LS1v1; LS2; LS3v1] 40.
  Lemma okp : hde_ok p1 /\ hde_ok pv /\ hde_ok pd.
  Proof. repeat split; cbn; try lia; try discriminate; intros a b Q; injection Q as <- <-; discriminate. Qed.
  Example ran1 : (ran E1 (hde b64ops C1 p1) 9, ran E1 (hde b64ops C1 pv) 9, ran E1 (hde b64ops C1 pd) 9) =
    (Some (1, 60), Some (1, 60), Some (1, 60)).
  Proof. vm_compute. reflexivity. Qed.
  Example best1 : best_run E1 (hde b64ops C1 pv) /\ best_run E1 (hde b64ops C1 pd) /\ value_run E1 (hde b64ops C1 p1).
  Proof.
    destruct hyps1 as (H1 & H2 & H3 & H4 & H5). destruct okp as (O1 & O2 & O3).
    split; [apply (C99_best b64ops E1 pv); auto; intros [Q|[Q|[Q|[]]]]; discriminate|].
    split; [apply (C99_best b64ops E1 pd); auto; intros [Q|[Q|[Q|[]]]]; discriminate|]. apply (C99_value b64ops E1 p1); auto.
  Qed.
  Example ends1 : terminates (hde b64ops C1 p1) E1.
  Proof. apply (C101_terminates b64ops E1 p1); [discriminate|]. intros [Q|[Q|[Q|[]]]]; discriminate. Qed.
  (** flags and grades after an iteration *)
  Example flags1 : match state_after E1 (hde b64ops C1 p1) 1 with Some (s, w) => map (fun r => (m_en (snd r), scl (m_gr (snd r)))) (r_pop s : list (vec * num * mext)) | None => [] end =
    [(true, 131072); (true, 65536); (false, 0); (false, 0)]%Z.
  Proof. vm_compute. reflexivity. Qed.
  Definition CG := box 2 (-2) 2 (LFin 400).
  Definition EG := Env CG sq (clip CG) (fun k => q (Z.of_nat (3 * k * k + 22 * k + 1) mod 32 - 20) 8) in7.
  (** steep slopes *)
  Definition lin10 : problem := fun _ x => Ret (lin_from 10 x).
  Lemma lin10_no_nan : no_nan lin10.
  Proof.
    intros h x v H. injection H as <-. generalize 10%Z as k. induction x as [|[] x IH]; simpl; intros k; try discriminate.
    specialize (IH (k + 1)%Z). destruct (lin_from (k + 1) x); congruence.
  Qed.
  Definition CS := Cfg Minimization 2 [N' (-2); N' (-2)] [N' 2; N' 2] LInf (LFin 1) NInf.
  Definition ES := Env CS lin10 (clip CS) (fun k => q (Z.of_nat (3 * k * k + 22 * k + 1) mod 32 - 20) 8) in7.
  Definition ps := HDEPar (DEPar 4 (N' 1) (N' 1) Rand1) None None (MTSPar 4 1 1 0 4 (N' 10) (N' 1) [LS1; LS2; LS3] 0) ord.
  (** bounds whose difference is not a number of binary64 *)
  Definition big : num := Fin (Z.shiftl (2 ^ 53 - 1) 2045).
  Definition CI := Cfg Minimization 1 [fneg big] [big] (LFin 50) LInf NInf.
  Definition EI := exenv CI lin.
  Lemma okI : cfg_ok CI. Proof. split; [reflexivity|]. split; [reflexivity|]. repeat constructor. Qed.
End ExHde.
(** ** Refutations *)
(** DifferentialEvolutionMTS with its own searches: a run returns a pair that was never evaluated *)
Theorem C99_default_refuted : exists E p, let C := e_cfg E in cfg_ok C /\ 0 < c_dim C /\ no_nan (e_prob E) /\ repair_ok E /\ repair_keeps E /\ hde_ok p /\
  mt_ls (hd_mts p) = [LS1; LS2; LS3] /\ hd_dyn p = None /\ hd_ms p = None /\
  bad_pair E (hde b64ops C p) 9 = true /\ ~ best_run_x (fun _ => True) E (hde b64ops C p).
Proof.
  exists ExHde.ES, ExHde.ps. cbv zeta. assert (H1 : cfg_ok ExHde.CS) by (split; [reflexivity|split; [reflexivity|repeat constructor]]).
  split; [exact H1|]. split; [cbn; lia|]. split; [apply ExHde.lin10_no_nan|]. split; [intros r x Hx; apply (clip_ok _ lin fl8 in7 H1 r x Hx)|]. split; [intros r x Hx; apply C94_keeps_limit; [exact H1|exact Hx]|].
  split; [repeat split; cbn; try lia; try discriminate|]. split; [reflexivity|]. split; [reflexivity|]. split; [reflexivity|].
  assert (Q : bad_pair ExHde.ES (hde b64ops (e_cfg ExHde.ES) ExHde.ps) 9 = true) by (vm_compute; reflexivity).
  split; [exact Q|]. apply (run_bad_pair _ _ _ _ Q).
Qed.
(** grades play no part: of the members after the first iteration one that is not enabled has a grade strictly between those of two enabled ones *)
Theorem C100_grades_refuted : exists E p s w i j k (r r' r2 : vec * num * mext), let C := e_cfg E in cfg_ok C /\ no_nan (e_prob E) /\ repair_ok E /\ hde_ok p /\
  reached E (hde b64ops C p) s w /\ nth_error (r_pop s : list (vec * num * mext)) i = Some r /\ nth_error (r_pop s : list (vec * num * mext)) j = Some r' /\ nth_error (r_pop s : list (vec * num * mext)) k = Some r2 /\
  m_en (snd r) = true /\ m_en (snd r') = false /\ m_en (snd r2) = true /\ fltb (m_gr (snd r)) (m_gr (snd r')) = true /\ fltb (m_gr (snd r')) (m_gr (snd r2)) = true.
Proof.
  destruct (state_check ExHde.EG (hde b64ops ExHde.CG ExHde.p1) 1 (fun s w => match nth_error (r_pop s : list (vec * num * mext)) 0, nth_error (r_pop s : list (vec * num * mext)) 2, nth_error (r_pop s : list (vec * num * mext)) 1 with
    | Some r, Some r', Some r2 => m_en (snd r) && negb (m_en (snd r')) && m_en (snd r2) && fltb (m_gr (snd r)) (m_gr (snd r')) && fltb (m_gr (snd r')) (m_gr (snd r2)) | _, _, _ => false end)) as (s & w & HR & Q); [vm_compute; reflexivity|].
  destruct (nth_error (r_pop s : list (vec * num * mext)) 0) as [r|] eqn:N0; [|discriminate]. destruct (nth_error (r_pop s : list (vec * num * mext)) 2) as [r'|] eqn:N2; [|discriminate].
  destruct (nth_error (r_pop s : list (vec * num * mext)) 1) as [r2|] eqn:N1; [|discriminate]. repeat (apply andb_true_iff in Q; destruct Q as [Q ?]). match goal with H : negb _ = true |- _ => apply negb_true_iff in H end.
  assert (HG : cfg_ok ExHde.CG) by (apply box_ok; lia). exists ExHde.EG, ExHde.p1, s, w, 0, 2, 1, r, r', r2. cbv zeta. split; [exact HG|]. split; [apply sq_no_nan|]. split; [apply clip_ok; exact HG|]. split; [apply ExHde.okp|].
  split; [exact HR|]. auto 10.
Qed.
(** finite bounds, a limit on the evaluations, and yet no run of a V1 class gets past its first iteration *)
Theorem C101_v1_refuted : exists E k, let C := e_cfg E in cfg_ok C /\ 0 < c_dim C /\ no_nan (e_prob E) /\ repair_ok E /\ repair_keeps E /\
  c_max_evals C = LFin k /\ (forall b, In b (c_lower C ++ c_upper C) -> exists z, b = Fin z) /\
  forall fuel s w, reached E (hde b64ops C (ExHde.hp None None [LS1v1; LS2; LS3v1] fuel)) s w ->
  forall r w', exec E (a_iter (hde b64ops C (ExHde.hp None None [LS1v1; LS2; LS3v1] fuel)) (r_pop s) (r_fit s) (r_xb s) (r_fxb s) (r_par s)) w <> (Ret r, w').
Proof.
  assert (H1 := ExHde.okI). assert (H4 : repair_ok ExHde.EI) by (apply clip_ok; exact H1).
  exists ExHde.EI, 50%Z. cbv zeta. split; [exact H1|]. split; [cbn; lia|]. split; [apply lin_no_nan|]. split; [exact H4|]. split; [intros r x Hx; apply C94_keeps_limit; [exact H1|exact Hx]|].
  split; [reflexivity|]. split; [intros b [<-|[<-|[]]]; eexists; reflexivity|]. intros fuel. apply (C101_forever ExHde.EI _ 0); [exact H1|cbn; lia|apply lin_no_nan|exact H4| |reflexivity|cbn; lia|vm_compute; reflexivity].
  repeat split; cbn; try lia; try discriminate.
Qed.
Print Assumptions C99_value.
Print Assumptions C99_best.
Print Assumptions C100_step.
Print Assumptions C100_fitness.
Print Assumptions C101_terminates.
Print Assumptions C101_forever.
Print Assumptions C99_default_refuted.
Print Assumptions C100_grades_refuted.
Print Assumptions C101_v1_refuted.
