(** Final theorems about LionOptimizationAlgorithm (loa.py) (C122-C126). *)
From Coq Require Import ZArith Lia Lra Reals Bool List Permutation Floats.SpecFloat.
From Flocq Require Import Core BinarySingleNaN.
From Verif Require Import Num Task TaskSpec TaskProofs TaskProofs2 Prog Wp GetBest Run RunSpec RunProofs RunProofs2
  AlgoLib Fops AlgTac StepSpec StepLib Indiv IndivLib Reach AlgBasic AlgBasic2 AlgBasic2Proofs AlgSwarm PopLib Repair B64 B64Spec B64Int B64Mag ExLib ExLib2
  AlgPSO AlgDE AlgBasic3 PropertiesShade PropertiesShade2 AlgMts AlgShadeProofs AlgKhProofs AlgCroProofs AlgLoa AlgLoaProofs.
Import ListNotations.
Open Scope nat_scope.
Notation fabs := Fops.fabs.
Local Notation fmt := (FLT_exp (-1074) 53).

(** * C122: runs *)
(** the exceptions of the algorithm itself *)
Definition loa_error (e : exn) : Prop := e = EIndex \/ e = EValue \/ e = EOverflow \/ e = EZeroDiv.
Lemma loa_ix : forall F C p pi, cfg_ok C -> iter_c (KBX C loa_error) (loa F C p pi) (LoaInv F C).
Proof.
  intros F C p pi HC hp fit xb fxb rows l H. eapply wp_conseq0; [apply (loa_iter_x F C p pi loa_error HC); [right; right; left; reflexivity|left; reflexivity|right; left; reflexivity|exact H]|].
  intros [[[[hp' fit'] xb'] fxb'] rows'] l' (G & _). exact G.
Qed.
Lemma loa_ic : forall F C p pi, cfg_ok C -> 0 < lo_n p -> init_c (KBX C loa_error) (loa F C p pi) (LoaInv F C).
Proof. intros F C p pi HC Hn. apply (loa_init_x F C p pi loa_error HC); auto; [right; right; left; reflexivity|right; left; reflexivity|right; right; right; reflexivity]. Qed.
Lemma loa_inv : forall F E p pi s w, let C := e_cfg E in cfg_ok C -> no_nan (e_prob E) -> repair_ok E -> 0 < lo_n p -> reached E (loa F C p pi) s w ->
  LoaInv F C (r_pop s) (r_fit s) (r_xb s) (r_fxb s) (r_par s) (log_of (c_opt C) (w_h w)).
Proof. intros F E p pi s w C HC Hn Hr Hp H. apply (reach_c (inside C) loa_error E (loa F C p pi) (LoaInv F C)); auto; [apply loa_ic; auto|apply loa_ix; auto]. Qed.
(** whatever the parameters: only points inside the bounds are evaluated and a run that returns returns an evaluated pair *)
Theorem C122_sound : forall F E p pi, let C := e_cfg E in cfg_ok C -> no_nan (e_prob E) -> repair_ok E -> 0 < lo_n p -> sound_run_x loa_error E (loa F C p pi).
Proof.
  intros F E p pi C HC Hn Hr Hp. apply (sound_run_c (inside C) loa_error E (loa F C p pi) (LoaInv F C)); auto; [apply loa_ic; auto|apply loa_ix; auto|].
  intros pop fit xb fxb par l H. split; [apply (inside_len C _ HC (li_xb _ _ _ _ _ _ _ _ H))|apply (li_seen _ _ _ _ _ _ _ _ H)].
Qed.
(** with parameters that give every pride a female and leave a nomad, only OverflowError can occur *)
Definition LoaFit (F : fops) (C : cfg) (p : loa_par) (ns : Z) (hp : list lion * list nat) (fit : list num) (xb : vec) (fxb : num) (rows : list lrow) (l : elog) : Prop :=
  LoaInv F C hp fit xb fxb rows l /\ LoaLay F p (map (share F (lo_female p)) (sizes_of p ns)) (share F (fsub F (flit F 1 1) (lo_female p)) ns) hp rows.
Lemma loa_fc : forall F C p pi ns (X : exn -> Prop), cfg_ok C -> X EOverflow -> loa_fit F p ns -> init_c (KBX C X) (loa F C p pi) (LoaFit F C p ns).
Proof. intros F C p pi ns X HC HX Hf. apply (loa_init_good F C p pi X HC ns Hf). Qed.
Lemma loa_fx : forall F C p pi ns (X : exn -> Prop), cfg_ok C -> X EOverflow -> 0 < c_dim C -> iter_c (KBX C X) (loa F C p pi) (LoaFit F C p ns).
Proof.
  intros F C p pi ns X HC HX Hd hp fit xb fxb rows l [H1 H2]. eapply wp_conseq0; [apply (loa_iter_good F C p pi X HC HX Hd _ _ _ _ _ _ _ _ H1 H2)|].
  intros [[[[hp' fit'] xb'] fxb'] rows'] l' (G1 & G2 & _). split; auto.
Qed.
Theorem C122_fit : forall F E p pi ns, let C := e_cfg E in cfg_ok C -> no_nan (e_prob E) -> repair_ok E -> 0 < c_dim C -> loa_fit F p ns -> sound_run_x (fun e => e = EOverflow) E (loa F C p pi).
Proof.
  intros F E p pi ns C HC Hn Hr Hd Hf. apply (sound_run_c (inside C) (fun e => e = EOverflow) E (loa F C p pi) (LoaFit F C p ns)); auto; [apply loa_fc; auto|apply loa_fx; auto|].
  intros pop fit xb fxb par l [H _]. split; [apply (inside_len C _ HC (li_xb _ _ _ _ _ _ _ _ H))|apply (li_seen _ _ _ _ _ _ _ _ H)].
Qed.

(** * C123: the lions *)
(** every lion has its best position with the value, no worse than its current one, and the global best is no worse than any of the population *)
Theorem C123_lions : forall F E p pi s w, let C := e_cfg E in let l := log_of (c_opt C) (w_h w) in cfg_ok C -> no_nan (e_prob E) -> repair_ok E -> 0 < lo_n p -> reached E (loa F C p pi) s w ->
  let (h, pop) := (r_pop s : list lion * list nat) in
  r_fit s = map (fun i => l_f (at_ h i)) pop /\
  forall i, In i pop -> i < length h /\ let a := at_ h i in inside C (l_x a) /\ (l_f a = PInf \/ In (l_x a, l_f a) l) /\ l_f a <> NaN /\ fltb (l_cf a) (l_f a) = false /\ length (l_cx a) = c_dim C /\ fleb (r_fxb s) (l_f a) = true.
Proof.
  intros F E p pi s w C l HC Hn Hr Hp H. assert (G := loa_inv F E p pi s w HC Hn Hr Hp H). destruct (r_pop s : list lion * list nat) as [h pop]. destruct G as [G1 G2 G3 _ _ _ G7 _]. cbn [fst snd] in *. split; [exact G3|].
  intros i Hi. assert (Li := Ids_in _ _ _ G2 Hi). split; auto. cbv zeta. destruct (Store_at _ _ _ _ _ G1 Li). do 5 (split; [assumption|]). apply G7; auto.
Qed.
(** an iteration makes no lion worse, whether it stays in the population or not, and never the global best *)
Theorem C123_kept : forall F E p pi s w hp' fit' xb' fxb' rows' w', let C := e_cfg E in cfg_ok C -> no_nan (e_prob E) -> repair_ok E -> 0 < lo_n p -> reached E (loa F C p pi) s w ->
  exec E (a_iter (loa F C p pi) (r_pop s) (r_fit s) (r_xb s) (r_fxb s) (r_par s)) w = (Ret (hp', fit', xb', fxb', rows'), w') ->
  let h := fst (r_pop s : list lion * list nat) in let h' := fst (hp' : list lion * list nat) in
  length h <= length h' /\ (forall i, i < length h -> l_x (at_ h' i) = l_x (at_ h i) /\ l_f (at_ h' i) = l_f (at_ h i) \/ fltb (l_f (at_ h' i)) (l_f (at_ h i)) = true) /\ fleb fxb' (r_fxb s) = true.
Proof.
  intros F E p pi s w hp' fit' xb' fxb' rows' w' C HC Hn Hr Hp H Ex. assert (G := loa_inv F E p pi s w HC Hn Hr Hp H).
  assert (W := loa_iter_x F C p pi loa_error HC (or_intror (or_intror (or_introl eq_refl))) (or_introl eq_refl) (or_intror (or_introl eq_refl)) _ _ _ _ _ _ G).
  assert (S := wp_sound _ _ _ _ _ _ _ _ (env_ok_KB (inside C) loa_error E Hn Hr) W Ex). destruct S as (_ & _ & (K1 & K2) & K3). auto.
Qed.
(** previous_iter_best_f: where v <= v + 1, it is the best value of every lion of the population at the end of an iteration *)
Theorem C123_prev : forall F E p pi s w, let C := e_cfg E in let l := log_of (c_opt C) (w_h w) in cfg_ok C -> no_nan (e_prob E) -> repair_ok E -> 0 < lo_n p -> reached E (loa F C p pi) s w ->
  (forall v, v = PInf \/ (exists x, In (x, v) l) -> v <> NaN -> fleb v (fadd F v (flit F 1 1)) = true) ->
  let (h, pop) := (r_pop s : list lion * list nat) in forall i, In i pop -> l_prev (at_ h i) = l_f (at_ h i).
Proof.
  intros F E p pi s w C l HC Hn Hr Hp H Hv. assert (G := li_prev _ _ _ _ _ _ _ _ (loa_inv F E p pi s w HC Hn Hr Hp H)). destruct (r_pop s : list lion * list nat) as [h pop]. cbn [fst snd] in G.
  destruct G as [_ G]; [|exact G]. intros x v [Q|Q]; apply Hv; eauto.
Qed.
(** in binary64 it always is *)
Lemma inc64 : forall v, is64 v -> v <> NaN -> fleb v (fadd b64ops v (flit b64ops 1 1)) = true.
Proof.
  intros [| |z|] H N; [congruence|vm_compute; reflexivity| |vm_compute; reflexivity]. assert (L1 : flit b64ops 1 1 = Fin (2 ^ 1074)) by (vm_compute; reflexivity). rewrite L1.
  assert (H1 : is64 (Fin (2 ^ 1074))) by (vm_compute; reflexivity). destruct (Rlt_or_le (Rabs (rnd64 (val z + val (2 ^ 1074)))) (bpow radix2 1024)) as [Q|Q].
  - destruct (add64 z (2 ^ 1074) H H1 Q) as (z' & -> & _ & Ez). cbn [fleb]. apply Z.leb_le. apply val_le. rewrite Ez, val_1. rewrite <- (rnd64_id (val z)) by (apply is64_fmt; auto). apply rnd64_le. rewrite (rnd64_id (val z)) by (apply is64_fmt; auto). lra.
  - destruct (is64_fin _ H) as [Fx Ex]. destruct (is64_fin _ H1) as [Fy Ey]. cbn [fadd b64ops]. unfold sf2. rewrite !to_sf_eq, add_equiv.
    assert (X := Bplus_correct 53 1024 prec_gt_0_53 prec_lt_emax_53 mode_NE _ _ Fx Fy). rewrite Ex, Ey in X. change (SpecFloat.fexp 53 1024) with fmt in X.
    change (round radix2 fmt (round_mode mode_NE) (val z + val (2 ^ 1074))) with (rnd64 (val z + val (2 ^ 1074))) in X. rewrite Rlt_bool_false in X by auto. destruct X as [-> X2].
    rewrite X2. assert (Sg : Bsign (num2b (Fin (2 ^ 1074))) = false) by (vm_compute; reflexivity). rewrite Sg. reflexivity.
Qed.
Theorem C123_prev64 : forall F E p pi s w, let C := e_cfg E in arith64 F -> cfg_ok C -> no_nan (e_prob E) -> repair_ok E -> 0 < lo_n p -> reached E (loa F C p pi) s w ->
  (forall x v, In (x, v) (log_of (c_opt C) (w_h w)) -> is64 v) -> let (h, pop) := (r_pop s : list lion * list nat) in forall i, In i pop -> l_prev (at_ h i) = l_f (at_ h i).
Proof.
  intros F E p pi s w C (A1 & _ & _ & _ & A5 & _) HC Hn Hr Hp H Hv. apply (C123_prev F E p pi s w HC Hn Hr Hp H). intros v Q N. rewrite A1, A5. apply inc64; auto. destruct Q as [->|(x & Q)]; [reflexivity|eauto].
Qed.

(** * C124: the prides *)
Lemma loa_lay : forall F E p pi ns s w, let C := e_cfg E in cfg_ok C -> no_nan (e_prob E) -> repair_ok E -> 0 < c_dim C -> loa_fit F p ns -> reached E (loa F C p pi) s w ->
  LoaFit F C p ns (r_pop s) (r_fit s) (r_xb s) (r_fxb s) (r_par s) (log_of (c_opt C) (w_h w)).
Proof. intros F E p pi ns s w C HC Hn Hr Hd Hf H. apply (reach_c (inside C) (fun e => e = EOverflow) E (loa F C p pi) (LoaFit F C p ns)); auto; [apply loa_fc; auto|apply loa_fx; auto]. Qed.
(** with fitting parameters, at the end of every iteration: the population has its size, nobody occurs twice, it is made of the prides
    and then the nomads, the sizes and the numbers of females and males are the ones of the start and the recorded ones *)
Theorem C124_prides : forall F E p pi ns s w, let C := e_cfg E in cfg_ok C -> no_nan (e_prob E) -> repair_ok E -> 0 < c_dim C -> loa_fit F p ns -> reached E (loa F C p pi) s w ->
  let (h, pop) := (r_pop s : list lion * list nat) in let rows := (r_par s : list lrow) in let n := Z.of_nat (lo_n p) in let m := Z.of_nat (lo_prides p) in
  let fems := fun ids => Z.of_nat (length (filter (fun i => negb (l_male (at_ h i))) ids)) in let mals := fun ids => Z.of_nat (length (filter (fun i => l_male (at_ h i)) ids)) in
  length pop = lo_n p /\ NoDup pop /\ length rows = S (lo_prides p) /\ exists ps nom, pop = concat ps ++ nom /\ length ps = lo_prides p /\
    (forall k, k < lo_prides p -> let ids := nth k ps [] in let r := nth k rows row0 in let size := ((n - ns) / m + if Z.of_nat k <? (n - ns) mod m then 1 else 0)%Z in
       Z.of_nat (length ids) = size /\ lr_n r = size /\ fems ids = lr_f r /\ mals ids = lr_m r /\ (lr_f r + lr_m r)%Z = size /\
       (exists nf, py_round (fmul F (lo_female p) (fz F size)) = Ret nf /\ lr_f r = Z.min nf size) /\ forall i, In i ids -> l_pride (at_ h i) = Z.of_nat k) /\
    (let r := last rows row0 in Z.of_nat (length nom) = ns /\ lr_n r = ns /\ fems nom = lr_f r /\ mals nom = lr_m r /\ (lr_f r + lr_m r)%Z = ns /\
       (exists nf, py_round (fmul F (fsub F (flit F 1 1) (lo_female p)) (fz F ns)) = Ret nf /\ lr_f r = Z.min (Z.max nf 0) ns) /\ forall i, In i nom -> l_pride (at_ h i) = (-1)%Z).
Proof.
  intros F E p pi ns s w C HC Hn Hr Hd Hf H. destruct (loa_lay F E p pi ns s w HC Hn Hr Hd Hf H) as [_ (ps & nom & rs & rn & Er & HL & ET & En & _ & _)]. destruct (r_pop s : list lion * list nat) as [h pop]. cbn [fst snd] in *. cbv zeta.
  assert (Er' : (r_par s : list lrow) = rs ++ [rn]) by exact Er. rewrite Er'. clear Er. destruct HL as [L1 L2 L3 L4 L5 L6 L7]. destruct Hf as [G1 G2 G3 (nfn & G4) G5].
  assert (Lp := Forall2_len _ _ _ _ _ L4). assert (Lr : length rs = lo_prides p) by (apply (f_equal (@length (Z * Z))) in ET; rewrite !map_length in ET; unfold sizes_of in ET; rewrite map_length, seq_length in ET; exact ET).
  assert (Hk : forall k, k < lo_prides p -> let ids := nth k ps [] in let r := nth k (rs ++ [rn]) row0 in let size := ((Z.of_nat (lo_n p) - ns) / Z.of_nat (lo_prides p) + if Z.of_nat k <? (Z.of_nat (lo_n p) - ns) mod Z.of_nat (lo_prides p) then 1 else 0)%Z in
       Z.of_nat (length ids) = size /\ lr_n r = size /\ Z.of_nat (length (females h ids)) = lr_f r /\ Z.of_nat (length (males h ids)) = lr_m r /\ (lr_f r + lr_m r)%Z = size /\
       (exists nf, py_round (fmul F (lo_female p) (fz F size)) = Ret nf /\ lr_f r = Z.min nf size) /\ forall i, In i ids -> l_pride (at_ h i) = Z.of_nat k).
  { intros k Lk ids r size. assert (Er : r = nth k rs row0) by (unfold r; apply app_nth1; lia). assert (Hc : counts h ids r) by (rewrite Er; unfold ids; clear - L4 Lk Lp Lr; assert (Lk' : k < length ps) by lia; clear Lk Lp Lr; revert k Lk'; induction L4; intros [|k] Lk; cbn in *; try lia; auto; apply IHL4; lia).
    assert (Sz : nth k (sizes_of p ns) 0%Z = size) by (unfold sizes_of; rewrite (nth_indep _ 0%Z (pride_size (Z.of_nat (lo_n p)) (Z.of_nat (lo_prides p)) ns 0)) by (rewrite map_length, seq_length; auto); rewrite map_nth, seq_nth by auto; reflexivity).
    assert (Hin : In size (sizes_of p ns)) by (rewrite <- Sz; apply nth_In; unfold sizes_of; rewrite map_length, seq_length; auto). destruct (G5 _ Hin) as (S0 & (nf & kk & R1 & R2 & _) & _).
    assert (Ef : fm r = share F (lo_female p) size).
    { rewrite Er, <- Sz. apply (f_equal (fun q => nth k q (0, 0)%Z)) in ET. rewrite (nth_indep _ (0, 0)%Z (fm row0)) in ET by (rewrite map_length; lia). rewrite map_nth in ET. rewrite ET. rewrite (nth_indep _ (0, 0)%Z (share F (lo_female p) 0)) by (unfold sizes_of; rewrite !map_length, seq_length; auto). apply map_nth. }
    unfold fm, share in Ef. rewrite R1 in Ef. injection Ef as E1 E2. destruct Hc as (A1 & A2 & A3). assert (Y := sexes h ids). rewrite Z.max_l in E1, E2 by lia.
    split; [lia|]. split; [lia|]. split; [lia|]. split; [lia|]. split; [lia|]. split; [eauto|]. intros i Hi. apply L6. exact Hi. }
  unfold share in En. rewrite G4 in En. injection En as E1 E2. destruct L5 as (A1 & A2 & A3). assert (Y := sexes h nom). assert (Ln : Z.of_nat (length nom) = ns) by lia.
  assert (Lc : Z.of_nat (length (concat ps)) = total (sizes_of p ns)).
  { assert (Q : map (fun ids => Z.of_nat (length ids)) ps = sizes_of p ns).
    { apply (nth_ext _ _ 0%Z 0%Z); [unfold sizes_of; rewrite !map_length, seq_length; lia|]. rewrite map_length. intros k Lk. destruct (Hk k ltac:(lia)) as (B1 & _). rewrite (nth_indep _ 0%Z (Z.of_nat (length (@nil nat)))) by (rewrite map_length; auto). rewrite (map_nth (fun ids => Z.of_nat (length ids))), B1.
      unfold sizes_of. rewrite (nth_indep _ 0%Z (pride_size (Z.of_nat (lo_n p)) (Z.of_nat (lo_prides p)) ns 0)) by (rewrite map_length, seq_length; lia). rewrite map_nth, seq_nth by lia. reflexivity. }
    rewrite <- Q. clear. unfold total. induction ps; cbn [concat map fold_right length]; auto. rewrite app_length. lia. }
  rewrite sizes_total in Lc by auto. split; [rewrite L1, app_length; lia|]. split; [exact L2|]. split; [rewrite app_length; cbn; lia|]. exists ps, nom. split; [exact L1|]. split; [lia|]. split; [exact Hk|].
  rewrite last_last. split; [exact Ln|]. split; [lia|]. split; [unfold females in A2; lia|]. split; [unfold males in A3; lia|]. split; [lia|]. split; [eauto|]. exact L7.
Qed.

(** * C125: parameters that do not fit *)
Section Steps.
Variables (F : fops) (E : env) (p : loa_par) (pi : num).
Let C := e_cfg E.
Hypothesis HC : cfg_ok C.
Hypothesis HR : repair_ok E.
Lemma tr_rep : forall z (Q : vec -> elog -> Prop) l, length z = c_dim C -> (forall y, repaired E z y -> inside C y -> Q y l) -> wp (K_tr E) (repair z) Q l.
Proof. intros z Q l L H. apply w_repair_tr. intros y Hy. apply H; auto. destruct Hy as [q ->]. apply HR. exact L. Qed.
Lemma tr_eval : forall x (Q : num -> elog -> Prop) l, inside C x -> (forall v l', evaluated x v l l' -> ext l l' -> Seen l' x v -> (fun _ => True) v -> Q v l') -> wp (K_tr E) (eval x) Q l.
Proof. intros x Q l Hx H. apply w_eval_tr. intros v l' He. apply H; auto; destruct He as [[-> ->]| ->]; [apply ext_refl|apply ext_cons|left; auto|right; left; auto]. Qed.
Lemma tr_over : forall e, K_exn (K_tr E) e.
Proof. intros e. exact I. Qed.
Lemma store_tr : forall l h, Store C (fun v => v <> NaN) l h -> Store C (fun _ => True) l h.
Proof. intros l h H. eapply Forall_impl; [|exact H]. intros a [A1 A2 A3 A4 A5]. constructor; auto. Qed.
(** a pride of size 0 *)
Lemma no_pride : forall rows pop, (exists r, In r (removelast rows) /\ lr_n r = 0%Z) -> In [] (prides rows pop).
Proof.
  clear. intros rows pop (r & Hr & H0). unfold prides, pride_rows. revert Hr. generalize (removelast rows) 0%Z. induction l as [|a l IH]; intros z Hr; [destruct Hr|]. cbn [map cut]. destruct Hr as [->|Hr]; [left|right; apply IH; auto].
  rewrite H0. rewrite Z.add_0_r. unfold slice. rewrite Nat.sub_diag. reflexivity.
Qed.
Lemma empty_never : forall rows pop h l h' l', In [] (prides rows pop) -> ~ all_safe F C pi (repaired E) evaluated rows pop h l h' l'.
Proof.
  intros rows pop h l h' l' Hin (sr & _ & H). revert Hin. induction H as [|a xs s l s1 l1 s2 l2 H1 H2 IH]; intros Hin; [destruct Hin|]. destruct Hin as [->|Hin]; auto.
  destruct H1 as (w & Hw & _). destruct Hw as [Hw|(is & n & Hw & _)]; [discriminate|cbn in Hw; lia].
Qed.
Lemma iter_lived : forall h pop fit xb fxb rows hp' fit' xb' fxb' rows' wd wd', let l := log_of (c_opt C) (w_h wd) in Store C (fun _ => True) l h -> Ids h pop ->
  exec E (lo_iter F C p pi (h, pop) fit xb fxb rows) wd = (Ret (hp', fit', xb', fxb', rows'), wd') ->
  exists h3 h4 pop4 rows4, lived F C p pi (repaired E) evaluated rows pop h l h3 h4 pop4 rows4 (log_of (c_opt C) (w_h wd')).
Proof.
  intros h pop fit xb fxb rows hp' fit' xb' fxb' rows' wd wd' l Hs Hi Ex. apply (tr_sound _ E _ (fun _ l' => exists h3 h4 pop4 rows4, lived F C p pi (repaired E) evaluated rows pop h l h3 h4 pop4 rows4 l') _ _ _) in Ex; [exact Ex|]. fold C l.
  apply (w_iter_x F C p pi (repaired E) evaluated (K_tr E) (fun _ => True)); auto; [apply tr_rep|apply tr_eval|apply tr_over|apply tr_over|apply tr_over|].
  intros h3 h4 pop4 rows4 h6 pop6 pop7 rows6 rows7 l' Hl _ _ _ _ _ h7 _ _ _ _ _. unfold lo_tail. cbv zeta. apply wp_bind. apply w_lift_x; [intros e _; apply tr_over|]. intros [xb1 fxb1] _. apply w_done. eauto 10.
Qed.
End Steps.
(** an iteration with an empty pride always raises *)
Theorem C125_empty : forall F E p pi s w r w', let C := e_cfg E in cfg_ok C -> no_nan (e_prob E) -> repair_ok E -> 0 < lo_n p -> reached E (loa F C p pi) s w ->
  (exists row, In row (removelast (r_par s : list lrow)) /\ lr_n row = 0%Z) ->
  exec E (a_iter (loa F C p pi) (r_pop s) (r_fit s) (r_xb s) (r_fxb s) (r_par s)) w = (r, w') -> exists e, r = Raise e.
Proof.
  intros F E p pi s w r w' C HC Hn Hr Hp H H0 Ex. destruct r as [a|e]; [exfalso|eauto]. destruct (loa_inv F E p pi s w HC Hn Hr Hp H) as [G1 G2 _ _ _ _ _ _]. cbn [a_iter loa] in Ex.
  destruct (r_pop s : list lion * list nat) as [h pop]. cbn [fst snd] in *. destruct a as [[[[hp' fit'] xb'] fxb'] rows'].
  destruct (iter_lived F E p pi HC Hr _ _ _ _ _ _ _ _ _ _ _ _ _ (store_tr E _ _ G1) G2 Ex) as (h3 & h4 & pop4 & rows4 & h1 & l1 & h2 & l2 & l3 & _ & Q & _). revert Q. apply empty_never. apply no_pride. exact H0.
Qed.
(** so with more prides than lions to share out among them: the first iteration raises *)
Lemma settle_rows : forall F E p ks h rows wd h' rows' wd', exec E (foldM (lo_settle1 F p) ks (h, rows)) wd = (Ret (h', rows'), wd') -> map lr_n rows' = map lr_n rows ++ map (fun k => fst (snd k)) ks.
Proof.
  intros F E p. induction ks as [|[k [size ids]] ks IH]; intros h rows wd h' rows' wd' Ex; cbn [foldM] in Ex.
  - cbn [exec] in Ex. injection Ex as _ <- _. cbn. rewrite app_nil_r. reflexivity.
  - rewrite exec_bind in Ex. unfold lo_settle1 at 1 in Ex. rewrite exec_bind in Ex. match type of Ex with context [exec E (lift ?q) wd] => destruct q as [nf|e] end; cbn [lift exec] in Ex; [|discriminate]. apply IH in Ex. rewrite Ex, map_app, <- app_assoc. reflexivity.
Qed.
Theorem C125_few : forall F E p pi ns s w r w', let C := e_cfg E in cfg_ok C -> no_nan (e_prob E) -> repair_ok E -> 0 < lo_n p ->
  py_round (fmul F (lo_nomad p) (fnat F (lo_n p))) = Ret ns -> (0 <= Z.of_nat (lo_n p) - ns < Z.of_nat (lo_prides p))%Z -> reached E (loa F C p pi) s w -> t_iters (w_ts w) = 0 ->
  exec E (a_iter (loa F C p pi) (r_pop s) (r_fit s) (r_xb s) (r_fxb s) (r_par s)) w = (r, w') -> exists e, r = Raise e.
Proof.
  intros F E p pi ns s w r w' C HC Hn Hr Hp Hns Hf H H0 Ex. apply (C125_empty F E p pi s w r w' HC Hn Hr Hp H); [|exact Ex]. clear Ex. inversion H as [pos pop fit par w1 xb fxb X G|s1 w1 pop fit xb fxb par w2 H1 X]; subst; [|cbn in H0; discriminate].
  cbn [r_par]. cbn [a_init loa] in X. unfold lo_init in X. rewrite exec_bind in X. destruct (exec E (default_individual_init _ _) _) as [[[p0 g0]|e] w2]; [|discriminate]. unfold lo_sizes in X. rewrite !exec_bind in X. rewrite Hns in X. cbn [lift exec] in X.
  destruct (Z.of_nat (lo_prides p) =? 0)%Z eqn:B; [discriminate|]. cbn [exec] in X. rewrite exec_bind in X. match type of X with context [exec E (foldM ?f ?ks ?s0) w2] => destruct (exec E (foldM f ks s0) w2) as [[[h' rows']|e] w3] eqn:X3 end; [|discriminate]. cbn [exec] in X. injection X as _ _ <- _.
  apply settle_rows in X3. cbn [map app] in X3. set (q := (Z.of_nat (lo_n p) - ns)%Z) in *. set (sizes := map _ (seq 0 (lo_prides p)) ++ [ns]) in X3.
  assert (Es : map lr_n rows' = sizes).
  { rewrite X3. clear. assert (G : forall (a : list Z) (xs : list (list nat)) k, length xs = length a -> map (fun k => fst (snd k)) (combine (seq k (length a)) (combine a xs)) = a) by (induction a as [|z a IH]; intros [|x xs] k L; try discriminate; auto; cbn; f_equal; apply IH; cbn in L; lia).
    apply G. generalize 0%Z. induction sizes as [|z sizes IH]; intros i; cbn; auto. }
  clear X3. apply Z.eqb_neq in B. assert (Hl : rows' <> []) by (intros Q; rewrite Q in Es; unfold sizes in Es; symmetry in Es; apply app_eq_nil in Es; destruct Es; discriminate). rewrite (app_removelast_last row0 Hl), map_app in Es. apply app_inj_tail in Es. destruct Es as [Es _].
  assert (Z0 : In 0%Z (map lr_n (removelast rows'))).
  { rewrite Es. apply in_map_iff. exists (lo_prides p - 1). assert (Y := Z.div_small q (Z.of_nat (lo_prides p)) ltac:(unfold q; lia)). assert (Y2 := Z.mod_small q (Z.of_nat (lo_prides p)) ltac:(unfold q; lia)). rewrite Y, Y2.
    split; [|apply in_seq; lia]. destruct (_ <? q)%Z eqn:B2; [apply Z.ltb_lt in B2; unfold q in *; lia|reflexivity]. }
  apply in_map_iff in Z0. destruct Z0 as (row & E1 & E2). eauto.
Qed.

(** * C126: one iteration *)
(** hunting, moving to the safe place, roaming, mating, then defense, migration and equilibrium (the worst males of every pride leave it, the
    numbers of females are restored, the worst nomads leave the population), data_correction and get_best *)
Lemma iter_settles : forall F E p pi h pop fit xb fxb ps nom rs rn hp' fit' xb' fxb' rows' wd wd', let C := e_cfg E in let l := log_of (c_opt C) (w_h wd) in cfg_ok C -> repair_ok E -> 0 < c_dim C ->
  Store C (fun _ => True) l h -> Lay h pop ps nom rs rn -> Forall (fit_row F p) rs -> (1 <= lr_f rn + lr_m rn)%Z ->
  exec E (lo_iter F C p pi (h, pop) fit xb fxb (rs ++ [rn])) wd = (Ret (hp', fit', xb', fxb', rows'), wd') -> let (h', pop') := (hp' : list lion * list nat) in
  exists h3 h4 pop4 rows4 h6, lived F C p pi (repaired E) evaluated (rs ++ [rn]) pop h l h3 h4 pop4 rows4 (log_of (c_opt C) (w_h wd')) /\ kin h h3 /\ grows h3 h4 /\ moved_on h4 h6 /\ settles_down h4 pop4 rows4 h6 pop' rows' /\
    h' = lo_correct pop' h6 /\ NoDup pop' /\ Ids h6 pop' /\ fit' = map (fun i => l_f (at_ h' i)) pop' /\ get_best (map (fun i => l_x (at_ h' i)) pop') fit' (Some xb) fxb = Ret (xb', fxb').
Proof.
  intros F E p pi h pop fit xb fxb ps nom rs rn hp' fit' xb' fxb' rows' wd wd' C l HC Hr Hd Hs HL Hf Hn Ex.
  apply (tr_sound _ E _ (fun s' l' => let '(hp', fit', xb', fxb', rows') := s' in let (h', pop') := (hp' : list lion * list nat) in
    exists h3 h4 pop4 rows4 h6, lived F C p pi (repaired E) evaluated (rs ++ [rn]) pop h l h3 h4 pop4 rows4 l' /\ kin h h3 /\ grows h3 h4 /\ moved_on h4 h6 /\ settles_down h4 pop4 rows4 h6 pop' rows' /\
    h' = lo_correct pop' h6 /\ NoDup pop' /\ Ids h6 pop' /\ fit' = map (fun i => l_f (at_ h' i)) pop' /\ get_best (map (fun i => l_x (at_ h' i)) pop') fit' (Some xb) fxb = Ret (xb', fxb')) _ _ _) in Ex; [exact Ex|]. fold C l. clear Ex hp' fit' xb' fxb' rows' wd'.
  apply (w_iter_good F C p pi (repaired E) evaluated (K_tr E) (fun _ => True)) with (ps := ps) (nom := nom); auto; [apply tr_rep; auto|apply tr_eval; auto|apply tr_over|].
  intros h3 h4 pop4 rows4 h6 pop7 rs7 rn7 ps7 nom7 l' Hl Hk Hg Hm Hsd h7 _ HL7 _ _ I6 _ _. unfold lo_tail. cbv zeta. apply wp_bind. apply w_lift_x; [intros e _; apply tr_over|]. intros [xb1 fxb1] Hb. apply w_done.
  exists h3, h4, pop4, rows4, h6. do 5 (split; [assumption|]). split; [reflexivity|]. split; [apply (la_nd _ _ _ _ _ _ HL7)|]. split; [exact I6|]. split; [reflexivity|exact Hb].
Qed.
Theorem C126_step : forall F E p pi ns s w hp' fit' xb' fxb' rows' w', let C := e_cfg E in cfg_ok C -> no_nan (e_prob E) -> repair_ok E -> 0 < c_dim C -> loa_fit F p ns -> reached E (loa F C p pi) s w ->
  exec E (a_iter (loa F C p pi) (r_pop s) (r_fit s) (r_xb s) (r_fxb s) (r_par s)) w = (Ret (hp', fit', xb', fxb', rows'), w') ->
  let l := log_of (c_opt C) (w_h w) in let l' := log_of (c_opt C) (w_h w') in let (h, pop) := (r_pop s : list lion * list nat) in let (h', pop') := (hp' : list lion * list nat) in let rows := (r_par s : list lrow) in
  exists h1 l1 h2 l2 h3 l3 h4 pop4 rows4 h6,
    folds (hunted F C (repaired E) evaluated) (prides rows pop) h l h1 l1 /\ all_safe F C pi (repaired E) evaluated rows pop h1 l1 h2 l2 /\ all_roam F C p pi (repaired E) evaluated rows pop h2 l2 h3 l3 /\
    all_mate F C p (repaired E) evaluated rows pop h3 l3 (h4, pop4, rows4) l' /\ settles_down h4 pop4 rows4 h6 pop' rows' /\
    length h' = length h6 /\ (forall i, In i pop' -> corrected (at_ h6 i) (at_ h' i)) /\ (forall i, ~ In i pop' -> at_ h' i = at_ h6 i) /\
    fit' = map (fun i => l_f (at_ h' i)) pop' /\ get_best (map (fun i => l_x (at_ h' i)) pop') fit' (Some (r_xb s)) (r_fxb s) = Ret (xb', fxb').
Proof.
  intros F E p pi ns s w hp' fit' xb' fxb' rows' w' C HC Hn Hr Hd Hf H Ex l l'. destruct (loa_lay F E p pi ns s w HC Hn Hr Hd Hf H) as [G (ps & nom & rs & rn & Er & HL & ET & En & Hrs & Hnn)]. cbn [a_iter loa] in Ex.
  assert (Er' : (r_par s : list lrow) = rs ++ [rn]) by exact Er. rewrite Er' in Ex. rewrite Er'. destruct G as [G1 _ _ _ _ _ _ _]. destruct (r_pop s : list lion * list nat) as [h pop]. cbn [fst snd] in *.
  assert (Hnn' : (1 <= lr_f rn + lr_m rn)%Z) by (rewrite <- En in Hnn; exact Hnn). assert (S := iter_settles F E p pi h pop _ _ _ ps nom rs rn _ _ _ _ _ _ _ HC Hr Hd (store_tr E _ _ G1) HL Hrs Hnn' Ex).
  destruct (hp' : list lion * list nat) as [h' pop']. cbv zeta. destruct S as (h3 & h4 & pop4 & rows4 & h6 & (h1 & l1 & h2 & l2 & l3 & R1 & R2 & R3 & R4) & Hk & Hg & Hm & Hsd & Eh & ND & I6 & Ef & Eb).
  exists h1, l1, h2, l2, h3, l3, h4, pop4, rows4, h6. do 5 (split; [assumption|]). split; [rewrite Eh; apply correct_len|].
  split; [intros i Hi; rewrite Eh; apply (correct_at pop' h6 ND I6 i); auto|]. split; [intros i Hi; rewrite Eh; apply (correct_at pop' h6 ND I6 i); auto|]. auto.
Qed.
(** has_improved at the end of an iteration says whether the best value of a lion got better in it, for the lions that are in the population before and after it *)
Theorem C126_improved : forall F E p pi ns s w hp' fit' xb' fxb' rows' w', let C := e_cfg E in cfg_ok C -> no_nan (e_prob E) -> repair_ok E -> 0 < c_dim C -> loa_fit F p ns -> reached E (loa F C p pi) s w ->
  (forall v, v = PInf \/ (exists x, In (x, v) (log_of (c_opt C) (w_h w))) -> v <> NaN -> fleb v (fadd F v (flit F 1 1)) = true) ->
  exec E (a_iter (loa F C p pi) (r_pop s) (r_fit s) (r_xb s) (r_fxb s) (r_par s)) w = (Ret (hp', fit', xb', fxb', rows'), w') ->
  let (h, pop) := (r_pop s : list lion * list nat) in let (h', pop') := (hp' : list lion * list nat) in
  forall i, In i pop -> In i pop' -> l_imp (at_ h' i) = fltb (l_f (at_ h' i)) (l_f (at_ h i)).
Proof.
  intros F E p pi ns s w hp' fit' xb' fxb' rows' w' C HC Hn Hr Hd Hf H Hv Ex. assert (Hp : 0 < lo_n p) by (destruct Hf; lia). assert (P := C123_prev F E p pi s w HC Hn Hr Hp H Hv).
  destruct (loa_lay F E p pi ns s w HC Hn Hr Hd Hf H) as [G (ps & nom & rs & rn & Er & HL & ET & En & Hrs & Hnn)]. cbn [a_iter loa] in Ex.
  assert (Er' : (r_par s : list lrow) = rs ++ [rn]) by exact Er. rewrite Er' in Ex. destruct G as [G1 _ _ _ _ _ _ _]. destruct (r_pop s : list lion * list nat) as [h pop]. cbn [fst snd] in *.
  assert (Hnn' : (1 <= lr_f rn + lr_m rn)%Z) by (rewrite <- En in Hnn; exact Hnn). assert (S := iter_settles F E p pi h pop _ _ _ ps nom rs rn _ _ _ _ _ _ _ HC Hr Hd (store_tr E _ _ G1) HL Hrs Hnn' Ex).
  destruct (hp' : list lion * list nat) as [h' pop']. destruct S as (h3 & h4 & pop4 & rows4 & h6 & _ & [Lk Kk] & (new & ->) & (Lm & M1 & _) & _ & Eh & ND & I6 & _ & _). intros i Hi Hi'.
  assert (Li := Ids_in _ _ _ (la_ids _ _ _ _ _ _ HL) Hi). destruct (correct_at pop' h6 ND I6 i) as [Hc _]. rewrite <- Eh in Hc. rewrite (Hc Hi'). cbn [l_imp l_f]. rewrite <- (P i Hi).
  destruct (M1 i) as (_ & _ & _ & _ & _ & -> & _); [rewrite app_length; lia|]. unfold at_ at 2. rewrite app_nth1 by lia. fold (at_ h3 i). destruct (Kk i) as [_ _ -> _ _]. reflexivity.
Qed.

(** ** Examples *)
Module ExLoa.
  Definition t64 := ExShade.t64.
  Definition C1 := Cfg Minimization 2 [N' (-2); N' (-2)] [N' 2; N' 2] (LFin 400) (LFin 2) NInf.
  Definition E1 := exenv C1 sq.
  Definition p1 := LoaPar 8 (q 1 4) 2 (q 3 4) (q 1 4) (q 1 2) (q 1 4) (q 1 2).
  Definition A := loa t64 C1 p1 (q 22 8).
  Lemma ok1 : cfg_ok C1. Proof. split; [reflexivity|]. split; [reflexivity|]. repeat constructor. Qed.
  Lemma rep1 : repair_ok E1. Proof. exact (clip_ok C1 sq fl8 in7 ok1). Qed.
  (** 8 lions: 2 nomads and two prides of 3, each with 2 females *)
  Lemma fit1 : loa_fit t64 p1 2.
  Proof.
    split; [cbn; lia|vm_compute; reflexivity|cbn; lia|exists 0%Z; vm_compute; reflexivity|]. assert (Q : sizes_of p1 2 = [3; 3]%Z) by (vm_compute; reflexivity). rewrite Q. clear Q.
    intros s [<-|[<-|[]]]; (split; [lia|]); (split; [exists 2%Z, 1%Z|exists 1%Z]); (split; [vm_compute; reflexivity|]); try lia; (split; [lia|]); (split; [vm_compute; reflexivity|lia]).
  Qed.
  Lemma ar1 : arith64 t64. Proof. repeat split. Qed.
  Example hyps : cfg_ok C1 /\ no_nan (e_prob E1) /\ repair_ok E1 /\ 0 < lo_n p1 /\ 0 < c_dim C1 /\ loa_fit t64 p1 2 /\ arith64 t64.
  Proof. split; [exact ok1|]. split; [apply sq_no_nan|]. split; [exact rep1|]. split; [cbn; lia|]. split; [cbn; lia|]. split; [exact fit1|exact ar1]. Qed.
  Example trace1 : trace E1 A 9 =
    (Ret ([16384; 24576], 13312), [[8192; 40960]; [24576; 40960]; [57344; 57344]; [40960; 24576]; [40960;
    8192]; [57344; 8192]; [24576; 24576]; [8192; 57344]; [24576; 40960]; [16384; 40960]; [40960; 24576];
    [40960; 8192]; [57344; 57344]; [57344; 8192]; [38912; 57344]; [26624; 47104]; [52224; 40960]; [21504;
    43008]; [21504; 43008]; [16384; 24576]; [16384; 24576]; [24576; 40960]; [52224; 40960]; [57344; 8192];
    [24576; 40960]; [41984; 57344]; [31744; 18432]; [52224; 40960]; [21504; 22528]])%Z.
  Proof. vm_compute. reflexivity. Qed.
  (** the layouts: number of lions created, population, rows *)
  Definition rows_of (rows : list lrow) := map (fun r => (lr_n r, lr_f r, lr_m r)) rows.
  Example layouts : map (fun k => match state_after E1 A k with Some (s, w) => (length (fst (r_pop s : list lion * list nat)), snd (r_pop s : list lion * list nat), rows_of (r_par s)) | None => (0, [], []) end) [0; 1; 2] =
    [(8, [0; 1; 2; 3; 4; 5; 6; 7], [(3, 2, 1); (3, 2, 1); (2, 0, 2)]%Z); (18, [10; 11; 16; 5; 4; 17; 7; 6], [(3, 2, 1); (3, 2, 1); (2, 0, 2)]%Z); (28, [10; 16; 26; 5; 19; 27; 7; 6], [(3, 2, 1); (3, 2, 1); (2, 0, 2)]%Z)].
  Proof. vm_compute. reflexivity. Qed.
  (** a reached state of binary64 values from which an iteration returns; lion 10 is in the population before and after it *)
  Example steps : exists s w hp' fit' xb' fxb' rows' w', reached E1 A s w /\ (forall x v, In (x, v) (log_of Minimization (w_h w)) -> is64 v) /\ length (fst (r_pop s : list lion * list nat)) = 18 /\
    exec E1 (a_iter A (r_pop s) (r_fit s) (r_xb s) (r_fxb s) (r_par s)) w = (Ret (hp', fit', xb', fxb', rows'), w') /\ In 10 (snd (r_pop s : list lion * list nat)) /\ In 10 (snd (hp' : list lion * list nat)).
  Proof.
    assert (Q : match state_after E1 A 1 with Some (s, w) => (length (fst (r_pop s : list lion * list nat)) =? 18) && forallb (fun a => num_eqb (of_sf (to_sf (snd a))) (snd a)) (log_of Minimization (w_h w)) && existsb (Nat.eqb 10) (snd (r_pop s : list lion * list nat)) &&
      match exec E1 (a_iter A (r_pop s) (r_fit s) (r_xb s) (r_fxb s) (r_par s)) w with (Ret (hp', _, _, _, _), _) => existsb (Nat.eqb 10) (snd (hp' : list lion * list nat)) | _ => false end | None => false end = true) by (vm_compute; reflexivity).
    destruct (state_after E1 A 1) as [[s w]|] eqn:S0; [|discriminate]. assert (Rc := state_reached _ _ _ _ _ S0).
    repeat match goal with H : (_ && _)%bool = true |- _ => apply andb_true_iff in H; destruct H end.
    destruct (exec E1 _ w) as [[[[[[hp' fit'] xb'] fxb'] rows']|] wd'] eqn:Ex; [|discriminate].
    assert (X : forall xs, existsb (Nat.eqb 10) xs = true -> In 10 xs) by (intros xs Hx; apply existsb_exists in Hx; destruct Hx as (y & Hy & Ey); apply Nat.eqb_eq in Ey; subst; exact Hy).
    exists s, w, hp', fit', xb', fxb', rows', wd'. split; [exact Rc|]. split; [|split; [apply Nat.eqb_eq; assumption|split; [exact Ex|split; apply X; assumption]]].
    intros x v Hv. match goal with H : forallb _ _ = true |- _ => rewrite forallb_forall in H; specialize (H _ Hv); apply num_eqb_spec in H; exact H end.
  Qed.
  (** 4 lions, 4 prides and a nomad *)
  Definition p2 := LoaPar 4 (q 1 4) 4 (q 3 4) (q 1 4) (q 1 2) (q 1 4) (q 1 2).
  Example few : py_round (fmul t64 (lo_nomad p2) (fnat t64 (lo_n p2))) = Ret 1%Z /\ (0 <= Z.of_nat (lo_n p2) - 1 < Z.of_nat (lo_prides p2))%Z /\
    exists s w, reached E1 (loa t64 C1 p2 (q 22 8)) s w /\ t_iters (w_ts w) = 0 /\ exists row, In row (removelast (r_par s : list lrow)) /\ lr_n row = 0%Z.
  Proof.
    split; [vm_compute; reflexivity|]. split; [cbn; lia|].
    assert (Q : match state_after E1 (loa t64 C1 p2 (q 22 8)) 0 with Some (s, w) => (t_iters (w_ts w) =? 0) && existsb (fun r => lr_n r =? 0)%Z (removelast (r_par s : list lrow)) | None => false end = true) by (vm_compute; reflexivity).
    destruct (state_after E1 _ 0) as [[s w]|] eqn:S0; [|discriminate]. apply andb_true_iff in Q. destruct Q as [Q1 Q2]. apply Nat.eqb_eq in Q1. apply existsb_exists in Q2. destruct Q2 as (row & H1 & H2). apply Z.eqb_eq in H2.
    exists s, w. split; [exact (state_reached _ _ _ _ _ S0)|]. eauto.
  Qed.
  (** the square but at one point *)
  Definition needle (y : vec) : problem := fun h x => if vec_eqb x y then Ret (N' (-9)) else sq h x.
  Lemma needle_no_nan : forall y, no_nan (needle y).
  Proof. intros y h x v. unfold needle. destruct (vec_eqb x y); [intros E; injection E as <-; discriminate|apply sq_no_nan]. Qed.
  Definition C2 := Cfg Minimization 1 [N' (-2)] [N' 2] (LFin 400) (LFin 1) NInf.
  Lemma ok2 : cfg_ok C2. Proof. split; [reflexivity|]. split; [reflexivity|]. repeat constructor. Qed.
  Definition p3 := LoaPar 6 (q 1 4) 1 (q 1 2) (q 1 1) (q 1 1) (q 1 4) (q 1 2).
  Lemma fit3 : loa_fit t64 p3 2.
  Proof.
    split; [cbn; lia|vm_compute; reflexivity|cbn; lia|exists 1%Z; vm_compute; reflexivity|]. assert (Q : sizes_of p3 2 = [4]%Z) by (vm_compute; reflexivity). rewrite Q. clear Q.
    intros s [<-|[]]. split; [lia|]. split; [exists 2%Z, 1%Z|exists 4%Z]; (split; [vm_compute; reflexivity|]); try lia; (split; [lia|]); (split; [vm_compute; reflexivity|lia]).
  Qed.
  Definition Ek (P : problem) := Env C2 P (clip C2) (fun n => fl8 (n + 2)) (fun n => in7 (n + 2)).
  (** the third point evaluated after the initialization: a place a male of the pride roams to *)
  Definition y3 : vec := fst (nth 8 (rev (run_history (Ek sq) (loa t64 C2 p3 (q 22 8)) 9)) ([], Ret NaN)).
  Definition E3 := Ek (needle y3).
  (** a stream of larger numbers *)
  Definition E4 := Env C1 sq (clip C1) (fun n => fmul b64ops (N' 4) (fl8 n)) in7.
  Definition p4 := LoaPar 8 (q 1 4) 2 (q 3 4) (q 1 4) (q 1 1) (q 0 4) (q 1 2).
  Lemma fit4 : loa_fit t64 p4 2.
  Proof.
    split; [cbn; lia|vm_compute; reflexivity|cbn; lia|exists 0%Z; vm_compute; reflexivity|]. assert (Q : sizes_of p4 2 = [3; 3]%Z) by (vm_compute; reflexivity). rewrite Q. clear Q.
    intros s [<-|[<-|[]]]; (split; [lia|]); (split; [exists 2%Z, 1%Z|exists 1%Z]); (split; [vm_compute; reflexivity|]); try lia; (split; [lia|]); (split; [vm_compute; reflexivity|lia]).
  Qed.
  (** no nomads, no mating *)
  Definition p5 := LoaPar 6 (q 0 4) 1 (q 1 2) (q 1 4) (q 0 2) (q 1 4) (q 1 8).
  (** prides without females *)
  Definition p6 := LoaPar 8 (q 1 4) 2 (q 0 4) (q 1 4) (q 1 2) (q 1 4) (q 1 2).
End ExLoa.

(** The claim that a run returns the best point evaluated is false: a male that found it and roamed on is expelled and removed *)
Theorem C122_lost_refuted : exists F E p pi ns, let C := e_cfg E in arith64 F /\ cfg_ok C /\ no_nan (e_prob E) /\ repair_ok E /\ 0 < c_dim C /\ loa_fit F p ns /\
  (exists x v w ev y u, run_body E (loa F C p pi) (fun _ => None) 9 (World (task_init C) [] 0) = (Ret (x, v), w, ev) /\ In (y, Ret u) (w_h w) /\ better (c_opt C) u v = true) /\ ~ best_run_x loa_error E (loa F C p pi).
Proof.
  exists ExLoa.t64, ExLoa.E3, ExLoa.p3, (q 22 8), 2%Z. cbv zeta. split; [exact ExLoa.ar1|]. split; [exact ExLoa.ok2|]. split; [apply ExLoa.needle_no_nan|]. split; [exact (clip_ok ExLoa.C2 _ _ _ ExLoa.ok2)|]. split; [cbn; lia|]. split; [exact ExLoa.fit3|].
  apply run_lost_best. vm_compute. reflexivity.
Qed.
(** The claim that the current position of every lion lies within the bounds is false: the one of a cub is not repaired *)
Theorem C123_outside_refuted : exists F E p pi ns s w i, let C := e_cfg E in arith64 F /\ cfg_ok C /\ no_nan (e_prob E) /\ repair_ok E /\ 0 < c_dim C /\ loa_fit F p ns /\ reached E (loa F C p pi) s w /\
  In i (snd (r_pop s : list lion * list nat)) /\ fltb (nth 0 (l_cx (at_ (fst (r_pop s : list lion * list nat)) i)) NaN) (nth 0 (c_lower C) NaN) = true.
Proof.
  assert (Q : match state_after ExLoa.E4 (loa ExLoa.t64 ExLoa.C1 ExLoa.p4 (q 22 8)) 1 with Some (s, w) => existsb (Nat.eqb 9) (snd (r_pop s : list lion * list nat)) && fltb (nth 0 (l_cx (at_ (fst (r_pop s : list lion * list nat)) 9)) NaN) (nth 0 (c_lower ExLoa.C1) NaN) | None => false end = true) by (vm_compute; reflexivity).
  destruct (state_after ExLoa.E4 _ 1) as [[s w]|] eqn:S0; [|discriminate]. apply andb_true_iff in Q. destruct Q as [Q1 Q2]. apply existsb_exists in Q1. destruct Q1 as (i & H1 & H2). apply Nat.eqb_eq in H2. subst i.
  exists ExLoa.t64, ExLoa.E4, ExLoa.p4, (q 22 8), 2%Z, s, w, 9. cbv zeta. split; [exact ExLoa.ar1|]. split; [exact ExLoa.ok1|]. split; [apply sq_no_nan|]. split; [exact (clip_ok ExLoa.C1 _ _ _ ExLoa.ok1)|]. split; [cbn; lia|]. split; [exact ExLoa.fit4|].
  split; [exact (state_reached _ _ _ _ _ S0)|]. auto.
Qed.
(** The claim that the population keeps its size whatever the share of nomads is false: without nomads population[-0:] is all of it *)
Theorem C124_double_refuted : exists F E p pi s w, let C := e_cfg E in arith64 F /\ cfg_ok C /\ no_nan (e_prob E) /\ repair_ok E /\ 0 < c_dim C /\ reached E (loa F C p pi) s w /\ length (snd (r_pop s : list lion * list nat)) = 2 * lo_n p /\ 0 < lo_n p.
Proof.
  assert (Q : match state_after ExLoa.E1 (loa ExLoa.t64 ExLoa.C1 ExLoa.p5 (q 22 8)) 1 with Some (s, w) => length (snd (r_pop s : list lion * list nat)) =? 12 | None => false end = true) by (vm_compute; reflexivity).
  destruct (state_after ExLoa.E1 _ 1) as [[s w]|] eqn:S0; [|discriminate]. apply Nat.eqb_eq in Q.
  exists ExLoa.t64, ExLoa.E1, ExLoa.p5, (q 22 8), s, w. cbv zeta. split; [exact ExLoa.ar1|]. split; [exact ExLoa.ok1|]. split; [apply sq_no_nan|]. split; [exact ExLoa.rep1|]. split; [cbn; lia|]. split; [exact (state_reached _ _ _ _ _ S0)|]. split; [exact Q|cbn; lia].
Qed.
(** The claim that a run with lions in every pride and nomads returns is false: a pride needs females *)
Theorem C125_females_refuted : exists F E p pi ns, let C := e_cfg E in arith64 F /\ cfg_ok C /\ no_nan (e_prob E) /\ repair_ok E /\ 0 < c_dim C /\ py_round (fmul F (lo_nomad p) (fnat F (lo_n p))) = Ret ns /\ (1 <= ns)%Z /\ (forall s, In s (sizes_of p ns) -> 1 <= s)%Z /\
  exists w ev, run_body E (loa F C p pi) (fun _ => None) 9 (World (task_init C) [] 0) = (Raise EIndex, w, ev).
Proof.
  exists ExLoa.t64, ExLoa.E1, ExLoa.p6, (q 22 8), 2%Z. cbv zeta. split; [exact ExLoa.ar1|]. split; [exact ExLoa.ok1|]. split; [apply sq_no_nan|]. split; [exact ExLoa.rep1|]. split; [cbn; lia|]. split; [vm_compute; reflexivity|]. split; [lia|].
  split. { assert (Q : sizes_of ExLoa.p6 2 = [3; 3]%Z) by (vm_compute; reflexivity). rewrite Q. intros s [<-|[<-|[]]]; lia. }
  destruct (run_raises (fun _ => False) ExLoa.E1 (loa ExLoa.t64 ExLoa.C1 ExLoa.p6 (q 22 8)) 9 EIndex) as [H1 H2]; [vm_compute; reflexivity|discriminate|auto|]. exact H1.
Qed.

Print Assumptions C122_sound.
Print Assumptions C122_fit.
Print Assumptions C123_lions.
Print Assumptions C123_kept.
Print Assumptions C123_prev.
Print Assumptions C123_prev64.
Print Assumptions C124_prides.
Print Assumptions C125_empty.
Print Assumptions C125_few.
Print Assumptions C126_step.
Print Assumptions C126_improved.
Print Assumptions C122_lost_refuted.
Print Assumptions C123_outside_refuted.
Print Assumptions C124_double_refuted.
Print Assumptions C125_females_refuted.
