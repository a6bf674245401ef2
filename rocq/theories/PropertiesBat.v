(** Final theorems about the bat algorithms (C39; the variants are C64-C66). *)
From Coq Require Import ZArith Lia Bool List.
From Verif Require Import Num Task TaskSpec TaskProofs TaskProofs2 Prog Wp GetBest Run RunSpec RunProofs RunProofs2
  AlgoLib Fops AlgTac StepSpec StepLib AlgDE DESpec AlgDEProofs AlgBat AlgBatProofs B64 ExLib.
Import ListNotations.

(** ** C39: BatAlgorithm *)
Theorem C39_ba : forall F E p, let C := e_cfg E in
  cfg_ok C -> no_nan (e_prob E) -> repair_ok E -> 0 < ba_n p ->
  best_run E (ba F C p) /\ sizes_ok (fun k => k = ba_n p) E (ba F C p) /\ steps_ok no_worse_fit E (ba F C p).
Proof.
  intros F E p C HC Hn Hr Hp.
  apply (bat_like_intro (fun _ => False) E (ba_n p) num (fun _ => True)); auto.
  intros pop fit xb fxb par l HI. unfold ba_iter. apply wp_bind. apply w_view. intros v. cbv zeta.
  apply w_bat_iter; auto. apply ba_parts; auto. destruct par as [vs t]. exists t. exact HI.
Qed.

(** ** C64: HybridBatAlgorithm: it works with the strategies that take the best individual and raises
    TypeError with the others *)
Theorem C64_hba : forall F E p s w cr, let C := e_cfg E in
  cfg_ok C -> no_nan (e_prob E) -> repair_ok E -> 0 < ba_n p -> 0 < c_dim C -> uses_best s ->
  best_run E (hba F C p s w cr) /\ sizes_ok (fun k => k = ba_n p) E (hba F C p s w cr) /\ steps_ok no_worse_fit E (hba F C p s w cr).
Proof.
  intros F E p s w cr C HC Hn Hr Hp Hd Hs.
  apply (bat_like_intro (fun _ => False) E (ba_n p) num (fun _ => True)); auto.
  intros pop fit xb fxb par l HI. unfold ba_iter. apply wp_bind. apply w_view. intros v. cbv zeta.
  apply w_bat_iter; auto. apply hba_parts; auto. left. destruct s; try contradiction; reflexivity.
  destruct par as [vs t]. exists t. exact HI.
Qed.
(** with any strategy: the only possible exception of the algorithm is that TypeError *)
Theorem C64_hba_type : forall F E p s w cr, let C := e_cfg E in
  cfg_ok C -> no_nan (e_prob E) -> repair_ok E -> 0 < ba_n p -> 0 < c_dim C ->
  best_run_x (fun e => e = EType) E (hba F C p s w cr).
Proof.
  intros F E p s w cr C HC Hn Hr Hp Hd.
  refine (proj1 (bat_like_intro (fun e => e = EType) E (ba_n p) num (fun _ => True) _ _ _ _ _ _ _ _)); auto.
  intros pop fit xb fxb par l HI. unfold ba_iter. apply wp_bind. apply w_view. intros v. cbv zeta.
  apply w_bat_iter; auto. apply hba_parts; auto. destruct par as [vs t]. exists t. exact HI.
Qed.

(** ** C65: AdaptiveBatAlgorithm, SelfAdaptiveBatAlgorithm, HybridSelfAdaptiveBatAlgorithm *)
Theorem C65_aba : forall F E p, let C := e_cfg E in
  cfg_ok C -> no_nan (e_prob E) -> repair_ok E -> 0 < aba_n p ->
  best_run E (aba F C p) /\ sizes_ok (fun k => k = aba_n p) E (aba F C p) /\ steps_ok no_worse_fit E (aba F C p).
Proof.
  intros F E p C HC Hn Hr Hp.
  apply (bat_like_intro (fun _ => False) E (aba_n p) (list num) (fun t => length t = aba_n p)); auto. apply repeat_length.
  intros pop fit xb fxb [vs t] l HI. unfold aba_iter. apply w_bat_iter; auto. apply aba_parts; auto. eauto.
  destruct HI as [g0 H]. exact (bk_t _ _ _ _ _ _ H).
Qed.
Theorem C65_saba : forall F E p, let C := e_cfg E in let n := aba_n (sb_aba p) in
  cfg_ok C -> no_nan (e_prob E) -> repair_ok E -> 0 < n ->
  best_run E (saba F C p) /\ sizes_ok (fun k => k = n) E (saba F C p) /\ steps_ok no_worse_fit E (saba F C p).
Proof.
  intros F E p C n HC Hn Hr Hp.
  apply (bat_like_intro (fun _ => False) E n _ (two_len n)); auto. split; apply repeat_length.
  intros pop fit xb fxb [vs t] l HI. unfold saba_iter. apply w_bat_iter; auto. apply saba_parts; auto.
  intros. apply aba_local_ok; auto. eauto. destruct HI as [g0 H]. exact (bk_t _ _ _ _ _ _ H).
Qed.
Theorem C65_hsaba : forall F E p s w cr, let C := e_cfg E in let n := aba_n (sb_aba p) in
  cfg_ok C -> no_nan (e_prob E) -> repair_ok E -> 0 < n -> 0 < c_dim C ->
  best_run E (hsaba F C p s w cr) /\ sizes_ok (fun k => k = n) E (hsaba F C p s w cr) /\ steps_ok no_worse_fit E (hsaba F C p s w cr).
Proof.
  intros F E p s w cr C n HC Hn Hr Hp Hd.
  apply (bat_like_intro (fun _ => False) E n _ (two_len n)); auto. split; apply repeat_length.
  intros pop fit xb fxb [vs t] l HI. unfold saba_iter. apply w_bat_iter; auto. apply saba_parts; auto.
  intros. eapply w_cross_repair; eauto. eauto. destruct HI as [g0 H]. exact (bk_t _ _ _ _ _ _ H).
Qed.

(** ** C66: ParameterFreeBatAlgorithm *)
Theorem C66_plba : forall F E n, let C := e_cfg E in
  cfg_ok C -> no_nan (e_prob E) -> repair_ok E -> 0 < n -> 0 < c_dim C ->
  best_run E (plba F C n) /\ sizes_ok (fun k => k = n) E (plba F C n) /\ steps_ok no_worse_fit E (plba F C n).
Proof.
  intros F E n C HC Hn Hr Hp Hd.
  apply (bat_like_intro (fun _ => False) E n _ (fun _ => True)); auto.
  intros pop fit xb fxb [vs t] l HI. unfold plba_iter. apply w_bat_iter; auto. apply plba_parts; auto. eauto.
Qed.

(** ** One bat, formula by formula.

    Bat i at xi with velocity vi: the new velocity is vi + (xi - best) fr; with one draw u the
    candidate is either a point [near] the best or xi + velocity, repaired and evaluated; it replaces
    the bat iff it is at least as good and the second draw passes [acc]; it replaces the best iff it
    is at least as good.  [adapted] relates the parameters before and after adaptation, [bumped] those
    before and after a new best. *)
Definition bat_moved {T} (F : fops) (E : env) (adapted bumped : T -> T -> Prop) (freq : num -> Prop)
  (local : T -> num -> bool) (near : T -> vec -> Prop) (acc : T -> num -> bool)
  (i : nat) (s s' : bats T) (l l' : list (vec * num)) : Prop :=
  let d := c_dim (e_cfg E) in
  exists t fr xi vi fi v u u' x y f,
    adapted (b_t s) t /\ freq fr /\
    nth_error (b_pop s) i = Some xi /\ nth_error (b_v s) i = Some vi /\ nth_error (b_fit s) i = Some fi /\
    comps d v (fun j c => c = fadd F (nth j vi NaN) (fmul F (fsub F (nth j xi NaN) (nth j (b_xb s) NaN)) fr)) /\
    in_unit u /\ in_unit u' /\
    (local t u = true -> near t x) /\
    (local t u = false -> comps d x (fun j c => c = fadd F (nth j xi NaN) (nth j v NaN))) /\
    repaired E x y /\ evaluated y f l l' /\
    row_set (b_v s) (b_v s') i v /\
    (if fleb f fi && acc t u' then row_set (b_pop s) (b_pop s') i y /\ row_set (b_fit s) (b_fit s') i f
     else b_pop s' = b_pop s /\ b_fit s' = b_fit s) /\
    (if fleb f (b_fxb s) then b_xb s' = y /\ b_fxb s' = f /\ bumped t (b_t s')
     else b_xb s' = b_xb s /\ b_fxb s' = b_fxb s /\ b_t s' = t).

(** the arrays of the state have the dimension of the problem *)
Definition bat_dims {T} (d : nat) (s : bats T) : Prop :=
  Forall (fun x => length x = d) (b_pop s) /\ Forall (fun x => length x = d) (b_v s) /\ length (b_xb s) = d.

Lemma bat_step_moved : forall T F E adapt freq local ls accept updf (s : bats T) i wd s' wd'
  (Ad Bu : T -> T -> Prop) (Fr : num -> Prop) lo (Ne : T -> vec -> Prop) ac, let C := e_cfg E in
  bat_dims (c_dim C) s -> i < length (b_pop s) ->
  (forall l (Q : T -> elog -> Prop), (forall t, Ad (b_t s) t -> Q t l) -> wp (K_tr E) (adapt (b_t s) i) Q l) ->
  (forall l (Q : num -> elog -> Prop), (forall v, Fr v -> Q v l) -> wp (K_tr E) freq Q l) ->
  (forall t u l (Q : bool -> elog -> Prop), Q (lo t u) l -> wp (K_tr E) (local t i u) Q l) ->
  (forall t l (Q : vec -> elog -> Prop), (forall x y, Ne t x -> repaired E x y -> Q y l) -> wp (K_tr E) (ls (b_pop s) (b_xb s) t i) Q l) ->
  (forall t u l (Q : bool -> elog -> Prop), Q (ac t u) l -> wp (K_tr E) (accept t i u) Q l) ->
  (forall t l (Q : T -> elog -> Prop), (forall t', Bu t t' -> Q t' l) -> wp (K_tr E) (updf t i) Q l) ->
  exec E (bat_step F adapt freq local ls accept updf s i) wd = (Ret s', wd') ->
  bat_moved F E Ad Bu Fr lo Ne ac i s s' (log_of (c_opt C) (w_h wd)) (log_of (c_opt C) (w_h wd')).
Proof.
  intros T F E adapt freq local ls accept updf s i wd s' wd' Ad Bu Fr lo Ne ac C (D1 & D2 & D3) Hi HA HF HL HN HAc HU Ex.
  pattern s', (log_of (c_opt C) (w_h wd')). eapply (tr_sound _ E _ (fun s' l' => bat_moved F E Ad Bu Fr lo Ne ac i s s' (log_of (c_opt C) (w_h wd)) l')); [|exact Ex].
  fold C. set (l := log_of (c_opt C) (w_h wd)). clear Ex s' wd'. unfold bat_step.
  apply wp_bind. apply HA. intros t Ht. apply wp_bind. apply HF. intros fr Hfr.
  apply wp_bind. apply w_nthP_tr. intros xi Exi. apply wp_bind. apply w_nthP_tr. intros vi Evi. cbv zeta.
  assert (Lx : length xi = c_dim C) by exact (Forall_nth _ _ _ _ _ D1 Exi).
  assert (Lv : length vi = c_dim C) by exact (Forall_nth _ _ _ _ _ D2 Evi).
  set (v := vadd F vi (vscaler F (vsub F xi (b_xb s)) fr)). assert (Lv' : length v = c_dim C) by (unfold v; dl).
  assert (Cv : comps (c_dim C) v (fun j c => c = fadd F (nth j vi NaN) (fmul F (fsub F (nth j xi NaN) (nth j (b_xb s) NaN)) fr))).
  { split; auto. intros j Hj. unfold v. nths (c_dim C). reflexivity. }
  apply wp_bind. apply w_setP_tr. intros Rv. apply wp_bind. apply w_random_u. intros u Hu.
  apply wp_bind. apply HL.
  assert (G : forall x y, (lo t u = true -> Ne t x) ->
    (lo t u = false -> comps (c_dim C) x (fun j c => c = fadd F (nth j xi NaN) (nth j v NaN))) -> repaired E x y -> wp (K_tr E)
    (let* f := eval y in let* fi := nthP (b_fit s) i in
     let* acc := (if fleb f fi then let* u' := random in accept t i u' else Done false) in
     let* pop := (if acc : bool then setP (b_pop s) i y else Done (b_pop s)) in
     let* fit := (if acc : bool then setP (b_fit s) i f else Done (b_fit s)) in
     if fleb f (b_fxb s) then let* t' := updf t i in Done (Bats pop fit y f (upd (b_v s) i v) t')
     else Done (Bats pop fit (b_xb s) (b_fxb s) (upd (b_v s) i v) t)) (fun s' l' => bat_moved F E Ad Bu Fr lo Ne ac i s s' l l') l).
  2:{ apply wp_bind. destruct (lo t u) eqn:Elo.
      - apply HN. intros x y Hx Hy. apply (G x y); auto. discriminate.
      - apply w_repair_tr. intros y Hy. apply (G (vadd F xi v) y); auto; [discriminate|]. intros _.
        split; [dl|]. intros j Hj. nths (c_dim C). reflexivity. }
  intros x y Hx1 Hx2 Hy. apply wp_bind. apply w_eval_tr. intros f l' He. apply wp_bind. apply w_nthP_tr. intros fi Efi.
  assert (Fin : forall (a : bool) u' pop fit, in_unit u' -> fleb f fi && ac t u' = a ->
    (if a then row_set (b_pop s) pop i y /\ row_set (b_fit s) fit i f else pop = b_pop s /\ fit = b_fit s) ->
    wp (K_tr E) (if fleb f (b_fxb s) then let* t' := updf t i in Done (Bats pop fit y f (upd (b_v s) i v) t')
     else Done (Bats pop fit (b_xb s) (b_fxb s) (upd (b_v s) i v) t)) (fun s' l' => bat_moved F E Ad Bu Fr lo Ne ac i s s' l l') l').
  { intros a u' pop fit Hu' Ea Ha.
    assert (M : forall s1, b_v s1 = upd (b_v s) i v -> b_pop s1 = pop -> b_fit s1 = fit ->
      (if fleb f (b_fxb s) then b_xb s1 = y /\ b_fxb s1 = f /\ Bu t (b_t s1) else b_xb s1 = b_xb s /\ b_fxb s1 = b_fxb s /\ b_t s1 = t) ->
      bat_moved F E Ad Bu Fr lo Ne ac i s s1 l l').
    { intros s1 M1 M2 M3 M4. exists t, fr, xi, vi, fi, v, u, u', x, y, f. fold C. rewrite M1, M2, M3, Ea. do 13 (split; [assumption|]). split; assumption. }
    destruct (fleb f (b_fxb s)).
    - apply wp_bind. apply HU. intros t' Ht'. apply w_done. apply M; auto.
    - apply w_done. apply M; auto. }
  apply wp_bind. destruct (fleb f fi) eqn:Ef.
  - apply wp_bind. apply w_random_u. intros u' Hu'. apply HAc. destruct (ac t u') eqn:Ea.
    + apply wp_bind. apply w_setP_tr. intros R1. apply wp_bind. apply w_setP_tr. intros R2. apply (Fin true u'); auto. 
    + apply wp_bind. apply w_done. apply wp_bind. apply w_done. apply (Fin false u'); auto. 
  - apply w_done. apply wp_bind. apply w_done. apply wp_bind. apply w_done. apply (Fin false f0); auto. split; reflexivity.
Qed.

(** fmin + (fmax - fmin) r for a draw r from [0,1] *)
Definition between_freq (F : fops) (fmin fmax fr : num) : Prop := exists r, in_unit r /\ fr = fadd F fmin (fmul F (fsub F fmax fmin) r).
Lemma w_between : forall K F fmin fmax l (Q : num -> elog -> Prop), (forall v, between_freq F fmin fmax v -> Q v l) -> wp K (frequency F fmin fmax) Q l.
Proof. intros K F fmin fmax l Q H. unfold frequency. ts. apply H. eexists; split; eauto. Qed.

(** BatAlgorithm: local search (probability rate: when the draw is below it) moves the best by
    0.1 * normal noise * loudness; accepted when the draw exceeds the loudness *)
Theorem C39_bat : forall F E p rate s i wd s' wd', let C := e_cfg E in
  bat_dims (c_dim C) s -> i < length (b_pop s) ->
  exec E (bat_step F (fun t _ => Done t) (frequency F (ba_fmin p) (ba_fmax p)) (fun _ _ u => Done (fltb u rate))
       (ba_local F C) (fun t _ u => Done (fltb t u)) (fun t _ => Done t) s i) wd = (Ret s', wd') ->
  bat_moved F E eq eq (between_freq F (ba_fmin p) (ba_fmax p)) (fun _ u => fltb u rate)
    (fun loud x => exists z, comps (c_dim C) x (fun j c =>
       c = fadd F (nth j (b_xb s) NaN) (fmul F (fmul F (flit F 1 10) (nth j z NaN)) loud)))
    (fun loud u => fltb loud u) i s s' (log_of (c_opt C) (w_h wd)) (log_of (c_opt C) (w_h wd')).
Proof.
  intros F E p rate s i wd s' wd' C HD Hi Ex. assert (D3 := proj2 (proj2 HD)).
  eapply bat_step_moved; try exact Ex; try assumption; intros.
  - ts; auto.
  - apply w_between; auto.
  - ts; auto.
  - unfold ba_local. ts. eapply H; eauto. exists v. fold C. split; [dl|]. intros j Hj. nths (c_dim C). reflexivity.
  - ts; auto.
  - ts; auto.
Qed.
(** the loudness used in an iteration is the previous one times alpha, the pulse rate is
    pulse (1 - exp(-gamma iters)): the iteration is the loop over the bats with these numbers *)
Theorem C39_rates : forall F p ls pop fit xb fxb vs loud, 
  ba_iter F p ls pop fit xb fxb (vs, loud) =
  let* v := view in
  let rate := fmul F (ba_pulse p) (fsub F (flit F 1 1) (fexp F (fmul F (fneg (ba_gamma p)) (fnat F (v_iters v))))) in
  bat_iter (ba_n p) (bat_step F (fun t _ => Done t) (frequency F (ba_fmin p) (ba_fmax p)) (fun _ _ u => Done (fltb u rate))
       ls (fun t _ u => Done (fltb t u)) (fun t _ => Done t)) pop fit xb fxb (vs, fmul F loud (ba_alpha p)).
Proof. reflexivity. Qed.

(** HybridBatAlgorithm: local search is the DE crossover of bat i with the best *)
Theorem C64_bat : forall F E p s0 w cr rate s i wd s' wd', let C := e_cfg E in
  bat_dims (c_dim C) s -> i < length (b_pop s) -> 0 < c_dim C ->
  exec E (bat_step F (fun t _ => Done t) (frequency F (ba_fmin p) (ba_fmax p)) (fun _ _ u => Done (fltb u rate))
       (hba_local F s0 w cr) (fun t _ u => Done (fltb t u)) (fun t _ => Done t) s i) wd = (Ret s', wd') ->
  bat_moved F E eq eq (between_freq F (ba_fmin p) (ba_fmax p)) (fun _ u => fltb u rate)
    (fun _ x => uses_best s0 /\ crossed F s0 w cr (b_pop s) i (b_xb s) x)
    (fun loud u => fltb loud u) i s s' (log_of (c_opt C) (w_h wd)) (log_of (c_opt C) (w_h wd')).
Proof.
  intros F E p s0 w cr rate s i wd s' wd' C HD Hi Hd Ex. destruct HD as (D1 & D2 & D3).
  eapply bat_step_moved; try exact Ex; try assumption; intros.
  - split; auto.
  - ts; auto.
  - apply w_between; auto.
  - ts; auto.
  - unfold hba_local. destruct (uses_best_b s0) eqn:U; [|simpl; auto]. apply wp_bind.
    apply (w_cross _ F _ _ _ _ _ _ (c_dim C)); auto. intros x Lx Hx. ts. eapply H; eauto. split; auto.
    destruct s0; simpl in *; auto; discriminate.
  - ts; auto.
  - ts; auto.
Qed.

(** AdaptiveBatAlgorithm: every bat has its own loudness; local search when the draw exceeds the pulse
    rate: best + (epsilon loudness) * noise; accepted when the draw is below the loudness; a new
    best multiplies the loudness by alpha, or resets it when the product is not above 1e-13 *)
Theorem C65_aba_bat : forall F E p s i wd s' wd', let C := e_cfg E in
  bat_dims (c_dim C) s -> i < length (b_pop s) -> length (b_t s) = length (b_pop s) ->
  exec E (bat_step F (fun t _ => Done t) (frequency F (aba_fmin p) (aba_fmax p)) (fun _ _ u => Done (fltb (aba_pulse p) u))
       (fun _ best t i => let* a := nthP t i in aba_local F C (aba_eps p) best a)
       (fun t i u => let* a := nthP t i in Done (fltb u a))
       (fun t i => let* a := nthP t i in setP t i (aba_update F p a)) s i) wd = (Ret s', wd') ->
  bat_moved F E eq
    (fun t t' => exists b, row_set t t' i b /\
       let a := fmul F (nth i t NaN) (aba_alpha p) in b = if fltb (flit F 1 10000000000000) a then a else aba_loud p)
    (between_freq F (aba_fmin p) (aba_fmax p)) (fun _ u => fltb (aba_pulse p) u)
    (fun t x => exists z, comps (c_dim C) x (fun j c =>
       c = fadd F (nth j (b_xb s) NaN) (fmul F (fmul F (aba_eps p) (nth i t NaN)) (nth j z NaN))))
    (fun t u => fltb u (nth i t NaN)) i s s' (log_of (c_opt C) (w_h wd)) (log_of (c_opt C) (w_h wd')).
Proof.
  intros F E p s i wd s' wd' C HD Hi HT Ex. assert (D3 := proj2 (proj2 HD)).
  assert (NT : nthP (b_t s) i = Done (nth i (b_t s) NaN)).
  { unfold nthP. rewrite (nth_error_nth' (b_t s) NaN) by lia. reflexivity. }
  assert (St : forall t, t = b_t s -> nthP t i = Done (nth i t NaN)) by (intros; subst; auto).
  (* the parameters stay those of s until the best changes *)
  assert (G : bat_moved F E (fun t t' => t = t' /\ t' = b_t s)
    (fun t t' => exists b, row_set t t' i b /\
       let a := fmul F (nth i t NaN) (aba_alpha p) in b = if fltb (flit F 1 10000000000000) a then a else aba_loud p)
    (between_freq F (aba_fmin p) (aba_fmax p)) (fun _ u => fltb (aba_pulse p) u)
    (fun t x => exists z, comps (c_dim C) x (fun j c =>
       c = fadd F (nth j (b_xb s) NaN) (fmul F (fmul F (aba_eps p) (nth i t NaN)) (nth j z NaN))))
    (fun t u => fltb u (nth i t NaN)) i s s' (log_of (c_opt C) (w_h wd)) (log_of (c_opt C) (w_h wd'))).
  { eapply bat_step_moved; try exact Ex; try assumption; intros.
    - ts; auto.
    - apply w_between; auto.
    - ts; auto.
    - apply wp_bind. apply w_nthP_tr. intros a Ea. unfold aba_local. ts. eapply H; eauto. exists v. fold C. split; [dl|]. intros j Hj.
      nths (c_dim C). rewrite (nth_error_nth _ _ NaN Ea). reflexivity.
    - apply wp_bind. apply w_nthP_tr. intros a Ea. rewrite (nth_error_nth _ _ NaN Ea) in H. ts; auto.
    - apply wp_bind. apply w_nthP_tr. intros a Ea. ts. apply H. eexists. split; [eassumption|]. rewrite (nth_error_nth _ _ NaN Ea). reflexivity. }
  destruct G as (t & fr & xi & vi & fi & v & u & u' & x & y & f & (Ht & _) & G). exists t, fr, xi, vi, fi, v, u, u', x, y, f. split; assumption.
Qed.

(** SelfAdaptiveBatAlgorithm: first the loudness and then the pulse rate of bat i are, with
    probability tao1 and tao2, drawn afresh from their ranges *)
Definition redrawn (F : fops) (tao lo hi old new : num) : Prop :=
  exists c r, in_unit c /\ in_unit r /\ new = if fltb c tao then fadd F lo (fmul F r (fsub F hi lo)) else old.
Lemma w_redrawn : forall K F tao lo hi old l (Q : num -> elog -> Prop), (forall v, redrawn F tao lo hi old v -> Q v l) -> wp K (self_adapt1 F tao lo hi old) Q l.
Proof.
  intros K F tao lo hi old l Q H. unfold self_adapt1. apply wp_bind. apply w_random_u. intros c Hc. destruct (fltb c tao) eqn:Ec.
  - ts. apply H. exists c, r. rewrite Ec. auto.
  - ts. apply H. exists c, c. rewrite Ec. auto.
Qed.
Definition saba_adapted (F : fops) (p : saba_par) (i : nat) (t t' : list num * list num) : Prop :=
  (exists a, redrawn F (sb_tao1 p) (sb_lmin p) (sb_lmax p) (nth i (fst t) NaN) a /\ row_set (fst t) (fst t') i a) /\
  (exists r, redrawn F (sb_tao2 p) (sb_rmin p) (sb_rmax p) (nth i (snd t) NaN) r /\ row_set (snd t) (snd t') i r).
Lemma saba_step_moved : forall F E p (ls : list vec -> vec -> num -> nat -> prog vec) (Ne : list num * list num -> vec -> Prop) s i wd s' wd', let C := e_cfg E in
  bat_dims (c_dim C) s -> i < length (b_pop s) ->
  (forall t a l (Q : vec -> elog -> Prop), nth_error (fst t) i = Some a -> (forall x y, Ne t x -> repaired E x y -> Q y l) ->
     wp (K_tr E) (ls (b_pop s) (b_xb s) a i) Q l) ->
  exec E (bat_step F (self_adapt F p) (frequency F (aba_fmin (sb_aba p)) (aba_fmax (sb_aba p)))
       (fun t i u => let* r := nthP (snd t) i in Done (fltb r u))
       (fun pop best t i => let* a := nthP (fst t) i in ls pop best a i)
       (fun t i u => let* a := nthP (fst t) i in Done (fltb u (fdiv F (fsub F (sb_lmin p) a) (aba_loud (sb_aba p)))))
       (fun t _ => Done t) s i) wd = (Ret s', wd') ->
  bat_moved F E (saba_adapted F p i) eq (between_freq F (aba_fmin (sb_aba p)) (aba_fmax (sb_aba p)))
    (fun t u => fltb (nth i (snd t) NaN) u) Ne
    (fun t u => fltb u (fdiv F (fsub F (sb_lmin p) (nth i (fst t) NaN)) (aba_loud (sb_aba p))))
    i s s' (log_of (c_opt C) (w_h wd)) (log_of (c_opt C) (w_h wd')).
Proof.
  intros F E p ls Ne s i wd s' wd' C HD Hi Hls Ex.
  eapply bat_step_moved; try exact Ex; try assumption; intros.
  - unfold self_adapt. apply wp_bind. apply w_nthP_tr. intros a Ea. apply wp_bind. apply w_nthP_tr. intros r Er.
    apply wp_bind. apply w_redrawn. intros a' Ha. apply wp_bind. apply w_redrawn. intros r' Hr. ts. apply H.
    split; eexists; (split; [|eassumption]).
    + rewrite (nth_error_nth _ _ NaN Ea). auto.
    + rewrite (nth_error_nth _ _ NaN Er). auto.
  - apply w_between; auto.
  - apply wp_bind. apply w_nthP_tr. intros a Ea. rewrite (nth_error_nth _ _ NaN Ea) in H. ts; auto.
  - apply wp_bind. apply w_nthP_tr. intros a Ea. eapply Hls; eauto.
  - apply wp_bind. apply w_nthP_tr. intros a Ea. rewrite (nth_error_nth _ _ NaN Ea) in H. ts; auto.
  - ts; auto.
Qed.
Theorem C65_saba_bat : forall F E p s i wd s' wd', let C := e_cfg E in
  bat_dims (c_dim C) s -> i < length (b_pop s) ->
  exec E (bat_step F (self_adapt F p) (frequency F (aba_fmin (sb_aba p)) (aba_fmax (sb_aba p)))
       (fun t i u => let* r := nthP (snd t) i in Done (fltb r u))
       (fun pop best t i => let* a := nthP (fst t) i in aba_local F C (aba_eps (sb_aba p)) best a)
       (fun t i u => let* a := nthP (fst t) i in Done (fltb u (fdiv F (fsub F (sb_lmin p) a) (aba_loud (sb_aba p)))))
       (fun t _ => Done t) s i) wd = (Ret s', wd') ->
  bat_moved F E (saba_adapted F p i) eq (between_freq F (aba_fmin (sb_aba p)) (aba_fmax (sb_aba p)))
    (fun t u => fltb (nth i (snd t) NaN) u)
    (fun t x => exists z, comps (c_dim C) x (fun j c =>
       c = fadd F (nth j (b_xb s) NaN) (fmul F (fmul F (aba_eps (sb_aba p)) (nth i (fst t) NaN)) (nth j z NaN))))
    (fun t u => fltb u (fdiv F (fsub F (sb_lmin p) (nth i (fst t) NaN)) (aba_loud (sb_aba p))))
    i s s' (log_of (c_opt C) (w_h wd)) (log_of (c_opt C) (w_h wd')).
Proof.
  intros F E p s i wd s' wd' C HD Hi Ex. assert (D3 := proj2 (proj2 HD)).
  eapply (saba_step_moved F E p (fun _ best a _ => aba_local F C (aba_eps (sb_aba p)) best a)); eauto.
  intros t a l Q Ea HQ. unfold aba_local. ts. eapply HQ; eauto. exists v. fold C. split; [dl|]. intros j Hj.
  nths (c_dim C). rewrite (nth_error_nth _ _ NaN Ea). reflexivity.
Qed.
Theorem C65_hsaba_bat : forall F E p s0 w cr s i wd s' wd', let C := e_cfg E in
  bat_dims (c_dim C) s -> i < length (b_pop s) -> 0 < c_dim C ->
  exec E (bat_step F (self_adapt F p) (frequency F (aba_fmin (sb_aba p)) (aba_fmax (sb_aba p)))
       (fun t i u => let* r := nthP (snd t) i in Done (fltb r u))
       (fun pop best t i => let* a := nthP (fst t) i in let* x := cross F s0 pop i w cr best in repair x)
       (fun t i u => let* a := nthP (fst t) i in Done (fltb u (fdiv F (fsub F (sb_lmin p) a) (aba_loud (sb_aba p)))))
       (fun t _ => Done t) s i) wd = (Ret s', wd') ->
  bat_moved F E (saba_adapted F p i) eq (between_freq F (aba_fmin (sb_aba p)) (aba_fmax (sb_aba p)))
    (fun t u => fltb (nth i (snd t) NaN) u)
    (fun _ x => crossed F s0 w cr (b_pop s) i (b_xb s) x)
    (fun t u => fltb u (fdiv F (fsub F (sb_lmin p) (nth i (fst t) NaN)) (aba_loud (sb_aba p))))
    i s s' (log_of (c_opt C) (w_h wd)) (log_of (c_opt C) (w_h wd')).
Proof.
  intros F E p s0 w cr s i wd s' wd' C HD Hi Hd Ex.
  eapply (saba_step_moved F E p (fun pop best _ i => let* x := cross F s0 pop i w cr best in repair x)); eauto.
  destruct HD as (D1 & D2 & D3).
  intros t a l Q Ea HQ. apply wp_bind. apply (w_cross _ F _ _ _ _ _ _ (c_dim C)); auto. intros x Lx Hx. ts. eapply HQ; eauto.
Qed.

(** ParameterFreeBatAlgorithm: frequency (upper[0]-lower[0])/n * noise; local search above 0.1: best +
    0.001 noise; accepted below 0.9 *)
Theorem C66_bat : forall F E n (s : bats unit) i wd s' wd', let C := e_cfg E in
  bat_dims (c_dim C) s -> i < length (b_pop s) ->
  exec E (bat_step F (fun t _ => Done t) (plba_freq F C n) (fun _ _ u => Done (fltb (flit F 1 10) u))
       (fun _ best _ _ => plba_local F C best) (fun _ _ u => Done (fltb u (flit F 9 10))) (fun t _ => Done t) s i) wd = (Ret s', wd') ->
  bat_moved F E eq eq
    (fun fr => exists z, fr = fmul F (fdiv F (fsub F (nth 0 (c_upper C) NaN) (nth 0 (c_lower C) NaN)) (fnat F n)) z)
    (fun _ u => fltb (flit F 1 10) u)
    (fun _ x => exists z, comps (c_dim C) x (fun j c => c = fadd F (nth j (b_xb s) NaN) (fmul F (flit F 1 1000) (nth j z NaN))))
    (fun _ u => fltb u (flit F 9 10)) i s s' (log_of (c_opt C) (w_h wd)) (log_of (c_opt C) (w_h wd')).
Proof.
  intros F E n s i wd s' wd' C HD Hi Ex. assert (D3 := proj2 (proj2 HD)).
  eapply bat_step_moved; try exact Ex; try assumption; intros.
  - ts; auto.
  - unfold plba_freq. apply wp_bind. apply w_nthP_tr. intros a Ea. apply wp_bind. apply w_nthP_tr. intros b Eb. ts. apply H. eexists.
    rewrite (nth_error_nth _ _ NaN Ea), (nth_error_nth _ _ NaN Eb). reflexivity.
  - ts; auto.
  - unfold plba_local. ts. eapply H; eauto. exists v. fold C. split; [dl|]. intros j Hj. nths (c_dim C). reflexivity.
  - ts; auto.
  - ts; auto.
Qed.

(** ** The hypotheses are met, and what runs do *)
Module ExBat.
  Definition C := box 2 0 1 (LFin 14).
  Definition E := exenv C lin.
  Definition p := BAPar 2 (q 1 1) (q 1 1) (q 3 4) (q 1 2) (q 0 1) (q 2 1).
  Definition pa := ABAPar 2 (q 1 2) (q 1 8) (q 1 2) (q 1 2) (q 0 1) (q 2 1).
  Definition ps := SABAPar pa (q 7 8) (q 1 1) (q 1 8) (q 1 2) (q 1 2) (q 1 2).
  Example hyps : cfg_ok C /\ 0 < c_dim C /\ no_nan (e_prob E) /\ repair_ok E /\ 0 < ba_n p /\ 0 < aba_n (sb_aba ps).
  Proof.
    split; [apply box_ok; lia|]. split; [simpl; lia|]. split; [apply lin_no_nan|]. split; [apply clip_ok, box_ok; lia|]. simpl; lia.
  Qed.
  Example ba_trace : trace E (ba fxx C p) 9 =
    (Ret ([24576; 24576], 73728), [[8192; 40960]; [24576; 24576]; [28876; 28876]; [27647; 25190]; [26879;
    25958]; [24576; 24576]; [25612; 26303]; [26303; 25612]; [26390; 26390]; [25353; 25871]; [24770; 25547];
    [25936; 25936]; [25013; 25304]; [25304; 25013]])%Z.
  Proof. vm_compute. reflexivity. Qed.
  Example hba_trace : trace E (hba fxx C p Best1 (q 1 2) (q 1 2)) 9 =
    (Ret ([12288; 0], 12288), [[8192; 40960]; [24576; 24576]; [16384; 32768]; [24576; 24576]; [16384; 40960];
    [16384; 24576]; [20480; 16384]; [24576; 8192]; [20480; 16384]; [26624; 4096]; [24576; 8192]; [16384; 0];
    [20480; 8192]; [12288; 0]])%Z.
  Proof. vm_compute. reflexivity. Qed.
  Example aba_trace : trace E (aba fxx C pa) 9 =
    (Ret ([24576; 24576], 73728), [[8192; 40960]; [24576; 24576]; [0; 61440]; [24576; 24576]; [25088; 28160];
    [24576; 24576]; [28160; 25088]; [24704; 25472]; [26112; 26112]; [24704; 25216]; [25088; 28160]; [24960;
    24960]; [28160; 25088]; [24704; 25472]])%Z.
  Proof. vm_compute. reflexivity. Qed.
  Example saba_trace : trace E (saba fxx C ps) 9 =
    (Ret ([24576; 24576], 73728), [[8192; 40960]; [24576; 24576]; [0; 65536]; [31184; 25520]; [31184; 25520];
    [24576; 24576]; [0; 65536]; [31184; 25520]; [31184; 25520]; [24576; 24576]; [0; 65536]; [31184; 25520];
    [31184; 25520]; [24576; 24576]])%Z.
  Proof. vm_compute. reflexivity. Qed.
  Example hsaba_trace : trace E (hsaba fxx C ps Rand1 (q 1 2) (q 1 2)) 9 =
    (Ret ([0; 24576], 49152), [[8192; 40960]; [24576; 24576]; [0; 65536]; [24576; 24576]; [8192; 40960];
    [24576; 24576]; [0; 65536]; [0; 24576]; [8192; 40960]; [65536; 24576]; [24576; 24576]; [32768; 16384]; [0;
    65536]; [8192; 24576]])%Z.
  Proof. vm_compute. reflexivity. Qed.
  Example plba_trace : trace E (plba fxx C 2) 9 =
    (Ret ([24576; 24576], 73728), [[8192; 40960]; [24576; 24576]; [24633; 24633]; [24616; 24584]; [24616;
    24600]; [24633; 24584]; [24616; 24584]; [24600; 24600]; [24633; 24584]; [24616; 24584]; [24616; 24600];
    [24633; 24633]; [24600; 24616]; [24584; 24616]])%Z.
  Proof. vm_compute. reflexivity. Qed.
  (** a state for the theorems about one bat *)
  Definition s0 : bats num := Bats [[q 1 2; q 1 4]; [q 1 1; q 0 1]] [q 1 1; q 1 1] [q 1 1; q 0 1] (q 1 1) [[f0; f0]; [f0; f0]] (q 1 2).
  Example state_ok : bat_dims (c_dim C) s0 /\ 1 < length (b_pop s0).
  Proof. split; [|simpl; lia]. split; [repeat constructor|]. split; [repeat constructor|reflexivity]. Qed.
End ExBat.

(** C64, refuted half: with the strategy rand/1 a run raises TypeError *)
Theorem C64_hba_refuted : exists E p s w cr n, let C := e_cfg E in
  cfg_ok C /\ no_nan (e_prob E) /\ repair_ok E /\ 0 < ba_n p /\ 0 < c_dim C /\
  (exists wd ev, run_body E (hba fxx C p s w cr) (fun _ => None) n (World (task_init C) [] 0) = (Raise EType, wd, ev)) /\
  ~ best_run E (hba fxx C p s w cr).
Proof.
  exists ExBat.E, ExBat.p, Rand1, (q 1 2), (q 1 2), 9. cbv zeta.
  destruct ExBat.hyps as (H1 & H2 & H3 & H4 & H5 & _).
  split; [exact H1|]. split; [exact H3|]. split; [exact H4|]. split; [exact H5|]. split; [exact H2|].
  apply (run_raises (fun _ => False)); [vm_compute; reflexivity|discriminate|exact (fun x => x)].
Qed.

Print Assumptions C39_ba.
Print Assumptions C39_bat.
Print Assumptions C39_rates.
Print Assumptions C64_hba.
Print Assumptions C64_hba_type.
Print Assumptions C64_bat.
Print Assumptions C64_hba_refuted.
Print Assumptions C65_aba.
Print Assumptions C65_saba.
Print Assumptions C65_hsaba.
Print Assumptions C65_aba_bat.
Print Assumptions C65_saba_bat.
Print Assumptions C65_hsaba_bat.
Print Assumptions C66_plba.
Print Assumptions C66_bat.
